(** Lemmas on the stores of triples. *)
From Coq Require Import String.
From Verif Require Import Util S_Ring S_Tensor S_Bil S_Spdz M_Torch M_Tensor M_Share M_Spdz M_Store S_Store L_StoreKey.
Local Open Scope list_scope.

Lemma dget_dset {V} (d : list (string * V)) k v k' :
  dget (dset d k v) k' = if string_dec k' k then Some v else dget d k'.
Proof.
  induction d as [|[k0 v0] d IH]; cbn [dset dget].
  - reflexivity.
  - destruct (string_dec k k0) as [->|N]; cbn [dget].
    + destruct (string_dec k' k0); reflexivity.
    + rewrite IH. destruct (string_dec k' k0) as [->|]; [|reflexivity].
      destruct (string_dec k0 k); congruence.
Qed.

Lemma same_request_spec k k' a a' b b' :
  same_request k k' a a' b b' = true <-> k = k' /\ a = a' /\ b = b'.
Proof.
  unfold same_request. destruct (kind_eq_dec k k'), (list_eq_dec Nat.eq_dec a a'), (list_eq_dec Nat.eq_dec b b');
    (split; [intros H; try discriminate H; auto | intros [A [B C]]; congruence]).
Qed.
Lemma same_request_refl k a b : same_request k k a a b b = true.
Proof. apply same_request_spec. auto. Qed.

Lemma config_key_dec k k' a a' b b' :
  (if string_dec (config_key k (PTuple a) (PTuple b)) (config_key k' (PTuple a') (PTuple b')) then true else false)
  = same_request k k' a a' b b'.
Proof.
  destruct (string_dec _ _) as [E|N].
  - apply config_key_inj in E as [-> [-> ->]]. symmetry. apply same_request_refl.
  - destruct (same_request k k' a a' b b') eqn:E; auto. apply same_request_spec in E as [-> [-> ->]]. congruence.
Qed.

Lemma queue_dset {P} k a b k' a' b' (st : store P) q :
  queue k a b (dset st (config_key k' (PTuple a') (PTuple b')) q) =
  if same_request k k' a a' b b' then q else queue k a b st.
Proof.
  unfold queue. rewrite dget_dset, <- config_key_dec.
  destruct (string_dec _ _); reflexivity.
Qed.

Lemma queue_add {P} k a b k' a' b' (st : store P) ps :
  queue k a b (store_add k' st ps (PTuple a', PTuple b')) =
  queue k a b st ++ (if same_request k k' a a' b b' then ps else []).
Proof.
  unfold store_add; cbn [fst snd].
  set (key := config_key k' (PTuple a') (PTuple b')).
  destruct (dget st key) as [q|] eqn:E; unfold key in *; rewrite queue_dset;
    destruct (same_request k k' a a' b b') eqn:S; try (rewrite app_nil_r; reflexivity);
    apply same_request_spec in S as [-> [-> ->]]; unfold queue; rewrite E; reflexivity.
Qed.

Lemma get_result {P} k a b (st : store P) r :
  fst (store_get k st a b r) = match queue k (dims a) (dims b) st with [] => Err EmptyPrimitiveStore | p :: _ => Ok p end.
Proof. unfold store_get, queue. destruct (dget st _) as [[|p q]|]; reflexivity. Qed.

Lemma queue_get {P} k a b k' a' b' (st : store P) r :
  queue k a b (snd (store_get k' st a' b' r)) =
  if (r && same_request k k' a (dims a') b (dims b'))%bool then tl (queue k a b st) else queue k a b st.
Proof.
  unfold store_get. set (key := config_key k' _ _). destruct (dget st key) as [[|p q]|] eqn:E; cbn [snd].
  - destruct r; cbn [andb]; auto. destruct (same_request _ _ _ _ _ _) eqn:S; auto.
    apply same_request_spec in S as [-> [-> ->]]. unfold queue. fold key. rewrite E. reflexivity.
  - destruct r; cbn [andb]; auto. unfold key. rewrite queue_dset.
    destruct (same_request _ _ _ _ _ _) eqn:S; auto.
    apply same_request_spec in S as [-> [-> ->]]. unfold queue. fold key. rewrite E. reflexivity.
  - destruct r; cbn [andb]; auto. destruct (same_request _ _ _ _ _ _) eqn:S; auto.
    apply same_request_spec in S as [-> [-> ->]]. unfold queue. fold key. rewrite E. reflexivity.
Qed.

(** what has been handed out and what is left is what was there and what was added *)
Lemma sev_queue {P} k a b (h : list (sev P)) : forall st, adds_tuples h ->
  handed k a b h (fst (sev_run h st)) ++ queue k a b (snd (sev_run h st)) = queue k a b st ++ added k a b h.
Proof.
  induction h as [|e h IH]; intros st T; cbn [sev_run].
  - cbn. rewrite app_nil_r. reflexivity.
  - inversion T as [|? ? T1 T2]; subst.
    destruct e as [k' a' b' ps | k' a' b' r]; cbn [sev_step].
    + destruct T1 as [Ea Eb]. specialize (IH (store_add k' st ps (a', b')) T2).
      destruct (sev_run h _) as [os st2]. cbn [fst snd] in *.
      unfold handed in *; cbn [combine flat_map app] in *. rewrite IH.
      cbn [added flat_map]. rewrite Ea, Eb, queue_add, <- app_assoc. cbn [dims]. reflexivity.
    + specialize (IH (snd (store_get k' st a' b' r)) T2).
      pose proof (get_result k' a' b' st r) as G. pose proof (queue_get k a b k' a' b' st r) as Q.
      destruct (store_get k' st a' b' r) as [p st1]. cbn [fst snd] in *.
      destruct (sev_run h st1) as [os st2]. cbn [fst snd] in *.
      unfold handed in *; cbn [combine flat_map] in *. rewrite <- app_assoc, IH. cbn [added flat_map app].
      rewrite Q. destruct r; cbn [andb app] in *; [|reflexivity].
      destruct (same_request k k' a (dims a') b (dims b')) eqn:S.
      * apply same_request_spec in S as [-> [-> ->]]. rewrite G.
        destruct (queue k' (dims a') (dims b') st); reflexivity.
      * destruct p; reflexivity.
Qed.

Lemma sev_run_app {P} (h h' : list (sev P)) : forall st,
  sev_run (h ++ h') st = (fst (sev_run h st) ++ fst (sev_run h' (snd (sev_run h st))), snd (sev_run h' (snd (sev_run h st)))).
Proof.
  induction h as [|e h IH]; intros st; cbn [app sev_run].
  - cbn. destruct (sev_run h' st); reflexivity.
  - destruct (sev_step e st) as [o st1]. rewrite IH. destruct (sev_run h st1) as [os st2]; reflexivity.
Qed.

Lemma store_history {P} (h : list (sev P)) k a b : adds_tuples h ->
  let run := sev_run h [] in
  exists left, handed k (dims a) (dims b) h (fst run) ++ left = added k (dims a) (dims b) h /\
    forall remove, fst (store_get k (snd run) a b remove) =
      match left with [] => Err EmptyPrimitiveStore | p :: _ => Ok p end.
Proof.
  intros T. cbn zeta. exists (queue k (dims a) (dims b) (snd (sev_run h []))). split.
  - rewrite (sev_queue k (dims a) (dims b) h [] T). reflexivity.
  - intros r. apply get_result.
Qed.

(* ------------------------------------------------------------------ several parties *)
Lemma rseq_ok_iff {A} (l : list (result A)) ys : rseq l = Ok ys <-> l = map Ok ys.
Proof.
  revert ys; induction l as [|[a|e] l IH]; intros ys; cbn.
  - split; [intros H; inversion H; reflexivity|]. destruct ys; [reflexivity|discriminate].
  - destruct (rseq l) as [bs|e] eqn:E.
    + pose proof (proj1 (IH bs) eq_refl) as ->. split.
      * intros H; inversion H; subst. reflexivity.
      * intros H. destruct ys; [discriminate|]. cbn in H. injection H as -> H.
        f_equal. f_equal. clear -H. revert ys H. induction bs as [|b bs IH]; intros [|y ys] H; cbn in H; try discriminate; auto.
        injection H as -> H. f_equal. auto.
    + split; [discriminate|]. intros H. destruct ys as [|y ys]; [discriminate|]. cbn in H. injection H as -> H.
      apply IH in H. discriminate.
  - split; [discriminate|]. destruct ys; discriminate.
Qed.

(** the stores hold, under the key (k, a, b), the columns of [L] *)
Definition holds {P} (n : nat) (sts : list (store P)) (k : kind) (a b : list nat) (L : list (list P)) : Prop :=
  length sts = n /\ Forall (fun ts => length ts = n) L /\
  forall j st, nth_error sts j = Some st -> map Some (queue k a b st) = map (fun ts => nth_error ts j) L.

Lemma nth_error_ext {A} (l l' : list A) : (forall j, nth_error l j = nth_error l' j) -> l = l'.
Proof.
  revert l'; induction l as [|x l IH]; intros [|y l'] H; auto.
  - specialize (H 0%nat); discriminate.
  - specialize (H 0%nat); discriminate.
  - pose proof (H 0%nat) as H0. cbn in H0. injection H0 as ->. f_equal. apply IH. intros j. apply (H (S j)).
Qed.

Lemma get_all_cons {P} n (sts : list (store P)) k pa pb ts L r : 
  holds n sts k (dims pa) (dims pb) (ts :: L) -> fst (get_all k pa pb r sts) = Ok ts.
Proof.
  intros [Hn [HL Hq]]. unfold get_all. cbn [fst]. apply rseq_ok_iff. inversion HL as [|? ? Lt _]; subst.
  apply nth_error_ext. intros j. rewrite map_map, !nth_error_map.
  destruct (nth_error sts j) as [st|] eqn:E; cbn.
  - rewrite get_result. specialize (Hq j st E). cbn in Hq.
    destruct (queue k (dims pa) (dims pb) st) as [|p q]; cbn in Hq; [discriminate|].
    injection Hq as Hq _. rewrite <- Hq. reflexivity.
  - apply nth_error_None in E. rewrite <- Lt in E. apply nth_error_None in E. rewrite E. reflexivity.
Qed.

Lemma get_all_nil {P} n (sts : list (store P)) k pa pb r : (0 < n)%nat ->
  holds n sts k (dims pa) (dims pb) [] -> fst (get_all k pa pb r sts) = Err EmptyPrimitiveStore.
Proof.
  intros Hn [HL [_ Hq]]. unfold get_all. cbn [fst]. destruct sts as [|st sts]; [cbn in HL; lia|].
  cbn. rewrite get_result. specialize (Hq 0%nat st eq_refl). cbn in Hq.
  destruct (queue k (dims pa) (dims pb) st); [reflexivity|discriminate].
Qed.

Lemma get_all_peek {P} k pa pb (sts : list (store P)) : snd (get_all k pa pb false sts) = sts.
Proof.
  unfold get_all. cbn [snd]. rewrite map_map. rewrite <- (map_id sts) at 2. apply map_ext. intros st.
  unfold store_get. destruct (dget st _) as [[|p q]|]; reflexivity.
Qed.

Lemma holds_pop {P} n (sts : list (store P)) k pa pb k' a' b' L :
  holds n sts k' a' b' L ->
  holds n (snd (get_all k pa pb true sts)) k' a' b'
    (if same_request k' k a' (dims pa) b' (dims pb) then tl L else L).
Proof.
  intros [Hn [HL Hq]]. unfold get_all. cbn [snd]. split; [rewrite !map_length; exact Hn|]. split.
  - destruct (same_request _ _ _ _ _ _); auto. destruct HL; cbn; auto.
  - intros j st Hj. rewrite map_map in Hj. rewrite nth_error_map in Hj.
    destruct (nth_error sts j) as [st0|] eqn:E; [|discriminate]. cbn in Hj. injection Hj as <-.
    rewrite queue_get. cbn [andb]. specialize (Hq j st0 E).
    destruct (same_request _ _ _ _ _ _); auto.
    destruct (queue k' a' b' st0), L; cbn in *; congruence.
Qed.

Lemma holds_add {P} n (sts : list (store P)) k a b k' a' b' L ts :
  length ts = n -> holds n sts k' a' b' L ->
  holds n (map2 (fun st x => store_add k st x (PTuple a, PTuple b)) sts (map (fun t => [t]) ts)) k' a' b'
    (L ++ if same_request k' k a' a b' b then [ts] else []).
Proof.
  intros Ht [Hn [HL Hq]]. split.
  - apply map2_length_eq; [exact Hn|rewrite map_length; exact Ht].
  - split.
    + apply Forall_app. split; auto. destruct (same_request _ _ _ _ _ _); auto.
    + intros j st Hj. rewrite map2_map_r in Hj.
      destruct (nth_error sts j) as [st0|] eqn:E.
      * destruct (nth_error ts j) as [t|] eqn:Et.
        -- assert (Hj' : nth_error (map2 (fun st0 t => store_add k st0 [t] (PTuple a, PTuple b)) sts ts) j
                         = Some (store_add k st0 [t] (PTuple a, PTuple b))).
           { clear -E Et. revert sts ts E Et. induction j; intros [|s sts] [|u ts] E Et; cbn in *; try discriminate.
             - congruence. - auto. }
           rewrite Hj' in Hj. injection Hj as <-.
           rewrite queue_add, !map_app, (Hq j st0 E).
           destruct (same_request _ _ _ _ _ _); cbn; rewrite ?Et; reflexivity.
        -- apply nth_error_None in Et. assert (nth_error sts j <> None) by congruence.
           apply nth_error_Some in H. lia.
      * exfalso. assert (X : nth_error (map2 (fun st0 t => store_add k st0 [t] (PTuple a, PTuple b)) sts ts) j <> None) by congruence.
        apply nth_error_Some in X. rewrite map2_length in X. apply nth_error_None in E. lia.
Qed.

Lemma holds_empty {P} n k a b : holds (P := P) n (repeat [] n) k a b [].
Proof.
  split; [apply repeat_length|]. split; [constructor|]. intros j st H. apply nth_error_In in H.
  apply repeat_spec in H. subst. reflexivity.
Qed.

Lemma holds_len {P} n (sts : list (store P)) k a b L : holds n sts k a b L -> length sts = n.
Proof. intros [H _]. exact H. Qed.

(* ------------------------------------------------------------------ generating *)
Lemma beaver_gens_get {P} (gen : nat -> treq -> result (list (list P))) k : dget (beaver_gens gen) (op_key k) = Some gen.
Proof. destruct k; reflexivity. Qed.
Lemma beaver_adders_get {P} k : dget (@beaver_adders P) (op_key k) = Some (store_add k).
Proof. destruct k; reflexivity. Qed.

Lemma one_each_rows {P} n (gen : nat -> treq -> result (list (list P))) i g rows : one_each n gen -> gen i g = Ok rows ->
  exists ts, rows = map (fun t => [t]) ts /\ length ts = n.
Proof.
  intros H E. destruct (H i g rows E) as [HL HF]. clear -HL HF.
  assert (X : exists ts, rows = map (fun t => [t]) ts).
  { clear HL. induction HF as [|r rows Hr _ [ts ->]]; [exists []; reflexivity|].
    destruct r as [|t [|? ?]]; try discriminate Hr. exists (t :: ts). reflexivity. }
  destruct X as [ts ->]. rewrite map_length in HL. exists ts. auto.
Qed.

(** one call of the provider *)
Definition gen_call {P} (gen : nat -> treq -> result (list (list P))) (op : bop) (a b : list nat) (w : tworld P) :=
  generate_primitives (beaver_gens gen) beaver_adders (op_key (kind_of op)) (op, (a, b)) (Some (PTuple a, PTuple b)) w.

Definition logged (on : bool) (log : list (string * list (option (pyshape * pyshape) * treq))) (g : treq) :=
  if on then log_add log (op_key (kind_of (fst g))) (Some (PTuple (fst (snd g)), PTuple (snd (snd g))), g) else log.

Lemma gen_call_ok {P} n gen op a b (w : tworld P) ts : (0 < n)%nat -> length (w_stores w) = n ->
  gen (w_calls w) (op, (a, b)) = Ok (map (fun t => [t]) ts) -> length ts = n ->
  gen_call gen op a b w = (Ok (map (fun t => [t]) ts),
    mkW (map2 (fun st x => store_add (kind_of op) st x (PTuple a, PTuple b)) (w_stores w) (map (fun t => [t]) ts))
        (w_logging w) (logged (w_logging w) (w_log w) (op, (a, b))) (S (w_calls w))).
Proof.
  intros Hn HL Hg Ht. unfold gen_call, generate_primitives. rewrite beaver_gens_get, Hg.
  unfold transfer. rewrite map_length, Ht, HL, Nat.eqb_refl. cbn [negb].
  rewrite beaver_adders_get. destruct (w_stores w) eqn:E; [cbn in HL; lia|]. reflexivity.
Qed.

Lemma gen_call_err {P} gen op a b (w : tworld P) e : gen (w_calls w) (op, (a, b)) = Err e ->
  gen_call gen op a b w = (Err e, mkW (w_stores w) (w_logging w) (w_log w) (S (w_calls w))).
Proof. intros H. unfold gen_call, generate_primitives. rewrite beaver_gens_get, H. reflexivity. Qed.

(* ------------------------------------------------------------------ call numbers *)
(** numbers in use: those handed out [U] and those pending under each key, all different and
    smaller than the next one *)
Definition ids_ok {Key} (calls : nat) (U : list nat) (pend : Key -> list nat) : Prop :=
  NoDup U /\ (forall i, In i U -> i < calls)%nat /\
  (forall k, NoDup (pend k)) /\ (forall k i, In i (pend k) -> (i < calls)%nat /\ ~ In i U) /\
  (forall k k' i, In i (pend k) -> In i (pend k') -> k = k').

Lemma ids_start {Key} : ids_ok (Key := Key) 0 [] (fun _ => []).
Proof. repeat split; try constructor; cbn; intros; contradiction. Qed.

(** a further call whose number is put under the key [k] or dropped *)
Lemma ids_push {Key} calls U (pend pend' : Key -> list nat) k : ids_ok calls U pend ->
  (forall k', k' <> k -> pend' k' = pend k') -> (pend' k = pend k ++ [calls] \/ pend' k = [calls] \/ pend' k = pend k) ->
  (forall k', {k' = k} + {k' <> k}) ->
  ids_ok (S calls) U pend'.
Proof.
  intros [NU [LU [NP [LP DP]]]] Ho Hk dec.
  assert (HI : forall k' i, In i (pend' k') -> In i (pend k') \/ (k' = k /\ i = calls)).
  { intros k' i H. destruct (dec k') as [->|N].
    - destruct Hk as [E|[E|E]]; rewrite E in H; auto.
      + apply in_app_or in H as [H|[<-|[]]]; auto.
      + destruct H as [<-|[]]; auto.
    - rewrite Ho in H by exact N. auto. }
  split; [exact NU|]. split; [intros i H; apply LU in H; lia|]. split.
  - intros k'. destruct (dec k') as [->|N].
    + destruct Hk as [E|[E|E]]; rewrite E; auto.
      * rewrite <- (rev_involutive (pend k ++ [calls])). apply NoDup_rev.
        rewrite rev_app_distr. cbn. constructor.
        -- intros H. apply in_rev in H. apply LP in H. lia.
        -- apply NoDup_rev, NP.
      * constructor; [intros []|constructor].
    + rewrite Ho by exact N. apply NP.
  - split.
    + intros k' i H. destruct (HI k' i H) as [H'|[-> ->]].
      * destruct (LP k' i H'). split; [lia|auto].
      * split; [lia|]. intros HU. apply LU in HU. lia.
    + intros k1 k2 i H1 H2. destruct (HI k1 i H1) as [A|[A1 A2]], (HI k2 i H2) as [B|[B1 B2]].
      * eapply DP; eauto.
      * apply LP in A. lia.
      * apply LP in B. lia.
      * congruence.
Qed.

(** the first number under [k] is handed out *)
Lemma ids_pop {Key} calls U (pend pend' : Key -> list nat) k i r : ids_ok calls U pend ->
  pend k = i :: r -> pend' k = r -> (forall k', k' <> k -> pend' k' = pend k') ->
  (forall k', {k' = k} + {k' <> k}) ->
  ids_ok calls (U ++ [i]) pend'.
Proof.
  intros [NU [LU [NP [LP DP]]]] E E' Ho dec.
  assert (Hi : In i (pend k)) by (rewrite E; left; reflexivity).
  assert (HI : forall k' j, In j (pend' k') -> In j (pend k')).
  { intros k' j H. destruct (dec k') as [->|N]; [rewrite E, E' in *; right; exact H|rewrite Ho in H by exact N; exact H]. }
  split.
  { rewrite <- (rev_involutive (U ++ [i])). apply NoDup_rev. rewrite rev_app_distr. cbn. constructor.
    - intros H. apply in_rev in H. apply (proj2 (LP k i Hi)). exact H.
    - apply NoDup_rev, NU. }
  split.
  { intros j H. apply in_app_or in H as [H|[<-|[]]]; [auto|apply (LP k i Hi)]. }
  split.
  { intros k'. destruct (dec k') as [->|N].
    - rewrite E'. specialize (NP k). rewrite E in NP. inversion NP; auto.
    - rewrite Ho by exact N. apply NP. }
  split.
  { intros k' j H. split; [apply (LP k' j), HI, H|]. intros HU. apply in_app_or in HU as [HU|[<-|[]]].
    - exact (proj2 (LP k' j (HI k' j H)) HU).
    - assert (k' = k) by (eapply DP; [apply HI, H|exact Hi]). subst k'. rewrite E' in H.
      specialize (NP k). rewrite E in NP. inversion NP; auto. }
  intros k1 k2 j H1 H2. eapply DP; eauto.
Qed.
