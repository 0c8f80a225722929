(** Lemmas: over any history, which triples the products of a session use. *)
From Coq Require Import String.
From Verif Require Import Util S_Ring S_Tensor S_Bil S_Spdz M_Torch M_Tensor M_Share M_Spdz M_Store S_Store L_StoreKey L_Store.
Local Open Scope list_scope.

Definition kkey : Type := kind * (list nat * list nat).
Definition keyof (g : treq) : kkey := (kind_of (fst g), snd g).
Definition kkey_dec (x y : kkey) : {x = y} + {x <> y}.
Proof. repeat decide equality. Defined.

Lemma same_request_key (k k' : kkey) :
  same_request (fst k) (fst k') (fst (snd k)) (fst (snd k')) (snd (snd k)) (snd (snd k')) = if kkey_dec k k' then true else false.
Proof.
  destruct k as [k [a b]], k' as [k' [a' b']]; cbn [fst snd].
  destruct (kkey_dec _ _) as [E|N].
  - injection E as -> -> ->. apply same_request_refl.
  - destruct (same_request _ _ _ _ _ _) eqn:S; auto. apply same_request_spec in S as [-> [-> ->]]. congruence.
Qed.

Definition ent (P : Type) : Type := (nat * treq) * list P.
Definition upd {B} (pend : kkey -> B) (k : kkey) (v : B) : kkey -> B := fun k' => if kkey_dec k' k then v else pend k'.

Lemma upd_same {B} (pend : kkey -> B) k v : upd pend k v k = v.
Proof. unfold upd. destruct (kkey_dec k k); congruence. Qed.
Lemma upd_other {B} (pend : kkey -> B) k v k' : k' <> k -> upd pend k v k' = pend k'.
Proof. unfold upd. destruct (kkey_dec k' k); congruence. Qed.

Record winv {P} (n : nat) (Src : nat -> treq -> list P -> Prop) (Q : treq -> Prop) (U : list nat)
  (pend : kkey -> list (ent P)) (w : tworld P) : Prop := {
  wi_holds : forall k, holds n (w_stores w) (fst k) (fst (snd k)) (snd (snd k)) (map snd (pend k));
  wi_ents : forall k e, In e (pend k) -> Src (fst (fst e)) (snd (fst e)) (snd e) /\ keyof (snd (fst e)) = k /\ Q (snd (fst e));
  wi_ids : ids_ok (w_calls w) U (fun k => map (fun e => fst (fst e)) (pend k)) }.

Lemma winv_start {P} n (Src : nat -> treq -> list P -> Prop) Q : winv n Src Q [] (fun _ => []) (empty_world [] n).
Proof.
  constructor.
  - intros k. apply holds_empty.
  - intros k e [].
  - apply ids_start.
Qed.

Lemma winv_gen {P} n (gen : nat -> treq -> result (list (list P))) (Src : nat -> treq -> list P -> Prop) (Q : treq -> Prop) U pend w op a b :
  (0 < n)%nat -> one_each n gen -> (forall i g ts, from_call gen i g ts -> Src i g ts) -> winv n Src Q U pend w -> Q (op, (a, b)) ->
  (exists e, gen_call gen op a b w = (Err e, mkW (w_stores w) (w_logging w) (w_log w) (S (w_calls w))) /\
     gen (w_calls w) (op, (a, b)) = Err e /\
     winv n Src Q U pend (snd (gen_call gen op a b w))) \/
  (exists ts, length ts = n /\ from_call gen (w_calls w) (op, (a, b)) ts /\ fst (gen_call gen op a b w) = Ok (map (fun t => [t]) ts) /\
     w_logging (snd (gen_call gen op a b w)) = w_logging w /\
     w_log (snd (gen_call gen op a b w)) = logged (w_logging w) (w_log w) (op, (a, b)) /\
     winv n Src Q U (upd pend (keyof (op, (a, b))) (pend (keyof (op, (a, b))) ++ [((w_calls w, (op, (a, b))), ts)]))
       (snd (gen_call gen op a b w))).
Proof.
  intros Hn HG HS [WH WE WI] HQ.
  assert (HL : length (w_stores w) = n) by (eapply holds_len, (WH (KMul, ([], [])))).
  destruct (gen (w_calls w) (op, (a, b))) as [rows|e] eqn:Eg.
  - right. destruct (one_each_rows n gen _ _ rows HG Eg) as [ts [-> Ht]]. exists ts.
    pose proof (gen_call_ok n gen op a b w ts Hn HL Eg Ht) as Ec. rewrite Ec. cbn [fst snd].
    split; [exact Ht|]. split; [exact Eg|]. split; [reflexivity|]. split; [reflexivity|]. split; [reflexivity|].
    constructor.
    + intros k. cbn [w_stores]. pose proof (holds_add n (w_stores w) (kind_of op) a b (fst k) (fst (snd k)) (snd (snd k)) _ ts Ht (WH k)) as H.
      pose proof (same_request_key k (keyof (op, (a, b)))) as SK.
      change (same_request (fst k) (kind_of op) (fst (snd k)) a (snd (snd k)) b = if kkey_dec k (keyof (op, (a, b))) then true else false) in SK.
      rewrite SK in H. destruct (kkey_dec k (keyof (op, (a, b)))) as [->|N].
      * rewrite upd_same, map_app. exact H.
      * rewrite upd_other by exact N. rewrite app_nil_r in H. exact H.
    + intros k e H. destruct (kkey_dec k (keyof (op, (a, b)))) as [->|N].
      * rewrite upd_same in H. apply in_app_or in H as [H|[<-|[]]]; [apply (WE _ _ H)|]. cbn. split; [apply HS, Eg|]. auto.
      * rewrite upd_other in H by exact N. apply (WE _ _ H).
    + cbn [w_calls]. eapply ids_push with (k := keyof (op, (a, b))); [exact WI| | |intros; apply kkey_dec].
      * intros k' N. cbn beta. rewrite upd_other by exact N. reflexivity.
      * left. cbn beta. rewrite upd_same, map_app. reflexivity.
  - left. exists e. pose proof (gen_call_err gen op a b w e Eg) as Ec. rewrite Ec. cbn [snd].
    split; [reflexivity|]. split; [reflexivity|]. constructor; auto.
    cbn [w_calls]. eapply ids_push with (k := keyof (op, (a, b))); [exact WI| | |intros; apply kkey_dec]; auto.
Qed.

Lemma winv_ext {P} n (Src : nat -> treq -> list P -> Prop) Q U pend pend' w :
  (forall k, pend k = pend' k) -> winv n Src Q U pend w -> winv n Src Q U pend' w.
Proof.
  intros E [WH WE [NU [LU [NP [LP DP]]]]]. constructor.
  - intros k. rewrite <- E. apply WH.
  - intros k e H. rewrite <- E in H. apply WE, H.
  - split; [exact NU|]. split; [exact LU|]. split; [|split].
    + intros k. rewrite <- E. apply NP.
    + intros k i H. rewrite <- E in H. apply (LP k i H).
    + intros k k' i H H'. rewrite <- E in H, H'. apply (DP k k' i H H').
Qed.

(** popping the first entry of a key at all parties *)
Lemma winv_pop {P} n (Src : nat -> treq -> list P -> Prop) Q U pend w pa pb op e L :
  winv n Src Q U pend w -> pend (keyof (op, (dims pa, dims pb))) = e :: L ->
  fst (get_all (kind_of op) pa pb true (w_stores w)) = Ok (snd e) /\
  winv n Src Q (U ++ [fst (fst e)]) (upd pend (keyof (op, (dims pa, dims pb))) L)
    (mkW (snd (get_all (kind_of op) pa pb true (w_stores w))) (w_logging w) (w_log w) (w_calls w)).
Proof.
  intros [WH WE WI] E. set (kk := keyof (op, (dims pa, dims pb))) in *.
  split.
  { eapply get_all_cons. pose proof (WH kk) as H. rewrite E in H. exact H. }
  constructor.
  - intros k. cbn [w_stores].
    pose proof (holds_pop n (w_stores w) (kind_of op) pa pb (fst k) (fst (snd k)) (snd (snd k)) _ (WH k)) as H.
    pose proof (same_request_key k kk) as SK.
    change (same_request (fst k) (kind_of op) (fst (snd k)) (dims pa) (snd (snd k)) (dims pb) = if kkey_dec k kk then true else false) in SK.
    rewrite SK in H.
    destruct (kkey_dec k kk) as [->|N].
    + rewrite upd_same. rewrite E in H. exact H.
    + rewrite upd_other by exact N. exact H.
  - intros k e' H. destruct (kkey_dec k kk) as [->|N].
    + rewrite upd_same in H. apply WE. rewrite E. right. exact H.
    + rewrite upd_other in H by exact N. apply WE. exact H.
  - cbn [w_calls]. eapply ids_pop with (k := kk); [exact WI| | | |intros; apply kkey_dec].
    + cbn beta. rewrite E. reflexivity.
    + cbn beta. rewrite upd_same. reflexivity.
    + intros k' N. cbn beta. rewrite upd_other by exact N. reflexivity.
Qed.

Lemma take_eq {P} gen op a b (w : tworld P) : take gen op a b w =
  let finish masks (w : tworld P) :=
    let r := get_all (kind_of op) (PTuple a) (PTuple b) true (w_stores w) in
    (do ts <- fst r; Ok (masks, ts), mkW (snd r) (w_logging w) (w_log w) (w_calls w)) in
  match fst (get_all (kind_of op) (PSize a) (PSize b) false (w_stores w)) with
  | Ok masks => finish masks w
  | Err EmptyPrimitiveStore =>
      match gen_call gen op a b w with
      | (Err e, w') => (Err e, w')
      | (Ok _, w') => match fst (get_all (kind_of op) (PSize a) (PSize b) false (w_stores w')) with
                      | Ok masks => finish masks w' | Err e => (Err e, w') end
      end
  | Err e => (Err e, w)
  end.
Proof.
  unfold take, gen_call. cbn zeta.
  destruct (fst (get_all (kind_of op) (PSize a) (PSize b) false (w_stores w))) as [m|e].
  - destruct (get_all _ _ _ true _); reflexivity.
  - destruct e; try reflexivity.
Qed.

(** one product: it takes the oldest pending triple of its key, or makes one *)
Lemma take_step {P} n (gen : nat -> treq -> result (list (list P))) (Src : nat -> treq -> list P -> Prop) (Q : treq -> Prop) U pend w op a b :
  (0 < n)%nat -> one_each n gen -> (forall i g ts, from_call gen i g ts -> Src i g ts) -> winv n Src Q U pend w -> Q (op, (a, b)) ->
  let kk := keyof (op, (a, b)) in
  let r := take gen op a b w in
  match pend kk with
  | e :: L => fst r = Ok (snd e, snd e) /\ winv n Src Q (U ++ [fst (fst e)]) (upd pend kk L) (snd r) /\
              w_log (snd r) = w_log w /\ w_logging (snd r) = w_logging w
  | [] => (exists e, fst r = Err e /\ gen (w_calls w) (op, (a, b)) = Err e /\ winv n Src Q U pend (snd r)) \/
          (exists ts, fst r = Ok (ts, ts) /\ from_call gen (w_calls w) (op, (a, b)) ts /\ length ts = n /\
             winv n Src Q (U ++ [w_calls w]) (upd pend kk []) (snd r) /\
             w_log (snd r) = logged (w_logging w) (w_log w) (op, (a, b)) /\ w_logging (snd r) = w_logging w)
  end.
Proof.
  intros Hn HG HS HW HQ kk r. unfold r. rewrite take_eq. cbn zeta.
  assert (Peek : forall pend w e L, winv n Src Q U pend w -> pend kk = e :: L ->
            fst (get_all (kind_of op) (PSize a) (PSize b) false (w_stores w)) = Ok (snd e)).
  { intros pend' w' e L HW' E. eapply get_all_cons. pose proof (wi_holds _ _ _ _ _ _ HW' kk) as H. rewrite E in H. exact H. }
  destruct (pend kk) as [|e L] eqn:E.
  - assert (P0 : fst (get_all (kind_of op) (PSize a) (PSize b) false (w_stores w)) = Err EmptyPrimitiveStore).
    { eapply get_all_nil; [exact Hn|]. pose proof (wi_holds _ _ _ _ _ _ HW kk) as H. rewrite E in H. exact H. }
    rewrite P0. destruct (winv_gen n gen Src Q U pend w op a b Hn HG HS HW HQ) as [[e [Ec [Eg HW']]]|[ts [Ht [Fc [Ec [Elg [El HW']]]]]]].
    + left. exists e. rewrite Ec in *. cbn [fst snd] in *. auto.
    + right. exists ts. fold kk in HW'. rewrite E in HW'. cbn [app] in HW'.
      destruct (gen_call gen op a b w) as [rr w'] eqn:Egc. cbn [fst snd] in *. subst rr.
      set (pend' := upd pend kk [(w_calls w, (op, (a, b)), ts)]) in *.
      assert (E' : pend' kk = [(w_calls w, (op, (a, b)), ts)]) by apply upd_same.
      rewrite (Peek _ _ _ _ HW' E').
      destruct (winv_pop n Src Q U pend' w' (PTuple a) (PTuple b) op _ _ HW' E') as [G HW''].
      cbn [dims] in *. rewrite G. cbn [fst snd rbind] in *. split; [reflexivity|]. split; [exact Fc|].
      split; [exact Ht|]. split; [|split; auto].
      eapply winv_ext; [|exact HW'']. intros k. unfold pend', upd. fold kk. destruct (kkey_dec k kk); reflexivity.
  - rewrite (Peek _ _ _ _ HW E).
    destruct (winv_pop n Src Q U pend w (PTuple a) (PTuple b) op _ _ HW E) as [G HW''].
    cbn [dims] in *. rewrite G. cbn [fst snd rbind w_log w_logging] in *. auto.
Qed.

Lemma ids_nodup {Key} calls U (pend : Key -> list nat) : ids_ok calls U pend -> NoDup U.
Proof. intros H. apply H. Qed.

(** the whole history *)
Lemma wev_history {P} n (gen : nat -> treq -> result (list (list P))) (Src : nat -> treq -> list P -> Prop) (Q : treq -> Prop) h :
  (0 < n)%nat -> one_each n gen -> (forall i g ts, from_call gen i g ts -> Src i g ts) -> forall U pend w, winv n Src Q U pend w -> (forall e, In e h -> Q (wev_req e)) ->
  exists ids pend', winv n Src Q (U ++ ids) pend' (snd (wev_run gen h w)) /\
    Forall2 (fun i s => fst (snd s) = snd (snd s) /\ length (snd (snd s)) = n /\ exists g, Q g /\ like g (fst s) /\ Src i g (snd (snd s)))
      ids (served (products h) (fst (wev_run gen h w))) /\
    Forall2 (fun q r => forall e, r = Err e -> exists i, gen i q = Err e) (products h) (fst (wev_run gen h w)).
Proof.
  intros Hn HG HS. induction h as [|e h IH]; intros U pend w HW HQ; cbn [wev_run].
  - exists [], pend. cbn. rewrite app_nil_r. split; [exact HW|]. split; constructor.
  - assert (Hq : Q (wev_req e)) by (apply HQ; left; reflexivity).
    assert (HQ' : forall e, In e h -> Q (wev_req e)) by (intros; apply HQ; right; auto).
    destruct e as [op a b|op a b]; cbn [wev_step wev_req] in *.
    + assert (X : exists pend', winv n Src Q U pend' (preload gen op a b w)).
      { destruct (winv_gen n gen Src Q U pend w op a b Hn HG HS HW Hq) as [[e [_ [_ H]]]|[ts [_ [_ [_ [_ [_ H]]]]]]]; eauto. }
      destruct X as [pend1 HW1]. destruct (IH U pend1 _ HW1 HQ') as [ids [pend' [A [B C]]]].
      destruct (wev_run gen h (preload gen op a b w)) as [os w2] eqn:Er. cbn [fst snd app] in *.
      exists ids, pend'. auto.
    + pose proof (take_step n gen Src Q U pend w op a b Hn HG HS HW Hq) as T. cbn zeta in T.
      assert (Step : (exists e, fst (take gen op a b w) = Err e /\ (exists i, gen i (op, (a, b)) = Err e) /\ exists pend1, winv n Src Q U pend1 (snd (take gen op a b w))) \/
                (exists i g ts pend1, fst (take gen op a b w) = Ok (ts, ts) /\ length ts = n /\ Q g /\ like g (op, (a, b)) /\ Src i g ts /\
                   winv n Src Q (U ++ [i]) pend1 (snd (take gen op a b w)))).
      { destruct (pend (keyof (op, (a, b)))) as [|e L] eqn:E.
        - destruct T as [[e [T1 [T2 T3]]]|[ts [T1 [T2 [T2' [T3 _]]]]]].
          + left. exists e. split; [exact T1|]. split; eauto.
          + right. exists (w_calls w), (op, (a, b)), ts. eexists.
            split; [exact T1|]. split; [exact T2'|]. split; [exact Hq|]. split; [split; reflexivity|]. split; [apply HS, T2|exact T3].
        - destruct T as [T1 [T2 _]]. right.
          assert (Hin : In e (pend (keyof (op, (a, b))))) by (rewrite E; left; reflexivity).
          destruct (wi_ents _ _ _ _ _ _ HW _ _ Hin) as [F1 [F2 F3]].
          exists (fst (fst e)), (snd (fst e)), (snd e). eexists.
          split; [exact T1|]. split.
          { pose proof (wi_holds _ _ _ _ _ _ HW (keyof (op, (a, b)))) as [_ [HF _]]. rewrite E in HF.
            inversion HF; auto. }
          split; [exact F3|]. split; [unfold keyof in F2; injection F2 as F2 F2'; split; cbn [fst snd]; auto|]. split; [exact F1|exact T2]. }
      destruct (take gen op a b w) as [r w1] eqn:Et. cbn [fst snd] in *. clear T.
      destruct Step as [[e [-> [He [pend1 HW1]]]]|[i [g [ts [pend1 [-> [Hl [HQg [Hlk [Hf HW1]]]]]]]]]].
      * destruct (IH U pend1 w1 HW1 HQ') as [ids [pend' [A [B C]]]].
        destruct (wev_run gen h w1) as [os w2] eqn:Er. cbn [fst snd app] in *.
        exists ids, pend'. split; [exact A|]. split; [exact B|]. cbn [products flat_map app].
        constructor; [intros e' E'; injection E' as ->; exact He|exact C].
      * destruct (IH (U ++ [i]) pend1 w1 HW1 HQ') as [ids [pend' [A [B C]]]].
        destruct (wev_run gen h w1) as [os w2] eqn:Er. cbn [fst snd app] in *.
        exists (i :: ids), pend'. rewrite <- app_assoc in A. split; [exact A|]. cbn [products flat_map app wev_req].
        split; [|constructor; [discriminate|exact C]].
        unfold served. cbn [combine flat_map snd fst app]. constructor; [|exact B].
        cbn [fst snd]. split; [reflexivity|]. split; [exact Hl|]. exists g. auto.
Qed.
