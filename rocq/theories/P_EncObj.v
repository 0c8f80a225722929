(** C85: encoder objects whose base and precision are assigned; C86: the sessions of a process. *)
From Coq Require Import QArith Qabs.
From Verif Require Import Util M_Torch M_Encoder L_Encoder M_EncObj M_Session.
Local Open Scope Z_scope.

(* ------------------------------------------------------------------ C85 *)
(** [v] is the last value [f] finds in the list, or [d] if it finds none *)
Definition last_of {A B} (f : A -> option B) (l : list A) (d v : B) : Prop :=
  (exists l1 a l2, l = l1 ++ a :: l2 /\ f a = Some v /\ forall b, In b l2 -> f b = None) \/
  (v = d /\ forall a, In a l -> f a = None).
Definition base_of (a : assignment) : option Z := match a with AsgBase b => Some b | _ => None end.
Definition precision_of (a : assignment) : option nat := match a with AsgPrecision p => Some p | _ => None end.

Lemma last_of_app {A B} (f : A -> option B) l a d v : last_of f l d v ->
  last_of f (l ++ [a]) d (match f a with Some w => w | None => v end).
Proof.
  intros H. destruct (f a) as [w|] eqn:E.
  - left. exists l, a, []. split; [reflexivity|]. split; [exact E|]. intros b [].
  - destruct H as [(l1 & x & l2 & -> & F & N)|(-> & N)].
    + left. exists l1, x, (l2 ++ [a]). split; [rewrite <- app_assoc; reflexivity|]. split; [exact F|].
      intros b Hb. apply in_app_or in Hb. destruct Hb as [Hb|[<-|[]]]; auto.
    + right. split; [reflexivity|]. intros b Hb. apply in_app_or in Hb. destruct Hb as [Hb|[<-|[]]]; auto.
Qed.

Lemma last_of_fun {A B} (f : A -> option B) l d v w : last_of f l d v -> last_of f l d w -> v = w.
Proof.
  revert v w. induction l as [|a l IH] using rev_ind; intros v w.
  - intros [([|? ?] & ? & ? & E & _)|(-> & _)]; [discriminate|discriminate|].
    intros [([|? ?] & ? & ? & E & _)|(-> & _)]; [discriminate|discriminate|reflexivity].
  - assert (G : forall u, last_of f (l ++ [a]) d u -> f a = Some u \/ (f a = None /\ last_of f l d u)).
    { intros u [(l1 & x & l2 & E & F & N)|(-> & N)].
      - destruct l2 as [|y l2] using rev_ind.
        + apply app_inj_tail in E. destruct E as (_ & ->). left; exact F.
        + clear IHl2. right. rewrite app_comm_cons, app_assoc in E. apply app_inj_tail in E. destruct E as (-> & ->).
          split; [apply N, in_or_app; right; left; reflexivity|]. left. exists l1, x, l2. split; [reflexivity|]. split; [exact F|].
          intros b Hb. apply N, in_or_app. left; exact Hb.
      - right. split; [apply N, in_or_app; right; left; reflexivity|]. right. split; [reflexivity|].
        intros b Hb. apply N, in_or_app. left; exact Hb. }
    intros H1 H2. destruct (G _ H1) as [E1|(E1 & L1)], (G _ H2) as [E2|(E2 & L2)]; try congruence. eauto.
Qed.

(** C85: after any assignments the object is the one a constructor called with the last values
    assigned would give: nothing computed from an earlier base or precision is left in it. *)
Theorem C85_assigned : forall b p l, exists b' p',
  last_of base_of l b b' /\ last_of precision_of l p p' /\ fold_left fpe_assign l (fpe_new b p) = fpe_new b' p'.
Proof.
  intros b p l. induction l as [|a l IH] using rev_ind.
  - exists b, p. split; [right; split; [reflexivity|intros ? []]|]. split; [right; split; [reflexivity|intros ? []]|]. reflexivity.
  - destruct IH as (b' & p' & HB & HP & E). rewrite fold_left_app. cbn [fold_left]. rewrite E.
    apply (last_of_app _ _ a) in HB. apply (last_of_app _ _ a) in HP.
    destruct a as [x|x]; cbn [base_of precision_of] in HB, HP; eexists; eexists; (split; [exact HB|]); (split; [exact HP|]); reflexivity.
Qed.
Print Assumptions C85_assigned.

Lemma unpack_ok k : - 2^63 <= k < 2^63 -> unpack k = Ok k.
Proof. intros H. unfold unpack. rewrite (proj2 (Z.leb_le _ _)), (proj2 (Z.ltb_lt _ _)) by lia. reflexivity. Qed.
Lemma decode1_same c t : fpe_decode1 (scale c) t = decode1 c t.
Proof. reflexivity. Qed.

(** C85: a number encoded before the assignments and decoded after them is read in the new unit:
    the integer stored is [v * b^p] rounded toward zero, and the result is this integer divided by
    the new scale.  Without assignments this is [v] up to one unit. *)
Theorem C85_read_again : forall b p l b' p' q, 1 <= b -> 1 <= b' -> p' <> 0%nat ->
  last_of base_of l b b' -> last_of precision_of l p p' ->
  b ^ Z.of_nat p < 2^63 -> b' ^ Z.of_nat p' < 2^63 ->
  (inject_Z (- 2^63) <= q * inject_Z (b ^ Z.of_nat p) <= inject_Z (2^63 - 1))%Q ->
  exists n d, fpe_encode (fpe_new b p) [NFloat q] = Ok [n] /\
    (Qabs (inject_Z n - q * inject_Z (b ^ Z.of_nat p)) < 1)%Q /\
    fpe_decode (fold_left fpe_assign l (fpe_new b p)) (TLong [n]) = Ok (TFloat [d]) /\
    (d == inject_Z n / inject_Z (b' ^ Z.of_nat p'))%Q.
Proof.
  intros b p l b' p' q Hb Hb' Hp' UB UP F F' R.
  destruct (C85_assigned b p l) as (b2 & p2 & B2 & P2 & ->). 
  rewrite (last_of_fun _ _ _ _ _ B2 UB), (last_of_fun _ _ _ _ _ P2 UP). clear b2 p2 B2 P2.
  assert (S1 : 1 <= b ^ Z.of_nat p) by (apply (scale_pos (mkConfig b p)); exact Hb).
  assert (S2 : 1 <= b' ^ Z.of_nat p') by (apply (scale_pos (mkConfig b' p')); exact Hb').
  exists (Qtrunc (q * inject_Z (b ^ Z.of_nat p))), (decode1 (mkConfig b' p') (Qtrunc (q * inject_Z (b ^ Z.of_nat p)))).
  set (s1 := b ^ Z.of_nat p) in *. set (s2 := b' ^ Z.of_nat p') in *.
  assert (RT : - 2^63 <= Qtrunc (q * inject_Z s1) < 2^63).
  { destruct (Qtrunc_toward_zero (q * inject_Z s1)) as (T1 & T2). destruct R as [R1 R2].
    destruct (Qlt_le_dec (q * inject_Z s1) 0) as [N|N].
    - apply Qlt_le_weak in N. destruct (T2 N) as [A B]. split.
      + rewrite Zle_Qle. eapply Qle_trans; eauto.
      + rewrite Zle_Qle in *. assert (Qtrunc (q * inject_Z s1) <= 0) by (rewrite Zle_Qle; exact B). lia.
    - destruct (T1 N) as [A B]. split.
      + assert (0 <= Qtrunc (q * inject_Z s1)) by (rewrite Zle_Qle; exact A). lia.
      + assert (Qtrunc (q * inject_Z s1) <= 2^63 - 1) by (rewrite Zle_Qle; eapply Qle_trans; eauto). lia. }
  split; [|split; [|split]].
  - unfold fpe_encode, fpe_new. cbn [fe_scale]. fold s1. rewrite unpack_ok by lia. cbn [rbind map]. rewrite flong_in_range by exact RT. reflexivity.
  - apply Qtrunc_bound.
  - unfold fpe_decode, fpe_new. cbn [fe_precision fe_scale]. apply Nat.eqb_neq in Hp'. rewrite Hp'. fold s2. rewrite unpack_ok by lia. cbn [rbind map].
    replace (s2 =? 0) with false by (symmetry; apply Z.eqb_neq; lia). reflexivity.
  - apply (decode1_correct (mkConfig b' p')). exact Hb'.
Qed.
Print Assumptions C85_read_again.

(* made with base 10 and precision 3, then precision 2, base 2, precision 4: 5.2 is stored as 5200 and
   read as 5200 / 16 *)
Definition C85_l : list assignment := [AsgPrecision 2; AsgBase 2; AsgPrecision 4].
Example C85_witness : 1 <= 10 /\ 1 <= 2 /\ 4%nat <> 0%nat /\ last_of base_of C85_l 10 2 /\ last_of precision_of C85_l 3%nat 4%nat /\
  10 ^ Z.of_nat 3 < 2^63 /\ 2 ^ Z.of_nat 4 < 2^63 /\
  (inject_Z (- 2^63) <= (26#5) * inject_Z (10 ^ Z.of_nat 3) <= inject_Z (2^63 - 1))%Q /\
  fold_left fpe_assign C85_l (fpe_new 10 3) = mkFpe 4 2 16 /\
  fpe_encode (fpe_new 10 3) [NFloat (26#5)] = Ok [5200] /\
  fpe_decode (fold_left fpe_assign C85_l (fpe_new 10 3)) (TLong [5200]) = Ok (TFloat [(5200#16)%Q]).
Proof.
  split; [lia|]. split; [lia|]. split; [discriminate|].
  split; [left; exists [AsgPrecision 2], (AsgBase 2), [AsgPrecision 4]; split; [reflexivity|]; split; [reflexivity|]; intros b [<-|[]]; reflexivity|].
  split; [left; exists [AsgPrecision 2; AsgBase 2], (AsgPrecision 4), []; split; [reflexivity|]; split; [reflexivity|]; intros b []|].
  split; [reflexivity|]. split; [reflexivity|]. split; [split; vm_compute; discriminate|].
  split; [reflexivity|]. split; [vm_compute; reflexivity|]. vm_compute. reflexivity.
Qed.

(** C85: the object behaves like the encoder of M_Encoder.v with its base and precision, which the
    other properties use, as long as its scale is a 64-bit number other than 0; otherwise it raises
    (decode only if the precision is not 0; dividing no numbers by 0 is allowed). *)
Theorem C85_same_encoder : forall b p vs l, let c := mkConfig b p in
  (- 2^63 <= b ^ Z.of_nat p < 2^63 -> b <> 0 -> fpe_encode (fpe_new b p) vs = Ok (encode c vs) /\ fpe_decode (fpe_new b p) l = decode c l) /\
  (2^63 <= b ^ Z.of_nat p -> fpe_encode (fpe_new b p) vs = Err RuntimeError /\
     forall k, fpe_decode (fpe_new b p) (TLong k) = Err RuntimeError) /\
  (b = 0 -> p <> 0%nat -> forall t k, fpe_decode (fpe_new b p) (TLong (t :: k)) = Err RuntimeError).
Proof.
  intros b p vs l c. split; [|split].
  - intros H N. unfold fpe_encode, fpe_decode, fpe_new. cbn [fe_scale fe_precision]. rewrite unpack_ok by exact H. cbn [rbind].
    split; [reflexivity|]. destruct l as [l|l]; [|reflexivity]. unfold decode, c. cbn [c_prec]. destruct (Nat.eqb p 0); [reflexivity|].
    destruct l as [|t l]; [reflexivity|]. replace (b ^ Z.of_nat p =? 0) with false; [reflexivity|].
    symmetry. apply Z.eqb_neq. apply Z.pow_nonzero; lia.
  - intros H. unfold fpe_encode, fpe_decode, fpe_new. cbn [fe_scale fe_precision].
    assert (U : unpack (b ^ Z.of_nat p) = Err RuntimeError).
    { unfold unpack. rewrite (proj2 (Z.ltb_ge _ _)) by exact H. rewrite andb_false_r. reflexivity. }
    rewrite U. cbn [rbind]. split; [reflexivity|]. intros k. destruct p as [|p]; [vm_compute in H; congruence|]. reflexivity.
  - intros -> N t k. destruct p as [|p]; [congruence|]. unfold fpe_decode, fpe_new. cbn [fe_scale fe_precision Nat.eqb].
    rewrite Z.pow_0_l by lia. reflexivity.
Qed.
Print Assumptions C85_same_encoder.
Example C85_same_encoder_witness : - 2^63 <= (-3) ^ Z.of_nat 3 < 2^63 /\ 2^63 <= 10 ^ Z.of_nat 19 /\
  fpe_encode (fpe_new (-3) 3) [NInt 2; NFloat (1#2)] = Ok [-54; -13] /\
  fpe_encode (fpe_new 10 19) [NInt 2] = Err RuntimeError /\ fpe_decode (fpe_new 0 2) (TLong [3]) = Err RuntimeError.
Proof. split; [split; [vm_compute; discriminate|reflexivity]|]. split; [vm_compute; discriminate|]. repeat split. Qed.

(* ------------------------------------------------------------------ C86 *)
(** C86: a process finds under an identifier the session set last under it, and none exactly when
    none was set: sessions set under other identifiers neither replace nor remove it. *)
Theorem C86_last_set : forall (S : Type) (h : list (nat * S)) u,
  let d := fold_left (fun d e => set_session d (fst e) (snd e)) h [] in
  (forall s, get_session d u = Some s <-> exists h1 h2, h = h1 ++ (u, s) :: h2 /\ forall s', ~ In (u, s') h2) /\
  (get_session d u = None <-> forall s, ~ In (u, s) h).
Proof.
  intros S h u d.
  assert (G : match get_session d u with
              | Some s => exists h1 h2, h = h1 ++ (u, s) :: h2 /\ forall s', ~ In (u, s') h2
              | None => forall s, ~ In (u, s) h end).
  { subst d. induction h as [|[v t] h IH] using rev_ind; [intros s []|].
    rewrite fold_left_app. cbn [fold_left fst snd]. set (d := fold_left (fun (d : sessions S) e => set_session d (fst e) (snd e)) h []) in *. unfold get_session, set_session.
    cbn [find fst]. destruct (Nat.eqb_spec v u) as [->|N].
    - cbn [option_map snd]. exists h, []. split; [reflexivity|]. intros s' [].
    - assert (E : find (fun e : nat * S => Nat.eqb (fst e) u) (filter (fun e => negb (Nat.eqb (fst e) v)) d) = find (fun e => Nat.eqb (fst e) u) d).
      { clear IH. induction d as [|[w x] d IHd]; [reflexivity|]. cbn [filter fst]. destruct (Nat.eqb_spec w v) as [->|W]; cbn [negb].
        - cbn [find fst]. apply Nat.eqb_neq in N. rewrite N. exact IHd.
        - cbn [find fst]. destruct (Nat.eqb w u); [reflexivity|]. exact IHd. }
      rewrite E. fold (get_session d u). destruct (get_session d u) as [s|].
      + destruct IH as (h1 & h2 & -> & K). exists h1, (h2 ++ [(v, t)]). split; [rewrite <- app_assoc; reflexivity|].
        intros s' I. apply in_app_or in I. destruct I as [I|[I|[]]]; [apply (K s' I)|]. congruence.
      + intros s I. apply in_app_or in I. destruct I as [I|[I|[]]]; [apply (IH s I)|]. congruence. }
  split.
  - intros s. split.
    + intros E. rewrite E in G. exact G.
    + intros (h1 & h2 & E & K). destruct (get_session d u) as [s2|].
      * destruct G as (k1 & k2 & E2 & K2). f_equal. rewrite E in E2.
        assert (P : forall h1 k1, h1 ++ (u, s) :: h2 = k1 ++ (u, s2) :: k2 -> s2 = s).
        { clear - K K2. induction h1 as [|a h1 IH]; intros [|b k1] E; cbn [app] in E; injection E; intros.
          - congruence.
          - subst. exfalso. apply (K s2), in_or_app. right; left; reflexivity.
          - subst. exfalso. apply (K2 s), in_or_app. right; left; reflexivity.
          - eapply IH; eauto. }
        eapply P; eauto.
      * exfalso. apply (G s). rewrite E. apply in_or_app. right; left; reflexivity.
  - split; intros H.
    + rewrite H in G. exact G.
    + destruct (get_session d u) as [s|]; [|reflexivity]. destruct G as (h1 & h2 & E & _). exfalso.
      apply (H s). rewrite E. apply in_or_app. right; left; reflexivity.
Qed.
Print Assumptions C86_last_set.
Example C86_witness : let d := fold_left (fun d e => set_session d (fst e) (snd e)) [(1, 10); (2, 20); (1, 30); (3, 40)]%nat [] in
  get_session d 1 = Some 30%nat /\ get_session d 2 = Some 20%nat /\ get_session d 4 = None.
Proof. repeat split. Qed.
