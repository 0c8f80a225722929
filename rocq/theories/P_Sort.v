(** C39: sorting shared values.  C42: sign, modulus, relu and hardtanh. *)
From Coq Require Import QArith String Sorted Permutation.
From Verif Require Import Util Modular S_Ring S_Tensor S_Bil S_Spdz S_Fss S_Sort M_Torch M_Encoder M_Tensor M_Share M_Spdz M_Store M_Fss M_Engine M_Approx
  L_Torch L_Tensor L_Encoder L_Share L_Div L_Bil L_Mul L_Circuit L_Engine L_Algo P_Fss.
Local Open Scope Z_scope.
Local Open Scope list_scope.

Lemma shares_rep s sh v x : shares_of s sh v x -> rep s sh (fun e => nth e v 0) x /\ length v = numel sh.
Proof.
  intros (X1 & X2 & X3 & X4). pose proof (shared_vals R64 supR _ _ _ X4) as (L & _ & _). rewrite map_length in L.
  split; [|exact L]. repeat (split; [assumption|]).
  replace (vals sh (fun e => nth e v 0)) with (map (to_ring (2^64)) v); [exact X4|].
  apply vals_eq; [apply map_to_ring_in; auto using supR|rewrite map_length; auto|].
  intros e He. rewrite (nth_map_in _ 0) by lia. apply to_ring_eqmod, posR.
Qed.

Lemma rep_shares s sh f v x : rep s sh f x -> length v = numel sh -> (forall e, (e < numel sh)%nat -> f e = nth e v 0) -> shares_of s sh v x.
Proof.
  intros (X1 & X2 & X3 & X4) L H. repeat (split; [assumption|]).
  replace (map (to_ring (2^64)) v) with (vals sh f); [exact X4|]. symmetry.
  apply vals_eq; [apply map_to_ring_in; auto using supR|rewrite map_length; auto|].
  intros e He. rewrite (nth_map_in _ 0) by lia. rewrite H by auto. apply to_ring_eqmod, posR.
Qed.

(** a sharing of values of the ring reconstructs to them *)
Lemma shares_reconstruct s sh v x : shares_of s sh v x -> Forall (fun a => - 2^63 <= a < 2^63) v -> reconstruct x = Ok (mkT sh v).
Proof.
  intros (_ & _ & _ & X4) H. unfold reconstruct. change R64 with (2^64). rewrite (shared_tsum (2^64) supR _ _ _ X4).
  do 2 f_equal. rewrite <- (map_id v) at 2. apply map_ext_in. intros a Ha. rewrite Forall_forall in H. apply to_ring64_small. auto.
Qed.

Section Thms.
  Context {K : Type} (s : sess) (sh : list nat).

  Lemma elementwise (F : mpc -> comp (mpcw (K:=K)) mpc) (g : Z -> Z) (P : Z -> Prop) :
    (forall x f, rep s sh f x -> (forall e, (e < numel sh)%nat -> P (f e)) -> runs (F x) (rep s sh (fun e => g (f e)))) ->
    (forall a, P a -> - 2^63 <= g a < 2^63) ->
    forall x v w, shares_of s sh v x -> Forall P v -> none_waiting (fst w) ->
    exists z w', F x w = (Ok z, w') /\ none_waiting (fst w') /\ shares_of s sh (map g v) z /\ reconstruct z = Ok (mkT sh (map g v)).
  Proof.
    intros HF HB x v w HX HP HW. destruct (shares_rep _ _ _ _ HX) as [GX LV]. rewrite Forall_forall in HP.
    destruct (HF x _ GX) with (w := w) as (z & w' & E & W' & GZ); auto.
    { intros e He. apply HP, nth_In. lia. }
    exists z, w'. split; [exact E|]. split; [exact W'|].
    assert (SZ : shares_of s sh (map g v) z).
    { eapply rep_shares; [exact GZ|rewrite map_length; auto|]. intros e He. cbn beta. rewrite (nth_map_in _ 0) by lia. reflexivity. }
    split; [exact SZ|]. eapply shares_reconstruct; eauto. apply Forall_forall. intros b Hb. apply in_map_iff in Hb.
    destruct Hb as (a & <- & Ha). auto.
  Qed.
End Thms.

(** C42 for two parties and integer secrets below 2^31 - 1 in absolute value, every backend,
    every sharing, every supply of valid triples: sign, modulus and relu are sgn, the absolute
    value and the maximum with 0, at every position of a tensor of any shape with dimensions.
    Missing from the full statement: larger values (refuted below), fixed-point secrets (the
    products are rounded). *)
Theorem C42_sign_partial : forall K alpha ev (gen : fop -> nat -> nat -> result (list (list K))) s su sh x v w,
  backend_ok alpha ev gen -> int_pair s -> supply_ok sh su -> sh <> [] ->
  shares_of s sh v x -> Forall (fun a => Z.abs a < 2^31 - 1) v -> none_waiting (fst w) ->
  exists z w', sign (mpc_engine alpha ev gen s su) x w = (Ok z, w') /\ none_waiting (fst w') /\
    shares_of s sh (map Z.sgn v) z /\ reconstruct z = Ok (mkT sh (map Z.sgn v)).
Proof.
  intros K alpha ev gen s su sh x v w HG HI HS Hsh. apply (elementwise s sh _ Z.sgn (fun a => Z.abs a < 2^31 - 1)); [|intros a Ha; lia]. intros. apply sign_ok; auto.
Qed.
Print Assumptions C42_sign_partial.

Theorem C42_modulus_partial : forall K alpha ev (gen : fop -> nat -> nat -> result (list (list K))) s su sh x v w,
  backend_ok alpha ev gen -> int_pair s -> supply_ok sh su -> sh <> [] ->
  shares_of s sh v x -> Forall (fun a => Z.abs a < 2^31 - 1) v -> none_waiting (fst w) ->
  exists z w', modulus (mpc_engine alpha ev gen s su) x w = (Ok z, w') /\ none_waiting (fst w') /\
    shares_of s sh (map Z.abs v) z /\ reconstruct z = Ok (mkT sh (map Z.abs v)).
Proof.
  intros K alpha ev gen s su sh x v w HG HI HS Hsh. apply (elementwise s sh _ Z.abs (fun a => Z.abs a < 2^31 - 1)); [|intros a Ha; lia]. intros. apply modulus_ok; auto.
Qed.
Print Assumptions C42_modulus_partial.

Theorem C42_relu_partial : forall K alpha ev (gen : fop -> nat -> nat -> result (list (list K))) s su sh x v w,
  backend_ok alpha ev gen -> int_pair s -> supply_ok sh su -> sh <> [] ->
  shares_of s sh v x -> Forall (fun a => Z.abs a < 2^31 - 1) v -> none_waiting (fst w) ->
  exists z w', relu (mpc_engine alpha ev gen s su) x w = (Ok z, w') /\ none_waiting (fst w') /\
    shares_of s sh (map (fun a => if a <? 0 then 0 else a) v) z /\
    reconstruct z = Ok (mkT sh (map (fun a => if a <? 0 then 0 else a) v)).
Proof.
  intros K alpha ev gen s su sh x v w HG HI HS Hsh.
  apply (elementwise s sh _ (fun a => if a <? 0 then 0 else a) (fun a => Z.abs a < 2^31 - 1)); [|intros a Ha; destruct (Z.ltb_spec a 0); lia]. intros y f GY HF.
  eapply runs_weaken; [apply relu_ok; eauto|]. intros z GZ. eapply rep_ext; [exact GZ|].
  intros e He. apply eqmod_eq. destruct (Z.ltb_spec (f e) 0); lia.
Qed.
Print Assumptions C42_relu_partial.

(** hardtanh clamps to [lo, hi] *)
Theorem C42_hardtanh_partial : forall K alpha ev (gen : fop -> nat -> nat -> result (list (list K))) s su sh lo hi x v w,
  backend_ok alpha ev gen -> int_pair s -> supply_ok sh su -> sh <> [] -> lo <= hi ->
  shares_of s sh v x -> Forall (fun a => Z.abs (a - lo) < 2^31 - 1 /\ Z.abs (a - hi) < 2^31 - 1) v ->
  Z.abs lo < 2^62 -> Z.abs hi < 2^62 -> none_waiting (fst w) ->
  let clamp a := if a <? lo then lo else if hi <? a then hi else a in
  exists z w', hardtanh (mpc_engine alpha ev gen s su) (NInt lo) (NInt hi) x w = (Ok z, w') /\ none_waiting (fst w') /\
    shares_of s sh (map clamp v) z /\ reconstruct z = Ok (mkT sh (map clamp v)).
Proof.
  intros K alpha ev gen s su sh lo hi x v w HG HI HS Hsh HL HX HV H1 H2 HW clamp. revert HX HV HW.
  apply (elementwise s sh _ clamp (fun a => Z.abs (a - lo) < 2^31 - 1 /\ Z.abs (a - hi) < 2^31 - 1)).
  - intros y f GY HF. eapply runs_weaken; [apply hardtanh_ok; eauto|]. intros z GZ. eapply rep_ext; [exact GZ|].
    intros e He. apply eqmod_eq. unfold clamp. destruct (Z.ltb_spec (f e) lo), (Z.ltb_spec hi (f e)); lia.
  - intros a [A B]. unfold clamp. destruct (Z.ltb_spec a lo), (Z.ltb_spec hi a); lia.
Qed.
Print Assumptions C42_hardtanh_partial.

(** a supply of constant triples 3 * 5 = 15 *)
Definition toy_supply : tri_supply :=
  mkSup (fun _ sx _ => let c v := mkT sx (repeat v (numel sx)) in zip3 [c 7; c (-4)] [c 2; c 3] [c 100; c (-85)])
        (fun _ => [[12345]]).

Definition int_s : sess := mkS 3 2 (mkConfig 2 0).
Definition C42_x : mpc := mkM 3 [2%nat; 2%nat] [mkT [2%nat; 2%nat] [5000; 2^62; -7; 9]; mkT [2%nat; 2%nat] [-4980; - 2^62 - 131072; 7; -12]].
Definition C42_run (F : engine mpcw mpc -> mpc -> comp mpcw mpc) : result tensor :=
  do z <- fst (F (mpc_engine t_alpha t_ev toy int_s toy_supply) C42_x (fw0, 0%nat)); reconstruct z.

(** 20, -131072, 0 and -3 *)
Example C42_witness :
  backend_ok t_alpha t_ev toy /\ int_pair int_s /\ supply_ok [2%nat; 2%nat] toy_supply /\
  shares_of int_s [2%nat; 2%nat] [20; -131072; 0; -3] C42_x /\ none_waiting (fst (fw0, 0%nat)) /\
  C42_run (@sign _ _) = Ok (mkT [2%nat; 2%nat] [1; -1; 0; -1]) /\ C42_run (@modulus _ _) = Ok (mkT [2%nat; 2%nat] [20; 131072; 0; 3]) /\
  C42_run (@relu _ _) = Ok (mkT [2%nat; 2%nat] [20; 0; 0; 0]) /\
  C42_run (fun E => hardtanh E (NInt (-2)) (NInt 10)) = Ok (mkT [2%nat; 2%nat] [10; -2; 0; -2]).
Proof.
  split; [exact toy_good|]. split; [repeat split; cbn; lia|].
  split.
  { split.
    - intros k. split; [reflexivity|]. exists [3; 3; 3; 3], [5; 5; 5; 5].
      repeat split; try discriminate; repeat constructor; try reflexivity; discriminate.
    - intros k. split; [reflexivity|]. repeat constructor; discriminate. }
  split. { repeat (split; [reflexivity|]). split; [discriminate|]; split; [repeat constructor|reflexivity]. }
  split; [exact fw0_none|].
  vm_compute. repeat split; reflexivity.
Qed.

(** C42 refuted for larger integers: relu(3000000000) is 0 and sign(3000000000) is -1 *)
Theorem C42_large_refuted : exists (gen : fop -> nat -> nat -> result (list (list tkey))) s su x z z' w w' w'',
  backend_ok t_alpha t_ev gen /\ int_pair s /\ supply_ok [1%nat] su /\ none_waiting (fst w) /\
  shares_of s [1%nat] [3000000000] x /\
  relu (mpc_engine t_alpha t_ev gen s su) x w = (Ok z, w') /\ reconstruct z = Ok (mkT [1%nat] [0]) /\
  sign (mpc_engine t_alpha t_ev gen s su) x w = (Ok z', w'') /\ reconstruct z' = Ok (mkT [1%nat] [-1]).
Proof.
  exists toy, int_s, toy_supply, (mkM 3 [1%nat] [mkT [1%nat] [5]; mkT [1%nat] [3000000000 - 5]]).
  eexists _, _, (fw0, 0%nat), _, _. split; [exact toy_good|]. split; [repeat split; cbn; lia|].
  split.
  { split.
    - intros k. split; [reflexivity|]. exists [3], [5].
      repeat split; try discriminate; repeat constructor; try reflexivity; discriminate.
    - intros k. split; [reflexivity|]. repeat constructor; discriminate. }
  split; [exact fw0_none|].
  split. { repeat (split; [reflexivity|]). split; [discriminate|]; split; [repeat constructor|reflexivity]. }
  split; [vm_compute; reflexivity|]. split; [reflexivity|]. split; [vm_compute; reflexivity|reflexivity].
Qed.
Print Assumptions C42_large_refuted.

(** C39 for two parties and integer secrets, any two closer than 2^31 - 1; repeated values
    included: the result list holds sharings of a sorted permutation of the values, in the
    requested direction.  Missing from the full statement: fixed-point secrets (rounded products,
    P_FixedSort.v), distant values and the caller's list (both refuted below). *)
Theorem C39_sort_partial : forall K alpha ev (gen : fop -> nat -> nat -> result (list (list K))) s su l v ascending w,
  backend_ok alpha ev gen -> int_pair s -> supply_ok [1%nat] su ->
  Forall2 (fun a x => shares_of s [1%nat] [a] x) v l -> close v -> none_waiting (fst w) ->
  exists res caller w', sort (mpc_engine alpha ev gen s su) m_shape l ascending w = (Ok (res, caller), w') /\
    none_waiting (fst w') /\
    exists v', Permutation v v' /\ sorted ascending v' /\ Forall2 (fun a x => shares_of s [1%nat] [a] x) v' res.
Proof.
  intros K alpha ev gen s su l v asc w HG HI HS HL HC HW.
  assert (CV : forall a x, rep s [1%nat] (fun _ => a) x -> shares_of s [1%nat] [a] x).
  { intros a x H. eapply rep_shares; [exact H|reflexivity|]. intros [|e] He; [reflexivity|cbn in He; lia]. }
  assert (HR : Forall2 (fun a => rep s [1%nat] (fun _ => a)) v l).
  { clear -HL. induction HL as [|a x v l H HL IH]; constructor; auto; try (eapply rep_ext; [apply (proj1 (shares_rep _ _ _ _ H))|]; intros [|e] He; [reflexivity|cbn in He; lia]). }
  destruct (bubbles_ok alpha ev gen s su [1%nat] HG HI ltac:(discriminate) HS (length l - 1) l v HR HC w HW) as (r & w' & E & W' & HF).
  unfold sort. rewrite (proj2 (forallb_forall _ l)).
  2:{ intros x Hx. clear -HL Hx. induction HL as [|a y v l H HL IH]; [destruct Hx|]. destruct Hx as [->|Hx]; auto.
      destruct H as (_ & -> & _). destruct (list_eq_dec Nat.eq_dec [1%nat] [1%nat]); congruence. }
  unfold cbind. rewrite E. cbn [cret].
  exists (if asc then r else rev r), r, w'. split; [reflexivity|]. split; [exact W'|].
  assert (LV : length v = length l) by (clear -HL; induction HL; cbn; auto).
  assert (HF' : Forall2 (fun a x => shares_of s [1%nat] [a] x) (bubs (length v - 1) v) r).
  { rewrite LV. clear -HF CV. induction HF; constructor; auto. }
  destruct asc.
  - exists (bubs (length v - 1) v). split; [apply bubs_perm|]. split; [apply bubs_sorts|exact HF'].
  - exists (rev (bubs (length v - 1) v)). split; [etransitivity; [apply bubs_perm|apply Permutation_rev]|].
    split; [apply sorted_rev, bubs_sorts|]. clear -HF'. induction HF'; cbn [rev]; [constructor|]. apply Forall2_app; auto.
Qed.
Print Assumptions C39_sort_partial.

(** a tensor of another shape in the list: ValueError before anything is computed *)
Theorem C39_shapes : forall W T (E : engine W T) shape_of l ascending w,
  (exists x, In x l /\ shape_of x <> [1%nat]) -> sort E shape_of l ascending w = (Err ValueError, w).
Proof.
  intros W T E shape_of l asc w (x & Hx & H). unfold sort.
  destruct (forallb _ l) eqn:F; [|reflexivity]. rewrite forallb_forall in F. specialize (F x Hx). cbn beta in F.
  destruct (list_eq_dec _ _ _); congruence.
Qed.
Print Assumptions C39_shapes.

Definition one (a b : Z) : mpc := mkM 3 [1%nat] [mkT [1%nat] [a]; mkT [1%nat] [b]].
Definition C39_l : list mpc := [one 5 4; one (-2^62) (2^62 - 8); one 100 (-91); one 7 (-7)].
Definition C39_run (asc : bool) : result (list tensor * list tensor) :=
  do p <- fst (sort (mpc_engine t_alpha t_ev toy int_s toy_supply) m_shape C39_l asc (fw0, 0%nat));
  do a <- rmap reconstruct (fst p); do b <- rmap reconstruct (snd p); Ok (a, b).

(** 9, -8, 9, 0 *)
Example C39_witness :
  Forall2 (fun a x => shares_of int_s [1%nat] [a] x) [9; -8; 9; 0] C39_l /\ close [9; -8; 9; 0] /\
  (do r <- C39_run true; Ok (fst r)) = Ok (map (fun a => mkT [1%nat] [a]) [-8; 0; 9; 9]) /\
  (do r <- C39_run false; Ok (fst r)) = Ok (map (fun a => mkT [1%nat] [a]) [9; 9; 0; -8]).
Proof.
  split. { repeat constructor; discriminate. }
  split. { intros a b. cbn. intros Ha Hb.
           repeat match goal with H : _ \/ _ |- _ => destruct H as [<-|H] end; try contradiction; reflexivity. }
  vm_compute. split; reflexivity.
Qed.

(** C39 refuted: the list handed in is overwritten; asked for a descending copy of [9; -8],
    the caller finds their own list sorted in ascending order *)
Theorem C39_caller_list_refuted : exists (gen : fop -> nat -> nat -> result (list (list tkey))) s su a b res caller w w',
  backend_ok t_alpha t_ev gen /\ int_pair s /\ supply_ok [1%nat] su /\ none_waiting (fst w) /\
  shares_of s [1%nat] [9] a /\ shares_of s [1%nat] [-8] b /\
  sort (mpc_engine t_alpha t_ev gen s su) m_shape [a; b] false w = (Ok (res, caller), w') /\
  rmap reconstruct caller = Ok [mkT [1%nat] [-8]; mkT [1%nat] [9]].
Proof.
  exists toy, int_s, toy_supply, (one 5 4), (one (-2^62) (2^62 - 8)).
  eexists _, _, (fw0, 0%nat), _. split; [exact toy_good|]. split; [repeat split; cbn; lia|].
  split.
  { split.
    - intros k. split; [reflexivity|]. exists [3], [5].
      repeat split; try discriminate; repeat constructor; try reflexivity; discriminate.
    - intros k. split; [reflexivity|]. repeat constructor; discriminate. }
  split; [exact fw0_none|].
  split. { repeat (split; [reflexivity|]). split; [discriminate|]; split; [repeat constructor|reflexivity]. }
  split. { repeat (split; [reflexivity|]). split; [discriminate|]; split; [repeat constructor|reflexivity]. }
  split; [vm_compute; reflexivity|reflexivity].
Qed.
Print Assumptions C39_caller_list_refuted.

(** C39 refuted for distant values: [0; 3000000000] in ascending order comes out descending (the
    comparison is made on 32 bits, see C28_distant_refuted) *)
Theorem C39_distant_refuted : exists (gen : fop -> nat -> nat -> result (list (list tkey))) s su a b res caller w w',
  backend_ok t_alpha t_ev gen /\ int_pair s /\ supply_ok [1%nat] su /\ none_waiting (fst w) /\
  shares_of s [1%nat] [0] a /\ shares_of s [1%nat] [3000000000] b /\
  sort (mpc_engine t_alpha t_ev gen s su) m_shape [a; b] true w = (Ok (res, caller), w') /\
  rmap reconstruct res = Ok [mkT [1%nat] [3000000000]; mkT [1%nat] [0]].
Proof.
  exists toy, int_s, toy_supply, (one 7 (-7)), (one 5 (3000000000 - 5)).
  eexists _, _, (fw0, 0%nat), _. split; [exact toy_good|]. split; [repeat split; cbn; lia|].
  split.
  { split.
    - intros k. split; [reflexivity|]. exists [3], [5].
      repeat split; try discriminate; repeat constructor; try reflexivity; discriminate.
    - intros k. split; [reflexivity|]. repeat constructor; discriminate. }
  split; [exact fw0_none|].
  split. { repeat (split; [reflexivity|]). split; [discriminate|]; split; [repeat constructor|reflexivity]. }
  split. { repeat (split; [reflexivity|]). split; [discriminate|]; split; [repeat constructor|reflexivity]. }
  split; [vm_compute; reflexivity|reflexivity].
Qed.
Print Assumptions C39_distant_refuted.
