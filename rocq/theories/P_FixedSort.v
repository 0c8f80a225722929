(** C38 and C39 with fixed-point secrets: powers and sort. *)
From Coq Require Import QArith Reals Qreals Lra String Sorted Permutation.
From Verif Require Import Util Modular S_Ring S_Tensor S_Wraps S_Div S_Bil S_Spdz S_Circuit S_Fss S_Sort S_Real S_Fixed
  M_Torch M_Encoder M_Tensor M_Share M_Spdz M_Store M_Fss M_Engine M_Approx
  L_Torch L_Tensor L_Share L_Engine L_Algo L_Fixed L_Fixed2 L_FixedSort P_Fss P_Sort P_Fixed.
Local Open Scope Z_scope.
Local Open Scope list_scope.

(** C38 in fixed point, for two parties, every base and precision, every backend, sharing and
    supply of valid triples: x ** k never raises and, if no shares carried, differs from the
    power by at most (m + 3 units)^k - m^k - 2 units, where m is the larger of 1 and |x|, as long
    as (m + 3 units)^k times the square of the scale is an int64.
    Missing from the full statement: other numbers of parties, tensors without dimensions. *)
Definition pow_error (u : R) (k : nat) (r : R) : R := ((Rmax 1 (Rabs r) + 3 * u) ^ k - Rmax 1 (Rabs r) ^ k - 2 * u)%R.
Theorem C38_fixed_partial : forall K alpha ev (gen : fop -> nat -> nat -> result (list (list K))) s su sh k x v w,
  fixed_pair s -> supply_ok sh su -> sh <> [] -> (0 < numel sh)%nat ->
  shares_of s sh v x -> Forall (fun a => - 2^63 <= a < 2^63) v ->
  Forall (fun a => ((Rmax 1 (Rabs (fixed (s_cfg s) a)) + 3 * ulp (s_cfg s)) ^ Pos.to_nat k * IZR (scale (s_cfg s) * scale (s_cfg s)) < IZR (2^63))%R) v ->
  none_waiting (fst w) ->
  computes alpha ev gen s su sh (fun W T E y => e_pow E y k) (fun r => r ^ Pos.to_nat k)%R (pow_error (ulp (s_cfg s)) (Pos.to_nat k)) x v w.
Proof.
  intros K alpha ev gen s su sh k x v w [Hn Hb] [HT HR] Hsh HN HX HV HP HW.
  assert (HS : (IZR (scale (s_cfg s)) < 9223372036854775808)%R).
  { destruct (sharing_of s sh x v HX HV) as [_ LV]. destruct v as [|a v]; [cbn in LV; lia|]. apply Forall_inv in HP. rewrite mult_IZR in HP.
    pose proof (S_pos s Hb). pose proof (u_pos s Hb). pose proof (Rmax_l 1 (Rabs (fixed (s_cfg s) a))).
    assert (1 <= (Rmax 1 (Rabs (fixed (s_cfg s) a)) + 3 * ulp (s_cfg s)) ^ Pos.to_nat k)%R by (apply pow_R1_Rle; lra).
    change (IZR (2^63)) with 9223372036854775808%R in HP. set (S0 := IZR (scale (s_cfg s))) in *.
    assert (S0 * S0 <= (Rmax 1 (Rabs (fixed (s_cfg s) a)) + 3 * ulp (s_cfg s)) ^ Pos.to_nat k * (S0 * S0))%R.
    { rewrite <- (Rmult_1_l (S0 * S0)) at 1. apply Rmult_le_compat_r; [|assumption]. apply Rmult_le_pos; lra. }
    assert (S0 * 1 <= S0 * S0)%R by (apply Rmult_le_compat_l; lra). lra. }
  eapply (computes_intro _ _ _ _ _ _ _ _ _ (fun r => ((Rmax 1 (Rabs r) + 3 * ulp (s_cfg s)) ^ Pos.to_nat k * IZR (scale (s_cfg s) * scale (s_cfg s)) < IZR (2^63))%R)); auto.
  intros e y He SY. eapply f_weaken; [apply (f_power alpha ev gen s su sh e Hn Hb Hsh HT He k y HS SY)|].
  intros z _ H F. cbv beta in H |- *. rewrite mult_IZR in F. apply H; [apply Rmax_l|apply Rmax_r|exact F].
Qed.
Print Assumptions C38_fixed_partial.

(** 3/2, -2, 1/65536 and 0 to the fifth, off by at most 20 units *)
Example C38_fixed_witness :
  fixed_pair fx_s /\ supply_ok [4%nat] toy_supply /\
  shares_of fx_s [4%nat] [98304; -131072; 1; 0] (fx_x (10^17) [98304; -131072; 1; 0]) /\
  Forall (fun a => ((Rmax 1 (Rabs (fixed (s_cfg fx_s) a)) + 3 * ulp (s_cfg fx_s)) ^ Pos.to_nat 5 * IZR (scale (s_cfg fx_s) * scale (s_cfg fx_s)) < IZR (2^63))%R)
    [98304; -131072; 1; 0] /\
  fx_run (fun W T E y => e_pow E y 5) toy_supply (fx_x (10^17) [98304; -131072; 1; 0]) =
    (Ok (mkT [4%nat] [497664; -2097135; 0; 0]), false).
Proof.
  split; [split; [reflexivity|cbn; lia]|]. split; [exact fx_supply4|].
  split. { repeat (split; [reflexivity|]). split; [discriminate|]; split; [repeat constructor|reflexivity]; discriminate. }
  split; [|vm_compute; reflexivity].
  assert (H : forall a, (-196608 <= a <= 196608)%Z -> ((Rmax 1 (Rabs (fixed (s_cfg fx_s) a)) + 3 * ulp (s_cfg fx_s)) ^ Pos.to_nat 5 * IZR (scale (s_cfg fx_s) * scale (s_cfg fx_s)) < IZR (2^63))%R).
  { intros a Ha. unfold ulp, fixed. change (scale (s_cfg fx_s)) with 65536. change (Pos.to_nat 5) with 5%nat. change (65536 * 65536) with 4294967296. change (2^63) with 9223372036854775808.
    assert (R1 : (0 <= Rmax 1 (Rabs (IZR a / 65536)) + 3 * / 65536 <= 4)%R).
    { destruct Ha as [H1 H2]. apply IZR_le in H1, H2. assert (Rabs (IZR a / 65536) <= 3)%R by (apply Rabs_le; lra).
      pose proof (Rmax_l 1 (Rabs (IZR a / 65536))). split; [lra|]. assert (Rmax 1 (Rabs (IZR a / 65536)) <= 3)%R by (apply Rmax_lub; lra). lra. }
    apply Rle_lt_trans with (4 ^ 5 * 4294967296)%R; [|lra]. apply Rmult_le_compat_r; [lra|]. apply pow_incr. exact R1. }
  repeat constructor; apply H; lia.
Qed.

(** C39 in fixed point, for two parties, every base and precision, every backend, sharing and
    supply of valid triples, and n secrets of at most [b] units: sort never raises and, if no
    shares carried, every result is within 3 (n - 1) (4 + b / scale) units of the secret that
    belongs there, as long as that is at most one and b + scale is below 2^30.  (The factor
    1 - check may be off by one unit, which loses a unit for every whole unit of the secret.)
    Missing from the full statement: larger secrets, other protocols. *)
Theorem C39_fixed_partial : forall K alpha ev (gen : fop -> nat -> nat -> result (list (list K))) s su l v b ascending w,
  let n := Z.of_nat (length l) in let S := scale (s_cfg s) in
  backend_ok alpha ev gen -> fixed_pair s -> supply_ok [1%nat] su ->
  Forall2 (fun a x => shares_of s [1%nat] [a] x) v l -> Forall (fun a => Z.abs a <= b) v ->
  b + S < 2^30 -> 3 * (n - 1) * (4 * S + b) <= S * S -> none_waiting (fst w) ->
  exists res caller w' noted vr,
    sort (mpc_engine alpha ev gen s su) m_shape l ascending w = (Ok (res, caller), w') /\
    sort (noted_engine alpha ev gen s su) m_shape l ascending (w, false) = (Ok (res, caller), (w', noted)) /\
    none_waiting (fst w') /\ Forall2 (fun a x => shares_of s [1%nat] [a] x) vr res /\
    (noted = false -> exists v', Permutation v v' /\ sorted ascending v' /\
       Forall2 (fun a c => Z.abs (c - a) * S <= 3 * (n - 1) * (4 * S + b)) v' vr).
Proof.
  intros K alpha ev gen s su l v b asc w n S0 HG [Hn Hb] [HT HR] HL HV HB1 HB2 HW.
  assert (LV : length v = length l) by (clear -HL; induction HL; cbn; auto).
  destruct v as [|a0 v0] eqn:EV.
  { destruct l; [|discriminate]. exists [], [], w, false, []. unfold sort. cbn [forallb length Nat.sub bubbles]. unfold cbind, cret.
    destruct asc; (split; [reflexivity|]; split; [reflexivity|]; split; [exact HW|]; split; [constructor|]; intros _; exists []; split; [constructor|]; split; constructor). }
  rewrite <- EV in *. assert (L0 : (0 < length v)%nat) by (rewrite EV; cbn; lia). assert (B0 : 0 <= b).
  { rewrite EV in HV. apply Forall_inv in HV. lia. }
  clear EV a0 v0. pose proof (scale_ge1 s Hb) as S1. fold S0 in S1. pose proof (S_pos s Hb) as SP. fold S0 in SP. pose proof (u_pos s Hb) as UP.
  pose proof (u_S s Hb) as US. fold S0 in US.
  set (B := (IZR b / IZR S0)%R).
  assert (RB : (0 <= B)%R). { unfold B. apply Rmult_le_pos; [apply IZR_le; auto|left; apply Rinv_0_lt_compat; lra]. }
  assert (RB1 : ((B + 1) * IZR S0 <= 1073741823)%R).
  { replace ((B + 1) * IZR S0)%R with (IZR (b + S0)); [apply IZR_le; lia|]. rewrite plus_IZR. unfold B. field. lra. }
  set (T := (3 * (length v - 1))%nat).
  assert (ERR : (INR T * ((4 + B) * ulp (s_cfg s)) = IZR (3 * (n - 1) * (4 * S0 + b)) / (IZR S0 * IZR S0))%R).
  { replace (3 * (n - 1)) with (Z.of_nat T) by (unfold T, n; lia). rewrite mult_IZR, plus_IZR, mult_IZR, INR_IZR_INZ.
    unfold B, ulp. fold S0. field. lra. }
  assert (RT : (INR T * ((4 + B) * ulp (s_cfg s)) <= 1)%R).
  { rewrite ERR. apply IZR_le in HB2. rewrite (mult_IZR S0 S0) in HB2. apply Rmult_le_reg_r with (IZR S0 * IZR S0)%R; [nra|]. unfold Rdiv. rewrite Rmult_assoc, Rinv_l by nra. lra. }
  assert (H64 : Forall (fun a => - 2^63 <= a < 2^63) v) by (eapply Forall_impl; [|exact HV]; cbv beta; lia).
  assert (He : (0 < numel [1%nat])%nat) by (cbn; lia).
  assert (SH : Forall (sharing s [1%nat]) l /\ Forall2 (fun a x => dec s 0 x = fixed (s_cfg s) a) v l).
  { clear -HL H64 He. induction HL as [|a x v l H HL IH]; [split; constructor|]. pose proof (Forall_inv H64) as RA. destruct IH as [I1 I2]; [apply Forall_inv_tail in H64; auto|].
    destruct (sharing_of s [1%nat] x [a] H ltac:(constructor; auto)) as [GX _]. split; constructor; auto; [exists [a]; exact GX|].
    unfold dec. rewrite (good_at s [1%nat] 0 He _ _ GX). reflexivity. }
  destruct SH as [SL EL].
  destruct (bubbles_f alpha ev gen s su [1%nat] 0%nat HG Hn Hb ltac:(discriminate) HT HR He B T RB RB1 RT (length l - 1) l SL w false HW)
    as (r & w' & noted & E0 & E & N & _ & (SR & LR) & P).
  assert (VR : exists vr, Forall2 (fun a x => shares_of s [1%nat] [a] x /\ dec s 0 x = fixed (s_cfg s) a) vr r).
  { clear -SR He. induction SR as [|x r (vx & GX) SR (vr & IH)]; [exists []; constructor|].
    destruct (sharing_to s [1%nat] x vx GX) as [SX RX]. destruct (sharing_of s [1%nat] x vx SX RX) as [_ LX]. cbn in LX.
    destruct vx as [|a [|]]; try discriminate. exists (a :: vr). constructor; auto. split; [exact SX|]. unfold dec. rewrite (good_at s [1%nat] 0 He _ _ GX). reflexivity. }
  destruct VR as [vr VR].
  assert (VR1 : Forall2 (fun a x => shares_of s [1%nat] [a] x) vr r) by (clear -VR; induction VR as [|? ? ? ? [? ?]]; constructor; auto).
  assert (FB : forallb (fun x => if list_eq_dec Nat.eq_dec (m_shape x) [1%nat] then true else false) l = true).
  { apply forallb_forall. intros x Hx. clear -HL Hx. induction HL as [|a y v l H HL IH]; [destruct Hx|]. destruct Hx as [->|Hx]; auto.
    destruct H as (_ & -> & _). destruct (list_eq_dec Nat.eq_dec [1%nat] [1%nat]); congruence. }
  exists (if asc then r else rev r), r, w', noted, (if asc then vr else rev vr). unfold sort. rewrite FB. unfold cbind. rewrite E0, E.
  split; [reflexivity|]. split; [reflexivity|]. split; [exact N|]. split.
  { destruct asc; auto. clear -VR1. induction VR1; cbn [rev]; [constructor|]. apply Forall2_app; auto. }
  intros HN. specialize (P HN 0%nat v). cbn [Nat.add] in P.
  assert (PN : near s 0%nat B (2 * (length l - 1)) (bubs (length l - 1) v) r).
  { apply P; auto.
    - eapply Forall_impl; [|exact HV]. intros a Ha. cbv beta in Ha |- *. unfold fixed. fold S0. unfold Rdiv. rewrite Rabs_mult, <- abs_IZR, (Rabs_right (/ IZR S0)).
      + unfold B. apply Rmult_le_compat_r; [left; apply Rinv_0_lt_compat; lra|apply IZR_le; auto].
      + left. apply Rinv_0_lt_compat. lra.
    - unfold T. lia.
    - apply near_exact; auto. }
  apply (near_at s 0%nat Hb B RB) in PN. pose proof (bubs_perm (length l - 1) v) as PP. rewrite <- (Permutation_length PP) in PN.
  replace (2 * (length l - 1) + length v - 1)%nat with T in PN by (unfold T; lia).
  assert (CL : Forall2 (fun a c => Z.abs (c - a) * S0 <= 3 * (n - 1) * (4 * S0 + b)) (bubs (length l - 1) v) vr).
  { rewrite ERR in PN. clear - PN VR SP Hb. set (M := 3 * (n - 1) * (4 * S0 + b)) in *. generalize dependent vr. generalize dependent (bubs (length l - 1) v).
    intros v' PN. induction PN as [|a x v' r H PN IH]; intros vr VR; inversion VR as [|c ? vr' ? [_ DX] VR']; subst; constructor; auto.
    rewrite DX in H. unfold fixed in H. fold S0 in H. apply le_IZR. rewrite mult_IZR, abs_IZR, minus_IZR.
    replace (IZR c / IZR S0 - IZR a / IZR S0)%R with ((IZR c - IZR a) * / IZR S0)%R in H by (field; lra).
    rewrite Rabs_mult, (Rabs_right (/ IZR S0)) in H by (left; apply Rinv_0_lt_compat; lra).
    apply Rmult_le_compat_r with (r := (IZR S0 * IZR S0)%R) in H; [|nra].
    replace (IZR M / (IZR S0 * IZR S0) * (IZR S0 * IZR S0))%R with (IZR M) in H by (field; lra).
    replace (Rabs (IZR c - IZR a) * / IZR S0 * (IZR S0 * IZR S0))%R with (Rabs (IZR c - IZR a) * IZR S0)%R in H by (field; lra). exact H. }
  destruct asc.
  - exists (bubs (length l - 1) v). split; [exact PP|]. rewrite <- LV. split; [apply bubs_sorts|]. rewrite LV. exact CL.
  - exists (rev (bubs (length l - 1) v)). split; [etransitivity; [exact PP|apply Permutation_rev]|]. split; [rewrite <- LV; apply sorted_rev, bubs_sorts|].
    clear -CL. induction CL; cbn [rev]; [constructor|]. apply Forall2_app; auto.
Qed.
Print Assumptions C39_fixed_partial.

(** 1/2, -9/4, 100, 3/65536: sorted, two of them off by a few units *)
Definition C39_fl : list mpc := [fx_x (10^16) [32768]; fx_x (10^16) [-147456]; fx_x (10^16) [6553600]; fx_x (10^16) [3]].
Definition C39_frun (asc : bool) : result (list tensor) * bool :=
  let p := sort (noted_engine t_alpha t_ev toy fx_s toy_supply) m_shape C39_fl asc ((fw0, 0%nat), false) in
  (do r <- fst p; rmap reconstruct (fst r), snd (snd p)).
Example C39_fixed_witness :
  backend_ok t_alpha t_ev toy /\ fixed_pair fx_s /\ supply_ok [1%nat] toy_supply /\
  Forall2 (fun a x => shares_of fx_s [1%nat] [a] x) [32768; -147456; 6553600; 3] C39_fl /\
  Forall (fun a => Z.abs a <= 6553600) [32768; -147456; 6553600; 3] /\
  6553600 + scale (s_cfg fx_s) < 2^30 /\ 3 * (4 - 1) * (4 * scale (s_cfg fx_s) + 6553600) <= scale (s_cfg fx_s) * scale (s_cfg fx_s) /\
  C39_frun true = (Ok [mkT [1%nat] [-147456]; mkT [1%nat] [2]; mkT [1%nat] [32764]; mkT [1%nat] [6553600]], false).
Proof.
  split; [exact toy_good|]. split; [split; [reflexivity|cbn; lia]|]. split; [exact fx_supply1|].
  split. { repeat constructor; discriminate. }
  split; [repeat constructor; discriminate|]. split; [reflexivity|]. split; [discriminate|]. vm_compute. reflexivity.
Qed.
