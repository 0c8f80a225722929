(** sign, modulus, relu, hardtanh and exp in fixed point, one position at a time. *)
From Coq Require Import QArith Reals Qreals Lra String.
From Verif Require Import Util Modular S_Ring S_Tensor S_Wraps S_Div S_Bil S_Spdz S_Circuit S_Fss S_Sort S_Real S_Fixed
  M_Torch M_Encoder M_Tensor M_Share M_Spdz M_Store M_Fss M_Engine M_Approx
  L_Torch L_Tensor L_Share L_Engine L_Fixed.
Local Open Scope Z_scope.
Local Open Scope list_scope.

(** from one position to all of them *)
Lemma sharing_of s sh x v : shares_of s sh v x -> Forall (fun a => - 2^63 <= a < 2^63) v ->
  L_Circuit.good s sh v x /\ length v = numel sh.
Proof.
  intros HX HV. pose proof HX as (X1 & X2 & X3 & X4).
  assert (EV : map (to_ring (2^64)) v = v).
  { rewrite <- (map_id v) at 2. apply map_ext_in. intros a Ha. rewrite Forall_forall in HV. apply small64. auto. }
  rewrite EV in X4. pose proof (shared_vals R64 supR _ _ _ X4) as (LV & _). split; [|exact LV].
  split; [exact X1|split; [exact X2|split; [exact X3|exact X4]]].
Qed.
Lemma sharing_to s sh z vz : L_Circuit.good s sh vz z -> shares_of s sh vz z /\ Forall (fun a => - 2^63 <= a < 2^63) vz.
Proof.
  intros GZ. pose proof GZ as (Z1 & Z2 & Z3 & Z4). pose proof (shared_vals R64 supR _ _ _ Z4) as (LZ & IZ & _).
  assert (RZ : Forall (fun a => - 2^63 <= a < 2^63) vz).
  { apply Forall_forall. intros a Ha. apply in_ring64_range. exact (proj1 (Forall_forall _ _) IZ a Ha). }
  split; [|exact RZ]. split; [exact Z1|]. split; [exact Z2|]. split; [exact Z3|].
  replace (map (to_ring (2^64)) vz) with vz; [exact Z4|]. rewrite <- (map_id vz) at 1. apply map_ext_in.
  intros a Ha. rewrite Forall_forall in RZ. symmetry. apply small64. auto.
Qed.

Lemma computes_intro {K} alpha ev (gen : fop -> nat -> nat -> result (list (list K))) s su sh (F : forall W T, engine W T -> T -> comp W T)
  (f err : R -> R) (P : R -> Prop) :
  (0 < numel sh)%nat ->
  (forall e x, (e < numel sh)%nat -> sharing s sh x ->
    frun (F _ _ (mpc_engine alpha ev gen s su) x) (F _ _ (noted_engine alpha ev gen s su) x) (sharing s sh)
      (fun z => P (dec s e x) -> (Rabs (dec s e z - f (dec s e x)) <= err (dec s e x))%R)) ->
  forall x v w, shares_of s sh v x -> Forall (fun a => - 2^63 <= a < 2^63) v -> Forall (fun a => P (fixed (s_cfg s) a)) v -> none_waiting (fst w) ->
  computes alpha ev gen s su sh F f err x v w.
Proof.
  intros HN H x v w HX HV HP HW. destruct (sharing_of s sh x v HX HV) as [GX LV].
  assert (SX : sharing s sh x) by (exists v; exact GX).
  destruct (H 0%nat x HN SX w false HW) as (z & w' & b' & E0 & E & N & _ & (vz & GZ) & _).
  destruct (sharing_to s sh z vz GZ) as [SZ RZ].
  exists z, w', b', vz. split; [exact E0|]. split; [exact E|]. split; [exact N|]. split; [exact SZ|]. split; [exact RZ|].
  intros HB e He. destruct (H e x He SX w false HW) as (z' & w'' & b'' & F0 & F1 & _ & _ & _ & Q). rewrite E0 in F0. injection F0 as <- <-.
  rewrite E in F1. injection F1 as <-. specialize (Q HB). unfold dec in Q.
  rewrite (good_at s sh e He _ _ GX), (good_at s sh e He _ _ GZ) in Q. apply Q.
  rewrite Forall_forall in HP. apply HP, nth_In. lia.
Qed.

Lemma computes2_intro {K} alpha ev (gen : fop -> nat -> nat -> result (list (list K))) s su sh (F : forall W T, engine W T -> T -> T -> comp W T)
  (f err : R -> R -> R) (P P' : R -> Prop) :
  (0 < numel sh)%nat ->
  (forall e x y, (e < numel sh)%nat -> sharing s sh x -> sharing s sh y ->
    frun (F _ _ (mpc_engine alpha ev gen s su) x y) (F _ _ (noted_engine alpha ev gen s su) x y) (sharing s sh)
      (fun z => P (dec s e x) -> P' (dec s e y) -> (Rabs (dec s e z - f (dec s e x) (dec s e y)) <= err (dec s e x) (dec s e y))%R)) ->
  forall x y v u w, shares_of s sh v x -> shares_of s sh u y ->
  Forall (fun a => - 2^63 <= a < 2^63) v -> Forall (fun a => - 2^63 <= a < 2^63) u ->
  Forall (fun a => P (fixed (s_cfg s) a)) v -> Forall (fun a => P' (fixed (s_cfg s) a)) u -> none_waiting (fst w) ->
  computes2 alpha ev gen s su sh F f err x y v u w.
Proof.
  intros HN H x y v u w HX HY HV HU HP HP' HW. destruct (sharing_of s sh x v HX HV) as [GX LV]. destruct (sharing_of s sh y u HY HU) as [GY LU].
  assert (SX : sharing s sh x) by (exists v; exact GX). assert (SY : sharing s sh y) by (exists u; exact GY).
  destruct (H 0%nat x y HN SX SY w false HW) as (z & w' & b' & E0 & E & N & _ & (vz & GZ) & _).
  destruct (sharing_to s sh z vz GZ) as [SZ RZ].
  exists z, w', b', vz. split; [exact E0|]. split; [exact E|]. split; [exact N|]. split; [exact SZ|]. split; [exact RZ|].
  intros HB e He. destruct (H e x y He SX SY w false HW) as (z' & w'' & b'' & F0 & F1 & _ & _ & _ & Q). rewrite E0 in F0. injection F0 as <- <-.
  rewrite E in F1. injection F1 as <-. specialize (Q HB). unfold dec in Q.
  rewrite (good_at s sh e He _ _ GX), (good_at s sh e He _ _ GY), (good_at s sh e He _ _ GZ) in Q.
  rewrite Forall_forall in HP, HP'. apply Q; [apply HP, nth_In; lia|apply HP', nth_In; lia].
Qed.

Section Algos.
  Context {K : Type} (alpha : K -> Z) (ev : fop -> Z -> Z -> K -> Z)
          (gen : fop -> nat -> nat -> result (list (list K))) (s : sess) (su : tri_supply) (sh : list nat) (e : nat).
  Hypothesis HG : good_gen (fun o k0 k1 => keys_ok alpha ev o k0 k1 /\ no_carry ev o k0) gen.
  Hypothesis Hn : s_n s = 2%nat.
  Hypothesis Hb : 1 <= c_base (s_cfg s).
  Hypothesis Hsh : sh <> [].
  Hypothesis HT : forall k, valid_triples sh sh sh (mul_val sh sh sh) 2 (su_tri su k sh sh).
  Hypothesis HR : forall k, draws (2^64) 2 [1%nat] (su_rnd su k).
  Hypothesis He : (e < numel sh)%nat.
  Notation ME := (mpc_engine alpha ev gen s su).
  Notation NE := (noted_engine alpha ev gen s su).
  Notation S_ := (IZR (scale (s_cfg s))).
  Notation u := (ulp (s_cfg s)).
  Notation dec := (dec s e).
  Notation enc := (enc s).
  Notation sharing := (sharing s sh).
  Open Scope R_scope.
  Hypothesis HS : S_ <= 2147483648.

  Lemma S1 : 1 <= S_. Proof. clear - Hb. apply (S_pos s Hb). Qed.
  Lemma u01 : 0 < u <= 1.
  Proof. clear - Hb. pose proof (u_pos s Hb). pose proof (u_S s Hb). pose proof S1. split; [auto|]. nra. Qed.
  Lemma enc0 : enc (NInt 0) = 0.
  Proof. clear - Hb. apply (enc_int_R s Hb). rewrite Rabs_R0. lra. Qed.
  Lemma encm1 : enc (NInt (-1)) = -1.
  Proof. clear - Hb HS. apply (enc_int_R s Hb). rewrite Rabs_left by lra. lra. Qed.
  Lemma enc1 : enc (NInt 1) = 1.
  Proof. clear - Hb HS. apply (enc_int_R s Hb). rewrite Rabs_right by lra. lra. Qed.

  Lemma bound1 r B : Rabs r <= B -> B * S_ < 9223372036854775808 -> Rabs r * S_ < 9223372036854775808.
  Proof. clear - Hb. intros H1 H2. pose proof S1. eapply Rle_lt_trans; [apply Rmult_le_compat_r; [lra|exact H1]|exact H2]. Qed.
  Lemma bound2 r B : Rabs r <= B -> B * (S_ * S_) < 9223372036854775808 -> Rabs r * (S_ * S_) < 9223372036854775808.
  Proof. clear - Hb. intros H1 H2. pose proof S1. eapply Rle_lt_trans; [apply Rmult_le_compat_r; [nra|exact H1]|exact H2]. Qed.

  Definition fits (r : R) : Prop := Rabs r * S_ < 2147483647.
  Lemma fits_prod r t : fits r -> Rabs t <= 2 -> Rabs (r * t) * (S_ * S_) < 9223372036854775808.
  Proof.
    clear - Hb HS. unfold fits. intros H1 H2. pose proof S1. pose proof (Rabs_pos r). rewrite Rabs_mult.
    apply Rle_lt_trans with ((Rabs r * S_) * 2 * S_).
    - replace (Rabs r * Rabs t * (S_ * S_)) with ((Rabs r * S_) * Rabs t * S_) by ring. apply Rmult_le_compat_r; [lra|].
      apply Rmult_le_compat_l; [nra|exact H2].
    - apply Rlt_le_trans with (2147483647 * 2 * S_); [|lra]. apply Rmult_lt_compat_r; [lra|]. lra.
  Qed.

  Ltac rng := first [assumption | lra].

  Lemma sign_f x : sharing x -> frun (sign ME x) (sign NE x) sharing (fun z => fits (dec x) -> Rabs (dec z - sgn_R (dec x)) <= u).
  Proof.
    clear HT. pose proof S1 as P1. pose proof u01 as P2. intros SX. unfold sign.
    eapply f_bind; [apply (f_relp alpha ev gen s su sh e HG Hn Hb Hsh HR He Rgt x (NInt 0)); [discriminate|lra|exact SX]|]. intros p SP.
    eapply f_bind; [apply (f_relp alpha ev gen s su sh e HG Hn Hb Hsh HR He Rlt x (NInt 0)); [discriminate|lra|exact SX]|]. intros n SN.
    eapply f_bind; [apply (f_mulp_int alpha ev gen s su sh e Hn Hb Hsh He n (-1) SN); rewrite Rabs_left by lra; lra|]. intros m SM.
    eapply f_weaken; [apply (f_lin alpha ev gen s su sh e Hb He LAdd p m SP SM)|].
    intros z _ EL EM EN EP HB. rewrite enc0, Rminus_0_r in *. specialize (EP HB). specialize (EN HB). cbn [rop_of rel_R lin_R] in *.
    assert (HN : 0 <= dec n <= 1) by (rewrite EN; destruct (Rlt_dec (dec x) 0); lra).
    assert (HP : 0 <= dec p <= 1) by (rewrite EP; destruct (Rlt_dec 0 (dec x)); lra).
    assert (M : Rabs (dec m - dec n * -1) <= u).
    { apply EM. apply (bound2 _ 1); [apply Rabs_le; lra|nra]. }
    assert (AM : -2 <= dec m <= 1) by (unfold Rabs in M; destruct (Rcase_abs _); lra).
    rewrite EL by (apply (bound1 _ 3); [apply Rabs_le; lra|lra]).
    replace (dec p + dec m - sgn_R (dec x)) with (dec m - dec n * -1); [exact M|].
    rewrite EN, EP. unfold sgn_R. destruct (Rlt_dec 0 (dec x)), (Rlt_dec (dec x) 0); lra.
  Qed.

  Lemma sgn_abs' x : sgn_R x * x = Rabs x.
  Proof. clear. unfold sgn_R, Rabs. destruct (Rlt_dec 0 x), (Rcase_abs x); try destruct (Rlt_dec x 0); lra. Qed.
  Lemma sgn_range x : -1 <= sgn_R x <= 1.
  Proof. clear. unfold sgn_R. destruct (Rlt_dec 0 x); [lra|]. destruct (Rlt_dec x 0); lra. Qed.

  Lemma modulus_f x : sharing x ->
    frun (modulus ME x) (modulus NE x) sharing (fun z => fits (dec x) -> Rabs (dec z - Rabs (dec x)) <= u * Rabs (dec x) + 2 * u).
  Proof.
    pose proof S1 as P1. pose proof u01 as P2. intros SX. unfold modulus.
    eapply f_bind; [apply sign_f; exact SX|]. intros g SG.
    eapply f_weaken; [apply (f_mul alpha ev gen s su sh e Hn Hb HT He g x SG SX)|]. intros z _ EM EG HB. specialize (EG HB).
    pose proof (sgn_range (dec x)) as RG.
    assert (AG : Rabs (dec g) <= 2) by (apply Rabs_le; unfold Rabs in EG; destruct (Rcase_abs _); lra).
    destruct EM as [EM _]; [rewrite (Rmult_comm (dec g)); apply fits_prod; auto|].
    replace (dec z - Rabs (dec x)) with ((dec z - dec g * dec x) + (dec g - sgn_R (dec x)) * dec x) by (rewrite <- sgn_abs'; ring).
    eapply Rle_trans; [apply Rabs_triang|]. rewrite Rabs_mult. pose proof (Rabs_pos (dec x)).
    assert (Rabs (dec g - sgn_R (dec x)) * Rabs (dec x) <= u * Rabs (dec x)) by (apply Rmult_le_compat_r; auto). lra.
  Qed.

  Lemma relu_f x : sharing x -> frun (relu ME x) (relu NE x) sharing (fun z => fits (dec x) -> Rabs (dec z - Rmax 0 (dec x)) <= u).
  Proof.
    pose proof S1 as P1. pose proof u01 as P2. intros SX. unfold relu.
    eapply f_bind; [apply (f_relp alpha ev gen s su sh e HG Hn Hb Hsh HR He Rge x (NInt 0)); [discriminate|lra|exact SX]|]. intros b SB.
    eapply f_weaken; [apply (f_mul alpha ev gen s su sh e Hn Hb HT He x b SX SB)|].
    intros z _ EM EB HB. rewrite enc0, Rminus_0_r in *. specialize (EB HB). cbn [rop_of rel_R] in EB.
    assert (AB : Rabs (dec b) <= 2) by (rewrite EB; destruct (Rle_dec 0 (dec x)); [rewrite Rabs_right|rewrite Rabs_R0]; lra).
    destruct EM as [_ EM]; [apply fits_prod; auto|].
    replace (Rmax 0 (dec x)) with (dec x * dec b) by (rewrite EB; unfold Rmax; destruct (Rle_dec 0 (dec x)); lra).
    apply (EM (if Rle_dec 0 (dec x) then 1 else 0)%Z). right. rewrite EB. destruct (Rle_dec 0 (dec x)); reflexivity.
  Qed.

  Lemma fits_lt r : fits r -> Rabs r * S_ < 2147483647. Proof. auto. Qed.

  Lemma hardtanh_f lo hi x : sharing x -> enc lo <= enc hi -> fits (enc lo) -> fits (enc hi) ->
    frun (hardtanh ME lo hi x) (hardtanh NE lo hi x) sharing
      (fun z => fits (dec x) -> fits (dec x - enc lo) -> fits (dec x - enc hi) -> Rabs (dec z - Rmax (enc lo) (Rmin (enc hi) (dec x))) <= 2 * u).
  Proof.
    pose proof S1 as P1. pose proof u01 as P2. intros SX HLH HL HH. unfold hardtanh.
    eapply f_bind; [apply (f_linp alpha ev gen s su sh e Hb Hsh He LSub x lo SX)|]. intros a SA.
    eapply f_bind; [apply relu_f; exact SA|]. intros ra SRA.
    eapply f_bind; [apply (f_linp alpha ev gen s su sh e Hb Hsh He LSub x hi SX)|]. intros b SB.
    eapply f_bind; [apply relu_f; exact SB|]. intros rb SRB.
    eapply f_bind; [apply (f_lin alpha ev gen s su sh e Hb He LSub ra rb SRA SRB)|]. intros i SI.
    eapply f_weaken; [apply (f_linp alpha ev gen s su sh e Hb Hsh He LAdd i lo SI)|].
    intros z _ EZ EI ERB EB ERA EA HX HA HB. cbn [lin_R] in *. unfold fits in *.
    rewrite EA in ERA by lra. rewrite EB in ERB by lra. specialize (ERA HA). specialize (ERB HB).
    clear EA EB. set (X := dec x) in *. set (l := enc lo) in *. set (h := enc hi) in *.
    assert (RA : Rabs (dec ra) * S_ <= 2147483648).
    { assert (Rabs (dec ra) <= Rabs (X - l) + u).
      { replace (dec ra) with ((dec ra - Rmax 0 (X - l)) + Rmax 0 (X - l)) by ring. eapply Rle_trans; [apply Rabs_triang|].
        assert (Rabs (Rmax 0 (X - l)) <= Rabs (X - l)); [|lra]. unfold Rmax. destruct (Rle_dec 0 (X - l)); [lra|]. rewrite Rabs_R0. apply Rabs_pos. }
      pose proof (u_S s Hb). nra. }
    assert (RB : Rabs (dec rb) * S_ <= 2147483648).
    { assert (Rabs (dec rb) <= Rabs (X - h) + u).
      { replace (dec rb) with ((dec rb - Rmax 0 (X - h)) + Rmax 0 (X - h)) by ring. eapply Rle_trans; [apply Rabs_triang|].
        assert (Rabs (Rmax 0 (X - h)) <= Rabs (X - h)); [|lra]. unfold Rmax. destruct (Rle_dec 0 (X - h)); [lra|]. rewrite Rabs_R0. apply Rabs_pos. }
      pose proof (u_S s Hb). nra. }
    assert (TI : Rabs (dec ra - dec rb) <= Rabs (dec ra) + Rabs (dec rb)).
    { eapply Rle_trans; [apply Rabs_triang|]. rewrite Rabs_Ropp. lra. }
    rewrite EI in EZ by nra. rewrite EZ.
    2:{ eapply Rle_lt_trans; [apply Rmult_le_compat_r; [lra|apply Rabs_triang]|]. nra. }
    replace (dec ra - dec rb + l - Rmax l (Rmin h X)) with ((dec ra - Rmax 0 (X - l)) - (dec rb - Rmax 0 (X - h))).
    { eapply Rle_trans; [apply Rabs_triang|]. rewrite Rabs_Ropp. lra. }
    unfold Rmax, Rmin. destruct (Rle_dec 0 (X - l)), (Rle_dec 0 (X - h)), (Rle_dec h X); destruct (Rle_dec l _); lra.
  Qed.
  Close Scope R_scope.
End Algos.
