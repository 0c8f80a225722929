(** sigmoid, tanh and quotients with the default encoder, one position at a time. *)
From Coq Require Import QArith Reals Qreals Lra String.
From Verif Require Import Util Modular S_Ring S_Tensor S_Wraps S_Div S_Bil S_Spdz S_Circuit S_Fss S_Sort S_Real S_Sigmoid S_Fixed
  M_Torch M_Encoder M_Tensor M_Share M_Spdz M_Store M_Fss M_Engine M_Approx M_GradFun
  L_Torch L_Tensor L_Share L_Engine L_Real L_Sigmoid L_Fixed L_Fixed2 L_FixedR L_FixedN L_Fixed3.
Local Open Scope Z_scope.
Local Open Scope list_scope.

Open Scope R_scope.
Lemma exp_small t : Rabs t <= 3 / 100 -> Rabs (exp t - 1) <= 104 / 100 * Rabs t.
Proof.
  intros H. apply abs_in in H. pose proof (exp_ineq1_le t) as A. pose proof (exp_ineq1_le (- t)) as B. rewrite exp_Ropp in B.
  pose proof (exp_pos t) as P. apply (Rmult_le_compat_r (exp t)) in B; [|lra]. rewrite Rinv_l in B by lra.
  assert (C : exp t - 1 <= t * exp t) by lra.
  unfold Rabs. destruct (Rcase_abs (exp t - 1)), (Rcase_abs t); nra.
Qed.

(** the operand of exp, its value, and the denominator *)
Lemma sig_exp x e E : Rabs x <= 499 -> Rabs (e + Rabs x) <= 3 * U * Rabs x + 5 * U -> Rabs (E - limexp 8 e) <= 1042 * U ->
  Rabs (E - exp (- Rabs x)) <= 185 / 10000.
Proof.
  intros Hx He HE. pose proof (Rabs_pos x) as P. set (t := Rabs x) in *. clearbody t.
  assert (S1 : Rabs (e + t) <= 3 / 100) by lra. pose proof (exp_small _ S1) as X.
  assert (Q : exp e = exp (- t) * exp (e + t)) by (rewrite <- exp_plus; f_equal; lra).
  pose proof (xexp_le t P) as X1. pose proof (exp_pos (- t)) as EP.
  assert (E1 : exp (- t) <= 1).
  { pose proof (exp_neg_le t P). assert (/ (1 + t) <= / 1) by (apply Rinv_le_contravar; lra). lra. }
  assert (D : Rabs (exp e - exp (- t)) <= 8 * U).
  { rewrite Q. replace (exp (- t) * exp (e + t) - exp (- t)) with (exp (- t) * (exp (e + t) - 1)) by ring.
    rewrite Rabs_mult, (Rabs_right (exp (- t))) by lra.
    apply Rle_trans with (exp (- t) * (104 / 100 * (3 * U * t + 5 * U))); [apply Rmult_le_compat_l; lra|]. nra. }
  assert (L : Rabs (limexp 8 e - exp e) <= 24 / 10000).
  { apply abs_in in S1. destruct (Rle_dec e 0) as [N|N].
    - destruct (limexp_close (- e)) as [_ C]; [lra|]. rewrite Ropp_involutive in C. exact C.
    - apply Rnot_le_lt in N. destruct (exp_below 8 e) as [_ B1]; [replace (2 ^ 8) with 256 by lra; lra|]. pose proof (exp_above 8 e) as B2.
      assert (R : Rabs e < 2 ^ 8) by (replace (2 ^ 8) with 256 by lra; rewrite Rabs_right by lra; lra). specialize (B2 R). replace (2 ^ 8) with 256 in B2 by lra.
      assert (exp e <= 2) by (apply abs_in in D; lra).
      apply Rabs_le. assert (e * e <= 9 / 10000) by nra. split; [nra|lra]. }
  apply abs_in in D, L, HE. apply Rabs_le. lra.
Qed.

Lemma sig_recip x d r : Rabs (d - (1 + exp (- Rabs x))) <= 186 / 10000 -> 1 - 4 * U <= d -> Rabs (r - 1 / d) <= 28 * U ->
  Rabs (r - logistic (Rabs x)) <= 191 / 10000.
Proof.
  intros Hd Hl Hr. pose proof (exp_pos (- Rabs x)) as EP. unfold logistic.
  set (D := 1 + exp (- Rabs x)) in *. assert (HD : 1 <= D) by (unfold D; lra). clearbody D.
  assert (Q : Rabs (1 / d - / D) <= 1861 / 100000).
  { replace (1 / d - / D) with ((D - d) * / (d * D)) by (field; lra).
    assert (P : 9999 / 10000 <= d * D) by nra. rewrite Rabs_mult, (Rabs_right (/ (d * D))) by (left; apply Rinv_0_lt_compat; lra).
    assert (I : / (d * D) <= / (9999 / 10000)) by (apply Rinv_le_contravar; lra).
    rewrite Rabs_minus_sym in Hd. apply Rle_trans with (186 / 10000 * / (9999 / 10000)); [|lra].
    apply Rmult_le_compat; auto using Rabs_pos. left. apply Rinv_0_lt_compat. lra. }
  apply abs_in in Q, Hr. apply Rabs_le. lra.
Qed.

Lemma logistic_sgn x : (logistic (Rabs x) - 1 / 2) * sgn_R x + 1 / 2 = logistic x.
Proof.
  unfold sgn_R. destruct (Rlt_dec 0 x) as [|].
  - rewrite Rabs_right by lra. lra.
  - destruct (Rlt_dec x 0).
    + rewrite Rabs_left, logistic_opp by lra. lra.
    + assert (x = 0) by lra. subst. unfold logistic. rewrite Ropp_0, exp_0. lra.
Qed.

Lemma logistic_lip x y : Rabs (logistic x - logistic y) <= Rabs (x - y).
Proof.
  assert (M : forall a b, a < b -> Rabs (logistic b - logistic a) <= b - a).
  { intros a b H. destruct (MVT_cor2 logistic (fun c => logistic c * (1 - logistic c)) a b H) as (c & E & _); [intros; apply logistic_deriv|].
    rewrite E, Rabs_mult, (Rabs_right (b - a)) by lra. pose proof (logistic_range c). rewrite Rabs_right by nra. nra. }
  destruct (Rtotal_order x y) as [H|[H|H]].
  - rewrite Rabs_minus_sym, (Rabs_minus_sym x y), (Rabs_right (y - x)) by lra. apply M; auto.
  - subst. rewrite !Rminus_diag_eq by auto. rewrite Rabs_R0. lra.
  - rewrite (Rabs_right (x - y)) by lra. apply M. lra.
Qed.
Close Scope R_scope.

Section Default.
  Context {K : Type} (alpha : K -> Z) (ev : fop -> Z -> Z -> K -> Z)
          (gen : fop -> nat -> nat -> result (list (list K))) (s : sess) (su : tri_supply) (sh : list nat) (e : nat).
  Hypothesis HG : good_gen (fun o k0 k1 => keys_ok alpha ev o k0 k1 /\ no_carry ev o k0) gen.
  Hypothesis Hn : s_n s = 2%nat.
  Hypothesis Hc : s_cfg s = mkConfig 2 16.
  Hypothesis Hsh : sh <> [].
  Hypothesis HT : forall k, valid_triples sh sh sh (mul_val sh sh sh) 2 (su_tri su k sh sh).
  Hypothesis HR : forall k, draws (2^64) 2 [1%nat] (su_rnd su k).
  Hypothesis He : (e < numel sh)%nat.
  Notation ME := (mpc_engine alpha ev gen s su).
  Notation NE := (noted_engine alpha ev gen s su).
  Notation dec := (dec s e).
  Notation enc := (enc s).
  Notation sharing := (sharing s sh).
  Open Scope R_scope.

  Lemma sigmoid_f cs x : sharing x ->
    frun (sigmoid ME SExp cs x) (sigmoid NE SExp cs x) sharing (fun z => Rabs (dec x) <= 499 -> Rabs (dec z - logistic (dec x)) <= 1 / 50).
  Proof.
    pose proof (base1 s Hc) as Hb. pose proof (u_val s Hc) as UV. pose proof (HS2 s Hc) as H2. intros SX. cbn [sigmoid].
    eapply f_bind; [apply (sign_f alpha ev gen s su sh e HG Hn Hb Hsh HR He H2 x SX)|]. intros q SQ.
    eapply f_bind; [apply (f_mul alpha ev gen s su sh e Hn Hb HT He x q SX SQ)|]. intros v SV.
    eapply f_bind; [apply (f_mulp_int alpha ev gen s su sh e Hn Hb Hsh He x 0 SX); rewrite Rabs_R0; lra|]. intros o0 SO0.
    eapply f_bind; [apply (f_linp alpha ev gen s su sh e Hb Hsh He LAdd o0 (NInt 1) SO0)|]. intros o SO.
    eapply f_bind; [apply (f_div alpha ev gen s su sh e Hn Hb He o 2 ltac:(lia) SO)|]. intros h SH.
    eapply f_bind; [apply (f_mulp_int alpha ev gen s su sh e Hn Hb Hsh He o (-1) SO); apply (small1 s Hc _ 1); [rewrite Rabs_left; lra|lra]|]. intros m SM.
    eapply f_bind; [apply (f_mul alpha ev gen s su sh e Hn Hb HT He m v SM SV)|]. intros ee SE0.
    eapply f_bind; [apply (exp_low alpha ev gen s su sh e Hn Hc Hsh HT He ee SE0)|]. intros E SE.
    eapply f_bind; [apply (f_lin alpha ev gen s su sh e Hb He LAdd o E SO SE)|]. intros d SD.
    eapply f_bind; [apply (reciprocal_f alpha ev gen s su sh e HG Hn Hc Hsh HT HR He d SD)|]. intros r SR.
    eapply f_bind; [apply (f_lin alpha ev gen s su sh e Hb He LSub r h SR SH)|]. intros r1 SR1.
    eapply f_bind; [apply (f_mul alpha ev gen s su sh e Hn Hb HT He r1 q SR1 SQ)|]. intros r2 SR2.
    eapply f_weaken; [apply (f_lin alpha ev gen s su sh e Hb He LAdd r2 h SR2 SH)|].
    intros z _ EZ ER2 ER1 ER ED EE EEE EM EH EO EO0 EV EQ HX. cbn [lin_R] in EZ, ER1, ED, EO. rewrite UV in *.
    rewrite (enc_k s Hc 1) in EO by (rewrite Rabs_right; lra).
    pose proof (abs_in _ _ HX) as HX'. pose proof (sgn_range (dec x)) as SG.
    assert (FX : fits s (dec x)) by (apply (fits_val s Hc); lra). specialize (EQ FX).
    assert (O0 : Rabs (dec o0) <= U).
    { replace (dec o0) with (dec o0 - dec x * 0) by ring. apply EO0. rewrite Rmult_0_r, Rabs_R0. lra. }
    apply abs_in in O0. assert (O1 : dec o = dec o0 + 1) by (apply EO, (small1 s Hc _ 2); [apply Rabs_le; lra|lra]).
    apply abs_in in EH.
    assert (V1 : Rabs (dec v - dec x * dec q) <= 2 * U).
    { apply EV, (small2 s Hc). apply Rle_lt_trans with (499 * 2); [|lra]. rewrite Rabs_mult. apply Rmult_le_compat; auto using Rabs_pos.
      apply abs_in in EQ. apply Rabs_le. clear - EQ SG. lra. }
    pose proof (Rabs_pos (dec x)) as PX.
    assert (V : Rabs (dec v - Rabs (dec x)) <= U * Rabs (dec x) + 2 * U).
    { rewrite <- (sgn_abs' (dec x)) at 1.
      replace (dec v - sgn_R (dec x) * dec x) with ((dec v - dec x * dec q) + dec x * (dec q - sgn_R (dec x))) by ring.
      eapply Rle_trans; [apply Rabs_triang|]. rewrite Rabs_mult.
      assert (Rabs (dec x) * Rabs (dec q - sgn_R (dec x)) <= Rabs (dec x) * U) by (apply Rmult_le_compat_l; auto). clear - V1 H. lra. }
    pose proof (abs_in _ _ V) as V'.
    assert (M : Rabs (dec m - dec o * -1) <= U) by (apply EM, (small2 s Hc), Rabs_def1; clear - O0 O1; lra). apply abs_in in M.
    assert (E0 : Rabs (dec ee - dec m * dec v) <= 2 * U).
    { apply EEE, (small2 s Hc). apply Rle_lt_trans with (2 * 600); [|clear; lra]. rewrite Rabs_mult.
      apply Rmult_le_compat; auto using Rabs_pos; apply Rabs_le; clear - M O0 O1 V' HX PX; lra. }
    assert (E1 : Rabs (dec ee + Rabs (dec x)) <= 3 * U * Rabs (dec x) + 5 * U).
    { replace (dec ee + Rabs (dec x)) with ((dec ee - dec m * dec v) + (dec m + 1) * dec v - (dec v - Rabs (dec x))) by ring.
      assert (A : Rabs ((dec m + 1) * dec v) <= 2 * U * (Rabs (dec x) + U * Rabs (dec x) + 2 * U)).
      { rewrite Rabs_mult. apply Rmult_le_compat; auto using Rabs_pos; apply Rabs_le; clear - M O0 O1 V' HX PX; lra. }
      apply abs_in in A, E0. apply Rabs_le. clear - A E0 V' HX PX. lra. }
    pose proof (abs_in _ _ E1) as E1'. destruct EE as (E2 & E3 & _); [clear - E1' HX PX; lra|].
    pose proof (sig_exp _ _ _ HX E1 E2) as E4. pose proof (abs_in _ _ E4) as E4'.
    assert (EX : 0 < exp (- Rabs (dec x)) <= 1).
    { split; [apply exp_pos|]. pose proof (exp_neg_le _ PX). assert (/ (1 + Rabs (dec x)) <= / 1) by (apply Rinv_le_contravar; clear - PX; lra). clear - H H0. lra. }
    assert (D1 : dec d = dec o + dec E) by (apply ED, (small1 s Hc _ 4); [apply Rabs_le; clear - O0 O1 E4' EX; lra|clear; lra]).
    assert (D3 : 99 / 100 <= dec d <= 39 / 10) by (clear - D1 O0 O1 E3 E4' EX; lra).
    destruct ER as [_ ER]; [rewrite Rabs_right; clear - D3; lra|]. assert (D2 : Rabs (dec d) <= 39 / 10) by (apply Rabs_le; clear - D3; lra). specialize (ER D2).
    assert (R0 : Rabs (dec r - logistic (Rabs (dec x))) <= 191 / 10000).
    { apply (sig_recip _ (dec d)); auto; [apply Rabs_le|]; clear - D1 O0 O1 E3 E4'; lra. }
    pose proof (abs_in _ _ R0) as R0'. pose proof (logistic_range (Rabs (dec x))) as LR.
    assert (HB : 49 / 100 <= dec h <= 51 / 100) by (clear - EH O0 O1; lra).
    assert (R1 : dec r1 = dec r - dec h) by (apply ER1, (small1 s Hc _ 4); [apply Rabs_le; clear - R0' LR HB; lra|clear; lra]).
    assert (R2 : Rabs (dec r2 - dec r1 * dec q) <= 2 * U).
    { apply ER2, (small2 s Hc). apply Rle_lt_trans with (4 * 2); [|clear; lra]. rewrite Rabs_mult. apply abs_in in EQ.
      apply Rmult_le_compat; auto using Rabs_pos; apply Rabs_le; clear - EQ SG R0' LR HB R1; lra. }
    assert (R3 : Rabs (dec r2 - (logistic (Rabs (dec x)) - 1 / 2) * sgn_R (dec x)) <= 191 / 10000 + 8 * U).
    { replace (dec r2 - (logistic (Rabs (dec x)) - 1 / 2) * sgn_R (dec x)) with
        ((dec r2 - dec r1 * dec q) + dec r1 * (dec q - sgn_R (dec x)) + (dec r1 - (logistic (Rabs (dec x)) - 1 / 2)) * sgn_R (dec x)) by ring.
      assert (A : Rabs (dec r1 * (dec q - sgn_R (dec x))) <= 3 * U)
        by (rewrite Rabs_mult; apply Rmult_le_compat; auto using Rabs_pos; apply Rabs_le; clear - R0' LR HB R1; lra).
      assert (B : Rabs ((dec r1 - (logistic (Rabs (dec x)) - 1 / 2)) * sgn_R (dec x)) <= (191 / 10000 + 3 * U) * 1)
        by (rewrite Rabs_mult; apply Rmult_le_compat; auto using Rabs_pos; apply Rabs_le; clear - SG R0' EH O0 O1 R1; lra).
      apply abs_in in A, B, R2. apply Rabs_le. clear - A B R2. lra. }
    pose proof (logistic_sgn (dec x)) as LS. pose proof (logistic_range (dec x)) as LX.
    apply abs_in in R3. rewrite EZ by (apply (small1 s Hc _ 4); [apply Rabs_le; clear - R3 LS LX HB; lra|clear; lra]).
    apply Rabs_le. clear - R3 LS LX EH O0 O1. lra.
  Qed.

  Lemma tanh_f cs x : sharing x ->
    frun (tanh_a ME TSigmoid cs x) (tanh_a NE TSigmoid cs x) sharing (fun z => Rabs (dec x) <= 249 -> Rabs (dec z - tanh (dec x)) <= 1 / 24).
  Proof.
    pose proof (base1 s Hc) as Hb. pose proof (u_val s Hc) as UV. intros SX. cbn [tanh_a].
    eapply f_bind; [apply (f_mulp_int alpha ev gen s su sh e Hn Hb Hsh He x 2 SX); apply (small1 s Hc _ 2); [rewrite Rabs_right; lra|lra]|]. intros d SD.
    eapply f_bind; [apply (sigmoid_f cs d SD)|]. intros g SG.
    eapply f_bind; [apply (f_mulp_int alpha ev gen s su sh e Hn Hb Hsh He g 2 SG); apply (small1 s Hc _ 2); [rewrite Rabs_right; lra|lra]|]. intros g2 SG2.
    eapply f_weaken; [apply (f_linp alpha ev gen s su sh e Hb Hsh He LSub g2 (NInt 1) SG2)|].
    intros z _ EZ EG2 EG ED HX. cbn [lin_R] in EZ. rewrite UV in *. rewrite (enc_k s Hc 1) in EZ by (rewrite Rabs_right; lra).
    apply abs_in in HX. assert (D : Rabs (dec d - dec x * 2) <= U) by (apply ED, (small2 s Hc), Rabs_def1; lra). pose proof (abs_in _ _ D) as D'.
    assert (G : Rabs (dec g - logistic (dec d)) <= 1 / 50) by (apply EG, Rabs_le; lra). apply abs_in in G.
    pose proof (logistic_lip (dec d) (dec x * 2)) as L. pose proof (Rle_trans _ _ _ L D) as L'. apply abs_in in L'.
    pose proof (logistic_range (dec d)). assert (G2 : Rabs (dec g2 - dec g * 2) <= U) by (apply EG2, (small2 s Hc), Rabs_def1; lra). apply abs_in in G2.
    rewrite EZ by (apply (small1 s Hc _ 4); [apply Rabs_le; lra|lra]). rewrite tanh_logistic, (Rmult_comm 2 (dec x)). apply Rabs_le. lra.
  Qed.

  (** a quotient with a secret divisor *)
  Lemma div_f x y : sharing x -> sharing y ->
    frun (div_private ME 2 x y) (div_private NE 2 x y) sharing
      (fun z => Rabs (dec x) <= 1000000 -> 1 / 2 <= Rabs (dec y) <= 50 ->
                Rabs (dec z - dec x / dec y) <= Rabs (dec x) / 400 + 2 * U /\
                (Rabs (dec y) <= 39 / 10 -> Rabs (dec z - dec x / dec y) <= 28 * U * Rabs (dec x) + 2 * U)).
  Proof.
    pose proof (base1 s Hc) as Hb. pose proof (u_val s Hc) as UV. intros SX SY. unfold div_private. cbn [Nat.ltb Nat.leb].
    eapply f_bind; [apply (reciprocal_f alpha ev gen s su sh e HG Hn Hc Hsh HT HR He y SY)|]. intros r SR.
    eapply f_weaken; [apply (f_mul alpha ev gen s su sh e Hn Hb HT He x r SX SR)|].
    intros z _ EZ ER HX HY. rewrite UV in *. destruct (ER HY) as [E1 E2].
    assert (Y : Rabs (1 / dec y) <= 2).
    { unfold Rdiv. rewrite Rmult_1_l, Rabs_inv. replace 2 with (/ (1 / 2)) by lra. apply Rinv_le_contravar; lra. }
    assert (R : Rabs (dec r) <= 3).
    { replace (dec r) with ((dec r - 1 / dec y) + 1 / dec y) by ring. eapply Rle_trans; [apply Rabs_triang|]. lra. }
    assert (P : Rabs (dec z - dec x * dec r) <= 2 * U).
    { apply EZ, (small2 s Hc). rewrite Rabs_mult. apply Rle_lt_trans with (1000000 * 3); [apply Rmult_le_compat; auto using Rabs_pos|lra]. }
    assert (F : forall B, Rabs (dec r - 1 / dec y) <= B -> Rabs (dec z - dec x / dec y) <= B * Rabs (dec x) + 2 * U).
    { intros B HB. replace (dec z - dec x / dec y) with ((dec z - dec x * dec r) + dec x * (dec r - 1 / dec y)) by (unfold Rdiv; ring).
      eapply Rle_trans; [apply Rabs_triang|]. rewrite (Rabs_mult (dec x)).
      assert (Rabs (dec x) * Rabs (dec r - 1 / dec y) <= Rabs (dec x) * B) by (apply Rmult_le_compat_l; auto using Rabs_pos). lra. }
    split; [pose proof (F _ E1); lra|]. intros Q. apply (F _ (E2 Q)).
  Qed.

  Lemma rdiv_f k y : Rabs (IZR k) <= 1000000 -> sharing y ->
    frun (rdiv ME (NInt k) y) (rdiv NE (NInt k) y) sharing
      (fun z => 1 / 2 <= Rabs (dec y) <= 50 -> Rabs (dec z - IZR k / dec y) <= Rabs (IZR k) / 400 + U).
  Proof.
    pose proof (base1 s Hc) as Hb. pose proof (u_val s Hc) as UV. intros HK SY. unfold rdiv.
    eapply f_bind; [apply (reciprocal_f alpha ev gen s su sh e HG Hn Hc Hsh HT HR He y SY)|]. intros r SR.
    eapply f_weaken; [apply (f_mulp_int alpha ev gen s su sh e Hn Hb Hsh He r k SR); apply (small1 s Hc _ _ HK); lra|].
    intros z _ EZ ER HY. rewrite UV in *. destruct (ER HY) as [E1 _].
    assert (Y : Rabs (1 / dec y) <= 2).
    { unfold Rdiv. rewrite Rmult_1_l, Rabs_inv. replace 2 with (/ (1 / 2)) by lra. apply Rinv_le_contravar; lra. }
    assert (R : Rabs (dec r) <= 3).
    { replace (dec r) with ((dec r - 1 / dec y) + 1 / dec y) by ring. eapply Rle_trans; [apply Rabs_triang|]. lra. }
    assert (P : Rabs (dec z - dec r * IZR k) <= U).
    { apply EZ, (small2 s Hc). rewrite Rabs_mult. apply Rle_lt_trans with (3 * 1000000); [apply Rmult_le_compat; auto using Rabs_pos|lra]. }
    replace (dec z - IZR k / dec y) with ((dec z - dec r * IZR k) + IZR k * (dec r - 1 / dec y)) by (unfold Rdiv; ring).
    eapply Rle_trans; [apply Rabs_triang|]. rewrite (Rabs_mult (IZR k)).
    assert (Rabs (IZR k) * Rabs (dec r - 1 / dec y) <= Rabs (IZR k) * (1 / 400)) by (apply Rmult_le_compat_l; auto using Rabs_pos). lra.
  Qed.
  Close Scope R_scope.
End Default.
