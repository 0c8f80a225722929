(** Accuracy of the sigmoid with the "exp" method and of division by a secret. *)
From Coq Require Import QArith Reals Qreals Lra Lia.
From Verif Require Import Util M_Encoder M_Share M_Fss M_Engine M_Approx M_GradFun S_Real S_Sigmoid L_Real L_Softmax.
Local Open Scope R_scope.

Lemma sigmoid_exp_R cs x r : gives (reciprocal real_engine RNewton 10 (1 + limexp 8 (- Rabs x))) r ->
  gives (sigmoid real_engine SExp cs x) ((r - 1 / 2) * sgn_R x + 1 / 2).
Proof.
  intros G. cbn [sigmoid]. eapply gives_bind; [apply sign_R|]. eapply gives_bind; [run; reflexivity|].
  do 5 (eapply gives_bind; [run; reflexivity|]). eapply gives_bind; [apply exp_R|].
  eapply gives_bind; [run; reflexivity|].
  eapply gives_bind.
  { rewrite sgn_abs. replace (x * 0 + 1) with 1 by ring. replace (1 * -1 * Rabs x) with (- Rabs x) by ring. exact G. }
  run. do 2 f_equal. lra.
Qed.

Lemma exp_neg_le t : 0 <= t -> exp (- t) <= / (1 + t).
Proof.
  intros H. rewrite exp_Ropp. apply Rinv_le_contravar; [lra|]. apply exp_ineq1_le.
Qed.

Lemma xexp_le y : 0 <= y -> y * exp (- y) <= 39 / 100.
Proof.
  intros Hy. assert (A : y * exp (- y) <= exp (- (1))).
  { replace (- (1)) with ((y - 1) + - y) by lra. rewrite exp_plus. apply Rmult_le_compat_r; [left; apply exp_pos|].
    pose proof (exp_ineq1_le (y - 1)). lra. }
  assert (B : exp (- (1)) <= 39 / 100).
  { rewrite exp_Ropp. pose proof (exp_below 3 1) as [_ Q]; [lra|]. unfold limexp in Q. cbn [Nat.pow Nat.mul Nat.add] in Q.
    assert (2565 / 1000 < (1 + 1 / 2 ^ 3) ^ 8) by lra.
    apply Rle_trans with (/ (2565 / 1000)); [apply Rinv_le_contravar; lra|lra]. }
  lra.
Qed.

Lemma pow488 : (488 / 512) ^ (2 ^ 8) <= 1 / 1000.
Proof.
  ubs (9085 / 10000) 7%nat.
  ubs (8254 / 10000) 6%nat.
  ubs (6813 / 10000) 5%nat.
  ubs (4642 / 10000) 4%nat.
  ubs (2155 / 10000) 3%nat.
  ubs (465 / 10000) 2%nat.
  ubs (22 / 10000) 1%nat.
  ubs (1 / 1000) 0%nat.
  cbn [Nat.pow pow]. lra.
Qed.

Lemma limexp_close t : 0 <= t <= 500 -> 0 <= limexp 8 (- t) <= 1 /\ Rabs (limexp 8 (- t) - exp (- t)) <= 24 / 10000.
Proof.
  intros Ht. assert (H8 : 2 ^ 8 = 256) by lra. pose proof (exp_pos (- t)) as EP.
  assert (E1 : exp (- t) <= 1).
  { pose proof (exp_neg_le t (proj1 Ht)). assert (/ (1 + t) <= / 1) by (apply Rinv_le_contravar; lra). lra. }
  destruct (Rlt_dec t 256) as [H|H].
  - destruct (exp_below 8 (- t)) as [A1 A2]; [rewrite H8; lra|].
    pose proof (exp_above 8 (- t)) as A3. rewrite H8, Rabs_Ropp, Rabs_right in A3 by lra. specialize (A3 H).
    split; [lra|]. assert (X : t * t * exp (- t) <= 4 * (39 / 100 * (39 / 100))).
    { replace (- t) with (- (t / 2) + - (t / 2)) by lra. rewrite exp_plus.
      pose proof (xexp_le (t / 2)) as Q. assert (T2 : 0 <= t / 2) by lra. specialize (Q T2).
      assert (0 <= t / 2 * exp (- (t / 2))) by (apply Rmult_le_pos; [lra|left; apply exp_pos]).
      set (q := exp (- (t / 2))) in *. clearbody q.
      replace (t * t * (q * q)) with (4 * ((t / 2 * q) * (t / 2 * q))) by field. nra. }
    replace (exp (- t) * (1 - - t * - t / 256)) with (exp (- t) - t * t * exp (- t) / 256) in A3 by field.
    apply Rabs_le. lra.
  - unfold limexp. replace (1 + - t / 2 ^ 8) with (- ((t - 256) / 256)) by lra.
    assert (Ev : (- ((t - 256) / 256)) ^ (2 ^ 8) = ((t - 256) / 256) ^ (2 ^ 8)) by (rewrite !sqpow; f_equal; ring).
    rewrite Ev. assert (B : 0 <= ((t - 256) / 256) ^ 2 ^ 8 <= (488 / 512) ^ 2 ^ 8).
    { split; [apply pow_le; lra|apply pow_incr; lra]. }
    pose proof pow488.
    assert (E2 : exp (- t) <= 1 / 1000).
    { replace (- t) with (- (t / 2) + - (t / 2)) by lra. rewrite exp_plus.
      pose proof (exp_neg_le (t / 2)) as Q. assert (T2 : 0 <= t / 2) by lra. specialize (Q T2).
      assert (/ (1 + t / 2) <= / 100) by (apply Rinv_le_contravar; lra).
      pose proof (exp_pos (- (t / 2))). set (q := exp (- (t / 2))) in *. clearbody q. nra. }
    split; [lra|]. apply Rabs_le. lra.
Qed.

Lemma logistic_opp x : logistic (- x) = 1 - logistic x.
Proof.
  unfold logistic. rewrite Ropp_involutive. pose proof (exp_pos x). pose proof (exp_pos (- x)).
  assert (E : exp x * exp (- x) = 1) by (rewrite <- exp_plus, Rplus_opp_r; apply exp_0).
  apply (Rmult_eq_reg_r ((1 + exp x) * (1 + exp (- x)))); [|apply Rgt_not_eq, Rmult_lt_0_compat; lra].
  field_simplify; [|lra|lra]. nra.
Qed.

Lemma logistic_range x : 0 < logistic x < 1.
Proof.
  unfold logistic. pose proof (exp_pos (- x)). split; [apply Rinv_0_lt_compat; lra|].
  rewrite <- Rinv_1. apply Rinv_lt_contravar; lra.
Qed.

Lemma logistic_half x : 0 <= x -> 1 / 2 <= logistic x.
Proof.
  intros H. unfold logistic. pose proof (exp_pos (- x)). pose proof (exp_neg_le x H).
  assert (/ (1 + x) <= / 1) by (apply Rinv_le_contravar; lra).
  replace (1 / 2) with (/ 2) by lra. apply Rinv_le_contravar; lra.
Qed.

(** the positive half *)
Lemma half_close t : 0 <= t <= 500 -> exists r, gives (reciprocal real_engine RNewton 10 (1 + limexp 8 (- t))) r /\
  Rabs (r - logistic t) <= 1 / 400 /\ 1 / 2 - / 10 ^ 12 <= r <= 1.
Proof.
  intros Ht. destruct (limexp_close t Ht) as [B C]. set (e := limexp 8 (- t)) in *. clearbody e.
  destruct (recip_10 (1 + e)) as (r & G & E); [lra|]. exists r. split; [exact G|].
  assert (P12 : 0 < / 10 ^ 12 < 1 / 20000) by lra. set (eps := / 10 ^ 12) in *. clearbody eps.
  assert (R1 : r = / (1 + e) - (1 - (1 + e) * r) * / (1 + e)) by (field; lra).
  assert (I1 : / 2 <= / (1 + e)) by (apply Rinv_le_contravar; lra).
  assert (I2 : / (1 + e) <= 1) by (rewrite <- Rinv_1; apply Rinv_le_contravar; lra).
  set (g := 1 - (1 + e) * r) in *. clearbody g.
  assert (X : Rabs (/ (1 + e) - logistic t) <= 24 / 10000).
  { unfold logistic. pose proof (exp_pos (- t)) as P. set (f := exp (- t)) in *. clearbody f.
    replace (/ (1 + e) - / (1 + f)) with (- (e - f) * / ((1 + e) * (1 + f))) by (field; lra).
    rewrite Rabs_mult, Rabs_Ropp, (Rabs_right (/ _)) by (apply Rle_ge; left; apply Rinv_0_lt_compat, Rmult_lt_0_compat; lra).
    assert (/ ((1 + e) * (1 + f)) <= / 1) by (apply Rinv_le_contravar; nra).
    assert (0 < / ((1 + e) * (1 + f))) by (apply Rinv_0_lt_compat, Rmult_lt_0_compat; lra).
    pose proof (Rabs_pos (e - f)). nra. }
  set (i := / (1 + e)) in *. clearbody i.
  assert (M : 0 <= g * i <= eps) by (split; [apply Rmult_le_pos; lra|nra]).
  split; [|lra]. rewrite R1. replace (i - g * i - logistic t) with ((i - logistic t) + - (g * i)) by ring.
  eapply Rle_trans; [apply Rabs_triang|]. rewrite Rabs_Ropp, (Rabs_right (g * i)) by lra. lra.
Qed.

Lemma sigmoid_close cs x : Rabs x <= 500 -> exists v, gives (sigmoid real_engine SExp cs x) v /\
  Rabs (v - logistic x) <= 1 / 400 /\ Rabs (1 - v - logistic x) <= 1.
Proof.
  intros Hx. pose proof (Rabs_pos x) as P. destruct (half_close (Rabs x)) as (r & G & C & B); [lra|].
  exists ((r - 1 / 2) * sgn_R x + 1 / 2). split; [apply sigmoid_exp_R; exact G|].
  assert (P12 : 0 < / 10 ^ 12 < 1 / 20000) by lra. set (eps := / 10 ^ 12) in *. clearbody eps.
  unfold sgn_R. destruct (Rlt_dec 0 x) as [H|H]; [|destruct (Rlt_dec x 0) as [H'|H']].
  - rewrite (Rabs_right x) in C by lra. replace ((r - 1 / 2) * 1 + 1 / 2) with r by lra.
    split; [exact C|]. pose proof (logistic_range x). pose proof (logistic_half x). apply Rabs_le. lra.
  - rewrite (Rabs_left x) in C by lra. rewrite logistic_opp in C.
    replace ((r - 1 / 2) * -1 + 1 / 2) with (1 - r) by lra. split.
    + replace (1 - r - logistic x) with (- (r - (1 - logistic x))) by ring. rewrite Rabs_Ropp. exact C.
    + pose proof (logistic_range (- x)) as R1. pose proof (logistic_half (- x)) as R2. rewrite logistic_opp in R1, R2. apply Rabs_le. lra.
  - assert (x = 0) by lra. subst x. unfold logistic. rewrite Ropp_0, exp_0. split; apply Rabs_le; lra.
Qed.

Lemma logistic_deriv x : derivable_pt_lim logistic x (logistic x * (1 - logistic x)).
Proof.
  unfold logistic at 1. pose proof (exp_pos (- x)) as P.
  assert (D1 : derivable_pt_lim (fun y => exp (- y)) x (exp (- x) * - (1))).
  { apply (derivable_pt_lim_comp Ropp exp); [apply (derivable_pt_lim_opp id), derivable_pt_lim_id|apply derivable_pt_lim_exp]. }
  assert (D2 : derivable_pt_lim (fun y => 1 + exp (- y)) x (exp (- x) * - (1))).
  { replace (exp (- x) * - (1)) with (0 + exp (- x) * - (1)) by ring.
    apply (derivable_pt_lim_plus (fun _ => 1) (fun y => exp (- y))); [apply derivable_pt_lim_const|exact D1]. }
  pose proof (derivable_pt_lim_div (fun _ => 1) (fun y => 1 + exp (- y)) x 0 _ (derivable_pt_lim_const 1 x) D2) as D3.
  assert (N : 1 + exp (- x) <> 0) by lra. specialize (D3 N).
  intros eps He. destruct (D3 eps He) as [d Hd]. exists d. intros h Hh Hs. specialize (Hd h Hh Hs).
  unfold div_fct in Hd.
  match type of Hd with Rabs (?a - ?b) < _ => match goal with |- Rabs (?c - ?d) < _ =>
    replace c with a; [replace d with b; [exact Hd|]|] end end.
  - unfold logistic, Rsqr. field. exact N.
  - f_equal. pose proof (exp_pos (- (x + h))). field. split; lra.
Qed.

Lemma tanh_logistic x : tanh x = 2 * logistic (2 * x) - 1.
Proof.
  unfold tanh, sinh, cosh, logistic. pose proof (exp_pos x). pose proof (exp_pos (- x)).
  assert (E : exp (- (2 * x)) = exp (- x) * / exp x).
  { rewrite <- exp_Ropp, <- exp_plus. f_equal. lra. }
  rewrite E. field. split; lra.
Qed.

(** division *)
Lemma recip_near y : 1 / 50 <= Rabs y <= 500 -> exists r, gives (reciprocal real_engine RNewton 10 y) r /\
  exists g, 0 <= g <= / 10 ^ 12 /\ r = (1 - g) * / y.
Proof.
  intros Hy. destruct (recip_R 10 y) as (v & r & G & E & H). exists v. split; [exact G|].
  assert (N : y <> 0) by (intros ->; rewrite Rabs_R0 in Hy; lra).
  exists (1 - Rabs y * r). split.
  - destruct (recip_10 (Rabs y) Hy) as (r' & _ & _). rewrite H.
    pose proof (guess_wide (Rabs y) Hy) as B. rewrite sqpow. split; [apply pow_le, Rle_0_sqr|]. rewrite <- sqpow.
    apply Rle_trans with ((973 / 1000) ^ (2 ^ 10)); [|apply pow973].
    rewrite (sqpow (1 - _)), (sqpow (973 / 1000)). apply pow_incr.
    revert B. generalize (1 - Rabs y * guess (Rabs y)). intros h B. unfold Rabs in B. destruct (Rcase_abs h); nra.
  - rewrite E. replace (1 - (1 - Rabs y * r)) with (Rabs y * r) by ring. rewrite <- sgn_abs.
    field. exact N.
Qed.
