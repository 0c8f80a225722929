(** C43: the approximations in real-number semantics; C42 in real-number semantics. *)
From Coq Require Import QArith Reals Qreals Lra Lia.
From Verif Require Import Util M_Encoder M_Share M_Fss M_Engine M_Approx S_Real L_Real.
Local Open Scope R_scope.

(** Newton-Raphson: after n rounds the relative error is the initial one to the power 2^n, so
    each round squares it *)
Theorem C43_newton : forall n x r, exists r', gives (nr_loop real_engine n x r) r' /\
  1 - x * r' = (1 - x * r) ^ (2 ^ n).
Proof. exact nr_R. Qed.
Print Assumptions C43_newton.

Example C43_newton_witness : gives (nr_loop real_engine 2 2 (1 / 4)) (15 / 32) /\ 1 - 2 * (15 / 32) = (1 - 2 * (1 / 4)) ^ 4.
Proof. split; [|lra]. cbn [nr_loop]. run. do 2 f_equal. lra. Qed.

(** reciprocal: the relative error after n rounds for every x other than 0; 0 for x = 0 *)
Theorem C43_reciprocal : forall n x, exists y, gives (reciprocal real_engine RNewton n x) y /\
  (x <> 0 -> 1 - x * y = (1 - Rabs x * guess (Rabs x)) ^ (2 ^ n)) /\ (x = 0 -> y = 0).
Proof.
  intros n x. destruct (recip_R n x) as (y & r & G & E & H). exists y. split; [exact G|]. split.
  - intros Hx. rewrite <- H, E. replace (x * (r * sgn_R x)) with (x * sgn_R x * r) by ring. rewrite sgn_abs. reflexivity.
  - intros ->. rewrite E. unfold sgn_R. destruct (Rlt_dec 0 0); lra.
Qed.
Print Assumptions C43_reciprocal.

(** for 0 < |x| <= 50 the guess is good enough: the rounds converge to 1/x *)
Theorem C43_reciprocal_converges : forall x eps, x <> 0 -> Rabs x <= 50 -> 0 < eps -> exists N, forall n, (N <= n)%nat ->
  exists y, gives (reciprocal real_engine RNewton n x) y /\ Rabs (y - / x) < eps.
Proof.
  intros x eps Hx Hb He. assert (HA : 0 < Rabs x) by (apply Rabs_pos_lt; auto).
  destruct (pow_lt_1_zero (1 - Rabs x * guess (Rabs x)) (guess_good _ (conj HA Hb)) (eps * Rabs x)) as [N HN]; [apply Rmult_lt_0_compat; auto|].
  exists N. intros n Hn. destruct (C43_reciprocal n x) as (y & G & E & _). exists y. split; [exact G|].
  specialize (E Hx). assert (B : Rabs (1 - x * y) < eps * Rabs x).
  { rewrite E. apply HN. pose proof (two_pow_ge n). lia. }
  replace (y - / x) with (- ((1 - x * y) * / x)) by (field; auto). rewrite Rabs_Ropp, Rabs_mult, Rabs_inv.
  apply (Rmult_lt_reg_r (Rabs x)); auto. rewrite Rmult_assoc, Rinv_l by lra. lra.
Qed.
Print Assumptions C43_reciprocal_converges.

Example C43_reciprocal_witness : -20 <> 0 /\ Rabs (-20) <= 50 /\ 0 < 1 / 1000.
Proof. split; [lra|]. split; [rewrite Rabs_left; lra|lra]. Qed.

(** the polynomials used by tanh are the odd Chebyshev polynomials, in order; an odd number of
    terms or fewer than 6 is refused *)
Theorem C43_chebyshev : forall terms x,
  (Nat.even terms = true -> (6 <= terms)%nat ->
   gives (chebyshev real_engine terms x) (map (fun i => cheb (2 * i + 1) x) (seq 0 (terms / 2)))) /\
  (Nat.even terms = false \/ (terms < 6)%nat -> chebyshev real_engine terms x tt = (Err ValueError, tt)).
Proof.
  intros terms x. split; [apply chebyshev_R|]. intros H. unfold chebyshev.
  destruct H as [-> | H]; [reflexivity|]. rewrite (proj2 (Nat.ltb_lt terms 6) H). rewrite Bool.orb_true_r. reflexivity.
Qed.
Print Assumptions C43_chebyshev.

(** the polynomials of the specification are the Chebyshev ones *)
Theorem C43_chebyshev_cosine : forall n t, cheb n (cos t) = cos (INR n * t).
Proof. intros n t. apply cheb_cos. Qed.
Print Assumptions C43_chebyshev_cosine.

Example C43_chebyshev_witness : gives (chebyshev real_engine 6 2) [2; 26; 362].
Proof.
  eapply gives_eq; [apply chebyshev_R; [reflexivity|lia]|]. unfold cheb. change (6 / 2)%nat with 3%nat. cbn [seq map].
  apply (f_equal2 cons); [cbn; lra|]. apply (f_equal2 cons); [cbn; lra|]. apply (f_equal2 cons); [cbn; lra|reflexivity].
Qed.

(** exp: (1 + x/2^k)^(2^k), never above e^x for x >= -2^k, and short of it by at most the
    fraction x^2/2^k for |x| < 2^k *)
Theorem C43_exp : forall k x,
  gives (exp_a real_engine k x) ((1 + x / 2 ^ k) ^ (2 ^ k)) /\
  (- 2 ^ k <= x -> 0 <= (1 + x / 2 ^ k) ^ (2 ^ k) <= exp x) /\
  (Rabs x < 2 ^ k -> exp x * (1 - x * x / 2 ^ k) <= (1 + x / 2 ^ k) ^ (2 ^ k)).
Proof. intros k x. split; [apply exp_R|]. split; [apply exp_below|apply exp_above]. Qed.
Print Assumptions C43_exp.

Example C43_exp_witness : gives (exp_a real_engine 2 (-2)) (1 / 16) /\ - 2 ^ 2 <= -2 /\ Rabs (-2) < 2 ^ 2.
Proof. split; [eapply gives_eq; [apply exp_R|unfold limexp; cbn; lra]|]. split; [lra|rewrite Rabs_left; lra]. Qed.

(** sigmoid(-x) = 1 - sigmoid(x) for the four methods, whatever the tanh coefficients *)
Theorem C43_sigmoid_symmetry : forall m coeffs x, m <> SBad ->
  exists v, gives (sigmoid real_engine m coeffs x) v /\ gives (sigmoid real_engine m coeffs (- x)) (1 - v).
Proof. exact sigmoid_sym. Qed.
Print Assumptions C43_sigmoid_symmetry.

Example C43_sigmoid_witness : SMaclaurin <> SBad /\
  gives (sigmoid real_engine SMaclaurin [] 1) (1 / 2 + 191204779 / 1000000000 - 458667307 / 100000000000 + 420690803 / 10000000000000).
Proof. split; [discriminate|]. cbn [sigmoid]. run. do 2 f_equal. rewrite !Q2R_lit. unfold Pos.to_nat. cbn [Pos.iter_op Nat.add]. lra. Qed.

(** tanh is odd *)
Theorem C43_tanh_odd : forall m coeffs x, m <> TBad ->
  exists v, gives (tanh_a real_engine m coeffs x) v /\ gives (tanh_a real_engine m coeffs (- x)) (- v).
Proof. exact tanh_odd. Qed.
Print Assumptions C43_tanh_odd.

(** unknown methods are refused *)
Theorem C43_unknown_method : forall W T (E : engine W T) coeffs n x w,
  reciprocal E RBad n x w = (Err ValueError, w) /\ sigmoid E SBad coeffs x w = (Err ValueError, w) /\
  tanh_a E TBad coeffs x w = (Err ValueError, w).
Proof. intros. repeat split. Qed.
Print Assumptions C43_unknown_method.

(** C42 in real-number semantics, for every value *)
Theorem C42_real_numbers : forall x lo hi, num_R lo <= num_R hi ->
  gives (sign real_engine x) (sgn_R x) /\ gives (modulus real_engine x) (Rabs x) /\
  gives (relu real_engine x) (Rmax 0 x) /\
  gives (hardtanh real_engine lo hi x) (Rmax (num_R lo) (Rmin (num_R hi) x)).
Proof. intros x lo hi H. split; [apply sign_R|]. split; [apply modulus_R|]. split; [apply relu_R|apply hardtanh_R; auto]. Qed.
Print Assumptions C42_real_numbers.

Example C42_real_witness : num_R (NFloat (-5 # 10)) <= num_R (NInt 1) /\
  Rmax (num_R (NFloat (-5 # 10))) (Rmin (num_R (NInt 1)) (-3)) = - (1 / 2).
Proof.
  assert (E : num_R (NFloat (-5 # 10)) = - (1 / 2)) by (cbn; unfold Q2R; cbn; lra).
  rewrite E. cbn [num_R]. split; [lra|]. rewrite (Rmin_right 1 (-3)) by lra. rewrite Rmax_left by lra. reflexivity.
Qed.
