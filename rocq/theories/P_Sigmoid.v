(** C64 and C65: sigmoid, tanh, division by a secret and their gradients in real-number semantics. *)
From Coq Require Import QArith Reals Qreals Lra Lia.
From Verif Require Import Util M_Encoder M_Share M_Fss M_Engine M_Approx M_GradFun S_Real S_Sigmoid L_Real L_Softmax L_Sigmoid L_Mac L_Aliter.
Local Open Scope R_scope.

(** C64: the default method of sigmoid is within 1/400 of the logistic function for |x| <= 500. *)
Theorem C64_sigmoid : forall cs x, Rabs x <= 500 ->
  exists v, gives (sigmoid real_engine SExp cs x) v /\ Rabs (v - logistic x) <= 1 / 400.
Proof. intros cs x Hx. destruct (sigmoid_close cs x Hx) as (v & G & C & _). eauto. Qed.
Print Assumptions C64_sigmoid.
Example C64_sigmoid_witness : Rabs (-3) <= 500 /\ logistic 0 = 1 / 2 /\ logistic (-3) < logistic 0.
Proof.
  split; [apply Rabs_le; lra|]. split; [unfold logistic; rewrite Ropp_0, exp_0; lra|].
  unfold logistic. apply Rinv_lt_contravar; [apply Rmult_lt_0_compat; pose proof (exp_pos (- 0)); pose proof (exp_pos (- -3)); lra|].
  apply Rplus_lt_compat_l, exp_increasing. lra.
Qed.

(** C64: the default method of tanh is within 1/200 of tanh for |x| <= 250. *)
Theorem C64_tanh : forall cs x, Rabs x <= 250 ->
  exists v, gives (tanh_a real_engine TSigmoid cs x) v /\ Rabs (v - tanh x) <= 1 / 200.
Proof.
  intros cs x Hx. destruct (sigmoid_close cs (x * 2)) as (v & G & C & _).
  { rewrite Rabs_mult, (Rabs_right 2) by lra. lra. }
  exists (v * 2 - 1). split.
  - cbn [tanh_a]. eapply gives_bind; [run; reflexivity|]. eapply gives_bind; [exact G|]. run. reflexivity.
  - rewrite tanh_logistic. replace (2 * x) with (x * 2) by ring.
    replace (v * 2 - 1 - (2 * logistic (x * 2) - 1)) with (2 * (v - logistic (x * 2))) by ring.
    rewrite Rabs_mult, (Rabs_right 2) by lra. lra.
Qed.
Print Assumptions C64_tanh.
Example C64_tanh_witness : Rabs (-200) <= 250 /\ tanh 0 = 0.
Proof. split; [apply Rabs_le; lra|unfold tanh; rewrite sinh_0; lra]. Qed.

(** C64: the gradient node.  From the value kept by the forward pass, backward returns the
    incoming gradient times the derivative of the logistic function, up to 1/400 of the gradient. *)
Theorem C64_gradient : forall x g, Rabs x <= 500 ->
  exists v r d, gives (sigmoid_forward real_engine x) v /\ gives (sigmoid_backward real_engine v g) r /\
    derivable_pt_lim logistic x d /\ Rabs (r - g * d) <= 1 / 400 * Rabs g.
Proof.
  intros x g Hx. destruct (sigmoid_close [] x Hx) as (v & G & C & B).
  exists v, (g * v * (1 - v)), (logistic x * (1 - logistic x)). split; [exact G|]. split; [run; reflexivity|].
  split; [apply logistic_deriv|].
  replace (g * v * (1 - v) - g * (logistic x * (1 - logistic x))) with ((v - logistic x) * (1 - v - logistic x) * g) by ring.
  rewrite !Rabs_mult. apply Rmult_le_compat_r; [apply Rabs_pos|].
  pose proof (Rabs_pos (v - logistic x)). pose proof (Rabs_pos (1 - v - logistic x)). nra.
Qed.
Print Assumptions C64_gradient.
Example C64_gradient_witness : gives (sigmoid_backward real_engine (3 / 4) 2) (3 / 8).
Proof. unfold sigmoid_backward. run. do 2 f_equal. lra. Qed.

(** C64 refuted for large arguments: sigmoid(512) comes out as 1/2 or less. *)
Theorem C64_sigmoid_refuted : exists x v, gives (sigmoid real_engine SExp [] x) v /\ v <= 1 / 2 /\ 99 / 100 <= logistic x.
Proof.
  exists 512. assert (L : limexp 8 (- Rabs 512) = 1).
  { rewrite Rabs_right by lra. unfold limexp. replace (1 + - (512) / 2 ^ 8) with (- (1)) by lra.
    rewrite sqpow. replace (- (1) * - (1)) with 1 by lra. apply pow1. }
  destruct (recip_10 (1 + limexp 8 (- Rabs 512))) as (r & G & E); [rewrite L; lra|].
  exists ((r - 1 / 2) * sgn_R 512 + 1 / 2). split; [apply sigmoid_exp_R; exact G|].
  rewrite L in E. split.
  - unfold sgn_R. destruct (Rlt_dec 0 512); [|lra]. lra.
  - unfold logistic. pose proof (exp_neg_le 512). pose proof (exp_pos (- (512))).
    assert (K : 0 <= 512) by lra. specialize (H K). replace (99 / 100) with (/ (100 / 99)) by lra.
    apply Rinv_le_contravar; lra.
Qed.
Print Assumptions C64_sigmoid_refuted.

(** C64: the method "maclaurin" is within 1/8 of the logistic function for |x| <= 6. *)
Theorem C64_maclaurin : forall cs x, Rabs x <= 6 ->
  exists v, gives (sigmoid real_engine SMaclaurin cs x) v /\ Rabs (v - logistic x) <= 1 / 8.
Proof.
  intros cs x Hx. eexists. split; [cbn [sigmoid]; run; reflexivity|].
  pose proof (mac_close x Hx) as H. unfold mac in H. unfold Pos.to_nat. cbn [Pos.iter_op Nat.add].
  rewrite !Q2R_lit.
  match goal with |- Rabs (?v - _) <= _ => match type of H with Rabs (?w - _) <= _ =>
    replace v with w by (cbn [pow]; lra) end end.
  exact H.
Qed.
Print Assumptions C64_maclaurin.
Example C64_maclaurin_witness : Rabs (-5) <= 6 /\ ~ Rabs 8 <= 6.
Proof. split; [apply Rabs_le; lra|]. rewrite Rabs_right; lra. Qed.

(** C64 refuted for the "maclaurin" method: sigmoid(8) comes out larger than 1. *)
Theorem C64_maclaurin_refuted : exists x v, Rabs x <= 8 /\ gives (sigmoid real_engine SMaclaurin [] x) v /\ 1 < v.
Proof.
  exists 8. eexists. split; [rewrite Rabs_right; lra|]. split; [cbn [sigmoid]; run; reflexivity|].
  unfold Pos.to_nat. cbn [Pos.iter_op Nat.add]. rewrite !Q2R_lit. lra.
Qed.
Print Assumptions C64_maclaurin_refuted.

(** C64: the method "chebyshev-aliter" is within 1/7 of the logistic function for |x| <= 8. *)
Theorem C64_aliter : forall cs x, Rabs x <= 8 ->
  exists v, gives (sigmoid real_engine SAliter cs x) v /\ Rabs (v - logistic x) <= 1 / 7.
Proof. exact aliter_close. Qed.
Print Assumptions C64_aliter.
Example C64_aliter_witness : Rabs (-7) <= 8 /\ gives (sigmoid real_engine SAliter [] 8) 1.
Proof.
  split; [apply Rabs_le; lra|]. eapply gives_eq; [apply aliter_sigmoid|].
  unfold sgn_R. destruct (Rlt_dec 0 8); [|lra]. rewrite Rabs_right by lra. unfold ali. lra.
Qed.

(** C64 refuted for the "chebyshev-aliter" method: sigmoid(16) comes out larger than 17. *)
Theorem C64_aliter_refuted : exists x v, Rabs x <= 16 /\ gives (sigmoid real_engine SAliter [] x) v /\ 17 < v.
Proof.
  exists 16. eexists. split; [rewrite Rabs_right; lra|]. split; [apply aliter_sigmoid|].
  unfold sgn_R. destruct (Rlt_dec 0 16); [|lra]. rewrite Rabs_right by lra. unfold ali. lra.
Qed.
Print Assumptions C64_aliter_refuted.

(** C65: for at most two parties and 1/50 <= |y| <= 500 the quotients have a relative error of at
    most 10^-12, also with a public numerator. *)
Theorem C65_division : forall parties x y, (parties <= 2)%nat -> 1 / 50 <= Rabs y <= 500 ->
  exists q, gives (div_private real_engine parties x y) q /\ near (/ 10 ^ 12) (x / y) q.
Proof.
  intros n x y Hn Hy. destruct (recip_near y Hy) as (r & G & g & Hg & E). exists (x * r). split.
  - unfold div_private. rewrite (proj2 (Nat.ltb_ge 2 n)) by auto. eapply gives_bind; [exact G|]. run. reflexivity.
  - unfold near. rewrite E. replace (x * ((1 - g) * / y) - x / y) with (- (g * (x / y))).
    + rewrite Rabs_Ropp, Rabs_mult, (Rabs_right g) by lra. apply Rmult_le_compat_r; [apply Rabs_pos|lra].
    + unfold Rdiv. ring.
Qed.
Print Assumptions C65_division.
Theorem C65_public_numerator : forall c y, 1 / 50 <= Rabs y <= 500 ->
  exists q, gives (rdiv real_engine c y) q /\ near (/ 10 ^ 12) (num_R c / y) q.
Proof.
  intros c y Hy. destruct (recip_near y Hy) as (r & G & g & Hg & E). exists (r * num_R c). split.
  - unfold rdiv. eapply gives_bind; [exact G|]. run. reflexivity.
  - unfold near. rewrite E. replace ((1 - g) * / y * num_R c - num_R c / y) with (- (g * (num_R c / y))).
    + rewrite Rabs_Ropp, Rabs_mult, (Rabs_right g) by lra. apply Rmult_le_compat_r; [apply Rabs_pos|lra].
    + unfold Rdiv. ring.
Qed.
Print Assumptions C65_public_numerator.
Example C65_division_witness : (2 <= 2)%nat /\ 1 / 50 <= Rabs (-40) <= 500.
Proof. split; [lia|]. rewrite Rabs_left by lra. lra. Qed.

(** C65: with three parties or more division by a secret raises ValueError, whatever the numbers. *)
Theorem C65_parties : forall W T (E : engine W T) n x y w, (2 < n)%nat -> div_private E n x y w = (Err ValueError, w).
Proof. intros. unfold div_private. rewrite (proj2 (Nat.ltb_lt 2 n)) by auto. reflexivity. Qed.
Print Assumptions C65_parties.

(** C65: the gradient node: both derivatives of x / y times the incoming gradient. *)
Theorem C65_gradient : forall x y g, 1 / 50 <= Rabs y <= 500 ->
  exists res gx gy dx dy, gives (gdiv_forward real_engine 2 x y) res /\ gives (gdiv_backward real_engine 2 y res g) (gx, gy) /\
    derivable_pt_lim (fun t => t / y) x dx /\ derivable_pt_lim (fun t => x / t) y dy /\
    near (/ 10 ^ 12) (g * dx) gx /\ near (2 * / 10 ^ 12) (g * dy) gy.
Proof.
  intros x y g Hy. destruct (recip_near y Hy) as (r & G & e & He & E).
  assert (N : y <> 0) by (intros ->; rewrite Rabs_R0 in Hy; lra).
  exists (x * r), (g * r), (g * r * (x * r) * -1), (/ y), (- (x / (y * y))).
  split; [unfold gdiv_forward, div_private; cbn [Nat.ltb Nat.leb]; eapply gives_bind; [exact G|]; run; reflexivity|].
  split; [unfold gdiv_backward, div_private; cbn [Nat.ltb Nat.leb]; eapply gives_bind; [eapply gives_bind; [exact G|]; run; reflexivity|]; run; reflexivity|].
  split.
  { pose proof (derivable_pt_lim_scal id (/ y) x 1 (derivable_pt_lim_id x)) as D.
    intros eps He'. destruct (D eps He') as [d Hd]. exists d. intros h H1 H2. specialize (Hd h H1 H2).
    unfold mult_real_fct, id in Hd.
    match type of Hd with Rabs ?a < _ => match goal with |- Rabs ?b < _ => replace b with a; [exact Hd|] end end.
    unfold Rdiv. ring. }
  split.
  { pose proof (derivable_pt_lim_div (fun _ => x) id y 0 1 (derivable_pt_lim_const x y) (derivable_pt_lim_id y) N) as D.
    unfold div_fct, id in D. replace (- (x / (y * y))) with ((0 * y - 1 * x) / Rsqr y); [exact D|]. unfold Rsqr. field. exact N. }
  assert (P12 : 0 < / 10 ^ 12 < 1) by lra. set (eps := / 10 ^ 12) in *. clearbody eps. unfold near. rewrite E. split.
  - replace (g * ((1 - e) * / y) - g * / y) with (- (e * (g * / y))) by ring.
    rewrite Rabs_Ropp, Rabs_mult, (Rabs_right e) by lra. apply Rmult_le_compat_r; [apply Rabs_pos|lra].
  - replace (g * ((1 - e) * / y) * (x * ((1 - e) * / y)) * -1 - g * - (x / (y * y))) with ((1 - (1 - e) * (1 - e)) * - (g * - (x / (y * y)))) by (field; exact N).
    rewrite Rabs_mult, Rabs_Ropp, (Rabs_right (1 - _)) by nra. apply Rmult_le_compat_r; [apply Rabs_pos|nra].
Qed.
Print Assumptions C65_gradient.

(** C65: dividing by zero is no error: the quotient is 0. *)
Theorem C65_zero : forall x, gives (div_private real_engine 2 x 0) 0.
Proof.
  intros x. destruct (recip_R 10 0) as (v & r & G & E & _). unfold div_private. cbn [Nat.ltb Nat.leb].
  eapply gives_bind; [exact G|]. run. do 2 f_equal. rewrite E. unfold sgn_R. destruct (Rlt_dec 0 0); lra.
Qed.
Print Assumptions C65_zero.

(** C65 refuted for small divisors: 1 / 0.0001 comes out at less than two thirds of its value. *)
Theorem C65_small_refuted : exists y q, 0 < y /\ gives (div_private real_engine 2 1 y) q /\ q < 2 / 3 * (1 / y).
Proof.
  exists (1 / 10000). destruct (recip_R 10 (1 / 10000)) as (v & r & G & E & H). exists (1 * v).
  split; [lra|]. split.
  { unfold div_private. cbn [Nat.ltb Nat.leb]. eapply gives_bind; [exact G|]. run. reflexivity. }
  rewrite (Rabs_right (1 / 10000)) in H by lra.
  assert (S : sgn_R (1 / 10000) = 1) by (unfold sgn_R; destruct (Rlt_dec 0 (1 / 10000)); lra). rewrite S, Rmult_1_r in E. subst r.
  destruct (exp_below 8 (1 / 2 - 1 / 10000)) as [P0 P1]; [replace (2 ^ 8) with 256 by lra; lra|].
  assert (X : exp (1 / 2 - 1 / 10000) <= 2).
  { pose proof (exp_ineq1_le (- (1 / 2 - 1 / 10000))) as Q. rewrite exp_Ropp in Q.
    pose proof (exp_pos (1 / 2 - 1 / 10000)) as P. set (e := exp (1 / 2 - 1 / 10000)) in *. clearbody e.
    apply Rmult_le_compat_r with (r := e) in Q; [|lra]. rewrite Rinv_l in Q by lra. nra. }
  assert (K : 0 <= 1 / 10000 * guess (1 / 10000) <= 6003 / 10000000) by (unfold guess; lra).
  set (k := 1 / 10000 * guess (1 / 10000)) in *. clearbody k.
  pose proof (bernoulli (2 ^ 10) (- k)) as B. assert (- 1 <= - k) by lra. specialize (B H0).
  replace (INR (2 ^ 10)) with 1024 in B by (rewrite pow_INR; cbn [INR]; lra).
  replace (1 + - k) with (1 - k) in B by lra. lra.
Qed.
Print Assumptions C65_small_refuted.

(** C65 refuted for large divisors: 1 / 600 comes out negative. *)
Theorem C65_large_refuted : exists y q, 0 < y /\ gives (div_private real_engine 2 1 y) q /\ q < 0.
Proof.
  exists 600. destruct (recip_R 10 600) as (v & _ & G & _). exists (1 * v). split; [lra|]. split.
  { unfold div_private. cbn [Nat.ltb Nat.leb]. eapply gives_bind; [exact G|]. run. reflexivity. }
  pose proof (recip_large 600 v) as K. assert (600 <= 600) by lra. specialize (K H G). lra.
Qed.
Print Assumptions C65_large_refuted.
