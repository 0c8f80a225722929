(** The approximations over the real numbers. *)
From Coq Require Import QArith Reals Qreals Lra Lia.
From Verif Require Import Util M_Encoder M_Share M_Fss M_Engine M_Approx S_Real.
Local Open Scope R_scope.

Notation RE := real_engine.

Ltac run := unfold gives, cbind, cret; cbn [real_engine e_lin e_mul e_linp e_rsub e_mulp e_div e_pow e_rel e_relp lin_R num_R]; unfold cret; cbn beta iota.

Ltac split_dec := repeat match goal with
  | |- context [Rle_dec ?a ?b] =>
      lazymatch a with context [Rle_dec _ _] => fail | _ =>
      lazymatch b with context [Rle_dec _ _] => fail | _ => destruct (Rle_dec a b) end end
  end.

Lemma gives_bind {A B} (m : comp unit A) (k : A -> comp unit B) v w : gives m v -> gives (k v) w -> gives (cbind m k) w.
Proof. unfold gives, cbind. intros -> H. exact H. Qed.

Lemma gives_eq {A} (m : comp unit A) v w : gives m v -> v = w -> gives m w.
Proof. intros H <-. exact H. Qed.

Lemma sign_R x : gives (sign RE x) (sgn_R x).
Proof.
  unfold sign, sgn_R. run. cbn [rel_R]. do 2 f_equal.
  destruct (Rlt_dec 0 x), (Rlt_dec x 0); lra.
Qed.

Lemma modulus_R x : gives (modulus RE x) (Rabs x).
Proof.
  eapply gives_bind; [apply sign_R|]. run. do 2 f_equal. unfold sgn_R.
  destruct (Rlt_dec 0 x); [rewrite Rabs_right by lra; lra|].
  destruct (Rlt_dec x 0); [rewrite Rabs_left by lra; lra|].
  assert (x = 0) by lra. subst. rewrite Rabs_R0. lra.
Qed.

Lemma relu_R x : gives (relu RE x) (Rmax 0 x).
Proof.
  unfold relu. run. cbn [rel_R]. do 2 f_equal. unfold Rmax. destruct (Rle_dec 0 x); lra.
Qed.

Lemma hardtanh_R lo hi x : num_R lo <= num_R hi -> gives (hardtanh RE lo hi x) (Rmax (num_R lo) (Rmin (num_R hi) x)).
Proof.
  intros H. unfold hardtanh.
  eapply gives_bind; [run; reflexivity|]. eapply gives_bind; [apply relu_R|].
  eapply gives_bind; [run; reflexivity|]. eapply gives_bind; [apply relu_R|].
  run. do 2 f_equal. unfold Rmax, Rmin.
  split_dec; lra.
Qed.

Lemma pow2_pos k : (0 < 2 ^ Z.of_nat k)%Z.
Proof. apply Z.pow_pos_nonneg; lia. Qed.

Lemma two_pow k : Pos.to_nat (Z.to_pos (2 ^ Z.of_nat k)) = (2 ^ k)%nat.
Proof.
  apply Nat2Z.inj. rewrite positive_nat_Z, Z2Pos.id by apply pow2_pos. rewrite Nat2Z.inj_pow. reflexivity.
Qed.

Lemma IZR_two_pow k : IZR (2 ^ Z.of_nat k) = 2 ^ k.
Proof. rewrite <- pow_IZR. reflexivity. Qed.

Lemma exp_R k x : gives (exp_a RE k x) (limexp k x).
Proof.
  unfold exp_a, limexp. run. rewrite two_pow, IZR_two_pow. do 3 f_equal. lra.
Qed.

Lemma two_pow_R_pos k : 0 < 2 ^ k.
Proof. apply pow_lt. lra. Qed.

Lemma exp_scaled x n : exp (INR n * x) = exp x ^ n.
Proof.
  induction n as [|n IH].
  - cbn [INR pow]. rewrite Rmult_0_l. apply exp_0.
  - rewrite S_INR. replace ((INR n + 1) * x) with (x + INR n * x) by ring. rewrite exp_plus, IH. reflexivity.
Qed.

Lemma exp_below k x : - 2 ^ k <= x -> 0 <= limexp k x <= exp x.
Proof.
  unfold limexp. intros H. pose proof (two_pow_R_pos k) as HP.
  assert (H0 : 0 <= 1 + x / 2 ^ k).
  { assert (- 1 <= x / 2 ^ k); [|lra]. apply (Rmult_le_reg_r (2 ^ k)); auto. unfold Rdiv. rewrite Rmult_assoc, Rinv_l by lra. lra. }
  split; [apply pow_le; auto|].
  replace (exp x) with (exp (x / 2 ^ k) ^ (2 ^ k)).
  - apply pow_incr. split; auto. apply exp_ineq1_le.
  - rewrite <- exp_scaled. f_equal. rewrite pow_INR. cbn [INR]. replace (1 + 1) with 2 by lra. field. lra.
Qed.

Lemma nr_R n : forall x r, exists r', gives (nr_loop RE n x r) r' /\ 1 - x * r' = (1 - x * r) ^ (2 ^ n).
Proof.
  induction n as [|n IH]; intros x r; cbn [nr_loop].
  - exists r. split; [reflexivity|]. cbn. ring.
  - destruct (IH x (r * 2 - r * r * x)) as (r' & G & E). exists r'. split.
    + do 4 (eapply gives_bind; [run; reflexivity|]). exact G.
    + rewrite E. replace (1 - x * (r * 2 - r * r * x)) with ((1 - x * r) ^ 2) by ring.
      rewrite <- pow_mult. reflexivity.
Qed.

Lemma Q2R_lit p q : num_R (lit p q) = IZR p / IZR (Zpos q).
Proof. reflexivity. Qed.

Lemma recip_R n x : exists y r, gives (reciprocal RE RNewton n x) y /\ y = r * sgn_R x /\
  1 - Rabs x * r = (1 - Rabs x * guess (Rabs x)) ^ (2 ^ n).
Proof.
  destruct (nr_R n (Rabs x) (guess (Rabs x))) as (r & G & E).
  exists (r * sgn_R x), r. split; [|split; [reflexivity|exact E]].
  unfold reciprocal. eapply gives_bind; [apply modulus_R|].
  eapply gives_bind; [run; reflexivity|]. eapply gives_bind; [apply exp_R|].
  eapply gives_bind; [run; reflexivity|]. eapply gives_bind; [run; reflexivity|].
  eapply gives_bind.
  - rewrite !Q2R_lit. match goal with |- gives (nr_loop _ _ _ ?g) _ => replace g with (guess (Rabs x)); [exact G|] end.
    unfold guess. replace (5 / 10) with (1 / 2) by lra. ring.
  - eapply gives_bind; [apply sign_R|]. run. reflexivity.
Qed.

Lemma sgn_abs x : x * sgn_R x = Rabs x.
Proof.
  unfold sgn_R. destruct (Rlt_dec 0 x); [rewrite Rabs_right by lra; lra|].
  destruct (Rlt_dec x 0); [rewrite Rabs_left by lra; lra|]. assert (x = 0) by lra. subst. rewrite Rabs_R0. lra.
Qed.
Lemma sgn_opp x : sgn_R (- x) = - sgn_R x.
Proof. unfold sgn_R. destruct (Rlt_dec 0 x), (Rlt_dec x 0), (Rlt_dec 0 (- x)), (Rlt_dec (- x) 0); lra. Qed.

(** the guess is good for 0 < a <= 50 *)
Lemma guess_good a : 0 < a <= 50 -> Rabs (1 - a * guess a) < 1.
Proof.
  intros Ha.
  assert (P := exp_below 8 (1 / 2 - a)).
  destruct P as [P0 P1]; [replace (2 ^ 8) with 256 by lra; lra|]. unfold guess. set (p := limexp 8 (1 / 2 - a)) in *. clearbody p.
  assert (E1 : a * exp (1 / 2 - a) <= exp (- (1 / 2))).
  { replace (- (1 / 2)) with ((a - 1) + (1 / 2 - a)) by lra. rewrite exp_plus. apply Rmult_le_compat_r; [left; apply exp_pos|].
    pose proof (exp_ineq1_le (a - 1)). lra. }
  assert (E2 : exp (- (1 / 2)) < 616 / 1000).
  { rewrite exp_Ropp. apply (Rmult_lt_reg_r (exp (1 / 2))); [apply exp_pos|]. rewrite Rinv_l by (apply Rgt_not_eq, exp_pos).
    pose proof (exp_below 3 (1 / 2)) as [_ Q]; [lra|]. unfold limexp in Q. cbn [Nat.pow Nat.mul Nat.add] in Q.
    assert (1624 / 1000 < (1 + 1 / 2 / 2 ^ 3) ^ 8) by lra. lra. }
  assert (E3 : a * p <= a * exp (1 / 2 - a)) by (apply Rmult_le_compat_l; lra).
  assert (E4 : 0 <= a * p) by (apply Rmult_le_pos; lra).
  apply Rabs_def1; lra.
Qed.

(** Chebyshev *)
Lemma cheb2_fst n x : cheb2 n x = (cheb n x, cheb (S n) x).
Proof. unfold cheb. cbn [cheb2]. destruct (cheb2 n x). reflexivity. Qed.
Lemma cheb_SS n x : cheb (S (S n)) x = 2 * x * cheb (S n) x - cheb n x.
Proof. unfold cheb at 1. cbn [cheb2]. rewrite cheb2_fst. reflexivity. Qed.

Lemma cheb_two n x : cheb (n + 4) x = (4 * x * x - 2) * cheb (n + 2) x - cheb n x.
Proof.
  replace (n + 4)%nat with (S (S (S (S n)))) by lia. replace (n + 2)%nat with (S (S n)) by lia.
  rewrite !cheb_SS. ring.
Qed.

Lemma cheb_loop_R k : forall x j, gives (cheb_loop RE k (4 * x * x - 2) (cheb (2 * j + 1) x) (cheb (2 * j + 3) x))
  (map (fun i => cheb (2 * i + 1) x) (seq (j + 2) k)).
Proof.
  induction k as [|k IH]; intros x j; cbn [cheb_loop seq map]; [reflexivity|].
  eapply gives_bind; [run; reflexivity|]. eapply gives_bind; [run; reflexivity|].
  assert (E : (4 * x * x - 2) * cheb (2 * j + 3) x - cheb (2 * j + 1) x = cheb (2 * (j + 2) + 1) x).
  { replace (2 * (j + 2) + 1)%nat with ((2 * j + 1) + 4)%nat by lia. rewrite cheb_two.
    replace (2 * j + 1 + 2)%nat with (2 * j + 3)%nat by lia. reflexivity. }
  rewrite E. eapply gives_bind.
  - specialize (IH x (S j)). replace (2 * S j + 1)%nat with (2 * j + 3)%nat in IH by lia.
    replace (2 * S j + 3)%nat with (2 * (j + 2) + 1)%nat in IH by lia. exact IH.
  - run. do 2 f_equal.
Qed.

Lemma chebyshev_R terms x : Nat.even terms = true -> (6 <= terms)%nat ->
  gives (chebyshev RE terms x) (map (fun i => cheb (2 * i + 1) x) (seq 0 (terms / 2))).
Proof.
  intros He Ht. unfold chebyshev. rewrite He. rewrite (proj2 (Nat.ltb_ge terms 6)) by auto. cbn [negb orb].
  do 5 (eapply gives_bind; [run; reflexivity|]).
  assert (H2 : (3 <= terms / 2)%nat) by (apply Nat.div_le_lower_bound; lia).
  replace (x * 4 * x - 2) with (4 * x * x - 2) by ring.
  pose proof (cheb_loop_R (terms / 2 - 2) x 0) as G. cbn [Nat.mul Nat.add] in G.
  assert (C1 : cheb 1 x = x) by reflexivity. assert (C3 : cheb 3 x = (4 * x * x - 2 - 1) * x) by (rewrite !cheb_SS, C1; unfold cheb; cbn; ring).
  eapply gives_bind.
  { match goal with |- gives (cheb_loop _ _ _ _ ?q) _ => replace q with (cheb 3 x) by (rewrite C3; ring) end. exact G. }
  run. do 2 f_equal. destruct (terms / 2)%nat as [|[|m]]; [lia|lia|].
  cbn [seq map Nat.mul Nat.add Nat.sub]. rewrite Nat.sub_0_r. rewrite C3, C1. reflexivity.
Qed.

Lemma cheb_cos n : forall t, cheb n (cos t) = cos (INR n * t).
Proof.
  enough (H : forall t, cheb n (cos t) = cos (INR n * t) /\ cheb (S n) (cos t) = cos (INR (S n) * t)) by (intros; apply H).
  induction n as [|n IH]; intros t.
  - split; [cbn; rewrite Rmult_0_l, cos_0; reflexivity|]. cbn. rewrite Rmult_1_l. reflexivity.
  - destruct (IH t) as [A B]. split; [exact B|]. rewrite cheb_SS, A, B. rewrite !S_INR.
    replace ((INR n + 1 + 1) * t) with ((INR n + 1) * t + t) by ring.
    replace (INR n * t) with ((INR n + 1) * t - t) by ring. rewrite cos_plus, cos_minus. ring.
Qed.

Lemma cheb_opp n : forall x, cheb n (- x) = (-1) ^ n * cheb n x.
Proof.
  enough (H : forall x, cheb n (- x) = (-1) ^ n * cheb n x /\ cheb (S n) (- x) = (-1) ^ S n * cheb (S n) x) by (intros; apply H).
  induction n as [|n IH]; intros x.
  - split; cbn; ring.
  - destruct (IH x) as [A B]. split; [exact B|]. rewrite !cheb_SS, A, B. cbn [pow]. ring.
Qed.
Lemma cheb_odd i x : cheb (2 * i + 1) (- x) = - cheb (2 * i + 1) x.
Proof. rewrite cheb_opp. rewrite pow_add, pow_1_even. ring. Qed.

Lemma dot_R ps : forall cs acc, exists v, gives (dot RE ps cs acc) v /\ gives (dot RE (map Ropp ps) cs (- acc)) (- v).
Proof.
  induction ps as [|p ps IH]; intros [|c cs] acc; cbn [dot map]; try (exists acc; split; reflexivity).
  destruct (IH cs (acc + p * num_R c)) as (v & A & B). exists v. split.
  - do 2 (eapply gives_bind; [run; reflexivity|]). exact A.
  - do 2 (eapply gives_bind; [run; reflexivity|]). replace (- acc + - p * num_R c) with (- (acc + p * num_R c)) by ring. exact B.
Qed.

Lemma tanh_cheb_R cs x : exists v, gives (tanh_cheb RE cs x) v /\ gives (tanh_cheb RE cs (- x)) (- v).
Proof.
  unfold tanh_cheb.
  set (l := map (fun i => cheb (2 * i + 1) x) (seq 0 (10 / 2))).
  assert (EL : map (fun i => cheb (2 * i + 1) (- x)) (seq 0 (10 / 2)) = map Ropp l).
  { unfold l. rewrite map_map. apply map_ext. intro i. apply cheb_odd. }
  destruct (dot_R l cs (x * 0)) as (v & A & B).
  exists (Rmax (-1) (Rmin 1 v)). split.
  - eapply gives_bind; [apply chebyshev_R; [reflexivity|lia]|]. eapply gives_bind; [run; reflexivity|].
    eapply gives_bind; [exact A|]. apply (hardtanh_R (NInt (-1)) (NInt 1)). cbn. lra.
  - eapply gives_bind; [apply chebyshev_R; [reflexivity|lia]|]. eapply gives_bind; [run; reflexivity|].
    rewrite EL. replace (- x * 0) with (- (x * 0)) by ring.
    eapply gives_bind; [exact B|]. eapply gives_eq; [apply (hardtanh_R (NInt (-1)) (NInt 1)); cbn; lra|].
    cbn [num_R]. unfold Rmax, Rmin. split_dec; lra.
Qed.

Lemma aliter_R v l : forall acc, exists p, gives (aliter_loop RE v acc l) p.
Proof.
  induction l as [|mu l IH]; intros acc; cbn [aliter_loop]; [exists acc; reflexivity|].
  assert (H : exists a, gives (aliter_term RE v acc mu) a).
  { unfold aliter_term. destruct mu; eexists; run; reflexivity. }
  destruct H as [a Ha]. destruct (IH a) as [p Hp]. exists p. eapply gives_bind; eauto.
Qed.

Lemma sigmoid_sym m cs x : m <> SBad -> exists v, gives (sigmoid RE m cs x) v /\ gives (sigmoid RE m cs (- x)) (1 - v).
Proof.
  intros Hm. destruct m; try congruence; cbn [sigmoid]; clear Hm.
  - set (e := limexp 8 (-1 * Rabs x)).
    destruct (recip_R 10 (1 + e)) as (r & _ & G & _).
    exists ((r - 1 / 2) * sgn_R x + 1 / 2). split.
    + eapply gives_bind; [apply sign_R|]. eapply gives_bind; [run; reflexivity|].
      do 5 (eapply gives_bind; [run; reflexivity|]). eapply gives_bind; [apply exp_R|].
      eapply gives_bind; [run; reflexivity|].
      eapply gives_bind.
      { rewrite sgn_abs. replace (x * 0 + 1) with 1 by ring. replace (1 * -1 * Rabs x) with (-1 * Rabs x) by ring. exact G. }
      run. do 2 f_equal. lra.
    + eapply gives_bind; [apply sign_R|]. eapply gives_bind; [run; reflexivity|].
      do 5 (eapply gives_bind; [run; reflexivity|]). eapply gives_bind; [apply exp_R|].
      eapply gives_bind; [run; reflexivity|].
      eapply gives_bind.
      { rewrite sgn_abs, Rabs_Ropp. replace (- x * 0 + 1) with 1 by ring. replace (1 * -1 * Rabs x) with (-1 * Rabs x) by ring. exact G. }
      run. do 2 f_equal. rewrite sgn_opp. lra.
  - eexists. split; [run; reflexivity|]. run. do 2 f_equal. unfold Pos.to_nat. cbn [Pos.iter_op Nat.add]. rewrite !Q2R_lit. field.
  - destruct (tanh_cheb_R cs (x / 2)) as (v & A & B). exists (v / 2 + 1 / 2). split.
    + eapply gives_bind; [run; reflexivity|]. eapply gives_bind; [exact A|]. run. do 2 f_equal. rewrite Q2R_lit. lra.
    + eapply gives_bind; [run; reflexivity|]. replace (- x / 2) with (- (x / 2)) by field.
      eapply gives_bind; [exact B|]. run. do 2 f_equal. rewrite Q2R_lit. lra.
  - destruct (aliter_R (Rabs x / 8) [0; 1; 2; 3; 4]%nat (Rabs x / 8 * 0)) as (p & G).
    set (r := ((Rabs x / 8 + 1) / 2) ^ Pos.to_nat 5 * p).
    exists (((1 - sgn_R x) * (1 - r) + (sgn_R x + 1) * r) / 2). split.
    + eapply gives_bind; [apply sign_R|]. eapply gives_bind; [run; reflexivity|].
      do 5 (eapply gives_bind; [run; reflexivity|]). rewrite sgn_abs. eapply gives_bind; [exact G|]. run. reflexivity.
    + eapply gives_bind; [apply sign_R|]. eapply gives_bind; [run; reflexivity|].
      do 5 (eapply gives_bind; [run; reflexivity|]). rewrite sgn_abs, Rabs_Ropp. eapply gives_bind; [exact G|]. run.
      rewrite sgn_opp. do 2 f_equal. fold r. field.
Qed.

Lemma tanh_odd m cs x : m <> TBad -> exists v, gives (tanh_a RE m cs x) v /\ gives (tanh_a RE m cs (- x)) (- v).
Proof.
  intros Hm. destruct m; try congruence; cbn [tanh_a]; [|apply tanh_cheb_R].
  destruct (sigmoid_sym SExp cs (x * 2)) as (v & A & B); [discriminate|].
  exists (v * 2 - 1). split.
  - eapply gives_bind; [run; reflexivity|]. eapply gives_bind; [exact A|]. run. reflexivity.
  - eapply gives_bind; [run; reflexivity|]. replace (- x * 2) with (- (x * 2)) by ring.
    eapply gives_bind; [exact B|]. run. do 2 f_equal. lra.
Qed.

Lemma bernoulli n : forall t, -1 <= t -> 1 + INR n * t <= (1 + t) ^ n.
Proof.
  induction n as [|n IH]; intros t Ht; [cbn; lra|]. specialize (IH t Ht). rewrite S_INR. cbn [pow].
  assert (0 <= INR n) by apply pos_INR. assert (0 <= INR n * (t * t)) by (apply Rmult_le_pos; auto; nra).
  assert ((1 + t) * (1 + INR n * t) <= (1 + t) * (1 + t) ^ n) by (apply Rmult_le_compat_l; lra). nra.
Qed.

Lemma exp_above k x : Rabs x < 2 ^ k -> exp x * (1 - x * x / 2 ^ k) <= limexp k x.
Proof.
  intros H. pose proof (two_pow_R_pos k) as HP. unfold limexp. set (n := 2 ^ k) in *.
  assert (EN : INR (2 ^ k) = n) by (rewrite pow_INR; cbn [INR]; replace (1 + 1) with 2 by lra; reflexivity).
  set (t := x / n). assert (EX : x = n * t) by (unfold t; field; lra).
  assert (HT : -1 < t < 1).
  { assert (A : Rabs t < 1).
    { unfold t. unfold Rdiv. rewrite Rabs_mult, (Rabs_right (/ n)) by (left; apply Rinv_0_lt_compat; auto).
      apply (Rmult_lt_reg_r n); auto. rewrite Rmult_assoc, Rinv_l by lra. lra. }
    apply Rabs_def2 in A. lra. }
  assert (H1 : (1 - t * t) * exp t <= 1 + t).
  { pose proof (exp_ineq1_le (- t)) as B. rewrite exp_Ropp in B. pose proof (exp_pos t) as PE.
    assert ((1 - t) * exp t <= 1).
    { apply (Rmult_le_reg_r (/ exp t)); [apply Rinv_0_lt_compat; auto|]. rewrite Rmult_assoc, Rinv_r by lra. lra. }
    replace ((1 - t * t) * exp t) with ((1 + t) * ((1 - t) * exp t)) by ring.
    rewrite <- (Rmult_1_r (1 + t)) at 2. apply Rmult_le_compat_l; lra. }
  assert (H2 : 1 - x * x / n <= (1 - t * t) ^ (2 ^ k)).
  { pose proof (bernoulli (2 ^ k) (- (t * t))) as B. rewrite EN in B.
    replace (1 - x * x / n) with (1 + n * - (t * t)) by (rewrite EX; field; lra). apply B. nra. }
  replace (exp x) with (exp t ^ (2 ^ k)) by (rewrite <- exp_scaled, EN, EX; reflexivity).
  assert (0 < exp t ^ (2 ^ k)) by (apply pow_lt, exp_pos).
  apply Rle_trans with (exp t ^ (2 ^ k) * (1 - t * t) ^ (2 ^ k)); [apply Rmult_le_compat_l; lra|].
  rewrite <- Rpow_mult_distr. apply pow_incr. split; [apply Rmult_le_pos; [left; apply exp_pos|nra]|]. lra.
Qed.

Lemma two_pow_ge n : (n <= 2 ^ n)%nat.
Proof. pose proof (Nat.pow_gt_lin_r 2 n). lia. Qed.
