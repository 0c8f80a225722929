(** Discrete orthogonality of cosines. *)
From Coq Require Import QArith Reals Qreals Lra String.
From Verif Require Import Util M_Torch M_Encoder M_Share M_Engine M_Approx S_Real L_Real M_Series.
Local Open Scope R_scope.
Local Open Scope list_scope.

Lemma total_ext n g h : (forall i, (i < n)%nat -> g i = h i) -> total n g = total n h.
Proof. induction n as [|n IH]; intros H; cbn [total]; [reflexivity|]. rewrite IH, H; auto. Qed.
Lemma total_plus n g h : total n (fun i => g i + h i) = total n g + total n h.
Proof. induction n as [|n IH]; cbn [total]; [lra|]. rewrite IH. lra. Qed.
Lemma total_scal n c g : total n (fun i => c * g i) = c * total n g.
Proof. induction n as [|n IH]; cbn [total]; [lra|]. rewrite IH. lra. Qed.
Lemma total_0 n g : (forall i, (i < n)%nat -> g i = 0) -> total n g = 0.
Proof. induction n as [|n IH]; intros H; cbn [total]; [reflexivity|]. rewrite IH, H; auto. lra. Qed.
Lemma total_swap m n g : total m (fun i => total n (fun k => g i k)) = total n (fun k => total m (fun i => g i k)).
Proof.
  induction m as [|m IH]; cbn [total]; [symmetry; apply total_0; auto|]. rewrite IH, <- total_plus. reflexivity.
Qed.
Lemma total_one n m g : (m < n)%nat -> (forall k, (k < n)%nat -> k <> m -> g k = 0) -> total n g = g m.
Proof.
  induction n as [|n IH]; intros Hm H; [lia|]. cbn [total]. destruct (Nat.eq_dec m n) as [->|N].
  - rewrite total_0; [lra|]. intros i Hi. apply H; lia.
  - rewrite IH, (H n) by (auto; lia). lra.
Qed.
Lemma total_S n g : total (S n) g = g O + total n (fun i => g (S i)).
Proof. induction n as [|n IH]; [cbn [total]; lra|]. cbn [total] in *. rewrite IH. lra. Qed.
Lemma total_rev n g : total n g = total n (fun k => g (n - 1 - k)%nat).
Proof.
  revert g. induction n as [|n IH]; intros g; [reflexivity|]. rewrite total_S. cbn [total]. rewrite IH.
  replace (S n - 1 - n)%nat with 0%nat by lia. rewrite Rplus_comm. f_equal. apply total_ext. intros i Hi. f_equal. lia.
Qed.

(** 1/2 + cos a + ... + cos ((n-1) a) *)
Definition kernel (n : nat) (a : R) : R := 1 / 2 + total (n - 1) (fun i => cos (INR (S i) * a)).

Lemma kernel_sin n a : (1 <= n)%nat -> 2 * sin (a / 2) * kernel n a = sin ((INR n - 1 / 2) * a).
Proof.
  intros Hn. unfold kernel. replace n with (S (n - 1)) at 2 by lia. generalize (n - 1)%nat. clear. induction n as [|n IH].
  - cbn [total INR]. replace ((1 - 1 / 2) * a) with (a / 2) by lra. lra.
  - cbn [total]. rewrite <- Rplus_assoc, Rmult_plus_distr_l, IH. rewrite (S_INR (S n)).
    set (m := INR (S n)). replace ((m + 1 - 1 / 2) * a) with (m * a + a / 2) by lra.
    replace ((m - 1 / 2) * a) with (m * a - a / 2) by lra. rewrite sin_plus, sin_minus. ring.
Qed.

Lemma sin_nat_pi j b : sin (INR j * PI - b) = - (-1) ^ j * sin b.
Proof.
  induction j as [|j IH]; [cbn [INR pow]; rewrite Rmult_0_l, Rminus_0_l, sin_neg; ring|].
  rewrite S_INR. replace ((INR j + 1) * PI - b) with ((INR j * PI - b) + PI) by ring. rewrite neg_sin, IH. cbn [pow]. ring.
Qed.
Lemma cos_nat_pi j b : cos (INR j * PI - b) = (-1) ^ j * cos b.
Proof.
  induction j as [|j IH]; [cbn [INR pow]; rewrite Rmult_0_l, Rminus_0_l, cos_neg; ring|].
  rewrite S_INR. replace ((INR j + 1) * PI - b) with ((INR j * PI - b) + PI) by ring. rewrite neg_cos, IH. cbn [pow]. ring.
Qed.

Lemma kernel_node n j : (0 < j < 2 * n)%nat -> kernel n (INR j * PI / INR n) = - (-1) ^ j / 2.
Proof.
  intros Hj. assert (Hn : (1 <= n)%nat) by lia. pose proof (kernel_sin n (INR j * PI / INR n) Hn) as K.
  assert (N : 0 < INR n) by (apply lt_0_INR; lia). assert (J : 0 < INR j) by (apply lt_0_INR; lia).
  assert (JN : INR j < 2 * INR n) by (change 2 with (INR 2); rewrite <- mult_INR; apply lt_INR; lia).
  replace ((INR n - 1 / 2) * (INR j * PI / INR n)) with (INR j * PI - INR j * PI / INR n / 2) in K by (field; lra).
  rewrite sin_nat_pi in K. set (s := sin (INR j * PI / INR n / 2)) in *.
  assert (P : 0 < s).
  { unfold s. pose proof PI_RGT_0 as PP. apply sin_gt_0.
    - pose proof (Rmult_lt_0_compat _ _ J PP) as Q. pose proof (Rdiv_lt_0_compat _ _ Q N). lra.
    - apply (Rmult_lt_reg_r (2 * INR n)); [lra|]. replace (INR j * PI / INR n / 2 * (2 * INR n)) with (INR j * PI) by (field; lra).
      rewrite (Rmult_comm PI). apply Rmult_lt_compat_r; lra. }
  apply (Rmult_eq_reg_l (2 * s)); [|lra]. rewrite K. field.
Qed.
Lemma kernel_opp n a : kernel n (- a) = kernel n a.
Proof. unfold kernel. f_equal. apply total_ext. intros i _. rewrite <- Ropp_mult_distr_r, cos_neg. reflexivity. Qed.
Lemma kernel_0 n : (1 <= n)%nat -> kernel n 0 = INR n - 1 / 2.
Proof.
  intros Hn. unfold kernel. replace (total (n - 1) _) with (INR (n - 1)); [rewrite minus_INR by lia; cbn [INR]; lra|].
  generalize (n - 1)%nat. clear. induction n as [|n IH]; [reflexivity|]. rewrite S_INR. cbn [total]. rewrite <- IH, Rmult_0_r, cos_0. reflexivity.
Qed.

Lemma kernel_prod n a b : 1 / 2 + total (n - 1) (fun i => cos (INR (S i) * a) * cos (INR (S i) * b)) = (kernel n (a - b) + kernel n (a + b)) / 2.
Proof.
  unfold kernel. set (t := total (n - 1) (fun i => cos (INR (S i) * a) * cos (INR (S i) * b))).
  assert (E : total (n - 1) (fun i => cos (INR (S i) * (a - b))) + total (n - 1) (fun i => cos (INR (S i) * (a + b))) = 2 * t).
  { unfold t. rewrite <- total_plus, <- total_scal. apply total_ext. intros i _.
    rewrite Rmult_minus_distr_l, Rmult_plus_distr_l, cos_minus, cos_plus. ring. }
  lra.
Qed.

Lemma minus1_pow_opp j j' : Nat.even (j + j') = false -> (-1) ^ j + (-1) ^ j' = 0.
Proof.
  intros H. destruct (Nat.Even_or_Odd j) as [[a ->]|[a ->]], (Nat.Even_or_Odd j') as [[b ->]|[b ->]].
  - rewrite <- Nat.mul_add_distr_l in H. rewrite Nat.even_mul in H. discriminate.
  - rewrite pow_add, !pow_1_even. lra.
  - rewrite pow_add, !pow_1_even. lra.
  - replace (2 * a + 1 + (2 * b + 1))%nat with (2 * (a + b + 1))%nat in H by lia. rewrite Nat.even_mul in H. discriminate.
Qed.

Lemma orthogonal n k m : (k < n)%nat -> (m < n)%nat ->
  1 / 2 + total (n - 1) (fun i => cos (INR (S i) * angle n k) * cos (INR (S i) * angle n m)) = if Nat.eq_dec k m then INR n / 2 else 0.
Proof.
  intros Hk Hm. rewrite kernel_prod. assert (N : 0 < INR n) by (apply lt_0_INR; lia).
  assert (EP : angle n k + angle n m = INR (k + m + 1) * PI / INR n).
  { unfold angle. rewrite !plus_INR. cbn [INR]. field. lra. }
  rewrite EP, kernel_node by lia. destruct (Nat.eq_dec k m) as [->|NE].
  - rewrite Rminus_diag_eq, kernel_0 by (auto; lia). pose proof (minus1_pow_opp (m + m + 1) 0) as Q.
    replace (m + m + 1 + 0)%nat with (2 * m + 1)%nat in Q by lia. rewrite Nat.even_add, Nat.even_mul in Q. specialize (Q eq_refl). cbn [pow] in Q. lra.
  - assert (Z0 : forall p q, (p < q)%nat -> (q < n)%nat -> kernel n (angle n q - angle n p) + - (-1) ^ (q + p + 1) / 2 = 0).
    { intros p q H1 H2. replace (angle n q - angle n p) with (INR (q - p) * PI / INR n).
      - rewrite kernel_node by lia. pose proof (minus1_pow_opp (q - p) (q + p + 1)) as Q.
        replace (q - p + (q + p + 1))%nat with (2 * q + 1)%nat in Q by lia. rewrite Nat.even_add, Nat.even_mul in Q. specialize (Q eq_refl). lra.
      - unfold angle. rewrite minus_INR by lia. field. lra. }
    destruct (Nat.lt_ge_cases m k) as [L|L].
    + rewrite (Z0 m k) by auto. lra.
    + rewrite <- kernel_opp. replace (- (angle n k - angle n m)) with (angle n m - angle n k) by ring.
      rewrite (Nat.add_comm k m). rewrite (Z0 k m) by lia. lra.
Qed.

(** the coefficients *)
Lemma series_nth f w n i : (i < n)%nat ->
  nth i (chebyshev_series f w n) 0 = 2 / INR n * total n (fun k => f (w * cos (angle n k)) * cos (INR i * angle n k)).
Proof.
  intros Hi. unfold chebyshev_series. rewrite (nth_map_in _ 0%nat) by (rewrite seq_length; auto).
  rewrite seq_nth by auto. cbn [Nat.add]. f_equal. apply total_ext. intros k _. do 2 f_equal. unfold angle, Rdiv. ring.
Qed.

Lemma interpolation f w n m : (m < n)%nat ->
  nth 0 (chebyshev_series f w n) 0 / 2 + total (n - 1) (fun i => nth (S i) (chebyshev_series f w n) 0 * cos (INR (S i) * angle n m))
  = f (w * cos (angle n m)).
Proof.
  intros Hm. assert (N : 0 < INR n) by (apply lt_0_INR; lia). rewrite series_nth by lia.
  rewrite (total_ext (n - 1) _ (fun i => total n (fun k => 2 / INR n * f (w * cos (angle n k)) * (cos (INR (S i) * angle n k) * cos (INR (S i) * angle n m))))).
  2:{ intros i Hi. rewrite series_nth by lia. rewrite (Rmult_assoc (2 / INR n)), (Rmult_comm (total n _)), <- Rmult_assoc, <- total_scal.
      apply total_ext. intros k _. ring. }
  rewrite total_swap. rewrite (total_ext n (fun k => f (w * cos (angle n k)) * cos (INR 0 * angle n k)) (fun k => f (w * cos (angle n k)))).
  2:{ intros k _. cbn [INR]. rewrite Rmult_0_l, cos_0. ring. }
  replace (2 / INR n * total n (fun k => f (w * cos (angle n k))) / 2) with (total n (fun k => 2 / INR n * f (w * cos (angle n k)) * (1 / 2))).
  2:{ rewrite <- (total_ext n (fun k => (1 / INR n) * f (w * cos (angle n k)))); [rewrite total_scal; field; lra|]. intros k _. field. lra. }
  rewrite <- total_plus.
  rewrite (total_ext n _ (fun k => 2 / INR n * f (w * cos (angle n k)) * (if Nat.eq_dec k m then INR n / 2 else 0))).
  2:{ intros k Hk. rewrite total_scal, <- Rmult_plus_distr_l. rewrite (orthogonal n k m Hk Hm). reflexivity. }
  rewrite (total_one n m); [|exact Hm|intros k Hk NE; destruct (Nat.eq_dec k m); [congruence|ring]].
  destruct (Nat.eq_dec m m); [|congruence]. field. lra.
Qed.

Lemma odd_vanish f w n i : (forall x, f (- x) = - f x) -> (i < n)%nat -> Nat.even i = true -> nth i (chebyshev_series f w n) 0 = 0.
Proof.
  intros Hf Hi He. assert (N : 0 < INR n) by (apply lt_0_INR; lia). rewrite series_nth by auto.
  set (g := fun k => f (w * cos (angle n k)) * cos (INR i * angle n k)).
  assert (E : total n g = - total n g).
  { rewrite total_rev at 1. replace (- total n g) with (-1 * total n g) by ring. rewrite <- total_scal. apply total_ext. intros k Hk. unfold g.
    assert (A : angle n (n - 1 - k) = INR 1 * PI - angle n k).
    { unfold angle. rewrite !minus_INR by lia. cbn [INR]. field. lra. }
    rewrite A, cos_nat_pi. replace (INR i * (INR 1 * PI - angle n k)) with (INR i * PI - INR i * angle n k) by (cbn [INR]; ring).
    rewrite cos_nat_pi. apply Nat.even_spec in He. destruct He as [j ->]. rewrite pow_1_even. cbn [pow].
    replace (w * (-1 * 1 * cos (angle n k))) with (- (w * cos (angle n k))) by ring. rewrite Hf. ring. }
  assert (total n g = 0) by lra. rewrite H. ring.
Qed.
