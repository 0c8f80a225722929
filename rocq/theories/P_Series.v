(** C71: the Chebyshev coefficients and the Chebyshev method of tanh. *)
From Coq Require Import QArith Reals Qreals Lra String.
From Verif Require Import Util M_Torch M_Encoder M_Share M_Engine M_Approx S_Real L_Real M_Series L_Series.
Local Open Scope R_scope.
Local Open Scope list_scope.

(** the value at [x] of the series with coefficients [c] for the interval [-w, w]: half the first
    coefficient plus the sum of c_i T_i(x / w) *)
Definition series_value (c : list R) (w x : R) : R :=
  nth 0 c 0 / 2 + fold_right Rplus 0 (map (fun i => nth i c 0 * cheb i (x / w)) (seq 1 (length c - 1))).
(** the zeros of T_n, stretched to [-w, w] *)
Definition node (w : R) (n k : nat) : R := w * cos ((2 * INR k + 1) * PI / (2 * INR n)).

Lemma sum_total n g : fold_right Rplus 0 (map g (seq 1 n)) = total n (fun i => g (S i)).
Proof.
  enough (H : forall a, fold_right Rplus 0 (map g (seq a n)) = total n (fun i => g (a + i)%nat)) by (rewrite H; reflexivity).
  induction n as [|n IH]; intros a; [reflexivity|]. rewrite total_S. cbn [seq map fold_right]. rewrite IH, Nat.add_0_r. f_equal.
  apply total_ext. intros i _. f_equal. lia.
Qed.
Lemma node_angle w n k : (1 <= n)%nat -> node w n k = w * cos (angle n k).
Proof. intros H. unfold node, angle. assert (0 < INR n) by (apply lt_0_INR; lia). do 2 f_equal. field. lra. Qed.
Lemma series_length f w n : length (chebyshev_series f w n) = n.
Proof. unfold chebyshev_series. rewrite map_length, seq_length. reflexivity. Qed.

(** C71: for every function, width and number of terms the series agrees with the function at the
    [terms] nodes. *)
Theorem C71_interpolation : forall f w n k, w <> 0 -> (k < n)%nat ->
  series_value (chebyshev_series f w n) w (node w n k) = f (node w n k).
Proof.
  intros f w n k Hw Hk. unfold series_value. rewrite series_length, sum_total, node_angle by lia.
  rewrite <- (interpolation f w n k Hk). f_equal. apply total_ext. intros i _. f_equal.
  replace (w * cos (angle n k) / w) with (cos (angle n k)) by (field; auto). apply cheb_cos.
Qed.
Print Assumptions C71_interpolation.
Example C71_interpolation_witness : 2 <> 0 /\ (0 < 1)%nat /\ chebyshev_series (fun x => x + 5) 2 1 = [10].
Proof.
  split; [lra|]. split; [lia|]. unfold chebyshev_series, angle. cbn [seq map total INR]. f_equal.
  rewrite !Rmult_0_l. unfold Rdiv. rewrite !Rmult_0_l, cos_0. replace ((0 + 1 * / 2) * PI * / 1) with (PI / 2) by field. rewrite cos_PI2. field.
Qed.

(** C71: the coefficients of even index, which tanh drops, are 0 for an odd function. *)
Theorem C71_odd : forall f w n i, (forall x, f (- x) = - f x) -> (i < n)%nat -> Nat.even i = true ->
  nth i (chebyshev_series f w n) 0 = 0.
Proof. intros. apply odd_vanish; auto. Qed.
Print Assumptions C71_odd.

Lemma dot_val ps : forall cs acc, length ps = length cs ->
  gives (dot real_engine ps cs acc) (acc + fold_right Rplus 0 (map (fun pc => fst pc * num_R (snd pc)) (combine ps cs))).
Proof.
  induction ps as [|p ps IH]; intros [|c cs] acc H; cbn [length] in H; try discriminate; cbn [dot combine map fold_right].
  - rewrite Rplus_0_r. reflexivity.
  - do 2 (eapply gives_bind; [run; reflexivity|]). cbn [fst snd]. rewrite <- Rplus_assoc. apply IH. lia.
Qed.
Lemma tanh_odd x : tanh (- x) = - tanh x.
Proof. unfold tanh, sinh, cosh. rewrite Ropp_involutive. pose proof (exp_pos x). pose proof (exp_pos (- x)). field. lra. Qed.
Lemma tanh_range x : -1 < tanh x < 1.
Proof.
  unfold tanh, sinh, cosh. pose proof (exp_pos x). pose proof (exp_pos (- x)).
  assert (P : 0 < (exp x + exp (- x)) / 2) by lra.
  assert (E : (exp x - exp (- x)) / 2 / ((exp x + exp (- x)) / 2) * ((exp x + exp (- x)) / 2) = (exp x - exp (- x)) / 2) by (field; lra).
  split; apply (Rmult_lt_reg_r ((exp x + exp (- x)) / 2)); auto; rewrite E; lra.
Qed.
Lemma clamp_near v t d : -1 < t < 1 -> Rabs (v - t) <= d -> Rabs (Rmax (-1) (Rmin 1 v) - t) <= d.
Proof.
  intros Ht Hd. apply Rabs_le. assert (B : - d <= v - t <= d) by (revert Hd; unfold Rabs; destruct (Rcase_abs (v - t)); lra).
  unfold Rmax, Rmin. destruct (Rle_dec 1 v); destruct (Rle_dec _ _); lra.
Qed.

(** C71: with public coefficients within [d] of the odd-numbered coefficients of the series of tanh
    (10 terms, width 1) the Chebyshev method is within 5 d of tanh at the 10 nodes. *)
Theorem C71_tanh_nodes : forall cs d k, (k < 10)%nat ->
  Forall2 (fun c r => Rabs (num_R c - r) <= d) cs (odd_positions (chebyshev_series tanh 1 10)) ->
  exists v, gives (tanh_a real_engine TCheb cs (node 1 10 k)) v /\ Rabs (v - tanh (node 1 10 k)) <= 5 * d.
Proof.
  intros cs d k Hk H. set (x := node 1 10 k). pose proof (series_length tanh 1 10) as L.
  pose proof (C71_interpolation tanh 1 10 k ltac:(lra) Hk) as I. fold x in I.
  assert (V : forall i, (i < 10)%nat -> Nat.even i = true -> nth i (chebyshev_series tanh 1 10) 0 = 0).
  { intros i Hi He. apply C71_odd; auto using tanh_odd. }
  assert (CB : forall i, Rabs (cheb i x) <= 1).
  { intros i. unfold x. rewrite node_angle by lia. rewrite Rmult_1_l, cheb_cos. pose proof (COS_bound (INR i * angle 10 k)). apply Rabs_le. lra. }
  unfold series_value in I. rewrite L in I. replace (x / 1) with x in I by field.
  destruct (chebyshev_series tanh 1 10) as [|c0 [|c1 [|c2 [|c3 [|c4 [|c5 [|c6 [|c7 [|c8 [|c9 [|? ?]]]]]]]]]]]; try discriminate L.
  pose proof (V 0%nat ltac:(lia) eq_refl) as V0. pose proof (V 2%nat ltac:(lia) eq_refl) as V2. pose proof (V 4%nat ltac:(lia) eq_refl) as V4.
  pose proof (V 6%nat ltac:(lia) eq_refl) as V6. pose proof (V 8%nat ltac:(lia) eq_refl) as V8. cbn [nth] in V0, V2, V4, V6, V8.
  change (10 - 1)%nat with 9%nat in I. cbn [nth seq map fold_right] in I. cbn [odd_positions] in H.
  inversion H as [|a1 r1 l1 m1 H1 H' E1 E1']; subst. inversion H' as [|a3 r3 l3 m3 H3 H'' E3 E3']; subst.
  inversion H'' as [|a5 r5 l5 m5 H5 H3' E5 E5']; subst. inversion H3' as [|a7 r7 l7 m7 H7 H4' E7 E7']; subst.
  inversion H4' as [|a9 r9 l9 m9 H9 H5' E9 E9']; subst. inversion H5'; subst.
  eexists. split.
  - cbn [tanh_a]. unfold tanh_cheb. eapply gives_bind; [apply chebyshev_R; [reflexivity|lia]|]. eapply gives_bind; [run; reflexivity|].
    eapply gives_bind; [apply dot_val; reflexivity|]. apply (hardtanh_R (NInt (-1)) (NInt 1)). cbn. lra.
  - cbn [num_R]. apply clamp_near; [apply tanh_range|]. rewrite <- I. change (10 / 2)%nat with 5%nat.
    cbn [seq map combine fst snd fold_right]. change (2 * 0 + 1)%nat with 1%nat. change (2 * 1 + 1)%nat with 3%nat. change (2 * 2 + 1)%nat with 5%nat.
    change (2 * 3 + 1)%nat with 7%nat. change (2 * 4 + 1)%nat with 9%nat.
    match goal with |- Rabs ?e <= _ => replace e with (cheb 1 x * (num_R a1 - c1) + cheb 3 x * (num_R a3 - c3) + cheb 5 x * (num_R a5 - c5) +
      cheb 7 x * (num_R a7 - c7) + cheb 9 x * (num_R a9 - c9)) by lra end.
    assert (P : forall i y, Rabs y <= d -> - d <= cheb i x * y <= d).
    { intros i y Hy. assert (Q : Rabs (cheb i x * y) <= 1 * d) by (rewrite Rabs_mult; apply Rmult_le_compat; auto using Rabs_pos).
      revert Q. unfold Rabs. destruct (Rcase_abs _); lra. }
    pose proof (P 1%nat _ H1). pose proof (P 3%nat _ H3). pose proof (P 5%nat _ H5). pose proof (P 7%nat _ H7). pose proof (P 9%nat _ H9).
    apply Rabs_le. lra.
Qed.
Print Assumptions C71_tanh_nodes.
(** the coefficients can be approximated: here by integers *)
Example C71_tanh_witness : exists cs d, 0 <= d /\ Forall2 (fun c r => Rabs (num_R c - r) <= d) cs (odd_positions (chebyshev_series tanh 1 10)) /\
  node 1 10 0 <> node 1 10 9.
Proof.
  exists (map (fun r => NInt (up r)) (odd_positions (chebyshev_series tanh 1 10))), 1. split; [lra|]. split.
  - induction (odd_positions (chebyshev_series tanh 1 10)) as [|r l IH]; constructor; auto. cbn [num_R].
    destruct (archimed r). apply Rabs_le. lra.
  - rewrite !node_angle by lia. intros E. assert (A : angle 10 9 = INR 1 * PI - angle 10 0) by (unfold angle; cbn [INR]; field).
    rewrite A, cos_nat_pi in E. cbn [pow] in E. assert (C0 : cos (angle 10 0) = 0) by lra. pose proof PI_RGT_0.
    assert (0 < cos (angle 10 0)); [|lra]. unfold angle. cbn [INR]. apply cos_gt_0; lra.
Qed.
