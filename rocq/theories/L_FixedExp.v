(** Repeated squaring with an error in every step: an error relative to the result plus a few
    units, for exponents from -512 to 1/100. *)
From Coq Require Import Reals Lra Lia.
From Verif Require Import S_Real L_Real L_Sigmoid L_FixedR L_FixedN.
Local Open Scope R_scope.

(** b is within A t + B of t (with the weights A, B), b' within 2 units of b * b *)
Lemma mixed_step b b' t A B A' B' C : Rabs (b - t) <= A * Rabs t + B -> 0 <= A -> 0 <= B -> A + B <= C -> C <= 1 / 2 -> Rabs t <= 2 ->
  (Rabs (b * b) < 2147483648 -> Rabs (b' - b * b) <= 2 * U) -> 2 * A + B + C * A <= A' -> B + 2 * U + C * B <= B' ->
  Rabs (b' - t * t) <= A' * Rabs (t * t) + B'.
Proof.
  intros H1 HA HB HC HC2 HT H2 H3 H4. pose proof (Rabs_pos t) as P. rewrite Rabs_mult. set (q := Rabs t) in *.
  assert (E : Rabs (b - t) <= 3 / 2) by nra.
  assert (BB : Rabs b <= 4).
  { replace b with ((b - t) + t) by ring. eapply Rle_trans; [apply Rabs_triang|]. fold q. lra. }
  assert (H5 : Rabs (b' - b * b) <= 2 * U) by (apply H2; rewrite Rabs_mult; pose proof (Rabs_pos b); nra).
  replace (b' - t * t) with ((b' - b * b) + ((b - t) * (b - t) + 2 * (t * (b - t)))) by ring.
  eapply Rle_trans; [apply Rabs_triang|].
  assert (K : Rabs ((b - t) * (b - t) + 2 * (t * (b - t))) <= (A * q + B) * (A * q + B) + 2 * (q * (A * q + B))).
  { eapply Rle_trans; [apply Rabs_triang|]. rewrite !Rabs_mult. fold q. rewrite (Rabs_right 2) by lra. pose proof (Rabs_pos (b - t)) as D.
    set (d := Rabs (b - t)) in *. assert (0 <= A * q) by (apply Rmult_le_pos; auto).
    apply Rplus_le_compat; [apply Rmult_le_compat; lra|]. apply Rmult_le_compat_l; [lra|]. apply Rmult_le_compat_l; lra. }
  assert (S1 : 2 * (q * (A * q + B)) <= 2 * A * (q * q) + B * (q * q) + B).
  { assert (0 <= B * ((q - 1) * (q - 1))) by (apply Rmult_le_pos; [auto|apply Rle_0_sqr]). lra. }
  assert (S2 : (A * q + B) * (A * q + B) <= C * (A * (q * q) + B)).
  { assert (J : (A * q + B) * (A * q + B) <= (A + B) * (A * (q * q) + B)).
    { assert (0 <= A * B * ((q - 1) * (q - 1))) by (apply Rmult_le_pos; [apply Rmult_le_pos; auto|apply Rle_0_sqr]). lra. }
    assert (0 <= A * (q * q) + B) by (assert (0 <= A * (q * q)) by (apply Rmult_le_pos; [auto|apply Rle_0_sqr]); lra). nra. }
  assert (Q : 0 <= q * q) by apply Rle_0_sqr.
  assert (S3 : (2 * A + B + C * A) * (q * q) <= A' * (q * q)) by (apply Rmult_le_compat_r; auto). lra.
Qed.

Lemma exp_chain_mixed b x : -512 <= x <= 1 / 100 -> Rabs (b 0%nat - (1 + x / 256)) <= 2 * U -> squares b ->
  Rabs (b 8%nat - limexp 8 x) <= 1016 * U * limexp 8 x + 19 * U.
Proof.
  intros Hx H0 HS. rewrite <- tw_8.
  assert (T0 : Rabs (tw x 0) <= 10000391 / 10000000) by (unfold tw; cbn [Nat.pow pow]; apply Rabs_le; lra).
  assert (T1 : Rabs (tw x 1) <= 1000079 / 1000000) by (apply (tw_step x 0 _ _ T0); lra).
  assert (T2 : Rabs (tw x 2) <= 1000159 / 1000000) by (apply (tw_step x 1 _ _ T1); lra).
  assert (T3 : Rabs (tw x 3) <= 1000319 / 1000000) by (apply (tw_step x 2 _ _ T2); lra).
  assert (T4 : Rabs (tw x 4) <= 1000639 / 1000000) by (apply (tw_step x 3 _ _ T3); lra).
  assert (T5 : Rabs (tw x 5) <= 1001279 / 1000000) by (apply (tw_step x 4 _ _ T4); lra).
  assert (T6 : Rabs (tw x 6) <= 1002560 / 1000000) by (apply (tw_step x 5 _ _ T5); lra).
  assert (T7 : Rabs (tw x 7) <= 1005127 / 1000000) by (apply (tw_step x 6 _ _ T6); lra).
  assert (E0 : Rabs (b 0%nat - tw x 0) <= 0 * Rabs (tw x 0) + 2 * U) by (unfold tw; cbn [Nat.pow pow]; rewrite Rmult_1_r, Rmult_0_l, Rplus_0_l; exact H0).
  assert (N : forall i A B A' B' C, (i < 8)%nat -> Rabs (b i - tw x i) <= A * Rabs (tw x i) + B -> 0 <= A -> 0 <= B -> A + B <= C -> C <= 1 / 2 -> Rabs (tw x i) <= 2 ->
    2 * A + B + C * A <= A' -> B + 2 * U + C * B <= B' -> Rabs (b (S i) - tw x (S i)) <= A' * Rabs (tw x (S i)) + B').
  { intros i A B A' B' C Hi. intros. rewrite tw_S. eapply (mixed_step (b i) _ _ A B A' B' C); eauto. }
  assert (E1 := N 0%nat 0 (2 * U) (2 * U) (40001 / 10000 * U) (2 * U) ltac:(lia) E0 ltac:(lra) ltac:(lra) ltac:(lra) ltac:(lra) ltac:(lra) ltac:(lra) ltac:(lra)).
  assert (E2 := N 1%nat (2 * U) (40001 / 10000 * U) (8001 / 1000 * U) (60010 / 10000 * U) (7 * U) ltac:(lia) E1 ltac:(lra) ltac:(lra) ltac:(lra) ltac:(lra) ltac:(lra) ltac:(lra) ltac:(lra)).
  assert (E3 := N 2%nat (8001 / 1000 * U) (60010 / 10000 * U) (22010 / 1000 * U) (80030 / 10000 * U) (15 * U) ltac:(lia) E2 ltac:(lra) ltac:(lra) ltac:(lra) ltac:(lra) ltac:(lra) ltac:(lra) ltac:(lra)).
  assert (E4 := N 3%nat (22010 / 1000 * U) (80030 / 10000 * U) (52050 / 1000 * U) (100080 / 10000 * U) (31 * U) ltac:(lia) E3 ltac:(lra) ltac:(lra) ltac:(lra) ltac:(lra) ltac:(lra) ltac:(lra) ltac:(lra)).
  assert (E5 := N 4%nat (52050 / 1000 * U) (100080 / 10000 * U) (114180 / 1000 * U) (120190 / 10000 * U) (63 * U) ltac:(lia) E4 ltac:(lra) ltac:(lra) ltac:(lra) ltac:(lra) ltac:(lra) ltac:(lra) ltac:(lra)).
  assert (E6 := N 5%nat (114180 / 1000 * U) (120190 / 10000 * U) (240650 / 1000 * U) (140450 / 10000 * U) (127 * U) ltac:(lia) E5 ltac:(lra) ltac:(lra) ltac:(lra) ltac:(lra) ltac:(lra) ltac:(lra) ltac:(lra)).
  assert (E7 := N 6%nat (240650 / 1000 * U) (140450 / 10000 * U) (496400 / 1000 * U) (161050 / 10000 * U) (255 * U) ltac:(lia) E6 ltac:(lra) ltac:(lra) ltac:(lra) ltac:(lra) ltac:(lra) ltac:(lra) ltac:(lra)).
  assert (E8 := N 7%nat (496400 / 1000 * U) (161050 / 10000 * U) (1016 * U) (19 * U) (513 * U) ltac:(lia) E7 ltac:(lra) ltac:(lra) ltac:(lra) ltac:(lra) ltac:(lra) ltac:(lra) ltac:(lra)).
  rewrite (Rabs_right (tw x 8)) in E8; [exact E8|]. apply Rle_ge. unfold tw. rewrite pow_dbl. apply Rle_0_sqr.
Qed.
