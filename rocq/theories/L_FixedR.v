(** Real arithmetic for the fixed-point error bounds: repeated squaring and Newton's iteration
    with an error in every step (one unit is 1 / 65536). *)
From Coq Require Import Reals Lra Lia.
From Verif Require Import S_Real L_Real L_Sigmoid.
Local Open Scope R_scope.

Notation U := (1 / 65536).

Lemma abs_lt2 r B : - B <= r <= B -> Rabs r <= B. Proof. apply Rabs_le. Qed.
Lemma abs_in r B : Rabs r <= B -> - B <= r <= B.
Proof. unfold Rabs. destruct (Rcase_abs r); lra. Qed.

Lemma sq_step b b' t T E : Rabs (b - t) <= E -> Rabs t <= T -> T + E <= 40000 ->
  (Rabs (b * b) < 2147483648 -> Rabs (b' - b * b) <= 2 * U) -> Rabs (b' - t * t) <= 2 * T * E + E * E + 2 * U.
Proof.
  intros H1 H2 H3 H4. apply abs_in in H1, H2.
  assert (B : -40000 <= b <= 40000) by lra.
  assert (H5 : Rabs (b' - b * b) <= 2 * U) by (apply H4; rewrite Rabs_right; nra).
  replace (b' - t * t) with ((b' - b * b) + (b - t) * (b - t + 2 * t)) by ring.
  eapply Rle_trans; [apply Rabs_triang|]. rewrite Rabs_mult.
  assert (A1 : Rabs (b - t) <= E) by (apply Rabs_le; lra).
  assert (A2 : Rabs (b - t + 2 * t) <= E + 2 * T) by (apply Rabs_le; lra).
  assert (Rabs (b - t) * Rabs (b - t + 2 * t) <= E * (E + 2 * T)) by (apply Rmult_le_compat; auto using Rabs_pos). nra.
Qed.

Lemma pow_dbl x n : x ^ (2 ^ S n) = x ^ (2 ^ n) * x ^ (2 ^ n).
Proof. replace (2 ^ S n)%nat with (2 ^ n + 2 ^ n)%nat by (rewrite Nat.pow_succ_r'; lia). apply pow_add. Qed.

Definition tw (x : R) (i : nat) : R := (1 + x / 256) ^ (2 ^ i).
Lemma tw_S x i : tw x (S i) = tw x i * tw x i. Proof. apply pow_dbl. Qed.
Lemma tw_8 x : tw x 8 = limexp 8 x.
Proof. unfold tw, limexp. do 2 f_equal. lra. Qed.

Lemma tw_step x i T T' : Rabs (tw x i) <= T -> T * T <= T' -> Rabs (tw x (S i)) <= T'.
Proof. intros H1 H2. rewrite tw_S, Rabs_mult. pose proof (Rabs_pos (tw x i)). nra. Qed.

(** repeated squaring of a number near 1 + x/256, x at most 1/100 *)
Definition squares (b : nat -> R) : Prop :=
  forall i, (i < 8)%nat -> Rabs (b i * b i) < 2147483648 -> Rabs (b (S i) - b i * b i) <= 2 * U.


Lemma exp_chain b x : -512 <= x <= 1 / 100 -> Rabs (b 0%nat - (1 + x / 256)) <= 2 * U -> squares b ->
  Rabs (b 8%nat - limexp 8 x) <= 1041 * U.
Proof.
  intros Hx H0 HS. rewrite <- tw_8.
  assert (T0 : Rabs (tw x 0) <= 10000391 / 10000000) by (unfold tw; cbn [Nat.pow pow]; apply Rabs_le; lra).
  assert (T1 : Rabs (tw x 1) <= 1000079 / 1000000) by (apply (tw_step x 0 _ _ T0); lra).
  assert (T2 : Rabs (tw x 2) <= 1000159 / 1000000) by (apply (tw_step x 1 _ _ T1); lra).
  assert (T3 : Rabs (tw x 3) <= 1000319 / 1000000) by (apply (tw_step x 2 _ _ T2); lra).
  assert (T4 : Rabs (tw x 4) <= 1000639 / 1000000) by (apply (tw_step x 3 _ _ T3); lra).
  assert (T5 : Rabs (tw x 5) <= 1001279 / 1000000) by (apply (tw_step x 4 _ _ T4); lra).
  assert (T6 : Rabs (tw x 6) <= 1002560 / 1000000) by (apply (tw_step x 5 _ _ T5); lra).
  assert (T7 : Rabs (tw x 7) <= 1005127 / 1000000) by (apply (tw_step x 6 _ _ T6); lra).
  assert (E0 : Rabs (b 0%nat - tw x 0) <= 2 * U) by (unfold tw; cbn [Nat.pow pow]; rewrite Rmult_1_r; exact H0).
  assert (N : forall i E T E', (i < 8)%nat -> Rabs (b i - tw x i) <= E -> Rabs (tw x i) <= T -> T + E <= 40000 -> 2 * T * E + E * E + 2 * U <= E' ->
    Rabs (b (S i) - tw x (S i)) <= E').
  { intros i E T E' Hi A B C D. rewrite tw_S. eapply Rle_trans; [apply (sq_step (b i) _ (tw x i) T E); auto|exact D]. }
  assert (E1 : Rabs (b 1%nat - tw x 1) <= 6001 / 1000 * U) by (eapply (N 0%nat); [lia|exact E0|exact T0|lra|lra]).
  assert (E2 : Rabs (b 2%nat - tw x 2) <= 14004 / 1000 * U) by (eapply (N 1%nat); [lia|exact E1|exact T1|lra|lra]).
  assert (E3 : Rabs (b 3%nat - tw x 3) <= 30016 / 1000 * U) by (eapply (N 2%nat); [lia|exact E2|exact T2|lra|lra]).
  assert (E4 : Rabs (b 4%nat - tw x 4) <= 62066 / 1000 * U) by (eapply (N 3%nat); [lia|exact E3|exact T3|lra|lra]).
  assert (E5 : Rabs (b 5%nat - tw x 5) <= 126272 / 1000 * U) by (eapply (N 4%nat); [lia|exact E4|exact T4|lra|lra]).
  assert (E6 : Rabs (b 6%nat - tw x 6) <= 255111 / 1000 * U) by (eapply (N 5%nat); [lia|exact E5|exact T5|lra|lra]).
  assert (E7 : Rabs (b 7%nat - tw x 7) <= 514523 / 1000 * U) by (eapply (N 6%nat); [lia|exact E6|exact T6|lra|lra]).
  eapply (N 7%nat); [lia|exact E7|exact T7|lra|lra].
Qed.

(** never much below 0; small for x at most -15/2 *)
Lemma exp_chain_low b x : -512 <= x <= 1 / 100 -> Rabs (b 0%nat - (1 + x / 256)) <= 2 * U -> squares b ->
  - (2 * U) <= b 8%nat /\ (-60 <= x <= - (15 / 2) -> b 8%nat <= 55 / 100000).
Proof.
  intros Hx H0 HS. split.
  - assert (B7 : Rabs (b 7%nat) <= 3).
    { assert (N : forall i B B', (i < 7)%nat -> Rabs (b i) <= B -> B <= 40000 -> B * B + 2 * U <= B' -> Rabs (b (S i)) <= B').
      { intros i B B' Hi A C D. pose proof (Rabs_pos (b i)).
        assert (Q : Rabs (b i * b i) <= B * B) by (rewrite Rabs_mult; nra).
        assert (W : Rabs (b (S i) - b i * b i) <= 2 * U) by (apply HS; [lia|nra]).
        replace (b (S i)) with ((b (S i) - b i * b i) + b i * b i) by ring. eapply Rle_trans; [apply Rabs_triang|]. lra. }
      apply abs_in in H0.
      assert (A0 : Rabs (b 0%nat) <= 10001 / 10000) by (apply Rabs_le; lra).
      assert (A1 : Rabs (b 1%nat) <= 10003 / 10000) by (apply (N 0%nat _ _ ltac:(lia) A0); lra).
      assert (A2 : Rabs (b 2%nat) <= 10007 / 10000) by (apply (N 1%nat _ _ ltac:(lia) A1); lra).
      assert (A3 : Rabs (b 3%nat) <= 10015 / 10000) by (apply (N 2%nat _ _ ltac:(lia) A2); lra).
      assert (A4 : Rabs (b 4%nat) <= 10031 / 10000) by (apply (N 3%nat _ _ ltac:(lia) A3); lra).
      assert (A5 : Rabs (b 5%nat) <= 10063 / 10000) by (apply (N 4%nat _ _ ltac:(lia) A4); lra).
      assert (A6 : Rabs (b 6%nat) <= 10130 / 10000) by (apply (N 5%nat _ _ ltac:(lia) A5); lra).
      apply (N 6%nat _ _ ltac:(lia) A6); lra. }
    assert (W : Rabs (b 8%nat - b 7%nat * b 7%nat) <= 2 * U).
    { apply HS; [lia|]. rewrite Rabs_mult. pose proof (Rabs_pos (b 7%nat)). nra. }
    apply abs_in in W. nra.
  - intros Hl.
    assert (N : forall i B B', (i < 8)%nat -> Rabs (b i) <= B -> B <= 40000 -> B * B + 2 * U <= B' -> Rabs (b (S i)) <= B').
    { intros i B B' Hi A C D. pose proof (Rabs_pos (b i)).
      assert (Q : Rabs (b i * b i) <= B * B) by (rewrite Rabs_mult; nra).
      assert (W : Rabs (b (S i) - b i * b i) <= 2 * U) by (apply HS; [lia|nra]).
      replace (b (S i)) with ((b (S i) - b i * b i) + b i * b i) by ring. eapply Rle_trans; [apply Rabs_triang|]. lra. }
    apply abs_in in H0.
    assert (A0 : Rabs (b 0%nat) <= 970734 / 1000000) by (apply Rabs_le; lra).
    assert (A1 : Rabs (b 1%nat) <= 942356 / 1000000) by (apply (N 0%nat _ _ ltac:(lia) A0); lra).
    assert (A2 : Rabs (b 2%nat) <= 888066 / 1000000) by (apply (N 1%nat _ _ ltac:(lia) A1); lra).
    assert (A3 : Rabs (b 3%nat) <= 788692 / 1000000) by (apply (N 2%nat _ _ ltac:(lia) A2); lra).
    assert (A4 : Rabs (b 4%nat) <= 622067 / 1000000) by (apply (N 3%nat _ _ ltac:(lia) A3); lra).
    assert (A5 : Rabs (b 5%nat) <= 386998 / 1000000) by (apply (N 4%nat _ _ ltac:(lia) A4); lra).
    assert (A6 : Rabs (b 6%nat) <= 149800 / 1000000) by (apply (N 5%nat _ _ ltac:(lia) A5); lra).
    assert (A7 : Rabs (b 7%nat) <= 22472 / 1000000) by (apply (N 6%nat _ _ ltac:(lia) A6); lra).
    assert (A8 : Rabs (b 8%nat) <= 55 / 100000) by (apply (N 7%nat _ _ ltac:(lia) A7); lra).
    apply abs_in in A8. lra.
Qed.

(** x between 0 and 20: relative error *)
Lemma exp_chain_rel b x : 0 <= x <= 20 -> Rabs (b 0%nat - (1 + x / 256)) <= 2 * U -> squares b ->
  Rabs (b 8%nat - limexp 8 x) <= 1030 * U * limexp 8 x.
Proof.
  intros Hx H0 HS. rewrite <- tw_8.
  assert (P : forall i, 1 <= tw x i) by (intros i; unfold tw; apply pow_R1_Rle; lra).
  assert (M : forall i, (i <= 7)%nat -> tw x i <= 33000).
  { intros i Hi. assert (L : tw x i <= tw x 7) by (unfold tw; apply Rle_pow; [lra|apply Nat.pow_le_mono_r; lia]).
    assert (T : tw x 7 <= 33000); [|lra].
    unfold tw. apply Rle_trans with ((1 + 20 / 256) ^ (2 ^ 7)); [apply pow_incr; lra|].
    assert (Q1 : (1 + 20 / 256) ^ (2 ^ 1) <= 11624 / 10000) by (change (2 ^ 1)%nat with 2%nat; cbn [pow]; lra).
    assert (R : forall n q q', 0 <= q -> (1 + 20 / 256) ^ (2 ^ n) <= q -> q * q <= q' -> (1 + 20 / 256) ^ (2 ^ S n) <= q').
    { intros n q q' A B C. rewrite pow_dbl. assert (0 <= (1 + 20 / 256) ^ (2 ^ n)) by (apply pow_le; lra). nra. }
    assert (Q2 := R 1%nat (11624 / 10000) (13512 / 10000) ltac:(lra) Q1 ltac:(lra)).
    assert (Q3 := R 2%nat (13512 / 10000) (18258 / 10000) ltac:(lra) Q2 ltac:(lra)).
    assert (Q4 := R 3%nat (18258 / 10000) (33336 / 10000) ltac:(lra) Q3 ltac:(lra)).
    assert (Q5 := R 4%nat (33336 / 10000) (111130 / 10000) ltac:(lra) Q4 ltac:(lra)).
    assert (Q6 := R 5%nat (111130 / 10000) (123499 / 1000) ltac:(lra) Q5 ltac:(lra)).
    apply (R 6%nat (123499 / 1000) 33000 ltac:(lra) Q6 ltac:(lra)). }
  assert (N : forall i E E', (i < 8)%nat -> 0 <= E <= 1 / 50 -> Rabs (b i - tw x i) <= E * tw x i -> 2 * E + E * E + 2 * U <= E' ->
    Rabs (b (S i) - tw x (S i)) <= E' * tw x (S i)).
  { intros i E E' Hi HE A D. pose proof (P i) as Pi. pose proof (M i ltac:(lia)) as Mi. rewrite tw_S.
    assert (TE : E * tw x i <= 1 / 50 * 33000) by (apply Rmult_le_compat; lra).
    eapply Rle_trans; [apply (sq_step (b i) _ (tw x i) (tw x i) (E * tw x i)); auto|].
    - rewrite Rabs_right; lra.
    - lra.
    - assert (1 <= tw x i * tw x i) by nra.
      replace (2 * tw x i * (E * tw x i) + E * tw x i * (E * tw x i) + 2 * U) with ((2 * E + E * E) * (tw x i * tw x i) + 2 * U) by ring. nra. }
  assert (E0 : Rabs (b 0%nat - tw x 0) <= 2 * U * tw x 0).
  { pose proof (P 0%nat). apply Rle_trans with (2 * U); [|lra]. unfold tw. cbn [Nat.pow pow]. rewrite Rmult_1_r. exact H0. }
  assert (E1 := N 0%nat (2 * U) (6001 / 1000 * U) ltac:(lia) ltac:(lra) E0 ltac:(lra)).
  assert (E2 := N 1%nat (6001 / 1000 * U) (14003 / 1000 * U) ltac:(lia) ltac:(lra) E1 ltac:(lra)).
  assert (E3 := N 2%nat (14003 / 1000 * U) (30010 / 1000 * U) ltac:(lia) ltac:(lra) E2 ltac:(lra)).
  assert (E4 := N 3%nat (30010 / 1000 * U) (62034 / 1000 * U) ltac:(lia) ltac:(lra) E3 ltac:(lra)).
  assert (E5 := N 4%nat (62034 / 1000 * U) (126127 / 1000 * U) ltac:(lia) ltac:(lra) E4 ltac:(lra)).
  assert (E6 := N 5%nat (126127 / 1000 * U) (254497 / 1000 * U) ltac:(lia) ltac:(lra) E5 ltac:(lra)).
  assert (E7 := N 6%nat (254497 / 1000 * U) (511984 / 1000 * U) ltac:(lia) ltac:(lra) E6 ltac:(lra)).
  apply (N 7%nat (511984 / 1000 * U) (1030 * U) ltac:(lia) ltac:(lra) E7 ltac:(lra)).
Qed.
