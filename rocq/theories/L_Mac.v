(** The Maclaurin polynomial of sigmoid against the logistic function on [-6, 6]: cells of width
    1/4, on each of which the logistic function and the powers are monotone. *)
From Coq Require Import Reals Lra Lia.
From Verif Require Import Util S_Real S_Sigmoid L_Real L_Softmax L_Sigmoid.
Local Open Scope R_scope.

(** the polynomial *)
Definition mac (x : R) : R :=
  1 / 2 + 191204779 / 1000000000 * x - 458667307 / 100000000000 * x ^ 3 + 420690803 / 10000000000000 * x ^ 5.

Lemma cell a b L U x : 0 <= a -> a <= x <= b -> 0 < L -> L <= exp (- b) -> exp (- a) <= U ->
  1 <= (1 / 2 + 191204779 / 1000000000 * a - 458667307 / 100000000000 * b ^ 3 + 420690803 / 10000000000000 * a ^ 5 + 1 / 8) * (1 + L) ->
  (1 / 2 + 191204779 / 1000000000 * b - 458667307 / 100000000000 * a ^ 3 + 420690803 / 10000000000000 * b ^ 5 - 1 / 8) * (1 + U) <= 1 ->
  Rabs (mac x - logistic x) <= 1 / 8.
Proof.
  intros Ha Hx HL Hb HU H1 H2.
  assert (A3 : a ^ 3 <= x ^ 3 <= b ^ 3) by (split; apply pow_incr; lra).
  assert (A5 : a ^ 5 <= x ^ 5 <= b ^ 5) by (split; apply pow_incr; lra).
  assert (E1 : L <= exp (- x)).
  { eapply Rle_trans; [exact Hb|]. destruct (Req_dec x b) as [->|N]; [lra|]. left. apply exp_increasing. lra. }
  assert (E2 : exp (- x) <= U).
  { eapply Rle_trans; [|exact HU]. destruct (Req_dec x a) as [->|N]; [lra|]. left. apply exp_increasing. lra. }
  set (lo := 1 / 2 + 191204779 / 1000000000 * a - 458667307 / 100000000000 * b ^ 3 + 420690803 / 10000000000000 * a ^ 5) in *.
  set (hi := 1 / 2 + 191204779 / 1000000000 * b - 458667307 / 100000000000 * a ^ 3 + 420690803 / 10000000000000 * b ^ 5) in *.
  assert (P1 : lo <= mac x <= hi) by (unfold mac, lo, hi; lra).
  assert (S1 : logistic x <= lo + 1 / 8).
  { unfold logistic. apply Rle_trans with (/ (1 + L)); [apply Rinv_le_contravar; lra|].
    apply Rmult_le_reg_r with (1 + L); [lra|]. rewrite Rinv_l by lra. exact H1. }
  assert (S2 : hi - 1 / 8 <= logistic x).
  { unfold logistic. apply Rle_trans with (/ (1 + U)); [|apply Rinv_le_contravar; lra].
    apply Rmult_le_reg_r with (1 + U); [lra|]. rewrite Rinv_l by lra. exact H2. }
  clear - P1 S1 S2. apply Rabs_le. lra.
Qed.

Lemma em_quarter : 623 / 800 <= exp (- (1 / 4)).
Proof.
  apply Rle_trans with (limexp 12 (- (1 / 4))); [|apply exp_below; assert (1 <= 2 ^ 12) by (apply pow_R1_Rle; lra); cbn [pow]; lra].
  unfold limexp. replace (1 + - (1 / 4) / 2 ^ 12) with (16383 / 16384) by (cbn [pow]; lra).
  lbs (249969483353 / 250000000000) 11%nat.
  lbs (249938970431 / 250000000000) 10%nat.
  lbs (999511823041 / 1000000000000) 9%nat.
  lbs (499511942199 / 500000000000) 8%nat.
  lbs (998048721597 / 1000000000000) 7%nat.
  lbs (996101250681 / 1000000000000) 6%nat.
  lbs (124027212701 / 125000000000) 5%nat.
  lbs (123061995923 / 125000000000) 4%nat.
  lbs (193846461959 / 200000000000) 3%nat.
  lbs (18788225407 / 20000000000) 2%nat.
  lbs (44124676743 / 50000000000) 1%nat.
  lbs (778794839069 / 1000000000000) 0%nat.
  cbn [Nat.pow pow]. lra.
Qed.

Lemma ep_quarter : 12839 / 10000 <= exp (1 / 4).
Proof.
  apply Rle_trans with (limexp 12 (1 / 4)); [|apply exp_below; assert (1 <= 2 ^ 12) by (apply pow_R1_Rle; lra); cbn [pow]; lra].
  unfold limexp. replace (1 + 1 / 4 / 2 ^ 12) with (16385 / 16384) by (cbn [pow]; lra).
  lbs (100012207403 / 100000000000) 11%nat.
  lbs (12503052037 / 12500000000) 10%nat.
  lbs (100048838553 / 100000000000) 9%nat.
  lbs (50048850479 / 50000000000) 8%nat.
  lbs (10019549737 / 10000000000) 7%nat.
  lbs (25097844233 / 25000000000) 6%nat.
  lbs (100784285623 / 100000000000) 5%nat.
  lbs (20314944457 / 20000000000) 4%nat.
  lbs (12896780259 / 12500000000) 3%nat.
  lbs (106449242271 / 100000000000) 2%nat.
  lbs (566572059 / 500000000) 1%nat.
  lbs (25680311843 / 20000000000) 0%nat.
  cbn [Nat.pow pow]. lra.
Qed.

Lemma em_quarter_up : exp (- (1 / 4)) <= 77888 / 100000.
Proof.
  rewrite exp_Ropp. pose proof ep_quarter as H. apply Rmult_le_reg_r with (exp (1 / 4)); [lra|].
  rewrite Rinv_l by lra. lra.
Qed.

Lemma em_step a L U l u : l <= exp (- a) <= u -> 0 <= l -> L <= l * (77875 / 100000) -> u * (77888 / 100000) <= U ->
  L <= exp (- (a + 1 / 4)) <= U.
Proof.
  intros H Hl HL HU. replace (- (a + 1 / 4)) with (- a + - (1 / 4)) by lra. rewrite exp_plus.
  pose proof em_quarter as A. pose proof em_quarter_up as B. split.
  - eapply Rle_trans; [exact HL|]. apply Rmult_le_compat; lra.
  - eapply Rle_trans; [|exact HU]. apply Rmult_le_compat; lra.
Qed.

Lemma em_0 : 1 <= exp (- 0) <= 1.
Proof. rewrite Ropp_0, exp_0. lra. Qed.

Lemma em_1 : 623 / 800 <= exp (- (1 / 4)) <= 2434 / 3125.
Proof. pose proof em_quarter. pose proof em_quarter_up. lra. Qed.

Lemma em_2 : 1212903 / 2000000 <= exp (- (1 / 2)) <= 6066541 / 10000000.
Proof. replace (1 / 2) with (1 / 4 + 1 / 4) by lra. eapply em_step; [exact em_1|lra|lra|lra]. Qed.

Lemma em_3 : 4722741 / 10000000 <= exp (- (3 / 4)) <= 1181277 / 2500000.
Proof. replace (3 / 4) with (1 / 2 + 1 / 4) by lra. eapply em_step; [exact em_2|lra|lra|lra]. Qed.

Lemma em_4 : 1838917 / 5000000 <= exp (- (1)) <= 3680293 / 10000000.
Proof. replace (1) with (3 / 4 + 1 / 4) by lra. eapply em_step; [exact em_3|lra|lra|lra]. Qed.

Lemma em_5 : 2864113 / 10000000 <= exp (- (5 / 4)) <= 2866507 / 10000000.
Proof. replace (5 / 4) with (1 + 1 / 4) by lra. eapply em_step; [exact em_4|lra|lra|lra]. Qed.

Lemma em_6 : 2230427 / 10000000 <= exp (- (3 / 2)) <= 446533 / 2000000.
Proof. replace (3 / 2) with (5 / 4 + 1 / 4) by lra. eapply em_step; [exact em_5|lra|lra|lra]. Qed.

Lemma em_7 : 347389 / 2000000 <= exp (- (7 / 4)) <= 1738979 / 10000000.
Proof. replace (7 / 4) with (3 / 2 + 1 / 4) by lra. eapply em_step; [exact em_6|lra|lra|lra]. Qed.

Lemma em_8 : 270529 / 2000000 <= exp (- (2)) <= 169307 / 1250000.
Proof. replace (2) with (7 / 4 + 1 / 4) by lra. eapply em_step; [exact em_7|lra|lra|lra]. Qed.

Lemma em_9 : 263343 / 2500000 <= exp (- (9 / 4)) <= 1054959 / 10000000.
Proof. replace (9 / 4) with (2 + 1 / 4) by lra. eapply em_step; [exact em_8|lra|lra|lra]. Qed.

Lemma em_10 : 820313 / 10000000 <= exp (- (5 / 2)) <= 821687 / 10000000.
Proof. replace (5 / 2) with (9 / 4 + 1 / 4) by lra. eapply em_step; [exact em_9|lra|lra|lra]. Qed.

Lemma em_11 : 319409 / 5000000 <= exp (- (11 / 4)) <= 159999 / 2500000.
Proof. replace (11 / 4) with (5 / 2 + 1 / 4) by lra. eapply em_step; [exact em_10|lra|lra|lra]. Qed.

Lemma em_12 : 497479 / 10000000 <= exp (- (3)) <= 498481 / 10000000.
Proof. replace (3) with (11 / 4 + 1 / 4) by lra. eapply em_step; [exact em_11|lra|lra|lra]. Qed.

Lemma em_13 : 387411 / 10000000 <= exp (- (13 / 4)) <= 388257 / 10000000.
Proof. replace (13 / 4) with (3 + 1 / 4) by lra. eapply em_step; [exact em_12|lra|lra|lra]. Qed.

Lemma em_14 : 2357 / 78125 <= exp (- (7 / 2)) <= 151203 / 5000000.
Proof. replace (7 / 2) with (13 / 4 + 1 / 4) by lra. eapply em_step; [exact em_13|lra|lra|lra]. Qed.

Lemma em_15 : 46989 / 2000000 <= exp (- (15 / 4)) <= 117769 / 5000000.
Proof. replace (15 / 4) with (7 / 2 + 1 / 4) by lra. eapply em_step; [exact em_14|lra|lra|lra]. Qed.

Lemma em_16 : 182963 / 10000000 <= exp (- (4)) <= 5733 / 312500.
Proof. replace (4) with (15 / 4 + 1 / 4) by lra. eapply em_step; [exact em_15|lra|lra|lra]. Qed.

Lemma em_17 : 71241 / 5000000 <= exp (- (17 / 4)) <= 142891 / 10000000.
Proof. replace (17 / 4) with (4 + 1 / 4) by lra. eapply em_step; [exact em_16|lra|lra|lra]. Qed.

Lemma em_18 : 110957 / 10000000 <= exp (- (9 / 2)) <= 22259 / 2000000.
Proof. replace (9 / 2) with (17 / 4 + 1 / 4) by lra. eapply em_step; [exact em_17|lra|lra|lra]. Qed.

Lemma em_19 : 86407 / 10000000 <= exp (- (19 / 4)) <= 43343 / 5000000.
Proof. replace (19 / 4) with (9 / 2 + 1 / 4) by lra. eapply em_step; [exact em_18|lra|lra|lra]. Qed.

Lemma em_20 : 67289 / 10000000 <= exp (- (5)) <= 33759 / 5000000.
Proof. replace (5) with (19 / 4 + 1 / 4) by lra. eapply em_step; [exact em_19|lra|lra|lra]. Qed.

Lemma em_21 : 52401 / 10000000 <= exp (- (21 / 4)) <= 52589 / 10000000.
Proof. replace (21 / 4) with (5 + 1 / 4) by lra. eapply em_step; [exact em_20|lra|lra|lra]. Qed.

Lemma em_22 : 40807 / 10000000 <= exp (- (11 / 2)) <= 40961 / 10000000.
Proof. replace (11 / 2) with (21 / 4 + 1 / 4) by lra. eapply em_step; [exact em_21|lra|lra|lra]. Qed.

Lemma em_23 : 15889 / 5000000 <= exp (- (23 / 4)) <= 997 / 312500.
Proof. replace (23 / 4) with (11 / 2 + 1 / 4) by lra. eapply em_step; [exact em_22|lra|lra|lra]. Qed.

Lemma em_24 : 24747 / 10000000 <= exp (- (6)) <= 497 / 200000.
Proof. replace (6) with (23 / 4 + 1 / 4) by lra. eapply em_step; [exact em_23|lra|lra|lra]. Qed.

Lemma mac_pos x : 0 <= x <= 6 -> Rabs (mac x - logistic x) <= 1 / 8.
Proof.
  intros Hx.
  destruct (Rle_dec x (1 / 4)) as [H1|H1].
  { apply (cell (0) (1 / 4) (623 / 800) (1)); [lra|lra|lra|apply em_1|apply em_0|lra|lra]. }
  apply Rnot_le_lt in H1.
  destruct (Rle_dec x (1 / 2)) as [H2|H2].
  { apply (cell (1 / 4) (1 / 2) (1212903 / 2000000) (2434 / 3125)); [lra|lra|lra|apply em_2|apply em_1|lra|lra]. }
  apply Rnot_le_lt in H2.
  destruct (Rle_dec x (3 / 4)) as [H3|H3].
  { apply (cell (1 / 2) (3 / 4) (4722741 / 10000000) (6066541 / 10000000)); [lra|lra|lra|apply em_3|apply em_2|lra|lra]. }
  apply Rnot_le_lt in H3.
  destruct (Rle_dec x (1)) as [H4|H4].
  { apply (cell (3 / 4) (1) (1838917 / 5000000) (1181277 / 2500000)); [lra|lra|lra|apply em_4|apply em_3|lra|lra]. }
  apply Rnot_le_lt in H4.
  destruct (Rle_dec x (5 / 4)) as [H5|H5].
  { apply (cell (1) (5 / 4) (2864113 / 10000000) (3680293 / 10000000)); [lra|lra|lra|apply em_5|apply em_4|lra|lra]. }
  apply Rnot_le_lt in H5.
  destruct (Rle_dec x (3 / 2)) as [H6|H6].
  { apply (cell (5 / 4) (3 / 2) (2230427 / 10000000) (2866507 / 10000000)); [lra|lra|lra|apply em_6|apply em_5|lra|lra]. }
  apply Rnot_le_lt in H6.
  destruct (Rle_dec x (7 / 4)) as [H7|H7].
  { apply (cell (3 / 2) (7 / 4) (347389 / 2000000) (446533 / 2000000)); [lra|lra|lra|apply em_7|apply em_6|lra|lra]. }
  apply Rnot_le_lt in H7.
  destruct (Rle_dec x (2)) as [H8|H8].
  { apply (cell (7 / 4) (2) (270529 / 2000000) (1738979 / 10000000)); [lra|lra|lra|apply em_8|apply em_7|lra|lra]. }
  apply Rnot_le_lt in H8.
  destruct (Rle_dec x (9 / 4)) as [H9|H9].
  { apply (cell (2) (9 / 4) (263343 / 2500000) (169307 / 1250000)); [lra|lra|lra|apply em_9|apply em_8|lra|lra]. }
  apply Rnot_le_lt in H9.
  destruct (Rle_dec x (5 / 2)) as [H10|H10].
  { apply (cell (9 / 4) (5 / 2) (820313 / 10000000) (1054959 / 10000000)); [lra|lra|lra|apply em_10|apply em_9|lra|lra]. }
  apply Rnot_le_lt in H10.
  destruct (Rle_dec x (11 / 4)) as [H11|H11].
  { apply (cell (5 / 2) (11 / 4) (319409 / 5000000) (821687 / 10000000)); [lra|lra|lra|apply em_11|apply em_10|lra|lra]. }
  apply Rnot_le_lt in H11.
  destruct (Rle_dec x (3)) as [H12|H12].
  { apply (cell (11 / 4) (3) (497479 / 10000000) (159999 / 2500000)); [lra|lra|lra|apply em_12|apply em_11|lra|lra]. }
  apply Rnot_le_lt in H12.
  destruct (Rle_dec x (13 / 4)) as [H13|H13].
  { apply (cell (3) (13 / 4) (387411 / 10000000) (498481 / 10000000)); [lra|lra|lra|apply em_13|apply em_12|lra|lra]. }
  apply Rnot_le_lt in H13.
  destruct (Rle_dec x (7 / 2)) as [H14|H14].
  { apply (cell (13 / 4) (7 / 2) (2357 / 78125) (388257 / 10000000)); [lra|lra|lra|apply em_14|apply em_13|lra|lra]. }
  apply Rnot_le_lt in H14.
  destruct (Rle_dec x (15 / 4)) as [H15|H15].
  { apply (cell (7 / 2) (15 / 4) (46989 / 2000000) (151203 / 5000000)); [lra|lra|lra|apply em_15|apply em_14|lra|lra]. }
  apply Rnot_le_lt in H15.
  destruct (Rle_dec x (4)) as [H16|H16].
  { apply (cell (15 / 4) (4) (182963 / 10000000) (117769 / 5000000)); [lra|lra|lra|apply em_16|apply em_15|lra|lra]. }
  apply Rnot_le_lt in H16.
  destruct (Rle_dec x (17 / 4)) as [H17|H17].
  { apply (cell (4) (17 / 4) (71241 / 5000000) (5733 / 312500)); [lra|lra|lra|apply em_17|apply em_16|lra|lra]. }
  apply Rnot_le_lt in H17.
  destruct (Rle_dec x (9 / 2)) as [H18|H18].
  { apply (cell (17 / 4) (9 / 2) (110957 / 10000000) (142891 / 10000000)); [lra|lra|lra|apply em_18|apply em_17|lra|lra]. }
  apply Rnot_le_lt in H18.
  destruct (Rle_dec x (19 / 4)) as [H19|H19].
  { apply (cell (9 / 2) (19 / 4) (86407 / 10000000) (22259 / 2000000)); [lra|lra|lra|apply em_19|apply em_18|lra|lra]. }
  apply Rnot_le_lt in H19.
  destruct (Rle_dec x (5)) as [H20|H20].
  { apply (cell (19 / 4) (5) (67289 / 10000000) (43343 / 5000000)); [lra|lra|lra|apply em_20|apply em_19|lra|lra]. }
  apply Rnot_le_lt in H20.
  destruct (Rle_dec x (21 / 4)) as [H21|H21].
  { apply (cell (5) (21 / 4) (52401 / 10000000) (33759 / 5000000)); [lra|lra|lra|apply em_21|apply em_20|lra|lra]. }
  apply Rnot_le_lt in H21.
  destruct (Rle_dec x (11 / 2)) as [H22|H22].
  { apply (cell (21 / 4) (11 / 2) (40807 / 10000000) (52589 / 10000000)); [lra|lra|lra|apply em_22|apply em_21|lra|lra]. }
  apply Rnot_le_lt in H22.
  destruct (Rle_dec x (23 / 4)) as [H23|H23].
  { apply (cell (11 / 2) (23 / 4) (15889 / 5000000) (40961 / 10000000)); [lra|lra|lra|apply em_23|apply em_22|lra|lra]. }
  apply Rnot_le_lt in H23.
  destruct (Rle_dec x (6)) as [H24|H24].
  { apply (cell (23 / 4) (6) (24747 / 10000000) (997 / 312500)); [lra|lra|lra|apply em_24|apply em_23|lra|lra]. }
  apply Rnot_le_lt in H24.
  lra.
Qed.

Lemma mac_close x : Rabs x <= 6 -> Rabs (mac x - logistic x) <= 1 / 8.
Proof.
  intros Hx. destruct (Rle_dec 0 x) as [H|H].
  - apply mac_pos. rewrite Rabs_right in Hx; lra.
  - rewrite Rabs_left in Hx by lra. pose proof (mac_pos (- x) ltac:(lra)) as K.
    assert (E : mac (- x) - logistic (- x) = - (mac x - logistic x)).
    { assert (L : logistic (- x) = 1 - logistic x).
      { unfold logistic. rewrite Ropp_involutive, exp_Ropp. pose proof (exp_pos x). field. split; lra. }
      rewrite L. unfold mac. cbn [pow]. lra. }
    rewrite E, Rabs_Ropp in K. exact K.
Qed.
