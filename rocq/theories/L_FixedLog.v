(** The logarithm with the default encoder, one position at a time. *)
From Coq Require Import QArith Reals Qreals Lra String.
From Verif Require Import Util Modular S_Ring S_Tensor S_Wraps S_Div S_Bil S_Spdz S_Circuit S_Fss S_Sort S_Real S_Fixed S_Softmax
  M_Torch M_Encoder M_Tensor M_Share M_Spdz M_Store M_Fss M_Engine M_Approx M_Softmax
  L_Torch L_Tensor L_Share L_Engine L_Real L_Sigmoid L_Softmax L_Log L_Fixed L_Fixed2 L_FixedR L_FixedN L_Fixed3 L_FixedExp L_FixedSort L_FixedSoft.
From Verif Require Import S_Softmax.
Local Open Scope R_scope.

Lemma x2216 : 1833 / 200 <= exp (277 / 125).
Proof.
  apply Rle_trans with (limexp 12 (277 / 125)); [|apply exp_below; assert (1 <= 2 ^ 12) by (apply pow_R1_Rle; lra); cbn [pow]; lra].
  unfold limexp. replace (1 + 277 / 125 / 2 ^ 12) with (512277 / 512000) by (cbn [pow]; lra).
  lbs (10010823239 / 10000000000) 11%nat.
  lbs (626353637 / 625000000) 10%nat.
  lbs (10043363291 / 10000000000) 9%nat.
  lbs (10086914619 / 10000000000) 8%nat.
  lbs (10174584653 / 10000000000) 7%nat.
  lbs (5176108643 / 5000000000) 6%nat.
  lbs (10716840273 / 10000000000) 5%nat.
  lbs (11485066543 / 10000000000) 4%nat.
  lbs (13190675349 / 10000000000) 3%nat.
  lbs (135932747 / 78125000) 2%nat.
  lbs (1513694143 / 500000000) 1%nat.
  lbs (45825399171 / 5000000000) 0%nat.
  cbn [Nat.pow pow]. lra.
Qed.
Lemma x3339 : 28 <= exp (3339 / 1000).
Proof.
  apply Rle_trans with (limexp 10 (3339 / 1000)); [|apply exp_below; assert (1 <= 2 ^ 10) by (apply pow_R1_Rle; lra); cbn [pow]; lra].
  unfold limexp. replace (1 + 3339 / 1000 / 2 ^ 10) with (1027339 / 1024000) by (cbn [pow]; lra).
  lbs (629082573 / 625000000) 9%nat.
  lbs (10131069021 / 10000000000) 8%nat.
  lbs (205277119 / 200000000) 7%nat.
  lbs (1316834237 / 1250000000) 6%nat.
  lbs (11097935409 / 10000000000) 5%nat.
  lbs (6158208517 / 5000000000) 4%nat.
  lbs (3033882571 / 2000000000) 3%nat.
  lbs (5752777159 / 2500000000) 2%nat.
  lbs (10590222413 / 2000000000) 1%nat.
  lbs (70095506723 / 2500000000) 0%nat.
  cbn [Nat.pow pow]. lra.
Qed.
Lemma x3 : 20 <= exp 3.
Proof.
  apply Rle_trans with (limexp 12 3); [|apply exp_below; assert (1 <= 2 ^ 12) by (apply pow_R1_Rle; lra); cbn [pow]; lra].
  unfold limexp. replace (1 + 3 / 2 ^ 12) with (4099 / 4096) by (cbn [pow]; lra).
  lbs (10014653801 / 10000000000) 11%nat.
  lbs (401173163 / 400000000) 10%nat.
  lbs (10058744169 / 10000000000) 9%nat.
  lbs (404713337 / 400000000) 8%nat.
  lbs (10237055321 / 10000000000) 7%nat.
  lbs (2619932541 / 2500000000) 6%nat.
  lbs (10982474431 / 10000000000) 5%nat.
  lbs (6030737231 / 5000000000) 4%nat.
  lbs (14547916619 / 10000000000) 3%nat.
  lbs (4232837559 / 2000000000) 2%nat.
  lbs (22396142251 / 5000000000) 1%nat.
  lbs (20063487509 / 1000000000) 0%nat.
  cbn [Nat.pow pow]. lra.
Qed.
Lemma xm2239 : 531 / 5000 <= exp (- (2239 / 1000)).
Proof.
  apply Rle_trans with (limexp 10 (- (2239 / 1000))); [|apply exp_below; assert (1 <= 2 ^ 10) by (apply pow_R1_Rle; lra); cbn [pow]; lra].
  unfold limexp. replace (1 + - (2239 / 1000) / 2 ^ 10) with (1021761 / 1024000) by (cbn [pow]; lra).
  lbs (497815867 / 500000000) 9%nat.
  lbs (9912825497 / 10000000000) 8%nat.
  lbs (9826410933 / 10000000000) 7%nat.
  lbs (4827917591 / 5000000000) 6%nat.
  lbs (4661757653 / 5000000000) 5%nat.
  lbs (4346396883 / 5000000000) 4%nat.
  lbs (1511293269 / 2000000000) 3%nat.
  lbs (2855009181 / 5000000000) 2%nat.
  lbs (3260430969 / 10000000000) 1%nat.
  lbs (106304101 / 1000000000) 0%nat.
  cbn [Nat.pow pow]. lra.
Qed.
Lemma xm3213 : 1 / 25 <= exp (- (3213 / 1000)).
Proof.
  apply Rle_trans with (limexp 10 (- (3213 / 1000))); [|apply exp_below; assert (1 <= 2 ^ 10) by (apply pow_R1_Rle; lra); cbn [pow]; lra].
  unfold limexp. replace (1 + - (3213 / 1000) / 2 ^ 10) with (1020787 / 1024000) by (cbn [pow]; lra).
  lbs (1987468909 / 2000000000) 9%nat.
  lbs (493754083 / 500000000) 8%nat.
  lbs (9751723779 / 10000000000) 7%nat.
  lbs (4754805833 / 5000000000) 6%nat.
  lbs (9043271403 / 10000000000) 5%nat.
  lbs (4089037883 / 5000000000) 4%nat.
  lbs (6688092323 / 10000000000) 3%nat.
  lbs (1118264473 / 2500000000) 2%nat.
  lbs (200082469 / 1000000000) 1%nat.
  lbs (50041243 / 1250000000) 0%nat.
  cbn [Nat.pow pow]. lra.
Qed.
Lemma xm1592 : 203 / 1000 <= exp (- (199 / 125)).
Proof.
  apply Rle_trans with (limexp 10 (- (199 / 125))); [|apply exp_below; assert (1 <= 2 ^ 10) by (apply pow_R1_Rle; lra); cbn [pow]; lra].
  unfold limexp. replace (1 + - (199 / 125) / 2 ^ 10) with (127801 / 128000) by (cbn [pow]; lra).
  lbs (498446521 / 500000000) 9%nat.
  lbs (9937957371 / 10000000000) 8%nat.
  lbs (987629967 / 1000000000) 7%nat.
  lbs (9754129517 / 10000000000) 6%nat.
  lbs (9514304263 / 10000000000) 5%nat.
  lbs (56576241 / 62500000) 4%nat.
  lbs (2048557469 / 2500000000) 3%nat.
  lbs (3357270163 / 5000000000) 2%nat.
  lbs (2254252589 / 5000000000) 1%nat.
  lbs (1016330947 / 5000000000) 0%nat.
  cbn [Nat.pow pow]. lra.
Qed.
Lemma xm345 : 7077 / 10000 <= exp (- (69 / 200)).
Proof.
  apply Rle_trans with (limexp 10 (- (69 / 200))); [|apply exp_below; assert (1 <= 2 ^ 10) by (apply pow_R1_Rle; lra); cbn [pow]; lra].
  unfold limexp. replace (1 + - (69 / 200) / 2 ^ 10) with (204731 / 204800) by (cbn [pow]; lra).
  lbs (9993262853 / 10000000000) 9%nat.
  lbs (2496632561 / 2500000000) 8%nat.
  lbs (9973078631 / 10000000000) 7%nat.
  lbs (4973114869 / 5000000000) 6%nat.
  lbs (49463743 / 50000000) 5%nat.
  lbs (4893323743 / 5000000000) 4%nat.
  lbs (9577846901 / 10000000000) 3%nat.
  lbs (73388121 / 80000000) 2%nat.
  lbs (4207668987 / 5000000000) 1%nat.
  lbs (7081791321 / 10000000000) 0%nat.
  cbn [Nat.pow pow]. lra.
Qed.

Lemma exp_mono a b : a <= b -> exp a <= exp b.
Proof. intros [H|<-]; [left; apply exp_increasing; auto|lra]. Qed.
Lemma ln_above d : 0 <= d -> ln (1 + d) <= d.
Proof. intros H. rewrite <- (ln_exp d) at 2. apply ln_le; [lra|apply exp_ineq1_le]. Qed.

(** one step of the logarithm with errors: [ym] the negated argument of the exponential, [pt] the
    product of [x] and the exponential with relative error [e], [z] the new value *)
Lemma one_step x y ym pt z D e : 0 < x -> -16 < ym < 16 -> Rabs (y - ym) <= U -> 0 <= e < 1 -> ym * ym / 256 <= D < 1 ->
  let p := x * limexp 8 (- ym) in
  Rabs (pt - p) <= e * p -> Rabs (z - (y - poly6 (1 - pt))) <= 22 * U ->
  0 < pt /\ ln x - D / (1 - D) - e / (1 - e) + rem6 (1 - pt) - 23 * U <= z <= ln x + e + rem6 (1 - pt) + 23 * U.
Proof.
  intros Hx Hym Hy He HD p Hp Hz. destruct (step_value x ym Hx Hym) as (P & _ & _ & L1 & L2). fold p in P, L1, L2.
  apply abs_in in Hp, Hz, Hy.
  assert (A : 0 < pt) by nra. split; [exact A|].
  assert (Q1 : ln (1 - e) + ln p <= ln pt) by (rewrite <- ln_mult by lra; apply ln_le; nra).
  assert (Q2 : ln pt <= ln (1 + e) + ln p) by (rewrite <- ln_mult by lra; apply ln_le; nra).
  pose proof (ln_below e He) as Q3. pose proof (ln_above e (proj1 He)) as Q4.
  assert (D0 : 0 <= ym * ym / 256) by nra.
  assert (Q5 : ln (1 - D) <= ln (1 - ym * ym / 256)) by (apply ln_le; lra).
  pose proof (ln_below D ltac:(lra)) as Q6.
  assert (R : - poly6 (1 - pt) = ln pt + rem6 (1 - pt)) by (unfold rem6; replace (1 - (1 - pt)) with pt by lra; lra).
  lra.
Qed.

(** the relative error of the product *)
Lemma rel_err x L pt e1 e2 : 0 < x -> Rabs (pt - x * L) <= x * (1031 * U * L + 20 * U) + 3 * U -> 20 * U <= e1 * L -> 3 * U <= e2 * (x * L) ->
  Rabs (pt - x * L) <= (1031 * U + e1 + e2) * (x * L).
Proof. intros Hx H H1 H2. eapply Rle_trans; [exact H|]. nra. Qed.

Definition step_ok (x y z : R) : Prop := exists ym pt, Rabs (y - ym) <= U /\
  Rabs (pt - x * limexp 8 (- ym)) <= x * (1031 * U * limexp 8 (- ym) + 20 * U) + 3 * U /\
  (Rabs (1 - pt) <= 5 / 4 -> Rabs (z - (y - poly6 (1 - pt))) <= 22 * U).

Lemma limexp_at ym D : -16 < ym < 16 -> ym * ym / 256 <= D -> exp (- ym) * (1 - D) <= limexp 8 (- ym) <= exp (- ym).
Proof.
  intros H HD. pose proof (exp_above 8 (- ym)) as A. replace (2 ^ 8) with 256 in A by lra. replace (- ym * - ym) with (ym * ym) in A by ring.
  specialize (A ltac:(apply Rabs_def1; lra)). pose proof (exp_pos (- ym)) as P.
  split; [eapply Rle_trans; [|exact A]; apply Rmult_le_compat_l; lra|]. apply exp_below. lra.
Qed.

(** the initial guess with errors *)
Definition guess_ok (x y : R) : Prop := exists b G, Rabs (b - (- 2 * x - 14 / 10)) <= 2 * U /\
  Rabs (G - limexp 8 b) <= 1016 * U * limexp 8 b + 20 * U /\ - (3 * U) <= G /\ Rabs (y - (x / 31 + 159 / 100 - 20 * G)) <= 4 * U.

Lemma guess_bounds x y ym : 97 / 100 <= x <= 20 -> guess_ok x y -> Rabs (y - ym) <= U ->
  889 / 1000 <= ym <= 22363 / 10000 /\ 1904 / 10000 <= x * exp (- ym) <= 21823 / 10000.
Proof.
  intros Hx (b & G & Hb & HG & G0 & Hy) Hm. apply abs_in in Hb, HG, Hy, Hm.
  destruct (exp_below 8 b) as [L0 L1]; [replace (2 ^ 8) with 256 by lra; lra|]. set (l := limexp 8 b) in *. clearbody l.
  assert (L2 : l <= 3572 / 100000).
  { assert (exp b <= exp (- (3339 / 1000))) by (apply exp_mono; lra). pose proof (exp_neg_upper (3339 / 1000) 28 ltac:(lra) x3339). lra. }
  split; [lra|]. split.
  - assert (E : exp (- ym) >= exp (- (199 / 125)) * exp (- (x / 31))).
    { rewrite <- exp_plus. apply Rle_ge, exp_mono. lra. }
    pose proof xm1592 as E1.
    assert (E2 : 9396 / 10000 <= x * exp (- (x / 31))).
    { replace (- (x / 31)) with (- (97 / 3100) + - ((x - 97 / 100) / 31)) by lra. rewrite exp_plus.
      pose proof (exp_ineq1_le (- (97 / 3100))) as A. pose proof (exp_ineq1_le (- ((x - 97 / 100) / 31))) as B.
      assert (C : x * (1 + - ((x - 97 / 100) / 31)) >= 97 / 100) by nra.
      assert (C' : x * exp (- ((x - 97 / 100) / 31)) >= 97 / 100) by nra. nra. }
    pose proof (exp_pos (- (x / 31))). nra.
  - destruct (Rle_dec 3 x) as [H3|H3].
    + assert (L3 : l <= 6304 / 10000000).
      { assert (A : exp b <= exp (- (37 / 5)) * exp (2 * U)) by (rewrite <- exp_plus; apply exp_mono; lra).
        pose proof (exp_neg_upper (37 / 5) 1588 ltac:(lra) e74) as B. pose proof (exp_near0 (2 * U) ltac:(apply Rabs_le; lra)) as C.
        pose proof (exp_pos (- (37 / 5))). nra. }
      apply Rle_trans with (x * exp (- (x / 31 + 157095 / 100000))); [apply Rmult_le_compat_l; [lra|]; apply exp_mono; lra|].
      apply Rle_trans with (x * (exp ((20 - x) / 31) * exp (- (277 / 125)))).
      { apply Rmult_le_compat_l; [lra|]. rewrite <- exp_plus. apply exp_mono. lra. }
      pose proof (exp_neg_upper (277 / 125) (1833 / 200) ltac:(lra) x2216) as A.
      assert (B : x * exp ((20 - x) / 31) <= 20).
      { pose proof (exp_ineq1_le (- ((20 - x) / 31))) as Q. rewrite exp_Ropp in Q. pose proof (exp_pos ((20 - x) / 31)) as P.
        apply (Rmult_le_compat_r (exp ((20 - x) / 31))) in Q; [|lra]. rewrite Rinv_l in Q by lra. nra. }
      rewrite <- Rmult_assoc. pose proof (exp_pos (- (277 / 125))) as P. pose proof (exp_pos ((20 - x) / 31)). nra.
    + apply Rle_trans with (3 * exp (- (889 / 1000))).
      * apply Rmult_le_compat; try lra; [left; apply exp_pos|]. apply exp_mono. lra.
      * pose proof (exp_neg_upper (889 / 1000) (1889 / 1000) ltac:(lra)) as Q. pose proof (exp_ineq1_le (889 / 1000)). lra.
Qed.

(** the first step ends within these bounds of the logarithm *)
Lemma step_first x y z : 97 / 100 <= x <= 20 -> guess_ok x y -> step_ok x y z -> - (3449 / 10000) <= z - ln x <= 2119 / 10000.
Proof.
  intros Hx HG (ym & pt & Hy & Hp & Hz). destruct (guess_bounds x y ym Hx HG Hy) as [B1 B2].
  assert (HD : ym * ym / 256 <= 196 / 10000) by nra.
  destruct (limexp_at ym _ ltac:(lra) HD) as [L1 L2]. set (L := limexp 8 (- ym)) in *.
  assert (L3 : 1041 / 10000 <= L).
  { assert (exp (- (2239 / 1000)) <= exp (- ym)) by (apply exp_mono; lra). pose proof xm2239. lra. }
  assert (P1 : 186 / 1000 <= x * L <= 21823 / 10000) by (split; [|apply Rle_trans with (x * exp (- ym)); [apply Rmult_le_compat_l; lra|lra]]; nra).
  pose proof (rel_err x L pt (294 / 100000) (25 / 100000) ltac:(lra) Hp ltac:(lra) ltac:(lra)) as R.
  assert (R' : Rabs (pt - x * L) <= 19 / 1000 * (x * L)) by (eapply Rle_trans; [exact R|]; apply Rmult_le_compat_r; lra). clear R.
  pose proof (abs_in _ _ R') as R2.
  assert (P2 : 1824 / 10000 <= pt <= 22238 / 10000) by lra.
  specialize (Hz ltac:(apply Rabs_le; lra)).
  destruct (one_step x y ym pt z (196 / 10000) (19 / 1000) ltac:(lra) ltac:(lra) Hy ltac:(lra) ltac:(lra) R' Hz) as [_ Q].
  assert (R0 : - (305 / 1000) <= rem6 (1 - pt) <= 192 / 1000).
  { split.
    - apply Rle_trans with (rem6 (- (12238 / 10000))); [|apply rem6_mono; lra]. destruct (rem6_lower (12238 / 10000)) as [S _]; [lra|].
      eapply Rle_trans; [|exact S]. lra.
    - apply Rle_trans with (rem6 (8176 / 10000)); [apply rem6_mono; lra|]. destruct (rem6_upper (8176 / 10000)) as [_ S]; [lra|].
      eapply Rle_trans; [exact S|]. lra. }
  lra.
Qed.

Lemma ln_range x : 97 / 100 <= x <= 20 -> - (31 / 1000) <= ln x <= 3.
Proof.
  intros Hx. split.
  - replace x with (1 - (1 - x)) by lra. destruct (Rle_dec x 1) as [H|H].
    + eapply Rle_trans; [|apply ln_below; lra]. replace (1 - (1 - x)) with x by lra.
      assert ((1 - x) / x <= 31 / 1000); [|lra]. apply (Rmult_le_reg_r x); [lra|]. unfold Rdiv at 1. rewrite Rmult_assoc, Rinv_l by lra. lra.
    + replace (1 - (1 - x)) with x by lra. assert (0 <= ln x); [|lra]. rewrite <- ln_1. apply ln_le; lra.
  - rewrite <- (ln_exp 3). apply ln_le; [lra|]. pose proof x3. lra.
Qed.

Lemma step_second x y z : 97 / 100 <= x <= 20 -> - (3449 / 10000) <= y - ln x <= 2119 / 10000 -> step_ok x y z -> - (7 / 100) <= z - ln x <= 3 / 100.
Proof.
  intros Hx HB (ym & pt & Hy & Hp & Hz). pose proof (ln_range x Hx) as HL. pose proof (abs_in _ _ Hy) as Hy'.
  assert (B1 : - (3450 / 10000) <= ym - ln x <= 2120 / 10000) by lra.
  assert (HD : ym * ym / 256 <= 404 / 10000) by nra.
  destruct (limexp_at ym _ ltac:(lra) HD) as [L1 L2]. set (L := limexp 8 (- ym)) in *.
  assert (L3 : 3838 / 100000 <= L).
  { assert (exp (- (3213 / 1000)) <= exp (- ym)) by (apply exp_mono; lra). pose proof xm3213. lra. }
  assert (E1 : x * exp (- ym) = exp (ln x - ym)) by (unfold Rminus; rewrite exp_plus, exp_ln by lra; reflexivity).
  assert (U1 : exp (ln x - ym) <= 14131 / 10000).
  { apply Rle_trans with (exp (69 / 200)); [apply exp_mono; lra|].
    apply Rle_trans with (10000 / 7077); [|lra]. apply exp_upper; [lra|]. pose proof xm345. lra. }
  assert (U2 : 788 / 1000 <= exp (ln x - ym)) by (pose proof (exp_ineq1_le (ln x - ym)); lra).
  assert (P1 : 756 / 1000 <= x * L <= 14131 / 10000).
  { rewrite <- E1 in U1, U2. split; [nra|]. apply Rle_trans with (x * exp (- ym)); [apply Rmult_le_compat_l; lra|lra]. }
  pose proof (rel_err x L pt (7955 / 1000000) (7 / 100000) ltac:(lra) Hp ltac:(lra) ltac:(lra)) as R.
  assert (R' : Rabs (pt - x * L) <= 238 / 10000 * (x * L)) by (eapply Rle_trans; [exact R|]; apply Rmult_le_compat_r; lra). clear R.
  pose proof (abs_in _ _ R') as R2.
  assert (P2 : 738 / 1000 <= pt <= 1447 / 1000) by lra.
  specialize (Hz ltac:(apply Rabs_le; lra)).
  destruct (one_step x y ym pt z (404 / 10000) (238 / 10000) ltac:(lra) ltac:(lra) Hy ltac:(lra) ltac:(lra) R' Hz) as [_ Q].
  assert (R0 : - (6 / 10000) <= rem6 (1 - pt) <= 1 / 10000).
  { split.
    - apply Rle_trans with (rem6 (- (447 / 1000))); [|apply rem6_mono; lra]. destruct (rem6_lower (447 / 1000)) as [S _]; [lra|].
      eapply Rle_trans; [|exact S]. lra.
    - apply Rle_trans with (rem6 (262 / 1000)); [apply rem6_mono; lra|]. destruct (rem6_upper (262 / 1000)) as [_ S]; [lra|].
      eapply Rle_trans; [exact S|]. lra. }
  lra.
Qed.

(** the polynomial with errors *)
Lemma err_mul a A b h E : Rabs h <= 5 / 4 -> Rabs (a - A) <= E -> Rabs (b - a * h) <= 2 * U -> Rabs (b - A * h) <= 5 / 4 * E + 2 * U.
Proof.
  intros Hh Ha Hb. replace (b - A * h) with ((b - a * h) + (a - A) * h) by ring. eapply Rle_trans; [apply Rabs_triang|].
  rewrite Rabs_mult. assert (Rabs (a - A) * Rabs h <= E * (5 / 4)) by (apply Rmult_le_compat; auto using Rabs_pos). lra.
Qed.
Lemma pow_in A h n : Rabs h <= 5 / 4 -> Rabs A <= (5 / 4) ^ n -> Rabs (A * h) <= (5 / 4) ^ (S n).
Proof.
  intros Hh HA. rewrite Rabs_mult. cbn [pow]. rewrite (Rmult_comm (5 / 4)). apply Rmult_le_compat; auto using Rabs_pos.
Qed.
Lemma close_in a A E B : Rabs (a - A) <= E -> Rabs A <= B -> Rabs a <= E + B.
Proof. intros H1 H2. replace a with ((a - A) + A) by ring. eapply Rle_trans; [apply Rabs_triang|]. lra. Qed.

Definition small (r : R) : Prop := Rabs r < 2147483648.
Definition mul_ok (b a h : R) : Prop := small (a * h) -> Rabs (b - a * h) <= 2 * U.
Lemma mul_in b a h A n E : Rabs h <= 5 / 4 -> Rabs (a - A) <= E -> Rabs A <= (5 / 4) ^ n -> (5 / 4) ^ n + E <= 1000 -> mul_ok b a h ->
  Rabs (b - A * h) <= 5 / 4 * E + 2 * U /\ Rabs (A * h) <= (5 / 4) ^ (S n).
Proof.
  intros Hh Ha HA HE Hb. split; [|apply pow_in; auto]. apply (err_mul a); auto. apply Hb. unfold small. rewrite Rabs_mult.
  pose proof (close_in a A E _ Ha HA) as Q. apply Rle_lt_trans with (1000 * (5 / 4)); [|lra].
  apply Rmult_le_compat; auto using Rabs_pos. lra.
Qed.

Lemma poly_fixed h h1 h2 h3 h4 a0 a1 a2 a3 a4 q0 q1 q2 q3 q4 w y z : Rabs h <= 5 / 4 -> Rabs y <= 100 ->
  mul_ok h1 h h -> mul_ok h2 h1 h -> mul_ok h3 h2 h -> mul_ok h4 h3 h ->
  Rabs (a0 - h / 2) <= 2 * U -> Rabs (a1 - h1 / 3) <= 2 * U -> Rabs (a2 - h2 / 4) <= 2 * U -> Rabs (a3 - h3 / 5) <= 2 * U -> Rabs (a4 - h4 / 6) <= 2 * U ->
  (Rabs (a0 + 1) <= 1000 -> q0 = a0 + 1) -> (Rabs (q0 + a1) <= 1000 -> q1 = q0 + a1) -> (Rabs (q1 + a2) <= 1000 -> q2 = q1 + a2) ->
  (Rabs (q2 + a3) <= 1000 -> q3 = q2 + a3) -> (Rabs (q3 + a4) <= 1000 -> q4 = q3 + a4) ->
  mul_ok w h q4 -> (Rabs (y - w) <= 1000 -> z = y - w) ->
  Rabs (z - (y - poly6 h)) <= 22 * U.
Proof.
  intros Hh Hy M1 M2 M3 M4 A0 A1 A2 A3 A4 Q0 Q1 Q2 Q3 Q4 MW HZ.
  destruct (mul_in h1 h h h 1 0 Hh) as [E1 B1]; [rewrite Rminus_diag_eq, Rabs_R0 by reflexivity; lra|rewrite pow_1; exact Hh|cbn [pow]; lra|exact M1|].
  destruct (mul_in h2 h1 h _ 2 _ Hh E1 B1) as [E2 B2]; [cbn [pow]; lra|exact M2|].
  destruct (mul_in h3 h2 h _ 3 _ Hh E2 B2) as [E3 B3]; [cbn [pow]; lra|exact M3|].
  destruct (mul_in h4 h3 h _ 4 _ Hh E3 B3) as [E4 B4]; [cbn [pow]; lra|exact M4|].
  set (H2 := h * h) in *. set (H3 := H2 * h) in *. set (H4 := H3 * h) in *. set (H5 := H4 * h) in *.
  cbn [pow] in *. apply abs_in in A0, A1, A2, A3, A4, E1, E2, E3, E4, B1, B2, B3, B4. pose proof (abs_in _ _ Hh) as Hh'.
  rewrite Q0 in * by (apply Rabs_le; lra).
  rewrite Q1 in * by (apply Rabs_le; lra).
  rewrite Q2 in * by (apply Rabs_le; lra).
  rewrite Q3 in * by (apply Rabs_le; lra).
  rewrite Q4 in * by (apply Rabs_le; lra).
  set (P := 1 + h / 2 + H2 / 3 + H3 / 4 + H4 / 5 + H5 / 6).
  set (q := a0 + 1 + a1 + a2 + a3 + a4) in *.
  assert (EQ : Rabs (q - P) <= (15 + 24 / 100) * U) by (unfold q, P; apply Rabs_le; lra).
  assert (BQ : Rabs q <= 10) by (unfold q; apply Rabs_le; lra).
  assert (W : Rabs (w - q * h) <= 2 * U).
  { rewrite (Rmult_comm q). apply MW. unfold small. rewrite Rabs_mult. apply Rle_lt_trans with (5 / 4 * 10); [|lra]. apply Rmult_le_compat; auto using Rabs_pos. }
  pose proof (err_mul q P w h _ Hh EQ W) as EW.
  assert (PP : P * h = poly6 h) by (unfold P, poly6, H5, H4, H3, H2; field).
  assert (BP : Rabs (q * h) <= 10 * (5 / 4)) by (rewrite Rabs_mult; apply Rmult_le_compat; auto using Rabs_pos).
  pose proof (close_in w _ _ _ W BP) as BW. apply abs_in in BW, Hy.
  rewrite HZ by (apply Rabs_le; lra). rewrite <- PP. apply abs_in in EW. apply Rabs_le. lra.
Qed.

(** the reciprocal by the logarithm, over the reals *)
Lemma recip_log_real x a l m E q z : 1 <= Rabs x <= 199 / 10 -> Rabs (a - Rabs x) <= U * Rabs x + 2 * U ->
  (97 / 100 <= a <= 20 -> - (7 / 100) <= l - ln a <= 3 / 100) -> (small (l * -1) -> Rabs (m - l * -1) <= U) ->
  (-512 <= m <= 20 -> Rabs (E - limexp 8 m) <= 1031 * U * limexp 8 m + 20 * U) ->
  Rabs (q - sgn_R x) <= U -> mul_ok z E q -> Rabs (z - 1 / x) <= 11 / 100 / Rabs x.
Proof.
  intros Hx Ha Hl Hm HE Hq Hz. apply abs_in in Ha. assert (RA : 97 / 100 <= a <= 20) by lra. specialize (Hl RA). pose proof (ln_range a RA) as LR.
  assert (M : Rabs (m - l * -1) <= U) by (apply Hm; unfold small; apply Rabs_def1; lra). clear Hm. apply abs_in in M.
  specialize (HE ltac:(lra)). apply abs_in in HE.
  assert (HD : - m * - m / 256 <= 36 / 1000) by nra.
  destruct (limexp_at (- m) _ ltac:(lra) HD) as [L1 L2]. rewrite Ropp_involutive in L1, L2. set (L := limexp 8 m) in *.
  assert (EM : a * exp m = exp (ln a + m)) by (rewrite exp_plus, exp_ln by lra; reflexivity).
  assert (A1 : 9699 / 10000 <= a * exp m) by (rewrite EM; pose proof (exp_ineq1_le (ln a + m)); lra).
  assert (A2 : a * exp m <= 10755 / 10000).
  { rewrite EM. apply Rle_trans with (exp (701 / 10000)); [apply exp_mono; lra|]. apply exp_upper; [lra|]. pose proof (exp_ineq1_le (- (701 / 10000))). lra. }
  assert (B1 : 9349 / 10000 <= a * L) by nra.
  assert (B2 : a * L <= 10755 / 10000) by (apply Rle_trans with (a * exp m); [apply Rmult_le_compat_l; lra|lra]).
  assert (C1 : 9140 / 10000 <= a * E <= 10986 / 10000) by nra.
  assert (EB : 0 <= E <= 12 / 10) by nra.
  pose proof (sgn_range x) as SG.
  assert (X0 : x <> 0) by (intros ->; rewrite Rabs_R0 in Hx; lra).
  assert (SX : sgn_R x * x = Rabs x /\ Rabs (sgn_R x) <= 1).
  { unfold sgn_R. repeat destruct (Rlt_dec _ _); try lra; split; [rewrite Rabs_right; lra|rewrite Rabs_right; lra|rewrite Rabs_left; lra|rewrite Rabs_left; lra]. }
  destruct SX as [SX S1]. apply abs_in in Hq.
  assert (Z : Rabs (z - E * q) <= 2 * U).
  { apply Hz. unfold small. apply Rle_lt_trans with (12 / 10 * 2); [|lra]. rewrite Rabs_mult. apply Rmult_le_compat; try apply Rabs_pos; apply Rabs_le; lra. }
  assert (P : 0 < Rabs x) by lra.
  apply (Rmult_le_reg_r (Rabs x)); [exact P|]. rewrite <- Rabs_mult.
  replace (11 / 100 / Rabs x * Rabs x) with (11 / 100) by (field; lra).
  replace ((z - 1 / x) * x) with ((z - E * q) * x + E * (q - sgn_R x) * x + (E * (sgn_R x * x) - 1)) by (field; lra). rewrite SX.
  assert (T1 : Rabs ((z - E * q) * x) <= 40 * U).
  { rewrite Rabs_mult. apply Rle_trans with (2 * U * 20); [|lra]. apply Rmult_le_compat; try apply Rabs_pos; lra. }
  assert (T2 : Rabs (E * (q - sgn_R x) * x) <= 24 * U).
  { rewrite !Rabs_mult. apply Rle_trans with (12 / 10 * U * 20); [|lra]. apply Rmult_le_compat; try apply Rabs_pos; [apply Rmult_le_pos; apply Rabs_pos| |lra].
    apply Rmult_le_compat; try apply Rabs_pos; apply Rabs_le; lra. }
  assert (T3 : Rabs (E * Rabs x - 1) <= 1 / 10).
  { assert (X1 : E * (a - 22 * U) <= E * Rabs x) by (apply Rmult_le_compat_l; lra). assert (X2 : E * Rabs x <= E * (a + 22 * U)) by (apply Rmult_le_compat_l; lra).
    apply Rabs_le. lra. }
  eapply Rle_trans; [apply Rabs_triang|]. assert (Rabs ((z - E * q) * x + E * (q - sgn_R x) * x) <= 64 * U) by (eapply Rle_trans; [apply Rabs_triang|lra]). lra.
Qed.

(** the real numbers of a log_softmax with errors: [ls] the entries minus the (nearly) largest one,
    [ys] their exponentials, [g] the logarithm of the sum *)
Lemma log_soft_real (ls ys : list R) g : 2 <= INR (length ls) <= 19 ->
  (forall l, In l ls -> -499 <= l <= 48 * U) -> (exists l, In l ls /\ Rabs l <= 48 * U) ->
  Forall2 (fun l y => Rabs (y - limexp 8 l) <= 1016 * U * limexp 8 l + 20 * U /\ - (3 * U) <= y) ls ys ->
  (97 / 100 <= rsum ys <= 20 -> - (7 / 100) <= g - ln (rsum ys) <= 3 / 100) ->
  Rabs (g - ln (rsum (map exp ls))) <= 9 / 100 + INR (length ls) / 300 /\ - 2 / 10 <= g <= 31 / 10.
Proof.
  intros Hn HL (l0 & I0 & A0) HY HG. set (n := INR (length ls)) in *.
  assert (LY : length ys = length ls) by (symmetry; eapply Forall2_len; eauto).
  assert (Y1 : forall y, In y ys -> - (3 * U) <= y <= 10184 / 10000).
  { intros y Hy. destruct (Forall2_in_r _ _ _ _ HY Hy) as (l & Il & B1 & B2). destruct (limexp_soft l (HL l Il)) as (L1 & _). apply abs_in in B1. lra. }
  assert (Y0 : exists y, In y ys /\ 983 / 1000 <= y).
  { destruct (Forall2_in_l _ _ _ _ HY I0) as (y & Iy & B1 & _). exists y. split; [exact Iy|]. pose proof (limexp_near0 l0 A0) as L0.
    destruct (limexp_soft l0 (HL l0 I0)) as (L1 & _). apply abs_in in B1. lra. }
  set (d := rsum ys) in *.
  assert (D1 : 98 / 100 <= d).
  { destruct Y0 as (y & Iy & By). pose proof (rsum_low ys (- (3 * U)) y ltac:(lra) (fun x Hx => proj1 (Y1 x Hx)) Iy) as Q. rewrite LY in Q. fold n d in Q. lra. }
  assert (D2 : d <= n * (10184 / 10000)).
  { pose proof (rsum_bound ys (10184 / 10000)) as Q. rewrite LY in Q. fold n d in Q. apply abs_in in Q; [lra|].
    intros y Hy. specialize (Y1 y Hy). apply Rabs_le. lra. }
  specialize (HG ltac:(lra)).
  set (D := rsum (map exp ls)) in *.
  set (rho := 155036 / 10000000). set (beta := 28 / 10000).
  assert (YE : Forall2 (fun l y => Rabs (y - exp l) <= rho * exp l + beta) ls ys).
  { eapply Forall2_imp; [exact HY|]. intros l y Il _ [B1 _]. destruct (limexp_soft l (HL l Il)) as (L1 & _ & L2). pose proof (exp_pos l) as EP.
    apply abs_in in B1, L2. unfold rho, beta. apply Rabs_le. lra. }
  assert (DD : Rabs (d - D) <= rho * D + n * beta).
  { pose proof (sum_close exp (fun l => rho * exp l + beta) ls ys YE) as Q. fold d D in Q. rewrite rsum_plus, rsum_const in Q. fold n in Q.
    rewrite <- (map_map exp (fun e => rho * e)) in Q.
    assert (E : rsum (map (fun e => rho * e) (map exp ls)) = rho * D).
    { unfold D. rewrite <- (Rmult_comm _ rho), <- rsum_scale. f_equal. apply map_ext. intros; ring. }
    rewrite E in Q. exact Q. }
  assert (D0 : 999 / 1000 <= D).
  { apply Rle_trans with (exp l0); [apply exp_near0; exact A0|]. unfold D. apply rsum_ge; [|apply in_map; exact I0].
    intros y Hy. apply in_map_iff in Hy. destruct Hy as (x & <- & _). left. apply exp_pos. }
  set (t := rho + n * (281 / 100000)).
  assert (Ht : 0 <= t <= 69 / 1000) by (unfold t, rho; lra).
  assert (DT : Rabs (d - D) <= t * D) by (eapply Rle_trans; [exact DD|]; unfold t, rho, beta; nra). apply abs_in in DT.
  assert (Q1 : ln (1 - t) + ln D <= ln d) by (rewrite <- ln_mult by lra; apply ln_le; nra).
  assert (Q2 : ln d <= ln (1 + t) + ln D) by (rewrite <- ln_mult by lra; apply ln_le; nra).
  pose proof (ln_below t ltac:(lra)) as Q3. pose proof (ln_above t ltac:(lra)) as Q4.
  assert (Q5 : t / (1 - t) <= 108 / 100 * t).
  { apply (Rmult_le_reg_r (1 - t)); [lra|]. unfold Rdiv at 1. rewrite Rmult_assoc, Rinv_l by lra. nra. }
  pose proof (ln_range d ltac:(lra)) as LR. split; [|lra].
  assert (ET : t = 155036 / 10000000 + n * (281 / 100000)) by reflexivity. clearbody t n. apply Rabs_le. lra.
Qed.

Section Log.
  Context {K : Type} (alpha : K -> Z) (ev : fop -> Z -> Z -> K -> Z)
          (gen : fop -> nat -> nat -> result (list (list K))) (s : sess) (su : tri_supply) (sh : list nat) (e : nat).
  Hypothesis HG : good_gen (fun o k0 k1 => keys_ok alpha ev o k0 k1 /\ no_carry ev o k0) gen.
  Hypothesis HR : forall k, draws (2^64) 2 [1%nat] (su_rnd su k).
  Hypothesis Hn : s_n s = 2%nat.
  Hypothesis Hc : s_cfg s = mkConfig 2 16.
  Hypothesis Hsh : sh <> [].
  Hypothesis HT : forall k, valid_triples sh sh sh (mul_val sh sh sh) 2 (su_tri su k sh sh).
  Hypothesis He : (e < numel sh)%nat.
  Notation ME := (mpc_engine alpha ev gen s su).
  Notation NE := (noted_engine alpha ev gen s su).
  Notation dec := (dec s e).
  Notation enc := (enc s).
  Notation sharing := (sharing s sh).

  Lemma f_both {A} (m0 : comp (mpcw (K:=K)) A) (m : comp (notedw (K:=K)) A) (W P Q : A -> Prop) : frun m0 m W P -> frun m0 m W Q -> frun m0 m W (fun a => P a /\ Q a).
  Proof.
    clear. intros HP HQ w b Hw. destruct (HP w b Hw) as (a & w' & b' & E0 & E1 & N & B & WA & PA).
    destruct (HQ w b Hw) as (a2 & w2 & b2 & F0 & F1 & _ & _ & _ & QA). rewrite E0 in F0. injection F0 as <- <-. rewrite E1 in F1. injection F1 as <-.
    exists a, w', b'. repeat (split; [assumption|]). intros H. split; auto.
  Qed.

  Lemma exp_any x : sharing x ->
    frun (exp_a ME 8 x) (exp_a NE 8 x) sharing
      (fun z => -512 <= dec x <= 20 -> Rabs (dec z - limexp 8 (dec x)) <= 1031 * U * limexp 8 (dec x) + 20 * U).
  Proof.
    clear HG HR.
    intros SX. eapply f_weaken; [apply f_both; [apply (exp_soft alpha ev gen s su sh e Hn Hc Hsh HT He x SX)|apply (exp_high alpha ev gen s su sh e Hn Hc Hsh HT He x SX)]|].
    intros z _ [HL HH] HX. destruct (Rle_dec (dec x) 0) as [N|N].
    - destruct HL as [HL _]; [lra|]. assert (0 <= limexp 8 (dec x)).
      { unfold limexp. change (2 ^ 8)%nat with (2 * 128)%nat. rewrite pow_mult. apply pow_le. rewrite <- Rsqr_pow2. apply Rle_0_sqr. }
      eapply Rle_trans; [exact HL|]. nra.
    - eapply Rle_trans; [apply HH; lra|]. lra.
  Qed.

  Lemma log_step_f x y : sharing x -> sharing y ->
    frun (log_step ME 8 x y) (log_step NE 8 x y) sharing
      (fun z => 97 / 100 <= dec x <= 20 -> - (7 / 10) <= dec y <= 33 / 10 -> step_ok (dec x) (dec y) (dec z)).
  Proof.
    clear HG HR.
    pose proof (base1 s Hc) as Hb. pose proof (u_val s Hc) as UV. intros SX SY. unfold log_step.
    eapply f_bind; [apply (f_mulp_int alpha ev gen s su sh e Hn Hb Hsh He y (-1) SY); apply (small1 s Hc _ 1); [rewrite Rabs_left; lra|lra]|]. intros m SM.
    eapply f_bind; [apply exp_any; exact SM|]. intros E SE.
    eapply f_bind; [apply (f_mul alpha ev gen s su sh e Hn Hb HT He x E SX SE)|]. intros p SP.
    eapply f_bind; [apply (f_rsub alpha ev gen s su sh e Hn Hb Hsh He (NInt 1) p); [rewrite (S_val s Hc); lra|exact SP]|]. intros h0 S0.
    eapply f_bind; [apply (f_mul alpha ev gen s su sh e Hn Hb HT He h0 h0 S0 S0)|]. intros h1 S1.
    eapply f_bind; [apply (f_mul alpha ev gen s su sh e Hn Hb HT He h1 h0 S1 S0)|]. intros h2 S2.
    eapply f_bind; [apply (f_mul alpha ev gen s su sh e Hn Hb HT He h2 h0 S2 S0)|]. intros h3 S3.
    eapply f_bind; [apply (f_mul alpha ev gen s su sh e Hn Hb HT He h3 h0 S3 S0)|]. intros h4 S4.
    eapply f_bind; [apply (f_div alpha ev gen s su sh e Hn Hb He h0 2 ltac:(lia) S0)|]. intros a0 SA0.
    eapply f_bind; [apply (f_linp alpha ev gen s su sh e Hb Hsh He LAdd a0 (NInt 1) SA0)|]. intros q0 SQ0.
    eapply f_bind; [apply (f_div alpha ev gen s su sh e Hn Hb He h1 3 ltac:(lia) S1)|]. intros a1 SA1.
    eapply f_bind; [apply (f_lin alpha ev gen s su sh e Hb He LAdd q0 a1 SQ0 SA1)|]. intros q1 SQ1.
    eapply f_bind; [apply (f_div alpha ev gen s su sh e Hn Hb He h2 4 ltac:(lia) S2)|]. intros a2 SA2.
    eapply f_bind; [apply (f_lin alpha ev gen s su sh e Hb He LAdd q1 a2 SQ1 SA2)|]. intros q2 SQ2.
    eapply f_bind; [apply (f_div alpha ev gen s su sh e Hn Hb He h3 5 ltac:(lia) S3)|]. intros a3 SA3.
    eapply f_bind; [apply (f_lin alpha ev gen s su sh e Hb He LAdd q2 a3 SQ2 SA3)|]. intros q3 SQ3.
    eapply f_bind; [apply (f_div alpha ev gen s su sh e Hn Hb He h4 6 ltac:(lia) S4)|]. intros a4 SA4.
    eapply f_bind; [apply (f_lin alpha ev gen s su sh e Hb He LAdd q3 a4 SQ3 SA4)|]. intros q4 SQ4.
    eapply f_bind; [apply (f_mul alpha ev gen s su sh e Hn Hb HT He h0 q4 S0 SQ4)|]. intros w SW.
    eapply f_weaken; [apply (f_lin alpha ev gen s su sh e Hb He LSub y w SY SW)|].
    intros z _ EZ EW EQ4 EA4 EQ3 EA3 EQ2 EA2 EQ1 EA1 EQ0 EA0 E4 E3 E2 E1 E0 EP EE EM HX HY. cbn [lin_R] in *. rewrite UV in *.
    rewrite (enc_k s Hc 1) in * by (rewrite Rabs_right; lra).
    assert (M : Rabs (dec m - dec y * -1) <= U) by (apply EM, (small2 s Hc), Rabs_def1; lra). clear EM. apply abs_in in M.
    specialize (EE ltac:(lra)).
    exists (- dec m), (1 - dec h0). rewrite Ropp_involutive.
    assert (LB : 0 <= limexp 8 (dec m) <= 7 / 2).
    { destruct (exp_below 8 (dec m) ltac:(lra)) as [L0 L1]. split; [exact L0|]. eapply Rle_trans; [exact L1|].
      pose proof (exp_ineq1_le (- dec m)) as Q. rewrite exp_Ropp in Q. pose proof (exp_pos (dec m)) as P0.
      assert (299 / 1000 * exp (dec m) <= 1) by (apply Rle_trans with (/ exp (dec m) * exp (dec m)); [apply Rmult_le_compat_r; lra|rewrite Rinv_l; lra]). lra. }
    set (L := limexp 8 (dec m)) in *. pose proof (abs_in _ _ EE) as EE'.
    assert (XE : Rabs (dec x * dec E) <= 20 * 4) by (rewrite Rabs_mult; apply Rmult_le_compat; try apply Rabs_pos; apply Rabs_le; lra).
    assert (PP : Rabs (dec p - dec x * dec E) <= 2 * U) by (apply EP, (small2 s Hc); lra). clear EP.
    assert (H0 : Rabs (dec h0 - (1 - dec p)) <= U).
    { apply E0, (small2 s Hc). apply abs_in in PP, XE. apply Rabs_def1; lra. }
    split; [apply Rabs_le; lra|]. split.
    - replace (1 - dec h0 - dec x * L) with (- (dec h0 - (1 - dec p)) + (dec p - dec x * dec E) + dec x * (dec E - L)) by ring.
      eapply Rle_trans; [apply Rabs_triang|]. rewrite (Rabs_mult (dec x)), (Rabs_right (dec x)) by lra.
      assert (dec x * Rabs (dec E - L) <= dec x * (1031 * U * L + 20 * U)) by (apply Rmult_le_compat_l; lra).
      assert (Rabs (- (dec h0 - (1 - dec p)) + (dec p - dec x * dec E)) <= 3 * U) by (eapply Rle_trans; [apply Rabs_triang|]; rewrite Rabs_Ropp; lra). lra.
    - intros HH. replace (1 - (1 - dec h0)) with (dec h0) in * by lra.
      apply (poly_fixed _ (dec h1) (dec h2) (dec h3) (dec h4) (dec a0) (dec a1) (dec a2) (dec a3) (dec a4) (dec q0) (dec q1) (dec q2) (dec q3) (dec q4) (dec w)); auto;
        try (intros Q; match goal with H : _ -> _ |- _ => apply H end; (apply (small1 s Hc _ 1000 Q); lra) || (apply (small2 s Hc); exact Q)).
      apply Rabs_le. lra.
  Qed.

  Lemma enc_159 : enc (lit 159 100) = 104202 * U.
  Proof. clear - Hc. unfold enc, fixed, lit. rewrite Hc. change (encode1 (mkConfig 2 16) (NFloat (159 # 100))) with 104202%Z. change (scale (mkConfig 2 16)) with 65536%Z. lra. Qed.
  Lemma enc_14 : enc (lit 14 10) = 91750 * U.
  Proof. clear - Hc. unfold enc, fixed, lit. rewrite Hc. change (encode1 (mkConfig 2 16) (NFloat (14 # 10))) with 91750%Z. change (scale (mkConfig 2 16)) with 65536%Z. lra. Qed.

  Lemma log_f x : sharing x ->
    frun (log_a ME 2 8 x) (log_a NE 2 8 x) sharing
      (fun z => 97 / 100 <= dec x <= 20 -> - (7 / 100) <= dec z - ln (dec x) <= 3 / 100).
  Proof.
    clear HG HR.
    pose proof (base1 s Hc) as Hb. pose proof (u_val s Hc) as UV. intros SX. unfold log_a. cbn [log_loop].
    eapply f_bind; [apply (f_div alpha ev gen s su sh e Hn Hb He x 31 ltac:(lia) SX)|]. intros a SA.
    eapply f_bind; [apply (f_linp alpha ev gen s su sh e Hb Hsh He LAdd a (lit 159 100) SA)|]. intros a' SA'.
    eapply f_bind; [apply (f_mulp_int alpha ev gen s su sh e Hn Hb Hsh He x (-2) SX); apply (small1 s Hc _ 2); [rewrite Rabs_left; lra|lra]|]. intros b SB.
    eapply f_bind; [apply (f_linp alpha ev gen s su sh e Hb Hsh He LSub b (lit 14 10) SB)|]. intros b' SB'.
    eapply f_bind; [apply (exp_soft alpha ev gen s su sh e Hn Hc Hsh HT He b' SB')|]. intros G SG.
    eapply f_bind; [apply (f_mulp_int alpha ev gen s su sh e Hn Hb Hsh He G 20 SG); apply (small1 s Hc _ 20); [rewrite Rabs_right; lra|lra]|]. intros g SGG.
    eapply f_bind; [apply (f_lin alpha ev gen s su sh e Hb He LSub a' g SA' SGG)|]. intros y0 SY0.
    eapply f_bind; [apply (log_step_f x y0 SX SY0)|]. intros y1 SY1.
    eapply f_bind; [apply (log_step_f x y1 SX SY1)|]. intros y2 SY2.
    apply f_ret; [exact SY2|]. intros S2 S1 EY EG EE EB' EB EA' EA HX. cbn [lin_R] in *. rewrite UV in *. rewrite enc_159 in *. rewrite enc_14 in *.
    apply abs_in in EA.
    rewrite EA' in EY by (apply (small1 s Hc _ 1000); [apply Rabs_le; lra|lra]).
    assert (B : Rabs (dec b - dec x * -2) <= U) by (apply EB, (small2 s Hc), Rabs_def1; lra). apply abs_in in B.
    rewrite EB' in EE by (apply (small1 s Hc _ 1000); [apply Rabs_le; lra|lra]).
    assert (BB : dec b' = dec b - 91750 * U) by (apply EB', (small1 s Hc _ 1000); [apply Rabs_le; lra|lra]). rewrite <- BB in EE.
    destruct EE as [EE GL]; [lra|].
    destruct (exp_below 8 (dec b') ltac:(lra)) as [L0 L1].
    assert (LU : limexp 8 (dec b') <= 1).
    { eapply Rle_trans; [exact L1|]. rewrite <- exp_0. apply exp_mono. lra. }
    pose proof (abs_in _ _ EE) as EE'.
    assert (GG : Rabs (dec g - dec G * 20) <= U) by (apply EG, (small2 s Hc), Rabs_def1; lra). apply abs_in in GG.
    specialize (EY ltac:(apply (small1 s Hc _ 1000); [apply Rabs_le; lra|lra])).
    assert (OK : guess_ok (dec x) (dec y0)).
    { exists (dec b'), (dec G). split; [apply Rabs_le; lra|]. split; [exact EE|]. split; [exact GL|]. rewrite EY. apply Rabs_le. lra. }
    destruct (guess_bounds (dec x) (dec y0) (dec y0) HX OK) as [Y0 _]; [rewrite Rminus_diag_eq, Rabs_R0 by reflexivity; lra|].
    pose proof (step_first (dec x) (dec y0) (dec y1) HX OK (S1 HX ltac:(lra))) as F1.
    pose proof (ln_range (dec x) HX) as LR.
    apply (step_second (dec x) (dec y1) (dec y2) HX F1). apply S2; auto. lra.
  Qed.

  (** the reciprocal by the logarithm *)
  Lemma reciprocal_log_f n x : sharing x ->
    frun (reciprocal ME RLog n x) (reciprocal NE RLog n x) sharing
      (fun z => 1 <= Rabs (dec x) <= 199 / 10 -> Rabs (dec z - 1 / dec x) <= 11 / 100 / Rabs (dec x)).
  Proof.
    pose proof (base1 s Hc) as Hb. pose proof (u_val s Hc) as UV. pose proof (HS2 s Hc) as H2. intros SX. unfold reciprocal.
    eapply f_bind; [apply (modulus_f alpha ev gen s su sh e HG Hn Hb Hsh HT HR He H2 x SX)|]. intros a SA.
    eapply f_bind; [apply (log_f a SA)|]. intros l SL.
    eapply f_bind; [apply (f_mulp_int alpha ev gen s su sh e Hn Hb Hsh He l (-1) SL); apply (small1 s Hc _ 1); [rewrite Rabs_left; lra|lra]|]. intros m SM.
    eapply f_bind; [apply (exp_any m SM)|]. intros E SE.
    eapply f_bind; [apply (sign_f alpha ev gen s su sh e HG Hn Hb Hsh HR He H2 x SX)|]. intros q SQ.
    eapply f_weaken; [apply (f_mul alpha ev gen s su sh e Hn Hb HT He E q SE SQ)|].
    intros z _ EZ EQ EE EM EL EA HX. rewrite UV in *.
    assert (FX : fits s (dec x)) by (apply (fits_val s Hc); lra).
    apply (recip_log_real (dec x) (dec a) (dec l) (dec m) (dec E) (dec q)); auto.
    - intros Q. apply EM, (small2 s Hc), Q.
    - intros Q. apply EZ, (small2 s Hc), Q.
  Qed.

  Lemma log_softmax_f z xs : (2 <= length xs <= 19)%nat -> Forall sharing xs ->
    frun (log_softmax ME z xs) (log_softmax NE z xs) (fun ps => Forall sharing ps /\ length ps = length xs)
      (fun ps => (forall x, In x xs -> Rabs (dec x) <= 249) ->
         (exists m, In m (map dec xs) /\ largest (map dec xs) m /\ count_occ Req_EM_T (map dec xs) m = 1%nat) ->
         exists c, Forall2 (fun x p => dec p = dec x - c /\ Rabs (dec p - ln (softmax_at (map dec xs) (dec x))) <= 9 / 100 + INR (length xs) / 300) xs ps).
  Proof.
    pose proof (base1 s Hc) as Hb. pose proof (u_val s Hc) as UV. intros HN HS. set (n := length xs) in *.
    assert (E0 : forall W (E : engine W mpc), log_softmax E z xs = (let! m := line_max E xs z in let! ls := cmap (fun x => e_lin E LSub x m) xs in
        let! ys := cmap (exp_a E 8) ls in let! d := csum E ys in
        let! g := log_a E 2 8 d in cmap (fun l => e_lin E LSub l g) ls)).
    { intros W E. destruct xs as [|a [|b l]]; cbn in n; try (unfold n in HN; lia). reflexivity. }
    rewrite !E0. clear E0.
    eapply f_bind; [apply (line_max_f alpha ev gen s su sh e HG Hn Hc Hsh HT HR He xs z); [lia|auto]|]. intros m SM.
    eapply f_bind; [apply f_cmap with (W := sharing) (P := fun x l => Rabs (dec x - dec m) <= 1000 -> dec l = dec x - dec m)|].
    { intros x Hx. eapply f_weaken; [apply (f_lin alpha ev gen s su sh e Hb He LSub); [rewrite Forall_forall in HS; auto|exact SM]|].
      intros l _ EL HB. apply EL. apply (small1 s Hc _ 1000 HB). lra. }
    intros ls [SL LL].
    eapply f_bind; [apply f_cmap with (W := sharing); intros l Hl; apply (exp_soft alpha ev gen s su sh e Hn Hc Hsh HT He); rewrite Forall_forall in SL; auto|]. intros ys [SY LY].
    eapply f_bind; [apply (f_csum alpha ev gen s su sh e Hc He); [intros ->; cbn in LY; lia|exact SY]|]. intros d SD.
    eapply f_bind; [apply (log_f d SD)|]. intros g SG.
    eapply f_weak; [|eapply f_weaken; [apply f_cmap with (W := sharing) (P := fun l p => Rabs (dec l - dec g) <= 1000 -> dec p = dec l - dec g)|]].
    { intros ps [A B]. split; [exact A|]. lia. }
    { intros l Hl. eapply f_weaken; [apply (f_lin alpha ev gen s su sh e Hb He LSub); [rewrite Forall_forall in SL; auto|exact SG]|].
      intros p _ EP HB. apply EP. apply (small1 s Hc _ 1000 HB). lra. }
    intros ps _ EP EG ED EY EL EM HB (top & T1 & T2 & T3). fold n in LL.
    specialize (EM HB). rewrite (sum_largest_one _ _ T1 T2 T3) in EM. fold n in EM.
    assert (N19 : 2 <= INR n <= 19).
    { replace 2 with (INR 2) by reflexivity. replace 19 with (INR 19) by (rewrite INR_IZR_INZ; reflexivity). split; apply le_INR; lia. }
    apply abs_in in EM. assert (BT : -249 <= top <= 249).
    { apply in_map_iff in T1. destruct T1 as (x & <- & Ix). apply abs_in. auto. }
    assert (EL2 : Forall2 (fun x l => dec l = dec x - dec m) xs ls).
    { eapply Forall2_imp; [exact EL|]. intros x l Ix _ Q. apply Q. specialize (HB x Ix). apply abs_in in HB. apply Rabs_le. lra. }
    assert (EL' : map dec ls = map (fun x => x - dec m) (map dec xs)).
    { rewrite map_map. clear - EL2. induction EL2; cbn [map]; congruence. }
    assert (RL : forall l, In l (map dec ls) -> -499 <= l <= 48 * U).
    { intros l Il. rewrite EL' in Il. apply in_map_iff in Il. destruct Il as (x & <- & Ix). specialize (T2 x Ix).
      apply in_map_iff in Ix. destruct Ix as (y & <- & Iy). specialize (HB y Iy). apply abs_in in HB. lra. }
    assert (LM : length (map dec ls) = n) by (rewrite map_length; exact LL).
    assert (YB : Forall2 (fun l y => Rabs (y - limexp 8 l) <= 1016 * U * limexp 8 l + 20 * U /\ - (3 * U) <= y) (map dec ls) (map dec ys)).
    { apply Forall2_maps. eapply Forall2_imp; [exact EY|]. intros l y Il _ Q. apply Q. pose proof (RL (dec l) (in_map dec _ _ Il)). lra. }
    assert (YM : forall y, In y ys -> Rabs (dec y) <= 2).
    { intros y Iy. destruct (Forall2_in_r _ _ _ _ YB (in_map dec _ _ Iy)) as (l & Il & Q & _). destruct (limexp_soft l (RL l Il)) as (L1 & _). apply abs_in in Q.
      apply Rabs_le. lra. }
    assert (DS : dec d = rsum (map dec ys)).
    { apply (ED 2 YM). rewrite LY, LL. lra. }
    destruct (log_soft_real (map dec ls) (map dec ys) (dec g)) as [S1 S2]; rewrite ?LM; auto.
    { exists (top - dec m). split; [|apply Rabs_le; lra]. rewrite EL'. apply (in_map (fun x => x - dec m)). exact T1. }
    { intros Q. rewrite <- DS in *. apply EG. exact Q. }
    rewrite LM in S1. exists (dec m + dec g).
    eapply Forall2_imp; [apply (Forall2_comp _ _ _ _ _ EL2 EP)|]. intros x p Ix _ (l & Il & A & B).
    assert (RLL := RL (dec l) (in_map dec _ _ Il)).
    rewrite (B ltac:(apply Rabs_le; lra)), A. split; [lra|].
    assert (PS : 0 < rsum (map exp (map dec ls))).
    { apply Rlt_le_trans with (exp (top - dec m)); [apply exp_pos|]. apply rsum_ge.
      - intros y Hy. apply in_map_iff in Hy. destruct Hy as (q & <- & _). left. apply exp_pos.
      - rewrite EL'. apply in_map. apply (in_map (fun x0 => x0 - dec m)). exact T1. }
    replace (ln (softmax_at (map dec xs) (dec x))) with (dec x - dec m - ln (rsum (map exp (map dec ls)))).
    - replace (dec x - dec m - dec g - (dec x - dec m - ln (rsum (map exp (map dec ls))))) with (- (dec g - ln (rsum (map exp (map dec ls))))) by ring.
      rewrite Rabs_Ropp. exact S1.
    - unfold softmax_at. rewrite (exp_shifted (map dec xs) (dec m)), <- EL'. unfold Rdiv.
      rewrite ln_mult, ln_Rinv, ln_mult, !ln_exp; [ring| | | | |]; auto using exp_pos; try (apply Rinv_0_lt_compat); apply Rmult_lt_0_compat; auto using exp_pos.
  Qed.
End Log.
