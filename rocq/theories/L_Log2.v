(** The logarithm over the real numbers, for arguments above 50. *)
From Coq Require Import QArith Reals Qreals Lra Lia.
From Verif Require Import Util M_Encoder M_Share M_Fss M_Engine M_Approx M_Softmax S_Real S_Softmax L_Real L_Softmax L_Log.
Local Open Scope R_scope.

Lemma e_50 : 122 / 5 <= exp (9929 / 3100).
Proof.
  apply Rle_trans with (limexp 12 (9929 / 3100)); [|apply exp_below; assert (1 <= 2 ^ 12) by (apply pow_R1_Rle; lra); cbn [pow]; lra].
  unfold limexp. replace (1 + 9929 / 3100 / 2 ^ 12) with (12707529 / 12697600) by (cbn [pow]; lra).
  lbs (20031290581 / 20000000000) 11%nat.
  lbs (20062630117 / 20000000000) 10%nat.
  lbs (50313640901 / 50000000000) 9%nat.
  lbs (25314624607 / 25000000000) 8%nat.
  lbs (51266417519 / 50000000000) 7%nat.
  lbs (105129822609 / 100000000000) 6%nat.
  lbs (110522796017 / 100000000000) 5%nat.
  lbs (61076442197 / 50000000000) 4%nat.
  lbs (149213271657 / 100000000000) 3%nat.
  lbs (44529200877 / 20000000000) 2%nat.
  lbs (247856216343 / 50000000000) 1%nat.
  lbs (245730815919 / 10000000000) 0%nat.
  cbn [Nat.pow pow]. lra.
Qed.
Lemma em_150 : 1 / 640 <= exp (- (19929 / 3100)).
Proof.
  apply Rle_trans with (limexp 12 (- (19929 / 3100))); [|apply exp_below; assert (1 <= 2 ^ 12) by (apply pow_R1_Rle; lra); cbn [pow]; lra].
  unfold limexp. replace (1 + - (19929 / 3100) / 2 ^ 12) with (12677671 / 12697600) by (cbn [pow]; lra).
  lbs (996863444961 / 1000000000000) 11%nat.
  lbs (993736727899 / 1000000000000) 10%nat.
  lbs (316004059 / 320000000) 9%nat.
  lbs (975181301801 / 1000000000000) 8%nat.
  lbs (475489285691 / 500000000000) 7%nat.
  lbs (904360243227 / 1000000000000) 6%nat.
  lbs (817867449529 / 1000000000000) 5%nat.
  lbs (668907164999 / 1000000000000) 4%nat.
  lbs (223718397693 / 500000000000) 3%nat.
  lbs (40039937173 / 200000000000) 2%nat.
  lbs (100199785551 / 2500000000000) 1%nat.
  lbs (160639952391 / 100000000000000) 0%nat.
  cbn [Nat.pow pow]. lra.
Qed.
Lemma e_ln150 : 150 <= exp (251 / 50).
Proof.
  apply Rle_trans with (limexp 12 (251 / 50)); [|apply exp_below; assert (1 <= 2 ^ 12) by (apply pow_R1_Rle; lra); cbn [pow]; lra].
  unfold limexp. replace (1 + 251 / 50 / 2 ^ 12) with (205051 / 204800) by (cbn [pow]; lra).
  lbs (100245267393 / 100000000000) 11%nat.
  lbs (50245568173 / 50000000000) 10%nat.
  lbs (100984684841 / 100000000000) 9%nat.
  lbs (25494766431 / 25000000000) 8%nat.
  lbs (103997298459 / 100000000000) 7%nat.
  lbs (108154380867 / 100000000000) 6%nat.
  lbs (116973701007 / 100000000000) 5%nat.
  lbs (17103558409 / 12500000000) 4%nat.
  lbs (1170126841 / 625000000) 3%nat.
  lbs (350514386951 / 100000000000) 2%nat.
  lbs (122860335459 / 10000000000) 1%nat.
  lbs (15094662029 / 100000000) 0%nat.
  cbn [Nat.pow pow]. lra.
Qed.
Lemma em_032 : 100 / 139 <= exp (- (8 / 25)).
Proof.
  apply Rle_trans with (limexp 8 (- (8 / 25))); [|apply exp_below; assert (1 <= 2 ^ 8) by (apply pow_R1_Rle; lra); cbn [pow]; lra].
  unfold limexp. replace (1 + - (8 / 25) / 2 ^ 8) with (799 / 800) by (cbn [pow]; lra).
  lbs (498750781 / 500000000) 7%nat.
  lbs (497504683 / 500000000) 6%nat.
  lbs (495021819 / 500000000) 5%nat.
  lbs (196037281 / 200000000) 4%nat.
  lbs (240191347 / 250000000) 3%nat.
  lbs (92307013 / 100000000) 2%nat.
  lbs (26626827 / 31250000) 1%nat.
  lbs (363001813 / 500000000) 0%nat.
  cbn [Nat.pow pow]. lra.
Qed.

(** the exponential in the first guess is next to nothing *)
Lemma guess_exp x : 50 <= x <= 150 -> 0 <= limexp 8 (- 2 * x - 14 / 10) <= 1 / 1000000.
Proof.
  intros Hx. unfold limexp. set (b := 1 + (- 2 * x - 14 / 10) / 2 ^ 8).
  assert (Hb : - (605 / 1000) <= b <= 605 / 1000) by (unfold b; cbn [pow]; lra).
  change (2 ^ 8)%nat with (2 * (16 + 112))%nat. rewrite pow_mult, pow_add.
  assert (H2 : 0 <= b ^ 2 <= 37 / 100) by (cbn [pow]; nra).
  assert (A : 0 <= (b ^ 2) ^ 16 <= (37 / 100) ^ 16) by (split; [apply pow_le; lra|apply pow_incr; lra]).
  assert (B : 0 <= (b ^ 2) ^ 112 <= 1) by (split; [apply pow_le; lra|rewrite <- (pow1 112); apply pow_incr; lra]).
  assert (C : (37 / 100) ^ 16 <= 1 / 1000000) by (cbn [pow]; lra).
  split; [apply Rmult_le_pos; lra|]. apply Rle_trans with ((37 / 100) ^ 16 * 1); [apply Rmult_le_compat; lra|lra].
Qed.

Lemma guess_150 x : 50 <= x <= 150 -> 3 <= log_guess x <= 643 / 100 /\ 234 / 1000 <= x * exp (- log_guess x) <= 2051 / 1000.
Proof.
  intros Hx. pose proof (guess_exp x Hx) as HL. unfold log_guess.
  set (l := limexp 8 (- 2 * x - 14 / 10)) in *. clearbody l.
  assert (M : forall a b, a <= b -> exp a <= exp b) by (intros a b [K|<-]; [left; apply exp_increasing; auto|lra]).
  split; [lra|].
  set (t := exp (- (x / 31 + 159 / 100))). assert (T0 : 0 < t) by apply exp_pos.
  assert (E : t <= exp (- (x / 31 + 159 / 100 - 20 * l)) <= t * (10001 / 10000)).
  { split; [apply M; lra|]. replace (- (x / 31 + 159 / 100 - 20 * l)) with (- (x / 31 + 159 / 100) + 20 * l) by lra. rewrite exp_plus.
    fold t. apply Rmult_le_compat_l; [lra|]. apply exp_upper; [lra|]. pose proof (exp_ineq1_le (- (20 * l))). lra. }
  assert (U : x * t <= 50 / (244 / 10)).
  { pose proof (exp_neg_upper (9929 / 3100) (244 / 10) ltac:(lra)) as Q. unfold Rdiv at 1.
    apply Rle_trans with (50 * exp (- (9929 / 3100))); [|apply Rmult_le_compat_l; [lra|]; apply Q; pose proof e_50; lra].
    replace t with (exp (- ((x - 50) / 31)) * exp (- (9929 / 3100))) by (unfold t; rewrite <- exp_plus; f_equal; lra).
    rewrite <- Rmult_assoc. apply Rmult_le_compat_r; [left; apply exp_pos|].
    rewrite exp_Ropp. pose proof (exp_ineq1_le ((x - 50) / 31)) as I. pose proof (exp_pos ((x - 50) / 31)) as P.
    apply (Rmult_le_reg_r (exp ((x - 50) / 31))); [exact P|]. rewrite Rmult_assoc, Rinv_l by lra. lra. }
  assert (D : 150 / 640 <= x * t).
  { apply Rle_trans with (150 * exp (- (19929 / 3100))); [pose proof em_150; lra|].
    replace t with (exp ((150 - x) / 31) * exp (- (19929 / 3100))) by (unfold t; rewrite <- exp_plus; f_equal; lra).
    rewrite <- Rmult_assoc. apply Rmult_le_compat_r; [left; apply exp_pos|].
    pose proof (exp_ineq1_le ((150 - x) / 31)) as I.
    apply Rle_trans with (x * (1 + (150 - x) / 31)); [nra|]. apply Rmult_le_compat_l; lra. }
  split.
  - apply Rle_trans with (x * t); [lra|]. apply Rmult_le_compat_l; lra.
  - apply Rle_trans with (x * (t * (10001 / 10000))); [apply Rmult_le_compat_l; lra|]. rewrite <- Rmult_assoc. lra.
Qed.

(** two steps *)
Lemma log_close_150 x : 50 <= x <= 150 -> exists y, gives (log_a RE 2 8 x) y /\ - (1 / 8) <= y - ln x <= 1 / 1000.
Proof.
  intros Hx. destruct (guess_150 x Hx) as [G1 G2]. set (y0 := log_guess x) in *.
  assert (HL : 1 <= ln x <= 502 / 100).
  { split; [rewrite <- (ln_exp 1); apply ln_le; [apply exp_pos|pose proof exp_le_3; lra]|].
    rewrite <- (ln_exp (502 / 100)). apply ln_le; [lra|]. pose proof e_ln150. replace (502 / 100) with (251 / 50) by lra. lra. }
  destruct (step_value x y0) as (P0 & S0 & B0 & L0); [lra|lra|]. set (p0 := x * limexp 8 (- y0)) in *.
  assert (D0 : 0 <= y0 * y0 / 256 <= 1616 / 10000) by nra.
  assert (P0' : 196 / 1000 <= p0 <= 2051 / 1000) by nra.
  assert (K0 := ln_below (y0 * y0 / 256) ltac:(lra)).
  assert (K0' : y0 * y0 / 256 / (1 - y0 * y0 / 256) <= 193 / 1000).
  { set (d := y0 * y0 / 256) in *. apply (Rmult_le_reg_r (1 - d)); [lra|]. unfold Rdiv at 1. rewrite Rmult_assoc, Rinv_l by lra. lra. }
  assert (R0 : - (12 / 100) <= rem6 (1 - p0) <= 16 / 100).
  { split.
    - apply Rle_trans with (rem6 (- (1051 / 1000))); [|apply rem6_mono; lra]. destruct (rem6_lower (1051 / 1000)) as [Q _]; [lra|].
      eapply Rle_trans; [|exact Q]. lra.
    - apply Rle_trans with (rem6 (804 / 1000)); [apply rem6_mono; lra|]. destruct (rem6_upper (804 / 1000)) as [_ Q]; [lra|].
      eapply Rle_trans; [exact Q|]. lra. }
  set (y1 := y0 + ln p0 + rem6 (1 - p0)) in *.
  assert (Y1 : - (32 / 100) <= y1 - ln x <= 16 / 100) by (unfold y1; lra).
  destruct (step_value x y1) as (P1 & S1 & B1 & L1); [lra|lra|]. set (p1 := x * limexp 8 (- y1)) in *.
  assert (D1 : 0 <= y1 * y1 / 256 <= 1049 / 10000) by nra.
  assert (K1 := ln_below (y1 * y1 / 256) ltac:(lra)).
  assert (K1' : y1 * y1 / 256 / (1 - y1 * y1 / 256) <= 1173 / 10000).
  { set (d := y1 * y1 / 256) in *. apply (Rmult_le_reg_r (1 - d)); [lra|]. unfold Rdiv at 1. rewrite Rmult_assoc, Rinv_l by lra. lra. }
  assert (E1 : x * exp (- y1) = exp (ln x - y1)) by (unfold Rminus; rewrite exp_plus, exp_ln by lra; reflexivity).
  assert (M : forall a b, a <= b -> exp a <= exp b) by (intros a b [K|<-]; [left; apply exp_increasing; auto|lra]).
  assert (U1 : exp (ln x - y1) <= 139 / 100).
  { apply Rle_trans with (exp (32 / 100)); [apply M; lra|]. apply exp_upper; [lra|]. pose proof em_032.
    replace (32 / 100) with (8 / 25) by lra. lra. }
  assert (U2 : 84 / 100 <= exp (ln x - y1)) by (pose proof (exp_ineq1_le (ln x - y1)); lra).
  rewrite E1 in B1.
  assert (P1' : 75 / 100 <= p1 <= 139 / 100) by nra.
  assert (R1 : - (1 / 1000) <= rem6 (1 - p1) <= 1 / 1000).
  { split.
    - apply Rle_trans with (rem6 (- (39 / 100))); [|apply rem6_mono; lra]. destruct (rem6_lower (39 / 100)) as [Q _]; [lra|].
      eapply Rle_trans; [|exact Q]. lra.
    - apply Rle_trans with (rem6 (25 / 100)); [apply rem6_mono; lra|]. destruct (rem6_upper (25 / 100)) as [_ Q]; [lra|].
      eapply Rle_trans; [exact Q|]. lra. }
  exists (y1 + ln p1 + rem6 (1 - p1)). split.
  - unfold gives. rewrite log_a_R. cbn [log_loop]. fold y0.
    apply (gives_bind _ _ y1); [exact S0|]. apply (gives_bind _ _ (y1 + ln p1 + rem6 (1 - p1))); [exact S1|]. reflexivity.
  - lra.
Qed.

Lemma log_close_all x : 1 <= x <= 150 -> exists y, gives (log_a RE 2 8 x) y /\ - (1 / 8) <= y - ln x <= 1 / 1000.
Proof. intros Hx. destruct (Rle_dec x 50); [apply log_close; lra|apply log_close_150; lra]. Qed.

(** far out the first guess is hopeless *)
Lemma guess_far x : 300 <= x -> log_guess x <= -1000.
Proof.
  intros Hx. unfold log_guess, limexp. set (b := 1 + (- 2 * x - 14 / 10) / 2 ^ 8).
  assert (Hb : b = 1 - (2 * x + 14 / 10) / 256) by (unfold b; cbn [pow]; lra). clearbody b.
  change (2 ^ 8)%nat with (2 * 128)%nat. rewrite pow_mult.
  assert (H2 : 1 + INR 128 * (b ^ 2 - 1) <= (b ^ 2) ^ 128).
  { replace (b ^ 2) with (1 + (b ^ 2 - 1)) at 2 by lra. apply poly. cbn [pow]. subst b. nra. }
  replace (INR 128) with 128 in H2 by (cbn; lra). set (q := (b ^ 2) ^ 128) in *. clearbody q.
  assert (HB : b <= - (1349 / 1000) - (x - 300) / 128) by lra. clear Hb. set (d := (x - 300) / 128) in *.
  assert (Hd : 0 <= d) by (unfold d; lra). assert (Ex : x = 300 + 128 * d) by (unfold d; lra). clearbody d. subst x.
  assert (H3 : 8 / 10 + 2 * d <= b ^ 2 - 1) by (cbn [pow]; nra). lra.
Qed.

Lemma poly6_nonneg h : h <= -2 -> 0 <= poly6 h.
Proof.
  intros H. unfold poly6.
  assert (A : 0 <= h * (h / 2 + 1)) by nra.
  assert (B : h * h * h <= 0) by nra.
  assert (C : 0 <= h * h * h * (h / 4 + 1 / 3)) by nra.
  assert (D : h * h * h * (h * h) <= 0) by nra.
  assert (E : 0 <= h * h * h * (h * h) * (h / 6 + 1 / 5)) by nra.
  lra.
Qed.

Lemma step_far x y : 300 <= x -> y <= 0 -> y - poly6 (1 - x * limexp 8 (- y)) <= y.
Proof.
  intros Hx Hy. assert (L : 1 <= limexp 8 (- y)).
  { unfold limexp. apply pow_R1_Rle. cbn [pow]. lra. }
  assert (P := poly6_nonneg (1 - x * limexp 8 (- y)) ltac:(nra)). lra.
Qed.

Lemma log_far x : 300 <= x -> exists y, gives (log_a RE 2 8 x) y /\ y <= -1000.
Proof.
  intros Hx. pose proof (guess_far x Hx) as G. set (y0 := log_guess x) in *.
  set (y1 := y0 - poly6 (1 - x * limexp 8 (- y0))). set (y2 := y1 - poly6 (1 - x * limexp 8 (- y1))).
  exists y2. split.
  - unfold gives. rewrite log_a_R. cbn [log_loop]. fold y0.
    apply (gives_bind _ _ y1); [apply log_step_R|]. apply (gives_bind _ _ y2); [apply log_step_R|]. reflexivity.
  - assert (y1 <= y0) by (apply step_far; lra). assert (y2 <= y1) by (apply step_far; lra). lra.
Qed.
