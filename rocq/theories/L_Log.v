(** The logarithm over the real numbers. *)
From Coq Require Import QArith Reals Qreals Lra Lia.
From Verif Require Import Util M_Encoder M_Share M_Fss M_Engine M_Approx M_Softmax S_Real S_Softmax L_Real L_Softmax.
Local Open Scope R_scope.

Definition poly6 (h : R) : R := h + h^2 / 2 + h^3 / 3 + h^4 / 4 + h^5 / 5 + h^6 / 6.
(** the remainder of the series of -ln(1-h) after six terms *)
Definition rem6 (h : R) : R := - ln (1 - h) - poly6 h.

Lemma d_mono n x c : derivable_pt_lim (fun h => c * h ^ n) x (c * (INR n * x ^ pred n)).
Proof. apply (derivable_pt_lim_scal (fun h => h ^ n) c). apply derivable_pt_lim_pow. Qed.

Lemma d_ln h : h < 1 -> derivable_pt_lim (fun h => - ln (1 - h)) h (/ (1 - h)).
Proof.
  intros H. replace (/ (1 - h)) with (- (/ (1 - h) * (0 - 1))) by lra.
  apply (derivable_pt_lim_opp (fun h => ln (1 - h))).
  apply (derivable_pt_lim_comp (fun h => 1 - h) ln).
  - apply (derivable_pt_lim_minus (fct_cte 1) id); [apply derivable_pt_lim_const|apply derivable_pt_lim_id].
  - apply derivable_pt_lim_ln. lra.
Qed.

Lemma d_ext f g x l : (forall t, f t = g t) -> derivable_pt_lim f x l -> derivable_pt_lim g x l.
Proof. intros E H eps He. destruct (H eps He) as [d K]. exists d. intros t. rewrite <- !E. apply K. Qed.

(** - ln(1-h) - poly6 h + a h^7 + b h^8 *)
Lemma d_rem a b h : h < 1 -> derivable_pt_lim (fun h => rem6 h + (a * h ^ 7 + b * h ^ 8)) h
  (h ^ 6 / (1 - h) + (7 * a * h ^ 6 + 8 * b * h ^ 7)).
Proof.
  intros H.
  apply d_ext with (fun h => - ln (1 - h) + ((- 1 * h ^ 1 + (- (1/2) * h ^ 2)) + (- (1/3) * h ^ 3 + (- (1/4) * h ^ 4)) + (- (1/5) * h ^ 5 + (- (1/6) * h ^ 6)) + (a * h ^ 7 + b * h ^ 8))).
  { intros t. unfold rem6, poly6. field. }
  replace (h ^ 6 / (1 - h) + (7 * a * h ^ 6 + 8 * b * h ^ 7)) with
    (/ (1 - h) + ((- 1 * (INR 1 * h ^ 0) + (- (1/2) * (INR 2 * h ^ 1))) + (- (1/3) * (INR 3 * h ^ 2) + (- (1/4) * (INR 4 * h ^ 3))) + (- (1/5) * (INR 5 * h ^ 4) + (- (1/6) * (INR 6 * h ^ 5))) + (a * (INR 7 * h ^ 6) + b * (INR 8 * h ^ 7)))).
  2:{ cbn [INR]. field. lra. }
  apply (derivable_pt_lim_plus (fun h => - ln (1 - h))); [apply d_ln; auto|].
  repeat match goal with |- derivable_pt_lim (fun h => @?f h + @?g h) _ _ => apply (derivable_pt_lim_plus f g) end; apply d_mono.
Qed.

Lemma grow f f' a b : a <= b -> (forall c, a <= c <= b -> derivable_pt_lim f c (f' c)) -> (forall c, a <= c <= b -> 0 <= f' c) -> f a <= f b.
Proof.
  intros H D P. destruct H as [H|<-]; [|lra]. destruct (MVT_cor2 f f' a b H D) as (c & E & Hc).
  assert (0 <= f' c) by (apply P; lra). nra.
Qed.

Lemma rem6_0 : rem6 0 = 0.
Proof. unfold rem6, poly6. rewrite Rminus_0_r, ln_1. lra. Qed.

Lemma pow6_nonneg h : 0 <= h ^ 6.
Proof. replace (h ^ 6) with ((h ^ 3) * (h ^ 3)) by ring. apply Rle_0_sqr. Qed.

Lemma rem6_mono a b : a <= b < 1 -> rem6 a <= rem6 b.
Proof.
  intros [H1 H2].
  assert (K : rem6 a + (0 * a ^ 7 + 0 * a ^ 8) <= rem6 b + (0 * b ^ 7 + 0 * b ^ 8)); [|lra].
  apply (grow (fun h => rem6 h + (0 * h ^ 7 + 0 * h ^ 8)) (fun h => h ^ 6 / (1 - h) + (7 * 0 * h ^ 6 + 8 * 0 * h ^ 7))); auto.
  - intros c Hc. apply d_rem. lra.
  - intros c Hc. pose proof (pow6_nonneg c). assert (0 < / (1 - c)) by (apply Rinv_0_lt_compat; lra). unfold Rdiv. nra.
Qed.

Lemma rem6_upper h : 0 <= h < 1 -> 0 <= rem6 h <= h ^ 7 / (7 * (1 - h)).
Proof.
  intros H. split; [rewrite <- rem6_0; apply rem6_mono; lra|].
  set (a := / (7 * (1 - h))).
  assert (K : - (rem6 0 + (- a * 0 ^ 7 + 0 * 0 ^ 8)) <= - (rem6 h + (- a * h ^ 7 + 0 * h ^ 8))).
  2:{ rewrite rem6_0 in K. unfold Rdiv. fold a. lra. }
  apply (grow (fun t => - (rem6 t + (- a * t ^ 7 + 0 * t ^ 8))) (fun t => - (t ^ 6 / (1 - t) + (7 * (- a) * t ^ 6 + 8 * 0 * t ^ 7)))); [lra| |].
  - intros c Hc. apply (derivable_pt_lim_opp (fun t => rem6 t + (- a * t ^ 7 + 0 * t ^ 8))). apply d_rem. lra.
  - intros c Hc. assert (E : 7 * a = / (1 - h)) by (unfold a; field; lra).
    assert (L : / (1 - c) <= / (1 - h)) by (apply Rinv_le_contravar; lra). pose proof (pow6_nonneg c).
    replace (- (c ^ 6 / (1 - c) + (7 * (- a) * c ^ 6 + 8 * 0 * c ^ 7))) with (c ^ 6 * (7 * a - / (1 - c))) by (unfold Rdiv; ring).
    apply Rmult_le_pos; lra.
Qed.

Lemma rem6_lower c : 0 <= c -> - (c ^ 7 / 7 - c ^ 8 / (8 * (1 + c))) <= rem6 (- c) <= 0.
Proof.
  intros H. split; [|rewrite <- rem6_0; apply rem6_mono; lra].
  set (b := / (8 * (1 + c))).
  assert (K : - (rem6 (- c) + (- (1 / 7) * (- c) ^ 7 + (- b) * (- c) ^ 8)) <= - (rem6 0 + (- (1 / 7) * 0 ^ 7 + (- b) * 0 ^ 8))).
  2:{ rewrite rem6_0 in K. replace ((- c) ^ 7) with (- c ^ 7) in K by ring. replace ((- c) ^ 8) with (c ^ 8) in K by ring. unfold Rdiv at 2. fold b. lra. }
  apply (grow (fun t => - (rem6 t + (- (1 / 7) * t ^ 7 + (- b) * t ^ 8))) (fun t => - (t ^ 6 / (1 - t) + (7 * (- (1 / 7)) * t ^ 6 + 8 * (- b) * t ^ 7)))); [lra| |].
  - intros t Ht. apply (derivable_pt_lim_opp (fun t => rem6 t + (- (1 / 7) * t ^ 7 + (- b) * t ^ 8))). apply d_rem. lra.
  - intros t Ht. assert (E : 8 * b = / (1 + c)) by (unfold b; field; lra).
    assert (L : / (1 + c) <= / (1 - t)) by (apply Rinv_le_contravar; lra). pose proof (pow6_nonneg t).
    replace (- (t ^ 6 / (1 - t) + (7 * (- (1 / 7)) * t ^ 6 + 8 * (- b) * t ^ 7))) with (t ^ 6 * (- t * (/ (1 - t) - 8 * b))) by (field; lra).
    apply Rmult_le_pos; auto. apply Rmult_le_pos; lra.
Qed.

Lemma log_step_R x y : gives (log_step RE 8 x y) (y - poly6 (1 - x * limexp 8 (- y))).
Proof.
  unfold log_step. eapply gives_bind; [run; reflexivity|]. eapply gives_bind; [apply exp_R|].
  replace (y * -1) with (- y) by lra.
  run. do 2 f_equal. unfold poly6. field.
Qed.

(** one step: y + ln p + rem6 (1 - p) *)
Lemma step_value x y : 0 < x -> -16 < y < 16 -> let p := x * limexp 8 (- y) in
  0 < p /\ gives (log_step RE 8 x y) (y + ln p + rem6 (1 - p)) /\
  x * exp (- y) * (1 - y * y / 256) <= p <= x * exp (- y) /\
  ln x + ln (1 - y * y / 256) <= y + ln p <= ln x.
Proof.
  intros Hx Hy p.
  assert (HD : 0 < 1 - y * y / 256) by nra.
  assert (H8 : 2 ^ 8 = 256) by lra.
  assert (A : exp (- y) * (1 - y * y / 256) <= limexp 8 (- y)).
  { pose proof (exp_above 8 (- y)) as P. rewrite H8 in P. replace (- y * - y) with (y * y) in P by ring. apply P. apply Rabs_def1; lra. }
  assert (B : limexp 8 (- y) <= exp (- y)) by (apply exp_below; rewrite H8; lra).
  pose proof (exp_pos (- y)) as HE.
  assert (C : 0 < x * exp (- y) * (1 - y * y / 256)) by (repeat apply Rmult_lt_0_compat; auto).
  assert (D : x * exp (- y) * (1 - y * y / 256) <= p <= x * exp (- y)) by (unfold p; rewrite Rmult_assoc; split; apply Rmult_le_compat_l; lra).
  assert (Hp : 0 < p) by lra. split; [exact Hp|]. split; [|split; [exact D|]].
  - eapply gives_eq; [apply log_step_R|]. fold p. unfold rem6. replace (1 - (1 - p)) with p by lra. lra.
  - assert (E1 : ln (x * exp (- y)) = ln x - y) by (rewrite ln_mult, ln_exp by auto; lra).
    assert (E2 : ln (x * exp (- y) * (1 - y * y / 256)) = ln x - y + ln (1 - y * y / 256)).
    { rewrite ln_mult, E1; auto. apply Rmult_lt_0_compat; auto. }
    assert (M : forall a b, 0 < a -> a <= b -> ln a <= ln b).
    { intros a b Ha [Hb|<-]; [left; apply ln_increasing; auto|lra]. }
    assert (L1 := M _ _ C (proj1 D)). assert (L2 := M _ _ Hp (proj2 D)). lra.
Qed.
Lemma e34 : 25 <= exp (17 / 5).
Proof.
  apply Rle_trans with (limexp 8 (17 / 5)); [|apply exp_below; assert (1 <= 2 ^ 8) by (apply pow_R1_Rle; lra); lra].
  unfold limexp. replace (1 + 17 / 5 / 2 ^ 8) with (1297 / 1280) by (cbn [pow]; lra).
  lbs (2566847 / 2500000) 7%nat.
  lbs (421677 / 400000) 6%nat.
  lbs (5556609 / 5000000) 5%nat.
  lbs (12350361 / 10000000) 4%nat.
  lbs (15253141 / 10000000) 3%nat.
  lbs (23265831 / 10000000) 2%nat.
  lbs (54129889 / 10000000) 1%nat.
  lbs (36625561 / 1250000) 0%nat.
  cbn [Nat.pow pow]. lra.
Qed.
Lemma e74 : 1588 <= exp (37 / 5).
Proof.
  apply Rle_trans with (limexp 12 (37 / 5)); [|apply exp_below; assert (1 <= 2 ^ 12) by (apply pow_R1_Rle; lra); lra].
  unfold limexp. replace (1 + 37 / 5 / 2 ^ 12) with (20517 / 20480) by (cbn [pow]; lra).
  lbs (2509041363 / 2500000000) 11%nat.
  lbs (10072461697 / 10000000000) 10%nat.
  lbs (10145448463 / 10000000000) 9%nat.
  lbs (10293012451 / 10000000000) 8%nat.
  lbs (10594610531 / 10000000000) 7%nat.
  lbs (1122457723 / 1000000000) 6%nat.
  lbs (12599113399 / 10000000000) 5%nat.
  lbs (3968441461 / 2500000000) 4%nat.
  lbs (25197644207 / 10000000000) 3%nat.
  lbs (31746063679 / 5000000000) 2%nat.
  lbs (100781255911 / 2500000000) 1%nat.
  lbs (16250978468797 / 10000000000) 0%nat.
  cbn [Nat.pow pow]. lra.
Qed.
Lemma e26 : 13141 / 1000 <= exp (12887 / 5000).
Proof.
  apply Rle_trans with (limexp 12 (12887 / 5000)); [|apply exp_below; assert (1 <= 2 ^ 12) by (apply pow_R1_Rle; lra); lra].
  unfold limexp. replace (1 + 12887 / 5000 / 2 ^ 12) with (20492887 / 20480000) by (cbn [pow]; lra).
  lbs (250314723 / 250000000) 11%nat.
  lbs (1253149211 / 1250000000) 10%nat.
  lbs (314076589 / 312500000) 9%nat.
  lbs (78915283 / 78125000) 8%nat.
  lbs (5101667853 / 5000000000) 7%nat.
  lbs (162668843 / 156250000) 6%nat.
  lbs (10838488057 / 10000000000) 5%nat.
  lbs (367102573 / 312500000) 4%nat.
  lbs (3449966057 / 2500000000) 3%nat.
  lbs (19043625271 / 10000000000) 2%nat.
  lbs (18132983173 / 5000000000) 1%nat.
  lbs (263044063 / 20000000) 0%nat.
  cbn [Nat.pow pow]. lra.
Qed.
Lemma e16 : 39 / 200 <= exp (- (5029 / 3100)).
Proof.
  apply Rle_trans with (limexp 8 (- (5029 / 3100))); [|apply exp_below; assert (1 <= 2 ^ 8) by (apply pow_R1_Rle; lra); cbn [pow]; lra].
  unfold limexp. replace (1 + - (5029 / 3100) / 2 ^ 8) with (788571 / 793600) by (cbn [pow]; lra).
  lbs (4936831 / 5000000) 7%nat.
  lbs (243723 / 250000) 6%nat.
  lbs (594009 / 625000) 5%nat.
  lbs (72263 / 80000) 4%nat.
  lbs (8159283 / 10000000) 3%nat.
  lbs (6657389 / 10000000) 2%nat.
  lbs (2216041 / 5000000) 1%nat.
  lbs (392867 / 2000000) 0%nat.
  cbn [Nat.pow pow]. lra.
Qed.
Lemma e4 : 50 <= exp 4.
Proof.
  apply Rle_trans with (limexp 8 4); [|apply exp_below; assert (1 <= 2 ^ 8) by (apply pow_R1_Rle; lra); lra].
  unfold limexp. replace (1 + 4 / 2 ^ 8) with (65 / 64) by (cbn [pow]; lra).
  lbs (10314941 / 10000000) 7%nat.
  lbs (53199 / 50000) 6%nat.
  lbs (5660267 / 5000000) 5%nat.
  lbs (12815449 / 10000000) 4%nat.
  lbs (16423573 / 10000000) 3%nat.
  lbs (215787 / 80000) 2%nat.
  lbs (14551259 / 2000000) 1%nat.
  lbs (264673923 / 5000000) 0%nat.
  cbn [Nat.pow pow]. lra.
Qed.
Lemma em065 : 1039 / 2000 <= exp (- (163 / 250)).
Proof.
  apply Rle_trans with (limexp 10 (- (163 / 250))); [|apply exp_below; assert (1 <= 2 ^ 10) by (apply pow_R1_Rle; lra); lra].
  unfold limexp. replace (1 + - (163 / 250) / 2 ^ 10) with (255837 / 256000) by (cbn [pow]; lra).
  lbs (12484087 / 12500000) 9%nat.
  lbs (49872777 / 50000000) 8%nat.
  lbs (19898351 / 20000000) 7%nat.
  lbs (98986093 / 100000000) 6%nat.
  lbs (48991233 / 50000000) 5%nat.
  lbs (24001409 / 25000000) 4%nat.
  lbs (92170821 / 100000000) 3%nat.
  lbs (42477301 / 50000000) 2%nat.
  lbs (18043211 / 25000000) 1%nat.
  lbs (26044597 / 50000000) 0%nat.
  cbn [Nat.pow pow]. lra.
Qed.

Lemma exp_upper a b : 0 < b -> / b <= exp (- a) -> exp a <= b.
Proof.
  intros Hb H. rewrite exp_Ropp in H. assert (P := exp_pos a).
  apply (Rmult_le_reg_r (/ exp a)); [apply Rinv_0_lt_compat; auto|]. rewrite Rinv_r by lra.
  apply Rle_trans with (b * / b); [rewrite Rinv_r by lra; lra|]. apply Rmult_le_compat_l; lra.
Qed.

Lemma exp_neg_upper a b : 0 < b -> b <= exp a -> exp (- a) <= / b.
Proof. intros Hb H. rewrite exp_Ropp. apply Rinv_le_contravar; auto. Qed.

Lemma ln_le a b : 0 < a -> a <= b -> ln a <= ln b.
Proof. intros Ha [Hb|<-]; [left; apply ln_increasing; auto|lra]. Qed.

Lemma ln_below d : 0 <= d < 1 -> - (d / (1 - d)) <= ln (1 - d).
Proof.
  intros H. replace (ln (1 - d)) with (- ln (/ (1 - d))) by (rewrite ln_Rinv by lra; lra).
  apply Ropp_le_contravar. assert (P : 0 < / (1 - d)) by (apply Rinv_0_lt_compat; lra).
  pose proof (exp_ineq1_le (ln (/ (1 - d)))) as Q. rewrite exp_ln in Q by auto.
  replace (d / (1 - d)) with (/ (1 - d) - 1) by (field; lra). lra.
Qed.

Definition log_guess (x : R) : R := x / 31 + 159 / 100 - 20 * limexp 8 (- 2 * x - 14 / 10).

Lemma log_a_R n x : log_a RE n 8 x tt = log_loop RE n 8 x (log_guess x) tt.
Proof.
  unfold log_a. assert (E := exp_R 8 (- 2 * x - 14 / 10)). unfold gives in E.
  unfold cbind, cret. cbn [real_engine e_lin e_mul e_linp e_rsub e_mulp e_div e_pow e_rel e_relp lin_R num_R]. unfold cret.
  replace (x * -2 - num_R (lit 14 10)) with (- 2 * x - 14 / 10) by (rewrite Q2R_lit; lra).
  rewrite E. rewrite Q2R_lit. do 2 f_equal. unfold log_guess. lra.
Qed.

Lemma first_guess x : 1 <= x <= 50 -> 82 / 100 <= log_guess x <= 321 / 100 /\ 195 / 1000 <= x * exp (- log_guess x) <= 236 / 100.
Proof.
  intros Hx. unfold log_guess.
  destruct (exp_below 8 (- 2 * x - 14 / 10)) as [L0 L1]; [replace (2 ^ 8) with 256 by lra; lra|].
  set (l := limexp 8 (- 2 * x - 14 / 10)) in *. clearbody l.
  assert (M : forall a b, a <= b -> exp a <= exp b) by (intros a b [K|<-]; [left; apply exp_increasing; auto|lra]).
  assert (L2 : l <= 4 / 100).
  { assert (exp (- 2 * x - 14 / 10) <= exp (- (17 / 5))) by (apply M; lra).
    pose proof (exp_neg_upper (17 / 5) 25 ltac:(lra) e34). lra. }
  split; [lra|]. split.
  - apply Rle_trans with (exp (- (5029 / 3100))); [pose proof e16; lra|].
    destruct (Rle_dec x 31) as [H31|H31].
    + apply Rle_trans with (x * exp (- (x / 31 + 159 / 100))); [|apply Rmult_le_compat_l; [lra|]; apply M; lra].
      replace (- (5029 / 3100)) with ((x - 1) / 31 + - (x / 31 + 159 / 100)) by lra. rewrite exp_plus.
      apply Rmult_le_compat_r; [left; apply exp_pos|].
      pose proof (exp_ineq1_le (- ((x - 1) / 31))) as Q. rewrite exp_Ropp in Q. pose proof (exp_pos ((x - 1) / 31)) as P.
      apply (Rmult_le_compat_r (exp ((x - 1) / 31))) in Q; [|lra]. rewrite Rinv_l in Q by lra.
      assert (x * (1 + - ((x - 1) / 31)) >= 1) by nra. nra.
    + apply Rle_trans with (31 * exp (- (50 / 31 + 159 / 100))).
      * replace (- (5029 / 3100)) with (49 / 31 + - (50 / 31 + 159 / 100)) by lra. rewrite exp_plus.
        apply Rmult_le_compat_r; [left; apply exp_pos|].
        replace (49 / 31) with (1 + 18 / 31) by lra. rewrite exp_plus. pose proof exp_le_3 as E3. pose proof (exp_pos 1).
        assert (exp (18 / 31) <= exp 1) by (apply M; lra). pose proof (exp_pos (18 / 31)). nra.
      * apply Rmult_le_compat; try lra; [left; apply exp_pos|]. apply M. lra.
  - destruct (Rle_dec 3 x) as [H3|H3].
    + assert (L3 : l <= 63 / 100000).
      { assert (exp (- 2 * x - 14 / 10) <= exp (- (37 / 5))) by (apply M; lra).
        pose proof (exp_neg_upper (37 / 5) 1588 ltac:(lra) e74). lra. }
      apply Rle_trans with (31 * exp (- (12887 / 5000))).
      * replace (- (12887 / 5000)) with ((1 - x / 31) + - (x / 31 + 159 / 100 - 2 * (x / 31) + 2577 / 1000 + 4 / 10000 - 159 / 100 + 1)) by lra.
        apply Rle_trans with (x * exp (- (x / 31 + 159 / 100 - 20 * (63 / 100000)))).
        -- apply Rmult_le_compat_l; [lra|]. apply M. lra.
        -- replace (- (x / 31 + 159 / 100 - 20 * (63 / 100000))) with ((1 - x / 31) + - (12887 / 5000)) by lra.
           replace (1 - x / 31 + - (x / 31 + 159 / 100 - 2 * (x / 31) + 2577 / 1000 + 4 / 10000 - 159 / 100 + 1)) with (- (12887 / 5000)) by lra.
           rewrite exp_plus. pose proof (exp_pos (- (12887 / 5000))) as P. rewrite <- Rmult_assoc. apply Rmult_le_compat_r; [lra|].
           pose proof (exp_ineq1_le (- (1 - x / 31))) as Q. rewrite exp_Ropp in Q. pose proof (exp_pos (1 - x / 31)) as P2.
           apply (Rmult_le_compat_r (exp (1 - x / 31))) in Q; [|lra]. rewrite Rinv_l in Q by lra. lra.
      * pose proof (exp_neg_upper (12887 / 5000) (13141 / 1000) ltac:(lra) e26). lra.
    + apply Rle_trans with (3 * exp (- (82 / 100))).
      * apply Rmult_le_compat; try lra; [left; apply exp_pos|]. apply M. lra.
      * pose proof (exp_neg_upper (82 / 100) (182 / 100) ltac:(lra)) as Q. pose proof (exp_ineq1_le (82 / 100)). lra.
Qed.

(** two steps *)
Lemma log_close x : 1 <= x <= 50 -> exists y, gives (log_a RE 2 8 x) y /\ - (1 / 8) <= y - ln x <= 1 / 1000.
Proof.
  intros Hx. destruct (first_guess x Hx) as [G1 G2]. set (y0 := log_guess x) in *.
  assert (HL : 0 <= ln x <= 4).
  { split; [rewrite <- ln_1; apply ln_le; lra|]. rewrite <- (ln_exp 4). apply ln_le; [lra|]. pose proof e4. lra. }
  destruct (step_value x y0) as (P0 & S0 & B0 & L0); [lra|lra|]. set (p0 := x * limexp 8 (- y0)) in *.
  assert (D0 : 0 <= y0 * y0 / 256 <= 403 / 10000) by nra.
  assert (P0' : 187 / 1000 <= p0 <= 236 / 100) by nra.
  assert (K0 := ln_below (y0 * y0 / 256) ltac:(lra)).
  assert (K0' : y0 * y0 / 256 / (1 - y0 * y0 / 256) <= 421 / 10000).
  { set (d := y0 * y0 / 256) in *. apply (Rmult_le_reg_r (1 - d)); [lra|]. unfold Rdiv at 1. rewrite Rmult_assoc, Rinv_l by lra. lra. }
  assert (R0 : - (61 / 100) <= rem6 (1 - p0) <= 18 / 100).
  { split.
    - apply Rle_trans with (rem6 (- (136 / 100))); [|apply rem6_mono; lra]. destruct (rem6_lower (136 / 100)) as [Q _]; [lra|].
      eapply Rle_trans; [|exact Q]. lra.
    - apply Rle_trans with (rem6 (813 / 1000)); [apply rem6_mono; lra|]. destruct (rem6_upper (813 / 1000)) as [_ Q]; [lra|].
      eapply Rle_trans; [exact Q|]. lra. }
  set (y1 := y0 + ln p0 + rem6 (1 - p0)) in *.
  assert (Y1 : - (652 / 1000 + 1 / 10000) <= y1 - ln x <= 18 / 100) by (unfold y1; lra).
  destruct (step_value x y1) as (P1 & S1 & B1 & L1); [lra|lra|]. set (p1 := x * limexp 8 (- y1)) in *.
  assert (D1 : 0 <= y1 * y1 / 256 <= 684 / 10000) by nra.
  assert (K1 := ln_below (y1 * y1 / 256) ltac:(lra)).
  assert (K1' : y1 * y1 / 256 / (1 - y1 * y1 / 256) <= 735 / 10000).
  { set (d := y1 * y1 / 256) in *. apply (Rmult_le_reg_r (1 - d)); [lra|]. unfold Rdiv at 1. rewrite Rmult_assoc, Rinv_l by lra. lra. }
  assert (E1 : x * exp (- y1) = exp (ln x - y1)) by (unfold Rminus; rewrite exp_plus, exp_ln by lra; reflexivity).
  assert (M : forall a b, a <= b -> exp a <= exp b) by (intros a b [K|<-]; [left; apply exp_increasing; auto|lra]).
  assert (U1 : exp (ln x - y1) <= 1926 / 1000).
  { apply Rle_trans with (exp (163 / 250 + 1 / 10000)); [apply M; lra|]. rewrite exp_plus.
    assert (A : exp (163 / 250) <= 10000 / 5195) by (apply exp_upper; [lra|]; replace (/ (10000 / 5195)) with (5195 / 10000) by lra; pose proof em065; lra).
    assert (B : exp (1 / 10000) <= 10000 / 9999) by (apply exp_upper; [lra|]; pose proof (exp_ineq1_le (- (1 / 10000))); lra).
    pose proof (exp_pos (163 / 250)). pose proof (exp_pos (1 / 10000)). nra. }
  assert (U2 : 82 / 100 <= exp (ln x - y1)) by (pose proof (exp_ineq1_le (ln x - y1)); lra).
  rewrite E1 in B1.
  assert (P1' : 763 / 1000 <= p1 <= 1926 / 1000) by nra.
  assert (R1 : - (49 / 1000) <= rem6 (1 - p1) <= 1 / 1000).
  { split.
    - apply Rle_trans with (rem6 (- (926 / 1000))); [|apply rem6_mono; lra]. destruct (rem6_lower (926 / 1000)) as [Q _]; [lra|].
      eapply Rle_trans; [|exact Q]. lra.
    - apply Rle_trans with (rem6 (237 / 1000)); [apply rem6_mono; lra|]. destruct (rem6_upper (237 / 1000)) as [_ Q]; [lra|].
      eapply Rle_trans; [exact Q|]. lra. }
  exists (y1 + ln p1 + rem6 (1 - p1)). split.
  - unfold gives. rewrite log_a_R. cbn [log_loop]. fold y0.
    apply (gives_bind _ _ y1); [exact S0|]. apply (gives_bind _ _ (y1 + ln p1 + rem6 (1 - p1))); [exact S1|]. reflexivity.
  - lra.
Qed.
