(** C60 and C61: softmax, log and log_softmax in real-number semantics. *)
From Coq Require Import QArith Reals Qreals Lra Lia.
From Verif Require Import Util M_Encoder M_Share M_Fss M_Engine M_Approx M_Softmax S_Real S_Softmax L_Real L_Softmax L_Log L_Log2 L_Log3.
Local Open Scope R_scope.

(** C60: the "maximum" the code subtracts is the largest entry times the number of its occurrences. *)
Theorem C60_maximum : forall xs d m, (2 <= length xs)%nat -> In m xs -> largest xs m ->
  gives (line_max real_engine xs d) (INR (count_occ Req_EM_T xs m) * m).
Proof. intros xs d m Hn HI HL. eapply gives_eq; [apply line_max_R; auto|]. apply sum_largest_count; auto. Qed.
Print Assumptions C60_maximum.

Example C60_maximum_witness : In 3 [1; 3; 3] /\ largest [1; 3; 3] 3 /\ (2 <= length [1; 3; 3])%nat.
Proof. split; [cbn; auto|]. split; [intros y [<-|[<-|[<-|[]]]]; lra|cbn; lia]. Qed.

Lemma sum_unique xs m : In m xs -> largest xs m -> count_occ Req_EM_T xs m = 1%nat \/ m = 0 -> sum_largest xs = m.
Proof. intros HI HL HU. rewrite (sum_largest_count xs m) by auto. destruct HU as [-> | ->]; cbn [INR]; lra. Qed.

Lemma limexp_0 : limexp 8 0 = 1.
Proof. unfold limexp. replace (1 + 0 / 2 ^ 8) with 1 by lra. apply pow1. Qed.

Lemma denominator xs m N : (2 <= length xs <= N)%nat -> In m xs -> largest xs m -> (forall x, In x xs -> m - x <= 256) ->
  1 <= rsum (map (fun x => limexp 8 (x - m)) xs) <= INR N.
Proof.
  intros Hn HI HL HB.
  assert (B : forall x, In x xs -> 0 <= limexp 8 (x - m) <= 1).
  { intros x Hx. specialize (HL x Hx). specialize (HB x Hx). destruct (exp_below 8 (x - m)) as [A1 A2]; [replace (2 ^ 8) with 256 by lra; lra|].
    split; auto. rewrite <- limexp_0. apply limexp_mono. replace (2 ^ 8) with 256 by lra. lra. }
  split.
  - rewrite <- limexp_0 at 1. replace 0 with (m - m) by lra. apply (rsum_ge _ (limexp 8 (m - m))).
    + intros y Hy. apply in_map_iff in Hy. destruct Hy as (x & <- & Hx). apply B, Hx.
    + apply (in_map (fun x => limexp 8 (x - m))). exact HI.
  - apply Rle_trans with (rsum (map (fun _ => 1) xs)); [apply rsum_le; intros; apply B; auto|].
    rewrite rsum_const. assert (INR (length xs) <= INR N) by (apply le_INR; lia). lra.
Qed.

Lemma exp_shift xs m : rsum (map exp xs) = exp m * rsum (map (fun x => exp (x - m)) xs).
Proof.
  unfold rsum. induction xs as [|a l IH]; cbn [map fold_right]; [lra|]. rewrite IH, Rmult_plus_distr_l, <- exp_plus. do 2 f_equal. lra.
Qed.

Lemma INR_500 : INR 500 = 500.
Proof. rewrite INR_IZR_INZ. reflexivity. Qed.

(** C60: for 2 to 500 entries whose largest one occurs once (or is 0): the results are between 0 and
    1 and in the order of the entries when these are spread over at most 256; their sum is 1 up to
    10^-12. Missing: more entries, larger spreads and repeated largest entries, see below. *)
Theorem C60_distribution_partial : forall z xs m, (2 <= length xs <= 500)%nat ->
  In m xs -> largest xs m -> count_occ Req_EM_T xs m = 1%nat \/ m = 0 ->
  (forall x, In x xs -> m - x <= 256) ->
  exists ps, gives (softmax real_engine z xs) ps /\ length ps = length xs /\
    1 - / 10 ^ 12 <= rsum ps <= 1 /\
    (forall i, (i < length xs)%nat -> 0 <= nth i ps 0 <= 1) /\
    (forall i j, (i < length xs)%nat -> (j < length xs)%nat -> nth i xs 0 <= nth j xs 0 -> nth i ps 0 <= nth j ps 0).
Proof.
  intros z xs m Hn HI HL HU HB.
  destruct (softmax_R z xs) as (r & GR & GS); [lia|]. rewrite (sum_unique xs m HI HL HU) in *.
  pose proof (denominator xs m 500 Hn HI HL HB) as HD. rewrite INR_500 in HD. set (d := rsum (map (fun x => limexp 8 (x - m)) xs)) in *.
  destruct (recip_10 d) as (r' & GR' & E); [lra|]. unfold gives in GR, GR'. rewrite GR in GR'. injection GR' as <-.
  assert (P12 : 0 < / 10 ^ 12 < 1) by lra. set (eps := / 10 ^ 12) in *. clearbody eps.
  assert (HR : 0 <= r) by nra.
  exists (map (fun x => limexp 8 (x - m) * r) xs). split; [exact GS|]. split; [apply map_length|].
  assert (ES : rsum (map (fun x => limexp 8 (x - m) * r) xs) = d * r).
  { rewrite <- (map_map (fun x => limexp 8 (x - m)) (fun y => y * r)), rsum_scale. reflexivity. }
  assert (N : forall i, (i < length xs)%nat -> nth i (map (fun x => limexp 8 (x - m) * r) xs) 0 = limexp 8 (nth i xs 0 - m) * r).
  { intros i Hi. rewrite (nth_indep _ 0 ((fun x => limexp 8 (x - m) * r) 0)) by (rewrite map_length; auto). apply (map_nth (fun x => limexp 8 (x - m) * r)). }
  assert (Q : forall x, In x xs -> -256 <= x - m <= 0) by (intros x Hx; specialize (HL x Hx); specialize (HB x Hx); lra).
  assert (P : forall x, In x xs -> 0 <= limexp 8 (x - m) * r).
  { intros x Hx. apply Rmult_le_pos; auto. apply exp_below. replace (2 ^ 8) with 256 by lra. specialize (Q x Hx). lra. }
  split; [rewrite ES; lra|]. split.
  - intros i Hi. pose proof (nth_In xs 0 Hi) as HX. split; [rewrite N by auto; apply P; auto|].
    apply Rle_trans with (rsum (map (fun x => limexp 8 (x - m) * r) xs)); [|rewrite ES; lra].
    apply rsum_ge; [|apply nth_In; rewrite map_length; auto]. intros y Hy. apply in_map_iff in Hy. destruct Hy as (x & <- & Hx). auto.
  - intros i j Hi Hj H. rewrite !N by auto. apply Rmult_le_compat_r; auto. apply limexp_mono. replace (2 ^ 8) with 256 by lra.
    specialize (Q _ (nth_In xs 0 Hi)). lra.
Qed.
Print Assumptions C60_distribution_partial.

(** C60: and close to softmax when the spread is at most B < 16. *)
Theorem C60_softmax_partial : forall z xs m B, (2 <= length xs <= 500)%nat ->
  In m xs -> largest xs m -> count_occ Req_EM_T xs m = 1%nat \/ m = 0 ->
  0 <= B < 16 -> (forall x, In x xs -> m - x <= B) ->
  exists ps, gives (softmax real_engine z xs) ps /\ length ps = length xs /\
    forall i, (i < length xs)%nat ->
      (1 - B * B / 256) * (1 - / 10 ^ 12) * softmax_at xs (nth i xs 0) <= nth i ps 0 <= softmax_at xs (nth i xs 0) / (1 - B * B / 256).
Proof.
  intros z xs m B Hn HI HL HU HB0 HB.
  destruct (softmax_R z xs) as (r & GR & GS); [lia|]. rewrite (sum_unique xs m HI HL HU) in *.
  assert (HB' : forall x, In x xs -> m - x <= 256) by (intros x Hx; specialize (HB x Hx); lra).
  pose proof (denominator xs m 500 Hn HI HL HB') as HD. rewrite INR_500 in HD. set (d := rsum (map (fun x => limexp 8 (x - m)) xs)) in *.
  destruct (recip_10 d) as (r' & GR' & E); [lra|]. unfold gives in GR, GR'. rewrite GR in GR'. injection GR' as <-.
  assert (P12 : 0 < / 10 ^ 12 < 1) by lra. set (eps := / 10 ^ 12) in *. clearbody eps.
  exists (map (fun x => limexp 8 (x - m) * r) xs). split; [exact GS|]. split; [apply map_length|].
  set (de := B * B / 256). assert (Hde : 0 <= de < 1) by (unfold de; nra).
  assert (A : forall x, In x xs -> exp (x - m) * (1 - de) <= limexp 8 (x - m) <= exp (x - m)).
  { intros x Hx. specialize (HL x Hx). specialize (HB x Hx). assert (H8 : 2 ^ 8 = 256) by lra. split.
    - pose proof (exp_above 8 (x - m)) as K. rewrite H8 in K. eapply Rle_trans; [|apply K; apply Rabs_def1; lra].
      apply Rmult_le_compat_l; [left; apply exp_pos|]. unfold de. nra.
    - apply exp_below. rewrite H8. lra. }
  set (D := rsum (map (fun x => exp (x - m)) xs)).
  assert (HDd : D * (1 - de) <= d <= D).
  { unfold d, D. split; [|apply rsum_le; intros; apply A; auto]. rewrite <- rsum_scale, map_map. apply rsum_le. intros; apply A; auto. }
  assert (D0 : 0 < D) by lra.
  assert (N : forall i, (i < length xs)%nat -> nth i (map (fun x => limexp 8 (x - m) * r) xs) 0 = limexp 8 (nth i xs 0 - m) * r).
  { intros i Hi. rewrite (nth_indep _ 0 ((fun x => limexp 8 (x - m) * r) 0)) by (rewrite map_length; auto). apply (map_nth (fun x => limexp 8 (x - m) * r)). }
  intros i Hi. rewrite N by auto. pose proof (A _ (nth_In xs 0 Hi)) as [A1 A2]. set (x := nth i xs 0) in *.
  assert (ES : softmax_at xs x = exp (x - m) / D).
  { unfold softmax_at. rewrite (exp_shift xs m). fold D. replace x with (m + (x - m)) at 1 by lra. rewrite exp_plus. field.
    split; [lra|apply Rgt_not_eq, exp_pos]. }
  rewrite ES. pose proof (exp_pos (x - m)) as HX. set (e := exp (x - m)) in *. set (y := limexp 8 (x - m)) in *. clearbody e y x d D.
  assert (ER : r = (1 - (1 - d * r)) / d) by (field; lra). set (g := 1 - d * r) in *. rewrite ER. clear ER.
  assert (0 < / d) by (apply Rinv_0_lt_compat; lra). assert (0 < / D) by (apply Rinv_0_lt_compat; lra).
  assert (I1 : / D <= / d) by (apply Rinv_le_contravar; lra).
  assert (I2 : / d <= / D * / (1 - de)) by (rewrite <- Rinv_mult; apply Rinv_le_contravar; [apply Rmult_lt_0_compat; lra|lra]).
  clearbody g. unfold Rdiv. split.
  - replace ((1 - de) * (1 - eps) * (e * / D)) with ((e * (1 - de)) * ((1 - eps) * / D)) by ring.
    apply Rmult_le_compat; [apply Rmult_le_pos; lra|apply Rmult_le_pos; lra|exact A1|].
    apply Rmult_le_compat; lra.
  - rewrite Rmult_assoc. apply Rmult_le_compat; [|apply Rmult_le_pos; lra|exact A2|].
    + apply Rle_trans with (e * (1 - de)); [apply Rmult_le_pos; lra|exact A1].
    + apply Rle_trans with (1 * / d); [apply Rmult_le_compat_r; lra|]. rewrite Rmult_1_l. exact I2.
Qed.
Print Assumptions C60_softmax_partial.

Lemma witness_unique : In 3 [1; 3; 2] /\ largest [1; 3; 2] 3 /\ count_occ Req_EM_T [1; 3; 2] 3 = 1%nat /\
  (forall x, In x [1; 3; 2] -> 3 - x <= 2).
Proof.
  split; [cbn; auto|]. split; [intros y [<-|[<-|[<-|[]]]]; lra|]. split.
  - cbn [count_occ]. destruct (Req_EM_T 1 3); [lra|]. destruct (Req_EM_T 3 3); [|lra]. destruct (Req_EM_T 2 3); [lra|reflexivity].
  - intros y [<-|[<-|[<-|[]]]]; lra.
Qed.
Example C60_witness : exists ps, gives (softmax real_engine 0 [1; 3; 2]) ps /\ 1 - / 10 ^ 12 <= rsum ps <= 1 /\
  nth 0 ps 0 <= nth 2 ps 0 <= nth 1 ps 0.
Proof.
  destruct witness_unique as (H1 & H2 & H3 & H4).
  destruct (C60_distribution_partial 0 [1; 3; 2] 3) as (ps & G & _ & S & _ & O); auto; [cbn; lia| |].
  - intros x Hx. specialize (H4 x Hx). lra.
  - exists ps. split; [exact G|]. split; [exact S|]. split; apply O; cbn; lia || lra.
Qed.

(** C60 for one entry: exactly 1 (the zero sharing plus 1) *)
Theorem C60_single : forall x, gives (softmax real_engine 0 [x]) [1] /\ softmax_at [x] x = 1.
Proof.
  intros x. split; [unfold softmax; run; do 3 f_equal; lra|]. unfold softmax_at. cbn. field.
  pose proof (exp_pos x). lra.
Qed.
Print Assumptions C60_single.

(** C60 refuted for widely spread entries: (0, -600) gives a negative probability to the larger one. *)
Theorem C60_spread_refuted : exists z xs ps, length xs = 2%nat /\ largest xs (nth 0 xs 0) /\
  count_occ Req_EM_T xs (nth 0 xs 0) = 1%nat /\ gives (softmax real_engine z xs) ps /\ nth 0 ps 0 < 0.
Proof.
  exists 0, [0; -600]. destruct (softmax_R 0 [0; -600]) as (r & GR & GS); [cbn; lia|].
  assert (HL : largest [0; -600] 0) by (intros y [<-|[<-|[]]]; lra).
  assert (C : count_occ Req_EM_T [0; -600] 0 = 1%nat).
  { cbn [count_occ]. destruct (Req_EM_T 0 0); [|lra]. destruct (Req_EM_T (-600) 0); [lra|reflexivity]. }
  rewrite (sum_unique _ 0) in GR, GS by (cbn; auto).
  assert (D : 600 <= rsum (map (fun x => limexp 8 (x - 0)) [0; -600])).
  { cbn [map rsum fold_right]. replace (0 - 0) with 0 by lra. rewrite limexp_0.
    assert (600 <= limexp 8 (-600 - 0)); [|lra]. unfold limexp. replace (1 + (-600 - 0) / 2 ^ 8) with (- (344 / 256)) by (cbn [pow]; lra).
    lbs (18 / 10) 7%nat. lbs (3) 6%nat. lbs (9) 5%nat. lbs (30) 4%nat. apply Rle_trans with (30 ^ 2); [lra|]. apply Rle_pow; [lra|cbn; lia]. }
  apply recip_large in GR; [|exact D].
  eexists. split; [reflexivity|]. split; [exact HL|]. split; [exact C|]. split; [exact GS|].
  cbn [map nth]. replace (0 - 0) with 0 by lra. rewrite limexp_0. lra.
Qed.
Print Assumptions C60_spread_refuted.

(** C60 refuted for a repeated largest entry: softmax of (-10, -10) is (1/2, 1/2), the results are negative. *)
Theorem C60_tie_refuted : exists z xs ps, length xs = 2%nat /\ softmax_at xs (nth 0 xs 0) = 1 / 2 /\
  gives (softmax real_engine z xs) ps /\ nth 0 ps 0 < 0.
Proof.
  exists 0, [-10; -10]. destruct (softmax_R 0 [-10; -10]) as (r & GR & GS); [cbn; lia|].
  assert (HL : largest [-10; -10] (-10)) by (intros y [<-|[<-|[]]]; lra).
  rewrite (sum_largest_count _ (-10)) in GR, GS by (cbn; auto).
  replace (count_occ Req_EM_T [-10; -10] (-10)) with 2%nat in * by (cbn [count_occ]; destruct (Req_EM_T (-10) (-10)); [reflexivity|lra]).
  assert (V : 300 <= limexp 8 (-10 - INR 2 * -10)).
  { cbn [INR]. unfold limexp. replace (1 + (-10 - (1 + 1) * -10) / 2 ^ 8) with (266 / 256) by (cbn [pow]; lra).
    lbs (1079 / 1000) 7%nat. lbs (116 / 100) 6%nat. lbs (134 / 100) 5%nat. lbs (179 / 100) 4%nat. lbs 3 3%nat. lbs 9 2%nat. apply Rle_trans with (9 ^ 4); [lra|apply Rle_pow; [lra|cbn; lia]]. }
  assert (D : 600 <= rsum (map (fun x => limexp 8 (x - INR 2 * -10)) [-10; -10])) by (cbn [map rsum fold_right]; lra).
  apply recip_large in GR; [|exact D].
  eexists. split; [reflexivity|]. split; [|split; [exact GS|]].
  - unfold softmax_at. cbn [map rsum fold_right nth]. field. pose proof (exp_pos (-10)). lra.
  - cbn [map nth]. nra.
Qed.
Print Assumptions C60_tie_refuted.

(** C60 refuted for many entries: 600 equal ones, each of probability 1/600, all get a negative one. *)
Theorem C60_entries_refuted : exists z xs ps, length xs = 600%nat /\ softmax_at xs (nth 0 xs 0) = / 600 /\
  gives (softmax real_engine z xs) ps /\ nth 0 ps 0 < 0.
Proof.
  set (n := 598%nat). exists 0, (repeat 0 (S (S n))).
  destruct (softmax_R 0 (repeat 0 (S (S n)))) as (r & GR & GS); [rewrite repeat_length; lia|].
  assert (HI : In 0 (repeat 0 (S (S n)))) by (left; reflexivity).
  assert (HL : largest (repeat 0 (S (S n))) 0) by (intros y Hy; apply repeat_spec in Hy; lra).
  rewrite (sum_unique _ 0) in GR, GS by auto.
  assert (MR : forall (f : R -> R) k, map f (repeat 0 k) = repeat (f 0) k) by (intros f k; induction k; cbn; congruence).
  assert (SR : forall c k, rsum (repeat c k) = INR k * c).
  { intros c k. induction k as [|k IH]; [cbn; lra|]. rewrite S_INR. cbn [repeat rsum fold_right]. fold (rsum (repeat c k)). rewrite IH. lra. }
  assert (NK : INR (S (S n)) = 600) by (rewrite INR_IZR_INZ; reflexivity).
  rewrite MR, SR, NK in GR. rewrite MR in GS. replace (0 - 0) with 0 in * by lra. rewrite limexp_0 in *.
  apply recip_large in GR; [|lra].
  eexists. split; [apply repeat_length|]. split; [|split; [exact GS|]].
  - unfold softmax_at. rewrite MR, SR, NK. cbn [repeat nth]. rewrite exp_0. lra.
  - cbn [repeat nth]. lra.
Qed.
Print Assumptions C60_entries_refuted.

(** C61: one step of log: from y to y + ln p + E with p = x (1 - y/256)^256; y + ln p is ln x up to
    the bias of the approximate exponential, and E is of order 7 in 1 - p. *)
Theorem C61_log_step : forall x y, 0 < x -> -16 < y < 16 ->
  let p := x * (1 - y / 256) ^ 256 in
  exists E, gives (log_step real_engine 8 x y) (y + ln p + E) /\ 0 < p /\
    ln x + ln (1 - y * y / 256) <= y + ln p <= ln x /\
    (p <= 1 -> 0 <= E <= (1 - p) ^ 7 / (7 * p)) /\ (1 <= p -> - ((p - 1) ^ 7 / 7) <= E <= 0).
Proof.
  intros x y Hx Hy p. assert (EP : p = x * limexp 8 (- y)).
  { unfold p, limexp. do 2 f_equal. cbn [pow]. lra. }
  destruct (step_value x y Hx Hy) as (P & G & _ & L). rewrite <- EP in *. exists (rem6 (1 - p)).
  split; [exact G|]. split; [exact P|]. split; [exact L|]. split; intros H.
  - destruct (rem6_upper (1 - p)) as [A B]; [lra|]. split; [exact A|]. replace (1 - (1 - p)) with p in B by lra. exact B.
  - destruct (rem6_lower (p - 1)) as [A B]; [lra|]. replace (- (p - 1)) with (1 - p) in A, B by lra. split; [|exact B].
    assert (0 <= (p - 1) ^ 8 / (8 * (1 + (p - 1)))); [|lra].
    apply Rmult_le_pos; [apply pow_le; lra|left; apply Rinv_0_lt_compat; lra].
Qed.
Print Assumptions C61_log_step.

Example C61_log_step_witness : 0 < 3 /\ -16 < 1 < 16 /\ exists v, gives (log_step real_engine 8 3 1) v.
Proof. split; [lra|]. split; [lra|]. eexists. apply log_step_R. Qed.

(** C61: log with its default numbers of rounds on 1/100 .. 150: at most 1/8 below ln x and at most 1/1000 above. *)
Theorem C61_log : forall x, 1 / 100 <= x <= 150 -> exists y, gives (log_a real_engine 2 8 x) y /\ ln x - 1 / 8 <= y <= ln x + 1 / 1000.
Proof. intros x Hx. destruct (log_close_wide x Hx) as (y & G & H). exists y. split; [exact G|]. lra. Qed.
Print Assumptions C61_log.
Example C61_log_witness : 1 / 100 <= 1 / 20 <= 150 /\ ~ 1 / 100 <= 1 / 1000 <= 150.
Proof. lra. Qed.

(** C61: the reciprocal with the method "log" has a relative error of at most 3/20 for
    1/100 <= |x| <= 150. *)
Theorem C61_reciprocal_log : forall n x, 1 / 100 <= Rabs x <= 150 ->
  exists v, gives (reciprocal real_engine RLog n x) v /\ Rabs (v - 1 / x) <= 3 / 20 * Rabs (1 / x).
Proof.
  intros n x Hx. destruct (log_close_wide (Rabs x) Hx) as (y & G & H).
  exists (limexp 8 (y * -1) * sgn_R x). split.
  - cbn [reciprocal]. eapply gives_bind; [apply modulus_R|]. eapply gives_bind; [exact G|].
    eapply gives_bind; [run; reflexivity|]. eapply gives_bind; [apply exp_R|].
    eapply gives_bind; [apply sign_R|]. run. reflexivity.
  - set (a := Rabs x) in *.
    destruct (ln_wide a Hx) as [L1 L2].
    assert (EX : exp (y * -1) = exp (ln a - y) * / a).
    { replace (y * -1) with ((ln a - y) + - ln a) by lra. rewrite exp_plus, exp_Ropp, exp_ln by lra. reflexivity. }
    set (d := ln a - y) in *.
    assert (D1 : 999 / 1000 <= exp d) by (pose proof (exp_ineq1_le d); unfold d in *; lra).
    assert (D2 : exp d <= 8 / 7).
    { pose proof (exp_ineq1_le (- d)) as K. rewrite exp_Ropp in K. pose proof (exp_pos d) as P.
      apply Rmult_le_reg_r with (/ exp d); [apply Rinv_0_lt_compat; lra|]. rewrite Rinv_r by lra.
      unfold d in *. lra. }
    destruct (exp_below 8 (y * -1)) as [B0 B1]; [unfold d in *; cbn [pow]; lra|].
    assert (B2 : exp (y * -1) * (1 - y * -1 * (y * -1) / 2 ^ 8) <= limexp 8 (y * -1)).
    { apply exp_above. apply Rabs_def1; unfold d in *; cbn [pow]; lra. }
    assert (Y2 : y * -1 * (y * -1) / 2 ^ 8 <= 1 / 10).
    { assert (y * -1 * (y * -1) <= 256 / 10) by nra. replace (2 ^ 8) with 256 by (cbn [pow]; lra). lra. }
    set (e := limexp 8 (y * -1)) in *. set (q := y * -1 * (y * -1) / 2 ^ 8) in *.
    rewrite EX in B1, B2. assert (IA : 0 < / a) by (apply Rinv_0_lt_compat; lra).
    assert (V : 85 / 100 * / a <= e <= 115 / 100 * / a).
    { split.
      - eapply Rle_trans; [|exact B2].
        replace (exp d * / a * (1 - q)) with (exp d * (1 - q) * / a) by ring.
        apply Rmult_le_compat_r; [lra|]. apply Rle_trans with (999 / 1000 * (9 / 10)); [lra|].
        apply Rmult_le_compat; lra.
      - eapply Rle_trans; [exact B1|]. apply Rmult_le_compat_r; lra. }
    assert (SX : 1 / x = / a * sgn_R x).
    { unfold a, sgn_R. destruct (Rlt_dec 0 x) as [P|P].
      - rewrite Rabs_right by lra. field. lra.
      - destruct (Req_dec x 0) as [->|N]; [exfalso; unfold a in Hx; rewrite Rabs_R0 in Hx; lra|].
        destruct (Rlt_dec x 0) as [Q|Q]; [|lra]. rewrite Rabs_left by lra. field. lra. }
    rewrite SX. replace (e * sgn_R x - / a * sgn_R x) with ((e - / a) * sgn_R x) by ring.
    rewrite !Rabs_mult, (Rabs_right (/ a)) by lra. rewrite <- Rmult_assoc.
    apply Rmult_le_compat_r; [apply Rabs_pos|]. apply Rabs_le. lra.
Qed.
Print Assumptions C61_reciprocal_log.
Example C61_reciprocal_log_witness : 1 / 100 <= Rabs (-100) <= 150 /\ 1 / 100 <= Rabs (1 / 2) <= 150.
Proof. rewrite Rabs_left, Rabs_right by lra. lra. Qed.

(** C61: log_softmax, for entries as in [C60_softmax_partial] (same restrictions). *)
Theorem C61_log_softmax_partial : forall z xs m B, (2 <= length xs <= 150)%nat ->
  In m xs -> largest xs m -> count_occ Req_EM_T xs m = 1%nat \/ m = 0 ->
  0 <= B < 16 -> (forall x, In x xs -> m - x <= B) ->
  exists ls, gives (log_softmax real_engine z xs) ls /\ length ls = length xs /\
    (forall i, (i < length xs)%nat ->
      - (1 / 1000) <= nth i ls 0 - ln (softmax_at xs (nth i xs 0)) <= 1 / 8 - ln (1 - B * B / 256)) /\
    (forall i j, (i < length xs)%nat -> (j < length xs)%nat -> nth i ls 0 - nth j ls 0 = nth i xs 0 - nth j xs 0).
Proof.
  intros z xs m B Hn HI HL HU HB0 HB.
  assert (HB' : forall x, In x xs -> m - x <= 256) by (intros x Hx; specialize (HB x Hx); lra).
  pose proof (denominator xs m 150 Hn HI HL HB') as HD. replace (INR 150) with 150 in HD by (cbn; lra).
  destruct (log_close_all _ HD) as (g & G & LG).
  assert (GS : gives (log_softmax real_engine z xs) (map (fun x => x - m - g) xs)).
  { pose proof (log_softmax_R z xs g) as K. rewrite (sum_unique xs m HI HL HU) in K. apply K; auto. lia. }
  set (d := rsum (map (fun x => limexp 8 (x - m)) xs)) in *.
  exists (map (fun x => x - m - g) xs). split; [exact GS|]. split; [apply map_length|].
  assert (N : forall i, (i < length xs)%nat -> nth i (map (fun x => x - m - g) xs) 0 = nth i xs 0 - m - g).
  { intros i Hi. rewrite (nth_indep _ 0 ((fun x => x - m - g) 0)) by (rewrite map_length; auto). apply (map_nth (fun x => x - m - g)). }
  split; [|intros i j Hi Hj; rewrite !N by auto; lra].
  set (de := B * B / 256). assert (Hde : 0 <= de < 1) by (unfold de; nra).
  assert (A : forall x, In x xs -> exp (x - m) * (1 - de) <= limexp 8 (x - m) <= exp (x - m)).
  { intros x Hx. specialize (HL x Hx). specialize (HB x Hx). assert (H8 : 2 ^ 8 = 256) by lra. split.
    - pose proof (exp_above 8 (x - m)) as K. rewrite H8 in K. eapply Rle_trans; [|apply K; apply Rabs_def1; lra].
      apply Rmult_le_compat_l; [left; apply exp_pos|]. unfold de. nra.
    - apply exp_below. rewrite H8. lra. }
  set (D := rsum (map (fun x => exp (x - m)) xs)).
  assert (HDd : D * (1 - de) <= d <= D).
  { unfold d, D. split; [|apply rsum_le; intros; apply A; auto]. rewrite <- rsum_scale, map_map. apply rsum_le. intros; apply A; auto. }
  assert (D0 : 0 < D) by lra.
  intros i Hi. rewrite N by auto. set (x := nth i xs 0).
  assert (ES : ln (softmax_at xs x) = x - m - ln D).
  { unfold softmax_at. rewrite (exp_shift xs m). fold D. pose proof (exp_pos m). unfold Rdiv.
    rewrite ln_mult, ln_Rinv, ln_mult, !ln_exp; auto; [lra|apply Rmult_lt_0_compat; auto|apply exp_pos|apply Rinv_0_lt_compat, Rmult_lt_0_compat; auto]. }
  rewrite ES.
  assert (L1 : ln d <= ln D) by (apply ln_le; lra).
  assert (L2 : ln D + ln (1 - de) <= ln d) by (rewrite <- ln_mult by lra; apply ln_le; [apply Rmult_lt_0_compat; lra|lra]).
  lra.
Qed.
Print Assumptions C61_log_softmax_partial.

Example C61_witness : exists ls, gives (log_softmax real_engine 0 [1; 3; 2]) ls /\ nth 1 ls 0 - nth 0 ls 0 = 2.
Proof.
  destruct witness_unique as (H1 & H2 & H3 & H4).
  destruct (C61_log_softmax_partial 0 [1; 3; 2] 3 2) as (ls & G & _ & _ & O); auto; [cbn; lia|lra|].
  exists ls. split; [exact G|]. rewrite O by (cbn; lia). cbn. lra.
Qed.

(** C61 refuted for a repeated largest entry: log_softmax of (256, 256) is (-ln 2, -ln 2), the
    results are below -200. *)
Theorem C61_tie_refuted : exists z xs ls, length xs = 2%nat /\ ln (softmax_at xs (nth 0 xs 0)) = - ln 2 /\
  gives (log_softmax real_engine z xs) ls /\ nth 0 ls 0 < - 200.
Proof.
  assert (HL : largest [256; 256] 256) by (intros y [<-|[<-|[]]]; lra).
  assert (S2 : sum_largest [256; 256] = 512).
  { rewrite (sum_largest_count _ 256) by (cbn; auto).
    replace (count_occ Req_EM_T [256; 256] 256) with 2%nat by (cbn [count_occ]; destruct (Req_EM_T 256 256); [reflexivity|lra]). cbn [INR]. lra. }
  assert (D0 : rsum (map (fun x => limexp 8 (x - sum_largest [256; 256])) [256; 256]) = 0).
  { rewrite S2. cbn [map rsum fold_right]. unfold limexp. replace (1 + (256 - 512) / 2 ^ 8) with 0 by (cbn [pow]; lra).
    rewrite pow_ne_zero by (cbn; lia). lra. }
  set (y0 := log_guess 0).
  assert (B0 : - (1841 / 100) <= y0).
  { unfold y0, log_guess. destruct (exp_below 8 (- 2 * 0 - 14 / 10)) as [L0 L1]; [cbn [pow]; lra|].
    assert (exp (- 2 * 0 - 14 / 10) < exp 0) by (apply exp_increasing; lra). rewrite exp_0 in *. lra. }
  set (y1 := y0 - poly6 (1 - 0 * limexp 8 (- y0))). set (y2 := y1 - poly6 (1 - 0 * limexp 8 (- y1))).
  assert (G : gives (log_a real_engine 2 8 0) y2).
  { unfold gives. rewrite log_a_R. cbn [log_loop]. fold y0.
    apply (gives_bind _ _ y1); [apply log_step_R|]. apply (gives_bind _ _ y2); [apply log_step_R|]. reflexivity. }
  assert (B2 : - (2331 / 100) <= y2).
  { unfold y2, y1. rewrite !Rmult_0_l, !Rminus_0_r. unfold poly6. lra. }
  pose proof (log_softmax_R 0 [256; 256] y2 ltac:(cbn; lia)) as K. rewrite D0 in K. specialize (K G).
  exists 0, [256; 256]. eexists. split; [reflexivity|]. split; [|split; [exact K|]].
  - unfold softmax_at. cbn [map rsum fold_right nth]. pose proof (exp_pos 256).
    replace (exp 256 / (exp 256 + (exp 256 + 0))) with (/ 2) by (field; lra). rewrite ln_Rinv by lra. reflexivity.
  - rewrite S2. cbn [map nth]. lra.
Qed.
Print Assumptions C61_tie_refuted.

(** C61 refuted for wide spreads: of the entries 0 and -512 the first has probability 1 up to
    exp(-512); its logarithm is given as a number below -1/3. *)
Theorem C61_spread_refuted : exists z xs ls, length xs = 2%nat /\ - (1 / 100) <= ln (softmax_at xs (nth 0 xs 0)) /\
  gives (log_softmax real_engine z xs) ls /\ nth 0 ls 0 < - (1 / 3).
Proof.
  assert (HL : largest [0; -512] 0) by (intros y [<-|[<-|[]]]; lra).
  assert (S0 : sum_largest [0; -512] = 0) by (rewrite (sum_unique _ 0); cbn; auto).
  assert (D2 : rsum (map (fun x => limexp 8 (x - sum_largest [0; -512])) [0; -512]) = 2).
  { rewrite S0. cbn [map rsum fold_right]. replace (0 - 0) with 0 by lra. rewrite limexp_0. unfold limexp.
    replace (1 + (-512 - 0) / 2 ^ 8) with (- 1) by (cbn [pow]; lra).
    change (2 ^ 8)%nat with (2 * 128)%nat. rewrite pow_1_even. lra. }
  destruct (log_close 2 ltac:(lra)) as (y & G & B).
  pose proof (log_softmax_R 0 [0; -512] y ltac:(cbn; lia)) as K. rewrite D2 in K. specialize (K G).
  exists 0, [0; -512]. eexists. split; [reflexivity|]. split; [|split; [exact K|]].
  - unfold softmax_at. cbn [map rsum fold_right nth]. rewrite exp_0.
    assert (E : 0 < exp (-512) <= 1 / 513).
    { split; [apply exp_pos|]. replace (-512) with (- (512)) by lra. rewrite exp_Ropp. pose proof (exp_ineq1_le 512).
      apply (Rmult_le_reg_r (exp 512)); [apply exp_pos|]. rewrite Rinv_l by (pose proof (exp_pos 512); lra). lra. }
    replace (1 / (1 + (exp (-512) + 0))) with (/ (1 + exp (-512))) by (field; lra). rewrite ln_Rinv by lra.
    assert (ln (1 + exp (-512)) <= exp (-512)).
    { rewrite <- (ln_exp (exp (-512))) at 2. apply ln_le; [lra|]. apply exp_ineq1_le. }
    lra.
  - rewrite S0. cbn [map nth]. pose proof ln_lt_2. lra.
Qed.
Print Assumptions C61_spread_refuted.

(** log of every number from 300 on is at most -1000 (the first guess is already below that) *)
Theorem C61_log_far : forall x, 300 <= x -> exists y, gives (log_a real_engine 2 8 x) y /\ y <= -1000.
Proof. exact log_far. Qed.
Print Assumptions C61_log_far.

Example C61_log_far_witness : 300 <= 1000 /\ 0 < ln 1000.
Proof. split; [lra|]. rewrite <- ln_1. apply ln_increasing; lra. Qed.

(** C61 refuted for many entries: 300 zeros have the probabilities 1/300; the logarithms are given as
    numbers of at least 1000. *)
Theorem C61_many_refuted : exists z xs ls, length xs = 300%nat /\ ln (softmax_at xs (nth 0 xs 0)) = - ln 300 /\
  gives (log_softmax real_engine z xs) ls /\ 1000 <= nth 0 ls 0.
Proof.
  set (xs := repeat 0 300).
  assert (HI : In 0 xs) by (left; reflexivity).
  assert (AZ : forall x, In x xs -> x = 0) by (intros x Hx; exact (repeat_spec _ _ _ Hx)).
  assert (HL : largest xs 0) by (intros y Hy; rewrite (AZ y Hy); lra).
  assert (S0 : sum_largest xs = 0) by (rewrite (sum_unique xs 0); auto).
  assert (RS : forall k f, rsum (map f (repeat 0 k)) = INR k * f 0).
  { intros k f. induction k as [|k IH]; [cbn; lra|]. rewrite S_INR. cbn [repeat map rsum fold_right]. change (fold_right Rplus 0 (map f (repeat 0 k))) with (rsum (map f (repeat 0 k))). rewrite IH. lra. }
  assert (I300 : INR 300 = 300) by (rewrite INR_IZR_INZ; reflexivity).
  assert (D : rsum (map (fun x => limexp 8 (x - sum_largest xs)) xs) = 300).
  { rewrite S0. unfold xs. rewrite RS, I300. replace (0 - 0) with 0 by lra. rewrite limexp_0. lra. }
  destruct (log_far 300 ltac:(lra)) as (y & G & B).
  pose proof (log_softmax_R 0 xs y ltac:(unfold xs; rewrite repeat_length; lia)) as K. rewrite D in K. specialize (K G).
  exists 0, xs. eexists. split; [apply repeat_length|]. split; [|split; [exact K|]].
  - assert (N : nth 0 xs 0 = 0) by (apply AZ, nth_In; unfold xs; rewrite repeat_length; lia).
    unfold softmax_at. rewrite N. unfold xs. rewrite (RS 300%nat exp), I300, exp_0.
    replace (1 / (300 * 1)) with (/ 300) by lra. apply ln_Rinv. lra.
  - rewrite S0. unfold xs. cbn [repeat map nth]. lra.
Qed.
Print Assumptions C61_many_refuted.

(** C61: one entry: exactly 0 *)
Theorem C61_single : forall x, gives (log_softmax real_engine 0 [x]) [0] /\ ln (softmax_at [x] x) = 0.
Proof. intros x. split; [reflexivity|]. destruct (C60_single x) as [_ ->]. apply ln_1. Qed.
Print Assumptions C61_single.

(** C60: the reciprocal softmax uses has a relative error of at most 10^-12 on 1/50 .. 500. *)
Theorem C60_reciprocal : forall a, 1 / 50 <= a <= 500 -> exists y, gives (reciprocal real_engine RNewton 10 a) y /\ 1 - / 10 ^ 12 <= a * y <= 1.
Proof. intros a Ha. destruct (recip_10 a Ha) as (y & G & H). exists y. split; [exact G|]. lra. Qed.
Print Assumptions C60_reciprocal.
