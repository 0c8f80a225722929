(** The logarithm over the real numbers, for arguments from 1/100 to 1. *)
From Coq Require Import QArith Reals Qreals Lra Lia.
From Verif Require Import Util M_Encoder M_Share M_Fss M_Engine M_Approx M_Softmax S_Real S_Softmax L_Real L_Softmax L_Log L_Log2.
Local Open Scope R_scope.

(** two steps from a first guess that is not too far off *)
Lemma two_steps x : 0 < x -> - 461 / 100 <= ln x <= 502 / 100 -> - (643 / 100) <= log_guess x <= 643 / 100 ->
  234 / 1000 <= x * exp (- log_guess x) <= 2051 / 1000 ->
  exists y, gives (log_a RE 2 8 x) y /\ - (1 / 8) <= y - ln x <= 1 / 1000.
Proof.
  intros Hx HL G1 G2. set (y0 := log_guess x) in *.
  destruct (step_value x y0) as (P0 & S0 & B0 & L0); [lra|lra|]. set (p0 := x * limexp 8 (- y0)) in *.
  assert (D0 : 0 <= y0 * y0 / 256 <= 1616 / 10000) by nra.
  assert (P0' : 196 / 1000 <= p0 <= 2051 / 1000) by nra.
  assert (K0 := ln_below (y0 * y0 / 256) ltac:(lra)).
  assert (K0' : y0 * y0 / 256 / (1 - y0 * y0 / 256) <= 193 / 1000).
  { set (d := y0 * y0 / 256) in *. apply (Rmult_le_reg_r (1 - d)); [lra|]. unfold Rdiv at 1. rewrite Rmult_assoc, Rinv_l by lra. lra. }
  assert (R0 : - (12 / 100) <= rem6 (1 - p0) <= 16 / 100).
  { split.
    - apply Rle_trans with (rem6 (- (1051 / 1000))); [|apply rem6_mono; lra]. destruct (rem6_lower (1051 / 1000)) as [Q _]; [lra|].
      eapply Rle_trans; [|exact Q]. lra.
    - apply Rle_trans with (rem6 (804 / 1000)); [apply rem6_mono; lra|]. destruct (rem6_upper (804 / 1000)) as [_ Q]; [lra|].
      eapply Rle_trans; [exact Q|]. lra. }
  set (y1 := y0 + ln p0 + rem6 (1 - p0)) in *.
  assert (Y1 : - (32 / 100) <= y1 - ln x <= 16 / 100) by (unfold y1; lra).
  destruct (step_value x y1) as (P1 & S1 & B1 & L1); [lra|lra|]. set (p1 := x * limexp 8 (- y1)) in *.
  assert (D1 : 0 <= y1 * y1 / 256 <= 1049 / 10000) by nra.
  assert (K1 := ln_below (y1 * y1 / 256) ltac:(lra)).
  assert (K1' : y1 * y1 / 256 / (1 - y1 * y1 / 256) <= 1173 / 10000).
  { set (d := y1 * y1 / 256) in *. apply (Rmult_le_reg_r (1 - d)); [lra|]. unfold Rdiv at 1. rewrite Rmult_assoc, Rinv_l by lra. lra. }
  assert (E1 : x * exp (- y1) = exp (ln x - y1)) by (unfold Rminus; rewrite exp_plus, exp_ln by lra; reflexivity).
  assert (M : forall a b, a <= b -> exp a <= exp b) by (intros a b [K|<-]; [left; apply exp_increasing; auto|lra]).
  assert (U1 : exp (ln x - y1) <= 139 / 100).
  { apply Rle_trans with (exp (32 / 100)); [apply M; lra|]. apply exp_upper; [lra|]. pose proof em_032.
    replace (32 / 100) with (8 / 25) by lra. lra. }
  assert (U2 : 84 / 100 <= exp (ln x - y1)) by (pose proof (exp_ineq1_le (ln x - y1)); lra).
  rewrite E1 in B1.
  assert (P1' : 75 / 100 <= p1 <= 139 / 100) by nra.
  assert (R1 : - (1 / 1000) <= rem6 (1 - p1) <= 1 / 1000).
  { split.
    - apply Rle_trans with (rem6 (- (39 / 100))); [|apply rem6_mono; lra]. destruct (rem6_lower (39 / 100)) as [Q _]; [lra|].
      eapply Rle_trans; [|exact Q]. lra.
    - apply Rle_trans with (rem6 (25 / 100)); [apply rem6_mono; lra|]. destruct (rem6_upper (25 / 100)) as [_ Q]; [lra|].
      eapply Rle_trans; [exact Q|]. lra. }
  exists (y1 + ln p1 + rem6 (1 - p1)). split.
  - unfold gives. rewrite log_a_R. cbn [log_loop]. fold y0.
    apply (gives_bind _ _ y1); [exact S0|]. apply (gives_bind _ _ (y1 + ln p1 + rem6 (1 - p1))); [exact S1|]. reflexivity.
  - lra.
Qed.

Lemma limexp_mono8 s t : - 256 <= s -> s <= t -> limexp 8 s <= limexp 8 t.
Proof. intros H1 H2. unfold limexp. apply pow_incr. cbn [pow]. lra. Qed.

(** on a cell: [la] bounds the exponential of the guess at the left end from above, [lb] at the
    right end from below *)
Lemma cell_log a b la lb ya yb ea eb x : 0 < a -> a <= x <= b -> b <= 1 ->
  limexp 8 (- 2 * a - 14 / 10) <= la -> lb <= limexp 8 (- 2 * b - 14 / 10) ->
  ya <= a / 31 + 159 / 100 - 20 * la -> b / 31 + 159 / 100 - 20 * lb <= yb ->
  exp (- ya) <= ea -> eb <= exp (- yb) -> 0 <= eb -> - (643 / 100) <= ya -> yb <= 643 / 100 ->
  234 / 1000 <= a * eb -> b * ea <= 2051 / 1000 ->
  - (643 / 100) <= log_guess x <= 643 / 100 /\ 234 / 1000 <= x * exp (- log_guess x) <= 2051 / 1000.
Proof.
  intros Ha Hx Hb1 Hla Hlb Hya Hyb Hea Heb E0 B1 B2 HL HU.
  pose proof (limexp_mono8 (- 2 * x - 14 / 10) (- 2 * a - 14 / 10) ltac:(lra) ltac:(lra)) as M1.
  pose proof (limexp_mono8 (- 2 * b - 14 / 10) (- 2 * x - 14 / 10) ltac:(lra) ltac:(lra)) as M2.
  assert (Y : ya <= log_guess x <= yb) by (unfold log_guess; lra).
  set (y := log_guess x) in *. clearbody y.
  assert (M : forall a b, a <= b -> exp a <= exp b) by (intros u v [K|<-]; [left; apply exp_increasing; auto|lra]).
  pose proof (M (- y) (- ya) ltac:(lra)) as U. pose proof (M (- yb) (- y) ltac:(lra)) as D.
  split; [lra|]. split.
  - eapply Rle_trans; [exact HL|]. apply Rmult_le_compat; lra.
  - eapply Rle_trans; [|exact HU]. apply Rmult_le_compat; try lra; try (left; apply exp_pos).
Qed.

Lemma g_lo0 : 240760389 / 1000000000 <= limexp 8 (- (71 / 50)).
Proof.
  unfold limexp. replace (1 + - (71 / 50) / 2 ^ 8) with (12729 / 12800) by (cbn [pow]; lra).
  lbs (988937017 / 1000000000) 7%nat.
  lbs (977996423 / 1000000000) 6%nat.
  lbs (956477003 / 1000000000) 5%nat.
  lbs (914848257 / 1000000000) 4%nat.
  lbs (836947333 / 1000000000) 3%nat.
  lbs (350240419 / 500000000) 2%nat.
  lbs (122668351 / 250000000) 1%nat.
  lbs (240760389 / 1000000000) 0%nat.
  cbn [Nat.pow pow]. lra.
Qed.
Lemma g_hi0 : limexp 8 (- (71 / 50)) <= 60190113 / 250000000.
Proof.
  unfold limexp. replace (1 + - (71 / 50) / 2 ^ 8) with (12729 / 12800) by (cbn [pow]; lra).
  ubs (494468509 / 500000000) 7%nat.
  ubs (488998213 / 500000000) 6%nat.
  ubs (95647701 / 100000000) 5%nat.
  ubs (914848271 / 1000000000) 4%nat.
  ubs (836947359 / 1000000000) 3%nat.
  ubs (350240441 / 500000000) 2%nat.
  ubs (490673467 / 1000000000) 1%nat.
  ubs (60190113 / 250000000) 0%nat.
  cbn [Nat.pow pow]. lra.
Qed.
Lemma g_lo1 : 238351441 / 1000000000 <= limexp 8 (- (143 / 100)).
Proof.
  unfold limexp. replace (1 + - (143 / 100) / 2 ^ 8) with (25457 / 25600) by (cbn [pow]; lra).
  lbs (988859327 / 1000000000) 7%nat.
  lbs (61115173 / 62500000) 6%nat.
  lbs (478088239 / 500000000) 5%nat.
  lbs (914273457 / 1000000000) 4%nat.
  lbs (417947977 / 500000000) 3%nat.
  lbs (139744409 / 200000000) 2%nat.
  lbs (30513281 / 62500000) 1%nat.
  lbs (238351441 / 1000000000) 0%nat.
  cbn [Nat.pow pow]. lra.
Qed.
Lemma g_hi1 : limexp 8 (- (143 / 100)) <= 14896969 / 62500000.
Proof.
  unfold limexp. replace (1 + - (143 / 100) / 2 ^ 8) with (25457 / 25600) by (cbn [pow]; lra).
  ubs (15450927 / 15625000) 7%nat.
  ubs (977842771 / 1000000000) 6%nat.
  ubs (191235297 / 200000000) 5%nat.
  ubs (914273471 / 1000000000) 4%nat.
  ubs (41794799 / 50000000) 3%nat.
  ubs (69872209 / 100000000) 2%nat.
  ubs (6102657 / 12500000) 1%nat.
  ubs (14896969 / 62500000) 0%nat.
  cbn [Nat.pow pow]. lra.
Qed.
Lemma g_lo2 : 29495813 / 125000000 <= limexp 8 (- (36 / 25)).
Proof.
  unfold limexp. replace (1 + - (36 / 25) / 2 ^ 8) with (1591 / 1600) by (cbn [pow]; lra).
  lbs (24719541 / 25000000) 7%nat.
  lbs (977689131 / 1000000000) 6%nat.
  lbs (238969009 / 250000000) 5%nat.
  lbs (228424749 / 250000000) 4%nat.
  lbs (166969171 / 200000000) 3%nat.
  lbs (696967601 / 1000000000) 2%nat.
  lbs (121440959 / 250000000) 1%nat.
  lbs (29495813 / 125000000) 0%nat.
  cbn [Nat.pow pow]. lra.
Qed.
Lemma g_hi2 : limexp 8 (- (36 / 25)) <= 235966567 / 1000000000.
Proof.
  unfold limexp. replace (1 + - (36 / 25) / 2 ^ 8) with (1591 / 1600) by (cbn [pow]; lra).
  ubs (988781641 / 1000000000) 7%nat.
  ubs (488844567 / 500000000) 6%nat.
  ubs (955876043 / 1000000000) 5%nat.
  ubs (91369901 / 100000000) 4%nat.
  ubs (834845881 / 1000000000) 3%nat.
  ubs (348483823 / 500000000) 2%nat.
  ubs (4857639 / 10000000) 1%nat.
  ubs (235966567 / 1000000000) 0%nat.
  cbn [Nat.pow pow]. lra.
Qed.
Lemma g_lo3 : 3471061 / 15625000 <= limexp 8 (- (3 / 2)).
Proof.
  unfold limexp. replace (1 + - (3 / 2) / 2 ^ 8) with (509 / 512) by (cbn [pow]; lra).
  lbs (494157791 / 500000000) 7%nat.
  lbs (976767689 / 1000000000) 6%nat.
  lbs (477037559 / 500000000) 5%nat.
  lbs (91025933 / 100000000) 4%nat.
  lbs (828572047 / 1000000000) 3%nat.
  lbs (686531637 / 1000000000) 2%nat.
  lbs (58915711 / 125000000) 1%nat.
  lbs (3471061 / 15625000) 0%nat.
  cbn [Nat.pow pow]. lra.
Qed.
Lemma g_hi3 : limexp 8 (- (3 / 2)) <= 222147969 / 1000000000.
Proof.
  unfold limexp. replace (1 + - (3 / 2) / 2 ^ 8) with (509 / 512) by (cbn [pow]; lra).
  ubs (988315583 / 1000000000) 7%nat.
  ubs (244191923 / 250000000) 6%nat.
  ubs (7632601 / 8000000) 5%nat.
  ubs (182051869 / 200000000) 4%nat.
  ubs (207143019 / 250000000) 3%nat.
  ubs (343265843 / 500000000) 2%nat.
  ubs (117831439 / 250000000) 1%nat.
  ubs (222147969 / 1000000000) 0%nat.
  cbn [Nat.pow pow]. lra.
Qed.
Lemma g_lo4 : 106693179 / 500000000 <= limexp 8 (- (77 / 50)).
Proof.
  unfold limexp. replace (1 + - (77 / 50) / 2 ^ 8) with (12723 / 12800) by (cbn [pow]; lra).
  lbs (988004937 / 1000000000) 7%nat.
  lbs (195230751 / 200000000) 6%nat.
  lbs (952876153 / 1000000000) 5%nat.
  lbs (453986481 / 500000000) 4%nat.
  lbs (824414899 / 1000000000) 3%nat.
  lbs (27186397 / 40000000) 2%nat.
  lbs (461937613 / 1000000000) 1%nat.
  lbs (106693179 / 500000000) 0%nat.
  cbn [Nat.pow pow]. lra.
Qed.
Lemma g_hi4 : limexp 8 (- (77 / 50)) <= 213386419 / 1000000000.
Proof.
  unfold limexp. replace (1 + - (77 / 50) / 2 ^ 8) with (12723 / 12800) by (cbn [pow]; lra).
  ubs (494002469 / 500000000) 7%nat.
  ubs (488076879 / 500000000) 6%nat.
  ubs (1488869 / 1562500) 5%nat.
  ubs (907972977 / 1000000000) 4%nat.
  ubs (824414927 / 1000000000) 3%nat.
  ubs (169914993 / 250000000) 2%nat.
  ubs (230968839 / 500000000) 1%nat.
  ubs (213386419 / 1000000000) 0%nat.
  cbn [Nat.pow pow]. lra.
Qed.
Lemma g_lo5 : 100442657 / 500000000 <= limexp 8 (- (8 / 5)).
Proof.
  unfold limexp. replace (1 + - (8 / 5) / 2 ^ 8) with (159 / 160) by (cbn [pow]; lra).
  lbs (493769531 / 500000000) 7%nat.
  lbs (487616699 / 500000000) 6%nat.
  lbs (47554009 / 50000000) 5%nat.
  lbs (226138377 / 250000000) 4%nat.
  lbs (102277131 / 125000000) 3%nat.
  lbs (669479137 / 1000000000) 2%nat.
  lbs (224101157 / 500000000) 1%nat.
  lbs (100442657 / 500000000) 0%nat.
  cbn [Nat.pow pow]. lra.
Qed.
Lemma g_hi5 : limexp 8 (- (8 / 5)) <= 50221343 / 250000000.
Proof.
  unfold limexp. replace (1 + - (8 / 5) / 2 ^ 8) with (159 / 160) by (cbn [pow]; lra).
  ubs (987539063 / 1000000000) 7%nat.
  ubs (975233401 / 1000000000) 6%nat.
  ubs (951080187 / 1000000000) 5%nat.
  ubs (904553523 / 1000000000) 4%nat.
  ubs (204554269 / 250000000) 3%nat.
  ubs (41842449 / 62500000) 2%nat.
  ubs (224101189 / 500000000) 1%nat.
  ubs (50221343 / 250000000) 0%nat.
  cbn [Nat.pow pow]. lra.
Qed.
Lemma g_lo6 : 11353167 / 62500000 <= limexp 8 (- (17 / 10)).
Proof.
  unfold limexp. replace (1 + - (17 / 10) / 2 ^ 8) with (2543 / 2560) by (cbn [pow]; lra).
  lbs (986762847 / 1000000000) 7%nat.
  lbs (243425229 / 250000000) 6%nat.
  lbs (948093473 / 1000000000) 5%nat.
  lbs (898881233 / 1000000000) 4%nat.
  lbs (807987471 / 1000000000) 3%nat.
  lbs (652843753 / 1000000000) 2%nat.
  lbs (85240993 / 200000000) 1%nat.
  lbs (11353167 / 62500000) 0%nat.
  cbn [Nat.pow pow]. lra.
Qed.
Lemma g_hi6 : limexp 8 (- (17 / 10)) <= 181650721 / 1000000000.
Proof.
  unfold limexp. replace (1 + - (17 / 10) / 2 ^ 8) with (2543 / 2560) by (cbn [pow]; lra).
  ubs (30836339 / 31250000) 7%nat.
  ubs (973700919 / 1000000000) 6%nat.
  ubs (23702337 / 25000000) 5%nat.
  ubs (898881247 / 1000000000) 4%nat.
  ubs (807987497 / 1000000000) 3%nat.
  ubs (163210949 / 250000000) 2%nat.
  ubs (213102511 / 500000000) 1%nat.
  ubs (181650721 / 1000000000) 0%nat.
  cbn [Nat.pow pow]. lra.
Qed.
Lemma g_lo7 : 82125617 / 500000000 <= limexp 8 (- (9 / 5)).
Proof.
  unfold limexp. replace (1 + - (9 / 5) / 2 ^ 8) with (1271 / 1280) by (cbn [pow]; lra).
  lbs (492993469 / 500000000) 7%nat.
  lbs (972170241 / 1000000000) 6%nat.
  lbs (945114977 / 1000000000) 5%nat.
  lbs (893242319 / 1000000000) 4%nat.
  lbs (9973523 / 12500000) 3%nat.
  lbs (63661543 / 100000000) 2%nat.
  lbs (81055841 / 200000000) 1%nat.
  lbs (82125617 / 500000000) 0%nat.
  cbn [Nat.pow pow]. lra.
Qed.
Lemma g_hi7 : limexp 8 (- (9 / 5)) <= 2053141 / 12500000.
Proof.
  unfold limexp. replace (1 + - (9 / 5) / 2 ^ 8) with (1271 / 1280) by (cbn [pow]; lra).
  ubs (985986939 / 1000000000) 7%nat.
  ubs (243042561 / 250000000) 6%nat.
  ubs (118139373 / 125000000) 5%nat.
  ubs (893242333 / 1000000000) 4%nat.
  ubs (398940933 / 500000000) 3%nat.
  ubs (636615473 / 1000000000) 2%nat.
  ubs (405279261 / 1000000000) 1%nat.
  ubs (2053141 / 12500000) 0%nat.
  cbn [Nat.pow pow]. lra.
Qed.
Lemma g_lo8 : 67138297 / 500000000 <= limexp 8 (- (2)).
Proof.
  unfold limexp. replace (1 + - (2) / 2 ^ 8) with (127 / 128) by (cbn [pow]; lra).
  lbs (196887207 / 200000000) 7%nat.
  lbs (969114307 / 1000000000) 6%nat.
  lbs (46959127 / 50000000) 5%nat.
  lbs (882063843 / 1000000000) 4%nat.
  lbs (778036623 / 1000000000) 3%nat.
  lbs (302670493 / 500000000) 2%nat.
  lbs (366437709 / 1000000000) 1%nat.
  lbs (67138297 / 500000000) 0%nat.
  cbn [Nat.pow pow]. lra.
Qed.
Lemma g_hi8 : limexp 8 (- (2)) <= 67138309 / 500000000.
Proof.
  unfold limexp. replace (1 + - (2) / 2 ^ 8) with (127 / 128) by (cbn [pow]; lra).
  ubs (246109009 / 250000000) 7%nat.
  ubs (969114309 / 1000000000) 6%nat.
  ubs (58698909 / 62500000) 5%nat.
  ubs (882063851 / 1000000000) 4%nat.
  ubs (389018319 / 500000000) 3%nat.
  ubs (605341011 / 1000000000) 2%nat.
  ubs (18321887 / 50000000) 1%nat.
  ubs (67138309 / 500000000) 0%nat.
  cbn [Nat.pow pow]. lra.
Qed.
Lemma g_lo9 : 54877327 / 500000000 <= limexp 8 (- (11 / 5)).
Proof.
  unfold limexp. replace (1 + - (11 / 5) / 2 ^ 8) with (1269 / 1280) by (cbn [pow]; lra).
  lbs (61430397 / 62500000) 7%nat.
  lbs (48303279 / 50000000) 6%nat.
  lbs (58330169 / 62500000) 5%nat.
  lbs (174203321 / 200000000) 4%nat.
  lbs (379334963 / 500000000) 3%nat.
  lbs (71947507 / 125000000) 2%nat.
  lbs (828231 / 2500000) 1%nat.
  lbs (54877327 / 500000000) 0%nat.
  cbn [Nat.pow pow]. lra.
Qed.
Lemma g_hi9 : limexp 8 (- (11 / 5)) <= 21950937 / 200000000.
Proof.
  unfold limexp. replace (1 + - (11 / 5) / 2 ^ 8) with (1269 / 1280) by (cbn [pow]; lra).
  ubs (982886353 / 1000000000) 7%nat.
  ubs (966065583 / 1000000000) 6%nat.
  ubs (933282711 / 1000000000) 5%nat.
  ubs (871016619 / 1000000000) 4%nat.
  ubs (758669951 / 1000000000) 3%nat.
  ubs (115116019 / 200000000) 2%nat.
  ubs (165646223 / 500000000) 1%nat.
  ubs (21950937 / 200000000) 0%nat.
  cbn [Nat.pow pow]. lra.
Qed.
Lemma g_lo10 : 732927647 / 10000000000 <= limexp 8 (- (13 / 5)).
Proof.
  unfold limexp. replace (1 + - (13 / 5) / 2 ^ 8) with (1267 / 1280) by (cbn [pow]; lra).
  lbs (979790649 / 1000000000) 7%nat.
  lbs (191997943 / 200000000) 6%nat.
  lbs (230395063 / 250000000) 5%nat.
  lbs (10616377 / 12500000) 4%nat.
  lbs (721327747 / 1000000000) 3%nat.
  lbs (260156859 / 500000000) 2%nat.
  lbs (54145273 / 200000000) 1%nat.
  lbs (732927647 / 10000000000) 0%nat.
  cbn [Nat.pow pow]. lra.
Qed.
Lemma g_hi10 : limexp 8 (- (13 / 5)) <= 732927859 / 10000000000.
Proof.
  unfold limexp. replace (1 + - (13 / 5) / 2 ^ 8) with (1267 / 1280) by (cbn [pow]; lra).
  ubs (19595813 / 20000000) 7%nat.
  ubs (479994859 / 500000000) 6%nat.
  ubs (921580259 / 1000000000) 5%nat.
  ubs (424655087 / 500000000) 4%nat.
  ubs (180331943 / 250000000) 3%nat.
  ubs (104062751 / 200000000) 2%nat.
  ubs (67681601 / 250000000) 1%nat.
  ubs (732927859 / 10000000000) 0%nat.
  cbn [Nat.pow pow]. lra.
Qed.
Lemma g_lo11 : 489127691 / 10000000000 <= limexp 8 (- (3)).
Proof.
  unfold limexp. replace (1 + - (3) / 2 ^ 8) with (253 / 256) by (cbn [pow]; lra).
  lbs (976699829 / 1000000000) 7%nat.
  lbs (190788511 / 200000000) 6%nat.
  lbs (455003199 / 500000000) 5%nat.
  lbs (207027911 / 250000000) 4%nat.
  lbs (342884447 / 500000000) 3%nat.
  lbs (18811159 / 40000000) 2%nat.
  lbs (110581157 / 500000000) 1%nat.
  lbs (489127691 / 10000000000) 0%nat.
  cbn [Nat.pow pow]. lra.
Qed.
Lemma g_hi11 : limexp 8 (- (3)) <= 24456391 / 500000000.
Proof.
  unfold limexp. replace (1 + - (3) / 2 ^ 8) with (253 / 256) by (cbn [pow]; lra).
  ubs (97669983 / 100000000) 7%nat.
  ubs (476971279 / 500000000) 6%nat.
  ubs (227501601 / 250000000) 5%nat.
  ubs (103513957 / 125000000) 4%nat.
  ubs (137153783 / 200000000) 3%nat.
  ubs (94055801 / 200000000) 2%nat.
  ubs (221162343 / 1000000000) 1%nat.
  ubs (24456391 / 500000000) 0%nat.
  cbn [Nat.pow pow]. lra.
Qed.
Lemma g_lo12 : 326216131 / 10000000000 <= limexp 8 (- (17 / 5)).
Proof.
  unfold limexp. replace (1 + - (17 / 5) / 2 ^ 8) with (1263 / 1280) by (cbn [pow]; lra).
  lbs (973613891 / 1000000000) 7%nat.
  lbs (118490501 / 125000000) 6%nat.
  lbs (224639981 / 250000000) 5%nat.
  lbs (807409937 / 1000000000) 4%nat.
  lbs (325955403 / 500000000) 3%nat.
  lbs (212493849 / 500000000) 2%nat.
  lbs (180614543 / 1000000000) 1%nat.
  lbs (326216131 / 10000000000) 0%nat.
  cbn [Nat.pow pow]. lra.
Qed.
Lemma g_hi12 : limexp 8 (- (17 / 5)) <= 163108113 / 5000000000.
Proof.
  unfold limexp. replace (1 + - (17 / 5) / 2 ^ 8) with (1263 / 1280) by (cbn [pow]; lra).
  ubs (243403473 / 250000000) 7%nat.
  ubs (947924011 / 1000000000) 6%nat.
  ubs (898559931 / 1000000000) 5%nat.
  ubs (16148199 / 20000000) 4%nat.
  ubs (162977707 / 250000000) 3%nat.
  ubs (26561733 / 62500000) 2%nat.
  ubs (180614569 / 1000000000) 1%nat.
  ubs (163108113 / 5000000000) 0%nat.
  cbn [Nat.pow pow]. lra.
Qed.

Lemma c_eb0 : 59757 / 2500 <= exp (397 / 125).
Proof.
  apply Rle_trans with (limexp 12 (397 / 125)); [|apply exp_below; assert (1 <= 2 ^ 12) by (apply pow_R1_Rle; lra); cbn [pow]; lra].
  unfold limexp. replace (1 + 397 / 125 / 2 ^ 12) with (512397 / 512000) by (cbn [pow]; lra).
  lbs (12519392281 / 12500000000) 11%nat.
  lbs (50155258587 / 50000000000) 10%nat.
  lbs (100621998557 / 100000000000) 9%nat.
  lbs (6327991621 / 6250000000) 8%nat.
  lbs (20502260713 / 20000000000) 7%nat.
  lbs (21017134717 / 20000000000) 6%nat.
  lbs (13803748491 / 12500000000) 5%nat.
  lbs (121947822337 / 100000000000) 4%nat.
  lbs (148712713727 / 100000000000) 3%nat.
  lbs (2764433903 / 1250000000) 2%nat.
  lbs (489094067459 / 100000000000) 1%nat.
  lbs (239213006823 / 10000000000) 0%nat.
  cbn [Nat.pow pow]. lra.
Qed.
Lemma c_ea0 : 9919 / 250000 <= exp (- (129 / 40)).
Proof.
  apply Rle_trans with (limexp 12 (- (129 / 40))); [|apply exp_below; assert (1 <= 2 ^ 12) by (apply pow_R1_Rle; lra); cbn [pow]; lra].
  unfold limexp. replace (1 + - (129 / 40) / 2 ^ 12) with (163711 / 163840) by (cbn [pow]; lra).
  lbs (499212956447 / 500000000000) 11%nat.
  lbs (498427151769 / 500000000000) 10%nat.
  lbs (496859251241 / 500000000000) 9%nat.
  lbs (39499058487 / 40000000000) 8%nat.
  lbs (975109763349 / 1000000000000) 7%nat.
  lbs (475419525289 / 500000000000) 6%nat.
  lbs (113011862513 / 125000000000) 5%nat.
  lbs (408693794197 / 500000000000) 4%nat.
  lbs (33406123483 / 50000000000) 3%nat.
  lbs (13949613577 / 31250000000) 2%nat.
  lbs (99630960101 / 500000000000) 1%nat.
  lbs (15882125137 / 400000000000) 0%nat.
  cbn [Nat.pow pow]. lra.
Qed.
Lemma c_eb1 : 113913 / 5000 <= exp (391 / 125).
Proof.
  apply Rle_trans with (limexp 12 (391 / 125)); [|apply exp_below; assert (1 <= 2 ^ 12) by (apply pow_R1_Rle; lra); cbn [pow]; lra].
  unfold limexp. replace (1 + 391 / 125 / 2 ^ 12) with (512391 / 512000) by (cbn [pow]; lra).
  lbs (50076396347 / 50000000000) 11%nat.
  lbs (25076454711 / 25000000000) 10%nat.
  lbs (100612572939 / 100000000000) 9%nat.
  lbs (50614449167 / 50000000000) 8%nat.
  lbs (102472898579 / 100000000000) 7%nat.
  lbs (105006949431 / 100000000000) 6%nat.
  lbs (6891537143 / 6250000000) 5%nat.
  lbs (60791403767 / 50000000000) 4%nat.
  lbs (73911895439 / 50000000000) 3%nat.
  lbs (43703746299 / 20000000000) 2%nat.
  lbs (477504360141 / 100000000000) 1%nat.
  lbs (228010413953 / 10000000000) 0%nat.
  cbn [Nat.pow pow]. lra.
Qed.
Lemma c_ea1 : 41627 / 1000000 <= exp (- (3177 / 1000)).
Proof.
  apply Rle_trans with (limexp 12 (- (3177 / 1000))); [|apply exp_below; assert (1 <= 2 ^ 12) by (apply pow_R1_Rle; lra); cbn [pow]; lra].
  unfold limexp. replace (1 + - (3177 / 1000) / 2 ^ 12) with (4092823 / 4096000) by (cbn [pow]; lra).
  lbs (499224666039 / 500000000000) 11%nat.
  lbs (996901068727 / 1000000000000) 10%nat.
  lbs (993811740829 / 1000000000000) 9%nat.
  lbs (987661776209 / 1000000000000) 8%nat.
  lbs (121934473023 / 125000000000) 7%nat.
  lbs (951553005529 / 1000000000000) 6%nat.
  lbs (905453122331 / 1000000000000) 5%nat.
  lbs (409922678369 / 500000000000) 4%nat.
  lbs (168036602241 / 250000000000) 3%nat.
  lbs (451780795083 / 1000000000000) 2%nat.
  lbs (40821177361 / 200000000000) 1%nat.
  lbs (104148032571 / 2500000000000) 0%nat.
  cbn [Nat.pow pow]. lra.
Qed.
Lemma c_eb2 : 10794 / 625 <= exp (2851 / 1000).
Proof.
  apply Rle_trans with (limexp 12 (2851 / 1000)); [|apply exp_below; assert (1 <= 2 ^ 12) by (apply pow_R1_Rle; lra); cbn [pow]; lra].
  unfold limexp. replace (1 + 2851 / 1000 / 2 ^ 12) with (4098851 / 4096000) by (cbn [pow]; lra).
  lbs (12517407179 / 12500000000) 11%nat.
  lbs (10027870879 / 10000000000) 10%nat.
  lbs (20111638873 / 20000000000) 9%nat.
  lbs (101119504539 / 100000000000) 8%nat.
  lbs (51125770991 / 50000000000) 7%nat.
  lbs (13069222297 / 12500000000) 6%nat.
  lbs (54657462863 / 50000000000) 5%nat.
  lbs (14937191233 / 12500000000) 4%nat.
  lbs (28559319287 / 20000000000) 3%nat.
  lbs (101954339767 / 50000000000) 2%nat.
  lbs (103946873973 / 25000000000) 1%nat.
  lbs (8643962087 / 500000000) 0%nat.
  cbn [Nat.pow pow]. lra.
Qed.
Lemma c_ea2 : 21837 / 500000 <= exp (- (3129 / 1000)).
Proof.
  apply Rle_trans with (limexp 12 (- (3129 / 1000))); [|apply exp_below; assert (1 <= 2 ^ 12) by (apply pow_R1_Rle; lra); cbn [pow]; lra].
  unfold limexp. replace (1 + - (3129 / 1000) / 2 ^ 12) with (4092871 / 4096000) by (cbn [pow]; lra).
  lbs (62404546971 / 62500000000) 11%nat.
  lbs (996947835559 / 1000000000000) 10%nat.
  lbs (39756199473 / 40000000000) 9%nat.
  lbs (197569424567 / 200000000000) 8%nat.
  lbs (975841938093 / 1000000000000) 7%nat.
  lbs (952267488141 / 1000000000000) 6%nat.
  lbs (90681336897 / 100000000000) 5%nat.
  lbs (411155243071 / 500000000000) 4%nat.
  lbs (676194535619 / 1000000000000) 3%nat.
  lbs (9144781 / 20000000) 2%nat.
  lbs (52266887211 / 250000000000) 1%nat.
  lbs (109273099949 / 2500000000000) 0%nat.
  cbn [Nat.pow pow]. lra.
Qed.
Lemma c_eb3 : 144833 / 10000 <= exp (107 / 40).
Proof.
  apply Rle_trans with (limexp 12 (107 / 40)); [|apply exp_below; assert (1 <= 2 ^ 12) by (apply pow_R1_Rle; lra); cbn [pow]; lra].
  unfold limexp. replace (1 + 107 / 40 / 2 ^ 12) with (163947 / 163840) by (cbn [pow]; lra).
  lbs (20026131577 / 20000000000) 11%nat.
  lbs (25065371621 / 25000000000) 10%nat.
  lbs (100523656719 / 100000000000) 9%nat.
  lbs (101050055601 / 100000000000) 8%nat.
  lbs (102111137369 / 100000000000) 7%nat.
  lbs (104266843747 / 100000000000) 6%nat.
  lbs (108715747049 / 100000000000) 5%nat.
  lbs (29547784141 / 25000000000) 4%nat.
  lbs (69845723811 / 50000000000) 3%nat.
  lbs (195137005387 / 100000000000) 2%nat.
  lbs (190392254357 / 50000000000) 1%nat.
  lbs (36249210519 / 2500000000) 0%nat.
  cbn [Nat.pow pow]. lra.
Qed.
Lemma c_ea3 : 57613 / 1000000 <= exp (- (713 / 250)).
Proof.
  apply Rle_trans with (limexp 12 (- (713 / 250))); [|apply exp_below; assert (1 <= 2 ^ 12) by (apply pow_R1_Rle; lra); cbn [pow]; lra].
  unfold limexp. replace (1 + - (713 / 250) / 2 ^ 12) with (1023287 / 1024000) by (cbn [pow]; lra).
  lbs (998607906693 / 1000000000000) 11%nat.
  lbs (997217751309 / 1000000000000) 10%nat.
  lbs (39777729741 / 40000000000) 9%nat.
  lbs (61807335287 / 62500000000) 8%nat.
  lbs (977957553991 / 1000000000000) 7%nat.
  lbs (1867970659 / 1953125000) 6%nat.
  lbs (457351414793 / 500000000000) 5%nat.
  lbs (209170316613 / 250000000000) 4%nat.
  lbs (700035541631 / 1000000000000) 3%nat.
  lbs (245024879773 / 500000000000) 2%nat.
  lbs (240148766831 / 1000000000000) 1%nat.
  lbs (72089287763 / 1250000000000) 0%nat.
  cbn [Nat.pow pow]. lra.
Qed.
Lemma c_eb4 : 112683 / 10000 <= exp (303 / 125).
Proof.
  apply Rle_trans with (limexp 12 (303 / 125)); [|apply exp_below; assert (1 <= 2 ^ 12) by (apply pow_R1_Rle; lra); cbn [pow]; lra].
  unfold limexp. replace (1 + 303 / 125 / 2 ^ 12) with (512303 / 512000) by (cbn [pow]; lra).
  lbs (100118394397 / 100000000000) 11%nat.
  lbs (50118464483 / 50000000000) 10%nat.
  lbs (20094883857 / 20000000000) 9%nat.
  lbs (50475544653 / 50000000000) 8%nat.
  lbs (9952268 / 9765625) 7%nat.
  lbs (12982372053 / 12500000000) 6%nat.
  lbs (53933434919 / 50000000000) 5%nat.
  lbs (58176308043 / 50000000000) 4%nat.
  lbs (1353793127 / 1000000000) 3%nat.
  lbs (183275583071 / 100000000000) 2%nat.
  lbs (671798787 / 200000000) 1%nat.
  lbs (112828402553 / 10000000000) 0%nat.
  cbn [Nat.pow pow]. lra.
Qed.
Lemma c_ea4 : 687 / 10000 <= exp (- (669 / 250)).
Proof.
  apply Rle_trans with (limexp 12 (- (669 / 250))); [|apply exp_below; assert (1 <= 2 ^ 12) by (apply pow_R1_Rle; lra); cbn [pow]; lra].
  unfold limexp. replace (1 + - (669 / 250) / 2 ^ 12) with (1023331 / 1024000) by (cbn [pow]; lra).
  lbs (499346893101 / 500000000000) 11%nat.
  lbs (498694639299 / 500000000000) 10%nat.
  lbs (497392686531 / 500000000000) 9%nat.
  lbs (494798969229 / 500000000000) 8%nat.
  lbs (4896520399 / 5000000000) 7%nat.
  lbs (119879560089 / 125000000000) 6%nat.
  lbs (114968871417 / 125000000000) 5%nat.
  lbs (845941849273 / 1000000000000) 4%nat.
  lbs (715617612351 / 1000000000000) 3%nat.
  lbs (256054283553 / 500000000000) 2%nat.
  lbs (262255184503 / 1000000000000) 1%nat.
  lbs (687777817987 / 10000000000000) 0%nat.
  cbn [Nat.pow pow]. lra.
Qed.
Lemma c_eb5 : 38299 / 5000 <= exp (1019 / 500).
Proof.
  apply Rle_trans with (limexp 12 (1019 / 500)); [|apply exp_below; assert (1 <= 2 ^ 12) by (apply pow_R1_Rle; lra); cbn [pow]; lra].
  unfold limexp. replace (1 + 1019 / 500 / 2 ^ 12) with (2049019 / 2048000) by (cbn [pow]; lra).
  lbs (4003981459 / 4000000000) 11%nat.
  lbs (4007966881 / 4000000000) 10%nat.
  lbs (12549842593 / 12500000000) 9%nat.
  lbs (100799071429 / 100000000000) 8%nat.
  lbs (101604528009 / 100000000000) 7%nat.
  lbs (103234801119 / 100000000000) 6%nat.
  lbs (5328712081 / 5000000000) 5%nat.
  lbs (14197586221 / 12500000000) 4%nat.
  lbs (129005730881 / 100000000000) 3%nat.
  lbs (166424786001 / 100000000000) 2%nat.
  lbs (138486046977 / 50000000000) 1%nat.
  lbs (191783852073 / 25000000000) 0%nat.
  cbn [Nat.pow pow]. lra.
Qed.
Lemma c_ea5 : 88301 / 1000000 <= exp (- (97 / 40)).
Proof.
  apply Rle_trans with (limexp 12 (- (97 / 40))); [|apply exp_below; assert (1 <= 2 ^ 12) by (apply pow_R1_Rle; lra); cbn [pow]; lra].
  unfold limexp. replace (1 + - (97 / 40) / 2 ^ 12) with (163743 / 163840) by (cbn [pow]; lra).
  lbs (998816268481 / 1000000000000) 11%nat.
  lbs (498816969091 / 500000000000) 10%nat.
  lbs (248818368653 / 250000000000) 9%nat.
  lbs (495284644633 / 500000000000) 8%nat.
  lbs (245306879209 / 250000000000) 7%nat.
  lbs (240701859949 / 250000000000) 6%nat.
  lbs (463499083063 / 500000000000) 5%nat.
  lbs (1074157 / 1250000) 4%nat.
  lbs (147688097363 / 200000000000) 3%nat.
  lbs (545294352567 / 1000000000000) 2%nat.
  lbs (297345930941 / 1000000000000) 1%nat.
  lbs (884146026471 / 10000000000000) 0%nat.
  cbn [Nat.pow pow]. lra.
Qed.
Lemma c_eb6 : 26989 / 5000 <= exp (211 / 125).
Proof.
  apply Rle_trans with (limexp 12 (211 / 125)); [|apply exp_below; assert (1 <= 2 ^ 12) by (apply pow_R1_Rle; lra); cbn [pow]; lra].
  unfold limexp. replace (1 + 211 / 125 / 2 ^ 12) with (512211 / 512000) by (cbn [pow]; lra).
  lbs (50041219429 / 50000000000) 11%nat.
  lbs (100164945677 / 100000000000) 10%nat.
  lbs (3135317607 / 3125000000) 9%nat.
  lbs (50330708463 / 50000000000) 8%nat.
  lbs (4053088343 / 4000000000) 7%nat.
  lbs (12834003997 / 12500000000) 6%nat.
  lbs (210830923 / 200000000) 5%nat.
  lbs (3472631101 / 3125000000) 4%nat.
  lbs (123485867659 / 100000000000) 3%nat.
  lbs (76243797557 / 50000000000) 2%nat.
  lbs (58131166659 / 25000000000) 1%nat.
  lbs (540677205941 / 100000000000) 0%nat.
  cbn [Nat.pow pow]. lra.
Qed.
Lemma c_ea6 : 64949 / 500000 <= exp (- (2039 / 1000)).
Proof.
  apply Rle_trans with (limexp 12 (- (2039 / 1000))); [|apply exp_below; assert (1 <= 2 ^ 12) by (apply pow_R1_Rle; lra); cbn [pow]; lra].
  unfold limexp. replace (1 + - (2039 / 1000) / 2 ^ 12) with (4093961 / 4096000) by (cbn [pow]; lra).
  lbs (499502321169 / 500000000000) 11%nat.
  lbs (249502568853 / 250000000000) 10%nat.
  lbs (996024509827 / 1000000000000) 9%nat.
  lbs (62004051511 / 62500000000) 8%nat.
  lbs (984192615367 / 1000000000000) 7%nat.
  lbs (484317552071 / 500000000000) 6%nat.
  lbs (58640872811 / 62500000000) 5%nat.
  lbs (880320502793 / 1000000000000) 4%nat.
  lbs (774964187637 / 1000000000000) 3%nat.
  lbs (600569492119 / 1000000000000) 2%nat.
  lbs (22542732179 / 62500000000) 1%nat.
  lbs (16261592771 / 125000000000) 0%nat.
  cbn [Nat.pow pow]. lra.
Qed.
Lemma c_eb7 : 5907 / 2000 <= exp (217 / 200).
Proof.
  apply Rle_trans with (limexp 12 (217 / 200)); [|apply exp_below; assert (1 <= 2 ^ 12) by (apply pow_R1_Rle; lra); cbn [pow]; lra].
  unfold limexp. replace (1 + 217 / 200 / 2 ^ 12) with (819417 / 819200) by (cbn [pow]; lra).
  lbs (25013246383 / 25000000000) 11%nat.
  lbs (50052999569 / 50000000000) 10%nat.
  lbs (50106055317 / 50000000000) 9%nat.
  lbs (100424671177 / 100000000000) 8%nat.
  lbs (10085114581 / 10000000000) 7%nat.
  lbs (101709536111 / 100000000000) 6%nat.
  lbs (103448297359 / 100000000000) 5%nat.
  lbs (13376937783 / 12500000000) 4%nat.
  lbs (3578849289 / 3125000000) 3%nat.
  lbs (131155581269 / 100000000000) 2%nat.
  lbs (8600893249 / 5000000000) 1%nat.
  lbs (147950729361 / 50000000000) 0%nat.
  cbn [Nat.pow pow]. lra.
Qed.
Lemma c_ea7 : 92167 / 500000 <= exp (- (1689 / 1000)).
Proof.
  apply Rle_trans with (limexp 12 (- (1689 / 1000))); [|apply exp_below; assert (1 <= 2 ^ 12) by (apply pow_R1_Rle; lra); cbn [pow]; lra].
  unfold limexp. replace (1 + - (1689 / 1000) / 2 ^ 12) with (4094311 / 4096000) by (cbn [pow]; lra).
  lbs (249793865751 / 250000000000) 11%nat.
  lbs (998351605869 / 1000000000000) 10%nat.
  lbs (996705928941 / 1000000000000) 9%nat.
  lbs (496711354393 / 500000000000) 8%nat.
  lbs (986888678331 / 1000000000000) 7%nat.
  lbs (973949263417 / 1000000000000) 6%nat.
  lbs (94857716771 / 100000000000) 5%nat.
  lbs (8997986431 / 10000000000) 4%nat.
  lbs (202409399531 / 250000000000) 3%nat.
  lbs (131102608059 / 200000000000) 2%nat.
  lbs (107424336499 / 250000000000) 1%nat.
  lbs (46159952289 / 250000000000) 0%nat.
  cbn [Nat.pow pow]. lra.
Qed.
Lemma c_eb8 : 18039 / 10000 <= exp (74 / 125).
Proof.
  apply Rle_trans with (limexp 12 (74 / 125)); [|apply exp_below; assert (1 <= 2 ^ 12) by (apply pow_R1_Rle; lra); cbn [pow]; lra].
  unfold limexp. replace (1 + 74 / 125 / 2 ^ 12) with (256037 / 256000) by (cbn [pow]; lra).
  lbs (50014454169 / 50000000000) 11%nat.
  lbs (12507228129 / 12500000000) 10%nat.
  lbs (100115683501 / 100000000000) 9%nat.
  lbs (25057875207 / 25000000000) 8%nat.
  lbs (50231768791 / 50000000000) 7%nat.
  lbs (50464611917 / 50000000000) 6%nat.
  lbs (101867082237 / 100000000000) 5%nat.
  lbs (51884512217 / 50000000000) 4%nat.
  lbs (107680104319 / 100000000000) 3%nat.
  lbs (115950048661 / 100000000000) 2%nat.
  lbs (33611034461 / 25000000000) 1%nat.
  lbs (90376131003 / 50000000000) 0%nat.
  cbn [Nat.pow pow]. lra.
Qed.
Lemma c_ea8 : 42111 / 125000 <= exp (- (543 / 500)).
Proof.
  apply Rle_trans with (limexp 12 (- (543 / 500))); [|apply exp_below; assert (1 <= 2 ^ 12) by (apply pow_R1_Rle; lra); cbn [pow]; lra].
  unfold limexp. replace (1 + - (543 / 500) / 2 ^ 12) with (2047457 / 2048000) by (cbn [pow]; lra).
  lbs (999469796859 / 1000000000000) 11%nat.
  lbs (998939874833 / 1000000000000) 10%nat.
  lbs (997880873531 / 1000000000000) 9%nat.
  lbs (497883118879 / 500000000000) 8%nat.
  lbs (495775200129 / 500000000000) 7%nat.
  lbs (983172196251 / 1000000000000) 6%nat.
  lbs (966627567481 / 1000000000000) 5%nat.
  lbs (467184427107 / 500000000000) 4%nat.
  lbs (34921806229 / 40000000000) 3%nat.
  lbs (381103921967 / 500000000000) 2%nat.
  lbs (290480398677 / 500000000000) 1%nat.
  lbs (168757724031 / 500000000000) 0%nat.
  cbn [Nat.pow pow]. lra.
Qed.
Lemma c_eb9 : 8641 / 10000 <= exp (- (18 / 125)).
Proof.
  apply Rle_trans with (limexp 12 (- (18 / 125))); [|apply exp_below; assert (1 <= 2 ^ 12) by (apply pow_R1_Rle; lra); cbn [pow]; lra].
  unfold limexp. replace (1 + - (18 / 125) / 2 ^ 12) with (255991 / 256000) by (cbn [pow]; lra).
  lbs (199985937747 / 200000000000) 11%nat.
  lbs (999859382413 / 1000000000000) 10%nat.
  lbs (999718784599 / 1000000000000) 9%nat.
  lbs (24985941207 / 25000000000) 8%nat.
  lbs (998875612799 / 1000000000000) 7%nat.
  lbs (249438122461 / 250000000000) 6%nat.
  lbs (995510030989 / 1000000000000) 5%nat.
  lbs (991040221799 / 1000000000000) 4%nat.
  lbs (982160721223 / 1000000000000) 3%nat.
  lbs (964639682313 / 1000000000000) 2%nat.
  lbs (232632429173 / 250000000000) 1%nat.
  lbs (432942776823 / 500000000000) 0%nat.
  cbn [Nat.pow pow]. lra.
Qed.
Lemma c_ea9 : 551561 / 1000000 <= exp (- (593 / 1000)).
Proof.
  apply Rle_trans with (limexp 12 (- (593 / 1000))); [|apply exp_below; assert (1 <= 2 ^ 12) by (apply pow_R1_Rle; lra); cbn [pow]; lra].
  unfold limexp. replace (1 + - (593 / 1000) / 2 ^ 12) with (4095407 / 4096000) by (cbn [pow]; lra).
  lbs (499855235089 / 500000000000) 11%nat.
  lbs (999421024183 / 1000000000000) 10%nat.
  lbs (499421191789 / 500000000000) 9%nat.
  lbs (997686107231 / 1000000000000) 8%nat.
  lbs (995377568561 / 1000000000000) 7%nat.
  lbs (495388251997 / 500000000000) 6%nat.
  lbs (490819040433 / 500000000000) 5%nat.
  lbs (481806660903 / 500000000000) 4%nat.
  lbs (928550633961 / 1000000000000) 3%nat.
  lbs (862206279829 / 1000000000000) 2%nat.
  lbs (46462479311 / 62500000000) 1%nat.
  lbs (552643067833 / 1000000000000) 0%nat.
  cbn [Nat.pow pow]. lra.
Qed.
Lemma c_eb10 : 659 / 1250 <= exp (- (319 / 500)).
Proof.
  apply Rle_trans with (limexp 12 (- (319 / 500))); [|apply exp_below; assert (1 <= 2 ^ 12) by (apply pow_R1_Rle; lra); cbn [pow]; lra].
  unfold limexp. replace (1 + - (319 / 500) / 2 ^ 12) with (2047681 / 2048000) by (cbn [pow]; lra).
  lbs (124961062603 / 125000000000) 11%nat.
  lbs (999377098679 / 1000000000000) 10%nat.
  lbs (249688646341 / 250000000000) 9%nat.
  lbs (199502144357 / 200000000000) 8%nat.
  lbs (248756910019 / 250000000000) 7%nat.
  lbs (198016000903 / 200000000000) 6%nat.
  lbs (49012920767 / 50000000000) 5%nat.
  lbs (240226640211 / 250000000000) 4%nat.
  lbs (923341418673 / 1000000000000) 3%nat.
  lbs (852559375437 / 1000000000000) 2%nat.
  lbs (145371497729 / 200000000000) 1%nat.
  lbs (528321808799 / 1000000000000) 0%nat.
  cbn [Nat.pow pow]. lra.
Qed.
Lemma c_ea10 : 575711 / 500000 <= exp (143 / 1000).
Proof.
  apply Rle_trans with (limexp 12 (143 / 1000)); [|apply exp_below; assert (1 <= 2 ^ 12) by (apply pow_R1_Rle; lra); cbn [pow]; lra].
  unfold limexp. replace (1 + 143 / 1000 / 2 ^ 12) with (4096143 / 4096000) by (cbn [pow]; lra).
  lbs (100006982543 / 100000000000) 11%nat.
  lbs (100013965573 / 100000000000) 10%nat.
  lbs (12503491637 / 12500000000) 9%nat.
  lbs (50027936997 / 50000000000) 8%nat.
  lbs (100111779207 / 100000000000) 7%nat.
  lbs (100223683359 / 100000000000) 6%nat.
  lbs (5022393353 / 5000000000) 5%nat.
  lbs (100897739969 / 100000000000) 4%nat.
  lbs (25450884827 / 25000000000) 3%nat.
  lbs (25909901539 / 25000000000) 2%nat.
  lbs (107411679641 / 100000000000) 1%nat.
  lbs (115372689233 / 100000000000) 0%nat.
  cbn [Nat.pow pow]. lra.
Qed.
Lemma c_eb11 : 3783 / 10000 <= exp (- (97 / 100)).
Proof.
  apply Rle_trans with (limexp 12 (- (97 / 100))); [|apply exp_below; assert (1 <= 2 ^ 12) by (apply pow_R1_Rle; lra); cbn [pow]; lra].
  unfold limexp. replace (1 + - (97 / 100) / 2 ^ 12) with (409503 / 409600) by (cbn [pow]; lra).
  lbs (999526423269 / 1000000000000) 11%nat.
  lbs (249763267703 / 250000000000) 10%nat.
  lbs (499053519149 / 500000000000) 9%nat.
  lbs (9962176599 / 10000000000) 8%nat.
  lbs (124056203237 / 125000000000) 7%nat.
  lbs (984956259941 / 1000000000000) 6%nat.
  lbs (242534708499 / 250000000000) 5%nat.
  lbs (941169357227 / 1000000000000) 4%nat.
  lbs (885799758983 / 1000000000000) 3%nat.
  lbs (392320606507 / 500000000000) 2%nat.
  lbs (15391545829 / 25000000000) 1%nat.
  lbs (379039492809 / 1000000000000) 0%nat.
  cbn [Nat.pow pow]. lra.
Qed.
Lemma c_ea11 : 943509 / 500000 <= exp (637 / 1000).
Proof.
  apply Rle_trans with (limexp 12 (637 / 1000)); [|apply exp_below; assert (1 <= 2 ^ 12) by (apply pow_R1_Rle; lra); cbn [pow]; lra].
  unfold limexp. replace (1 + 637 / 1000 / 2 ^ 12) with (4096637 / 4096000) by (cbn [pow]; lra).
  lbs (50015552967 / 50000000000) 11%nat.
  lbs (100062221543 / 100000000000) 10%nat.
  lbs (100124481801 / 100000000000) 9%nat.
  lbs (100249118559 / 100000000000) 8%nat.
  lbs (50249428859 / 50000000000) 7%nat.
  lbs (50500102013 / 50000000000) 6%nat.
  lbs (25502603033 / 25000000000) 5%nat.
  lbs (104061241833 / 100000000000) 4%nat.
  lbs (54143710259 / 50000000000) 3%nat.
  lbs (14657706803 / 12500000000) 2%nat.
  lbs (68751477991 / 50000000000) 1%nat.
  lbs (189070629037 / 100000000000) 0%nat.
  cbn [Nat.pow pow]. lra.
Qed.
Lemma e_461 : 100 <= exp (461 / 100).
Proof.
  apply Rle_trans with (limexp 12 (461 / 100)); [|apply exp_below; assert (1 <= 2 ^ 12) by (apply pow_R1_Rle; lra); cbn [pow]; lra].
  unfold limexp. replace (1 + 461 / 100 / 2 ^ 12) with (410061 / 409600) by (cbn [pow]; lra).
  lbs (12528153041 / 12500000000) 11%nat.
  lbs (20090191183 / 20000000000) 10%nat.
  lbs (50451972721 / 50000000000) 9%nat.
  lbs (101816062057 / 100000000000) 8%nat.
  lbs (103665104927 / 100000000000) 7%nat.
  lbs (21492907959 / 20000000000) 6%nat.
  lbs (115486273133 / 100000000000) 5%nat.
  lbs (133370792821 / 100000000000) 4%nat.
  lbs (177877683777 / 100000000000) 3%nat.
  lbs (158202351929 / 50000000000) 2%nat.
  lbs (100111936623 / 10000000000) 1%nat.
  lbs (6263999909 / 62500000) 0%nat.
  cbn [Nat.pow pow]. lra.
Qed.

Lemma guess_small x : 1 / 100 <= x <= 1 -> - (643 / 100) <= log_guess x <= 643 / 100 /\ 234 / 1000 <= x * exp (- log_guess x) <= 2051 / 1000.
Proof.
  intros Hx.
  destruct (Rle_dec x (3 / 200)) as [H0|H0].
  {
  apply (cell_log (1 / 100) (3 / 200) (60190113 / 250000000) (238351441 / 1000000000) (- (129 / 40)) (- (397 / 125)) (250000 / 9919) (59757 / 2500)); [lra|lra|lra| | |lra|lra| | |lra|lra|lra|lra|lra].
    - replace (- 2 * (1 / 100) - 14 / 10) with (- (71 / 50)) by lra. apply g_hi0.
    - replace (- 2 * (3 / 200) - 14 / 10) with (- (143 / 100)) by lra. apply g_lo1.
    - apply exp_upper; [lra|]. replace (- - (- (129 / 40))) with (- (129 / 40)) by lra. eapply Rle_trans; [|apply c_ea0]. lra.
    - replace (- (- (397 / 125))) with (397 / 125) by lra. apply c_eb0.
  }
  apply Rnot_le_lt in H0.
  destruct (Rle_dec x (1 / 50)) as [H1|H1].
  {
  apply (cell_log (3 / 200) (1 / 50) (14896969 / 62500000) (29495813 / 125000000) (- (3177 / 1000)) (- (391 / 125)) (1000000 / 41627) (113913 / 5000)); [lra|lra|lra| | |lra|lra| | |lra|lra|lra|lra|lra].
    - replace (- 2 * (3 / 200) - 14 / 10) with (- (143 / 100)) by lra. apply g_hi1.
    - replace (- 2 * (1 / 50) - 14 / 10) with (- (36 / 25)) by lra. apply g_lo2.
    - apply exp_upper; [lra|]. replace (- - (- (3177 / 1000))) with (- (3177 / 1000)) by lra. eapply Rle_trans; [|apply c_ea1]. lra.
    - replace (- (- (391 / 125))) with (391 / 125) by lra. apply c_eb1.
  }
  apply Rnot_le_lt in H1.
  destruct (Rle_dec x (1 / 20)) as [H2|H2].
  {
  apply (cell_log (1 / 50) (1 / 20) (235966567 / 1000000000) (3471061 / 15625000) (- (3129 / 1000)) (- (2851 / 1000)) (500000 / 21837) (10794 / 625)); [lra|lra|lra| | |lra|lra| | |lra|lra|lra|lra|lra].
    - replace (- 2 * (1 / 50) - 14 / 10) with (- (36 / 25)) by lra. apply g_hi2.
    - replace (- 2 * (1 / 20) - 14 / 10) with (- (3 / 2)) by lra. apply g_lo3.
    - apply exp_upper; [lra|]. replace (- - (- (3129 / 1000))) with (- (3129 / 1000)) by lra. eapply Rle_trans; [|apply c_ea2]. lra.
    - replace (- (- (2851 / 1000))) with (2851 / 1000) by lra. apply c_eb2.
  }
  apply Rnot_le_lt in H2.
  destruct (Rle_dec x (7 / 100)) as [H3|H3].
  {
  apply (cell_log (1 / 20) (7 / 100) (222147969 / 1000000000) (106693179 / 500000000) (- (713 / 250)) (- (107 / 40)) (1000000 / 57613) (144833 / 10000)); [lra|lra|lra| | |lra|lra| | |lra|lra|lra|lra|lra].
    - replace (- 2 * (1 / 20) - 14 / 10) with (- (3 / 2)) by lra. apply g_hi3.
    - replace (- 2 * (7 / 100) - 14 / 10) with (- (77 / 50)) by lra. apply g_lo4.
    - apply exp_upper; [lra|]. replace (- - (- (713 / 250))) with (- (713 / 250)) by lra. eapply Rle_trans; [|apply c_ea3]. lra.
    - replace (- (- (107 / 40))) with (107 / 40) by lra. apply c_eb3.
  }
  apply Rnot_le_lt in H3.
  destruct (Rle_dec x (1 / 10)) as [H4|H4].
  {
  apply (cell_log (7 / 100) (1 / 10) (213386419 / 1000000000) (100442657 / 500000000) (- (669 / 250)) (- (303 / 125)) (10000 / 687) (112683 / 10000)); [lra|lra|lra| | |lra|lra| | |lra|lra|lra|lra|lra].
    - replace (- 2 * (7 / 100) - 14 / 10) with (- (77 / 50)) by lra. apply g_hi4.
    - replace (- 2 * (1 / 10) - 14 / 10) with (- (8 / 5)) by lra. apply g_lo5.
    - apply exp_upper; [lra|]. replace (- - (- (669 / 250))) with (- (669 / 250)) by lra. eapply Rle_trans; [|apply c_ea4]. lra.
    - replace (- (- (303 / 125))) with (303 / 125) by lra. apply c_eb4.
  }
  apply Rnot_le_lt in H4.
  destruct (Rle_dec x (3 / 20)) as [H5|H5].
  {
  apply (cell_log (1 / 10) (3 / 20) (50221343 / 250000000) (11353167 / 62500000) (- (97 / 40)) (- (1019 / 500)) (1000000 / 88301) (38299 / 5000)); [lra|lra|lra| | |lra|lra| | |lra|lra|lra|lra|lra].
    - replace (- 2 * (1 / 10) - 14 / 10) with (- (8 / 5)) by lra. apply g_hi5.
    - replace (- 2 * (3 / 20) - 14 / 10) with (- (17 / 10)) by lra. apply g_lo6.
    - apply exp_upper; [lra|]. replace (- - (- (97 / 40))) with (- (97 / 40)) by lra. eapply Rle_trans; [|apply c_ea5]. lra.
    - replace (- (- (1019 / 500))) with (1019 / 500) by lra. apply c_eb5.
  }
  apply Rnot_le_lt in H5.
  destruct (Rle_dec x (1 / 5)) as [H6|H6].
  {
  apply (cell_log (3 / 20) (1 / 5) (181650721 / 1000000000) (82125617 / 500000000) (- (2039 / 1000)) (- (211 / 125)) (500000 / 64949) (26989 / 5000)); [lra|lra|lra| | |lra|lra| | |lra|lra|lra|lra|lra].
    - replace (- 2 * (3 / 20) - 14 / 10) with (- (17 / 10)) by lra. apply g_hi6.
    - replace (- 2 * (1 / 5) - 14 / 10) with (- (9 / 5)) by lra. apply g_lo7.
    - apply exp_upper; [lra|]. replace (- - (- (2039 / 1000))) with (- (2039 / 1000)) by lra. eapply Rle_trans; [|apply c_ea6]. lra.
    - replace (- (- (211 / 125))) with (211 / 125) by lra. apply c_eb6.
  }
  apply Rnot_le_lt in H6.
  destruct (Rle_dec x (3 / 10)) as [H7|H7].
  {
  apply (cell_log (1 / 5) (3 / 10) (2053141 / 12500000) (67138297 / 500000000) (- (1689 / 1000)) (- (217 / 200)) (500000 / 92167) (5907 / 2000)); [lra|lra|lra| | |lra|lra| | |lra|lra|lra|lra|lra].
    - replace (- 2 * (1 / 5) - 14 / 10) with (- (9 / 5)) by lra. apply g_hi7.
    - replace (- 2 * (3 / 10) - 14 / 10) with (- (2)) by lra. apply g_lo8.
    - apply exp_upper; [lra|]. replace (- - (- (1689 / 1000))) with (- (1689 / 1000)) by lra. eapply Rle_trans; [|apply c_ea7]. lra.
    - replace (- (- (217 / 200))) with (217 / 200) by lra. apply c_eb7.
  }
  apply Rnot_le_lt in H7.
  destruct (Rle_dec x (2 / 5)) as [H8|H8].
  {
  apply (cell_log (3 / 10) (2 / 5) (67138309 / 500000000) (54877327 / 500000000) (- (543 / 500)) (- (74 / 125)) (125000 / 42111) (18039 / 10000)); [lra|lra|lra| | |lra|lra| | |lra|lra|lra|lra|lra].
    - replace (- 2 * (3 / 10) - 14 / 10) with (- (2)) by lra. apply g_hi8.
    - replace (- 2 * (2 / 5) - 14 / 10) with (- (11 / 5)) by lra. apply g_lo9.
    - apply exp_upper; [lra|]. replace (- - (- (543 / 500))) with (- (543 / 500)) by lra. eapply Rle_trans; [|apply c_ea8]. lra.
    - replace (- (- (74 / 125))) with (74 / 125) by lra. apply c_eb8.
  }
  apply Rnot_le_lt in H8.
  destruct (Rle_dec x (3 / 5)) as [H9|H9].
  {
  apply (cell_log (2 / 5) (3 / 5) (21950937 / 200000000) (732927647 / 10000000000) (- (593 / 1000)) (18 / 125) (1000000 / 551561) (8641 / 10000)); [lra|lra|lra| | |lra|lra| | |lra|lra|lra|lra|lra].
    - replace (- 2 * (2 / 5) - 14 / 10) with (- (11 / 5)) by lra. apply g_hi9.
    - replace (- 2 * (3 / 5) - 14 / 10) with (- (13 / 5)) by lra. apply g_lo10.
    - apply exp_upper; [lra|]. replace (- - (- (593 / 1000))) with (- (593 / 1000)) by lra. eapply Rle_trans; [|apply c_ea9]. lra.
    - replace (- (18 / 125)) with (- (18 / 125)) by lra. apply c_eb9.
  }
  apply Rnot_le_lt in H9.
  destruct (Rle_dec x (4 / 5)) as [H10|H10].
  {
  apply (cell_log (3 / 5) (4 / 5) (732927859 / 10000000000) (489127691 / 10000000000) (143 / 1000) (319 / 500) (500000 / 575711) (659 / 1250)); [lra|lra|lra| | |lra|lra| | |lra|lra|lra|lra|lra].
    - replace (- 2 * (3 / 5) - 14 / 10) with (- (13 / 5)) by lra. apply g_hi10.
    - replace (- 2 * (4 / 5) - 14 / 10) with (- (3)) by lra. apply g_lo11.
    - apply exp_upper; [lra|]. replace (- - (143 / 1000)) with (143 / 1000) by lra. eapply Rle_trans; [|apply c_ea10]. lra.
    - replace (- (319 / 500)) with (- (319 / 500)) by lra. apply c_eb10.
  }
  apply Rnot_le_lt in H10.
  apply (cell_log (4 / 5) (1) (24456391 / 500000000) (326216131 / 10000000000) (637 / 1000) (97 / 100) (500000 / 943509) (3783 / 10000)); [lra|lra|lra| | |lra|lra| | |lra|lra|lra|lra|lra].
    - replace (- 2 * (4 / 5) - 14 / 10) with (- (3)) by lra. apply g_hi11.
    - replace (- 2 * (1) - 14 / 10) with (- (17 / 5)) by lra. apply g_lo12.
    - apply exp_upper; [lra|]. replace (- - (637 / 1000)) with (637 / 1000) by lra. eapply Rle_trans; [|apply c_ea11]. lra.
    - replace (- (97 / 100)) with (- (97 / 100)) by lra. apply c_eb11.
Qed.

Lemma log_close_small x : 1 / 100 <= x <= 1 -> exists y, gives (log_a RE 2 8 x) y /\ - (1 / 8) <= y - ln x <= 1 / 1000.
Proof.
  intros Hx. destruct (guess_small x Hx) as [G1 G2]. apply two_steps; auto; [lra|]. split.
  - apply Rle_trans with (ln (1 / 100)); [|apply ln_le; lra].
    replace (- 461 / 100) with (- (461 / 100)) by lra. rewrite <- (ln_exp (- (461 / 100))). apply ln_le; [apply exp_pos|].
    pose proof (exp_neg_upper (461 / 100) 100 ltac:(lra) e_461). lra.
  - apply Rle_trans with (ln 1); [apply ln_le; lra|]. rewrite ln_1. lra.
Qed.

Lemma log_close_wide x : 1 / 100 <= x <= 150 -> exists y, gives (log_a RE 2 8 x) y /\ - (1 / 8) <= y - ln x <= 1 / 1000.
Proof. intros Hx. destruct (Rle_dec x 1); [apply log_close_small; lra|apply log_close_all; lra]. Qed.

Lemma ln_wide x : 1 / 100 <= x <= 150 -> - 461 / 100 <= ln x <= 502 / 100.
Proof.
  intros Hx. split.
  - apply Rle_trans with (ln (1 / 100)); [|apply ln_le; lra].
    replace (- 461 / 100) with (- (461 / 100)) by lra. rewrite <- (ln_exp (- (461 / 100))). apply ln_le; [apply exp_pos|].
    pose proof (exp_neg_upper (461 / 100) 100 ltac:(lra) e_461). lra.
  - rewrite <- (ln_exp (502 / 100)). apply ln_le; [lra|]. pose proof e_ln150.
    replace (502 / 100) with (251 / 50) by lra. lra.
Qed.
