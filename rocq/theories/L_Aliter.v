(** The method "chebyshev-aliter" of sigmoid against the logistic function on [-8, 8]. *)
From Coq Require Import QArith Reals Qreals Lra Lia.
From Verif Require Import Util M_Encoder M_Share M_Fss M_Engine M_Approx S_Real S_Sigmoid L_Real L_Softmax L_Sigmoid L_Mac.
Local Open Scope R_scope.

(** the polynomial, of |x| / 8 *)
Definition ali (t : R) : R := 1 / 2 + (315 * t - 420 * t ^ 3 + 378 * t ^ 5 - 180 * t ^ 7 + 35 * t ^ 9) / 256.

Lemma ali_deriv t : derivable_pt_lim ali t (315 / 256 * (1 - t ^ 2) ^ 4).
Proof.
  assert (D : forall n, derivable_pt_lim (fun y => y ^ n) t (INR n * t ^ pred n)) by (intro; apply derivable_pt_lim_pow).
  set (F := plus_fct (fct_cte (1 / 2)) (mult_real_fct (/ 256) (plus_fct (minus_fct (plus_fct (minus_fct (mult_real_fct 315 id) (mult_real_fct 420 (fun y => y^3))) (mult_real_fct 378 (fun y => y^5))) (mult_real_fct 180 (fun y => y^7))) (mult_real_fct 35 (fun y => y^9))))).
  assert (H : derivable_pt_lim F t (0 + /256 * ((((315 * 1 - 420 * (INR 3 * t^2)) + 378 * (INR 5 * t^4)) - 180 * (INR 7 * t^6)) + 35 * (INR 9 * t^8)))).
  { unfold F. apply derivable_pt_lim_plus; [apply derivable_pt_lim_const|]. apply derivable_pt_lim_scal.
    apply derivable_pt_lim_plus; [|apply derivable_pt_lim_scal, (D 9%nat)].
    apply derivable_pt_lim_minus; [|apply derivable_pt_lim_scal, (D 7%nat)].
    apply derivable_pt_lim_plus; [|apply derivable_pt_lim_scal, (D 5%nat)].
    apply derivable_pt_lim_minus; [|apply derivable_pt_lim_scal, (D 3%nat)].
    apply derivable_pt_lim_scal, derivable_pt_lim_id. }
  replace (315 / 256 * (1 - t ^ 2) ^ 4) with (0 + /256 * ((((315 * 1 - 420 * (INR 3 * t^2)) + 378 * (INR 5 * t^4)) - 180 * (INR 7 * t^6)) + 35 * (INR 9 * t^8))) by (cbn [INR]; field).
  intros eps He. destruct (H eps He) as [d Hd]. exists d. intros h H0 H1. specialize (Hd h H0 H1).
  replace (ali (t + h) - ali t) with (F (t + h) - F t); [exact Hd|].
  unfold F, ali, plus_fct, minus_fct, mult_real_fct, fct_cte, id. field.
Qed.

Lemma ali_mono a b : a <= b -> ali a <= ali b.
Proof.
  intros H. destruct (Req_dec a b) as [->|N]; [lra|].
  destruct (MVT_cor2 ali (fun t => 315 / 256 * (1 - t ^ 2) ^ 4) a b) as (c & E & _); [lra|intros; apply ali_deriv|].
  assert (0 <= (1 - c ^ 2) ^ 4) by (replace ((1 - c ^ 2) ^ 4) with (((1 - c ^ 2) ^ 2) ^ 2) by ring; apply pow2_ge_0).
  assert (0 <= 315 / 256 * (1 - c ^ 2) ^ 4 * (b - a)) by (apply Rmult_le_pos; lra). lra.
Qed.

Lemma acell a b L U x : a <= x <= b -> 0 <= L -> L <= exp (- b) -> exp (- a) <= U ->
  1 <= (ali (a / 8) + 1 / 7) * (1 + L) -> (ali (b / 8) - 1 / 7) * (1 + U) <= 1 ->
  Rabs (ali (x / 8) - logistic x) <= 1 / 7.
Proof.
  intros Hx HL Hb HU H1 H2.
  pose proof (ali_mono (a / 8) (x / 8) ltac:(lra)) as A. pose proof (ali_mono (x / 8) (b / 8) ltac:(lra)) as B.
  assert (E1 : L <= exp (- x)).
  { eapply Rle_trans; [exact Hb|]. destruct (Req_dec x b) as [->|N]; [lra|]. left. apply exp_increasing. lra. }
  assert (E2 : exp (- x) <= U).
  { eapply Rle_trans; [|exact HU]. destruct (Req_dec x a) as [->|N]; [lra|]. left. apply exp_increasing. lra. }
  assert (S1 : logistic x <= ali (a / 8) + 1 / 7).
  { unfold logistic. apply Rle_trans with (/ (1 + L)); [apply Rinv_le_contravar; lra|].
    apply Rmult_le_reg_r with (1 + L); [lra|]. rewrite Rinv_l by lra. exact H1. }
  assert (S2 : ali (b / 8) - 1 / 7 <= logistic x).
  { unfold logistic. apply Rle_trans with (/ (1 + U)); [|apply Rinv_le_contravar; lra].
    apply Rmult_le_reg_r with (1 + U); [lra|]. rewrite Rinv_l by lra. exact H2. }
  apply Rabs_le. lra.
Qed.

Lemma ali_close x : 0 <= x <= 8 -> Rabs (ali (x / 8) - logistic x) <= 1 / 7.
Proof.
  intros Hx.
  destruct (Rle_dec x (1 / 4)) as [H1|H1].
  { apply (acell (0) (1 / 4) (623 / 800) (1)); [lra|lra|apply em_1|apply em_0|unfold ali; lra|unfold ali; lra]. }
  apply Rnot_le_lt in H1.
  destruct (Rle_dec x (1 / 2)) as [H2|H2].
  { apply (acell (1 / 4) (1 / 2) (1212903 / 2000000) (2434 / 3125)); [lra|lra|apply em_2|apply em_1|unfold ali; lra|unfold ali; lra]. }
  apply Rnot_le_lt in H2.
  destruct (Rle_dec x (3 / 4)) as [H3|H3].
  { apply (acell (1 / 2) (3 / 4) (4722741 / 10000000) (6066541 / 10000000)); [lra|lra|apply em_3|apply em_2|unfold ali; lra|unfold ali; lra]. }
  apply Rnot_le_lt in H3.
  destruct (Rle_dec x (1)) as [H4|H4].
  { apply (acell (3 / 4) (1) (1838917 / 5000000) (1181277 / 2500000)); [lra|lra|apply em_4|apply em_3|unfold ali; lra|unfold ali; lra]. }
  apply Rnot_le_lt in H4.
  destruct (Rle_dec x (5 / 4)) as [H5|H5].
  { apply (acell (1) (5 / 4) (2864113 / 10000000) (3680293 / 10000000)); [lra|lra|apply em_5|apply em_4|unfold ali; lra|unfold ali; lra]. }
  apply Rnot_le_lt in H5.
  destruct (Rle_dec x (3 / 2)) as [H6|H6].
  { apply (acell (5 / 4) (3 / 2) (2230427 / 10000000) (2866507 / 10000000)); [lra|lra|apply em_6|apply em_5|unfold ali; lra|unfold ali; lra]. }
  apply Rnot_le_lt in H6.
  destruct (Rle_dec x (7 / 4)) as [H7|H7].
  { apply (acell (3 / 2) (7 / 4) (347389 / 2000000) (446533 / 2000000)); [lra|lra|apply em_7|apply em_6|unfold ali; lra|unfold ali; lra]. }
  apply Rnot_le_lt in H7.
  destruct (Rle_dec x (2)) as [H8|H8].
  { apply (acell (7 / 4) (2) (270529 / 2000000) (1738979 / 10000000)); [lra|lra|apply em_8|apply em_7|unfold ali; lra|unfold ali; lra]. }
  apply Rnot_le_lt in H8.
  destruct (Rle_dec x (9 / 4)) as [H9|H9].
  { apply (acell (2) (9 / 4) (263343 / 2500000) (169307 / 1250000)); [lra|lra|apply em_9|apply em_8|unfold ali; lra|unfold ali; lra]. }
  apply Rnot_le_lt in H9.
  destruct (Rle_dec x (5 / 2)) as [H10|H10].
  { apply (acell (9 / 4) (5 / 2) (820313 / 10000000) (1054959 / 10000000)); [lra|lra|apply em_10|apply em_9|unfold ali; lra|unfold ali; lra]. }
  apply Rnot_le_lt in H10.
  destruct (Rle_dec x (11 / 4)) as [H11|H11].
  { apply (acell (5 / 2) (11 / 4) (319409 / 5000000) (821687 / 10000000)); [lra|lra|apply em_11|apply em_10|unfold ali; lra|unfold ali; lra]. }
  apply Rnot_le_lt in H11.
  destruct (Rle_dec x (3)) as [H12|H12].
  { apply (acell (11 / 4) (3) (497479 / 10000000) (159999 / 2500000)); [lra|lra|apply em_12|apply em_11|unfold ali; lra|unfold ali; lra]. }
  apply Rnot_le_lt in H12.
  destruct (Rle_dec x (13 / 4)) as [H13|H13].
  { apply (acell (3) (13 / 4) (387411 / 10000000) (498481 / 10000000)); [lra|lra|apply em_13|apply em_12|unfold ali; lra|unfold ali; lra]. }
  apply Rnot_le_lt in H13.
  destruct (Rle_dec x (7 / 2)) as [H14|H14].
  { apply (acell (13 / 4) (7 / 2) (2357 / 78125) (388257 / 10000000)); [lra|lra|apply em_14|apply em_13|unfold ali; lra|unfold ali; lra]. }
  apply Rnot_le_lt in H14.
  destruct (Rle_dec x (15 / 4)) as [H15|H15].
  { apply (acell (7 / 2) (15 / 4) (46989 / 2000000) (151203 / 5000000)); [lra|lra|apply em_15|apply em_14|unfold ali; lra|unfold ali; lra]. }
  apply Rnot_le_lt in H15.
  destruct (Rle_dec x (4)) as [H16|H16].
  { apply (acell (15 / 4) (4) (182963 / 10000000) (117769 / 5000000)); [lra|lra|apply em_16|apply em_15|unfold ali; lra|unfold ali; lra]. }
  apply Rnot_le_lt in H16.
  destruct (Rle_dec x (17 / 4)) as [H17|H17].
  { apply (acell (4) (17 / 4) (71241 / 5000000) (5733 / 312500)); [lra|lra|apply em_17|apply em_16|unfold ali; lra|unfold ali; lra]. }
  apply Rnot_le_lt in H17.
  destruct (Rle_dec x (9 / 2)) as [H18|H18].
  { apply (acell (17 / 4) (9 / 2) (110957 / 10000000) (142891 / 10000000)); [lra|lra|apply em_18|apply em_17|unfold ali; lra|unfold ali; lra]. }
  apply Rnot_le_lt in H18.
  destruct (Rle_dec x (19 / 4)) as [H19|H19].
  { apply (acell (9 / 2) (19 / 4) (86407 / 10000000) (22259 / 2000000)); [lra|lra|apply em_19|apply em_18|unfold ali; lra|unfold ali; lra]. }
  apply Rnot_le_lt in H19.
  destruct (Rle_dec x (5)) as [H20|H20].
  { apply (acell (19 / 4) (5) (67289 / 10000000) (43343 / 5000000)); [lra|lra|apply em_20|apply em_19|unfold ali; lra|unfold ali; lra]. }
  apply Rnot_le_lt in H20.
  destruct (Rle_dec x (21 / 4)) as [H21|H21].
  { apply (acell (5) (21 / 4) (52401 / 10000000) (33759 / 5000000)); [lra|lra|apply em_21|apply em_20|unfold ali; lra|unfold ali; lra]. }
  apply Rnot_le_lt in H21.
  destruct (Rle_dec x (11 / 2)) as [H22|H22].
  { apply (acell (21 / 4) (11 / 2) (40807 / 10000000) (52589 / 10000000)); [lra|lra|apply em_22|apply em_21|unfold ali; lra|unfold ali; lra]. }
  apply Rnot_le_lt in H22.
  destruct (Rle_dec x (23 / 4)) as [H23|H23].
  { apply (acell (11 / 2) (23 / 4) (15889 / 5000000) (40961 / 10000000)); [lra|lra|apply em_23|apply em_22|unfold ali; lra|unfold ali; lra]. }
  apply Rnot_le_lt in H23.
  destruct (Rle_dec x (6)) as [H24|H24].
  { apply (acell (23 / 4) (6) (24747 / 10000000) (997 / 312500)); [lra|lra|apply em_24|apply em_23|unfold ali; lra|unfold ali; lra]. }
  apply Rnot_le_lt in H24.
  apply (acell 6 8 0 (497 / 200000)); [lra|lra|left; apply exp_pos|apply em_24|unfold ali; lra|unfold ali; lra].
Qed.

Lemma ali_c0 : num_R (aliter_coeff 0) = 1.
Proof.
  replace (aliter_coeff 0) with (NFloat (24 # 24)) by (vm_compute; reflexivity).
  unfold num_R, Q2R. cbn [Qnum Qden]. lra.
Qed.
Lemma ali_c1 : num_R (aliter_coeff 1) = 5.
Proof.
  replace (aliter_coeff 1) with (NFloat (120 # 24)) by (vm_compute; reflexivity).
  unfold num_R, Q2R. cbn [Qnum Qden]. lra.
Qed.
Lemma ali_c2 : num_R (aliter_coeff 2) = 15.
Proof.
  replace (aliter_coeff 2) with (NFloat (720 # 48)) by (vm_compute; reflexivity).
  unfold num_R, Q2R. cbn [Qnum Qden]. lra.
Qed.
Lemma ali_c3 : num_R (aliter_coeff 3) = 35.
Proof.
  replace (aliter_coeff 3) with (NFloat (5040 # 144)) by (vm_compute; reflexivity).
  unfold num_R, Q2R. cbn [Qnum Qden]. lra.
Qed.
Lemma ali_c4 : num_R (aliter_coeff 4) = 70.
Proof.
  replace (aliter_coeff 4) with (NFloat (40320 # 576)) by (vm_compute; reflexivity).
  unfold num_R, Q2R. cbn [Qnum Qden]. lra.
Qed.

Lemma aliter_value v : gives (aliter_loop RE v (v * 0) [0; 1; 2; 3; 4]%nat)
  (1 + 5 * ((1 - v) / 2) + 15 * ((1 - v) / 2) ^ 2 + 35 * ((1 - v) / 2) ^ 3 + 70 * ((1 - v) / 2) ^ 4).
Proof.
  cbn [aliter_loop]. unfold aliter_term. run. do 2 f_equal.
  rewrite ali_c0, ali_c1, ali_c2, ali_c3, ali_c4. cbn [Pos.of_succ_nat Pos.succ]. unfold Pos.to_nat.
  cbn [Pos.iter_op Nat.add]. ring.
Qed.

Lemma aliter_sigmoid cs x : gives (sigmoid RE SAliter cs x)
  (1 / 2 + sgn_R x * (ali (Rabs x / 8) - 1 / 2)).
Proof.
  cbn [sigmoid]. eapply gives_bind; [apply sign_R|]. eapply gives_bind; [run; reflexivity|].
  do 5 (eapply gives_bind; [run; reflexivity|]). rewrite sgn_abs. eapply gives_bind; [apply aliter_value|].
  run. do 2 f_equal. unfold ali, Pos.to_nat. cbn [Pos.iter_op Nat.add]. field.
Qed.

Lemma aliter_close cs x : Rabs x <= 8 ->
  exists v, gives (sigmoid RE SAliter cs x) v /\ Rabs (v - logistic x) <= 1 / 7.
Proof.
  intros Hx. eexists. split; [apply aliter_sigmoid|].
  pose proof (Rabs_pos x) as P. pose proof (ali_close (Rabs x) ltac:(lra)) as H.
  unfold sgn_R. destruct (Rlt_dec 0 x) as [A|A]; [|destruct (Rlt_dec x 0) as [B|B]].
  - rewrite (Rabs_right x) in H |- * by lra. replace (1 / 2 + 1 * (ali (x / 8) - 1 / 2)) with (ali (x / 8)) by lra. exact H.
  - rewrite (Rabs_left x) in H |- * by lra. rewrite logistic_opp in H. rewrite <- Rabs_Ropp.
    match goal with |- Rabs ?e <= _ => replace e with (ali (- x / 8) - (1 - logistic x)) by lra end. exact H.
  - assert (x = 0) as -> by lra. unfold logistic. rewrite Ropp_0, exp_0. apply Rabs_le. lra.
Qed.
