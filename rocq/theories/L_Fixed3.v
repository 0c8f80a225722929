(** exp, reciprocal and sigmoid with the default encoder, one position at a time. *)
From Coq Require Import QArith Reals Qreals Lra String.
From Verif Require Import Util Modular S_Ring S_Tensor S_Wraps S_Div S_Bil S_Spdz S_Circuit S_Fss S_Sort S_Real S_Fixed
  M_Torch M_Encoder M_Tensor M_Share M_Spdz M_Store M_Fss M_Engine M_Approx
  L_Torch L_Tensor L_Share L_Engine L_Real L_Sigmoid L_Fixed L_Fixed2 L_FixedR L_FixedN.
Local Open Scope Z_scope.
Local Open Scope list_scope.

Section Default.
  Context {K : Type} (alpha : K -> Z) (ev : fop -> Z -> Z -> K -> Z)
          (gen : fop -> nat -> nat -> result (list (list K))) (s : sess) (su : tri_supply) (sh : list nat) (e : nat).
  Hypothesis HG : good_gen (fun o k0 k1 => keys_ok alpha ev o k0 k1 /\ no_carry ev o k0) gen.
  Hypothesis Hn : s_n s = 2%nat.
  Hypothesis Hc : s_cfg s = mkConfig 2 16.
  Hypothesis Hsh : sh <> [].
  Hypothesis HT : forall k, valid_triples sh sh sh (mul_val sh sh sh) 2 (su_tri su k sh sh).
  Hypothesis HR : forall k, draws (2^64) 2 [1%nat] (su_rnd su k).
  Hypothesis He : (e < numel sh)%nat.
  Notation ME := (mpc_engine alpha ev gen s su).
  Notation NE := (noted_engine alpha ev gen s su).
  Notation dec := (dec s e).
  Notation enc := (enc s).
  Notation sharing := (sharing s sh).
  Open Scope R_scope.

  Lemma base1 : (1 <= c_base (s_cfg s))%Z. Proof. clear - Hc. rewrite Hc. cbn. lia. Qed.
  Lemma S_val : IZR (scale (s_cfg s)) = 65536. Proof. clear - Hc. rewrite Hc. reflexivity. Qed.
  Lemma u_val : ulp (s_cfg s) = U. Proof. clear - Hc. unfold ulp. rewrite S_val. lra. Qed.
  Lemma HS2 : IZR (scale (s_cfg s)) <= 2147483648. Proof. clear - Hc. rewrite S_val. lra. Qed.
  Lemma small1 r B : Rabs r <= B -> B <= 1000000 -> Rabs r * IZR (scale (s_cfg s)) < 9223372036854775808.
  Proof. clear - Hc. rewrite S_val. lra. Qed.
  Lemma small2 r : Rabs r < 2147483648 -> Rabs r * (IZR (scale (s_cfg s)) * IZR (scale (s_cfg s))) < 9223372036854775808.
  Proof. clear - Hc. rewrite S_val. lra. Qed.
  Lemma fits_val r : Rabs r <= 32767 -> fits s r.
  Proof. clear - Hc. unfold fits. rewrite S_val. lra. Qed.
  Lemma enc_k k : Rabs (IZR k) <= 1000000 -> enc (NInt k) = IZR k.
  Proof. clear - Hc. intros H. apply (enc_int_R s base1). apply (small1 _ _ H). lra. Qed.

  (** x / 2^8, + 1, squared 8 times *)
  Lemma exp_f x : sharing x ->
    frun (exp_a ME 8 x) (exp_a NE 8 x) sharing
      (fun z => -512 <= dec x <= 20 -> exists b, Rabs (b 0%nat - (1 + dec x / 256)) <= 2 * U /\ squares b /\
                                       (Rabs (b 8%nat) < 2147483648 -> Rabs (dec z - b 8%nat) <= U)).
  Proof.
    clear HR HG. pose proof base1 as Hb. pose proof S_val as SV. pose proof u_val as UV. intros SX. unfold exp_a.
    change (2 ^ Z.of_nat 8)%Z with 256%Z. change (Z.to_pos 256) with (pow2p 8).
    eapply f_bind; [apply (f_div alpha ev gen s su sh e Hn Hb He x 256 ltac:(lia) SX)|]. intros q SQ.
    eapply f_bind; [apply (f_linp alpha ev gen s su sh e Hb Hsh He LAdd q (NInt 1) SQ)|]. intros t ST.
    eapply f_weaken; [apply (f_pow2 alpha ev gen s su sh e Hn Hb Hsh HT He 8 t ltac:(lra) ST)|].
    intros z _ (b & B0 & B1 & B2) ET EQ HX. cbn [lin_R] in ET. rewrite UV, (enc_k 1) in * by (rewrite Rabs_right; lra).
    apply abs_in in EQ.
    rewrite ET in B0 by (apply (small1 _ 10); [apply Rabs_le; lra|lra]).
    exists b. split; [rewrite B0; apply Rabs_le; lra|]. split.
    - intros i Hi HB. apply B1; [exact Hi|]. apply small2. exact HB.
    - intros HB. apply B2, small2, HB.
  Qed.

  (** at most 1/100 *)
  Lemma exp_low x : sharing x ->
    frun (exp_a ME 8 x) (exp_a NE 8 x) sharing
      (fun z => -512 <= dec x <= 1 / 100 -> Rabs (dec z - limexp 8 (dec x)) <= 1042 * U /\ - (3 * U) <= dec z /\
                (-60 <= dec x <= - (15 / 2) -> dec z <= 57 / 100000)).
  Proof.
    clear HR HG. intros SX. eapply f_weaken; [apply exp_f; exact SX|]. intros z _ H HX. destruct H as (b & B0 & B1 & B2); [lra|].
    pose proof (exp_chain b _ HX B0 B1) as C. destruct (exp_chain_low b _ HX B0 B1) as [L1 L2].
    assert (T : Rabs (limexp 8 (dec x)) <= 2).
    {
      destruct (Rle_dec (-256) (dec x)) as [Q|Q].
      - pose proof (exp_below 8 (dec x) ltac:(lra)) as [E1 E2]. rewrite Rabs_right by lra.
        pose proof (exp_ineq1_le (- dec x)) as E3. rewrite exp_Ropp in E3. pose proof (exp_pos (dec x)) as E4.
        assert (99 / 100 * exp (dec x) <= 1).
        { apply Rle_trans with (/ exp (dec x) * exp (dec x)); [apply Rmult_le_compat_r; lra|]. rewrite Rinv_l; lra. }
        lra.
      - rewrite limexp8. rewrite <- RPow_abs. apply Rle_trans with (1 ^ (2 ^ 8)).
        + apply pow_incr. split; [apply Rabs_pos|]. apply Rabs_le. lra.
        + rewrite pow1. lra. }
    apply abs_in in C, T. assert (B8 : Rabs (b 8%nat) < 2147483648) by (apply Rabs_def1; lra).
    specialize (B2 B8). apply abs_in in B2. split; [apply Rabs_le; lra|]. split; [lra|]. intros Q. specialize (L2 Q). lra.
  Qed.

  Lemma exp_high x : sharing x ->
    frun (exp_a ME 8 x) (exp_a NE 8 x) sharing
      (fun z => 0 <= dec x <= 20 -> Rabs (dec z - limexp 8 (dec x)) <= 1031 * U * limexp 8 (dec x)).
  Proof.
    clear HR HG. intros SX. eapply f_weaken; [apply exp_f; exact SX|]. intros z _ H HX. destruct H as (b & B0 & B1 & B2); [lra|].
    pose proof (exp_chain_rel b _ HX B0 B1) as C.
    assert (T1 : 1 <= limexp 8 (dec x)) by (rewrite limexp8; apply pow_R1_Rle; lra).
    assert (T2 : limexp 8 (dec x) <= 400000000).
    { apply Rle_trans with (limexp 8 20); [apply limexp_mono; lra|]. rewrite limexp8.
      assert (Q0 : (1 + 20 / 256) ^ (2 ^ 1) <= 11624 / 10000) by (change (2 ^ 1)%nat with 2%nat; cbn [pow]; lra).
      assert (Q1 := pow_up (1 + 20 / 256) 1 (11624 / 10000) (13512 / 10000) ltac:(lra) ltac:(lra) Q0 ltac:(lra)).
      assert (Q2 := pow_up (1 + 20 / 256) 2 (13512 / 10000) (18258 / 10000) ltac:(lra) ltac:(lra) Q1 ltac:(lra)).
      assert (Q3 := pow_up (1 + 20 / 256) 3 (18258 / 10000) (33336 / 10000) ltac:(lra) ltac:(lra) Q2 ltac:(lra)).
      assert (Q4 := pow_up (1 + 20 / 256) 4 (33336 / 10000) (111130 / 10000) ltac:(lra) ltac:(lra) Q3 ltac:(lra)).
      assert (Q5 := pow_up (1 + 20 / 256) 5 (111130 / 10000) (123499 / 1000) ltac:(lra) ltac:(lra) Q4 ltac:(lra)).
      assert (Q6 := pow_up (1 + 20 / 256) 6 (123499 / 1000) 15253 ltac:(lra) ltac:(lra) Q5 ltac:(lra)).
      exact (pow_up (1 + 20 / 256) 7 15253 400000000 ltac:(lra) ltac:(lra) Q6 ltac:(lra)). }
    apply abs_in in C. assert (B8 : Rabs (b 8%nat) < 2147483648) by (apply Rabs_def1; nra).
    specialize (B2 B8). apply abs_in in B2. apply Rabs_le. nra.
  Qed.

  (** one Newton step *)
  Lemma nr_step_R a r p b c r' : 49 / 100 <= a <= 51 -> Rabs (1 - a * r) <= 1 ->
    (Rabs (r * 2) < 2147483648 -> Rabs (p - r * 2) <= U) -> (Rabs (r * r) < 2147483648 -> Rabs (b - r * r) <= 2 * U) ->
    (Rabs (b * a) < 2147483648 -> Rabs (c - b * a) <= 2 * U) -> (Rabs (p - c) <= 1000 -> r' = p - c) ->
    Rabs ((1 - a * r') - (1 - a * r) * (1 - a * r)) <= a * (3 + 2 * a) * U.
  Proof.
    clear. intros Ha Hd Hp Hb Hc Hr. apply abs_in in Hd.
    assert (R : 0 <= r <= 5) by nra.
    assert (P : Rabs (p - r * 2) <= U) by (apply Hp; apply Rabs_def1; lra). apply abs_in in P.
    assert (B : Rabs (b - r * r) <= 2 * U) by (apply Hb; apply Rabs_def1; nra). apply abs_in in B.
    assert (B' : -1 <= b <= 26) by nra.
    assert (C : Rabs (c - b * a) <= 2 * U) by (apply Hc; apply Rabs_def1; nra). apply abs_in in C.
    assert (AR : 0 <= a * r <= 2) by lra.
    assert (ARR : 0 <= r * r * a <= 10) by nra.
    assert (BA : - (2 * U) * a <= b * a - r * r * a <= 2 * U * a) by nra.
    assert (D : Rabs (p - c) <= 1000) by (apply Rabs_le; lra). rewrite (Hr D).
    replace ((1 - a * (p - c)) - (1 - a * r) * (1 - a * r)) with (- (a * ((p - r * 2) - (c - b * a) - (b * a - r * r * a)))) by ring.
    rewrite Rabs_Ropp, Rabs_mult, (Rabs_right a) by lra. rewrite (Rmult_assoc a (3 + 2 * a) U). apply Rmult_le_compat_l; [lra|]. apply Rabs_le. lra.
  Qed.

  Lemma nr_f n x : sharing x -> forall r, sharing r ->
    frun (nr_loop ME n x r) (nr_loop NE n x r) sharing
      (fun z => 49 / 100 <= dec x <= 51 -> exists d : nat -> R, d 0%nat = 1 - dec x * dec r /\ d n = 1 - dec x * dec z /\
         forall i, (i < n)%nat -> Rabs (d i) <= 1 -> Rabs (d (S i) - d i * d i) <= dec x * (3 + 2 * dec x) * U).
  Proof.
    clear HR HG. pose proof base1 as Hb. pose proof u_val as UV. intros SX. induction n as [|n IH]; intros r SR; cbn [nr_loop].
    - apply f_ret; auto. intros _. exists (fun _ => 1 - dec x * dec r). split; [reflexivity|]. split; [reflexivity|]. intros; lia.
    - eapply f_bind; [apply (f_mulp_int alpha ev gen s su sh e Hn Hb Hsh He r 2 SR); apply (small1 _ 2); [rewrite Rabs_right; lra|lra]|]. intros p SP.
      eapply f_bind; [apply (f_mul alpha ev gen s su sh e Hn Hb HT He r r SR SR)|]. intros b SB.
      eapply f_bind; [apply (f_mul alpha ev gen s su sh e Hn Hb HT He b x SB SX)|]. intros c SC.
      eapply f_bind; [apply (f_lin alpha ev gen s su sh e Hb He LSub p c SP SC)|]. intros r' SR'.
      eapply f_weaken; [apply IH; exact SR'|]. intros z _ HZ ER EC EB EP HX. cbn [lin_R] in ER. rewrite UV in *.
      destruct (HZ HX) as (d & D0 & DN & DS). exists (fun i => match i with O => 1 - dec x * dec r | S i => d i end).
      split; [reflexivity|]. split; [exact DN|]. intros [|i] Hi HB; [|apply DS; [lia|exact HB]]. rewrite D0.
      apply (nr_step_R _ _ (dec p) (dec b) (dec c)); auto.
      + intros Q. apply EP, small2, Q.
      + intros Q. apply EB, small2, Q.
      + intros Q. apply EC, small2, Q.
      + intros Q. apply ER. apply (small1 _ 1000 Q). lra.
  Qed.

  Lemma enc_half : enc (lit 5 10) = 1 / 2.
  Proof. clear - Hc. unfold enc, fixed, lit. rewrite Hc. change (encode1 (mkConfig 2 16) (NFloat (5 # 10))) with 32768%Z. change (scale (mkConfig 2 16)) with 65536%Z. lra. Qed.
  Lemma enc_003 : enc (lit 3 1000) = 196 * U.
  Proof. clear - Hc. unfold enc, fixed, lit. rewrite Hc. change (encode1 (mkConfig 2 16) (NFloat (3 # 1000))) with 196%Z. change (scale (mkConfig 2 16)) with 65536%Z. lra. Qed.

  Lemma recip_R a x : 1 / 2 <= x <= 50 -> Rabs (a - x) <= U * x + 2 * U -> 499 / 1000 <= a <= 51 /\ Rabs (1 / a - 1 / x) <= 11 * U.
  Proof.
    clear. intros Hx Ha. apply abs_in in Ha. assert (A : 499 / 1000 <= a <= 51) by lra. split; [exact A|].
    replace (1 / a - 1 / x) with ((x - a) * / (a * x)) by (field; lra).
    assert (P : 0 < a * x) by nra. pose proof (Rinv_0_lt_compat _ P).
    apply Rabs_le. assert (Q : U * x + 2 * U <= 11 * U * (a * x)) by nra.
    assert (I : a * x * / (a * x) = 1) by (field; lra).
    split; apply (Rmult_le_reg_r (a * x)); auto; rewrite Rmult_assoc, Rinv_l by lra; lra.
  Qed.

  (** for 1/2 <= |x| <= 50 *)
  Lemma reciprocal_f x : sharing x ->
    frun (reciprocal ME RNewton 10 x) (reciprocal NE RNewton 10 x) sharing
      (fun z => 1 / 2 <= Rabs (dec x) <= 50 -> Rabs (dec z - 1 / dec x) <= 1 / 400 /\ (Rabs (dec x) <= 39 / 10 -> Rabs (dec z - 1 / dec x) <= 28 * U)).
  Proof.
    pose proof base1 as Hb. pose proof u_val as UV. pose proof HS2 as H2. intros SX. unfold reciprocal.
    eapply f_bind; [apply (modulus_f alpha ev gen s su sh e HG Hn Hb Hsh HT HR He H2 x SX)|]. intros a SA.
    eapply f_bind; [apply (f_rsub alpha ev gen s su sh e Hn Hb Hsh He (lit 5 10) a); [rewrite S_val; lra|exact SA]|]. intros g0 SG0.
    eapply f_bind; [apply exp_low; exact SG0|]. intros E SE.
    eapply f_bind; [apply (f_mulp_int alpha ev gen s su sh e Hn Hb Hsh He E 3 SE); apply (small1 _ 3); [rewrite Rabs_right; lra|lra]|]. intros g1 SG1.
    eapply f_bind; [apply (f_linp alpha ev gen s su sh e Hb Hsh He LAdd g1 (lit 3 1000) SG1)|]. intros g SG.
    eapply f_bind; [apply (nr_f 10 a SA g SG)|]. intros r SR.
    eapply f_bind; [apply (sign_f alpha ev gen s su sh e HG Hn Hb Hsh HR He H2 x SX)|]. intros q SQ.
    eapply f_weaken; [apply (f_mul alpha ev gen s su sh e Hn Hb HT He r q SR SQ)|].
    intros z _ EZ EQ ER EG EG1 EE EG0 EA HX. cbn [lin_R] in EG. rewrite UV in *. rewrite enc_half in EG0. rewrite enc_003 in EG.
    assert (FX : fits s (dec x)) by (apply fits_val; lra).
    specialize (EA FX). specialize (EQ FX). destruct (recip_R _ _ HX EA) as [RA0 IA]. clear EA. assert (RA : 49 / 100 <= dec a <= 51) by lra.
    assert (G0 : Rabs (dec g0 - (1 / 2 - dec a)) <= U) by (apply EG0, small2, Rabs_def1; lra). clear EG0.
    pose proof (abs_in _ _ G0) as G0'. destruct EE as (E1 & E2 & E3); [lra|].
    assert (EB : Rabs (dec E) <= 2).
    { pose proof (exp_below 8 (dec g0) ltac:(lra)) as [L1 L2].
      assert (exp (dec g0) <= 3 / 2).
      { pose proof (exp_ineq1_le (- dec g0)) as Q. rewrite exp_Ropp in Q. pose proof (exp_pos (dec g0)).
        assert (98 / 100 * exp (dec g0) <= 1) by (apply Rle_trans with (/ exp (dec g0) * exp (dec g0)); [apply Rmult_le_compat_r; lra|rewrite Rinv_l; lra]). lra. }
      apply abs_in in E1. apply Rabs_le. lra. }
    pose proof (abs_in _ _ EB) as EB'.
    assert (G1 : Rabs (dec g1 - dec E * 3) <= U) by (apply EG1, small2, Rabs_def1; lra). pose proof (abs_in _ _ G1) as G1'.
    assert (GG : dec g = dec g1 + 196 * U) by (apply EG, (small1 _ 10); [apply Rabs_le; lra|lra]).
    destruct (guess_fixed (dec a) (dec g0) (dec E) (dec g) RA G0 E1 E2) as (K1 & K2 & K3).
    { intros Q. apply E3. lra. }
    { rewrite GG. replace (dec g1 + 196 * U - (3 * dec E + 196 * U)) with (dec g1 - dec E * 3) by ring. exact G1. }
    destruct (ER RA) as (d & D0 & D10 & DS).
    destruct (newton_end (dec a) d (dec r) RA DS D10) as [R1 R2].
    { intros Q. rewrite D0. auto. } { intros Q. rewrite D0. auto. } { intros Q. exists (dec g). auto. }
    assert (RB : Rabs (dec r) <= 3).
    { assert (1 / dec a <= 1 / (49 / 100)) by (unfold Rdiv; rewrite !Rmult_1_l; apply Rinv_le_contravar; lra).
      assert (0 < 1 / dec a) by (apply Rdiv_lt_0_compat; lra). apply abs_in in R1. apply Rabs_le. lra. }
    pose proof (abs_in _ _ RB) as RB'. pose proof (sgn_range (dec x)) as SGR. pose proof (abs_in _ _ EQ) as EQ'.
    assert (PZ : Rabs (dec z - dec r * dec q) <= 2 * U).
    { apply EZ, small2. apply Rle_lt_trans with (3 * 2); [|lra]. rewrite Rabs_mult. apply Rmult_le_compat; auto using Rabs_pos. apply Rabs_le. lra. }
    assert (IX : 1 / dec x = sgn_R (dec x) * (1 / Rabs (dec x))).
    { assert (dec x <> 0) by (intros Q; rewrite Q, Rabs_R0 in HX; lra).
      unfold sgn_R. repeat destruct (Rlt_dec _ _); try lra.
      - rewrite Rabs_right by lra. field. lra.
      - rewrite Rabs_left by lra. field. lra. }
    assert (FIN : forall B, Rabs (dec r - 1 / dec a) <= B -> Rabs (dec z - 1 / dec x) <= B + 16 * U).
    { intros B HB. rewrite IX.
      replace (dec z - sgn_R (dec x) * (1 / Rabs (dec x))) with
        ((dec z - dec r * dec q) + dec r * (dec q - sgn_R (dec x)) + sgn_R (dec x) * ((dec r - 1 / dec a) + (1 / dec a - 1 / Rabs (dec x)))) by ring.
      eapply Rle_trans; [apply Rabs_triang|]. assert (A1 : Rabs ((dec z - dec r * dec q) + dec r * (dec q - sgn_R (dec x))) <= 5 * U).
      { eapply Rle_trans; [apply Rabs_triang|]. rewrite Rabs_mult.
        assert (Rabs (dec r) * Rabs (dec q - sgn_R (dec x)) <= 3 * U) by (apply Rmult_le_compat; auto using Rabs_pos). lra. }
      assert (A2 : Rabs ((dec r - 1 / dec a) + (1 / dec a - 1 / Rabs (dec x))) <= B + 11 * U).
      { eapply Rle_trans; [apply Rabs_triang|]. lra. }
      rewrite Rabs_mult. assert (A3 : Rabs (sgn_R (dec x)) <= 1) by (apply Rabs_le; lra).
      assert (A4 : Rabs (sgn_R (dec x)) * Rabs ((dec r - 1 / dec a) + (1 / dec a - 1 / Rabs (dec x))) <= 1 * (B + 11 * U))
        by (apply Rmult_le_compat; auto using Rabs_pos). lra. }
    split.
    - eapply Rle_trans; [apply (FIN _ R1)|]. lra.
    - intros Q. eapply Rle_trans; [apply (FIN (12 * U))|lra]. apply R2.
      assert (RA2 : dec a <= 4); [|exact RA2]. clear - Q HX IA RA.
      destruct (Rle_dec (dec a) 4) as [|N]; [assumption|exfalso]. apply abs_in in IA.
      assert (1 / dec a <= 1 / 4) by (unfold Rdiv; rewrite !Rmult_1_l; apply Rinv_le_contravar; lra).
      assert (1 / (39 / 10) <= 1 / Rabs (dec x)) by (unfold Rdiv; rewrite !Rmult_1_l; apply Rinv_le_contravar; lra). lra.
  Qed.
  Close Scope R_scope.
End Default.
