(** C80: logarithm, reciprocal by logarithm and log_softmax with the default encoder. *)
From Coq Require Import QArith Reals Qreals Lra String.
From Verif Require Import Util Modular S_Ring S_Tensor S_Wraps S_Div S_Bil S_Spdz S_Circuit S_Fss S_Sort S_Real S_Fixed
  M_Torch M_Encoder M_Tensor M_Share M_Spdz M_Store M_Fss M_Engine M_Approx M_Softmax
  L_Torch L_Tensor L_Encoder L_Share L_Div L_Bil L_Mul L_Rsub L_Circuit L_Fss2 L_Fss3 L_Engine L_Real L_Softmax L_Fixed L_Fixed2 L_Fixed3 L_FixedSoft L_FixedLog P_Fss P_Sort P_Fixed P_FixedSoft.
From Verif Require Import S_Softmax.
Local Open Scope Z_scope.
Local Open Scope list_scope.

(** C80 for two parties with the default encoder, every backend, sharing and supply of valid
    triples: log with its default numbers of rounds never raises, and if no shares carried it is
    within 7/100 of the natural logarithm for 1 <= x <= 20 ... *)
Theorem C80_log : forall K alpha ev (gen : fop -> nat -> nat -> result (list (list K))) s su sh x v w,
  default_pair s -> supply_ok sh su -> sh <> [] -> (0 < numel sh)%nat ->
  shares_of s sh v x -> between 1 20 v -> none_waiting (fst w) ->
  computes alpha ev gen s su sh (fun W T E => log_a E 2 8) ln (fun _ => 7 / 100)%R x v w.
Proof.
  intros K alpha ev gen s su sh x v w [Hn Hc] [HT HR] Hsh HN HX HV HW.
  eapply (computes_intro _ _ _ _ _ _ _ _ _ (fun r => 1 <= r <= 20)%R); auto.
  - intros e y He SY. eapply f_weaken; [apply (log_f alpha ev gen s su sh e); auto|]. intros z _ H F. cbv beta in H |- *.
    destruct H as [H1 H2]; [lra|]. apply Rabs_le. lra.
  - apply (between_range 1 20); auto; lia.
  - apply (between_fixed s 1 20); auto.
Qed.
Print Assumptions C80_log.

(** ... and the reciprocal with the method "log" has a relative error of at most 11/100 for
    1 <= |x| <= 19. *)
Definition log_range (v : list Z) : Prop := Forall (fun a => 65536 <= Z.abs a <= 19 * 65536) v.
Theorem C80_reciprocal : forall K alpha ev (gen : fop -> nat -> nat -> result (list (list K))) s su sh n x v w,
  backend_ok alpha ev gen -> default_pair s -> supply_ok sh su -> sh <> [] -> (0 < numel sh)%nat ->
  shares_of s sh v x -> log_range v -> none_waiting (fst w) ->
  computes alpha ev gen s su sh (fun W T E => reciprocal E RLog n) (fun r => 1 / r)%R (fun r => 11 / 100 / Rabs r)%R x v w.
Proof.
  intros K alpha ev gen s su sh n x v w HG [Hn Hc] [HT HR] Hsh HN HX HV HW.
  eapply (computes_intro _ _ _ _ _ _ _ _ _ (fun r => 1 <= Rabs r <= 19)%R); auto.
  - intros e y He SY. eapply f_weaken; [apply (reciprocal_log_f alpha ev gen s su sh e HG HR Hn Hc Hsh HT He n); auto|]. intros z _ H F. cbv beta in H |- *.
    apply H. lra.
  - eapply Forall_impl; [|exact HV]. cbn. intros a. lia.
  - eapply Forall_impl; [|exact HV]. cbn. intros a [H1 H2]. rewrite fixed_default by auto. apply IZR_le in H1, H2. rewrite abs_IZR in H1, H2. rewrite mult_IZR in H2.
    unfold Rdiv. rewrite Rabs_mult, (Rabs_right (/ 65536)) by lra. lra.
Qed.
Print Assumptions C80_reciprocal.

(** 1, 2, 10 and 20: logarithms -0.0026, 0.6940, 2.2964, 2.9802 (0, 0.6931, 2.3026, 2.9957), and
    the reciprocals of 1, -2, 10 and 16 *)
Definition C80_v : list Z := [65536; 131072; 655360; 1310720].
Definition C80_r : list Z := [65536; -131072; 655360; 1048576].
Example C80_log_witness : default_pair fx_s /\ supply_ok [4%nat] toy_supply /\ none_waiting (fst (fw0, 0%nat)) /\ backend_ok t_alpha t_ev toy /\
  shares_of fx_s [4%nat] C80_v (fx_x (10^18) C80_v) /\ between 1 20 C80_v /\
  shares_of fx_s [4%nat] C80_r (fx_x (10^18) C80_r) /\ log_range C80_r /\
  fx_run (fun W T E => log_a E 2 8) toy_supply (fx_x (10^18) C80_v) = (Ok (mkT [4%nat] [-168; 45479; 150498; 195309]), false) /\
  fx_run (fun W T E => reciprocal E RLog 10) toy_supply (fx_x (10^18) C80_r) = (Ok (mkT [4%nat] [65536; -32845; 6562; 4087]), false).
Proof.
  split; [split; reflexivity|]. split; [exact fx_supply4|]. split; [exact fw0_none|]. split; [exact toy_good|].
  split; [one_share|]. split; [repeat constructor; discriminate|]. split; [one_share|]. split; [repeat constructor; discriminate|].
  split; vm_compute; reflexivity.
Qed.

(** C80: log_softmax of 2 to 19 tensors of the same shape with secrets from -249 to 249 whose
    largest entry occurs once at each position never raises; if no shares carried, then at each
    position the differences of the entries are kept exactly and every result is within
    9/100 + n/300 of the logarithm of softmax. Missing from the full statement: carrying shares,
    ties and wide spreads (refuted below), more entries, replicated secrets. *)
Theorem C80_log_softmax_partial : forall K alpha ev (gen : fop -> nat -> nat -> result (list (list K))) s su sh z xs vs w,
  backend_ok alpha ev gen -> default_pair s -> supply_ok sh su -> sh <> [] -> (0 < numel sh)%nat ->
  (2 <= length xs <= 19)%nat -> Forall2 (shares_of s sh) vs xs -> Forall (Forall (fun a => Z.abs a <= 249 * 65536)) vs ->
  (forall e, (e < numel sh)%nat -> one_top (line_R s vs e)) -> none_waiting (fst w) ->
  exists ps w' noted qs, log_softmax (mpc_engine alpha ev gen s su) z xs w = (Ok ps, w') /\
    log_softmax (noted_engine alpha ev gen s su) z xs (w, false) = (Ok ps, (w', noted)) /\ none_waiting (fst w') /\
    length ps = length xs /\ Forall2 (shares_of s sh) qs ps /\ Forall (Forall (fun a => - 2^63 <= a < 2^63)) qs /\
    (noted = false -> forall e, (e < numel sh)%nat -> exists c,
       Forall2 (fun x p => p = x - c /\ Rabs (p - ln (softmax_at (line_R s vs e) x)) <= 9 / 100 + INR (length xs) / 300)%R (line_R s vs e) (line_R s qs e)).
Proof.
  intros K alpha ev gen s su sh z xs vs w HG [Hn Hc] [HT HR] Hsh HN HL HX HV HO HW.
  destruct (shares_goods s sh vs xs HX HV) as [GX SX].
  pose proof (fun e He => log_softmax_f alpha ev gen s su sh e HG HR Hn Hc Hsh HT He z xs HL SX) as H.
  destruct (H 0%nat HN w false HW) as (ps & w' & b' & E0 & E & N & _ & [SP LP] & _).
  destruct (sharings_goods s sh ps SP) as (qs & GP).
  exists ps, w', b', qs. split; [exact E0|]. split; [exact E|]. split; [exact N|]. split; [exact LP|].
  assert (SQ : Forall2 (shares_of s sh) qs ps /\ Forall (Forall (fun a => - 2^63 <= a < 2^63)) qs).
  { clear - GP. induction GP as [|v x l k G F [A B]]; [split; constructor|]. destruct (sharing_to s sh x v G). split; constructor; auto. }
  destruct SQ as [SQ1 SQ2]. split; [exact SQ1|]. split; [exact SQ2|]. intros HB e He.
  destruct (H e He w false HW) as (ps' & w'' & b'' & F0 & F1 & _ & _ & _ & Q). rewrite E0 in F0. injection F0 as <- <-.
  rewrite E in F1. injection F1 as <-. specialize (Q HB). rewrite <- (goods_dec s sh e qs ps He GP), <- (goods_dec s sh e vs xs He GX).
  destruct Q as (c & Q).
  - intros x Ix. apply (in_map (dec s e)) in Ix. rewrite (goods_dec s sh e vs xs He GX) in Ix. apply in_map_iff in Ix. destruct Ix as (v & <- & Iv).
    rewrite Forall_forall in HV. specialize (HV v Iv).
    assert (A : Z.abs (nth e v 0) <= 249 * 65536).
    { destruct (Nat.lt_ge_cases e (length v)) as [Hl|Hl]; [rewrite Forall_forall in HV; apply HV, nth_In, Hl|rewrite nth_overflow by lia; cbn; lia]. }
    apply IZR_le in A. rewrite abs_IZR, mult_IZR in A. unfold fixed. rewrite (S_val s Hc). unfold Rdiv. rewrite Rabs_mult, (Rabs_right (/ 65536)) by lra. lra.
  - rewrite (goods_dec s sh e vs xs He GX). apply HO. exact He.
  - exists c. apply Forall2_maps. exact Q.
Qed.
Print Assumptions C80_log_softmax_partial.

(** 1, 3 and 2 (as in [C79_witness]): -2.4104, -0.4104, -1.4104 (-2.4076, -0.4076, -1.4076) *)
Definition fsl_run (l : list Z) : result (list tensor) * bool :=
  let p := log_softmax (noted_engine t_alpha t_ev toy fx_s toy_supply) (fs_x 0) (map fs_x l) (fw0, 0%nat, false) in
  (do l <- fst p; rmap reconstruct l, snd (snd p)).
Example C80_log_softmax_witness :
  backend_ok t_alpha t_ev toy /\ default_pair fx_s /\ supply_ok [1%nat] toy_supply /\ none_waiting (fst (fw0, 0%nat)) /\
  Forall2 (shares_of fx_s [1%nat]) C79_vs (map fs_x [65536; 196608; 131072]) /\
  Forall (Forall (fun a => Z.abs a <= 249 * 65536)) C79_vs /\
  (forall e, (e < numel [1%nat])%nat -> one_top (line_R fx_s C79_vs e)) /\
  fsl_run [65536; 196608; 131072] = (Ok [mkT [1%nat] [-157970]; mkT [1%nat] [-26898]; mkT [1%nat] [-92434]], false).
Proof.
  destruct C79_witness as (A & B & C & D & E & F & G & _). repeat (split; [assumption|]). vm_compute. reflexivity.
Qed.

(** C80 refuted outside these ranges, with shares that do not carry: the logarithm of 300 comes out
    above 7 * 10^8, the two results for 20 and 20 are -11.8 (log_softmax: - ln 2). *)
Theorem C80_log_refuted : exists (gen : fop -> nat -> nat -> result (list (list tkey))) s su z x y r ps w w1 w2,
  backend_ok t_alpha t_ev gen /\ default_pair s /\ supply_ok [1%nat] su /\ none_waiting (fst w) /\
  shares_of s [1%nat] [300 * 65536] x /\ shares_of s [1%nat] [20 * 65536] y /\
  log_a (noted_engine t_alpha t_ev gen s su) 2 8 x (w, false) = (Ok r, (w1, false)) /\ reconstruct r = Ok (mkT [1%nat] [48067436158300]) /\
  log_softmax (noted_engine t_alpha t_ev gen s su) z [y; y] (w, false) = (Ok ps, (w2, false)) /\
  rmap reconstruct ps = Ok [mkT [1%nat] [-771120]; mkT [1%nat] [-771120]] /\ (ln (softmax_at [20; 20] 20) = - ln 2)%R.
Proof.
  exists toy, fx_s, toy_supply, (fs_x 0), (fs_x (300 * 65536)), (fs_x (20 * 65536)). eexists _, _, (fw0, 0%nat), _, _.
  split; [exact toy_good|]. split; [split; reflexivity|]. split; [exact fx_supply1|]. split; [exact fw0_none|].
  do 2 (split; [one_share|]).
  split; [vm_compute; reflexivity|]. split; [vm_compute; reflexivity|]. split; [vm_compute; reflexivity|]. split; [vm_compute; reflexivity|].
  replace (softmax_at [20; 20] 20)%R with (/ 2)%R; [apply ln_Rinv; lra|].
  unfold softmax_at. cbn [map rsum fold_right]. pose proof (exp_pos 20). field. lra.
Qed.
Print Assumptions C80_log_refuted.
