(** Lemmas on shared modules. *)
From Coq Require Import QArith Qabs String Lqa.
From Verif Require Import Util Modular S_Ring S_Tensor M_Torch M_Encoder L_Encoder M_Tensor M_Share L_Torch L_Tensor L_Share M_Spdz M_Conv M_Module S_Module.
Local Open Scope Z_scope.

Lemma fits_trunc c v : 1 <= c_base c -> fits c v -> - 2^63 <= Qtrunc (num_q v * inject_Z (scale c)) < 2^63.
Proof.
  intros Hb [Hlo Hhi]. fold (scale c) in *. set (P := (num_q v * inject_Z (scale c))%Q) in *.
  destruct (Qlt_le_dec P 0) as [Hn|Hn].
  - destruct (proj2 (Qtrunc_toward_zero P) (Qlt_le_weak _ _ Hn)) as [H1 H2].
    split; [|change 0%Q with (inject_Z 0) in H2; rewrite <- Zle_Qle in H2; lia].
    rewrite Zle_Qle. eapply Qle_trans; [apply Hlo|exact H1].
  - destruct (proj1 (Qtrunc_toward_zero P) Hn) as [H1 H2].
    split; [change 0%Q with (inject_Z 0) in H1; rewrite <- Zle_Qle in H1; lia|].
    rewrite Zlt_Qlt. eapply Qle_lt_trans; [exact H2|exact Hhi].
Qed.

(** the integer a number is encoded as *)
Lemma encode1_trunc c v : 1 <= c_base c -> fits c v -> encode1 c v = Qtrunc (num_q v * inject_Z (scale c)).
Proof.
  intros Hb HF. pose proof (fits_trunc c v Hb HF) as HT. destruct v as [z|q]; cbn [encode1 num_q] in *.
  - assert (E : Qtrunc (inject_Z z * inject_Z (scale c)) = z * scale c).
    { apply Qtrunc_inject. rewrite inject_Z_mult. reflexivity. }
    rewrite E in HT |- *. cbn [cast]. rewrite wrap_to_ring64. apply (in_ring64 _ HT).
  - apply flong_in_range. exact HT.
Qed.

Lemma rounded_intro c v q : 1 <= c_base c -> fits c v ->
  (num_q q == inject_Z (encode1 c v) / inject_Z (scale c))%Q -> rounded c v q.
Proof.
  intros Hb HF Hq. rewrite encode1_trunc in Hq by auto. pose proof (scale_Q_pos c Hb) as Hs.
  unfold rounded, unit_of. fold (scale c). generalize dependent (num_q q). intros q' Hv.
  set (w := num_q v) in *. set (S := inject_Z (scale c)) in *. set (t := Qtrunc (w * S)) in *.
  assert (Hne : ~ (S == 0)%Q) by (intros E; rewrite E in Hs; apply (Qlt_irrefl 0); exact Hs).
  split; [|split; [|split; [|split]]].
  - rewrite Hv. setoid_replace (inject_Z t / S - w)%Q with ((inject_Z t - w * S) / S)%Q by (field; auto).
    unfold Qdiv. rewrite Qabs_Qmult, (Qabs_pos (/ S)) by (apply Qlt_le_weak, Qinv_lt_0_compat; auto).
    apply Qmult_lt_compat_r; [apply Qinv_lt_0_compat; auto|]. apply Qtrunc_bound.
  - intros Hw. assert (H0 : (0 <= w * S)%Q) by (apply Qmult_le_0_compat; auto; apply Qlt_le_weak; auto).
    destruct (proj1 (Qtrunc_toward_zero (w * S)) H0) as [H1 H2]. fold t in H1, H2. rewrite Hv. split.
    + apply Qle_shift_div_l; try (rewrite Qmult_0_l); auto.
    + apply Qle_shift_div_r; try (rewrite Qmult_0_l); auto.
  - intros Hw. assert (H0 : (w * S <= 0)%Q).
    { rewrite <- (Qmult_0_l S). apply Qmult_le_compat_r; auto. apply Qlt_le_weak; auto. }
    destruct (proj2 (Qtrunc_toward_zero (w * S)) H0) as [H1 H2]. fold t in H1, H2. rewrite Hv. split.
    + apply Qle_shift_div_l; try (rewrite Qmult_0_l); auto.
    + apply Qle_shift_div_r; try (rewrite Qmult_0_l); auto.
  - intros k Hk. assert (E : t = k).
    { apply Qtrunc_inject. rewrite Hk. field. auto. }
    rewrite Hv, E, Hk. field. auto.
  - exists t. rewrite Hv. field. auto.
Qed.

Lemma decode_rounded c vs : 1 <= c_base c -> Forall (fits c) vs ->
  exists d, decode c (TLong (encode c vs)) = Ok d /\ Forall2 (rounded c) vs (tt_nums d).
Proof.
  intros Hb HF. cbn [decode]. destruct (Nat.eqb_spec (c_prec c) 0) as [E|N]; eexists; (split; [reflexivity|]);
    cbn [tt_nums]; unfold encode; rewrite ?map_map; rewrite Forall_forall in HF.
  - assert (G : forall l, (forall v, In v l -> fits c v) -> Forall2 (rounded c) l (map (fun v => NFloat (inject_Z (encode1 c v))) l)).
    { induction l as [|v l IH]; intros H; cbn [map]; constructor.
      - apply rounded_intro; auto using in_eq. cbn [num_q]. unfold scale. rewrite E. change (inject_Z (c_base c ^ Z.of_nat 0)) with 1%Q. field.
      - apply IH. intros; apply H; right; auto. }
    apply G, HF.
  - assert (G : forall l, (forall v, In v l -> fits c v) -> Forall2 (rounded c) l (map (fun v => NFloat (decode1 c (encode1 c v))) l)).
    { induction l as [|v l IH]; intros H; cbn [map]; constructor.
      - apply rounded_intro; auto using in_eq. cbn [num_q]. apply decode1_correct; auto.
      - apply IH. intros; apply H; right; auto. }
    apply G, HF.
Qed.

(** one parameter, shared and taken back *)
Lemma param_round_trip s parties pl sh v u : 1 <= c_base (s_cfg s) -> (2 <= s_n s)%nat ->
  params_ok (s_cfg s) sh v -> psup_ok s parties pl sh u ->
  exists x v', share_param s parties pl sh v u = Ok x /\ m_sid x = s_id s /\ m_shape x = sh /\
    shared R64 sh (encode (s_cfg s) v) (m_shares x) /\
    recon_param s x = Ok (sh, v') /\ Forall2 (rounded (s_cfg s)) v v'.
Proof.
  intros Hb Hn (HL & HF) HU. destruct (decode_rounded (s_cfg s) v Hb HF) as (d & ED & HD).
  destruct pl as [|owner]; cbn [share_param psup_ok] in *.
  - destruct (mpc_secret_reconstruct s (PTensor sh v) (ps_draws u) Hn HL HU) as (x & -> & X1 & X2 & X3 & X4 & X5 & _).
    cbn [rbind]. eexists. exists (tt_nums d). split; [reflexivity|]. split; [exact X1|]. split; [reflexivity|].
    split; [exact X4|]. split; [|exact HD].
    unfold recon_param, reconstruct in *. cbn [m_shares]. rewrite X5. cbn [rbind tdat tsh pub_shape pub_vals]. rewrite ED. reflexivity.
  - destruct HU as (HI & HN & HP & HZ).
    destruct (mpc_remote_value s parties owner (PTensor sh v) (ps_przs u) ltac:(lia) HL HI HN HP HZ) as (x & j & E & _ & X2 & X3 & X4 & _).
    cbn [pub_shape] in *. exists x, (tt_nums d). split; [exact E|].
    assert (X1 : m_sid x = s_id s).
    { unfold mpc_remote in E. destruct (Nat.eqb (s_n s) 0); [discriminate|].
      destruct (add_at_owner _ _ _ _); [|discriminate]. injection E as <-. reflexivity. }
    split; [exact X1|]. split; [exact X2|]. split; [exact X4|]. split; [|exact HD].
    unfold recon_param. rewrite X3. cbn [rbind tdat tsh pub_vals]. rewrite ED. reflexivity.
Qed.

Lemma shape_eqb_refl a : shape_eqb a a = true.
Proof. unfold shape_eqb. destruct (list_eq_dec Nat.eq_dec a a); congruence. Qed.

Lemma layer_round_trip s parties pl l u : 1 <= c_base (s_cfg s) -> (2 <= s_n s)%nat ->
  layer_ok (s_cfg s) l -> carried pl l -> lsup_ok s parties pl l u ->
  exists m l', share_layer s parties pl l u = Ok m /\ back_layer s m = Ok l' /\ same_layer (s_cfg s) l l'.
Proof.
  intros Hb Hn HL HC HU. destruct l as [o i w b|a w b| |]; cbn [layer_ok carried lsup_ok share_layer] in *; try contradiction.
  - destruct HL as (HW & HB), HU as (UW & UB). unfold share_linear.
    destruct (param_round_trip s parties pl [o; i] w (fst u) Hb Hn HW UW) as (x & v' & -> & _ & _ & _ & RW & QW). cbn [rbind].
    destruct b as [b|].
    + destruct (param_round_trip s parties pl [o] b (snd u) Hb Hn HB UB) as (y & b' & -> & _ & _ & _ & RB & QB). cbn [rbind].
      eexists. exists (TLinear o i v' (Some b')). split; [reflexivity|]. split; [|cbn; auto].
      cbn [back_layer]. unfold back_linear, recon_linear. cbn [ml_w ml_b ml_out ml_in]. rewrite RW. cbn [rbind]. rewrite RB.
      cbn [rbind fst snd]. rewrite shape_eqb_refl. cbn [load_bias]. rewrite shape_eqb_refl. reflexivity.
    + eexists. exists (TLinear o i v' None). split; [reflexivity|]. split; [|cbn; auto].
      cbn [back_layer]. unfold back_linear, recon_linear. cbn [ml_w ml_b ml_out ml_in rbind]. rewrite RW. cbn [rbind fst snd].
      rewrite shape_eqb_refl. reflexivity.
  - destruct HL as (G1 & G2 & G3 & G4 & HW & HB), HU as (UW & UB), HC as (C1 & C2 & C3). unfold share_conv, conv_wshape.
    destruct (param_round_trip s parties pl _ w (fst u) Hb Hn HW UW) as (x & v' & -> & _ & _ & _ & RW & QW). cbn [rbind].
    destruct b as [b|]; [|congruence].
    destruct (param_round_trip s parties pl [ca_out a] b (snd u) Hb Hn HB UB) as (y & b' & -> & _ & _ & _ & RB & QB). cbn [rbind].
    eexists. exists (TConv a v' (Some b')). split; [reflexivity|]. split; [|cbn; auto].
    assert (EA : mkCA (ca_in a / ca_groups a) (ca_out a) (ca_kh a) (ca_kw a) (ca_stride (copy_attrs pl a))
                   (ca_pad (copy_attrs pl a)) (ca_dil (copy_attrs pl a)) (ca_groups (copy_attrs pl a)) = a).
    { destruct a as [ci co kh kw st pd dl g]. cbn [ca_in ca_out ca_kh ca_kw ca_groups ca_stride ca_pad ca_dil] in *. subst g.
      rewrite Nat.div_1_r. destruct C3 as [->|(-> & -> & ->)]; [reflexivity|]. destruct pl; reflexivity. }
    rewrite EA. cbn [back_layer]. unfold back_conv, recon_conv. cbn [mc_w mc_b mc_a]. rewrite RW. cbn [rbind]. rewrite RB.
    cbn [rbind fst snd]. rewrite G2, G3. cbn [Nat.eqb negb]. unfold conv_wshape. rewrite shape_eqb_refl. cbn [load_bias]. rewrite shape_eqb_refl. reflexivity.
Qed.

Lemma module_round_trip s parties pl ls u k : 1 <= c_base (s_cfg s) -> (2 <= s_n s)%nat ->
  (forall j p, nth_error ls j = Some p -> layer_ok (s_cfg s) (snd p) /\ carried pl (snd p) /\ lsup_ok s parties pl (snd p) (u (k + j)%nat)) ->
  exists ms ls', share_from k s parties pl ls u = Ok ms /\ module_back s ms = Ok ls' /\
    map fst ms = map fst ls /\ map fst ls' = map fst ls /\ Forall2 (fun p q => same_layer (s_cfg s) (snd p) (snd q)) ls ls'.
Proof.
  intros Hb Hn. revert k. induction ls as [|[nm l] r IH]; intros k H.
  - exists [], []. repeat split; constructor.
  - destruct (H 0%nat (nm, l) eq_refl) as (H1 & H2 & H3). cbn [snd] in *. rewrite Nat.add_0_r in H3.
    destruct (layer_round_trip s parties pl l (u k) Hb Hn H1 H2 H3) as (m & l' & E1 & E2 & E3).
    destruct (IH (S k)) as (ms & ls' & F1 & F2 & F3 & F4 & F5).
    { intros j p Hj. replace (S k + j)%nat with (k + S j)%nat by lia. apply (H (S j)). exact Hj. }
    exists ((nm, m) :: ms), ((nm, l') :: ls'). cbn [share_from]. rewrite E1. cbn [rbind]. rewrite F1. cbn [rbind].
    split; [reflexivity|]. split.
    { unfold module_back in *. cbn [rmap snd fst]. rewrite E2. cbn [rbind]. rewrite F2. reflexivity. }
    cbn [map fst]. rewrite F3, F4. split; [reflexivity|]. split; [reflexivity|]. constructor; auto.
Qed.
