(** Lemmas on what a single party and the orchestrator see of a whole multiplication of
    replicated secrets. *)
From Coq Require Import QArith Setoid Morphisms.
From Verif Require Import Util Modular S_Ring S_Tensor S_Bil S_Spdz S_Rep S_Priv S_RepPriv S_RepPriv2 M_Torch L_Torch M_Encoder M_Tensor L_Tensor M_Share L_Share M_Spdz L_Spdz L_Bil
  L_RShare L_Mul M_Session L_Session M_Rep S_RepT L_Rep L_Rep2 L_Rep3 L_Rep4 L_Rep6 M_Float S_Wraps S_Div L_Float L_Div L_Priv M_Store M_Fss M_Opened S_Opened L_Opened L_RepPriv.
Local Open Scope Z_scope.

(** the shares of the truncated tensor *)
Lemma trunc_shares s c so z1 z2 z3 rnd : cfg_ok c -> rs_n s = 3%nat ->
  tensor_in R64 so z1 -> tensor_in R64 so z2 -> tensor_in R64 so z3 -> tensor_in R64 so rnd ->
  truncation_algorithm1 s [z1; z2; z3] R64 c rnd =
  Ok (rviews s R64 (fun _ => c)
       [mkT so (map (trunc_elt c) (tdat z1));
        mkT so (vsub R64 (map (trunc_elt c) (vadd R64 (tdat z2) (tdat z3))) (tdat rnd)); rnd]).
Proof.
  intros Hc Hn (A1 & A2 & A3) (B1 & B2 & B3) (C1 & C2 & C3) (D1 & D2 & D3).
  destruct (radd_plain R64) as [EA ES]; [discriminate|discriminate|].
  unfold truncation_algorithm1.
  assert (EZ : negb (c_base c =? 2) && (scale c =? 0) = false).
  { destruct (Z.eqb_spec (c_base c) 2); [reflexivity|]. cbn [negb andb]. apply Z.eqb_neq.
    assert (P : 0 < scale c) by (unfold scale; apply Z.pow_pos_nonneg; unfold cfg_ok in Hc; lia). lia. }
  rewrite EZ. rewrite <- EA, <- ES.
  rewrite (tbin_same _ z2 z3 so) by auto. cbn [rbind tsh tdat].
  rewrite (tbin_same _ _ rnd so) by (auto; cbn [tdat]; rewrite map_length; apply map2_length_eq; auto). cbn [rbind].
  rewrite rst_distribute_ok by (cbn; lia). cbn [rbind received].
  rewrite (rst_cfg_scaled R64 c) by discriminate. rewrite A1. reflexivity.
Qed.

Lemma dealt_ok s c sh ss : rs_n s = 3%nat -> length ss = 3%nat ->
  dealt s c sh ss = Ok (mkRM (rs_id s) sh (rviews s R64 (fun _ => c) ss)).
Proof.
  intros Hn HL. unfold dealt. fold R64. rewrite rst_distribute_ok by lia. cbn [rbind received].
  rewrite rst_cfg_scaled by discriminate. reflexivity.
Qed.

Lemma rep_triples_c s op a b masks zs so t : rs_n s = 3%nat -> falcon_z op a b masks = Ok zs -> length zs = 3%nat ->
  shape_bil op (rm_shape a) (rm_shape b) = Ok so -> rep_triples s op a b R64 masks = Ok t ->
  t = mkRT (rm_ps a) (rm_ps b) (rviews s R64 (fun _ => mkConfig 2 0) zs).
Proof.
  intros Hn EZ HL ES E. unfold rep_triples in E. rewrite EZ, ES in E. cbn [rbind] in E.
  unfold falcon_reshare in E. rewrite rst_distribute_ok in E by lia. cbn [rbind received rm_ps] in E.
  rewrite rst_cfg_scaled in E by discriminate.
  destruct (reconstruct_sh (rm_ps a)); [|discriminate]. cbn [rbind] in E.
  destruct (reconstruct_sh (rm_ps b)); [|discriminate]. cbn [rbind] in E.
  destruct (reconstruct_sh (rviews _ _ _ zs)); [|discriminate]. cbn [rbind] in E.
  destruct (opname_of op); [|discriminate]. cbn [rbind] in E.
  destruct (get_op R64 _); [|discriminate]. cbn [rbind] in E.
  destruct (tbil _ _ _ _); [|discriminate]. cbn [rbind] in E.
  destruct (tbin _ _ _); [|discriminate]. cbn [rbind] in E.
  destruct (forallb _ _); [discriminate|]. congruence.
Qed.

Definition sumof (sh : list nat) (ss : list tensor) : list Z := s_sum R64 (numel sh) (map tdat ss).
Lemma sumof_shared sh ss : length ss = 3%nat -> Forall (tensor_in R64 sh) ss -> shared R64 sh (sumof sh ss) ss.
Proof. intros HL HF. split; [intros ->; discriminate|]. split; [auto|reflexivity]. Qed.

Lemma three_in_shares sh l : three_in sh l -> length (map (mkT sh) l) = 3%nat /\ Forall (tensor_in R64 sh) (map (mkT sh) l).
Proof. intros [L F]. split; [rewrite map_length; auto|]. apply Forall_map. exact F. Qed.

Section Run.
  Variables (s : rsess) (c : config) (op : bspec) (sx sy so : list nat) (f : list Z -> list Z -> list Z).
  Hypothesis Hn : rs_n s = 3%nat.
  Hypothesis HP : product_r R64 op sx sy so f.
  Hypothesis HO : rep_op R64 op.
  Hypothesis Hc : cfg_ok c.
  Hypothesis H0 : (0 < numel so)%nat.
  Let dt := mkT [] [].
  Let cc := fun _ : nat => c.
  Let c2 := fun _ : nat => mkConfig 2 0.

  (** a run, given the sharings and the masked local products *)
  Lemma mal_run_eq vx vy r xs ys zs ts : verand_ok sx sy so r ->
    generate_shares 3 (mkT sx vx) (rm_x (ve_m r)) = Ok xs -> length xs = 3%nat -> shared R64 sx vx xs ->
    generate_shares 3 (mkT sy vy) (rm_y (ve_m r)) = Ok ys -> length ys = 3%nat -> shared R64 sy vy ys ->
    let sa := map (mkT sx) (ve_a r) in let sb := map (mkT sy) (ve_b r) in
    falcon_z (bop_of op) (mkRM (rs_id s) sx (rviews s R64 cc xs)) (mkRM (rs_id s) sy (rviews s R64 cc ys)) (zero_masks so (rm_c (ve_m r))) = Ok zs ->
    falcon_z (bop_of op) (mkRM (rs_id s) sx (rviews s R64 c2 sa)) (mkRM (rs_id s) sy (rviews s R64 c2 sb)) (zero_masks so (ve_c r)) = Ok ts ->
    length zs = 3%nat -> length ts = 3%nat ->
    mal_run s c (bop_of op) sx sy so vx vy r =
    Ok (mkRun (mkRM (rs_id s) sx (rviews s R64 cc xs)) (mkRM (rs_id s) sy (rviews s R64 cc ys)) (mkRM (rs_id s) so (rviews s R64 cc zs))
          (mkRT (rviews s R64 c2 sa) (rviews s R64 c2 sb) (rviews s R64 c2 ts))
          (mkT sx (s_sub R64 vx (sumof sx sa))) (mkT sy (s_sub R64 vy (sumof sy sb)))
          (mkRM (rs_id s) so (rviews s R64 cc
            [mkT so (map (trunc_elt c) (tdat (nth 0 zs dt)));
             mkT so (vsub R64 (map (trunc_elt c) (vadd R64 (tdat (nth 1 zs dt)) (tdat (nth 2 zs dt)))) (ve_r r)); mkT so (ve_r r)]))) /\
    Forall (tensor_in R64 so) zs.
  Proof.
    intros ((D1 & D2 & LC & FC) & TA & TB & (LT & FT) & HR) Ex Lx SX Ey Ly SY sa sb EZ ET LZ LTs.
    destruct (three_in_shares _ _ TA) as [La Fa]. destruct (three_in_shares _ _ TB) as [Lb Fb]. fold sa in La, Fa. fold sb in Lb, Fb.
    pose proof (sumof_shared _ _ La Fa) as SA. pose proof (sumof_shared _ _ Lb Fb) as SB.
    assert (CI : forall k c', rst_cfg R64 ((fun _ : nat => c') k) = c') by (intros; apply rst_cfg_scaled; discriminate).
    assert (HX : holds s R64 c sx vx (mkRM (rs_id s) sx (rviews s R64 cc xs))) by (apply views_holds; auto; lia).
    assert (HY : holds s R64 c sy vy (mkRM (rs_id s) sy (rviews s R64 cc ys))) by (apply views_holds; auto; lia).
    assert (HA : holds s R64 (mkConfig 2 0) sx (sumof sx sa) (mkRM (rs_id s) sx (rviews s R64 c2 sa))) by (apply views_holds; auto; lia).
    assert (HB : holds s R64 (mkConfig 2 0) sy (sumof sy sb) (mkRM (rs_id s) sy (rviews s R64 c2 sb))) by (apply views_holds; auto; lia).
    destruct (falcon_z_ok R64 supR s op sx sy so f cc cc vx vy xs ys (zero_masks so (rm_c (ve_m r)))
      HP HO Lx Ly eq_refl SX SY (zero_masks_shared so _ LC FC) (rs_id s) (rs_id s) sx sy) as (zs0 & EZ0 & _ & SZ).
    assert (zs0 = zs) by congruence. subst zs0.
    assert (HZ : holds s R64 c so (f vx vy) (mkRM (rs_id s) so (rviews s R64 cc zs))) by (apply views_holds; auto; lia).
    assert (FZ : Forall (tensor_in R64 so) zs) by (destruct SZ as (_ & F & _); exact F).
    split; [|exact FZ].
    destruct (product_index_r R64 _ _ _ _ _ HP) as (ix & EI & _).
    assert (ES : shape_bil (bop_of op) sx sy = Ok so) by (unfold shape_bil; rewrite EI; reflexivity).
    (* the triple *)
    destruct (rep_triples_ok R64 supR s op sx sy so f _ _ _ _ _ _ _ (zero_masks so (ve_c r)) Hn HP HO HA HB eq_refl (zero_masks_shared so _ LT FT)) as (t & HT & ER).
    assert (AW : all_wrong (repeat 0 (numel so)) = false) by (destruct (numel so); [lia|reflexivity]).
    rewrite AW in ER. pose proof (rep_triples_c _ _ _ _ _ ts so _ Hn ET LTs ES ER) as EC. cbn [rm_ps] in EC, ER.
    destruct (product_in_r R64 supR _ _ _ _ _ (sumof sx sa) (sumof sy sb) HP) as (_ & PL & PI). cbn [tdat] in PL, PI.
    assert (ZE : s_add R64 (f (sumof sx sa) (sumof sy sb)) (repeat 0 (numel so)) = f (sumof sx sa) (sumof sy sb)).
    { apply vec_eqR; auto.
      - apply map2_to_ring_in; auto.
      - rewrite PL. apply map2_length_eq; [auto|apply repeat_length].
      - intros e He. unfold s_add in *. rewrite (map2_length_eq _ _ _ (numel so)) in He by (auto; apply repeat_length).
        rewrite (nth_map2 _ 0 0 0) by (rewrite ?repeat_length; lia). rewrite to_ring_eqmod by apply posR.
        rewrite nth_repeat_lt by auto. apply eqmod_eq. lia. }
    rewrite ZE in HT. rewrite EC in ER.
    assert (ECt : rm_ps t = rviews s R64 c2 ts) by (injection EC as EC; exact EC).
    (* the differences *)
    assert (VL : length vx = numel sx /\ length vy = numel sy).
    { destruct (shared_vals R64 supR _ _ _ SX) as (? & _). destruct (shared_vals R64 supR _ _ _ SY) as (? & _). auto. }
    assert (VA : length (sumof sx sa) = numel sx /\ length (sumof sy sb) = numel sy).
    { destruct (shared_vals R64 supR _ _ _ SA) as (? & _). destruct (shared_vals R64 supR _ _ _ SB) as (? & _). auto. }
    destruct (rm_lin_holds R64 supR s LSub _ _ _ _ _ _ _ _ _ HX HA (bshape_same sx)) as (ex & EE & HE).
    destruct (rm_lin_holds R64 supR s LSub _ _ _ _ _ _ _ _ _ HY HB (bshape_same sy)) as (dy & ED & HD).
    rewrite !bexpand_self in HE, HD by tauto. cbn [s_lop] in HE, HD.
    assert (RE : forall cfg sh v u, holds s R64 cfg sh v u -> rst_reconstruct false (rm_ps u) = Ok (mkT sh v)).
    { intros cfg sh v u HU. destruct (holds_views _ _ _ _ _ _ HU) as (ss & cf & Hss & HL & -> & _). cbn [rm_ps].
      apply (reconstruct_views R64 supR); auto. lia. }
    unfold mal_run. fold R64. rewrite Ex, Ey. cbn [rbind]. rewrite !dealt_ok by auto. cbn [rbind].
    fold cc c2 sa sb. rewrite EZ. cbn [rbind]. unfold falcon_reshare. rewrite rst_distribute_ok by lia. cbn [rbind received].
    rewrite (rst_cfg_scaled R64 c) by discriminate. fold cc.
    rewrite ER. cbn [rbind]. rewrite EE. cbn [rbind]. rewrite (RE _ _ _ _ HE). cbn [rbind]. rewrite ED. cbn [rbind].
    rewrite (RE _ _ _ _ HD). cbn [rbind].
    pose proof (falcon_verify_ok R64 supR s op sx sy so f _ _ _ _ _ _ _ _ _ _ _ _ _ _ _ _ _ Hn HP HO HX HY HZ HA HB HT) as EV.
    cbn [rm_ps] in EV. rewrite ECt in EV. fold cc c2. rewrite EV. destruct (list_eq_dec Z.eq_dec (f vx vy) (f vx vy)); [|congruence]. cbn [rbind rm_ps].
    destruct (three zs LZ) as (z1 & z2 & z3 & ->). unfold aby3_truncate. rewrite Hn. cbn [Nat.eqb negb].
    change ((R64 =? 2) || (R64 =? PRIME)) with false. cbn iota. rewrite (rviews3 s R64 cc z1 z2 z3). unfold get_nth. cbn [nth_error rbind r_shares].
    inversion FZ as [|? ? F1 F']; inversion F' as [|? ? F2 F'']; inversion F'' as [|? ? F3 _]; subst.
    rewrite (trunc_shares s c so z1 z2 z3 (mkT so (ve_r r))) by auto. cbn [rbind nth]. rewrite <- (rviews3 s R64 cc z1 z2 z3). reflexivity.
  Qed.
End Run.

Section Private.
  Variables (s : rsess) (c : config) (op : bspec) (sx sy so : list nat) (f : list Z -> list Z -> list Z) (k : nat).
  Hypothesis Hn : rs_n s = 3%nat.
  Hypothesis HP : product_r R64 op sx sy so f.
  Hypothesis HO : rep_op R64 op.
  Hypothesis Hc : cfg_ok c.
  Hypothesis Hk : (k < 3)%nat.
  Let j := ((k + 2) mod 3)%nat.
  Let dt := mkT [] [].
  Let cc := fun _ : nat => c.
  Let c2 := fun _ : nat => mkConfig 2 0.

  (** the truncation of what the second and third party computed *)
  Definition rest (vx vy : list Z) (r : rmulrand) : list Z :=
    match falcon_z (bop_of op) (mkRM (rs_id s) sx (rviews s R64 cc (sharesof sx vx (rm_x r))))
            (mkRM (rs_id s) sy (rviews s R64 cc (sharesof sy vy (rm_y r)))) (zero_masks so (rm_c r)) with
    | Ok zs => map (trunc_elt c) (vadd R64 (tdat (nth 1 zs dt)) (tdat (nth 2 zs dt)))
    | Err _ => []
    end.
  Definition shift_r (d d' v : list Z) : list Z := if Nat.eqb k 0 then vadd R64 v (vsub R64 d' d) else v.
  Definition trF (vx vy vx' vy' : list Z) (m m' : rmulrand) (v : list Z) : list Z := shift_r (rest vx vy m) (rest vx' vy' m') v.
  Definition veF (vx vy vx' vy' : list Z) (r : verand) : verand :=
    let m' := rmF sx sy so f k vx vy vx' vy' (ve_m r) in
    let a' := shift_c k vx vx' (ve_a r) in
    let b' := shift_c k vy vy' (ve_b r) in
    mkVR m' a' b'
      (shift_c k (lprod so f k (map (mkT sx) (ve_a r)) (map (mkT sy) (ve_b r))) (lprod so f k (map (mkT sx) a') (map (mkT sy) b')) (ve_c r))
      (trF vx vy vx' vy' (ve_m r) m' (ve_r r)).

  Lemma rest_in vx vy r : tensor_in R64 sx (mkT sx vx) -> tensor_in R64 sy (mkT sy vy) -> rmulrand_ok sx sy so r ->
    length (rest vx vy r) = numel so /\ vec_in R64 (rest vx vy r).
  Proof.
    intros VX VY (D1 & D2 & LC & FC).
    destruct (gen_shares 3 sx vx (rm_x r) ltac:(lia) VX D1) as (xs & Ex & Lx & SX).
    destruct (gen_shares 3 sy vy (rm_y r) ltac:(lia) VY D2) as (ys & Ey & Ly & SY).
    unfold rest, sharesof. rewrite Ex, Ey.
    destruct (falcon_z_ok R64 supR s op sx sy so f cc cc vx vy xs ys (zero_masks so (rm_c r))
      HP HO Lx Ly eq_refl SX SY (zero_masks_shared so _ LC FC) (rs_id s) (rs_id s) sx sy) as (zs & EZ & LZ & (_ & FZ & _)).
    rewrite EZ. destruct (three zs LZ) as (z1 & z2 & z3 & ->). cbn [nth].
    inversion FZ as [|? ? F1 F']; inversion F' as [|? ? (_ & A2 & A3) F'']; inversion F'' as [|? ? (_ & B2 & B3) _]; subst.
    split; [rewrite map_length; apply vadd_length; auto|].
    apply Forall_map, Forall_forall. intros v Hv. rewrite scale_down_elt. apply scale_down_in; auto using supR; try discriminate.
    pose proof (vadd_in R64 supR (tdat z2) (tdat z3) A3 B3) as HI. unfold vec_in in HI. rewrite Forall_forall in HI. auto.
  Qed.

  Lemma shift_r_ok d d' v : length d = numel so -> length d' = numel so -> vec_in R64 d -> vec_in R64 d' ->
    tensor_in R64 so (mkT so v) -> tensor_in R64 so (mkT so (shift_r d d' v)) /\ shift_r d' d (shift_r d d' v) = v.
  Proof.
    intros L L' I I' (_ & V1 & V2). cbn [tdat] in *. unfold shift_r. destruct (Nat.eqb k 0).
    - assert (A1 : length (vsub R64 d' d) = numel so) by (apply vsub_length; auto).
      assert (A2 : length (vsub R64 d d') = numel so) by (apply vsub_length; auto).
      assert (A3 : length (vadd R64 v (vsub R64 d' d)) = numel so) by (apply vadd_length; auto).
      split; [split; [reflexivity|]; cbn [tdat]; split; [auto|apply vadd_in; auto using supR, vsub_in]|].
      apply vec_eqR; auto using vadd_in, vsub_in.
      + rewrite (vadd_length R64 _ _ (numel so)) by auto. lia.
      + intros e _. rewrite nth_vadd by (auto using vadd_in, vsub_in; lia). rewrite nth_vadd by (auto using vsub_in; lia).
        rewrite !nth_vsub by (auto; lia). apply eqmod_eq; lia.
    - split; [split; auto|reflexivity].
  Qed.

  Lemma veF_ok vx vy vx' vy' r :
    tensor_in R64 sx (mkT sx vx) -> tensor_in R64 sy (mkT sy vy) -> tensor_in R64 sx (mkT sx vx') -> tensor_in R64 sy (mkT sy vy') ->
    verand_ok sx sy so r -> verand_ok sx sy so (veF vx vy vx' vy' r) /\ veF vx' vy' vx vy (veF vx vy vx' vy' r) = r.
  Proof.
    intros VX VY VX' VY' (HM & (LA & FA) & (LB & FB) & (LT & FT) & HR). destruct r as [m a b t w]. cbn [ve_m ve_a ve_b ve_c ve_r] in *.
    destruct (rmF_ok s sx sy so f k Hn Hk vx vy vx' vy' m VX VY VX' VY' HM) as [M1 M2].
    pose proof VX as (_ & X1 & X2). pose proof VY as (_ & Y1 & Y2). pose proof VX' as (_ & X1' & X2'). pose proof VY' as (_ & Y1' & Y2'). cbn [tdat] in *.
    destruct (shift_c_ok s sx k Hn Hk vx vx' a X1 X1' X2 X2' LA FA) as (A1 & A2 & A3).
    destruct (shift_c_ok s sy k Hn Hk vy vy' b Y1 Y1' Y2 Y2' LB FB) as (B1 & B2 & B3).
    unfold veF. cbn [ve_m ve_a ve_b ve_c ve_r].
    set (a' := shift_c k vx vx' a) in *. set (b' := shift_c k vy vy' b) in *. set (m' := rmF sx sy so f k vx vy vx' vy' m) in *.
    destruct (lprod_in so f k (map (mkT sx) a) (map (mkT sy) b)) as [P1 P2].
    destruct (lprod_in so f k (map (mkT sx) a') (map (mkT sy) b')) as [Q1 Q2].
    destruct (shift_c_ok s so k Hn Hk _ _ t P1 Q1 P2 Q2 LT FT) as (T1 & T2 & T3).
    destruct (rest_in vx vy m VX VY HM) as [R1 R2]. destruct (rest_in vx' vy' m' VX' VY' M1) as [S1 S2].
    destruct (shift_r_ok _ _ w R1 S1 R2 S2 HR) as [W1 W2].
    split.
    - split; [exact M1|]. split; [split; assumption|]. split; [split; assumption|]. split; [split; assumption|]. exact W1.
    - rewrite M2, A3, B3. f_equal; [exact T3|]. exact W2.
  Qed.

  Lemma shift_c_near sh d d' cs : length cs = 3%nat -> forall i, (i < 3)%nat -> i <> j ->
    nth_error (map (mkT sh) cs) i = nth_error (map (mkT sh) (shift_c k d d' cs)) i.
  Proof.
    intros LC i Hi Hij. rewrite !nth_error_map. f_equal.
    rewrite (nth_error_nth' cs []) by lia. rewrite (nth_error_nth' (shift_c k d d' cs) []) by (unfold shift_c; rewrite map_length, seq_length; auto).
    f_equal. unfold shift_c. rewrite map_seq_nth by auto. fold j. destruct (Nat.eqb_spec i j); [contradiction|reflexivity].
  Qed.

  Lemma sum_shift sh v v' al : three_in sh al -> tensor_in R64 sh (mkT sh v) -> tensor_in R64 sh (mkT sh v') ->
    s_sub R64 v' (sumof sh (map (mkT sh) (shift_c k v v' al))) = s_sub R64 v (sumof sh (map (mkT sh) al)).
  Proof.
    intros TA (_ & V1 & V2) (_ & W1 & W2). pose proof TA as [LA FA]. cbn [tdat] in *.
    destruct (shift_c_ok s sh k Hn Hk v v' al V1 W1 V2 W2 LA FA) as (A1 & A2 & _).
    destruct (three_in_shares sh al TA) as [L F]. destruct (three_in_shares sh _ (conj A1 A2)) as [L' F'].
    destruct (shared_vals R64 supR _ _ _ (sumof_shared _ _ L F)) as (S1 & S2 & S3).
    destruct (shared_vals R64 supR _ _ _ (sumof_shared _ _ L' F')) as (T1 & T2 & T3).
    assert (SS : forall a b e, (e < numel sh)%nat -> length a = numel sh -> length b = numel sh -> nth e (s_sub R64 a b) 0 == nth e a 0 - nth e b 0 [mod R64]).
    { intros a b e He A B. unfold s_sub. rewrite (nth_map2 _ 0 0 0) by lia. apply to_ring_eqmod. apply posR. }
    apply vec_eqR; try (apply map2_to_ring_in; auto).
    - unfold s_sub. rewrite (map2_length_eq _ _ _ (numel sh)), (map2_length_eq _ _ _ (numel sh)) by auto. reflexivity.
    - intros e He. unfold s_sub in He. rewrite (map2_length_eq _ _ _ (numel sh)) in He by auto.
      rewrite !SS by auto. rewrite S3, T3 by auto.
      destruct al as [|a0 [|a1 [|a2 [|? ?]]]]; cbn in LA; try lia.
      inversion FA as [|? ? (_ & C1 & C2) FA']; inversion FA' as [|? ? (_ & D1 & D2) FA'']; inversion FA'' as [|? ? (_ & E1 & E2) _]; subst.
      cbn [tdat] in *.
      assert (J : nth e (vsub R64 v' v) 0 == nth e v' 0 - nth e v 0 [mod R64]) by (apply nth_vsub; auto; lia).
      assert (LV : length (vsub R64 v' v) = numel sh) by (apply vsub_length; auto).
      unfold shift_c. cbn [seq map zsum tdat nth]. fold j.
      assert (JJ : j = 0%nat \/ j = 1%nat \/ j = 2%nat) by (assert (j < 3)%nat by (apply Nat.mod_upper_bound; lia); lia).
      destruct JJ as [E|[E|E]]; rewrite E; cbn [Nat.eqb]; rewrite nth_vadd by (auto using vsub_in; lia); rewrite J; apply eqmod_eq; lia.
  Qed.

  (** the two multiplications of a correspondence *)
  Lemma products_near vx vy vx' vy' r :
    tensor_in R64 sx (mkT sx vx) -> tensor_in R64 sy (mkT sy vy) -> tensor_in R64 sx (mkT sx vx') -> tensor_in R64 sy (mkT sy vy') ->
    rmulrand_ok sx sy so r -> let r' := rmF sx sy so f k vx vy vx' vy' r in
    exists xs ys xs' ys' zs zs',
      generate_shares 3 (mkT sx vx) (rm_x r) = Ok xs /\ generate_shares 3 (mkT sy vy) (rm_y r) = Ok ys /\
      generate_shares 3 (mkT sx vx') (rm_x r') = Ok xs' /\ generate_shares 3 (mkT sy vy') (rm_y r') = Ok ys' /\
      (length xs = 3%nat /\ length ys = 3%nat /\ length xs' = 3%nat /\ length ys' = 3%nat /\ length zs = 3%nat /\ length zs' = 3%nat) /\
      shared R64 sx vx xs /\ shared R64 sy vy ys /\ shared R64 sx vx' xs' /\ shared R64 sy vy' ys' /\
      falcon_z (bop_of op) (mkRM (rs_id s) sx (rviews s R64 cc xs)) (mkRM (rs_id s) sy (rviews s R64 cc ys)) (zero_masks so (rm_c r)) = Ok zs /\
      falcon_z (bop_of op) (mkRM (rs_id s) sx (rviews s R64 cc xs')) (mkRM (rs_id s) sy (rviews s R64 cc ys')) (zero_masks so (rm_c r')) = Ok zs' /\
      rep_view xs' k = rep_view xs k /\ rep_view ys' k = rep_view ys k /\
      (forall i, (i < 3)%nat -> i <> j -> nth i zs dt = nth i zs' dt) /\
      others j (rm_c r') = others j (rm_c r) /\
      rest vx vy r = map (trunc_elt c) (vadd R64 (tdat (nth 1 zs dt)) (tdat (nth 2 zs dt))) /\
      rest vx' vy' r' = map (trunc_elt c) (vadd R64 (tdat (nth 1 zs' dt)) (tdat (nth 2 zs' dt))) /\
      Forall (tensor_in R64 so) zs /\ Forall (tensor_in R64 so) zs'.
  Proof.
    intros VX VY VX' VY' Hr r'.
    destruct (rmF_ok s sx sy so f k Hn Hk vx vy vx' vy' r VX VY VX' VY' Hr) as [(D1' & D2' & LC' & FC') _]. fold r' in D1', D2', LC', FC'.
    destruct Hr as (D1 & D2 & LC & FC).
    assert (Hj : (j < 3)%nat) by (apply Nat.mod_upper_bound; lia).
    destruct (share_shift 3 sx vx vx' j (rm_x r) ltac:(lia) Hj VX VX' D1) as (xs & xs' & Ex & Ex' & Lx & Lx' & Nx). fold (sd j vx vx' (rm_x r)) in Ex'.
    destruct (share_shift 3 sy vy vy' j (rm_y r) ltac:(lia) Hj VY VY' D2) as (ys & ys' & Ey & Ey' & Ly & Ly' & Ny). fold (sd j vy vy' (rm_y r)) in Ey'.
    assert (RX : rm_x r' = sd j vx vx' (rm_x r)) by reflexivity. assert (RY : rm_y r' = sd j vy vy' (rm_y r)) by reflexivity.
    assert (SX : shared R64 sx vx xs) by (destruct (gen_shares 3 sx vx (rm_x r) ltac:(lia) VX D1) as (q & Q & _ & S); congruence).
    assert (SX' : shared R64 sx vx' xs') by (destruct (gen_shares 3 sx vx' _ ltac:(lia) VX' D1') as (q & Q & _ & S); congruence).
    assert (SY : shared R64 sy vy ys) by (destruct (gen_shares 3 sy vy (rm_y r) ltac:(lia) VY D2) as (q & Q & _ & S); congruence).
    assert (SY' : shared R64 sy vy' ys') by (destruct (gen_shares 3 sy vy' _ ltac:(lia) VY' D2') as (q & Q & _ & S); congruence).
    assert (HX : sharesof sx vx (rm_x r) = xs) by (unfold sharesof; rewrite Ex; reflexivity).
    assert (HX' : sharesof sx vx' (rm_x r') = xs') by (unfold sharesof; rewrite RX, Ex'; reflexivity).
    assert (HY : sharesof sy vy (rm_y r) = ys) by (unfold sharesof; rewrite Ey; reflexivity).
    assert (HY' : sharesof sy vy' (rm_y r') = ys') by (unfold sharesof; rewrite RY, Ey'; reflexivity).
    assert (RC : rm_c r' = shift_c k (lprod so f k xs ys) (lprod so f k xs' ys') (rm_c r)).
    { rewrite <- HX, <- HY, <- HX', <- HY'. reflexivity. }
    pose proof SX as (_ & FX & _). pose proof SX' as (_ & FX' & _). pose proof SY as (_ & FY & _). pose proof SY' as (_ & FY' & _).
    destruct (falcon_near s op sx sy so f k Hn HP HO Hk xs ys xs' ys' (rm_c r) Lx Ly Lx' Ly' FX FY FX' FY' Nx Ny LC FC (rs_id s) (rs_id s) sx sy cc cc)
      as (zs & zs' & EZ & EZ' & LZ & LZ' & NZ & NC). rewrite <- RC in EZ', NC.
    destruct (falcon_z_ok R64 supR s op sx sy so f cc cc vx vy xs ys (zero_masks so (rm_c r))
      HP HO Lx Ly eq_refl SX SY (zero_masks_shared so _ LC FC) (rs_id s) (rs_id s) sx sy) as (zs0 & EZ0 & _ & (_ & FZ & _)).
    assert (zs0 = zs) by congruence. subst zs0.
    destruct (falcon_z_ok R64 supR s op sx sy so f cc cc vx' vy' xs' ys' (zero_masks so (rm_c r'))
      HP HO Lx' Ly' eq_refl SX' SY' (zero_masks_shared so _ LC' FC') (rs_id s) (rs_id s) sx sy) as (zs0 & EZ0' & _ & (_ & FZ' & _)).
    assert (zs0 = zs') by congruence. subst zs0.
    exists xs, ys, xs', ys', zs, zs'.
    do 4 (split; [first [exact Ex|exact Ey|rewrite RX; exact Ex'|rewrite RY; exact Ey']|]). split; [auto 8|].
    do 4 (split; [assumption|]). split; [exact EZ|]. split; [exact EZ'|].
    split. { symmetry. apply rep_view_ext; try lia. rewrite Lx. intros i Hi Hij. apply Nx; auto. }
    split. { symmetry. apply rep_view_ext; try lia. rewrite Ly. intros i Hi Hij. apply Ny; auto. }
    split; [exact NZ|]. split; [exact NC|].
    split. { unfold rest. rewrite HX, HY, EZ. reflexivity. }
    split. { unfold rest. rewrite HX', HY', EZ'. reflexivity. }
    split; assumption.
  Qed.

  (** the party's shares of the truncated tensors agree *)
  Lemma trunc_near zs zs' v v' : length zs = 3%nat -> length zs' = 3%nat ->
    (forall i, (i < 3)%nat -> i <> j -> nth i zs dt = nth i zs' dt) ->
    Forall (tensor_in R64 so) zs -> Forall (tensor_in R64 so) zs' -> tensor_in R64 so (mkT so v) ->
    let T l := map (trunc_elt c) (vadd R64 (tdat (nth 1 l dt)) (tdat (nth 2 l dt))) in
    length (T zs) = numel so -> vec_in R64 (T zs) -> length (T zs') = numel so -> vec_in R64 (T zs') ->
    v' = shift_r (T zs) (T zs') v ->
    rep_view [mkT so (map (trunc_elt c) (tdat (nth 0 zs' dt))); mkT so (vsub R64 (T zs') v'); mkT so v'] k =
    rep_view [mkT so (map (trunc_elt c) (tdat (nth 0 zs dt))); mkT so (vsub R64 (T zs) v); mkT so v] k.
  Proof.
    intros LZ LZ' NZ FZ FZ' (_ & V1 & V2) T T1 T2 T1' T2' ->. cbn [tdat] in *.
    assert (RV0 : forall a b c : tensor, rep_view [a; b; c] 0 = [a; b]) by reflexivity.
    assert (RV2 : forall a b c : tensor, rep_view [a; b; c] 2 = [c; a]) by reflexivity.
    assert (K3 : k = 0%nat \/ k = 1%nat \/ k = 2%nat) by lia. unfold shift_r.
    destruct K3 as [E|[E|E]]; subst k; cbn [Nat.eqb].
    - rewrite !RV0. rewrite (NZ 0%nat) by (unfold j; cbn; lia). f_equal. f_equal. f_equal.
      assert (A1 : length (vsub R64 (T zs') (T zs)) = numel so) by (apply vsub_length; auto).
      assert (A2 : length (vadd R64 v (vsub R64 (T zs') (T zs))) = numel so) by (apply vadd_length; auto).
      apply vec_eqR; auto using vsub_in, vadd_in.
      + rewrite !(vsub_length R64 _ _ (numel so)) by auto. reflexivity.
      + intros e _. rewrite !nth_vsub by (auto using vsub_in, vadd_in; lia). rewrite nth_vadd by (auto using vsub_in; lia).
        rewrite nth_vsub by (auto; lia). apply eqmod_eq; lia.
    - assert (ET : T zs' = T zs) by (unfold T; rewrite (NZ 1%nat), (NZ 2%nat) by (unfold j; cbn; lia); reflexivity).
      rewrite ET. unfold rep_view. reflexivity.
    - rewrite !RV2. rewrite (NZ 0%nat) by (unfold j; cbn; lia). reflexivity.
  Qed.

  Lemma semi_private vx vy vx' vy' :
    tensor_in R64 sx (mkT sx vx) -> tensor_in R64 sy (mkT sy vy) -> tensor_in R64 sx (mkT sx vx') -> tensor_in R64 sy (mkT sy vy') ->
    let ok := fun q : rmulrand * list Z => rmulrand_ok sx sy so (fst q) /\ tensor_in R64 so (mkT so (snd q)) in
    exists F G : rmulrand * list Z -> rmulrand * list Z,
      (forall q, ok q -> ok (F q) /\ ok (G q) /\ G (F q) = q /\ F (G q) = q) /\
      (forall q, ok q -> exists w,
         semi_view s c (bop_of op) k sx sy so vx vy (fst q) (snd q) = Ok w /\
         semi_view s c (bop_of op) k sx sy so vx' vy' (fst (F q)) (snd (F q)) = Ok w).
  Proof.
    intros VX VY VX' VY' ok.
    pose (H := fun vx vy vx' vy' (q : rmulrand * list Z) =>
      (rmF sx sy so f k vx vy vx' vy' (fst q), trF vx vy vx' vy' (fst q) (rmF sx sy so f k vx vy vx' vy' (fst q)) (snd q))).
    assert (HH : forall vx vy vx' vy' q, tensor_in R64 sx (mkT sx vx) -> tensor_in R64 sy (mkT sy vy) -> tensor_in R64 sx (mkT sx vx') -> tensor_in R64 sy (mkT sy vy') ->
      ok q -> ok (H vx vy vx' vy' q) /\ H vx' vy' vx vy (H vx vy vx' vy' q) = q).
    { clear vx vy vx' vy' VX VY VX' VY'. intros vx vy vx' vy' [m v] VX VY VX' VY' [HM HV]. cbn [fst snd] in *.
      destruct (rmF_ok s sx sy so f k Hn Hk vx vy vx' vy' m VX VY VX' VY' HM) as [M1 M2].
      destruct (rest_in vx vy m VX VY HM) as [R1 R2]. destruct (rest_in vx' vy' _ VX' VY' M1) as [S1 S2].
      destruct (shift_r_ok _ _ v R1 S1 R2 S2 HV) as [W1 W2].
      unfold H. cbn [fst snd]. split; [split; [exact M1|exact W1]|]. rewrite M2. f_equal. exact W2. }
    exists (H vx vy vx' vy'), (H vx' vy' vx vy). split.
    { intros q Hq. destruct (HH vx vy vx' vy' q VX VY VX' VY' Hq) as [A B]. destruct (HH vx' vy' vx vy q VX' VY' VX VY Hq) as [C D]. auto. }
    intros [m v] [HM HV]. cbn [fst snd] in *.
    destruct (rmF_ok s sx sy so f k Hn Hk vx vy vx' vy' m VX VY VX' VY' HM) as [M1 _].
    destruct (products_near vx vy vx' vy' m VX VY VX' VY' HM) as
      (xs & ys & xs' & ys' & zs & zs' & Ex & Ey & Ex' & Ey' & (Lx & Ly & Lx' & Ly' & LZ & LZ') & SX & SY & SX' & SY' & EZ & EZ' & RX & RY & NZ & NC & ER & ER' & FZ & FZ').
    destruct (rest_in vx vy m VX VY HM) as [R1 R2]. destruct (rest_in vx' vy' _ VX' VY' M1) as [S1 S2].
    destruct (shift_r_ok _ _ v R1 S1 R2 S2 HV) as [W1 _].
    unfold H. cbn [fst snd]. set (m' := rmF sx sy so f k vx vy vx' vy' m) in *. unfold trF. set (v' := shift_r _ _ v) in *.
    unfold semi_view. fold R64. rewrite Ex, Ey, Ex', Ey'. cbn [rbind]. rewrite !dealt_ok by auto. cbn [rbind].
    fold cc. rewrite EZ, EZ'. cbn [rbind]. unfold aby3_truncate. rewrite Hn. cbn [Nat.eqb negb].
    change ((R64 =? 2) || (R64 =? PRIME)) with false. cbn iota.
    rewrite ER in R1, R2. rewrite ER' in S1, S2.
    pose proof (trunc_near zs zs' v v' LZ LZ' NZ FZ FZ' HV R1 R2 S1 S2) as TN. cbn beta zeta in TN.
    rewrite <- ER, <- ER' in TN. specialize (TN eq_refl).
    destruct (three zs LZ) as (z1 & z2 & z3 & ->). destruct (three zs' LZ') as (y1 & y2 & y3 & ->).
    inversion FZ as [|? ? F1 F']; inversion F' as [|? ? F2 F'']; inversion F'' as [|? ? F3 _]; subst.
    inversion FZ' as [|? ? G1 G']; inversion G' as [|? ? G2 G'']; inversion G'' as [|? ? G3 _]; subst.
    rewrite !(trunc_shares s c so) by auto. cbn [rbind rm_ps tdat]. rewrite !rviews_get by (cbn; lia). cbn [rbind r_shares].
    eexists. split; [reflexivity|]. rewrite RX, RY. fold j. rewrite NC.
    cbn [nth] in ER, ER', TN. rewrite <- ER, <- ER', TN. reflexivity.
  Qed.

  Lemma mal_private vx vy vx' vy' : (0 < numel so)%nat ->
    tensor_in R64 sx (mkT sx vx) -> tensor_in R64 sy (mkT sy vy) -> tensor_in R64 sx (mkT sx vx') -> tensor_in R64 sy (mkT sy vy') ->
    exists F G : verand -> verand,
      (forall r, verand_ok sx sy so r -> verand_ok sx sy so (F r) /\ verand_ok sx sy so (G r) /\ G (F r) = r /\ F (G r) = r) /\
      (forall r, verand_ok sx sy so r -> exists w,
         mal_view s c (bop_of op) k sx sy so vx vy r = Ok w /\ mal_view s c (bop_of op) k sx sy so vx' vy' (F r) = Ok w).
  Proof.
    intros H0 VX VY VX' VY'. exists (veF vx vy vx' vy'), (veF vx' vy' vx vy). split.
    { intros r Hr. destruct (veF_ok vx vy vx' vy' r VX VY VX' VY' Hr) as [A B]. destruct (veF_ok vx' vy' vx vy r VX' VY' VX VY Hr) as [C D]. auto. }
    intros r Hr. destruct (veF_ok vx vy vx' vy' r VX VY VX' VY' Hr) as [Hr' _]. pose proof Hr as (HM & TA & TB & (LT & FT) & HV).
    destruct (products_near vx vy vx' vy' (ve_m r) VX VY VX' VY' HM) as
      (xs & ys & xs' & ys' & zs & zs' & Ex & Ey & Ex' & Ey' & (Lx & Ly & Lx' & Ly' & LZ & LZ') & SX & SY & SX' & SY' & EZ & EZ' & RX & RY & NZ & NC & ER & ER' & FZ & FZ').
    set (r' := veF vx vy vx' vy' r) in *. pose proof Hr' as (HM' & TA' & TB' & (LT' & FT') & HV').
    destruct (three_in_shares _ _ TA) as [La Fa]. destruct (three_in_shares _ _ TB) as [Lb Fb].
    destruct (three_in_shares _ _ TA') as [La' Fa']. destruct (three_in_shares _ _ TB') as [Lb' Fb'].
    assert (NA : forall i, (i < 3)%nat -> i <> j -> nth_error (map (mkT sx) (ve_a r)) i = nth_error (map (mkT sx) (ve_a r')) i).
    { apply shift_c_near. apply TA. }
    assert (NB : forall i, (i < 3)%nat -> i <> j -> nth_error (map (mkT sy) (ve_b r)) i = nth_error (map (mkT sy) (ve_b r')) i).
    { apply shift_c_near. apply TB. }
    destruct (falcon_near s op sx sy so f k Hn HP HO Hk _ _ _ _ (ve_c r) La Lb La' Lb' Fa Fb Fa' Fb' NA NB LT FT (rs_id s) (rs_id s) sx sy c2 c2)
      as (ts & ts' & ET & ET' & LTs & LTs' & NT & NTc). fold j in NT, NTc. change (shift_c k _ _ (ve_c r)) with (ve_c r') in ET', NTc.
    destruct (mal_run_eq s c op sx sy so f Hn HP HO Hc H0 vx vy r xs ys zs ts Hr Ex Lx SX Ey Ly SY EZ ET LZ LTs) as [E _].
    destruct (mal_run_eq s c op sx sy so f Hn HP HO Hc H0 vx' vy' r' xs' ys' zs' ts' Hr' Ex' Lx' SX' Ey' Ly' SY' EZ' ET' LZ' LTs') as [E' _].
    unfold mal_view. rewrite E, E'. cbn [rbind v_x v_y v_z v_t v_e v_d v_w rm_ps rt_a rt_b rt_c].
    rewrite !rviews_get by (cbn [length]; lia). cbn [rbind r_shares]. eexists. split; [reflexivity|].
    rewrite RX, RY. rewrite (rep_view_near s k Hn Hk zs zs' LZ LZ' NZ), (rep_view_near s k Hn Hk ts ts' LTs LTs' NT).
    assert (RA : rep_view (map (mkT sx) (ve_a r')) k = rep_view (map (mkT sx) (ve_a r)) k).
    { symmetry. apply rep_view_ext; try lia. rewrite La. exact NA. }
    assert (RB : rep_view (map (mkT sy) (ve_b r')) k = rep_view (map (mkT sy) (ve_b r)) k).
    { symmetry. apply rep_view_ext; try lia. rewrite Lb. exact NB. }
    rewrite RA, RB. fold j. rewrite NTc. change (rm_c (ve_m r')) with (rm_c (rmF sx sy so f k vx vy vx' vy' (ve_m r))). rewrite NC.
    change (ve_a r') with (shift_c k vx vx' (ve_a r)). change (ve_b r') with (shift_c k vy vy' (ve_b r)).
    rewrite !sum_shift by auto.
    destruct (rest_in vx vy _ VX VY HM) as [R1 R2]. destruct (rest_in vx' vy' _ VX' VY' HM') as [S1 S2].
    change (ve_m r') with (rmF sx sy so f k vx vy vx' vy' (ve_m r)) in S1, S2. rewrite ER in R1, R2. rewrite ER' in S1, S2.
    pose proof (trunc_near zs zs' (ve_r r) (ve_r r') LZ LZ' NZ FZ FZ' HV R1 R2 S1 S2) as TN. cbn beta zeta in TN.
    rewrite <- ER, <- ER' in TN. specialize (TN eq_refl). rewrite ER, ER' in TN. unfold dt in TN. rewrite TN. reflexivity.
  Qed.
End Private.

(** what the orchestrator can compute from what it fetches *)
Definition recover (q : list rst * list rst * tensor * tensor) : result (list Z * list Z) :=
  match q with (a, b, e, d) =>
    do ta <- rst_reconstruct false a;
    do tb <- rst_reconstruct false b;
    Ok (s_add (2^64) (tdat e) (tdat ta), s_add (2^64) (tdat d) (tdat tb)) end.

Lemma sub_add_back v a n : length v = n -> length a = n -> vec_in R64 v -> s_add R64 (s_sub R64 v a) a = v.
Proof.
  intros L La I. assert (LS : length (s_sub R64 v a) = n) by (apply map2_length_eq; auto).
  apply vec_eqR; auto; [apply map2_to_ring_in; auto| |].
  - unfold s_add. rewrite (map2_length_eq _ _ _ n) by auto. lia.
  - intros e He. unfold s_add in *. rewrite (map2_length_eq _ _ _ n) in He by auto.
    rewrite (nth_map2 _ 0 0 0) by lia. rewrite to_ring_eqmod by apply posR. unfold s_sub. rewrite (nth_map2 _ 0 0 0) by lia.
    rewrite to_ring_eqmod by apply posR. apply eqmod_eq; lia.
Qed.

Lemma run_exists s c op sx sy so f vx vy r : rs_n s = 3%nat -> product_r R64 op sx sy so f -> rep_op R64 op -> cfg_ok c -> (0 < numel so)%nat ->
  tensor_in R64 sx (mkT sx vx) -> tensor_in R64 sy (mkT sy vy) -> verand_ok sx sy so r ->
  exists v sa sb, mal_run s c (bop_of op) sx sy so vx vy r = Ok v /\
    length sa = 3%nat /\ Forall (tensor_in R64 sx) sa /\ length sb = 3%nat /\ Forall (tensor_in R64 sy) sb /\
    rt_a (v_t v) = rviews s R64 (fun _ => mkConfig 2 0) sa /\ rt_b (v_t v) = rviews s R64 (fun _ => mkConfig 2 0) sb /\
    v_e v = mkT sx (s_sub R64 vx (sumof sx sa)) /\ v_d v = mkT sy (s_sub R64 vy (sumof sy sb)).
Proof.
  intros Hn HP HO Hc H0 VX VY Hr. pose proof Hr as ((D1 & D2 & LC & FC) & TA & TB & (LT & FT) & HV).
  destruct (gen_shares 3 sx vx _ ltac:(lia) VX D1) as (xs & Ex & Lx & SX).
  destruct (gen_shares 3 sy vy _ ltac:(lia) VY D2) as (ys & Ey & Ly & SY).
  destruct (three_in_shares _ _ TA) as [La Fa]. destruct (three_in_shares _ _ TB) as [Lb Fb].
  destruct (falcon_z_ok R64 supR s op sx sy so f (fun _ => c) (fun _ => c) vx vy xs ys (zero_masks so (rm_c (ve_m r)))
    HP HO Lx Ly eq_refl SX SY (zero_masks_shared so _ LC FC) (rs_id s) (rs_id s) sx sy) as (zs & EZ & LZ & _).
  destruct (falcon_z_ok R64 supR s op sx sy so f (fun _ => mkConfig 2 0) (fun _ => mkConfig 2 0) _ _ _ _ (zero_masks so (ve_c r))
    HP HO La Lb eq_refl (sumof_shared _ _ La Fa) (sumof_shared _ _ Lb Fb) (zero_masks_shared so _ LT FT) (rs_id s) (rs_id s) sx sy) as (ts & ET & LTs & _).
  destruct (mal_run_eq s c op sx sy so f Hn HP HO Hc H0 vx vy r xs ys zs ts Hr Ex Lx SX Ey Ly SY EZ ET LZ LTs) as [E _].
  eexists _, (map (mkT sx) (ve_a r)), (map (mkT sy) (ve_b r)). split; [exact E|]. repeat (split; [assumption|]). repeat split; reflexivity.
Qed.

Lemma recovers s c op sx sy so f vx vy r : rs_n s = 3%nat -> product_r R64 op sx sy so f -> rep_op R64 op -> cfg_ok c -> (0 < numel so)%nat ->
  tensor_in R64 sx (mkT sx vx) -> tensor_in R64 sy (mkT sy vy) -> verand_ok sx sy so r ->
  exists q, mal_fetched s c (bop_of op) sx sy so vx vy r = Ok q /\ recover q = Ok (vx, vy).
Proof.
  intros Hn HP HO Hc H0 VX VY Hr.
  destruct (run_exists s c op sx sy so f vx vy r Hn HP HO Hc H0 VX VY Hr) as (v & sa & sb & E & La & Fa & Lb & Fb & EA & EB & EE & ED).
  unfold mal_fetched. rewrite E. cbn [rbind]. eexists. split; [reflexivity|]. unfold recover. rewrite EA, EB, EE, ED.
  pose proof (sumof_shared _ _ La Fa) as SA. pose proof (sumof_shared _ _ Lb Fb) as SB.
  rewrite (reconstruct_views R64 supR false s _ sx _ sa SA) by lia. cbn [rbind].
  rewrite (reconstruct_views R64 supR false s _ sy _ sb SB) by lia. cbn [rbind tdat]. fold R64.
  destruct VX as (_ & X1 & X2), VY as (_ & Y1 & Y2). cbn [tdat] in *.
  destruct (shared_vals R64 supR _ _ _ SA) as (A1 & _). destruct (shared_vals R64 supR _ _ _ SB) as (B1 & _).
  rewrite (sub_add_back vx _ (numel sx)), (sub_add_back vy _ (numel sy)) by auto. reflexivity.
Qed.

(** a run is the multiplication of falcon.py *)
Lemma run_is_product s c op sx sy so f vx vy r : rs_n s = 3%nat -> rs_mal s = true -> product_r R64 op sx sy so f -> rep_op R64 op -> cfg_ok c -> (0 < numel so)%nat ->
  tensor_in R64 sx (mkT sx vx) -> tensor_in R64 sy (mkT sy vy) -> verand_ok sx sy so r ->
  exists v, mal_run s c (bop_of op) sx sy so vx vy r = Ok v /\
    rm_bil s (bop_of op) (v_x v) (v_y v) (mkSup (zero_masks so (rm_c (ve_m r))) (mkT so (ve_r r)) (v_t v)) = Ok (v_w v).
Proof.
  intros Hn Hmal HP HO Hc H0 VX VY Hr.
  destruct (run_exists s c op sx sy so f vx vy r Hn HP HO Hc H0 VX VY Hr) as (v & sa & sb & E & _).
  exists v. split; [exact E|].
  pose proof Hr as ((D1 & D2 & LC & FC) & _).
  destruct (gen_shares 3 sx vx _ ltac:(lia) VX D1) as (xs & Ex & Lx & SX).
  destruct (gen_shares 3 sy vy _ ltac:(lia) VY D2) as (ys & Ey & Ly & SY).
  unfold mal_run in E. rewrite Ex, Ey in E. cbn [rbind] in E. rewrite !dealt_ok in E by (auto; try apply three_in_shares; apply Hr). cbn [rbind] in E.
  match type of E with (do zs <- ?A; _) = _ => destruct A as [zs|] eqn:EZ; [|discriminate] end. cbn [rbind] in E.
  match type of E with (do zs <- ?A; _) = _ => destruct A as [z|] eqn:Ez; [|discriminate] end. cbn [rbind] in E.
  match type of E with (do zs <- ?A; _) = _ => destruct A as [t|] eqn:Et; [|discriminate] end. cbn [rbind] in E.
  do 4 (match type of E with (do zs <- ?A; _) = _ => destruct A; [|discriminate] end; cbn [rbind] in E).
  match type of E with (do zs <- ?A; _) = _ => destruct A as [z'|] eqn:Ez'; [|discriminate] end. cbn [rbind] in E.
  match type of E with (do zs <- ?A; _) = _ => destruct A as [w|] eqn:Ew; [|discriminate] end. cbn [rbind] in E.
  injection E as <-. cbn [v_x v_y v_t v_w]. unfold rm_bil. cbn [rm_sid]. rewrite Nat.eqb_refl. cbn [negb].
  destruct (rep_op_get R64 supR op HO) as (o & fn & EO & _). rewrite EO. rewrite Hn. cbn [Nat.eqb negb].
  destruct (three xs Lx) as (x1 & x2 & x3 & ->). unfold first_ring. cbn [rm_ps]. rewrite rviews3 at 1. unfold get_nth. cbn [nth_error rbind r_ring r_cfg fst snd su_mask].
  rewrite EZ. cbn [rbind]. destruct (product_index_r R64 _ _ _ _ _ HP) as (ix & EI & _).
  unfold shape_bil. cbn [rm_shape]. rewrite EI. cbn [rbind fst]. rewrite Hmal. fold R64 in Ez, Ew. rewrite Ez. cbn [rbind su_tri su_rand].
  rewrite Ez'. cbn [rbind]. exact Ew.
Qed.
