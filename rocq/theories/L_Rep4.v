(** Lemmas on the verified multiplication and on the whole three-party multiplication. *)
From Coq Require Import QArith Setoid Morphisms.
From Verif Require Import Util Modular S_Ring S_Tensor S_Bil S_Spdz S_Rep M_Torch L_Torch M_Encoder M_Tensor L_Tensor M_Share L_Share M_Spdz L_Spdz L_Bil
  L_RShare L_Mul M_Session L_Session M_Rep S_RepT L_Rep L_Rep2 L_Rep3.
Local Open Scope Z_scope.

Lemma bshape_same sh : bshape sh sh sh.
Proof. split; [lia|]. intros i Hi. left. split; reflexivity. Qed.

Section Ring.
  Variable ring : Z.
  Hypothesis Hs : supported ring.
  Let Hp : 0 < ring := supported_pos ring Hs.

  Lemma rst_lin_same s o cf cg sh vx vy xs ys : length xs = length ys ->
    shared ring sh vx xs -> shared ring sh vy ys ->
    exists zs, length zs = length xs /\ shared ring sh (s_lop ring o vx vy) zs /\
      forall k, (k < length xs)%nat -> rst_lin o (mkR ring (cf k) (Some (rs_uuid s k)) (rep_view xs k))
                        (mkR ring (cg k) (Some (rs_uuid s k)) (rep_view ys k)) =
                Ok (mkR ring (rst_cfg ring (cf k)) (Some (rs_uuid s k)) (rep_view zs k)).
  Proof.
    intros HL HX HY. destruct (rst_lin_views ring Hs s o cf cg sh sh sh vx vy xs ys HL HX HY (bshape_same sh)) as (zs & H1 & H2 & H3).
    pose proof (shared_vals ring Hs _ _ _ HX) as (XL & _ & _). pose proof (shared_vals ring Hs _ _ _ HY) as (YL & _ & _).
    rewrite !bexpand_self in H2 by auto. exists zs. auto.
  Qed.

  (** one party's part of the verification *)
  Lemma triple_verification_ok s op sx sy so f cz ca cb cc vz va vb vc zs as_ bs cs eps delta :
    product_r ring op sx sy so f -> rep_op ring op ->
    length zs = 3%nat -> length as_ = 3%nat -> length bs = 3%nat -> length cs = 3%nat ->
    shared ring so vz zs -> shared ring sx va as_ -> shared ring sy vb bs -> shared ring so vc cs ->
    tensor_in ring sx eps -> tensor_in ring sy delta ->
    exists ws, length ws = 3%nat /\
      shared ring so (s_sub ring vz (s_add ring (s_add ring (s_add ring vc (f va (tdat delta))) (f (tdat eps) vb)) (f (tdat eps) (tdat delta)))) ws /\
      forall k, (k < 3)%nat ->
        triple_verification k (bop_of op) (mkR ring (cz k) (Some (rs_uuid s k)) (rep_view zs k))
          (mkR ring (ca k) (Some (rs_uuid s k)) (rep_view as_ k)) (mkR ring (cb k) (Some (rs_uuid s k)) (rep_view bs k))
          (mkR ring (cc k) (Some (rs_uuid s k)) (rep_view cs k)) eps delta =
        Ok (mkR ring (rst_cfg ring (cz k)) (Some (rs_uuid s k)) (rep_view ws k)).
  Proof.
    intros HP HO Lz La Lb Lc HZ HA HB HC HE HD.
    destruct (bil_shares_left ring Hs op sx sy so f vb bs eps HP HB HE) as (ebs & EB & LB & SB).
    destruct (bil_shares_right ring Hs op sx sy so f va as_ delta HP HA HD) as (das & EA & LA & SA).
    destruct (rst_lin_same s LAdd cc (fun k => rst_cfg ring (ca k)) so _ _ cs das ltac:(lia) HC SA) as (r1 & L1 & S1 & F1).
    destruct (rst_lin_same s LAdd (fun k => rst_cfg ring (cc k)) (fun k => rst_cfg ring (cb k)) so _ _ r1 ebs ltac:(lia) S1 SB) as (r2 & L2 & S2 & F2).
    assert (T : tensor_in ring so (mkT so (f (tdat eps) (tdat delta)))) by (eapply product_in_r; eauto).
    assert (L2' : length r2 = 3%nat) by lia.
    destruct (three r2 L2') as (p0 & p1 & p2 & ->).
    destruct (lin_first ring Hs LAdd so so _ p0 [p1; p2] _ S2 T (bshape_same so)) as (p0' & E0 & S3).
    cbn [tdat] in S3. rewrite bexpand_self in S3 by apply T.
    destruct (rst_lin_same s LSub cz (fun k => rst_cfg ring (rst_cfg ring (cc k))) so _ _ zs [p0'; p1; p2] ltac:(cbn; lia) HZ S3) as (ws & L4 & S4 & F4).
    exists ws. split; [lia|]. split; [exact S4|]. intros k Hk.
    destruct (three bs Lb) as (b0 & b1 & b2 & ->). destruct (three as_ La) as (a0 & a1 & a2 & ->).
    destruct (three ebs ltac:(lia)) as (e0 & e1 & e2 & ->). destruct (three das ltac:(lia)) as (d0 & d1 & d2 & ->).
    assert (EB0 := rmap_nth _ dT dT _ _ EB 0%nat ltac:(cbn; lia)). assert (EB1 := rmap_nth _ dT dT _ _ EB 1%nat ltac:(cbn; lia)).
    assert (EB2 := rmap_nth _ dT dT _ _ EB 2%nat ltac:(cbn; lia)).
    assert (EA0 := rmap_nth _ dT dT _ _ EA 0%nat ltac:(cbn; lia)). assert (EA1 := rmap_nth _ dT dT _ _ EA 1%nat ltac:(cbn; lia)).
    assert (EA2 := rmap_nth _ dT dT _ _ EA 2%nat ltac:(cbn; lia)).
    cbn [nth] in EB0, EB1, EB2, EA0, EA1, EA2.
    destruct (rep_op_get ring Hs op HO) as (o & fn & EO & EG).
    specialize (F1 k ltac:(lia)). specialize (F2 k ltac:(lia)). specialize (F4 k ltac:(lia)).
    unfold triple_verification. cbn [r_ring]. rewrite EO. cbn [rbind]. rewrite EG. cbn [rbind].
    rewrite (product_tbil ring Hs op sx sy so f) by auto. cbn [rbind r_shares].
    assert (ES : forall p, shares_sum ring [p; mkT so (f (tdat eps) (tdat delta))] = tbin (r_lop ring LAdd) p (mkT so (f (tdat eps) (tdat delta)))) by reflexivity.
    destruct k as [|[|[|]]]; [| | |lia]; cbn [Nat.eqb]; unfold get_nth;
      rewrite ?rv0, ?rv1, ?rv2 in *; cbn [nth_error rbind].
    all: rewrite ?EB0, ?EB1, ?EB2; cbn [rbind]; rewrite ?EA0, ?EA1, ?EA2; cbn [rbind].
    all: rewrite ?EB0, ?EB1, ?EB2; cbn [rbind]; rewrite ?EA0, ?EA1, ?EA2; cbn [rbind set_nth].
    all: unfold rst_like; cbn [r_ring r_cfg r_uuid]; unfold rst_make.
    all: rewrite F1; cbn [rbind]; rewrite F2; cbn [rbind r_shares nth_error].
    all: rewrite ?ES, ?E0; cbn [rbind r_ring r_cfg r_uuid set_nth].
    all: exact F4.
  Qed.

  Lemma s_sub_zero vz vw : length vz = length vw -> vec_in ring vz -> vec_in ring vw ->
    forallb (fun v => v =? 0) (s_sub ring vz vw) = if list_eq_dec Z.eq_dec vz vw then true else false.
  Proof.
    intros HL HZ HW. destruct (list_eq_dec Z.eq_dec vz vw) as [->|N].
    - unfold s_sub. rewrite map2_same. apply forallb_forall. intros v Hv. apply in_map_iff in Hv.
      destruct Hv as (a & <- & _). rewrite Z.sub_diag. apply Z.eqb_eq.
      destruct (supported_cases _ Hs) as [->|[->|[->|[->|[->| ->]]]]]; reflexivity.
    - apply not_true_iff_false. intros H. apply N. rewrite forallb_forall in H.
      apply (vec_eq ring Hs); auto. intros e He.
      assert (E : nth e (s_sub ring vz vw) 0 == nth e vz 0 - nth e vw 0 [mod ring]).
      { unfold s_sub. rewrite (nth_map2 _ 0 0 0) by lia. apply to_ring_eqmod, Hp. }
      assert (E0 : nth e (s_sub ring vz vw) 0 = 0).
      { apply Z.eqb_eq, H, nth_In. unfold s_sub. rewrite (map2_length_eq _ _ _ (length vz)); auto. }
      rewrite E0 in E. transitivity (nth e vz 0 - nth e vw 0 + nth e vw 0); [apply eqmod_eq; lia|].
      rewrite <- E. apply eqmod_eq; lia.
  Qed.

  Lemma beaver_value op sx sy so f vx vy va vb : product_r ring op sx sy so f ->
    length vx = numel sx -> length va = numel sx -> length vy = numel sy -> length vb = numel sy ->
    s_add ring (s_add ring (s_add ring (f va vb) (f va (s_sub ring vy vb))) (f (s_sub ring vx va) vb))
               (f (s_sub ring vx va) (s_sub ring vy vb)) = f vx vy.
  Proof.
    intros HP LX LA LY LB. destruct (product_nth ring Hs _ _ _ _ _ HP) as (ix & HL & HN).
    assert (LF : forall u w, length (f u w) = numel so).
    { intros u w. destruct (product_in_r ring Hs _ _ _ _ _ u w HP) as (_ & L & _). exact L. }
    assert (LAdd : forall u w m, length u = m -> length w = m -> length (s_add ring u w) = m) by (intros; apply map2_length_eq; auto).
    assert (NA : forall u w e, (e < numel so)%nat -> length u = numel so -> length w = numel so ->
      nth e (s_add ring u w) 0 == nth e u 0 + nth e w 0 [mod ring]).
    { intros u w e He H1 H2. unfold s_add. rewrite (nth_map2 _ 0 0 0) by lia. apply to_ring_eqmod, Hp. }
    apply (vec_eq ring Hs).
    - apply map2_to_ring_in; auto.
    - destruct (product_in_r ring Hs _ _ _ _ _ vx vy HP) as (_ & _ & I). exact I.
    - rewrite (LAdd _ _ (numel so)); auto.
    - intros e He. rewrite (LAdd _ _ (numel so)) in He by auto.
      rewrite !NA by auto. rewrite !HN by auto.
      rewrite (Bf_beaver _ (fun i => nth i vx 0) (fun i => nth i vy 0) (fun i => nth i va 0) (fun i => nth i vb 0)).
      assert (EX : forall i, nth i (s_sub ring vx va) 0 == nth i vx 0 - nth i va 0 [mod ring]).
      { intros i. destruct (Nat.lt_ge_cases i (numel sx)) as [H|H].
        - unfold s_sub. rewrite (nth_map2 _ 0 0 0) by lia. apply to_ring_eqmod, Hp.
        - rewrite !nth_overflow by (unfold s_sub; rewrite ?(map2_length_eq _ _ _ (numel sx)); lia). reflexivity. }
      assert (EY : forall i, nth i (s_sub ring vy vb) 0 == nth i vy 0 - nth i vb 0 [mod ring]).
      { intros i. destruct (Nat.lt_ge_cases i (numel sy)) as [H|H].
        - unfold s_sub. rewrite (nth_map2 _ 0 0 0) by lia. apply to_ring_eqmod, Hp.
        - rewrite !nth_overflow by (unfold s_sub; rewrite ?(map2_length_eq _ _ _ (numel sy)); lia). reflexivity. }
      pose proof (Bf_cong ring (nth e ix []) (fun i => nth i va 0) (fun i => nth i va 0)
        (fun i => nth i (s_sub ring vy vb) 0) (fun i => nth i vy 0 - nth i vb 0) ltac:(reflexivity) EY) as B1.
      pose proof (Bf_cong ring (nth e ix []) (fun i => nth i (s_sub ring vx va) 0) (fun i => nth i vx 0 - nth i va 0)
        (fun i => nth i vb 0) (fun i => nth i vb 0) EX ltac:(reflexivity)) as B2.
      pose proof (Bf_cong ring (nth e ix []) _ _ _ _ EX EY) as B3.
      etransitivity; [apply eqmod_add; [apply eqmod_add; [apply eqmod_add; [reflexivity|exact B1]|exact B2]|exact B3]|].
      apply eqmod_eq. ring.
  Qed.

  (** verification of a re-shared product: accepted iff it is the product *)
  Lemma falcon_verify_ok s op sx sy so f cx cy cz ca cb cc vx vy vz va vb x y z a b c :
    rs_n s = 3%nat -> product_r ring op sx sy so f -> rep_op ring op ->
    holds s ring cx sx vx x -> holds s ring cy sy vy y -> holds s ring cz so vz z ->
    holds s ring ca sx va a -> holds s ring cb sy vb b -> holds s ring cc so (f va vb) c ->
    falcon_verify s (bop_of op) x y z (mkRT (rm_ps a) (rm_ps b) (rm_ps c)) =
    if list_eq_dec Z.eq_dec vz (f vx vy) then Ok z else Err ValueError.
  Proof.
    intros Hn HP HO HX HY HZ HA HB HC.
    destruct (holds_views _ _ _ _ _ _ HX) as (xs & fx & Hxs & Lx & -> & _).
    destruct (holds_views _ _ _ _ _ _ HY) as (ys & fy & Hys & Ly & -> & _).
    destruct (holds_views _ _ _ _ _ _ HZ) as (zs & fz & Hzs & Lz & -> & _).
    destruct (holds_views _ _ _ _ _ _ HA) as (sa & fa & Hsa & La & -> & _).
    destruct (holds_views _ _ _ _ _ _ HB) as (sb & fb & Hsb & Lb & -> & _).
    destruct (holds_views _ _ _ _ _ _ HC) as (sc & fc & Hsc & Lc & -> & _).
    rewrite Hn in *. cbn [rm_ps].
    destruct (rst_lin_same s LSub fx fa sx _ _ xs sa ltac:(lia) Hxs Hsa) as (es & LE & SE & FE).
    destruct (rst_lin_same s LSub fy fb sy _ _ ys sb ltac:(lia) Hys Hsb) as (ds & LD & SD & FD).
    unfold falcon_verify. cbn [rm_ps rt_a rt_b rt_c].
    assert (EM : rmap (fun p => falcon_mask (fst (fst p)) (snd (fst p)) (fst (snd p)) (snd (snd p)))
      (combine (combine (rviews s ring fx xs) (rviews s ring fy ys)) (combine (rviews s ring fa sa) (rviews s ring fb sb))) =
      Ok (map (fun k => (mkR ring (rst_cfg ring (fx k)) (Some (rs_uuid s k)) (rep_view es k),
                         mkR ring (rst_cfg ring (fy k)) (Some (rs_uuid s k)) (rep_view ds k))) (seq 0 3))).
    { unfold rviews. rewrite Lx, Ly, La, Lb. cbn [seq map combine rmap fst snd]. unfold falcon_mask.
      rewrite !FE, !FD by lia. reflexivity. }
    rewrite EM. cbn [rbind]. rewrite !map_map. cbn [fst snd].
    assert (E1 : map (fun k => mkR ring (rst_cfg ring (fx k)) (Some (rs_uuid s k)) (rep_view es k)) (seq 0 3) =
                 rviews s ring (fun k => rst_cfg ring (fx k)) es) by (unfold rviews; rewrite LE, Lx; reflexivity).
    assert (E2 : map (fun k => mkR ring (rst_cfg ring (fy k)) (Some (rs_uuid s k)) (rep_view ds k)) (seq 0 3) =
                 rviews s ring (fun k => rst_cfg ring (fy k)) ds) by (unfold rviews; rewrite LD, Ly; reflexivity).
    rewrite E1, E2.
    rewrite (reconstruct_views ring Hs false s _ sx _ es SE) by lia. cbn [rbind].
    rewrite (reconstruct_views ring Hs false s _ sy _ ds SD) by lia. cbn [rbind s_lop].
    pose proof (shared_vals ring Hs _ _ _ SE) as (VE & IE & _). pose proof (shared_vals ring Hs _ _ _ SD) as (VD & ID & _).
    cbn [s_lop] in VE, IE, VD, ID.
    destruct (triple_verification_ok s op sx sy so f fz fa fb fc vz va vb (f va vb) zs sa sb sc
      (mkT sx (s_sub ring vx va)) (mkT sy (s_sub ring vy vb))) as (ws & LW & SW & FW); auto.
    { split; [reflexivity|split; auto]. }
    { split; [reflexivity|split; auto]. }
    cbn [tdat] in SW. cbn [s_lop] in FW.
    assert (EV : rmap (fun p => triple_verification (fst p) (bop_of op) (fst (snd p)) (fst (fst (snd (snd p)))) (snd (fst (snd (snd p))))
                            (snd (snd (snd p))) (mkT sx (s_sub ring vx va)) (mkT sy (s_sub ring vy vb)))
       (combine (seq 0 (length (rviews s ring fz zs))) (combine (rviews s ring fz zs) (combine (combine (rviews s ring fa sa) (rviews s ring fb sb)) (rviews s ring fc sc)))) =
       Ok (rviews s ring (fun k => rst_cfg ring (fz k)) ws)).
    { rewrite rviews_length. unfold rviews. rewrite Lz, La, Lb, Lc, LW. cbn [seq map combine rmap fst snd].
      rewrite !FW by lia. reflexivity. }
    rewrite EV. cbn [rbind].
    pose proof (shared_vals ring Hs _ _ _ Hxs) as (VX & _ & _). pose proof (shared_vals ring Hs _ _ _ Hys) as (VY & _ & _).
    pose proof (shared_vals ring Hs _ _ _ Hsa) as (VA & _ & _). pose proof (shared_vals ring Hs _ _ _ Hsb) as (VB & _ & _).
    pose proof (shared_vals ring Hs _ _ _ Hzs) as (VZ & IZ & _).
    rewrite (beaver_value op sx sy so f) in SW by auto.
    rewrite (reconstruct_views ring Hs (rs_mal s) s _ so _ ws SW) by lia. cbn [rbind tdat].
    destruct (product_in_r ring Hs _ _ _ _ _ vx vy HP) as (_ & PL & PI). cbn [tdat] in PL, PI.
    rewrite s_sub_zero by (auto; congruence). destruct (list_eq_dec Z.eq_dec vz (f vx vy)); reflexivity.
  Qed.

  (* ---------------------------------------------------------- truncation of shared tensors *)
  Definition trunc_value (c : config) (so : list nat) (zs : list tensor) (v : list Z) : list Z :=
    if (ring =? 2) || (ring =? 67) then v else trunc3 ring c so zs.

  Lemma aby3_replicated s cf c so v zs rnd : rs_n s = 3%nat -> shared ring so v zs -> length zs = 3%nat ->
    (forall k, (k < 3)%nat -> rst_cfg ring (cf k) = c) -> cfg_ok c -> tensor_in ring so rnd ->
    exists z, aby3_truncate s (PReplicated (rviews s ring cf zs)) so ring (cf 0%nat) rnd = Ok z /\
      holds s ring c so (trunc_value c so zs v) z.
  Proof.
    intros Hn Hz HL Hc HO HR. unfold aby3_truncate, trunc_value. rewrite Hn. cbn [Nat.eqb negb]. unfold PRIME.
    destruct ((ring =? 2) || (ring =? 67)) eqn:E2.
    - cbn [rbind]. eexists. split; [reflexivity|]. apply views_holds; [auto|lia|]. intros k Hk. apply Hc. lia.
    - assert (N2 : ring <> 2) by (intros ->; discriminate). assert (N67 : ring <> 67) by (intros ->; discriminate).
      assert (EC : cf 0%nat = c) by (rewrite <- (Hc 0%nat) by lia; symmetry; apply rst_cfg_scaled; auto).
      rewrite EC. clear EC Hc. destruct (three zs HL) as (z1 & z2 & z3 & ->). rewrite rviews3.
      unfold get_nth. cbn [nth_error rbind r_shares].
      destruct Hz as (_ & F & _). inversion F as [|? ? F1 F']; inversion F' as [|? ? F2 F'']; inversion F'' as [|? ? F3 _]; subst.
      destruct (truncation_ok ring Hs s c so _ _ _ rnd N2 N67 HO Hn F1 F2 F3 HR) as (ss & -> & LS & _ & SS).
      cbn [rbind]. eexists. split; [reflexivity|]. apply views_holds; [auto|lia|]. intros k _. apply rst_cfg_scaled; auto.
  Qed.

  Lemma aby3_tensors s c c0 so v zs rnd : rs_n s = 3%nat -> shared ring so v zs -> length zs = 3%nat ->
    rst_cfg ring c0 = c -> cfg_ok c -> tensor_in ring so rnd ->
    exists z, aby3_truncate s (PTensors zs) so ring c0 rnd = Ok z /\ holds s ring c so (trunc_value c so zs v) z.
  Proof.
    intros Hn Hz HL Hc HO HR. unfold aby3_truncate, trunc_value. rewrite Hn. cbn [Nat.eqb negb]. unfold PRIME.
    destruct ((ring =? 2) || (ring =? 67)) eqn:E2.
    - rewrite rst_distribute_ok by lia. cbn [rbind received]. eexists. split; [reflexivity|].
      apply views_holds; [auto|lia|]. intros k _. rewrite rst_cfg_idem. exact Hc.
    - assert (N2 : ring <> 2) by (intros ->; discriminate). assert (N67 : ring <> 67) by (intros ->; discriminate).
      assert (EC : c0 = c) by (rewrite <- Hc; symmetry; apply rst_cfg_scaled; auto). subst c0.
      destruct (three zs HL) as (z1 & z2 & z3 & ->).
      destruct Hz as (_ & F & _). inversion F as [|? ? F1 F']; inversion F' as [|? ? F2 F'']; inversion F'' as [|? ? F3 _]; subst.
      destruct (truncation_ok ring Hs s c so _ _ _ rnd N2 N67 HO Hn F1 F2 F3 HR) as (ss & E & LS & _ & SS).
      rewrite E. cbn [rbind]. eexists. split; [reflexivity|]. apply views_holds; [auto|lia|]. intros k _. apply rst_cfg_scaled; auto.
  Qed.

  (** the whole multiplication, both security modes *)
  Definition good_sup (s : rsess) (sx sy so : list nat) (f : list Z -> list Z -> list Z) (u : mulsup) : Prop :=
    shared ring so (repeat 0 (numel so)) (su_mask u) /\ length (su_mask u) = 3%nat /\ tensor_in ring so (su_rand u) /\
    (rs_mal s = true -> exists ca cb cc va vb a b c, su_tri u = mkRT (rm_ps a) (rm_ps b) (rm_ps c) /\
       holds s ring ca sx va a /\ holds s ring cb sy vb b /\ holds s ring cc so (f va vb) c).

  Lemma rm_bil_ok s op sx sy so f c d vx vy x y u :
    rs_n s = 3%nat -> product_r ring op sx sy so f -> rep_op ring op -> cfg_ok c ->
    holds s ring c sx vx x -> holds s ring d sy vy y -> good_sup s sx sy so f u ->
    exists z zs, rm_bil s (bop_of op) x y u = Ok z /\ falcon_z (bop_of op) x y (su_mask u) = Ok zs /\
      length zs = 3%nat /\ shared ring so (f vx vy) zs /\
      holds s ring c so (trunc_value c so zs (f vx vy)) z.
  Proof.
    intros Hn HP HO HC HX HY (HM & LM & HR & HT).
    pose proof HX as HX0. pose proof HY as HY0.
    destruct (holds_views _ _ _ _ _ _ HX) as (xs & fx & Hxs & Lx & EX & HF & _).
    destruct (holds_views _ _ _ _ _ _ HY) as (ys & fy & Hys & Ly & EY & _).
    unfold rm_bil. destruct HX as (Sx & Shx & _). destruct HY as (Sy & Shy & _).
    rewrite Sx, Sy, Nat.eqb_refl. cbn [negb]. rewrite Shx, Shy.
    destruct (rep_op_get ring Hs op HO) as (o & fn & EO & EG). rewrite EO, Hn. cbn [Nat.eqb negb].
    assert (EF : first_ring x = Ok (ring, fx 0%nat)).
    { unfold first_ring. rewrite EX. cbn [rm_ps]. rewrite rviews_get by lia. reflexivity. }
    rewrite EF. cbn [rbind fst snd].
    destruct (falcon_z_ok ring Hs s op sx sy so f fx fy vx vy xs ys (su_mask u) HP HO ltac:(lia) ltac:(lia) LM Hxs Hys HM
               (rs_id s) (rs_id s) sx sy) as (zs & EZ & LZ & SZ).
    rewrite EX, EY, EZ. cbn [rbind].
    destruct (product_index_r ring _ _ _ _ _ HP) as (ix & EI & _).
    unfold shape_bil. rewrite EI. cbn [rbind].
    destruct (rs_mal s) eqn:EM.
    - destruct (HT eq_refl) as (ca & cb & cc & va & vb & a & b & c' & ET & HA & HB & HCc).
      unfold falcon_reshare. rewrite rst_distribute_ok by lia. cbn [rbind received].
      rewrite ET. rewrite <- EX, <- EY.
      rewrite (falcon_verify_ok s op sx sy so f c d c ca cb cc vx vy (f vx vy) va vb x y _ a b c'); auto.
      2:{ apply views_holds; [auto|lia|]. intros k _. rewrite rst_cfg_idem. apply HF. lia. }
      destruct (list_eq_dec Z.eq_dec (f vx vy) (f vx vy)) as [_|N]; [|congruence]. cbn [rbind rm_ps].
      destruct (aby3_replicated s (fun _ => rst_cfg ring (fx 0%nat)) c so (f vx vy) zs (su_rand u)) as (z & E & H); auto.
      { intros k _. rewrite rst_cfg_idem. apply HF. lia. }
      exists z, zs. split; [|auto]. rewrite <- E.
      unfold aby3_truncate. rewrite Hn. cbn [Nat.eqb negb]. unfold PRIME.
      destruct ((ring =? 2) || (ring =? 67)) eqn:E2; [reflexivity|].
      rewrite rst_cfg_scaled by (intros ->; discriminate). reflexivity.
    - destruct (aby3_tensors s c (fx 0%nat) so (f vx vy) zs (su_rand u)) as (z & E & H); auto.
      { apply HF. lia. }
      exists z, zs. auto.
  Qed.
End Ring.
