(** Running a program on replicated shares: the error bounds of S_RFixProg.v hold. *)
From Coq Require Import QArith Reals Qreals Lra.
From Verif Require Import Util Modular S_Ring S_Tensor S_Bil S_Spdz S_Rep S_Fixed S_Real S_Circuit S_FixProg M_Torch L_Torch M_Encoder M_Tensor L_Tensor M_Share L_Share M_Spdz L_Spdz L_Div
  L_Bil L_RShare L_Mul M_Session L_Session M_Rep S_RepT L_Rep L_Rep2 L_Rep3 L_Rep4 L_Rep5 L_Rep6 M_Aby3 M_RCircuit S_RCircuit L_RCircuit S_RepNN L_RepNN
  S_View L_View M_RepView S_RepView L_RepView L_Circuit L_FixProg L_FixProg2 S_RFixProg.
Local Open Scope Z_scope.
Local Open Scope list_scope.

(** rounding down and toward zero *)
Lemma scale_down_near c a : 0 < c_base c -> Z.abs (scale_down c a * scale c - a) < scale c.
Proof.
  intros Hb. unfold scale_down, scale. set (m := c_base c ^ Z.of_nat (c_prec c)).
  assert (M : 0 < m) by (apply Z.pow_pos_nonneg; lia).
  destruct (Z.eq_dec (c_base c) 2) as [E|E].
  - rewrite <- E. fold m. pose proof (Z.div_mod a m ltac:(lia)). pose proof (Z.mod_pos_bound a m M). lia.
  - pose proof (Z.quot_rem' a m). pose proof (Z.rem_bound_abs a m ltac:(lia)). lia.
Qed.
Lemma scale_down_half c a : 0 < c_base c -> 2 <= scale c -> - 2^63 <= a < 2^63 -> - 2^62 <= scale_down c a < 2^62.
Proof.
  intros Hb HM HA. unfold scale_down, scale in *. set (m := c_base c ^ Z.of_nat (c_prec c)) in *.
  destruct (Z.eq_dec (c_base c) 2) as [E|E].
  - rewrite <- E. fold m. split; [apply Z.div_le_lower_bound; lia|apply Z.div_lt_upper_bound; lia].
  - pose proof (Z.quot_rem' a m). pose proof (Z.rem_bound_abs a m ltac:(lia)).
    change (2^63) with (2 * 2^62) in HA. assert (0 < 2^62) by lia. set (h := 2^62) in *. clearbody h.
    destruct (Z.le_gt_cases 0 a).
    + pose proof (Z.quot_pos a m ltac:(lia) ltac:(lia)). split; [lia|]. apply Z.quot_lt_upper_bound; nia.
    + pose proof (Z.rem_nonpos a m ltac:(lia) ltac:(lia)). set (q := Z.quot a m) in *. clearbody q. split; [|nia]. nia.
Qed.

Lemma in_R64 x : in_ring R64 x -> - 2^63 <= x < 2^63.
Proof. apply in_ring64_range. Qed.

(** a truncation whose shares do not carry is off by less than two units *)
Lemma trunc3_near c so v zs e : 0 < c_base c -> shared R64 so v zs -> (e < numel so)%nat -> no_carry3 (2^64) e zs ->
  Z.abs (nth e (trunc3 R64 c so zs) 0 * scale c - nth e v 0) < 2 * scale c.
Proof.
  intros Hb HS He HN. assert (M : 0 < scale c) by (apply Z.pow_pos_nonneg; lia).
  destruct zs as [|z1 [|z2 [|z3 [|]]]]; cbn [no_carry3] in HN; try contradiction.
  cbn [trunc3]. change (2^64) with R64 in HN. rewrite map_seq_nth by auto.
  pose proof (shared_vals R64 supR _ _ _ HS) as (VL & VI & VN).
  destruct HS as (_ & HF & _).
  set (A := nth e (tdat z1) 0) in *. set (B := to_ring R64 (nth e (tdat z2) 0 + nth e (tdat z3) 0)) in *.
  assert (EV : nth e v 0 = A + B).
  { apply (in_ring_eq R64); auto; [apply nth_in_ring; auto using supR|].
    rewrite (VN e). cbn [map zsum fold_right]. fold A. unfold B. rewrite (to_ring_eqmod R64 _ posR). apply eqmod_eq. lia. }
  rewrite EV. pose proof (scale_down_near c A Hb). pose proof (scale_down_near c B Hb).
  assert (RA : - 2^63 <= A < 2^63).
  { apply in_R64. unfold A. apply nth_in_ring; auto using supR. apply (Forall_inv HF). }
  assert (RB : - 2^63 <= B < 2^63) by (apply in_R64; unfold B; apply in_to_ring, posR).
  assert (RS : - 2^63 <= scale_down c A + scale_down c B < 2^63).
  { destruct (Z.eq_dec (scale c) 1) as [E1|E1].
    - apply in_R64 in HN. lia.
    - pose proof (scale_down_half c A Hb ltac:(lia) RA). pose proof (scale_down_half c B Hb ltac:(lia) RB). lia. }
  rewrite (to_ring64_small _ RS). lia.
Qed.

Section Run.
  Variable s : rsess.
  Variable c : config.
  Hypothesis Hb : 0 < c_base c.
  Hypothesis Hn : rs_n s = 3%nat.
  (** the lemmas on real numbers use only the configuration of a session *)
  Let s0 : sess := mkS 0 2 c.
  Let H2 : (2 <= s_n s0)%nat.
  Proof. exact (le_n 2). Qed.
  Let Hb0 : 0 < c_base (s_cfg s0) := Hb.
  Let N2 : R64 <> 2.
  Proof. discriminate. Qed.
  Let N67 : R64 <> 67.
  Proof. discriminate. Qed.
  Notation near := (near s0).

  Definition rnear (sh : list nat) (r b : list R) (z : rmpc) : Prop := exists v, holds s R64 c sh v z /\ near sh v r b.

  Lemma rescale3_real P z : Z.abs (z * scale c - P) < 2 * scale c -> (Rabs (fixed c z - fixed2 s0 P) <= rrounding c)%R.
  Proof.
    intros H. apply IZR_lt in H. rewrite abs_IZR, minus_IZR, !mult_IZR in H.
    pose proof (Sr_pos s0 Hb0 H2) as HS. pose proof (ulp_pos s0 Hb0 H2) as HU. cbn [s0 s_cfg] in HS, HU.
    replace (fixed c z - fixed2 s0 P)%R with ((IZR z * IZR (scale c) - IZR P) * (ulp c * ulp c))%R
      by (unfold fixed, fixed2, ulp; cbn [s0 s_cfg]; field; lra).
    rewrite Rabs_mult, (Rabs_right (ulp c * ulp c)) by (apply Rle_ge, Rmult_le_pos; lra).
    unfold rrounding. replace (2 * ulp c)%R with ((2 * IZR (scale c)) * (ulp c * ulp c))%R by (unfold ulp; field; lra).
    apply Rmult_le_compat_r; [apply Rmult_le_pos; lra|lra].
  Qed.

  (** truncation of the shares of a product *)
  Lemma dot_rnear sx sy so ps vx rx bx vy ry by_ zs z : near sx vx rx bx -> near sy vy ry by_ ->
    length zs = 3%nat -> shared R64 so (ring_dot so ps vx vy) zs -> quiet zs -> holds s R64 c so (trunc3 R64 c so zs) z ->
    (forall e, (e < numel so)%nat -> room c (real_sum (map (fun p => mag rx bx (fst p) * mag ry by_ (snd p))%R (ps e)) * IZR (scale c))) ->
    rnear so (real_dot so ps rx ry) (dot_err so ps rx bx ry by_ (rrounding c)) z.
  Proof.
    intros NX NY LZ SZ HQ HZ HR. exists (trunc3 R64 c so zs). split; [exact HZ|].
    unfold real_dot, dot_err. apply (near_intro s0 Hb0 H2); [apply (holds_values R64 supR _ _ _ _ _ HZ)|].
    intros e He. specialize (HR e He).
    destruct (dot_real s0 Hb0 H2 sx sy vx rx bx vy ry by_ (ps e) NX NY) as [D1 D2].
    assert (NC : no_carry3 (2^64) e zs).
    { apply HQ. destruct zs as [|z1 zs]; [discriminate LZ|]. cbn [hd]. destruct SZ as (_ & SF & _). pose proof (Forall_inv SF) as (TS & TL & _). lia. }
    pose proof (trunc3_near c so _ zs e Hb SZ He NC) as T.
    unfold ring_dot in T. rewrite map_seq_nth in T by auto. change (2^64) with R64 in T.
    rewrite (to_ring64_small _ (fits2 s0 Hb0 H2 _ _ D2 HR)) in T. apply rescale3_real in T. set (P := zsum _) in *.
    cbn [s0 s_cfg].
    match goal with |- (Rabs (?a - ?b) <= ?x + ?y)%R => replace (a - b)%R with ((fixed2 s0 P - b) + (a - fixed2 s0 P))%R by ring end.
    eapply Rle_trans; [apply Rabs_triang|]. apply Rplus_le_compat; [exact D1|exact T].
  Qed.

  Lemma pub_in_64 p : pub_ok p -> pub_in R64 c p (encode c (pub_vals p)).
  Proof.
    intros Hp. right. right. split; [exact N2|]. split; [exact N67|].
    destruct (share_init_in c p Hp) as [(_ & _ & HI) _]. cbn [tdat] in HI. symmetry.
    rewrite <- (map_id (encode c (pub_vals p))) at 2. apply map_ext_in. intros a Ha. apply (proj1 (Forall_forall _ _) HI a Ha).
  Qed.

  Lemma rmul_near op sx sy so ps x y rx bx ry by_ u : rep_op R64 op -> terms op sx sy so ps ->
    rnear sx rx bx x -> rnear sy ry by_ y -> fit R64 s sx sy so (ring_dot so ps) u ->
    (forall zs, falcon_z (bop_of op) x y (su_mask u) = Ok zs -> quiet zs) ->
    (forall e, (e < numel so)%nat -> room c (real_sum (map (fun p => mag rx bx (fst p) * mag ry by_ (snd p))%R (ps e)) * IZR (scale c))) ->
    exists z, rm_bil s (bop_of op) x y u = Ok z /\ rnear so (real_dot so ps rx ry) (dot_err so ps rx bx ry by_ (rrounding c)) z.
  Proof.
    intros HO HT (vx & HX & NX) (vy & HY & NY) HF HE HR.
    destruct (terms_product _ _ _ _ _ HT) as (f & HP & EF).
    assert (HF' : fit R64 s sx sy so f u).
    { destruct HF as (F1 & F2 & F3 & F4). do 3 (split; [assumption|]). intros HM. destruct (F4 HM) as (ca & cb & cc & va & vb & a & b & cc' & F5 & F6 & F7 & F8).
      exists ca, cb, cc, va, vb, a, b, cc'. rewrite EF. auto. }
    destruct (rm_bil_ok R64 supR s op sx sy so f c c vx vy x y u Hn HP HO ltac:(unfold cfg_ok; lia) HX HY HF') as (z & zs & E & EZ & LZ & SZ & HZ).
    exists z. split; [exact E|]. unfold trunc_value in HZ. rewrite (proj2 (Z.eqb_neq _ _) N2), (proj2 (Z.eqb_neq _ _) N67) in HZ. cbn [orb] in HZ.
    rewrite EF in SZ. eapply dot_rnear; eauto.
  Qed.

  Lemma rm_matmul_public_run sx so f vx x y w rnd : holds s R64 c sx vx x -> pub_ok y -> pub_in R64 c y w ->
    product_r R64 SMatmul sx (pub_shape y) so f -> tensor_in R64 so rnd ->
    exists z zs ps, rm_bil_public s BMatmul x y rnd = Ok z /\
      at_parties s (fun _ p => rst_matmul_public p y) (rm_ps x) = Ok ps /\
      map r_shares ps = map (rep_view zs) (seq 0 3) /\ length zs = 3%nat /\
      shared R64 so (f vx w) zs /\ holds s R64 c so (trunc3 R64 c so zs) z.
  Proof.
    intros HX Hy Hw HB HR. destruct (holds_views _ _ _ _ _ _ HX) as (xs & cf & Hxs & Lx & -> & Hcf & HU).
    destruct (rst_matmul_public_views R64 supR s sx (pub_shape y) so f c cf vx xs y w N2 N67 Lx Hxs Hcf HU Hy Hw eq_refl HB) as (zs & LZ & SZ & FZ).
    unfold rm_bil_public. cbn [rm_ps rm_shape rm_sid]. rewrite at_parties_views by auto.
    rewrite (rmap_pointwise _ (fun k => mkR R64 (rst_cfg R64 (cf k)) (Some (rs_uuid s k)) (rep_view zs k))).
    2:{ intros k Hk. apply in_seq in Hk. apply FZ. lia. }
    cbn [rbind].
    destruct (product_index_r R64 _ _ _ _ _ HB) as (ix & EI & _). cbn [bop_of] in EI.
    unfold shape_bil. rewrite EI. cbn [rbind].
    unfold first_ring. cbn [rm_ps]. rewrite rviews_get by lia. cbn [rbind fst snd r_ring r_cfg].
    rewrite <- LZ. fold (rviews s R64 (fun k => rst_cfg R64 (cf k)) zs).
    destruct (aby3_replicated R64 supR s (fun k => rst_cfg R64 (cf k)) c so _ zs rnd Hn SZ ltac:(lia)) as (z & E & H); auto.
    { intros k Hk. rewrite rst_cfg_idem. apply Hcf. lia. }
    { unfold cfg_ok. lia. }
    unfold trunc_value in H. rewrite (proj2 (Z.eqb_neq _ _) N2), (proj2 (Z.eqb_neq _ _) N67) in H. cbn [orb] in H.
    eexists z, zs, _. split; [|split; [reflexivity|]].
    - rewrite <- E. unfold aby3_truncate. rewrite Hn. cbn [Nat.eqb negb]. unfold PRIME.
      rewrite (proj2 (Z.eqb_neq _ _) N2), (proj2 (Z.eqb_neq _ _) N67). cbn [orb].
      rewrite rst_cfg_scaled by auto. reflexivity.
    - split; [|split; [lia|split; auto]]. unfold rviews. rewrite map_map. cbn [r_shares]. replace (length zs) with 3%nat by lia. reflexivity.
  Qed.

  Lemma rmulpub_near op sx so ps x p rx bx rnd : op = SMul \/ op = SMatmul -> terms op sx (shape_of p) so ps ->
    rnear sx rx bx x -> pub_fits c p -> tensor_in R64 so rnd -> quiet_public s (bop_of op) x p ->
    (forall e, (e < numel so)%nat -> room c (real_sum (map (fun q => mag rx bx (fst q) * mag (pub_real p) (pub_err c p) (snd q))%R (ps e)) * IZR (scale c))) ->
    exists z, rm_bil_public s (bop_of op) x p rnd = Ok z /\
      rnear so (real_dot so ps rx (pub_real p)) (dot_err so ps rx bx (pub_real p) (pub_err c p) (rrounding c)) z.
  Proof.
    intros Hop HT (vx & HX & NX) HF HR0 HE HR. pose proof (pub_near s0 Hb0 H2 p HF) as NP. destruct HF as [HP0 _].
    destruct (terms_product _ _ _ _ _ HT) as (f & HP & EF). rewrite <- pub_shape_of in HP.
    pose proof (pub_in_64 p HP0) as HI.
    assert (Q : exists z zs qs, rm_bil_public s (bop_of op) x p rnd = Ok z /\
      at_parties s (fun _ q => match bop_of op with BMul => rst_mul_public q p | _ => rst_matmul_public q p end) (rm_ps x) = Ok qs /\
      map r_shares qs = map (rep_view zs) (seq 0 3) /\ length zs = 3%nat /\
      shared R64 so (f vx (encode c (pub_vals p))) zs /\ holds s R64 c so (trunc3 R64 c so zs) z).
    { destruct Hop as [->| ->]; cbn [bop_of].
      - inversion HP; subst.
        destruct (rm_mul_public_ok R64 supR s c sx so vx x p _ rnd Hn ltac:(unfold cfg_ok; lia) HX HP0 HI H HR0) as (z & zs & qs & A1 & A2 & A3 & A4 & A5 & A6 & _).
        unfold trunc_value in A6. rewrite (proj2 (Z.eqb_neq _ _) N2), (proj2 (Z.eqb_neq _ _) N67) in A6. cbn [orb] in A6.
        exists z, zs, qs. auto 10.
      - destruct (rm_matmul_public_run sx so f vx x p _ rnd HX HP0 HI HP HR0) as (z & zs & qs & A). exists z, zs, qs. exact A. }
    destruct Q as (z & zs & qs & A1 & A2 & A3 & A4 & A5 & A6). exists z. split; [exact A1|].
    rewrite EF in A5. eapply dot_rnear; eauto.
  Qed.

  Lemma lin_vr_64 o (so : list nat) fx fy : s_lop R64 o fx fy = s_linop o fx fy.
  Proof. destruct o; reflexivity. Qed.

  (** p - x: the difference and the product with the public -1 *)
  Lemma rrsub_near sa ra ba x p rnd : sa <> [] -> rnear sa ra ba x -> pub_fits c p -> room c 1 -> bshape sa (shape_of p) sa ->
    tensor_in R64 sa rnd ->
    (forall e, (e < numel sa)%nat ->
       room c ((mag ra ba e + mag (pub_real p) (pub_err c p) (bpos (shape_of p) sa e)) * IZR (scale c))) ->
    (forall d, rm_lin_public s LSub x p = Ok d -> quiet_public s BMul d (PNum (NInt (-1)))) ->
    exists z, rm_rsub s x p rnd = Ok z /\ rnear sa
      (build sa (fun e => rat (pub_real p) (bpos (shape_of p) sa e) - rat ra e)%R)
      (build sa (fun e => rat ba e + rat (pub_err c p) (bpos (shape_of p) sa e) + rrounding c)%R) z.
  Proof.
    intros Hsa (vx & HX & NX) HF H1 HB HRn HR HE. unfold rm_rsub.
    assert (P1 : pub_ok p) by apply HF.
    destruct (rm_lin_public_holds R64 supR s LSub c sa vx x p _ ltac:(lia) HX P1 (pub_in_64 p P1)) as (d & ED & HD).
    { rewrite pub_shape_of. exact HB. }
    specialize (HE d ED). rewrite ED. cbn [rbind]. rewrite pub_shape_of in HD.
    pose proof (pub_near s0 Hb0 H2 p HF) as NP. pose proof (scale_ge1 s0 Hb0 H2) as GS. cbn [s0 s_cfg] in GS.
    assert (ND : rnear sa (build sa (fun e => real_lin LSub (rat ra e) (rat (pub_real p) (bpos (shape_of p) sa e))))
      (build sa (fun e => rat ba e + rat (pub_err c p) (bpos (shape_of p) sa e))%R) d).
    { exists (s_linop LSub (bexpand sa sa vx) (bexpand (shape_of p) sa (encode c (pub_vals p)))). split.
      - rewrite (bexpand_self sa vx) by (apply (holds_values R64 supR _ _ _ _ _ HX)). exact HD.
      - apply (linpub_near_vals s0 Hb0 H2); auto. intros e He. eapply (room_le s0 Hb0 H2); [|apply (HR e He)].
        set (A := mag ra ba e). set (B := mag _ _ _).
        assert (0 <= A)%R by (eapply Rle_trans; [apply Rabs_pos|apply (near_mag s0 sa vx ra ba e NX)]).
        assert (0 <= B)%R by (eapply Rle_trans; [apply Rabs_pos|apply (near_mag s0 _ _ _ _ _ NP)]).
        rewrite <- (Rmult_1_r (A + B)) at 1. apply Rmult_le_compat_l; lra. }
    assert (HT : terms SMul sa (shape_of (PNum (NInt (-1)))) sa (fun e => [(bpos sa sa e, bpos [1%nat] sa e)])).
    { apply tm_mul. apply bshape_scalar. auto. }
    assert (RM : pub_real (PNum (NInt (-1))) = [(-1)%R]) by reflexivity.
    assert (RE : pub_err c (PNum (NInt (-1))) = [0%R]) by reflexivity.
    assert (FM : pub_fits c (PNum (NInt (-1)))).
    { split; [exact I|]. repeat constructor. cbn [num_R]. replace (Rabs (IZR (-1))) with 1%R; [exact H1|].
      rewrite Rabs_left by lra. lra. }
    destruct (rmulpub_near SMul sa sa _ d (PNum (NInt (-1))) _ _ rnd (or_introl eq_refl) HT ND FM HRn HE) as (z & EZ & vz & GZ & NZ).
    - intros e He. cbn [map fst snd real_sum fold_right]. rewrite RM, RE, bpos_one, (bpos_self s0 H2) by auto.
      eapply (room_le s0 Hb0 H2); [|apply (HR e He)]. apply Rmult_le_compat_r; [lra|].
      unfold mag at 1 2. rewrite !(build_nth) by auto. cbn [rat nth real_lin].
      replace (Rabs (-1)) with 1%R by (rewrite Rabs_left by lra; lra).
      unfold mag. set (q := bpos (shape_of p) sa e).
      pose proof (Rabs_triang (rat ra e) (- rat (pub_real p) q)) as T. rewrite Rabs_Ropp in T. unfold Rminus. lra.
    - exists z. split; [exact EZ|]. exists vz. split; [exact GZ|].
      unfold real_dot, dot_err in NZ. eapply (near_ext s0 H2); [..|exact NZ].
      + intros e He. cbn [map fst snd real_sum fold_right]. rewrite RM, bpos_one, (bpos_self s0 H2) by auto.
        rewrite build_nth by auto. cbn [rat nth real_lin]. ring.
      + intros e He. cbn [map fst snd real_sum fold_right]. rewrite RM, RE, bpos_one, (bpos_self s0 H2) by auto.
        rewrite !build_nth by auto. cbn [rat nth real_lin].
        replace (Rabs (-1)) with 1%R by (rewrite Rabs_left by lra; lra). ring.
  Qed.

  Lemma rm_meth_64 m vo sh so v x f : holds s R64 c sh v x -> stands m sh vo -> viewed vo sh so f ->
    exists y, rm_meth m x = Ok y /\ holds s R64 c so (f v) y.
  Proof.
    intros HX HM HV. destruct (holds_views _ _ _ _ _ _ HX) as (ss & cf & Hss & HL & -> & Hc & _).
    pose proof (shared_vals R64 supR _ _ _ Hss) as (VL & VI & _). pose proof Hss as (H1 & HF & H3).
    assert (exists ix, view_index vo sh = Ok (so, ix) /\ rlin R64 ix v = f v) as (ix & EV & EF).
    { pose proof (view_spec _ _ _ _ v HV VL VI) as E. change (2^64) with R64 in E.
      unfold tview in E. cbn [tsh tdat] in E. destruct (view_index vo sh) as [[a b]|]; [|discriminate].
      cbn [rbind fst snd] in E. injection E as -> E. eauto. }
    assert (HH : rst_has m = true /\ meth_op m sh = Ok (Some vo)).
    { destruct HM; cbn [meth_op rst_has]; auto. rewrite (proj2 (Nat.leb_le _ _) H). auto. }
    destruct HH as [HH EM]. unfold rm_meth. rewrite (rm_method_views s R64 cf sh ss m vo so ix) by auto.
    rewrite Z.eqb_refl, andb_false_r. cbn [rbind fst snd]. eexists. split; [reflexivity|].
    apply views_holds; [|rewrite map_length; auto|intros k Hk; rewrite rst_cfg_idem; apply Hc; rewrite map_length in Hk; auto].
    rewrite <- EF. apply (tview64_shared sh); auto. apply (view_length _ _ _ _ EV).
  Qed.

  Lemma rmeth_near m vo sa so ps x ra ba : stands m sa vo -> picks vo sa so ps -> rnear sa ra ba x ->
    (forall e, (e < numel so)%nat -> room c (real_sum (map (mag ra ba) (ps e)))) ->
    exists z, rm_meth m x = Ok z /\ rnear so (real_gather so ps ra) (real_gather so ps ba) z.
  Proof.
    intros HM HP (va & HX & NX) HR. destruct (picks_viewed _ _ _ _ HP) as (f & HV & HF).
    destruct (rm_meth_64 m vo sa so va x f HX HM HV) as (y & E & HY). exists y. split; [exact E|].
    exists (f va). split; [exact HY|]. pose proof (holds_values R64 supR _ _ _ _ _ HY) as [FL _].
    destruct (holds_views _ _ _ _ _ _ HX) as (ss & cf & Hss & _). pose proof (shared_vals R64 supR _ _ _ Hss) as (VL & VI & _).
    unfold real_gather. apply (near_intro s0 Hb0 H2); [exact FL|]. intros e He.
    destruct (gather_real s0 Hb0 H2 sa va ra ba (ps e) NX) as [G1 G2].
    rewrite (HF va VL VI e He). change (2^64) with R64.
    rewrite to_ring64_small; [exact G1|]. apply (fits s0 Hb0 H2 _ _ G2 (HR e He)).
  Qed.

  (** powers *)
  Section Power.
    Variables (sh : list nat) (u : nat -> mulsup).
    Hypothesis Hsh : sh <> [].
    Hypothesis H1 : room c 1.
    Hypothesis HU : forall k, fit R64 s sh sh sh (mul_vr R64 sh sh sh) (u k).
    Let us : M_Aby3.sup := fun q => u (hd 0%nat q).

    Lemma rself_terms : terms SMul sh sh sh (fun e => [(bpos sh sh e, bpos sh sh e)]).
    Proof. apply tm_mul. apply bshape_same. Qed.

    Lemma rself_fit k : fit R64 s sh sh sh (ring_dot sh (fun e => [(bpos sh sh e, bpos sh sh e)])) (u k).
    Proof.
      assert (E : forall va vb, ring_dot sh (fun e => [(bpos sh sh e, bpos sh sh e)]) va vb = mul_vr R64 sh sh sh va vb).
      { intros va vb. unfold ring_dot, mul_vr, s_mul, bexpand. rewrite map2_map_same. apply map_ext. intros e.
        cbn [map fst snd zsum fold_right]. rewrite Z.add_0_r. rewrite !bget_bpos. reflexivity. }
      destruct (HU k) as (F1 & F2 & F3 & F4). do 3 (split; [assumption|]). intros HM.
      destruct (F4 HM) as (ca & cb & cc & va & vb & a & b & cc' & F5 & F6 & F7 & F8).
      exists ca, cb, cc, va, vb, a, b, cc'. rewrite E. auto.
    Qed.

    Lemma rtimes_near x y rx bx ry by_ k : rnear sh rx bx x -> rnear sh ry by_ y -> times_room c sh rx bx ry by_ ->
      (forall zs, falcon_z BMul x y (su_mask (u k)) = Ok zs -> quiet zs) ->
      exists z, rm_bil s BMul x y (u k) = Ok z /\ rnear sh (real_times sh rx ry) (rerr_times c sh rx bx ry by_) z.
    Proof.
      intros NX NY HR HE.
      destruct (rmul_near SMul sh sh sh _ x y rx bx ry by_ (u k) (or_introl eq_refl) rself_terms NX NY (rself_fit k) HE)
        as (z & EZ & vz & GZ & NZ).
      - intros e He. cbn [map fst snd real_sum fold_right]. rewrite !(bpos_self s0 H2) by auto. rewrite Rplus_0_r. apply HR; auto.
      - exists z. split; [exact EZ|]. exists vz. split; [exact GZ|]. unfold real_times, rerr_times, real_dot, dot_err in *.
        eapply (near_ext s0 H2); [..|exact NZ]; intros e He; cbn [map fst snd real_sum fold_right]; rewrite ?(bpos_self s0 H2) by auto; ring.
    Qed.

    Lemma rone_near x rx bx k : rnear sh rx bx x -> (forall e, (e < numel sh)%nat -> room c (mag rx bx e * IZR (scale c))) ->
      quiet_public s BMul x (PNum (NInt 1)) ->
      exists z, rm_bil_public s BMul x (PNum (NInt 1)) (su_rand (u k)) = Ok z /\
        rnear sh rx (build sh (fun e => rat bx e + rrounding c)%R) z.
    Proof.
      intros NX HR HE.
      assert (HT1 : terms SMul sh (shape_of (PNum (NInt 1))) sh (fun e => [(bpos sh sh e, bpos [1%nat] sh e)])).
      { apply tm_mul. apply bshape_scalar. auto. }
      assert (RM : pub_real (PNum (NInt 1)) = [1%R]) by reflexivity.
      assert (RE : pub_err c (PNum (NInt 1)) = [0%R]) by reflexivity.
      assert (A1 : Rabs 1 = 1%R) by apply Rabs_R1.
      assert (FM : pub_fits c (PNum (NInt 1))).
      { split; [exact I|]. repeat constructor. cbn [num_R]. rewrite A1. exact H1. }
      destruct (rmulpub_near SMul sh sh _ x (PNum (NInt 1)) rx bx (su_rand (u k)) (or_introl eq_refl) HT1 NX FM
        (proj1 (proj2 (proj2 (HU k)))) HE) as (z & EZ & vz & GZ & NZ).
      - intros e He. cbn [map fst snd real_sum fold_right]. rewrite RM, RE, bpos_one, (bpos_self s0 H2) by auto.
        unfold mag at 2. cbn [rat nth]. rewrite A1. rewrite !Rplus_0_r, Rmult_1_r. apply HR; auto.
      - exists z. split; [exact EZ|]. exists vz. split; [exact GZ|].
        destruct NX as (vx & _ & NX).
        assert (ER : rx = build sh (fun e => rat rx e)).
        { destruct NX as (_ & L & _ & _). apply nth_ext with (d := 0%R) (d' := 0%R); [rewrite build_length; auto|].
          intros e He. fold (rat rx e) (rat (build sh (fun e => rat rx e)) e). rewrite build_nth by congruence. reflexivity. }
        rewrite ER. unfold real_dot, dot_err in NZ.
        eapply (near_ext s0 H2); [..|exact NZ]; intros e He; cbn [map fst snd real_sum fold_right]; rewrite RM, ?RE, bpos_one, ?(bpos_self s0 H2) by auto;
          cbn [rat nth]; rewrite ?A1; ring.
    Qed.

    (** the last squaring only has to return *)
    Lemma rsquare_returns x rx bx k : rnear sh rx bx x -> exists z, rm_bil s BMul x x (u k) = Ok z.
    Proof.
      intros (vx & HX & _).
      destruct (rm_bil_ok R64 supR s SMul sh sh sh _ c c vx vx x x (u k) Hn (prod_mul_r R64 _ _ _ (bshape_same sh)) (or_introl eq_refl)
        ltac:(unfold cfg_ok; lia) HX HX (HU k)) as (z & zs & E & _). exists z. exact E.
    Qed.

    Definition racc_near (acc : option rmpc) (ra : option (list R * list R)) : Prop :=
      match acc, ra with
      | None, None => True
      | Some a, Some (r, b) => rnear sh r b a
      | _, _ => False
      end.

    Lemma rpow_loop_near p : forall base acc rb bb ra k, rnear sh rb bb base -> racc_near acc ra ->
      rpow_room c sh p rb bb ra -> rpow_steady s p base acc u k ->
      exists z, rm_pow_loop s p base acc us k = Ok z /\
        rnear sh (build sh (fun e => match ra with None => 1 | Some (r, _) => rat r e end * rat rb e ^ Pos.to_nat p)%R)
          (rpow_bound c sh p rb bb ra) z.
    Proof.
      assert (STEP : forall base acc rb bb ra k, rnear sh rb bb base -> racc_near acc ra -> step_room c sh rb bb ra ->
        match acc with
        | None => quiet_public s BMul base (PNum (NInt 1))
        | Some r => forall zs, falcon_z BMul r base (su_mask (u k)) = Ok zs -> quiet zs
        end ->
        exists z, match acc with
                  | None => rm_bil_public s BMul base (PNum (NInt 1)) (su_rand (u k))
                  | Some r => rm_bil s BMul r base (u k)
                  end = Ok z /\ rnear sh (fst (rpow_factor c sh rb bb ra)) (snd (rpow_factor c sh rb bb ra)) z).
      { intros base [a|] rb bb [[r b]|] k NB NA HR HE; try contradiction; cbn [racc_near step_room rpow_factor fst snd] in *.
        - apply rtimes_near; auto.
        - apply rone_near; auto. }
      assert (EXT : forall f f' b z, (forall e, (e < numel sh)%nat -> f e = f' e) -> rnear sh (build sh f) b z -> rnear sh (build sh f') b z).
      { intros f f' b z E N. replace (build sh f') with (build sh f); [exact N|]. unfold build. apply map_ext_in.
        intros e He. apply in_seq in He. apply E. lia. }
      assert (US : forall k, subsup us k [] = u k) by reflexivity.
      induction p as [p IH|p IH|]; intros base acc rb bb ra k NB NA HR HS; cbn [rm_pow_loop rpow_room rpow_steady rpow_bound] in *; rewrite ?US.
      - destruct HR as (R1 & R2 & R3), HS as (S1 & S2 & S3).
        destruct (STEP base acc rb bb ra k NB NA R1 S1) as (r & ER & NR). rewrite ER. cbn [rbind].
        destruct (rtimes_near base base rb bb rb bb (S k) NB NB R2 S2) as (b & EB & NBB). rewrite EB. cbn [rbind].
        destruct (IH b (Some r) _ _ (Some (rpow_factor c sh rb bb ra)) (S (S k)) NBB) as (z & EZ & NZ); auto.
        { cbn [racc_near]. destruct (rpow_factor c sh rb bb ra). exact NR. }
        exists z. split; [exact EZ|]. eapply EXT; [|exact NZ]. intros e He. cbv beta.
        rewrite Pos2Nat.inj_xI. unfold real_times. rewrite build_nth by auto.
        replace (S (2 * Pos.to_nat p)) with (1 + 2 * Pos.to_nat p)%nat by lia. rewrite pow_add, pow_mult, pow_1.
        replace (rat rb e ^ 2)%R with (rat rb e * rat rb e)%R by ring.
        destruct ra as [[r0 b0]|]; cbn [rpow_factor].
        + unfold real_times. rewrite build_nth by auto. ring.
        + ring.
      - destruct HR as (R2 & R3), HS as (S2 & S3).
        destruct (rtimes_near base base rb bb rb bb k NB NB R2 S2) as (b & EB & NBB). rewrite EB. cbn [rbind].
        destruct (IH b acc _ _ ra (S k) NBB NA R3) as (z & EZ & NZ); auto.
        exists z. split; [exact EZ|]. eapply EXT; [|exact NZ]. intros e He. cbv beta.
        rewrite Pos2Nat.inj_xO. unfold real_times. rewrite build_nth by auto. rewrite pow_mult.
        replace (rat rb e ^ 2)%R with (rat rb e * rat rb e)%R by ring. reflexivity.
      - destruct (STEP base acc rb bb ra k NB NA HR HS) as (r & ER & NR). rewrite ER. cbn [rbind].
        destruct (rsquare_returns base rb bb (S k) NB) as (b & EB). rewrite EB. cbn [rbind].
        exists r. split; [reflexivity|]. change (Pos.to_nat 1) with 1%nat.
        destruct ra as [[r0 b0]|]; cbn [rpow_factor fst snd] in *.
        + eapply EXT; [|exact NR]. intros e He. cbv beta. rewrite pow_1. reflexivity.
        + replace (build sh (fun e => 1 * rat rb e ^ 1)%R) with rb; [exact NR|].
          destruct NB as (vb & _ & _ & L & _). symmetry. apply nth_ext with (d := 0%R) (d' := 0%R); [rewrite build_length; auto|].
          intros e He. rewrite build_length in He. fold (rat (build sh (fun e => 1 * rat rb e ^ 1)%R) e). rewrite build_nth by auto.
          unfold rat. ring.
    Qed.

    Lemma rpow_near x rx bx p : rnear sh rx bx x -> rpow_room c sh p rx bx None -> rpow_steady s p x None u 0 ->
      exists z, rm_pow_loop s p x None us 0 = Ok z /\
        rnear sh (build sh (fun e => rat rx e ^ Pos.to_nat p)%R) (rpow_bound c sh p rx bx None) z.
    Proof.
      intros NX HR HS. destruct (rpow_loop_near p x None rx bx None 0%nat NX I HR HS) as (z & EZ & NZ).
      exists z. split; [exact EZ|].
      replace (build sh (fun e => rat rx e ^ Pos.to_nat p)%R) with (build sh (fun e => 1 * rat rx e ^ Pos.to_nat p)%R); [exact NZ|].
      unfold build. apply map_ext. intros e. ring.
    Qed.
  End Power.

  Theorem reval_near env ins sup : (forall i, rnear (fst (ins i)) (fst (snd (ins i))) (snd (snd (ins i))) (env i)) ->
    forall path e sh r b, rapprox c s ins sup path e sh r b -> rsteady s env sup path e ->
    exists z, reval s env sup path e = Ok z /\ rnear sh r b z.
  Proof.
    intros HI path e sh r b HA. induction HA; cbn [reval rsteady]; intros HS.
    - exists (env i). auto.
    - destruct HS as [S1 S2]. destruct (IHHA1 S1) as (x & -> & vx & HX & NX), (IHHA2 S2) as (y & -> & vy & HY & NY). cbn [rbind].
      destruct (rm_lin_holds R64 supR s o c c sa sb so vx vy x y HX HY H) as (z & E & HZ).
      exists z. split; [exact E|]. rewrite (lin_vr_64 o so) in HZ. eexists. split; [exact HZ|]. apply (lin_near_vals s0 Hb0 H2); auto.
    - destruct (IHHA HS) as (x & -> & vx & HX & NX). cbn [rbind]. assert (P1 : pub_ok p) by apply H.
      destruct (rm_lin_public_holds R64 supR s o c sa vx x p _ ltac:(lia) HX P1 (pub_in_64 p P1)) as (z & E & HZ).
      { rewrite pub_shape_of. exact H0. }
      exists z. split; [exact E|]. rewrite (lin_vr_64 o sa), pub_shape_of in HZ.
      exists (s_linop o (bexpand sa sa vx) (bexpand (shape_of p) sa (encode c (pub_vals p)))). split.
      + rewrite (bexpand_self sa vx) by (apply (holds_values R64 supR _ _ _ _ _ HX)). exact HZ.
      + apply (linpub_near_vals s0 Hb0 H2); auto.
    - destruct HS as [S1 S2]. destruct (IHHA S1) as (x & E & NX). rewrite E in *. cbn [rbind]. apply rrsub_near; auto. intros d Hd. apply (S2 x d eq_refl Hd).
    - destruct HS as (S1 & S2 & S3). destruct (IHHA1 S1) as (x & E1 & NX), (IHHA2 S2) as (y & E2 & NY). rewrite E1, E2 in *. cbn [rbind].
      apply (rmul_near SMul sa sb); auto; [left; reflexivity|]. intros zs Hz. apply (S3 x y zs eq_refl eq_refl Hz).
    - destruct HS as (S1 & S2 & S3). destruct (IHHA1 S1) as (x & E1 & NX), (IHHA2 S2) as (y & E2 & NY). rewrite E1, E2 in *. cbn [rbind].
      apply (rmul_near SMatmul sa sb); auto; [right; auto|]. intros zs Hz. apply (S3 x y zs eq_refl eq_refl Hz).
    - destruct HS as [S1 S2]. destruct (IHHA S1) as (x & E & NX). rewrite E in *. cbn [rbind]. apply (rmulpub_near SMul sa); auto.
    - destruct HS as [S1 S2]. destruct (IHHA S1) as (x & E & NX). rewrite E in *. cbn [rbind]. apply (rmulpub_near SMatmul sa); auto.
    - destruct (IHHA HS) as (x & -> & NX). cbn [rbind]. eapply rmeth_near; eauto.
    - destruct HS as [S1 S2]. destruct (IHHA S1) as (x & E & NX). rewrite E in *. cbn [rbind].
      apply (rpow_near sa (fun i => sup (rpow_at path i))); auto.
  Qed.

  Lemma rknown_near sh r b x : rknown s c sh r b x -> rnear sh r b x.
  Proof.
    intros (v & HX & L1 & L2 & HV). exists v. split; [exact HX|]. pose proof (holds_values R64 supR _ _ _ _ _ HX) as [VL _].
    split; [exact VL|]. split; [exact L1|]. split; [exact L2|]. intros e.
    destruct (Nat.lt_ge_cases e (numel sh)) as [He|He]; [apply HV; exact He|].
    unfold rat. rewrite !nth_overflow by lia. rewrite (fixed_0 s0 Hb0 H2), Rminus_0_r, Rabs_R0. lra.
  Qed.
End Run.
