(** Lemmas on programs over replicated tensors. *)
From Coq Require Import QArith Setoid Morphisms.
From Verif Require Import Util Modular S_Ring S_Tensor S_Bil S_Spdz S_Rep M_Torch L_Torch M_Encoder M_Tensor L_Tensor M_Share L_Share M_Spdz L_Spdz L_Bil
  L_RShare L_Mul M_Session L_Session M_Rep S_RepT L_Rep L_Rep2 L_Rep3 L_Rep4 L_Rep5 L_Rep6 M_RepView S_RepView L_RepView M_RCircuit S_RCircuit M_Aby3 L_RPow.
Local Open Scope Z_scope.

Section Ring.
  Variable ring : Z.
  Hypothesis Hs : supported ring.

  Lemma rst_matmul_public_views s sx sy so f c cf vx xs y w : ring <> 2 -> ring <> 67 -> length xs = rs_n s ->
    shared ring sx vx xs -> (forall k, (k < length xs)%nat -> rst_cfg ring (cf k) = c) -> unscaled ring c ->
    pub_ok y -> pub_in ring c y w -> sy = pub_shape y -> product_r ring SMatmul sx sy so f ->
    exists zs, length zs = length xs /\ shared ring so (f vx w) zs /\
      forall k, (k < length xs)%nat ->
        rst_matmul_public (mkR ring (cf k) (Some (rs_uuid s k)) (rep_view xs k)) y =
        Ok (mkR ring (rst_cfg ring (cf k)) (Some (rs_uuid s k)) (rep_view zs k)).
  Proof.
    intros N2 N67 HL HX Hc HU Hy Hw Es Hb.
    assert (HT : tensor_in ring sy (mkT sy w)).
    { subst sy. apply (rst_public_ok ring c (mkR ring c None []) y w); auto. cbn [r_cfg]. apply unscaled_cfg; auto. }
    destruct (bil_shares_right ring Hs SMatmul sx sy so _ vx xs (mkT sy w) Hb HX HT) as (zs & E & LZ & SZ).
    cbn [tdat] in SZ. exists zs. split; [exact LZ|]. split; [exact SZ|]. intros k Hk.
    unfold rst_matmul_public.
    destruct (rst_public_ok ring c (mkR ring (cf k) (Some (rs_uuid s k)) (rep_view xs k)) y w) as [-> _]; auto.
    { cbn [r_cfg]. apply Hc. lia. }
    cbn [rbind r_ring r_shares]. rewrite <- Es.
    assert (E' : rmap (fun s0 => plain_matmul ring s0 (mkT sy w)) xs = Ok zs).
    { rewrite <- E. apply rmap_ext. intros a _. unfold plain_matmul, PRIME.
      apply Z.eqb_neq in N2, N67. rewrite N2, N67. reflexivity. }
    rewrite (rmap_rep_view _ _ _ k (proj1 HX) E'). reflexivity.
  Qed.

  Lemma rm_matmul_public_ok s c sx so f vx x y w rnd : ring <> 2 -> ring <> 67 -> rs_n s = 3%nat -> cfg_ok c ->
    holds s ring c sx vx x -> pub_ok y -> pub_in ring c y w -> product_r ring SMatmul sx (pub_shape y) so f -> tensor_in ring so rnd ->
    exists z zs, rm_bil_public s BMatmul x y rnd = Ok z /\ length zs = 3%nat /\
      shared ring so (f vx w) zs /\ holds s ring c so (trunc_value ring c so zs (f vx w)) z.
  Proof.
    intros N2 N67 Hn HO HX Hy Hw Hb HR. destruct (holds_views _ _ _ _ _ _ HX) as (xs & cf & Hxs & Lx & -> & Hcf & HU).
    destruct (rst_matmul_public_views s sx (pub_shape y) so f c cf vx xs y w N2 N67 Lx Hxs Hcf HU Hy Hw eq_refl Hb) as (zs & LZ & SZ & FZ).
    unfold rm_bil_public. cbn [rm_ps rm_shape rm_sid]. rewrite at_parties_views by auto.
    rewrite (rmap_pointwise _ (fun k => mkR ring (rst_cfg ring (cf k)) (Some (rs_uuid s k)) (rep_view zs k))).
    2:{ intros k Hk. apply in_seq in Hk. apply FZ. lia. }
    cbn [rbind].
    destruct (product_index_r ring _ _ _ _ _ Hb) as (ix & EI & _). cbn [bop_of] in EI.
    unfold shape_bil. rewrite EI. cbn [rbind].
    unfold first_ring. cbn [rm_ps]. rewrite rviews_get by lia. cbn [rbind fst snd r_ring r_cfg].
    rewrite <- LZ. fold (rviews s ring (fun k => rst_cfg ring (cf k)) zs).
    destruct (aby3_replicated ring Hs s (fun k => rst_cfg ring (cf k)) c so _ zs rnd Hn SZ ltac:(lia)) as (z & E & H); auto.
    { intros k Hk. rewrite rst_cfg_idem. apply Hcf. lia. }
    exists z, zs. split; [|split; [lia|split; auto]].
    rewrite <- E.
    unfold aby3_truncate. rewrite Hn. cbn [Nat.eqb negb]. unfold PRIME.
    destruct ((ring =? 2) || (ring =? 67)) eqn:E2; [reflexivity|].
    rewrite rst_cfg_scaled by (intros ->; discriminate). reflexivity.
  Qed.

  Lemma rm_matmul_public_exact s c sx so f vx x y w rnd : ring <> 2 -> ring <> 67 -> rs_n s = 3%nat -> cfg_ok c ->
    c_prec c = 0%nat ->
    holds s ring c sx vx x -> pub_ok y -> pub_in ring c y w -> product_r ring SMatmul sx (pub_shape y) so f -> tensor_in ring so rnd ->
    exists z, rm_bil_public s BMatmul x y rnd = Ok z /\ holds s ring c so (f vx w) z.
  Proof.
    intros N2 N67 Hn HC HE HX Hy Hw Hb HR.
    destruct (rm_matmul_public_ok s c sx so f vx x y w rnd N2 N67 Hn HC HX Hy Hw Hb HR) as (z & zs & E & LZ & SZ & HZ).
    exists z. split; [exact E|]. unfold trunc_value in HZ.
    rewrite (proj2 (Z.eqb_neq _ _) N2), (proj2 (Z.eqb_neq _ _) N67) in HZ.
    cbn [orb] in HZ. rewrite (trunc3_exact ring Hs c so _ zs N2 N67 HE SZ LZ) in HZ. exact HZ.
  Qed.

  Lemma holds_values s c sh v x : holds s ring c sh v x -> length v = numel sh /\ unscaled ring c.
  Proof.
    intros (_ & _ & _ & (xs & Hxs & _) & HU & _). pose proof (shared_vals ring Hs _ _ _ Hxs) as (VL & _). auto.
  Qed.

  Lemma reval_correct s c env senv sup : rs_n s = 3%nat -> cfg_ok c -> c_prec c = 0%nat ->
    (forall i, holds s ring c (fst (senv i)) (snd (senv i)) (env i)) ->
    forall path e sh v, rmeans ring c s senv sup path e sh v ->
    exists z, reval s env sup path e = Ok z /\ holds s ring c sh v z.
  Proof.
    intros Hn HC Hp HE path e sh v HM. induction HM; cbn [reval].
    - exists (env i). auto.
    - destruct IHHM1 as (x & -> & HX), IHHM2 as (y & -> & HY). cbn [rbind].
      destruct (rm_lin_holds ring Hs s o c c sa sb so va vb x y HX HY H) as (z & E & HZ).
      exists z. split; [exact E|]. destruct o; exact HZ.
    - destruct IHHM as (x & -> & HX). cbn [rbind].
      destruct (rm_lin_public_holds ring Hs s o c sa va x p vp ltac:(lia) HX H H0 H1) as (z & E & HZ).
      exists z. split; [exact E|]. unfold lin_vr. rewrite (bexpand_self sa va) by (apply (holds_values _ _ _ _ _ HX)).
      destruct o; exact HZ.
    - destruct IHHM as (x & -> & HX). cbn [rbind].
      destruct (rm_rsub_ok ring Hs s c sa va x p vp _ Hn HC H Hp HX H0 H1 H2 H3) as (z & E & HZ).
      exists z. split; [exact E|]. unfold lin_vr. rewrite (bexpand_self sa va) by (apply (holds_values _ _ _ _ _ HX)).
      exact HZ.
    - destruct IHHM1 as (x & -> & HX), IHHM2 as (y & -> & HY). cbn [rbind].
      apply (rm_bil_exact ring Hs s SMul sa sb so f c c va vb x y (sup path)); auto. left; reflexivity.
    - destruct IHHM1 as (x & -> & HX), IHHM2 as (y & -> & HY). cbn [rbind].
      apply (rm_bil_exact ring Hs s SMatmul sa sb so f c c va vb x y (sup path)); auto. right; auto.
    - destruct IHHM as (x & -> & HX). cbn [rbind]. inversion H1; subst.
      apply (rm_mul_public_exact ring Hs s c sa so va x p vp _ Hn HC); auto.
    - destruct IHHM as (x & -> & HX). cbn [rbind].
      apply (rm_matmul_public_exact s c sa so f va x p vp); auto.
    - destruct IHHM as (x & -> & HX). cbn [rbind]. unfold rm_meth.
      destruct (rm_moved ring Hs s c sa va x m so f HX H) as (y & -> & HY). exists y. auto.
    - destruct IHHM as (x & -> & HX). cbn [rbind]. unfold rm_meth. subst ring.
      destruct (rm_sum_64 s c sa va x m so f HX H0) as (y & -> & HY). exists y. auto.
    - destruct IHHM as (x & -> & HX). cbn [rbind].
      apply (pw_power ring Hs s Hn c HC Hp sa H k x va); [exact HX|]. intros q. apply H0.
  Qed.
End Ring.
