(** Lemmas on the three-party protocols: truncation, multiplication, verification. *)
From Coq Require Import QArith Setoid Morphisms.
From Verif Require Import Util Modular S_Ring S_Tensor S_Bil S_Spdz S_Rep M_Torch L_Torch M_Encoder M_Tensor L_Tensor M_Share L_Share M_Spdz L_Spdz L_Bil
  L_RShare L_Mul M_Session L_Session M_Rep S_RepT L_Rep L_Rep2.
Local Open Scope Z_scope.

Lemma three {A} (l : list A) : length l = 3%nat -> exists a b c, l = [a; b; c].
Proof. destruct l as [|a [|b [|c [|]]]]; cbn; intros; try lia. eauto. Qed.

Lemma rv0 a b c : rep_view [a; b; c] 0 = [a; b]. Proof. reflexivity. Qed.
Lemma rv1 a b c : rep_view [a; b; c] 1 = [b; c]. Proof. reflexivity. Qed.
Lemma rv2 a b c : rep_view [a; b; c] 2 = [c; a]. Proof. reflexivity. Qed.
Lemma rep_view3 a b c : rep_view [a; b; c] 0 = [a; b] /\ rep_view [a; b; c] 1 = [b; c] /\ rep_view [a; b; c] 2 = [c; a].
Proof. repeat split. Qed.

Lemma rviews3 s ring cf a b c : rviews s ring cf [a; b; c] =
  [mkR ring (cf 0%nat) (Some (rs_uuid s 0)) [a; b]; mkR ring (cf 1%nat) (Some (rs_uuid s 1)) [b; c];
   mkR ring (cf 2%nat) (Some (rs_uuid s 2)) [c; a]].
Proof. reflexivity. Qed.

Section Ring.
  Variable ring : Z.
  Hypothesis Hs : supported ring.
  Let Hp : 0 < ring := supported_pos ring Hs.

  Lemma radd_plain : ring <> 2 -> ring <> 67 -> radd ring = plain_op ring Z.add /\ rsub ring = plain_op ring Z.sub.
  Proof.
    intros N2 N67. unfold radd, rsub, PRIME. apply Z.eqb_neq in N2, N67. rewrite N2, N67. split; reflexivity.
  Qed.

  Lemma radd_to_ring x y : in_ring ring x -> in_ring ring y -> radd ring x y = to_ring ring (x + y).
  Proof. intros. apply radd_spec; auto. Qed.

  (** the truncation yields consistent shares of the separately divided parts *)
  Lemma truncation_ok s c so z1 z2 z3 rnd : ring <> 2 -> ring <> 67 -> cfg_ok c -> rs_n s = 3%nat ->
    tensor_in ring so z1 -> tensor_in ring so z2 -> tensor_in ring so z3 -> tensor_in ring so rnd ->
    exists ss, truncation_algorithm1 s [z1; z2; z3] ring c rnd = Ok (rviews s ring (fun _ => c) ss) /\
      length ss = 3%nat /\ nth_error ss 2 = Some rnd /\ shared ring so (trunc3 ring c so [z1; z2; z3]) ss.
  Proof.
    intros N2 N67 Hc Hn (A1 & A2 & A3) (B1 & B2 & B3) (C1 & C2 & C3) (D1 & D2 & D3).
    destruct (radd_plain N2 N67) as [EA ES].
    unfold truncation_algorithm1.
    assert (EZ : negb (c_base c =? 2) && (scale c =? 0) = false).
    { destruct (Z.eqb_spec (c_base c) 2); [reflexivity|]. cbn [negb andb]. apply Z.eqb_neq.
      assert (P : 0 < scale c) by (unfold scale; apply Z.pow_pos_nonneg; unfold cfg_ok in Hc; lia). lia. }
    rewrite EZ. rewrite <- EA, <- ES.
    rewrite (tbin_same _ z2 z3 so) by auto. cbn [rbind tsh tdat].
    set (xt := mkT so (map (trunc_elt c) (map2 (radd ring) (tdat z2) (tdat z3)))).
    assert (LX : length (tdat xt) = numel so).
    { cbn [xt tdat]. rewrite map_length. apply map2_length_eq; auto. }
    rewrite (tbin_same _ xt rnd so) by auto. cbn [rbind].
    rewrite rst_distribute_ok by (cbn; lia). cbn [rbind received].
    rewrite (rst_cfg_scaled ring c) by auto.
    assert (IX : vec_in ring (tdat xt)).
    { cbn [xt tdat]. apply Forall_map, Forall_forall. intros v Hv. rewrite scale_down_elt.
      apply scale_down_in; auto.
      pose proof (vadd_in ring Hs (tdat z2) (tdat z3) B3 C3) as HI. unfold vec_in, vadd in HI.
      rewrite Forall_forall in HI. auto. }
    eexists. split; [reflexivity|]. split; [reflexivity|]. split; [reflexivity|].
    assert (LT : length (trunc3 ring c so [z1; z2; z3]) = numel so) by (cbn [trunc3]; rewrite map_length, seq_length; auto).
    apply shared_intro; auto.
    - discriminate.
    - constructor; [|constructor; [|constructor; [|constructor]]].
      + split; [auto|]. cbn [tdat]. rewrite map_length. split; [auto|].
        apply Forall_map, Forall_forall. intros v Hv. rewrite scale_down_elt. apply scale_down_in; auto.
        unfold vec_in in A3. rewrite Forall_forall in A3. auto.
      + split; [reflexivity|]. cbn [tdat]. split; [apply map2_length_eq; auto|]. apply (vsub_in ring Hs); auto.
      + split; auto.
    - cbn [trunc3]. apply map_to_ring_in; auto.
    - intros e He. cbn [trunc3 map zsum tdat].
      rewrite (nth_map_in _ 0%nat 0) by (rewrite seq_length; auto). rewrite nth_seq_lt by auto. cbn [plus].
      rewrite to_ring_eqmod by apply Hp.
      rewrite (nth_map_in (trunc_elt c) 0 0) by lia. rewrite scale_down_elt.
      change (map2 (rsub ring) (tdat xt) (tdat rnd)) with (vsub ring (tdat xt) (tdat rnd)).
      rewrite (nth_vsub ring Hs) by (auto; lia).
      cbn [xt tdat]. rewrite (nth_map_in (trunc_elt c) 0 0) by (rewrite (map2_length_eq _ _ _ (numel so)); auto).
      rewrite scale_down_elt. rewrite (nth_map2 _ 0 0 0) by lia.
      rewrite radd_to_ring by (apply nth_in_ring; auto).
      apply eqmod_eq. lia.
  Qed.

  (* ---------------------------------------------------------- the local products *)
  Lemma rep_op_get op : rep_op ring op -> exists o fn, opname_of (bop_of op) = Ok o /\ get_op ring o = Ok fn.
  Proof.
    intros [->|(-> & N2 & N67)]; cbn [bop_of opname_of].
    - exists OMul, (rmul ring). split; [reflexivity|]. apply get_op_mul; auto.
    - exists OMatmul, (rmul ring). split; [reflexivity|]. unfold get_op, PRIME.
      destruct (type_supported _ Hs) as [d ->]. apply Z.eqb_neq in N2, N67. rewrite N2, N67. reflexivity.
  Qed.

  Lemma compute_z_ok op sx sy so f c d u w x0 x1 y0 y1 m : product_r ring op sx sy so f -> rep_op ring op ->
    tensor_in ring sx x0 -> tensor_in ring sx x1 -> tensor_in ring sy y0 -> tensor_in ring sy y1 -> tensor_in ring so m ->
    exists z, compute_z (bop_of op) (mkR ring c u [x0; x1]) (mkR ring d w [y0; y1]) m = Ok z /\ tensor_in ring so z /\
      forall e, nth e (tdat z) 0 == nth e (f (tdat x0) (tdat y0)) 0 + nth e (f (tdat x1) (tdat y0)) 0 +
                nth e (f (tdat x0) (tdat y1)) 0 + nth e (tdat m) 0 [mod ring].
  Proof.
    intros HP HO X0 X1 Y0 Y1 (M1 & M2 & M3). destruct (rep_op_get op HO) as (o & fn & EO & EG).
    unfold compute_z, multiplication_protocol. rewrite EO. cbn [rbind r_ring r_shares]. rewrite EG. cbn [rbind].
    unfold get_nth. cbn [nth_error rbind].
    rewrite !(product_tbil ring Hs op sx sy so f) by auto. cbn [rbind].
    assert (HF : Forall (tensor_in ring so) [mkT so (f (tdat x0) (tdat y0)); mkT so (f (tdat x1) (tdat y0)); mkT so (f (tdat x0) (tdat y1))]).
    { repeat constructor; try (eapply product_in_r; eauto). }
    rewrite (tsum_spec ring Hs so) by (auto; discriminate). cbn [rbind].
    rewrite (get_op_lin ring Hs LAdd : get_op ring OAdd = _). cbn [rbind r_lop].
    rewrite (tbin_same _ _ m so) by (auto; cbn [tdat]; apply s_sum_length).
    eexists. split; [reflexivity|]. cbn [tdat].
    assert (SI : vec_in ring (s_sum ring (numel so) (map tdat [mkT so (f (tdat x0) (tdat y0)); mkT so (f (tdat x1) (tdat y0)); mkT so (f (tdat x0) (tdat y1))]))) by (apply s_sum_in; auto).
    assert (SL : length (s_sum ring (numel so) (map tdat [mkT so (f (tdat x0) (tdat y0)); mkT so (f (tdat x1) (tdat y0)); mkT so (f (tdat x0) (tdat y1))])) = numel so) by apply s_sum_length.
    split.
    - split; [reflexivity|]. cbn [tdat]. split; [apply map2_length_eq; auto|]. apply (vadd_in ring Hs); auto.
    - intros e. destruct (Nat.lt_ge_cases e (numel so)) as [He|He].
      + change (map2 (radd ring)) with (vadd ring). rewrite (nth_vadd ring Hs) by (auto; lia).
        rewrite s_sum_nth by auto. rewrite to_ring_eqmod by apply Hp. cbn [map zsum tdat]. apply eqmod_eq. lia.
      + assert (ZL : forall va vb, nth e (f va vb) 0 = 0).
        { intros va vb. apply nth_overflow. destruct (product_in_r ring Hs _ _ _ _ _ va vb HP) as (_ & L & _). cbn [tdat] in L. lia. }
        rewrite !ZL. rewrite (nth_overflow (tdat m)) by lia.
        rewrite nth_overflow by (rewrite (map2_length_eq _ _ _ (numel so)); auto). reflexivity.
  Qed.

  Lemma Bf_three ps a0 a1 a2 b0 b1 b2 :
    Bf ps (fun i => a0 i + (a1 i + (a2 i + 0))) (fun i => b0 i + (b1 i + (b2 i + 0))) =
    (Bf ps a0 b0 + Bf ps a1 b0 + Bf ps a0 b1) + (Bf ps a1 b1 + Bf ps a2 b1 + Bf ps a1 b2) +
    (Bf ps a2 b2 + Bf ps a0 b2 + Bf ps a2 b0).
  Proof. unfold Bf. rewrite <- !zsum_map_add. apply zsum_ext. intros p _. ring. Qed.

  (** the masked local products are a sharing of the product plus what the masks add up to *)
  Lemma falcon_z_mask s op sx sy so f cf cg vx vy vm xs ys ms : product_r ring op sx sy so f -> rep_op ring op ->
    length xs = 3%nat -> length ys = 3%nat -> length ms = 3%nat ->
    shared ring sx vx xs -> shared ring sy vy ys -> shared ring so vm ms ->
    forall sid sid' shx shy,
    exists zs, falcon_z (bop_of op) (mkRM sid shx (rviews s ring cf xs)) (mkRM sid' shy (rviews s ring cg ys)) ms = Ok zs /\
      length zs = 3%nat /\ shared ring so (s_add ring (f vx vy) vm) zs.
  Proof.
    intros HP HO LX LY LM HX HY HM sid sid' shx shy.
    pose proof (shared_vals ring Hs _ _ _ HX) as (_ & _ & XN).
    pose proof (shared_vals ring Hs _ _ _ HY) as (_ & _ & YN).
    pose proof (shared_vals ring Hs _ _ _ HM) as (ML & _ & MN).
    destruct HX as (_ & X2 & _), HY as (_ & Y2 & _), HM as (_ & M2 & _).
    destruct (three xs LX) as (x0 & x1 & x2 & ->), (three ys LY) as (y0 & y1 & y2 & ->), (three ms LM) as (m0 & m1 & m2 & ->).
    inversion X2 as [|? ? X2a X2']; inversion X2' as [|? ? X2b X2'']; inversion X2'' as [|? ? X2c _]; subst; clear X2 X2' X2''.
    inversion Y2 as [|? ? Y2a Y2']; inversion Y2' as [|? ? Y2b Y2'']; inversion Y2'' as [|? ? Y2c _]; subst; clear Y2 Y2' Y2''.
    inversion M2 as [|? ? M2a M2']; inversion M2' as [|? ? M2b M2'']; inversion M2'' as [|? ? M2c _]; subst; clear M2 M2' M2''.
    unfold falcon_z. cbn [rm_ps]. rewrite !rviews3. cbn [combine rmap fst snd].
    destruct (compute_z_ok op sx sy so f (cf 0%nat) (cg 0%nat) (Some (rs_uuid s 0)) (Some (rs_uuid s 0)) x0 x1 y0 y1 m0) as (z0 & E0 & T0 & N0); auto.
    destruct (compute_z_ok op sx sy so f (cf 1%nat) (cg 1%nat) (Some (rs_uuid s 1)) (Some (rs_uuid s 1)) x1 x2 y1 y2 m1) as (z1 & E1 & T1 & N1); auto.
    destruct (compute_z_ok op sx sy so f (cf 2%nat) (cg 2%nat) (Some (rs_uuid s 2)) (Some (rs_uuid s 2)) x2 x0 y2 y0 m2) as (z2 & E2 & T2 & N2); auto.
    rewrite E0, E1, E2. eexists. split; [reflexivity|]. split; [reflexivity|].
    destruct (product_nth ring Hs _ _ _ _ _ HP) as (ix & HL & HN).
    destruct (product_in_r ring Hs _ _ _ _ _ vx vy HP) as (_ & P2 & P3). cbn [tdat] in P2, P3.
    apply shared_intro; auto.
    - discriminate.
    - apply map2_length_eq; auto.
    - apply map2_to_ring_in; auto.
    - intros e He. cbn [map zsum]. rewrite N0, N1, N2.
      pose proof (MN e) as HM. cbn [map zsum] in HM.
      unfold s_add. rewrite (nth_map2 _ 0 0 0) by lia. rewrite to_ring_eqmod by apply Hp.
      rewrite (HN vx vy) by auto. rewrite !HN by auto.
      assert (EB : Bf (nth e ix []) (fun i => nth i vx 0) (fun i => nth i vy 0) ==
        Bf (nth e ix []) (fun i => nth i (tdat x0) 0 + (nth i (tdat x1) 0 + (nth i (tdat x2) 0 + 0)))
                      (fun i => nth i (tdat y0) 0 + (nth i (tdat y1) 0 + (nth i (tdat y2) 0 + 0))) [mod ring]).
      { apply Bf_cong; intros i; [rewrite (XN i) | rewrite (YN i)]; reflexivity. }
      etransitivity; [apply eqmod_add; [exact EB|exact HM]|]. rewrite Bf_three. apply eqmod_eq. ring.
  Qed.

  Lemma falcon_z_ok s op sx sy so f cf cg vx vy xs ys ms : product_r ring op sx sy so f -> rep_op ring op ->
    length xs = 3%nat -> length ys = 3%nat -> length ms = 3%nat ->
    shared ring sx vx xs -> shared ring sy vy ys -> shared ring so (repeat 0 (numel so)) ms ->
    forall sid sid' shx shy,
    exists zs, falcon_z (bop_of op) (mkRM sid shx (rviews s ring cf xs)) (mkRM sid' shy (rviews s ring cg ys)) ms = Ok zs /\
      length zs = 3%nat /\ shared ring so (f vx vy) zs.
  Proof.
    intros HP HO LX LY LM HX HY HM sid sid' shx shy.
    destruct (falcon_z_mask s op sx sy so f cf cg vx vy _ xs ys ms HP HO LX LY LM HX HY HM sid sid' shx shy) as (zs & E & L & S).
    exists zs. split; [exact E|]. split; [exact L|].
    destruct (product_in_r ring Hs _ _ _ _ _ vx vy HP) as (_ & P2 & P3). cbn [tdat] in P2, P3.
    replace (f vx vy) with (s_add ring (f vx vy) (repeat 0 (numel so))); [exact S|].
    apply (vec_eq ring Hs); auto.
    - apply map2_to_ring_in; auto.
    - rewrite P2. apply map2_length_eq; [auto|apply repeat_length].
    - intros e He. unfold s_add in *. rewrite (map2_length_eq _ _ _ (numel so)) in He by (auto; apply repeat_length).
      rewrite (nth_map2 _ 0 0 0) by (rewrite ?repeat_length; lia). rewrite to_ring_eqmod by apply Hp.
      rewrite nth_repeat_lt by auto. apply eqmod_eq. lia.
  Qed.
End Ring.
