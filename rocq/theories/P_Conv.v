(** Properties C52 (shapes of products) and C55 (bias of convolutions).
    Specifications: S_Bil ([product]: when the operations apply, and the shape of the result),
    S_Spdz ([valid_triples], [bare_op]) and S_Div ([any_masks]). *)
From Coq Require Import QArith.
From Verif Require Import Util S_Ring S_Tensor S_Wraps S_Div S_Bil S_Spdz S_View M_Torch M_Encoder M_Tensor M_Share M_Spdz M_Conv
  L_Torch L_Tensor L_Share L_Spdz L_Div L_Bil L_Mul L_View L_Rep6 L_Conv.
Local Open Scope Z_scope.

(** C52: a product, matrix product, convolution or transposed convolution of two shared
    tensors whose arguments torch accepts with result shape [so]: whenever it returns, the
    shape attribute, the shape of each share and the shape of the reconstruction are [so].
    Missing from the full statement: that it returns whenever torch accepts the arguments;
    it returns exactly if torch also accepts them without stride, padding, dilation, groups
    (C52_returns), which is weaker (C52_groups_refuted, C52_padding_refuted). *)
Theorem C52_shape_partial : forall s op sx sy so f x y vx vy ts prim z,
  0 < c_base (s_cfg s) -> (2 <= s_n s)%nat -> product op sx sy so f ->
  m_sid x = s_id s -> m_sid y = s_id s -> m_shape x = sx -> m_shape y = sy ->
  length (m_shares x) = s_n s -> length (m_shares y) = s_n s ->
  shared (2^64) sx vx (m_shares x) -> shared (2^64) sy vy (m_shares y) ->
  valid_triples sx sy so f (s_n s) ts -> any_masks (s_n s) so (fst prim) (snd prim) ->
  mpc_bil s (bop_of op) x y ts prim = Ok z ->
  m_shape z = so /\ length (m_shares z) = s_n s /\ Forall (tensor_in (2^64) so) (m_shares z) /\
  exists vz, reconstruct z = Ok (mkT so vz).
Proof.
  intros s op sx sy so f x y vx vy ts prim z Hc Hn HP SX SY PX PY LX LY HX HY HT HM E.
  destruct (returned_bare s op sx sy so f x y ts prim z HP PX PY E) as (so' & f' & HP').
  destruct (bil_returns s op sx sy so so' f f' x y vx vy ts prim Hc Hn HP HP' SX SY PX PY LX LY HX HY HT HM)
    as (z' & vz & E' & Z1 & Z2 & Z3 & Z4).
  rewrite E in E'. injection E' as <-. do 2 (split; [assumption|]). split; [apply Z4|].
  exists vz. apply shared_shape. exact Z4.
Qed.
Print Assumptions C52_shape_partial.

Theorem C52_returns : forall s op sx sy so f x y vx vy ts prim,
  0 < c_base (s_cfg s) -> (2 <= s_n s)%nat -> product op sx sy so f ->
  m_sid x = s_id s -> m_sid y = s_id s -> m_shape x = sx -> m_shape y = sy ->
  length (m_shares x) = s_n s -> length (m_shares y) = s_n s ->
  shared (2^64) sx vx (m_shares x) -> shared (2^64) sy vy (m_shares y) ->
  valid_triples sx sy so f (s_n s) ts -> any_masks (s_n s) so (fst prim) (snd prim) ->
  ((exists z, mpc_bil s (bop_of op) x y ts prim = Ok z) <-> (exists so' f', product (bare_op op) sx sy so' f')).
Proof.
  intros s op sx sy so f x y vx vy ts prim Hc Hn HP SX SY PX PY LX LY HX HY HT HM. split.
  - intros [z E]. exact (returned_bare s op sx sy so f x y ts prim z HP PX PY E).
  - intros (so' & f' & HP').
    destruct (bil_returns s op sx sy so so' f f' x y vx vy ts prim Hc Hn HP HP' SX SY PX PY LX LY HX HY HT HM)
      as (z' & vz & E' & _). eauto.
Qed.
Print Assumptions C52_returns.

(* stride 2, padding 1, dilation 2: a 4x4 image, a 2x2 kernel, result 2x2 *)
Definition C52_cv : bspec := SConv 2 1 2 1.
Definition C52_s : sess := mkS 3 2 (mkConfig 2 4).
Definition C52_x : mpc := mkM 3 [1;1;4;4]%nat
  [mkT [1;1;4;4]%nat (map Z.of_nat (seq 0 16)); mkT [1;1;4;4]%nat (repeat (-5) 16)].
Definition C52_w : mpc := mkM 3 [1;1;2;2]%nat [mkT [1;1;2;2]%nat [16; 0; 7; 1]; mkT [1;1;2;2]%nat [0; 16; 9; 2^62]].
Definition C52_ts : list triple :=
  match get_triples (bop_of C52_cv) 2 (mkT [1;1;4;4]%nat (repeat 3 16)) (mkT [1;1;2;2]%nat [1;2;3;4])
          [repeat 9 16] [[5;6;7;8]] [[1;2;3;4]] with Ok ts => ts | Err _ => [] end.
Example C52_witness :
  product C52_cv [1;1;4;4]%nat [1;1;2;2]%nat [1;1;2;2]%nat (conv_val 2 1 2 1 1 1 4 4 1 1 2 2 2 2) /\
  (exists so' f', product (bare_op C52_cv) [1;1;4;4]%nat [1;1;2;2]%nat so' f') /\
  valid_triples [1;1;4;4]%nat [1;1;2;2]%nat [1;1;2;2]%nat (conv_val 2 1 2 1 1 1 4 4 1 1 2 2 2 2) 2 C52_ts /\
  shared (2^64) [1;1;4;4]%nat (map (fun i => Z.of_nat i - 5) (seq 0 16)) (m_shares C52_x) /\
  shared (2^64) [1;1;2;2]%nat [16; 16; 16; 2^62 + 1] (m_shares C52_w) /\
  any_masks 2 [1;1;2;2]%nat [] [] /\
  match mpc_bil C52_s (bop_of C52_cv) C52_x C52_w C52_ts ([], []) with
  | Ok z => m_shape z = [1;1;2;2]%nat | Err _ => False end.
Proof.
  assert (HP : product C52_cv [1;1;4;4]%nat [1;1;2;2]%nat [1;1;2;2]%nat (conv_val 2 1 2 1 1 1 4 4 1 1 2 2 2 2)).
  { apply (prod_conv 2 1 2 1 1 4 4 1 1 2 2 2 2); cbn; lia. }
  split; [exact HP|]. split.
  { exists [1;1;3;3]%nat. eexists. apply (prod_conv 1 0 1 1 1 4 4 1 1 2 2 3 3); cbn; lia. }
  split.
  { destruct (get_triples_valid C52_cv _ _ _ _ 2 (mkT [1;1;4;4]%nat (repeat 3 16)) (mkT [1;1;2;2]%nat [1;2;3;4])
      [repeat 9 16] [[5;6;7;8]] [[1;2;3;4]] HP) as (ts & E & V & _); try (repeat constructor; fail).
    unfold C52_ts. rewrite E. exact V. }
  split; [apply sharedb_ok; vm_compute; reflexivity|].
  split; [apply sharedb_ok; vm_compute; reflexivity|]. split; [left; reflexivity|].
  vm_compute. reflexivity.
Qed.

(** C52 for the products with a public operand and for "public @ shared": these return
    whenever torch accepts the shapes. *)
Theorem C52_public_shape : forall s op sx sy so f x y vx prim,
  0 < c_base (s_cfg s) -> (2 <= s_n s)%nat -> op = SMul \/ op = SMatmul -> product op sx sy so f ->
  m_sid x = s_id s -> m_shape x = sx -> length (m_shares x) = s_n s -> shared (2^64) sx vx (m_shares x) ->
  pub_ok y -> pub_shape y = sy -> any_masks (s_n s) so (fst prim) (snd prim) ->
  exists z vz, mpc_bil_public s (bop_of op) x y prim = Ok z /\ m_shape z = so /\
    length (m_shares z) = s_n s /\ Forall (tensor_in (2^64) so) (m_shares z) /\ reconstruct z = Ok (mkT so vz).
Proof.
  intros s op sx sy so f x y vx prim Hc Hn Hop HP SX PX LX HX Hy PY HM.
  destruct (public_returns s op sx sy so f x y vx prim Hc Hn Hop HP SX PX LX HX Hy PY HM) as (z & vz & E & _ & A & B & C).
  exists z, vz. split; [exact E|]. do 2 (split; [assumption|]). split; [apply C|apply shared_shape, C].
Qed.
Print Assumptions C52_public_shape.

Theorem C52_rmatmul_shape : forall s sx sy so f x y vx prim,
  0 < c_base (s_cfg s) -> (2 <= s_n s)%nat -> product SMatmul sy sx so f ->
  m_sid x = s_id s -> m_shape x = sx -> length (m_shares x) = s_n s -> shared (2^64) sx vx (m_shares x) ->
  pub_ok y -> pub_shape y = sy -> any_masks (s_n s) so (fst prim) (snd prim) ->
  exists z vz, mpc_rmatmul s x y prim = Ok z /\ m_shape z = so /\
    length (m_shares z) = s_n s /\ Forall (tensor_in (2^64) so) (m_shares z) /\ reconstruct z = Ok (mkT so vz).
Proof.
  intros s sx sy so f x y vx prim Hc Hn HP SX PX LX HX Hy PY HM.
  destruct (rmatmul_returns s sx sy so f x y vx prim Hc Hn HP SX PX LX HX Hy PY HM) as (z & vz & E & _ & A & B & C).
  exists z, vz. split; [exact E|]. do 2 (split; [assumption|]). split; [apply C|apply shared_shape, C].
Qed.
Print Assumptions C52_rmatmul_shape.

Example C52_public_witness : (* a stack of two 1x2 matrices times a vector, and a vector times it *)
  let x := mkM 3 [2;1;2]%nat [mkT [2;1;2]%nat [1;2;3;4]; mkT [2;1;2]%nat [16;16;-9;0]] in
  product SMatmul [2;1;2]%nat [2]%nat [2;1]%nat (mm_val [2]%nat [] [2]%nat 1 2 1) /\
  product SMatmul [1]%nat [2;1;2]%nat [2;2]%nat (mm_val [] [2]%nat [2]%nat 1 1 2) /\
  shared (2^64) [2;1;2]%nat [17;18;-6;4] (m_shares x) /\
  (do z <- mpc_bil_public C52_s BMatmul x (PTensor [2%nat] [NInt 2; NInt 3]) ([], []); Ok (m_shape z)) = Ok [2;1]%nat /\
  (do z <- mpc_rmatmul C52_s x (PTensor [1%nat] [NInt 2]) ([], []); Ok (m_shape z)) = Ok [2;2]%nat.
Proof.
  cbn zeta. split; [apply (prod_mv_r (2^64) [2]%nat 1 2)|]. split; [apply (prod_vm_r (2^64) [2]%nat 1 2)|].
  split; [apply sharedb_ok; vm_compute; reflexivity|]. split; vm_compute; reflexivity.
Qed.

(** C52, false of the code: a convolution in two groups, which torch accepts, raises: the
    shape is first computed without the keyword arguments (mpc_tensor.py:687), and without
    groups the channels do not match. *)
Definition C52_g : bspec := SConv 1 0 1 2.
Definition C52_gx : mpc := mkM 3 [1;2;1;1]%nat [mkT [1;2;1;1]%nat [48; 32]; mkT [1;2;1;1]%nat [0; 16]].
Definition C52_gw : mpc := mkM 3 [2;1;1;1]%nat [mkT [2;1;1;1]%nat [16; 10]; mkT [2;1;1;1]%nat [16; 6]].
Definition C52_gts : list triple :=
  match get_triples (bop_of C52_g) 2 (mkT [1;2;1;1]%nat [3; 4]) (mkT [2;1;1;1]%nat [5; 6])
          [[9; 8]] [[7; 6]] [[1; 2]] with Ok ts => ts | Err _ => [] end.
Theorem C52_groups_refuted : exists s op sx sy so f x y vx vy ts prim,
  0 < c_base (s_cfg s) /\ s_n s = 2%nat /\ op = SConv 1 0 1 2 /\ product op sx sy so f /\
  m_sid x = s_id s /\ m_sid y = s_id s /\ m_shape x = sx /\ m_shape y = sy /\
  length (m_shares x) = s_n s /\ length (m_shares y) = s_n s /\
  shared (2^64) sx vx (m_shares x) /\ shared (2^64) sy vy (m_shares y) /\
  valid_triples sx sy so f (s_n s) ts /\ any_masks (s_n s) so (fst prim) (snd prim) /\
  mpc_bil s (bop_of op) x y ts prim = Err RuntimeError.
Proof.
  assert (HP : product C52_g [1;2;1;1]%nat [2;1;1;1]%nat [1;2;1;1]%nat (conv_val 1 0 1 2 1 2 1 1 2 1 1 1 1 1)).
  { apply (prod_conv 1 0 1 2 1 1 1 1 1 1 1 1 1); cbn; lia. }
  exists C52_s, C52_g, [1;2;1;1]%nat, [2;1;1;1]%nat, [1;2;1;1]%nat, (conv_val 1 0 1 2 1 2 1 1 2 1 1 1 1 1),
    C52_gx, C52_gw, [48; 48], [32; 16], C52_gts, ([], []).
  do 3 (split; [reflexivity|]). split; [exact HP|]. do 6 (split; [reflexivity|]).
  split; [apply sharedb_ok; vm_compute; reflexivity|].
  split; [apply sharedb_ok; vm_compute; reflexivity|]. split.
  { destruct (get_triples_valid C52_g _ _ _ _ 2 (mkT [1;2;1;1]%nat [3; 4]) (mkT [2;1;1;1]%nat [5; 6])
      [[9; 8]] [[7; 6]] [[1; 2]] HP) as (ts & E & V & _); try (repeat constructor; fail).
    unfold C52_gts. rewrite E. exact V. }
  split; [left; reflexivity|]. vm_compute. reflexivity.
Qed.
Print Assumptions C52_groups_refuted.

(** C52, false of the code: a kernel larger than the image is fine for torch with enough
    padding, but raises here for the same reason. *)
Definition C52_p : bspec := SConv 1 1 1 1.
Definition C52_px : mpc := mkM 3 [1;1;1;1]%nat [mkT [1;1;1;1]%nat [48]; mkT [1;1;1;1]%nat [0]].
Definition C52_pw : mpc := mkM 3 [1;1;3;3]%nat [mkT [1;1;3;3]%nat (repeat 16 9); mkT [1;1;3;3]%nat (repeat 0 9)].
Definition C52_pts : list triple :=
  match get_triples (bop_of C52_p) 2 (mkT [1;1;1;1]%nat [3]) (mkT [1;1;3;3]%nat (repeat 5 9))
          [[9]] [repeat 6 9] [[1]] with Ok ts => ts | Err _ => [] end.
Theorem C52_padding_refuted : exists s op sx sy so f x y vx vy ts prim,
  0 < c_base (s_cfg s) /\ s_n s = 2%nat /\ op = SConv 1 1 1 1 /\ product op sx sy so f /\
  m_sid x = s_id s /\ m_sid y = s_id s /\ m_shape x = sx /\ m_shape y = sy /\
  length (m_shares x) = s_n s /\ length (m_shares y) = s_n s /\
  shared (2^64) sx vx (m_shares x) /\ shared (2^64) sy vy (m_shares y) /\
  valid_triples sx sy so f (s_n s) ts /\ any_masks (s_n s) so (fst prim) (snd prim) /\
  mpc_bil s (bop_of op) x y ts prim = Err RuntimeError.
Proof.
  assert (HP : product C52_p [1;1;1;1]%nat [1;1;3;3]%nat [1;1;1;1]%nat (conv_val 1 1 1 1 1 1 1 1 1 1 3 3 1 1)).
  { apply (prod_conv 1 1 1 1 1 1 1 1 1 3 3 1 1); cbn; lia. }
  exists C52_s, C52_p, [1;1;1;1]%nat, [1;1;3;3]%nat, [1;1;1;1]%nat, (conv_val 1 1 1 1 1 1 1 1 1 1 3 3 1 1),
    C52_px, C52_pw, [48], (repeat 16 9), C52_pts, ([], []).
  do 3 (split; [reflexivity|]). split; [exact HP|]. do 6 (split; [reflexivity|]).
  split; [apply sharedb_ok; vm_compute; reflexivity|].
  split; [apply sharedb_ok; vm_compute; reflexivity|]. split.
  { destruct (get_triples_valid C52_p _ _ _ _ 2 (mkT [1;1;1;1]%nat [3]) (mkT [1;1;3;3]%nat (repeat 5 9))
      [[9]] [repeat 6 9] [[1]] HP) as (ts & E & V & _); try (repeat constructor; fail).
    unfold C52_pts. rewrite E. exact V. }
  split; [left; reflexivity|]. vm_compute. reflexivity.
Qed.
Print Assumptions C52_padding_refuted.

(** C55: a shared bias with one element per output channel: the result is the convolution
    plus, at each element, the bias of its channel. *)
Theorem C55_shared_bias : forall s op x w ts prim c vc b vb nb o oh ow,
  mpc_bil s (bop_of op) x w ts prim = Ok c ->
  m_shape c = [nb; o; oh; ow] -> length (m_shares c) = s_n s ->
  shared (2^64) [nb; o; oh; ow] vc (m_shares c) ->
  m_sid b = m_sid c -> m_shape b = [o] -> (0 < o)%nat -> length (m_shares b) = s_n s ->
  shared (2^64) [o] vb (m_shares b) ->
  exists z vz, mpc_conv s (bop_of op) x w ts prim (ShBias b) = Ok z /\ m_shape z = [nb; o; oh; ow] /\
    length (m_shares z) = s_n s /\ shared (2^64) [nb; o; oh; ow] vz (m_shares z) /\
    forall e, (e < numel [nb; o; oh; ow])%nat ->
      nth e vz 0 = to_ring (2^64) (nth e vc 0 + nth ((e / (oh * ow)) mod o)%nat vb 0).
Proof.
  intros s op x w ts prim c vc b vb nb o oh ow E SC LC HC SB PB Ho LB HB.
  unfold mpc_conv. rewrite E. cbn [rbind bias_true]. rewrite PB.
  destruct (Nat.eqb_spec o 0) as [|_]; [lia|]. cbn [negb unsqueeze11 rbind].
  pose proof (shared_vals (2^64) supR _ _ _ HB) as (VL & VI & _).
  pose proof (shared_vals (2^64) supR _ _ _ HC) as (CL & CI & _).
  assert (TV : tview (2^64) (VReshape [o; 1; 1]%nat) (mkT (m_shape b) vb) = Ok (mkT [o; 1; 1]%nat vb)).
  { rewrite PB. apply (view_spec (VReshape [o; 1; 1]%nat) [o] [o; 1; 1]%nat (fun v => v)); auto.
    apply vw_reshape. cbn. lia. }
  destruct (mpc_view_commutes (VReshape [o; 1; 1]%nat) b vb _ ltac:(rewrite PB; exact HB) TV)
    as (m' & EM & M1 & M2 & M3 & M4 & _). cbn [tsh tdat] in *.
  rewrite EM. cbn [rbind].
  destruct (mpc_lin_shared LAdd c m' [nb; o; oh; ow] vc vb) as (z & EZ & Z1 & Z2 & Z3 & Z4).
  - congruence.
  - congruence.
  - rewrite SC. exact HC.
  - rewrite M2. exact M4.
  - rewrite SC, M2. apply bshape_channel.
  - rewrite SC, M2 in Z4. rewrite (bexpand_self [nb; o; oh; ow]) in Z4 by auto. cbn [s_linop] in Z4.
    exists z. eexists. split; [exact EZ|]. split; [exact Z2|]. split; [congruence|]. split; [exact Z4|].
    intros e He. unfold s_add. rewrite (nth_map2 _ 0 0 0) by (rewrite ?bexpand_length; lia).
    rewrite bexpand_nth, bget_channel by auto. reflexivity.
Qed.
Print Assumptions C55_shared_bias.

(** C55: a public bias of one element: added to every element (a zero is skipped, which is
    the same) *)
Theorem C55_single_public_bias : forall s op x w ts prim c vc v nb o oh ow,
  mpc_bil s (bop_of op) x w ts prim = Ok c ->
  m_shape c = [nb; o; oh; ow] -> length (m_shares c) = s_n s ->
  shared (2^64) [nb; o; oh; ow] vc (m_shares c) ->
  exists z vz, mpc_conv s (bop_of op) x w ts prim (PubBias [1%nat] [v]) = Ok z /\ m_shape z = [nb; o; oh; ow] /\
    length (m_shares z) = s_n s /\ shared (2^64) [nb; o; oh; ow] vz (m_shares z) /\
    forall e, (e < numel [nb; o; oh; ow])%nat ->
      nth e vz 0 = to_ring (2^64) (nth e vc 0 + nth 0 (encode (s_cfg s) [v]) 0).
Proof.
  intros s op x w ts prim c vc v nb o oh ow E SC LC HC.
  pose proof (shared_vals (2^64) supR _ _ _ HC) as (CL & CI & _).
  unfold mpc_conv. rewrite E. cbn [rbind bias_true]. destruct (num_true v) eqn:EV; cbn [negb].
  - cbn [unsqueeze11 rbind].
    destruct (mpc_lin_public_value s LAdd c (PTensor [1;1;1]%nat [v]) vc [nb; o; oh; ow])
      as (z & EZ & Z1 & Z2 & Z3 & _ & Z5).
    + reflexivity.
    + rewrite SC. exact HC.
    + rewrite SC. apply bshape_one3.
    + specialize (Z5 (eq_sym SC)). rewrite SC in Z5. rewrite (bexpand_self [nb; o; oh; ow]) in Z5 by auto.
      cbn [s_linop pub_shape pub_vals] in Z5.
      exists z. eexists. split; [exact EZ|]. split; [exact Z2|]. split; [congruence|]. split; [exact Z5|].
      intros e He. unfold s_add. rewrite (nth_map2 _ 0 0 0) by (rewrite ?bexpand_length; lia).
      rewrite bexpand_nth, bget_one by auto. reflexivity.
  - exists c, vc. do 4 (split; [solve [auto]|]). intros e He.
    assert (E0 : nth 0 (encode (s_cfg s) [v]) 0 = 0).
    { cbn [encode map nth]. destruct v as [z|[a d]]; cbn [num_true] in EV; apply Bool.negb_false_iff, Z.eqb_eq in EV.
      - subst z. reflexivity.
      - cbn [Qnum] in EV. subst a. reflexivity. }
    rewrite E0, Z.add_0_r. symmetry. unfold vec_in in CI. rewrite Forall_forall in CI. apply CI, nth_In. lia.
Qed.
Print Assumptions C55_single_public_bias.

(** C55, false of the code: any public bias for two or more output channels raises, whatever
    the operands ([if bias:] on a tensor of several elements) *)
Theorem C55_public_bias_fails : forall s op x w ts prim sh vs,
  (2 <= length vs)%nat -> exists e, mpc_conv s op x w ts prim (PubBias sh vs) = Err e.
Proof.
  intros s op x w ts prim sh vs H. unfold mpc_conv.
  destruct (mpc_bil s op x w ts prim) as [c|e]; cbn [rbind]; [|eauto].
  destruct vs as [|a [|b l]]; cbn in H; try lia. cbn [bias_true rbind]. eauto.
Qed.
Print Assumptions C55_public_bias_fails.

(* one input channel, two output channels, a 1x2 image, scale 16 *)
Definition C55_x : mpc := mkM 3 [1;1;1;2]%nat [mkT [1;1;1;2]%nat [48; 32]; mkT [1;1;1;2]%nat [0; 16]].
Definition C55_w : mpc := mkM 3 [2;1;1;1]%nat [mkT [2;1;1;1]%nat [16; 32]; mkT [2;1;1;1]%nat [16; 16]].
Definition C55_b : mpc := mkM 3 [2]%nat [mkT [2]%nat [160; 0]; mkT [2]%nat [0; 320]].
Definition C55_ts : list triple :=
  match get_triples (BConv2d conv_default) 2 (mkT [1;1;1;2]%nat [3; 4]) (mkT [2;1;1;1]%nat [5; 6])
          [[9; 8]] [[7; 6]] [[1; 2; 3; 4]] with Ok ts => ts | Err _ => [] end.
Theorem C55_public_bias_refuted : exists s x w ts prim c vs,
  mpc_bil s (BConv2d conv_default) x w ts prim = Ok c /\ m_shape c = [1;2;1;2]%nat /\ length vs = 2%nat /\
  mpc_conv s (BConv2d conv_default) x w ts prim (PubBias [2%nat] vs) = Err RuntimeError.
Proof.
  exists C52_s, C55_x, C55_w, C55_ts, ([], []). eexists. exists [NInt 10; NInt 20].
  split; [vm_compute; reflexivity|]. split; [reflexivity|]. split; [reflexivity|]. vm_compute. reflexivity.
Qed.
Print Assumptions C55_public_bias_refuted.

Example C55_witness :
  (exists c, mpc_bil C52_s (bop_of (SConv 1 0 1 1)) C55_x C55_w C55_ts ([], []) = Ok c /\
    m_shape c = [1;2;1;2]%nat /\ m_sid C55_b = m_sid c /\ length (m_shares c) = 2%nat /\
    shared (2^64) [1;2;1;2]%nat [96; 96; 144; 144] (m_shares c)) /\
  shared (2^64) [2]%nat [160; 320] (m_shares C55_b) /\
  (do z <- mpc_conv C52_s (bop_of (SConv 1 0 1 1)) C55_x C55_w C55_ts ([], []) (ShBias C55_b); reconstruct z) =
    Ok (mkT [1;2;1;2]%nat [256; 256; 464; 464]) /\
  (do z <- mpc_conv C52_s (bop_of (SConv 1 0 1 1)) C55_x C55_w C55_ts ([], []) (PubBias [1%nat] [NFloat (1 # 2)]); reconstruct z) =
    Ok (mkT [1;2;1;2]%nat [104; 104; 152; 152]).
Proof.
  split; [|split; [|split]].
  - eexists. split; [vm_compute; reflexivity|]. do 3 (split; [reflexivity|]).
    apply sharedb_ok; vm_compute; reflexivity.
  - apply sharedb_ok; vm_compute; reflexivity.
  - vm_compute; reflexivity.
  - vm_compute; reflexivity.
Qed.
