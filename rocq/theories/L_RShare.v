(** Lemmas on additive sharings in an arbitrary ring: share-wise linear operations and
    products by a fixed tensor. *)
From Coq Require Import QArith Setoid Morphisms.
From Verif Require Import Util Modular S_Ring S_Tensor S_Bil S_Spdz M_Torch L_Torch M_Encoder M_Tensor L_Tensor M_Share L_Share M_Spdz L_Spdz L_Bil.
Local Open Scope Z_scope.

Definition s_lop (ring : Z) (o : linop) := match o with LAdd => s_add ring | LSub => s_sub ring end.
Definition r_lop (ring : Z) (o : linop) := match o with LAdd => radd ring | LSub => rsub ring end.

Section Ring.
  Variable ring : Z.
  Hypothesis Hs : supported ring.
  Let Hp : 0 < ring := supported_pos ring Hs.

  Lemma vec_eq' x y : vec_in ring x -> vec_in ring y -> length x = length y ->
    (forall e, (e < length x)%nat -> nth e x 0 == nth e y 0 [mod ring]) -> x = y.
  Proof. apply vec_eq; auto. Qed.

  Lemma s_lop_in o x y : vec_in ring (s_lop ring o x y).
  Proof. destruct o; apply map2_to_ring_in; auto. Qed.
  Lemma s_lop_length o x y m : length x = m -> length y = m -> length (s_lop ring o x y) = m.
  Proof. destruct o; apply map2_length_eq. Qed.
  Lemma s_lop_spec o x y : vec_in ring x -> vec_in ring y -> map2 (r_lop ring o) x y = s_lop ring o x y.
  Proof. destruct o; intros; [apply (vadd_spec ring) | apply (vsub_spec ring)]; auto. Qed.
  Lemma s_lop_nth o x y e : (e < length x)%nat -> length x = length y ->
    nth e (s_lop ring o x y) 0 == (match o with LAdd => nth e x 0 + nth e y 0 | LSub => nth e x 0 - nth e y 0 end) [mod ring].
  Proof.
    intros He HL. destruct o; unfold s_lop, s_add, s_sub; rewrite (nth_map2 _ 0 0 0) by lia;
      apply to_ring_eqmod, Hp.
  Qed.

  Lemma tbin_lop o a b so : bshape (tsh a) (tsh b) so -> vec_in ring (tdat a) -> vec_in ring (tdat b) ->
    tbin (r_lop ring o) a b = Ok (mkT so (s_lop ring o (bexpand (tsh a) so (tdat a)) (bexpand (tsh b) so (tdat b)))).
  Proof.
    intros H Ha Hb. rewrite (tbin_spec _ _ _ _ H), s_lop_spec; auto using bexpand_in.
  Qed.

  (** share-wise sum or difference of two sharings, with broadcasting *)
  Definition lin_share (o : linop) (sx sy so : list nat) (p : tensor * tensor) : tensor :=
    mkT so (s_lop ring o (bexpand sx so (tdat (fst p))) (bexpand sy so (tdat (snd p)))).
  Lemma lin_shares o sx sy so vx vy xs ys : length xs = length ys ->
    shared ring sx vx xs -> shared ring sy vy ys -> bshape sx sy so ->
    exists zs, rmap (fun p => tbin (r_lop ring o) (fst p) (snd p)) (combine xs ys) = Ok zs /\
      length zs = length xs /\
      shared ring so (s_lop ring o (bexpand sx so vx) (bexpand sy so vy)) zs.
  Proof.
    intros HL (X1 & X2 & X3) (Y1 & Y2 & Y3) Hso. rewrite Forall_forall in X2, Y2.
    exists (map (lin_share o sx sy so) (combine xs ys)).
    split.
    { apply rmap_pointwise. intros [a b] Hab. unfold lin_share. cbn [fst snd].
      pose proof (in_combine_l _ _ _ _ Hab) as Ha. pose proof (in_combine_r _ _ _ _ Hab) as Hb.
      destruct (X2 a Ha) as (A1 & A2 & A3), (Y2 b Hb) as (B1 & B2 & B3).
      rewrite (tbin_lop o a b so) by (try rewrite A1, B1; auto). rewrite A1, B1. reflexivity. }
    split; [rewrite map_length, combine_length; lia|]. unfold lin_share.
    rewrite combine_map2, map_map2. cbn [fst snd].
    split; [|split].
    - destruct xs, ys; simpl in *; try congruence; discriminate.
    - apply Forall_map2. intros a b Ha Hb. split; [reflexivity|]. split; cbn [tdat].
      + apply s_lop_length; apply bexpand_length.
      + apply s_lop_in.
    - rewrite map_map2. cbn [tdat].
      rewrite <- (map2_map_r (fun a b => s_lop ring o (bexpand sx so (tdat a)) b)
                   (fun b => bexpand sy so (tdat b))).
      rewrite <- (map2_map_l (fun a b => s_lop ring o a b) (fun a => bexpand sx so (tdat a))).
      rewrite <- (map_map tdat (bexpand sx so)), <- (map_map tdat (bexpand sy so)).
      assert (HXL : Forall (fun t => length t = numel sx) (map tdat xs)).
      { apply Forall_map, Forall_forall. intros a Ha. apply (X2 a Ha). }
      assert (HYL : Forall (fun t => length t = numel sy) (map tdat ys)).
      { apply Forall_map, Forall_forall. intros a Ha. apply (Y2 a Ha). }
      assert (GX : Forall (fun t => vec_in ring t /\ length t = numel so) (map (bexpand sx so) (map tdat xs))).
      { rewrite map_map. apply Forall_map, Forall_forall. intros a Ha.
        split; [apply bexpand_in; auto; apply (X2 a Ha) | apply bexpand_length]. }
      assert (GY : Forall (fun t => vec_in ring t /\ length t = numel so) (map (bexpand sy so) (map tdat ys))).
      { rewrite map_map. apply Forall_map, Forall_forall. intros a Ha.
        split; [apply bexpand_in; auto; apply (Y2 a Ha) | apply bexpand_length]. }
      rewrite X3, Y3. rewrite <- !(s_sum_bexpand ring) by auto.
      assert (EL : length (map (bexpand sx so) (map tdat xs)) = length (map (bexpand sy so) (map tdat ys)))
        by (rewrite !map_length; auto).
      destruct o; cbn [s_lop].
      + rewrite <- (s_sum_vadd ring) by auto.
        f_equal. apply (map2_ext_in (vadd ring) (s_add ring)). intros a b Hab.
        pose proof (in_combine_l _ _ _ _ Hab) as Ha. pose proof (in_combine_r _ _ _ _ Hab) as Hb.
        rewrite Forall_forall in GX, GY. apply vadd_spec; auto; [apply (GX a Ha)|apply (GY b Hb)].
      + rewrite <- (s_sum_vsub ring) by auto.
        f_equal. apply (map2_ext_in (vsub ring) (s_sub ring)). intros a b Hab.
        pose proof (in_combine_l _ _ _ _ Hab) as Ha. pose proof (in_combine_r _ _ _ _ Hab) as Hb.
        rewrite Forall_forall in GX, GY. apply vsub_spec; auto; [apply (GX a Ha)|apply (GY b Hb)].
  Qed.

  (** the first share changed by a tensor that broadcasts into its shape *)
  Lemma lin_first o sh st vx s0 rest t : shared ring sh vx (s0 :: rest) -> tensor_in ring st t ->
    bshape sh st sh ->
    exists s0', tbin (r_lop ring o) s0 t = Ok s0' /\
      shared ring sh (s_lop ring o vx (bexpand st sh (tdat t))) (s0' :: rest).
  Proof.
    intros HX (T1 & T2 & T3) Hb.
    pose proof (shared_vals ring Hs _ _ _ HX) as (VL & VI & VN).
    destruct HX as (X1 & X2 & _). inversion X2 as [|? ? (S1 & S2 & S3) X2']; subst.
    eexists. split; [apply tbin_lop; eauto|]. rewrite bexpand_self by auto.
    apply shared_intro; auto.
    - discriminate.
    - constructor; [|auto]. split; [reflexivity|]. cbn [tdat]. split; [apply s_lop_length; auto; apply bexpand_length|apply s_lop_in].
    - apply s_lop_length; auto. apply bexpand_length.
    - apply s_lop_in.
    - intros e He. cbn [map zsum tdat].
      assert (LB : length (bexpand (tsh t) (tsh s0) (tdat t)) = numel (tsh s0)) by apply bexpand_length.
      rewrite (s_lop_nth o (tdat s0)) by lia. rewrite s_lop_nth by (rewrite ?LB, ?VL; auto). pose proof (VN e) as HN. cbn [map zsum] in HN.
      destruct o; rewrite HN; apply eqmod_eq; lia.
  Qed.

  (** products *)
  Lemma product_in_r op sx sy so f va vb : product_r ring op sx sy so f ->
    tensor_in ring so (mkT so (f va vb)).
  Proof.
    intros HP. destruct (product_index_r ring _ _ _ _ _ HP) as (ix & EI & HV). rewrite <- HV.
    split; [reflexivity|]. cbn [tdat]. split; [rewrite s_bil_length; apply (bil_length _ _ _ _ _ EI)|].
    unfold s_bil. apply map_to_ring_in; auto.
  Qed.
  Lemma tbil_ok_r op a b so ix : bil_index op (tsh a) (tsh b) = Some (so, ix) ->
    tbil ring op a b = Ok (mkT so (rbil ring ix (tdat a) (tdat b))).
  Proof. intros H. unfold tbil. rewrite H. reflexivity. Qed.
  Lemma product_tbil op sx sy so f a b : product_r ring op sx sy so f ->
    tensor_in ring sx a -> tensor_in ring sy b ->
    tbil ring (bop_of op) a b = Ok (mkT so (f (tdat a) (tdat b))).
  Proof.
    intros HP (A1 & A2 & A3) (B1 & B2 & B3). destruct (product_index_r ring _ _ _ _ _ HP) as (ix & EI & HV).
    rewrite (tbil_ok_r _ a b so ix) by (rewrite A1, B1; auto). rewrite rbil_spec by auto. rewrite HV. reflexivity.
  Qed.
  (** every product is, element by element, a sum of products of elements *)
  Lemma product_nth op sx sy so f : product_r ring op sx sy so f ->
    exists ix, length ix = numel so /\ forall vx vy e, (e < numel so)%nat ->
      nth e (f vx vy) 0 == Bf (nth e ix []) (fun i => nth i vx 0) (fun i => nth i vy 0) [mod ring].
  Proof.
    intros HP. destruct (product_index_r ring _ _ _ _ _ HP) as (ix & EI & HV).
    exists ix. pose proof (bil_length _ _ _ _ _ EI) as HL. split; [exact HL|].
    intros vx vy e He. rewrite <- HV. rewrite (s_bil_nth ring) by lia. apply to_ring_eqmod, Hp.
  Qed.

  Lemma col_nth_sum sh v ss i : shared ring sh v ss -> nth i v 0 == zsum (map (fun t => nth i (tdat t) 0) ss) [mod ring].
  Proof.
    intros HX. pose proof (shared_vals ring Hs _ _ _ HX) as (VL & VI & VN). apply VN.
  Qed.

  (** every share multiplied by a fixed tensor *)
  Lemma bil_shares_right op sx sy so f vx xs b : product_r ring op sx sy so f ->
    shared ring sx vx xs -> tensor_in ring sy b ->
    exists zs, rmap (fun a => tbil ring (bop_of op) a b) xs = Ok zs /\ length zs = length xs /\
      shared ring so (f vx (tdat b)) zs.
  Proof.
    intros HP HX Hb. destruct (product_nth _ _ _ _ _ HP) as (ix & HL & HN).
    pose proof HX as (X1 & X2 & X3). rewrite Forall_forall in X2.
    exists (map (fun a => mkT so (f (tdat a) (tdat b))) xs). split; [|split].
    - apply rmap_pointwise. intros a Ha. eapply product_tbil; eauto.
    - apply map_length.
    - destruct (product_in_r _ _ _ _ _ vx (tdat b) HP) as (_ & P2 & P3).
      apply shared_intro; auto.
      + destruct xs; [congruence|discriminate].
      + apply Forall_map, Forall_forall. intros a Ha. eapply product_in_r; eauto.
      + intros e He. rewrite HN by auto. rewrite map_map. cbn [tdat].
        transitivity (zsum (map (fun a => Bf (nth e ix []) (fun i => nth i (tdat a) 0) (fun i => nth i (tdat b) 0)) xs)).
        2:{ apply zsum_eqmod. intros a Ha. symmetry. apply HN; auto. }
        rewrite Bf_sum_l. apply Bf_cong; [|reflexivity]. intros i. eapply col_nth_sum; eauto.
  Qed.
  Lemma bil_shares_left op sx sy so f vy ys a : product_r ring op sx sy so f ->
    shared ring sy vy ys -> tensor_in ring sx a ->
    exists zs, rmap (fun b => tbil ring (bop_of op) a b) ys = Ok zs /\ length zs = length ys /\
      shared ring so (f (tdat a) vy) zs.
  Proof.
    intros HP HY Ha. destruct (product_nth _ _ _ _ _ HP) as (ix & HL & HN).
    pose proof HY as (Y1 & Y2 & Y3). rewrite Forall_forall in Y2.
    exists (map (fun b => mkT so (f (tdat a) (tdat b))) ys). split; [|split].
    - apply rmap_pointwise. intros b Hb. eapply product_tbil; eauto.
    - apply map_length.
    - destruct (product_in_r _ _ _ _ _ (tdat a) vy HP) as (_ & P2 & P3).
      apply shared_intro; auto.
      + destruct ys; [congruence|discriminate].
      + apply Forall_map, Forall_forall. intros b Hb. eapply product_in_r; eauto.
      + intros e He. rewrite HN by auto. rewrite map_map. cbn [tdat].
        transitivity (zsum (map (fun b => Bf (nth e ix []) (fun i => nth i (tdat a) 0) (fun i => nth i (tdat b) 0)) ys)).
        2:{ apply zsum_eqmod. intros b Hb. symmetry. apply HN; auto. }
        rewrite Bf_sum_r. apply Bf_cong; [reflexivity|]. intros i. eapply col_nth_sum; eauto.
  Qed.

  Lemma shared_tsum_r sh v ss : shared ring sh v ss -> tsum ring ss = Ok (mkT sh v).
  Proof. intros (H1 & H2 & ->). apply tsum_spec; auto. Qed.
End Ring.
