(** Lemmas about shapes of products and about the bias of convolutions. *)
From Coq Require Import QArith.
From Verif Require Import Util Modular S_Ring S_Tensor S_Wraps S_Div S_Bil S_Spdz S_View M_Torch M_Encoder M_Tensor M_Share M_Spdz M_Conv
  L_Torch L_Tensor L_Share L_Spdz L_Div L_Bil L_Mul L_Circuit L_View.
Local Open Scope Z_scope.

Lemma divide_any s x y prim sh vx : 0 < y -> m_sid x = s_id s -> m_shape x = sh ->
  length (m_shares x) = s_n s -> shared R64 sh vx (m_shares x) ->
  any_masks (s_n s) sh (fst prim) (snd prim) ->
  exists z xs' vz, public_divide s x y prim = Ok (z, xs') /\ m_sid z = m_sid x /\ m_shape z = sh /\
    length (m_shares z) = s_n s /\ shared R64 sh vz (m_shares z).
Proof.
  intros Hy Hsid Hsh HL HX [Hn|(Hn & Hb & Lr & Lt & FR & FT)].
  - destruct (public_divide_two s x y prim sh vx Hn Hy Hsh HX) as (E & vz & SV & _).
    eexists. exists (m_shares x), vz. split; [exact E|]. cbn [m_sid m_shape m_shares].
    split; [reflexivity|]. split; [reflexivity|]. split; [unfold div_shares; rewrite map_length; auto|]. exact SV.
  - destruct prim as [rs ths]. cbn [fst snd] in *. pose proof HX as (_ & X2 & _).
    destruct (public_divide_gen s x y rs ths sh (s_n s)) as (z & E & Z1 & Z2 & Z3 & Z4 & _); auto; try lia.
    eexists. eexists. eexists.
    split; [exact E|]. do 3 (split; [assumption|]). apply shared_self; auto.
    intros N. rewrite N in Z3. cbn in Z3. lia.
Qed.

(* ------------------------------------------------- which convolutions the model accepts *)
Lemma conv_out_spec h k s p d : (0 < s -> d * (k - 1) + 1 <= h + 2 * p ->
  (conv_out h k s p d - 1) * s + d * (k - 1) + 1 <= h + 2 * p < conv_out h k s p d * s + d * (k - 1) + 1)%nat.
Proof.
  intros Hs H. unfold conv_out. set (a := (h + 2 * p - d * (k - 1) - 1)%nat).
  assert (Ea : (a + (d * (k - 1) + 1) = h + 2 * p)%nat) by (unfold a; lia). rewrite <- Ea.
  rewrite Nat.add_sub.
  assert (Hs' : s <> 0%nat) by lia. clearbody a.
  pose proof (Nat.div_mod a s Hs') as E. pose proof (Nat.mod_upper_bound a s Hs') as B.
  rewrite Nat.mul_add_distr_r, Nat.mul_1_l, (Nat.mul_comm (a / s) s).
  generalize dependent (a / s)%nat. generalize dependent (a mod s)%nat. intros. lia.
Qed.

Ltac bools H := repeat (let H1 := fresh "B" in apply Bool.andb_true_iff in H; destruct H as [H H1]).

Lemma conv_accepted s p d g sx sy so ix :
  bil_index (BConv2d (mkConv s p d g)) sx sy = Some (so, ix) -> exists f, product (SConv s p d g) sx sy so f.
Proof.
  cbn [bil_index]. unfold conv2d_index. cbn [cv_stride cv_pad cv_dil cv_groups].
  destruct sx as [|nb [|c [|h [|w [|]]]]]; try discriminate.
  destruct sy as [|o [|cg [|kh [|kw [|]]]]]; try discriminate.
  match goal with |- context [if ?b then _ else _] => destruct b eqn:E end; [|discriminate].
  intros H. injection H as <- _. bools E.
  rewrite ?Nat.ltb_lt, ?Nat.eqb_eq, ?Nat.leb_le in *. subst c.
  assert (Eo : o = (g * (o / g))%nat) by (apply Nat.div_exact; lia).
  eexists. rewrite Eo at 1 2. apply prod_conv; auto; apply conv_out_spec; auto.
Qed.

Lemma convT_accepted s p d g sx sy so ix :
  bil_index (BConvT (mkConv s p d g)) sx sy = Some (so, ix) -> exists f, product (SConvT s p d g) sx sy so f.
Proof.
  cbn [bil_index]. unfold convT_index. cbn [cv_stride cv_pad cv_dil cv_groups].
  destruct sx as [|nb [|c [|h [|w [|]]]]]; try discriminate.
  destruct sy as [|c' [|og [|kh [|kw [|]]]]]; try discriminate.
  match goal with |- context [if ?b then _ else _] => destruct b eqn:E end; [|discriminate].
  intros H. injection H as <- _. bools E.
  rewrite ?Nat.ltb_lt, ?Nat.eqb_eq, ?Nat.leb_le in *. subst c'.
  assert (Eo : c = (g * (c / g))%nat) by (apply Nat.div_exact; lia).
  eexists. rewrite Eo at 1 2. apply prod_convT_r; auto; lia.
Qed.

(** the bare operation is accepted by the model only if it is one *)
Lemma bare_accepted op sx sy so f so' : product op sx sy so f ->
  shape_bil (no_kwargs (bop_of op)) sx sy = Ok so' -> exists f', product (bare_op op) sx sy so' f'.
Proof.
  intros HP. unfold shape_bil. destruct (bil_index _ _ _) as [[q ix]|] eqn:E; [|discriminate].
  intros H. injection H as ->.
  destruct op; cbn [bop_of no_kwargs bare_op] in *.
  - destruct (product_index _ _ _ _ _ HP) as (ix' & E' & _). cbn [bop_of] in E'. rewrite E in E'. injection E' as -> _. eauto.
  - destruct (product_index _ _ _ _ _ HP) as (ix' & E' & _). cbn [bop_of] in E'. rewrite E in E'. injection E' as -> _. eauto.
  - exact (conv_accepted 1 0 1 1 _ _ _ _ E).
  - exact (convT_accepted 1 0 1 1 _ _ _ _ E).
Qed.

Lemma returned_bare s op sx sy so f x y ts prim z : product op sx sy so f -> m_shape x = sx -> m_shape y = sy ->
  mpc_bil s (bop_of op) x y ts prim = Ok z -> exists so' f', product (bare_op op) sx sy so' f'.
Proof.
  intros HP Ex Ey. unfold mpc_bil. destruct (negb _); [discriminate|].
  destruct (mul_master _ _ _ _ _); cbn [rbind]; [|discriminate].
  destruct (shape_bil (no_kwargs (bop_of op)) (m_shape x) (m_shape y)) as [so'|] eqn:E; cbn [rbind]; [|discriminate].
  intros _. subst sx sy. exists so'. apply (bare_accepted op _ _ so f); auto.
Qed.

Lemma shared_shape sh v x : shared R64 sh v (m_shares x) -> reconstruct x = Ok (mkT sh v).
Proof. intros H. unfold reconstruct. apply shared_tsum; [exact supR|exact H]. Qed.

Lemma bil_returns s op sx sy so so' f f' x y vx vy ts prim : 0 < c_base (s_cfg s) -> (2 <= s_n s)%nat ->
  product op sx sy so f -> product (bare_op op) sx sy so' f' ->
  m_sid x = s_id s -> m_sid y = s_id s -> m_shape x = sx -> m_shape y = sy ->
  length (m_shares x) = s_n s -> length (m_shares y) = s_n s ->
  shared R64 sx vx (m_shares x) -> shared R64 sy vy (m_shares y) ->
  valid_triples sx sy so f (s_n s) ts -> any_masks (s_n s) so (fst prim) (snd prim) ->
  exists z vz, mpc_bil s (bop_of op) x y ts prim = Ok z /\ m_sid z = s_id s /\ m_shape z = so /\
    length (m_shares z) = s_n s /\ shared R64 so vz (m_shares z).
Proof.
  intros Hc Hn HP HP' SX SY PX PY LX LY HX HY HT HM.
  destruct (mpc_bil_raw s op sx sy so so' f f' Hc Hn HP HP' x y vx vy ts prim SX SY PX PY LX LY HX HY HT)
    as (ws & L & S & _ & E).
  destruct (divide_any s (mkM (s_id s) so ws) (scale (s_cfg s)) prim so (f vx vy)) as (z & xs' & vz & ED & Z1 & Z2 & Z3 & Z4);
    auto using scale_pos_2.
  exists z, vz. rewrite E, ED. auto.
Qed.

Lemma public_returns s op sx sy so f x y vx prim : 0 < c_base (s_cfg s) -> (2 <= s_n s)%nat ->
  op = SMul \/ op = SMatmul -> product op sx sy so f ->
  m_sid x = s_id s -> m_shape x = sx -> length (m_shares x) = s_n s -> shared R64 sx vx (m_shares x) ->
  pub_ok y -> pub_shape y = sy -> any_masks (s_n s) so (fst prim) (snd prim) ->
  exists z vz, mpc_bil_public s (bop_of op) x y prim = Ok z /\ m_sid z = s_id s /\ m_shape z = so /\
    length (m_shares z) = s_n s /\ shared R64 so vz (m_shares z).
Proof.
  intros Hc Hn Hop HP SX PX LX HX Hy PY HM.
  destruct (mpc_bil_public_raw s op sx sy so f x y vx prim Hop HP SX PX LX HX Hy PY) as (ws & L & S & E).
  destruct (divide_any s (mkM (s_id s) so ws) (scale (s_cfg s)) prim so (f vx (encode (s_cfg s) (pub_vals y)))) as (z & xs' & vz & ED & Z1 & Z2 & Z3 & Z4);
    [apply scale_pos_2, Hc|reflexivity|reflexivity|exact L|exact S|exact HM|].
  exists z, vz. rewrite E, ED. auto.
Qed.

Lemma rmatmul_returns s sx sy so f x y vx prim : 0 < c_base (s_cfg s) -> (2 <= s_n s)%nat ->
  product SMatmul sy sx so f ->
  m_sid x = s_id s -> m_shape x = sx -> length (m_shares x) = s_n s -> shared R64 sx vx (m_shares x) ->
  pub_ok y -> pub_shape y = sy -> any_masks (s_n s) so (fst prim) (snd prim) ->
  exists z vz, mpc_rmatmul s x y prim = Ok z /\ m_sid z = s_id s /\ m_shape z = so /\
    length (m_shares z) = s_n s /\ shared R64 so vz (m_shares z).
Proof.
  intros Hc Hn HP SX PX LX HX Hy PY HM.
  destruct (mpc_rmatmul_raw s sx sy so f x y vx prim HP SX PX LX HX Hy PY) as (ws & L & S & E).
  destruct (divide_any s (mkM (s_id s) so ws) (scale (s_cfg s)) prim so (f (encode (s_cfg s) (pub_vals y)) vx)) as (z & xs' & vz & ED & Z1 & Z2 & Z3 & Z4);
    [apply scale_pos_2, Hc|reflexivity|reflexivity|exact L|exact S|exact HM|].
  exists z, vz. rewrite E, ED. auto.
Qed.

(* ------------------------------------------------------------------------------ the bias *)
Lemma channel_of e m o : (0 < m -> 0 < o -> (e mod (o * m)) / m = (e / m) mod o)%nat.
Proof.
  intros Hm Ho. assert (Hm' : m <> 0%nat) by lia. assert (Ho' : o <> 0%nat) by lia.
  rewrite (Nat.mul_comm o m), Nat.mod_mul_r by auto.
  rewrite (Nat.mul_comm m ((e / m) mod o)), Nat.div_add by auto.
  rewrite (Nat.div_small (e mod m) m) by (apply Nat.mod_upper_bound; auto). reflexivity.
Qed.

Lemma bget_channel nb o oh ow v e : (e < numel [nb; o; oh; ow])%nat ->
  bget [o; 1; 1]%nat [nb; o; oh; ow] v e = nth ((e / (oh * ow)) mod o)%nat v 0.
Proof.
  intros He. cbn [numel fold_right] in He. unfold bget. f_equal.
  assert (Ho : (0 < o)%nat) by (destruct o; [nia|lia]).
  assert (Hm : (0 < oh * ow)%nat) by (destruct (oh * ow)%nat eqn:E; [nia|lia]).
  cbn [length Nat.sub unravel skipn map2]. rewrite Nat.eqb_refl.
  cbn [ravel numel fold_right]. rewrite ?Nat.mul_1_r, ?Nat.mul_0_l, ?Nat.add_0_r, channel_of by auto.
  destruct (Nat.eqb_spec o 1) as [->|]; [|reflexivity]. rewrite Nat.mod_1_r. reflexivity.
Qed.

Lemma bget_one (nb o oh ow : nat) v e : bget [1; 1; 1]%nat [nb; o; oh; ow] v e = nth 0 v 0.
Proof. reflexivity. Qed.

Lemma bshape_channel nb o oh ow : bshape [nb; o; oh; ow] [o; 1; 1]%nat [nb; o; oh; ow].
Proof.
  split; [reflexivity|]. intros i Hi. cbn in Hi.
  destruct i as [|[|[|[|]]]]; cbn; try lia; intuition.
Qed.
Lemma bshape_one3 nb o oh ow : bshape [nb; o; oh; ow] [1; 1; 1]%nat [nb; o; oh; ow].
Proof.
  split; [reflexivity|]. intros i Hi. cbn in Hi.
  destruct i as [|[|[|[|]]]]; cbn; try lia; intuition.
Qed.
