(** Lemmas about SPDZ multiplication. *)
From Coq Require Import Setoid Morphisms.
From Verif Require Import Util Modular S_Ring S_Tensor M_Torch M_Encoder M_Tensor M_Share M_Spdz
  L_Torch L_Tensor L_Share.
Local Open Scope Z_scope.

(* -------------------------------------------------- lengths of index lists *)
Lemma flat_map_length_const {A B} (f : A -> list B) k l :
  (forall a, In a l -> length (f a) = k) -> length (flat_map f l) = (length l * k)%nat.
Proof.
  induction l as [|a l IH]; intros H; simpl; auto.
  rewrite app_length, H, IH; simpl; auto. intros; apply H; simpl; auto.
Qed.

Lemma bcast_idx_length so sa : (length sa <= length so)%nat -> length (bcast_idx so sa) = numel so.
Proof. intros H. rewrite bcast_idx_spec by auto. rewrite map_length, seq_length. reflexivity. Qed.

Lemma mm_length s1 s2 so ix : mm_index s1 s2 = Some (so, ix) -> length ix = numel so.
Proof.
  unfold mm_index. intros H.
  destruct (rev s1) as [|k [|m b1]]; try discriminate.
  destruct (rev s2) as [|n [|k' b2]]; try discriminate.
  destruct (Nat.eqb k k'); [|discriminate].
  destruct (bcast (rev b1) (rev b2)) as [bs|] eqn:E; [|discriminate].
  injection H as <- <-. apply bcast_spec in E. pose proof (bshape_length _ _ _ E) as [L1 L2].
  rewrite (flat_map_length_const _ (m * n)).
  - rewrite combine_length, !bcast_idx_length by auto. rewrite Nat.min_id, numel_app.
    cbn [numel fold_right]. lia.
  - intros p _. rewrite map_length, ix_matmul_length. reflexivity.
Qed.

Lemma numel_drop s d : (d < length s)%nat -> nth d s 0%nat = 1%nat -> numel (drop_nth d s) = numel s.
Proof.
  revert d; induction s as [|x s IH]; intros [|d] H Hd; cbn [length] in H; try lia.
  - cbn [nth] in Hd. subst. unfold drop_nth. cbn [firstn skipn app numel fold_right]. lia.
  - cbn [nth] in Hd. unfold drop_nth in *. cbn [firstn skipn app numel fold_right].
    fold (numel (firstn d s ++ skipn (S d) s)). fold (numel s). rewrite <- (IH d) by (auto; lia).
    reflexivity.
Qed.

Lemma matmul_length s1 s2 so ix : matmul_index s1 s2 = Some (so, ix) -> length ix = numel so.
Proof.
  unfold matmul_index. destruct s1 as [|a s1]; [discriminate|]. destruct s2 as [|b s2]; [destruct s1; discriminate|].
  destruct s1 as [|a' s1], s2 as [|b' s2].
  - destruct (mm_index [1%nat; a] [b; 1%nat]) as [[so' ix']|] eqn:E; [|discriminate].
    cbn [option_map snd]. intros H; injection H as <- <-. pose proof E as E2. apply mm_length in E.
    rewrite E. unfold mm_index in E2. cbn in E2. destruct (Nat.eqb a b); [|discriminate].
    injection E2 as <- _. reflexivity.
  - destruct (mm_index [1%nat; a] (b :: b' :: s2)) as [[so' ix']|] eqn:E; [|discriminate].
    cbn [option_map fst snd]. intros H; injection H as <- <-. pose proof E as E2. apply mm_length in E.
    rewrite E. unfold mm_index in E2. change (rev [1%nat; a]) with [a; 1%nat] in E2. cbn iota beta in E2.
    destruct (rev (b :: b' :: s2)) as [|n [|k' b2]] eqn:ER; try discriminate.
    destruct (Nat.eqb a k'); [|discriminate]. destruct (bcast (rev []) (rev b2)) as [bs|]; [|discriminate].
    injection E2 as <- _. rewrite app_length. cbn [length].
    replace (length bs + 2 - 2)%nat with (length bs) by lia.
    symmetry. apply numel_drop.
    + rewrite app_length. simpl. lia.
    + rewrite app_nth2 by lia. rewrite Nat.sub_diag. reflexivity.
  - destruct (mm_index (a :: a' :: s1) [b; 1%nat]) as [[so' ix']|] eqn:E; [|discriminate].
    cbn [option_map fst snd]. intros H; injection H as <- <-. pose proof E as E2. apply mm_length in E.
    rewrite E. unfold mm_index in E2. change (rev [b; 1%nat]) with [1%nat; b] in E2. cbn iota beta in E2.
    destruct (rev (a :: a' :: s1)) as [|k [|m b1]] eqn:ER; try discriminate.
    destruct (Nat.eqb k b); [|discriminate]. destruct (bcast (rev b1) (rev [])) as [bs|]; [|discriminate].
    injection E2 as <- _. change (bs ++ [m; 1%nat]) with (bs ++ ([m] ++ [1%nat])).
    rewrite app_assoc, removelast_last. rewrite !numel_app. cbn [numel fold_right]. lia.
  - apply mm_length.
Qed.

Lemma conv2d_length p sa sb so ix : conv2d_index p sa sb = Some (so, ix) -> length ix = numel so.
Proof.
  unfold conv2d_index.
  destruct sa as [|nb [|c [|h [|w [|? ?]]]]]; try discriminate.
  destruct sb as [|o [|cg [|kh [|kw [|? ?]]]]]; try discriminate.
  match goal with |- (if ?b then _ else _) = _ -> _ => destruct b; [|discriminate] end.
  intros H; injection H as <- <-.
  rewrite (flat_map_length_const _ (o * (conv_out h kh (cv_stride p) (cv_pad p) (cv_dil p) *
                                         conv_out w kw (cv_stride p) (cv_pad p) (cv_dil p)))).
  { rewrite seq_length. cbn [numel fold_right]. lia. }
  intros n _. rewrite (flat_map_length_const _ (conv_out h kh (cv_stride p) (cv_pad p) (cv_dil p) *
                                         conv_out w kw (cv_stride p) (cv_pad p) (cv_dil p))).
  { rewrite seq_length. lia. }
  intros f _. rewrite (flat_map_length_const _ (conv_out w kw (cv_stride p) (cv_pad p) (cv_dil p))).
  { rewrite seq_length. lia. }
  intros y _. rewrite map_length, seq_length. reflexivity.
Qed.

Lemma convT_length p sa sb so ix : convT_index p sa sb = Some (so, ix) -> length ix = numel so.
Proof.
  unfold convT_index.
  destruct sa as [|nb [|c [|h [|w [|? ?]]]]]; try discriminate.
  destruct sb as [|c' [|og [|kh [|kw [|? ?]]]]]; try discriminate.
  match goal with |- (if ?b then _ else _) = _ -> _ => destruct b; [|discriminate] end.
  intros H; injection H as <- <-.
  set (oh := ((h - 1) * cv_stride p + cv_dil p * (kh - 1) + 1 - 2 * cv_pad p)%nat).
  set (ow := ((w - 1) * cv_stride p + cv_dil p * (kw - 1) + 1 - 2 * cv_pad p)%nat).
  rewrite (flat_map_length_const _ (cv_groups p * og * (oh * ow))).
  { rewrite seq_length. cbn [numel fold_right]. lia. }
  intros n _. rewrite (flat_map_length_const _ (oh * ow)).
  { rewrite seq_length. lia. }
  intros f _. rewrite (flat_map_length_const _ ow).
  { rewrite seq_length. lia. }
  intros y _. rewrite map_length, seq_length. reflexivity.
Qed.

Lemma bil_length op sa sb so ix : bil_index op sa sb = Some (so, ix) -> length ix = numel so.
Proof.
  destruct op; cbn [bil_index].
  - unfold ix_mul. destruct (bcast sa sb) as [s|] eqn:E; [|discriminate].
    intros H; injection H as <- <-. apply bcast_spec, bshape_length in E.
    rewrite map_length, combine_length, !bcast_idx_length by apply E. lia.
  - apply matmul_length.
  - apply conv2d_length.
  - apply convT_length.
Qed.

(* -------------------------------------------------------- bilinear sums *)
Definition Bf (ps : list (nat * nat)) (f g : nat -> Z) : Z :=
  zsum (map (fun p => f (fst p) * g (snd p)) ps).

Lemma Bf_cong N ps f f' g g' : (forall i, f i == f' i [mod N]) -> (forall i, g i == g' i [mod N]) ->
  Bf ps f g == Bf ps f' g' [mod N].
Proof. intros Hf Hg. apply zsum_eqmod. intros p _. rewrite (Hf (fst p)), (Hg (snd p)). reflexivity. Qed.

Lemma Bf_sum_l {A} ps (F : A -> nat -> Z) g (l : list A) :
  zsum (map (fun k => Bf ps (F k) g) l) = Bf ps (fun i => zsum (map (fun k => F k i) l)) g.
Proof.
  unfold Bf. rewrite zsum_exchange. apply zsum_ext. intros p _. rewrite zsum_map_mul_r. reflexivity.
Qed.
Lemma Bf_sum_r {A} ps f (G : A -> nat -> Z) (l : list A) :
  zsum (map (fun k => Bf ps f (G k)) l) = Bf ps f (fun i => zsum (map (fun k => G k i) l)).
Proof.
  unfold Bf. rewrite zsum_exchange. apply zsum_ext. intros p _. rewrite zsum_map_mul_l. reflexivity.
Qed.

Lemma Bf_beaver ps f g a b :
  Bf ps f g = Bf ps a b + Bf ps (fun i => f i - a i) b + Bf ps a (fun i => g i - b i) +
              Bf ps (fun i => f i - a i) (fun i => g i - b i).
Proof.
  unfold Bf. rewrite <- !zsum_map_add. apply zsum_ext. intros p _. ring.
Qed.

Lemma tbil_ok op a b so ix : bil_index op (tsh a) (tsh b) = Some (so, ix) ->
  tbil R64 op a b = Ok (mkT so (rbil R64 ix (tdat a) (tdat b))).
Proof. intros H. unfold tbil. rewrite H. reflexivity. Qed.

Lemma rbil_tensor_in ring ix so x y : supported ring -> length ix = numel so -> vec_in ring x -> vec_in ring y ->
  tensor_in ring so (mkT so (rbil ring ix x y)).
Proof.
  intros Hs HL Hx Hy. split; [reflexivity|]. cbn [tdat].
  split; [rewrite rbil_length; auto | apply rbil_in; auto].
Qed.

Lemma tbin_radd_in sh a b : tensor_in R64 sh a -> tensor_in R64 sh b ->
  tbin (radd R64) a b = Ok (mkT sh (vadd R64 (tdat a) (tdat b))) /\
  tensor_in R64 sh (mkT sh (vadd R64 (tdat a) (tdat b))).
Proof.
  intros (A1 & A2 & A3) (B1 & B2 & B3). split.
  - apply tbin_same; auto.
  - split; [reflexivity|]. cbn [tdat]. split; [apply vadd_length; auto | apply vadd_in; auto].
Qed.

Lemma combine_seq_fst {A} (l : list A) : map fst (combine (seq 0 (length l)) l) = seq 0 (length l).
Proof.
  generalize 0%nat. induction l as [|a l IH]; intros k; simpl; auto. f_equal. apply IH.
Qed.
Lemma combine_seq_snd {A} (l : list A) k : map snd (combine (seq k (length l)) l) = l.
Proof. revert k; induction l as [|a l IH]; intros k; simpl; auto. f_equal. apply IH. Qed.

Lemma zsum_rank0 w n : n <> 0%nat -> zsum (map (fun i => if Nat.eqb i 0 then w else 0) (seq 0 n)) = w.
Proof.
  destruct n as [|n]; [congruence|]. intros _. cbn [seq map zsum Nat.eqb].
  rewrite <- seq_shift, map_map. rewrite (zsum_ext _ (fun _ => 0)).
  - rewrite zsum_map_zero. lia.
  - reflexivity.
Qed.

(* ---------------------------------------------------------- opened masks *)
Lemma open_masks_spec x y ts va vb sx sy vx vy :
  shared R64 sx vx (m_shares x) -> shared R64 sy vy (m_shares y) ->
  shared R64 sx va (map tr_a ts) -> shared R64 sy vb (map tr_b ts) ->
  length (m_shares x) = length ts -> length (m_shares y) = length ts ->
  open_masks x y ts = Ok (mkT sx (s_sub R64 vx va), mkT sy (s_sub R64 vy vb)).
Proof.
  intros (X1 & X2 & X3) (Y1 & Y2 & Y3) (A1 & A2 & A3) (B1 & B2 & B3) LX LY.
  unfold open_masks. rewrite Forall_forall in X2, Y2, A2, B2.
  set (f := fun p : tensor * tensor * triple =>
     (mkT sx (vsub R64 (tdat (fst (fst p))) (tdat (tr_a (snd p)))),
      mkT sy (vsub R64 (tdat (snd (fst p))) (tdat (tr_b (snd p)))))).
  rewrite (rmap_pointwise _ f).
  2:{ intros [[u v] t] Hp. cbn [fst snd].
      pose proof (in_combine_l _ _ _ _ Hp) as Huv. pose proof (in_combine_r _ _ _ _ Hp) as Ht.
      pose proof (in_combine_l _ _ _ _ Huv) as Hu. pose proof (in_combine_r _ _ _ _ Huv) as Hv.
      destruct (X2 u Hu) as (U1 & U2 & U3), (Y2 v Hv) as (V1 & V2 & V3).
      destruct (A2 (tr_a t) (in_map _ _ _ Ht)) as (P1 & P2 & P3).
      destruct (B2 (tr_b t) (in_map _ _ _ Ht)) as (Q1 & Q2 & Q3).
      unfold spdz_mask, sh_lin. rewrite (tbin_same _ u (tr_a t) sx) by auto.
      rewrite (tbin_same _ v (tr_b t) sy) by auto. reflexivity. }
  cbn [rbind]. rewrite !map_map. unfold f. cbn [fst snd].
  assert (Hne : combine (combine (m_shares x) (m_shares y)) ts <> []).
  { intros E. apply (f_equal (@length _)) in E. rewrite !combine_length in E. cbn [length] in E.
    destruct (m_shares x); [congruence|]. cbn [length] in *. lia. }
  assert (MX : map (fun p => fst (fst p)) (combine (combine (m_shares x) (m_shares y)) ts) = m_shares x).
  { clear -LX LY. revert LX LY. generalize (m_shares x) (m_shares y) ts.
    induction l as [|a l IH]; intros [|b l0] [|t l1]; simpl; intros; try lia; auto. f_equal. apply IH; lia. }
  assert (MY : map (fun p => snd (fst p)) (combine (combine (m_shares x) (m_shares y)) ts) = m_shares y).
  { clear -LX LY. revert LX LY. generalize (m_shares x) (m_shares y) ts.
    induction l as [|a l IH]; intros [|b l0] [|t l1]; simpl; intros; try lia; auto. f_equal. apply IH; lia. }
  assert (MT : map snd (combine (combine (m_shares x) (m_shares y)) ts) = ts).
  { clear -LX LY. revert LX LY. generalize (m_shares x) (m_shares y) ts.
    induction l as [|a l IH]; intros [|b l0] [|t l1]; simpl; intros; try lia; auto. f_equal. apply IH; lia. }
  set (L := combine (combine (m_shares x) (m_shares y)) ts) in *.
  assert (EX : map (fun p => vsub R64 (tdat (fst (fst p))) (tdat (tr_a (snd p)))) L =
               map2 (vsub R64) (map tdat (m_shares x)) (map tdat (map tr_a ts))).
  { rewrite <- MX, <- MT at 1. rewrite !map_map.
    rewrite map2_map_l, map2_map_r, map2_same. reflexivity. }
  assert (EY : map (fun p => vsub R64 (tdat (snd (fst p))) (tdat (tr_b (snd p)))) L =
               map2 (vsub R64) (map tdat (m_shares y)) (map tdat (map tr_b ts))).
  { rewrite <- MY, <- MT at 1. rewrite !map_map.
    rewrite map2_map_l, map2_map_r, map2_same. reflexivity. }
  assert (InL : forall p, In p L -> In (fst (fst p)) (m_shares x) /\ In (snd (fst p)) (m_shares y) /\ In (snd p) ts).
  { intros [[u v] t] Hp. pose proof (in_combine_l _ _ _ _ Hp) as Huv. pose proof (in_combine_r _ _ _ _ Hp) as Ht.
    pose proof (in_combine_l _ _ _ _ Huv) as Hu. pose proof (in_combine_r _ _ _ _ Huv) as Hv. auto. }
  rewrite (tsum_spec R64 supR sx).
  2:{ destruct L; [congruence|discriminate]. }
  2:{ apply Forall_map, Forall_forall. intros p Hp. destruct (InL p Hp) as (I1 & _ & I3).
      destruct (X2 _ I1) as (U1 & U2 & U3). destruct (A2 _ (in_map tr_a _ _ I3)) as (P1 & P2 & P3).
      split; [reflexivity|]. cbn [tdat]. split; [apply vsub_length; auto | apply vsub_in; auto]. }
  cbn [rbind]. rewrite (tsum_spec R64 supR sy).
  2:{ destruct L; [congruence|discriminate]. }
  2:{ apply Forall_map, Forall_forall. intros p Hp. destruct (InL p Hp) as (_ & I2 & I3).
      destruct (Y2 _ I2) as (U1 & U2 & U3). destruct (B2 _ (in_map tr_b _ _ I3)) as (P1 & P2 & P3).
      split; [reflexivity|]. cbn [tdat]. split; [apply vsub_length; auto | apply vsub_in; auto]. }
  cbn [rbind]. rewrite !map_map. cbn [tdat]. rewrite EX, EY.
  assert (GG : forall sh (l : list tensor), (forall t, In t l -> tensor_in R64 sh t) ->
     Forall (fun t => vec_in R64 t /\ length t = numel sh) (map tdat l)).
  { intros sh l H. apply Forall_map, Forall_forall. intros t Ht. destruct (H t Ht) as (_ & T2 & T3). auto. }
  rewrite (s_sum_vsub R64 supR (numel sx)); [|apply GG; auto | apply GG; auto |rewrite !map_length; auto].
  rewrite (s_sum_vsub R64 supR (numel sy)); [|apply GG; auto | apply GG; auto |rewrite !map_length; auto].
  rewrite <- X3, <- Y3, <- A3, <- B3. reflexivity.
Qed.

Lemma nth_s_sub x y i : length x = length y -> nth i (s_sub R64 x y) 0 == nth i x 0 - nth i y 0 [mod R64].
Proof.
  intros HL. destruct (Nat.lt_ge_cases i (length x)) as [H|H].
  - unfold s_sub. rewrite (nth_map2 _ 0 0 0) by lia. apply to_ring_eqmod; auto.
  - rewrite !nth_overflow; auto; try lia; [reflexivity|]. unfold s_sub. rewrite map2_length. lia.
Qed.
Lemma nth_s_add x y i : length x = length y -> nth i (s_add R64 x y) 0 == nth i x 0 + nth i y 0 [mod R64].
Proof.
  intros HL. destruct (Nat.lt_ge_cases i (length x)) as [H|H].
  - unfold s_add. rewrite (nth_map2 _ 0 0 0) by lia. apply to_ring_eqmod; auto.
  - rewrite !nth_overflow; auto; try lia; [reflexivity|]. unfold s_add. rewrite map2_length. lia.
Qed.

(** what one party computes *)
Lemma mul_parties_raw_spec op rank eps delta t sx sy so ix :
  bil_index op sx sy = Some (so, ix) ->
  tensor_in R64 sx eps -> tensor_in R64 sy delta ->
  tensor_in R64 sx (tr_a t) -> tensor_in R64 sy (tr_b t) -> tensor_in R64 so (tr_c t) ->
  exists r, mul_parties_raw op rank eps delta t = Ok r /\ tensor_in R64 so r /\
    forall o, nth o (tdat r) 0 ==
      nth o (tdat (tr_c t)) 0 + Bf (nth o ix []) (fun i => nth i (tdat eps) 0) (fun i => nth i (tdat (tr_b t)) 0)
      + Bf (nth o ix []) (fun i => nth i (tdat (tr_a t)) 0) (fun i => nth i (tdat delta) 0)
      + (if Nat.eqb rank 0 then Bf (nth o ix []) (fun i => nth i (tdat eps) 0) (fun i => nth i (tdat delta) 0) else 0)
      [mod R64].
Proof.
  intros HB (E1 & E2 & E3) (D1 & D2 & D3) (A1 & A2 & A3) (B1 & B2 & B3) HC.
  pose proof (bil_length _ _ _ _ _ HB) as LI.
  unfold mul_parties_raw.
  rewrite (tbil_ok op eps (tr_b t) so ix) by (rewrite E1, B1; auto).
  rewrite (tbil_ok op (tr_a t) delta so ix) by (rewrite A1, D1; auto).
  rewrite (tbil_ok op eps delta so ix) by (rewrite E1, D1; auto). cbn [rbind].
  pose proof (rbil_tensor_in R64 ix so _ _ supR LI E3 B3) as T1.
  pose proof (rbil_tensor_in R64 ix so _ _ supR LI A3 D3) as T2.
  pose proof (rbil_tensor_in R64 ix so _ _ supR LI E3 D3) as T3.
  destruct (tbin_radd_in so _ _ HC T1) as [-> S1]. cbn [rbind].
  destruct (tbin_radd_in so _ _ S1 T2) as [-> S2]. cbn [rbind tdat] in *.
  destruct HC as (C1 & C2 & C3). destruct S1 as (_ & S12 & S13). cbn [tdat] in S12, S13.
  pose proof S2 as (_ & S22 & S23). cbn [tdat] in S22, S23.
  assert (N2 : forall o, nth o (vadd R64 (vadd R64 (tdat (tr_c t)) (rbil R64 ix (tdat eps) (tdat (tr_b t))))
                       (rbil R64 ix (tdat (tr_a t)) (tdat delta))) 0 ==
      nth o (tdat (tr_c t)) 0 + Bf (nth o ix []) (fun i => nth i (tdat eps) 0) (fun i => nth i (tdat (tr_b t)) 0)
      + Bf (nth o ix []) (fun i => nth i (tdat (tr_a t)) 0) (fun i => nth i (tdat delta) 0) [mod R64]).
  { intros o. rewrite nth_vadd; auto; [|apply rbil_in; auto | rewrite rbil_length; lia].
    rewrite nth_vadd; auto; [|apply rbil_in; auto | rewrite rbil_length; lia].
    rewrite !rbil_nth by auto. reflexivity. }
  destruct (Nat.eqb rank 0).
  - unfold tiadd. destruct (tbin_radd_in so _ _ S2 T3) as [-> S3]. cbn [rbind tsh].
    destruct (list_eq_dec Nat.eq_dec so so) as [_|]; [|congruence].
    eexists. split; [reflexivity|]. split; [exact S3|]. intros o. cbn [tdat].
    rewrite nth_vadd; auto; [|apply rbil_in; auto | rewrite rbil_length; lia].
    rewrite N2. rewrite rbil_nth by auto. reflexivity.
  - eexists. split; [reflexivity|]. split; [exact S2|]. intros o. cbn [tdat]. rewrite N2.
    apply eqmod_eq. lia.
Qed.

Lemma rmap_exists {A B} (f : A -> result B) (P : A -> B -> Prop) l :
  (forall a, In a l -> exists b, f a = Ok b /\ P a b) ->
  exists bs, rmap f l = Ok bs /\ Forall2 P l bs.
Proof.
  induction l as [|a l IH]; intros H; cbn [rmap].
  - exists []; split; auto.
  - destruct (H a) as (b & -> & Hb); [simpl; auto|].
    destruct IH as (bs & -> & Hbs); [intros; apply H; simpl; auto|].
    exists (b :: bs); split; auto.
Qed.

Lemma zsum_Forall2 {A B} N (R : A -> B -> Prop) (f : A -> Z) (g : B -> Z) l l' :
  Forall2 R l l' -> (forall a b, In a l -> R a b -> g b == f a [mod N]) ->
  zsum (map g l') == zsum (map f l) [mod N].
Proof.
  induction 1 as [|a b l l' HR HF IH]; intros H; cbn [map zsum]; [reflexivity|].
  rewrite (H a b) by (simpl; auto). rewrite IH; [reflexivity|]. intros; apply H; simpl; auto.
Qed.

Lemma Forall2_len {A B} (R : A -> B -> Prop) l l' : Forall2 R l l' -> length l = length l'.
Proof. induction 1; simpl; auto. Qed.

Lemma combine_seq_in {A} (l : list A) i a : In (i, a) (combine (seq 0 (length l)) l) -> In a l.
Proof. apply in_combine_r. Qed.

Theorem mul_raw_exact op x y ts sx sy so ix vx vy va vb vc :
  bil_index op sx sy = Some (so, ix) ->
  shared R64 sx vx (m_shares x) -> shared R64 sy vy (m_shares y) ->
  shared R64 sx va (map tr_a ts) -> shared R64 sy vb (map tr_b ts) ->
  shared R64 so vc (map tr_c ts) -> vc = s_bil R64 ix va vb ->
  length (m_shares x) = length ts -> length (m_shares y) = length ts ->
  exists zs, run_mul (mul_parties_raw op) x y ts = Ok zs /\ length zs = length ts /\
    shared R64 so (s_bil R64 ix vx vy) zs.
Proof.
  intros HB HX HY HA HBB HC EC LX LY.
  unfold run_mul. rewrite (open_masks_spec x y ts va vb sx sy vx vy) by auto. cbn [rbind fst snd].
  pose proof (bil_length _ _ _ _ _ HB) as LI.
  pose proof (shared_vals R64 supR _ _ _ HX) as (X1 & X2 & X3).
  pose proof (shared_vals R64 supR _ _ _ HY) as (Y1 & Y2 & Y3).
  pose proof (shared_vals R64 supR _ _ _ HA) as (A1 & A2 & A3).
  pose proof (shared_vals R64 supR _ _ _ HBB) as (B1 & B2 & B3).
  pose proof (shared_vals R64 supR _ _ _ HC) as (C1 & C2 & C3).
  destruct HA as (A4 & A5 & _), HBB as (B4 & B5 & _), HC as (C4 & C5 & _).
  rewrite Forall_forall in A5, B5, C5.
  set (eps := mkT sx (s_sub R64 vx va)). set (delta := mkT sy (s_sub R64 vy vb)).
  assert (TE : tensor_in R64 sx eps).
  { split; [reflexivity|]. cbn [eps tdat]. split; [apply s_sub_length; auto | apply map2_to_ring_in; auto]. }
  assert (TD : tensor_in R64 sy delta).
  { split; [reflexivity|]. cbn [delta tdat]. split; [apply s_sub_length; auto | apply map2_to_ring_in; auto]. }
  destruct (rmap_exists (fun p => mul_parties_raw op (fst p) eps delta (snd p))
     (fun p r => tensor_in R64 so r /\ forall o, nth o (tdat r) 0 ==
      nth o (tdat (tr_c (snd p))) 0 + Bf (nth o ix []) (fun i => nth i (tdat eps) 0) (fun i => nth i (tdat (tr_b (snd p))) 0)
      + Bf (nth o ix []) (fun i => nth i (tdat (tr_a (snd p))) 0) (fun i => nth i (tdat delta) 0)
      + (if Nat.eqb (fst p) 0 then Bf (nth o ix []) (fun i => nth i (tdat eps) 0) (fun i => nth i (tdat delta) 0) else 0)
      [mod R64]) (combine (seq 0 (length ts)) ts)) as (zs & Hz & HF).
  { intros [i t] Hit. apply combine_seq_in in Hit. cbn [fst snd].
    destruct (mul_parties_raw_spec op i eps delta t sx sy so ix) as (r & H1 & H2 & H3); auto.
    - apply A5, in_map, Hit.
    - apply B5, in_map, Hit.
    - apply C5, in_map, Hit.
    - exists r. auto. }
  exists zs. split; [exact Hz|].
  assert (Lz : length zs = length ts).
  { apply Forall2_len in HF. rewrite <- HF, combine_length, seq_length. lia. }
  split; [exact Lz|].
  assert (Hn : length ts <> 0%nat).
  { intros E. destruct ts; [|discriminate]. apply A4. reflexivity. }
  apply shared_intro; auto.
  - intros ->. simpl in Lz. lia.
  - apply Forall_forall. intros z Hz2. clear -HF Hz2.
    induction HF as [|p r ps rs [H1 _] HF IH]; [contradiction|]. destruct Hz2 as [<-|Hz2]; auto.
  - rewrite s_bil_length. auto.
  - apply map_to_ring_in; auto.
  - intros o Ho. rewrite s_bil_nth by lia. rewrite to_ring_eqmod by auto.
    fold (Bf (nth o ix []) (fun i => nth i vx 0) (fun i => nth i vy 0)).
    rewrite (Bf_beaver _ _ _ (fun i => nth i va 0) (fun i => nth i vb 0)).
    symmetry.
    rewrite (zsum_Forall2 R64 _ (fun p : nat * triple => nth o (tdat (tr_c (snd p))) 0
      + Bf (nth o ix []) (fun i => nth i (tdat eps) 0) (fun i => nth i (tdat (tr_b (snd p))) 0)
      + Bf (nth o ix []) (fun i => nth i (tdat (tr_a (snd p))) 0) (fun i => nth i (tdat delta) 0)
      + (if Nat.eqb (fst p) 0 then Bf (nth o ix []) (fun i => nth i (tdat eps) 0) (fun i => nth i (tdat delta) 0) else 0))
      _ _ _ HF) by (intros a b _ [_ H]; apply H).
    rewrite !zsum_map_add.
    rewrite <- (map_map snd (fun t => nth o (tdat (tr_c t)) 0)), combine_seq_snd.
    rewrite <- (map_map snd (fun t => Bf (nth o ix []) (fun i => nth i (tdat eps) 0) (fun i => nth i (tdat (tr_b t)) 0))), combine_seq_snd.
    rewrite <- (map_map snd (fun t => Bf (nth o ix []) (fun i => nth i (tdat (tr_a t)) 0) (fun i => nth i (tdat delta) 0))), combine_seq_snd.
    rewrite <- (map_map fst (fun i => if Nat.eqb i 0 then _ else 0)), combine_seq_fst.
    rewrite zsum_rank0 by auto.
    rewrite (Bf_sum_r _ _ (fun t i => nth i (tdat (tr_b t)) 0)), (Bf_sum_l _ (fun t i => nth i (tdat (tr_a t)) 0)).
    rewrite <- (map_map tr_c (fun s => nth o (tdat s) 0)), <- C3.
    assert (EE : forall i, nth i (tdat eps) 0 == nth i vx 0 - nth i va 0 [mod R64]).
    { intros i. cbn [eps tdat]. apply nth_s_sub. congruence. }
    assert (ED : forall i, nth i (tdat delta) 0 == nth i vy 0 - nth i vb 0 [mod R64]).
    { intros i. cbn [delta tdat]. apply nth_s_sub. congruence. }
    assert (EVC : nth o vc 0 == Bf (nth o ix []) (fun i => nth i va 0) (fun i => nth i vb 0) [mod R64]).
    { rewrite EC, s_bil_nth by lia. apply to_ring_eqmod; auto. }
    apply eqmod_add; [apply eqmod_add; [apply eqmod_add|]|].
    + exact EVC.
    + apply Bf_cong; auto. intros i. rewrite B3, map_map. reflexivity.
    + apply Bf_cong; auto. intros i. rewrite A3, map_map. reflexivity.
    + apply Bf_cong; auto.
Qed.
