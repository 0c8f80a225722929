(** The gradient of a convolution: the values computed by GradConv2d.backward are the gradients. *)
From Coq Require Import QArith Setoid.
From Verif Require Import Util Modular S_Ring S_Tensor S_Wraps S_Div S_Bil S_Spdz S_View S_GradConv
  M_Torch M_Encoder M_Tensor M_Share M_Spdz M_Conv M_GradConv
  L_Torch L_Tensor L_Encoder L_Share L_Spdz L_Div L_Bil L_Mul L_View L_Circuit L_Grad L_Fss3 L_Argmax L_Conv L_Module2.
Local Open Scope Z_scope.

(* ------------------------------------------------------------------ sums *)
Lemma sumn_mul_l c n f : c * sumn n f = sumn n (fun i => c * f i).
Proof. unfold sumn. symmetry. apply zsum_map_mul_l. Qed.
Lemma sumn_swap a b F : sumn a (fun i => sumn b (fun j => F i j)) = sumn b (fun j => sumn a (fun i => F i j)).
Proof. unfold sumn. apply (zsum_exchange F). Qed.

(** moving a sum out of two others *)
Lemma swap2 a b n (c : nat -> nat -> Z) (A : nat -> nat -> nat -> Z) (B : nat -> Z) :
  (forall k, (k < n)%nat -> sumn a (fun i => sumn b (fun j => c i j * A i j k)) = B k) ->
  sumn a (fun i => sumn b (fun j => c i j * sumn n (A i j))) = sumn n B.
Proof.
  intros H.
  transitivity (sumn a (fun i => sumn n (fun k => sumn b (fun j => c i j * A i j k)))).
  { apply sumn_ext'. intros i _. rewrite <- sumn_swap. apply sumn_ext'. intros j _. apply sumn_mul_l. }
  rewrite sumn_swap. apply sumn_ext'. auto.
Qed.

Lemma sumn_pick n f t : (t < n)%nat -> sumn n (fun i => if Nat.eqb i t then f i else 0) = f t.
Proof.
  intros Ht. replace n with (t + (1 + (n - t - 1)))%nat by lia. rewrite !sumn_add, sumn_1.
  replace (t + 0)%nat with t by lia. rewrite Nat.eqb_refl.
  assert (Z0 : forall m g, (forall i, (i < m)%nat -> g i = 0) -> sumn m g = 0).
  { intros m g Hg. rewrite (sumn_ext' m g (fun _ => 0)) by auto. unfold sumn. apply zsum_map_zero. }
  rewrite (Z0 t), (Z0 (n - t - 1)%nat); [lia| |].
  - intros i Hi. destruct (Nat.eqb_spec (t + (1 + i)) t); [lia|reflexivity].
  - intros i Hi. destruct (Nat.eqb_spec i t); [lia|reflexivity].
Qed.

Lemma pick2 a b (c : nat -> nat -> Z) t u v : (t < a)%nat -> (u < b)%nat ->
  sumn a (fun i => sumn b (fun j => c i j * (if (Nat.eqb (i + 0) t && Nat.eqb (j + 0) u)%bool then v else 0))) = c t u * v.
Proof.
  intros Ht Hu. rewrite (sumn_ext' a _ (fun i => if Nat.eqb i t then c i u * v else 0)).
  - apply (sumn_pick a (fun i => c i u * v) t Ht).
  - intros i _. rewrite Nat.add_0_r. destruct (Nat.eqb i t); cbn [andb].
    + rewrite (sumn_ext' b _ (fun j => if Nat.eqb j u then c i j * v else 0)); [apply (sumn_pick b (fun j => c i j * v) u Hu)|].
      intros j _. rewrite Nat.add_0_r. destruct (Nat.eqb j u); lia.
    + rewrite (sumn_ext' b _ (fun _ => 0)) by (intros; lia). unfold sumn. apply zsum_map_zero.
Qed.

Lemma dot_comm a : forall b, dot a b = dot b a.
Proof. unfold dot. induction a as [|x a IH]; intros [|y b]; cbn [map2 zsum]; auto. rewrite IH. lia. Qed.

Lemma sum4 a b c d (F : list nat -> Z) :
  zsum (map (fun e => F (unravel [a; b; c; d] e)) (seq 0 (numel [a; b; c; d]))) =
  sumn a (fun n => sumn b (fun f => sumn c (fun y => sumn d (fun x => F [n; f; y; x])))).
Proof.
  assert (E := nest4 (fun n f y x => F [n; f; y; x]) a b c d).
  apply (f_equal zsum) in E. unfold sumn.
  rewrite (map_ext _ (fun e => match unravel [a; b; c; d] e with [n; f; y; x] => F [n; f; y; x] | _ => F [0; 0; 0; 0]%nat end)).
  2:{ intros e. symmetry. apply (map_unravel4 (fun n f y x => F [n; f; y; x]) (fun z => z) F); auto. }
  rewrite <- E. clear E.
  transitivity (zsum (map (fun z => z) (flat_map (fun n => flat_map (fun f => flat_map (fun y => map (fun x => F [n; f; y; x]) (seq 0 d)) (seq 0 c)) (seq 0 b)) (seq 0 a)))).
  { now rewrite map_id. }
  rewrite zsum_flat_map. apply zsum_ext. intros n _. rewrite zsum_flat_map. apply zsum_ext. intros f _.
  rewrite zsum_flat_map. apply zsum_ext. intros y _. now rewrite map_id.
Qed.

Lemma dot_tab v sh F : length v = numel sh ->
  dot v (tabulate sh F) = zsum (map (fun e => elt sh v (unravel sh e) * F (unravel sh e)) (seq 0 (numel sh))).
Proof.
  intros HL. unfold dot. rewrite (zsum_map2_mul _ _ (numel sh)); auto.
  2:{ unfold tabulate. rewrite map_length, seq_length. reflexivity. }
  unfold sumn. apply zsum_ext. intros e He. apply in_seq in He.
  rewrite tabulate_nth by lia. unfold elt. rewrite ravel_unravel_id by lia. reflexivity.
Qed.

Lemma dot_tab4 v a b c d S : length v = numel [a; b; c; d] ->
  dot v (tabulate [a; b; c; d] (fun ix => match ix with [n; f; y; x] => to_ring R64 (S n f y x) | _ => 0 end)) ==
  sumn a (fun n => sumn b (fun f => sumn c (fun y => sumn d (fun x => at4 [a; b; c; d] v n f y x * S n f y x)))) [mod R64].
Proof.
  intros HL. rewrite dot_tab by auto.
  rewrite (sum4 a b c d (fun ix => elt [a; b; c; d] v ix * match ix with [n; f; y; x] => to_ring R64 (S n f y x) | _ => 0 end)).
  apply sumn_eqmod; intros n _. apply sumn_eqmod; intros f _. apply sumn_eqmod; intros y _. apply sumn_eqmod; intros x _.
  unfold elt, at4. rewrite (to_ring_eqmod R64) by (apply posR). reflexivity.
Qed.

Section Adjoint.
  Variables st d o kh kw oh ow : nat.
  Hypotheses (Hoh : (0 < oh)%nat) (How : (0 < ow)%nat) (Hkh : (0 < kh)%nat) (Hkw : (0 < kw)%nat).
  Let h := ((oh - 1) * st + d * (kh - 1) + 1)%nat.
  Let w := ((ow - 1) * st + d * (kw - 1) + 1)%nat.

  Lemma row_lt k y i n : (0 < n -> y < n -> i < k -> y * st + i * d < (n - 1) * st + d * (k - 1) + 1)%nat.
  Proof.
    intros Hn Hy Hi. assert (y * st <= (n - 1) * st)%nat by (apply Nat.mul_le_mono_r; lia).
    assert (i * d <= (k - 1) * d)%nat by (apply Nat.mul_le_mono_r; lia). lia.
  Qed.

  Lemma conv1_sum vx vw v : length v = numel [1; o; oh; ow]%nat ->
    dot v (conv1 st d o kh kw oh ow vx vw) ==
    sumn o (fun f => sumn oh (fun y => sumn ow (fun x => at4 [1; o; oh; ow]%nat v 0 f y x *
      sumn kh (fun i => sumn kw (fun j => at4 [1; 1; h; w]%nat vx 0 0 (y * st + i * d) (x * st + j * d) * at4 [o; 1; kh; kw]%nat vw f 0 i j))))) [mod R64].
  Proof.
    intros HL. unfold conv1, conv_vr. fold h w. change (2^64) with R64. rewrite dot_tab4 by auto.
    rewrite sumn_1. apply eqmod_eq. apply sumn_ext'. intros f Hf. apply sumn_ext'. intros y Hy. apply sumn_ext'. intros x Hx.
    f_equal. rewrite sumn_1. apply sumn_ext'. intros i Hi. apply sumn_ext'. intros j Hj.
    rewrite Nat.div_1_r, (Nat.div_small f o) by auto. cbn [Z.of_nat Nat.mul Nat.add]. rewrite !Z.sub_0_r.
    pose proof (row_lt kh y i oh Hoh Hy Hi) as R1. pose proof (row_lt kw x j ow How Hx Hj) as R2. fold h in R1. fold w in R2.
    replace ((0 <=? Z.of_nat (y * st + i * d)) && (Z.of_nat (y * st + i * d) <? Z.of_nat h) &&
       (0 <=? Z.of_nat (x * st + j * d)) && (Z.of_nat (x * st + j * d) <? Z.of_nat w))%bool with true.
    2:{ symmetry. rewrite !andb_true_iff, !Z.leb_le, !Z.ltb_lt. clear - R1 R2. clearbody h w. lia. }
    rewrite !Nat2Z.id. reflexivity.
  Qed.

  (** the transposed convolution is the gradient with respect to the image *)
  Definition gx_val (vg vw : list Z) : list Z := convT_val st 0 d 1 1 o oh ow 1 kh kw h w vg vw.
  Lemma gx_gradient vg vw : length vg = numel [1; o; oh; ow]%nat ->
    gradient [1; 1; h; w]%nat (fun dx => conv1 st d o kh kw oh ow dx vw) vg (gx_val vg vw).
  Proof.
    intros HG. split; [unfold gx_val, convT_vr, tabulate; rewrite map_length, seq_length; reflexivity|].
    split.
    { unfold gx_val, convT_vr, tabulate. apply Forall_map, Forall_forall. intros e _. cbn [unravel]. apply in_to_ring. apply posR. }
    intros dx HX. change (2^64) with R64. apply eqmod_mod; [discriminate|].
    rewrite conv1_sum by auto. rewrite (dot_comm (gx_val vg vw)). unfold gx_val, convT_vr. change (2^64) with R64.
    change (1 * 1)%nat with 1%nat. rewrite dot_tab4 by auto. apply eqmod_eq. symmetry. rewrite !sumn_1, Nat.div_1_r.
    apply swap2. intros f Hf. apply swap2. intros y Hy. apply swap2. intros x Hx.
    rewrite sumn_mul_l. apply swap2. intros i Hi. rewrite sumn_mul_l. apply swap2. intros j Hj.
    rewrite Nat.div_1_r, Nat.mul_0_l, Nat.add_0_l. change (0 mod 1)%nat with 0%nat.
    pose proof (row_lt kh y i oh Hoh Hy Hi) as R1. pose proof (row_lt kw x j ow How Hx Hj) as R2. fold h in R1. fold w in R2.
    rewrite pick2 by auto. lia.
  Qed.

  (** the convolution of the image by the gradient, stride and dilation exchanged, is the gradient
      with respect to the kernels *)
  Definition gw_val (vx vg : list Z) : list Z := conv_val d 0 st 1 1 1 h w o 1 oh ow kh kw vx vg.
  Lemma gw_gradient vg vx : length vg = numel [1; o; oh; ow]%nat ->
    gradient [o; 1; kh; kw]%nat (fun dw => conv1 st d o kh kw oh ow vx dw) vg (gw_val vx vg).
  Proof.
    intros HG. split; [unfold gw_val, conv_vr, tabulate; rewrite map_length, seq_length; cbn [numel fold_right]; lia|].
    split.
    { unfold gw_val, conv_vr, tabulate. apply Forall_map, Forall_forall. intros e _. cbn [unravel]. apply in_to_ring. apply posR. }
    intros dw HW. change (2^64) with R64. apply eqmod_mod; [discriminate|].
    rewrite conv1_sum by auto. rewrite (dot_comm (gw_val vx vg)). unfold gw_val, conv_vr. change (2^64) with R64.
    rewrite dot_tab4 by (cbn [numel fold_right] in *; lia). apply eqmod_eq. symmetry. rewrite sumn_1.
    apply sumn_ext'. intros f Hf. rewrite (Nat.div_1_r o), (Nat.div_small f o) by auto.
    rewrite (sumn_ext' kh _ (fun i => sumn kw (fun j => at4 [o; 1; kh; kw]%nat dw f 0 i j *
      sumn oh (fun y => sumn ow (fun x => at4 [1; 1; h; w]%nat vx 0 0 (i * d + y * st) (j * d + x * st) * at4 [1; o; oh; ow]%nat vg 0 f y x))))).
    - apply swap2. intros y Hy. apply swap2. intros x Hx.
      rewrite sumn_mul_l. apply sumn_ext'. intros i Hi. rewrite sumn_mul_l. apply sumn_ext'. intros j Hj.
      rewrite (Nat.add_comm (i * d)), (Nat.add_comm (j * d)). lia.
    - intros i Hi. apply sumn_ext'. intros j Hj. rewrite sumn_1. f_equal.
      { unfold at4. f_equal. cbn [ravel numel fold_right]. lia. }
      apply sumn_ext'. intros y Hy. apply sumn_ext'. intros x Hx.
      cbn [Z.of_nat Nat.mul Nat.add]. rewrite !Z.sub_0_r.
      pose proof (row_lt kh y i oh Hoh Hy Hi) as R1. pose proof (row_lt kw x j ow How Hx Hj) as R2. fold h in R1. fold w in R2.
      replace ((0 <=? Z.of_nat (i * d + y * st)) && (Z.of_nat (i * d + y * st) <? Z.of_nat h) &&
         (0 <=? Z.of_nat (j * d + x * st)) && (Z.of_nat (j * d + x * st) <? Z.of_nat w))%bool with true.
      2:{ symmetry. rewrite !andb_true_iff, !Z.leb_le, !Z.ltb_lt. clear - R1 R2. clearbody h w. lia. }
      rewrite !Nat2Z.id. f_equal. unfold at4. f_equal. cbn [ravel numel fold_right]. lia.
  Qed.
End Adjoint.

(* ---------------------------------------------------------- shape methods *)
Lemma good_view s m sh so f v x : viewed m sh so f -> good s sh v x ->
  exists y, mpc_view m x = Ok y /\ good s so (f v) y.
Proof.
  intros HV (X1 & X2 & X3 & X4). pose proof (shared_vals R64 supR _ _ _ X4) as (VL & VI & _).
  assert (X4' : shared R64 (m_shape x) v (m_shares x)) by (rewrite X2; exact X4).
  destruct (mpc_view_commutes m x v (mkT so (f v)) X4') as (y & E & Y1 & Y2 & Y3 & Y4 & _).
  { rewrite X2. apply view_spec; auto. }
  exists y. split; [exact E|]. split; [congruence|]. split; [exact Y2|]. split; [congruence|exact Y4].
Qed.

Lemma good_vals s sh v x : good s sh v x -> length v = numel sh /\ vec_in R64 v.
Proof. intros (_ & _ & _ & X4). pose proof (shared_vals R64 supR _ _ _ X4) as (VL & VI & _). auto. Qed.

Lemma elt_tabulate sh F ix : Forall2 (fun d i => (i < d)%nat) sh ix -> elt sh (tabulate sh F) ix = F ix.
Proof.
  intros H. unfold elt. rewrite tabulate_nth by (apply ravel_lt; auto). rewrite unravel_ravel by auto. reflexivity.
Qed.

Lemma tabulate_self sh v : length v = numel sh -> tabulate sh (elt sh v) = v.
Proof.
  intros HL. unfold tabulate, elt. rewrite (map_ext_in _ (fun e => nth e v 0)).
  - rewrite <- HL. apply map_nth_seq.
  - intros e He. apply in_seq in He. rewrite ravel_unravel_id by lia. reflexivity.
Qed.

Lemma tabulate_ext sh F G : (forall ix, Forall2 (fun d i => (i < d)%nat) sh ix -> F ix = G ix) -> tabulate sh F = tabulate sh G.
Proof.
  intros H. unfold tabulate. apply map_ext_in. intros e He. apply in_seq in He. apply H. apply unravel_lt. lia.
Qed.

(** a transposition of the first dimension with a dimension of size 1 does not move anything *)
Lemma tr_one (a b o k l : nat) (v : list Z) : (a = 1 /\ b = o \/ a = o /\ b = 1)%nat -> length v = numel [a; b; k; l] ->
  tabulate (exchange 0 1 [a; b; k; l]) (fun ix => elt [a; b; k; l] v (exchange 0 1 ix)) = v.
Proof.
  intros HA HL. change (exchange 0 1 [a; b; k; l]) with [b; a; k; l].
  rewrite (tabulate_ext _ _ (elt [b; a; k; l] v)).
  - apply tabulate_self. rewrite HL. cbn [numel fold_right]. lia.
  - intros ix HI. inversion HI as [|? i1 ? r1 L1 H1]; subst. inversion H1 as [|? i2 ? r2 L2 H2]; subst.
    inversion H2 as [|? i3 ? r3 L3 H3]; subst. inversion H3 as [|? i4 ? r4 L4 H4]; subst. inversion H4; subst.
    change (exchange 0 1 [i1; i2; i3; i4]) with [i2; i1; i3; i4]. unfold elt. f_equal. cbn [ravel numel fold_right].
    destruct HA as [(-> & ->)|(-> & ->)].
    + assert (i2 = 0%nat) by lia. subst. lia.
    + assert (i1 = 0%nat) by lia. subst. lia.
Qed.

(** two transpositions undo each other *)
Lemma tr_twice dim a b c d v : (dim = 2 \/ dim = 3)%nat -> length v = numel [a; b; c; d] ->
  exchange 0 dim (exchange 0 dim [a; b; c; d]) = [a; b; c; d] /\
  tabulate (exchange 0 dim (exchange 0 dim [a; b; c; d])) (fun ix => elt (exchange 0 dim [a; b; c; d])
    (tabulate (exchange 0 dim [a; b; c; d]) (fun ix => elt [a; b; c; d] v (exchange 0 dim ix))) (exchange 0 dim ix)) = v.
Proof.
  intros HD HL.
  assert (K : forall e f g h, exchange 0 dim (exchange 0 dim [e; f; g; h]) = [e; f; g; h]) by (intros; destruct HD as [-> | ->]; reflexivity).
  split; [apply K|]. rewrite K.
  rewrite (tabulate_ext _ _ (elt [a; b; c; d] v)); [apply tabulate_self; auto|].
  intros ix HI. inversion HI as [|? i1 ? r1 L1 H1]; subst. inversion H1 as [|? i2 ? r2 L2 H2]; subst.
  inversion H2 as [|? i3 ? r3 L3 H3]; subst. inversion H3 as [|? i4 ? r4 L4 H4]; subst. inversion H4; subst.
  rewrite elt_tabulate; [rewrite K; reflexivity|].
  destruct HD as [-> | ->]; (constructor; [|constructor; [|constructor; [|constructor; [|constructor]]]]); assumption.
Qed.

(** narrowing a dimension to its own size *)
Lemma narrow_all s dim len a b c d v x : (dim = 2 /\ len = c \/ dim = 3 /\ len = d)%nat -> good s [a; b; c; d] v x ->
  exists y, mpc_views (narrow dim len) x = Ok y /\ good s [a; b; c; d] v y.
Proof.
  intros HD HX. destruct (good_vals _ _ _ _ HX) as (VL & _).
  destruct (good_view s (VTranspose 0 dim) _ _ _ _ _ (vw_transpose 0 dim [a; b; c; d] ltac:(cbn; lia) ltac:(cbn; lia)) HX) as (y & E1 & Y).
  assert (L : exists r, exchange 0 dim [a; b; c; d] = len :: r).
  { destruct HD as [(-> & ->)|(-> & ->)]; eexists; reflexivity. }
  destruct L as (r & L).
  pose proof (tr_twice dim a b c d v ltac:(lia) VL) as (T1 & T2). rewrite L in *.
  destruct (good_view s (VNarrow0 0 len) _ _ _ _ _ (vw_narrow 0 len len r (Nat.le_refl _)) Y) as (z & E2 & HZ).
  destruct (good_vals _ _ _ _ Y) as (YL & _).
  assert (EF : forall l : list Z, length l = numel (len :: r) -> firstn (len * numel r) (skipn (0 * numel r) l) = l).
  { intros l Hl. rewrite Nat.mul_0_l. cbn [skipn]. apply firstn_all2. rewrite Hl. cbn [numel fold_right]. apply Nat.le_refl. }
  rewrite EF in HZ by exact YL.
  assert (LR : length (len :: r) = 4%nat) by (rewrite <- L; reflexivity).
  destruct (good_view s (VTranspose 0 dim) _ _ _ _ _ (vw_transpose 0 dim (len :: r) ltac:(lia) ltac:(lia)) HZ) as (q & E3 & Q).
  rewrite T2, T1 in Q. exists q. split; [|exact Q].
  unfold narrow. cbn [mpc_views]. rewrite E1. cbn [rbind]. rewrite E2. cbn [rbind]. rewrite E3. reflexivity.
Qed.

Lemma repeat1_one s o k l v x : good s [1; o; k; l]%nat v x ->
  exists y, mpc_views (repeat1 1) x = Ok y /\ good s [1; o; k; l]%nat v y.
Proof.
  intros HX. destruct (good_vals _ _ _ _ HX) as (VL & _).
  destruct (good_view s (VTranspose 0 1) _ _ _ _ _ (vw_transpose 0 1 [1; o; k; l]%nat ltac:(cbn; lia) ltac:(cbn; lia)) HX) as (y & E1 & Y).
  rewrite (tr_one 1 o o k l) in Y by auto. change (exchange 0 1 [1; o; k; l]%nat) with [o; 1; k; l]%nat in Y.
  destruct (good_view s (VRepeat0 1) _ _ _ _ _ (vw_repeat 1 o [1; k; l]%nat) Y) as (z & E2 & HZ).
  cbn [repeat concat] in HZ. rewrite app_nil_r, Nat.mul_1_l in HZ.
  destruct (good_vals _ _ _ _ HZ) as (ZL & _).
  destruct (good_view s (VTranspose 0 1) _ _ _ _ _ (vw_transpose 0 1 [o; 1; k; l]%nat ltac:(cbn; lia) ltac:(cbn; lia)) HZ) as (q & E3 & Q).
  rewrite (tr_one o 1 o k l) in Q by auto. change (exchange 0 1 [o; 1; k; l]%nat) with [1; o; k; l]%nat in Q.
  exists q. split; [|exact Q]. unfold repeat1. cbn [mpc_views]. rewrite E1. cbn [rbind]. rewrite E2. cbn [rbind]. rewrite E3. reflexivity.
Qed.

Lemma sum0_one s a b c v x : good s [1; a; b; c]%nat v x ->
  exists y, mpc_view (VSumDim 0) x = Ok y /\ good s [a; b; c] v y.
Proof.
  intros HX. destruct (good_vals _ _ _ _ HX) as (VL & VI).
  destruct (good_view s (VSumDim 0) _ _ _ _ _ (vw_sumdim 0 [1; a; b; c]%nat ltac:(cbn; lia)) HX) as (y & E1 & Y).
  exists y. split; [exact E1|]. change (remove_at 0 [1; a; b; c]%nat) with [a; b; c] in Y.
  rewrite (tabulate_ext _ _ (elt [a; b; c] v)) in Y; [rewrite tabulate_self in Y; [exact Y|]|].
  - rewrite VL. cbn [numel fold_right]. lia.
  - intros ix HI. cbn [nth]. rewrite sumn_1.
    unfold elt, insert_at. cbn [firstn skipn app]. 
    replace (ravel [1; a; b; c]%nat (0%nat :: ix)) with (ravel [a; b; c] ix) by reflexivity.
    apply ravel_lt in HI. change (2^64) with R64.
    enough (in_ring R64 (nth (ravel [a; b; c] ix) v 0)) as HR by (apply (in_ring_eq R64); [apply in_to_ring, posR|exact HR|apply to_ring_eqmod, posR]). unfold vec_in in VI. rewrite Forall_forall in VI. apply VI. apply nth_In.
    rewrite VL. cbn [numel fold_right] in *. lia.
Qed.

(* ------------------------------------------------------------- backward *)
Lemma views_app a : forall b x, mpc_views (a ++ b) x = (do y <- mpc_views a x; mpc_views b y).
Proof.
  induction a as [|v a IH]; intros b x; cbn [app mpc_views]; [reflexivity|].
  destruct (mpc_view v x); cbn [rbind]; [apply IH|reflexivity].
Qed.

Lemma grad_pad_exact oh k st d : (0 < oh)%nat -> (0 < k)%nat -> (0 < st)%nat ->
  grad_pad ((oh - 1) * st + d * (k - 1) + 1) oh k st 0 d = Ok 0%nat.
Proof.
  intros H1 H2 H3. unfold grad_pad. cbv zeta.
  replace ((Z.of_nat oh - 1) * Z.of_nat st - 2 * Z.of_nat 0 + 1 + Z.of_nat d * (Z.of_nat k - 1))
    with (Z.of_nat ((oh - 1) * st + d * (k - 1) + 1)).
  2:{ rewrite !Nat2Z.inj_add, !Nat2Z.inj_mul, !Nat2Z.inj_sub by lia. lia. }
  generalize (Z.of_nat ((oh - 1) * st + d * (k - 1) + 1)). intros z.
  replace ((z <? z) || (z + Z.of_nat st - 1 <? z))%bool with false.
  2:{ symmetry. rewrite orb_false_iff, !Z.ltb_ge. lia. }
  rewrite Z.sub_diag. reflexivity.
Qed.

Section Steps.
  Variables (s : sess) (st d o kh kw oh ow : nat) (x w g : mpc) (vx vw vg : list Z).
  Hypotheses (Hst : (0 < st)%nat) (Hd : (0 < d)%nat) (Hoh : (0 < oh)%nat) (How : (0 < ow)%nat)
    (Hkh : (0 < kh)%nat) (Hkw : (0 < kw)%nat).
  Let h := ((oh - 1) * st + d * (kh - 1) + 1)%nat.
  Let wd := ((ow - 1) * st + d * (kw - 1) + 1)%nat.
  Hypotheses (GX : good s [1; 1; h; wd]%nat vx x) (GW : good s [o; 1; kh; kw]%nat vw w) (GG : good s [1; o; oh; ow]%nat vg g).

  (** everything but the two products and the final narrowing *)
  Lemma backward_steps : exists x' g', good s [1; 1; h; wd]%nat vx x' /\ good s [o; 1; oh; ow]%nat vg g' /\
    forall ts1 ts2 prim1 prim2 other gx r v,
      mpc_bil s (BConvT (mkConv st 0 d 1)) g w ts1 prim1 = Ok gx ->
      mpc_bil s (BConv2d (mkConv d 0 st 1)) x' g' ts2 prim2 = Ok r -> good s [1; o; kh; kw]%nat v r ->
      exists r', good s [o; 1; kh; kw]%nat v r' /\
        conv_backward s x w st 0 d 1 ts1 ts2 prim1 prim2 other g =
        (do r <- mpc_views (narrow 2 kw ++ narrow 3 kh) r'; Ok (gx, r)).
  Proof.
    destruct (repeat1_one s o oh ow vg g GG) as (g1 & EG1 & GG1).
    destruct (good_view s (VReshape [o; 1; oh; ow]%nat) [1; o; oh; ow]%nat [o; 1; oh; ow]%nat (fun v => v) vg g1) as (g2 & EG2 & GG2);
      [apply vw_reshape; cbn [numel fold_right]; lia|exact GG1|].
    destruct (good_view s (VReshape [1; 1; h; wd]%nat) [1; 1; h; wd]%nat [1; 1; h; wd]%nat (fun v => v) vx x) as (x2 & EX2 & GX2);
      [apply vw_reshape; reflexivity|exact GX|].
    exists x2, g2. split; [exact GX2|]. split; [exact GG2|].
    intros ts1 ts2 prim1 prim2 other gx r v E1 E2 GR.
    destruct (good_view s (VReshape [1; o; kh; kw]%nat) [1; o; kh; kw]%nat [1; o; kh; kw]%nat (fun v => v) v r) as (r1 & ER1 & GR1);
      [apply vw_reshape; reflexivity|exact GR|].
    destruct (sum0_one s o kh kw v r1 GR1) as (r2 & ER2 & GR2).
    destruct (good_view s (VReshape [1; o; kh; kw]%nat) [o; kh; kw]%nat [1; o; kh; kw]%nat (fun v => v) v r2) as (r3 & ER3 & GR3);
      [apply vw_reshape; cbn [numel fold_right]; lia|exact GR2|].
    destruct (good_view s (VTranspose 0 1) _ _ _ _ _ (vw_transpose 0 1 [1; o; kh; kw]%nat ltac:(cbn; lia) ltac:(cbn; lia)) GR3) as (r4 & ER4 & GR4).
    destruct (good_vals _ _ _ _ GR3) as (VL & _).
    rewrite (tr_one 1 o o kh kw) in GR4 by auto. change (exchange 0 1 [1; o; kh; kw]%nat) with [o; 1; kh; kw]%nat in GR4.
    exists r4. split; [exact GR4|]. unfold conv_backward.
    destruct GX as (_ & -> & _). destruct GW as (_ & -> & _). destruct GG as (_ & -> & _).
    unfold h, wd. rewrite !grad_pad_exact by auto. cbn [rbind Nat.eqb]. unfold mpc_conv. rewrite E1. cbn [rbind bias_true negb].
    change (1 / 1)%nat with 1%nat. rewrite EG1. cbn [rbind]. destruct GG1 as (_ & -> & _).
    rewrite Nat.mul_1_l. rewrite EG2. cbn [rbind]. change (1 * 1)%nat with 1%nat. fold h wd. rewrite EX2. cbn [rbind].
    rewrite E2. cbn [rbind bias_true negb]. destruct GR as (_ & -> & _). rewrite Nat.div_1_r.
    rewrite views_app. cbn [mpc_views]. rewrite ER1. cbn [rbind]. rewrite ER2. cbn [rbind]. rewrite ER3. cbn [rbind].
    rewrite ER4. cbn [rbind]. reflexivity.
  Qed.

  Lemma prod1 : product (SConvT st 0 d 1) [1; o; oh; ow]%nat [o; 1; kh; kw]%nat [1; 1; h; wd]%nat
    (convT_val st 0 d 1 1 o oh ow 1 kh kw h wd).
  Proof.
    assert (E := prod_convT_r (2^64) st 0 d 1 1 oh ow 1 o kh kw h wd). rewrite !Nat.mul_1_l in E.
    apply E; auto; unfold h, wd; rewrite ?Nat.mul_0_r, ?Nat.add_0_r, ?Nat.mul_0_r; try reflexivity; try (rewrite Nat.add_1_r; apply Nat.lt_0_succ).
  Qed.
  Lemma prod1' : exists so f, product (SConvT 1 0 1 1) [1; o; oh; ow]%nat [o; 1; kh; kw]%nat so f.
  Proof.
    assert (E := prod_convT_r (2^64) 1 0 1 1 1 oh ow 1 o kh kw (oh + kh - 1) (ow + kw - 1)). rewrite !Nat.mul_1_l in E.
    eexists. eexists. apply E; auto; lia.
  Qed.
  Lemma mul_pos (a b : nat) : (0 < a -> 0 < b -> b <= a * b)%nat.
  Proof. intros. destruct a; [lia|]. cbn [Nat.mul]. lia. Qed.
  Lemma prod2 : product (SConv d 0 st 1) [1; 1; h; wd]%nat [o; 1; oh; ow]%nat [1; o; kh; kw]%nat
    (conv_val d 0 st 1 1 1 h wd o 1 oh ow kh kw).
  Proof.
    assert (E := prod_conv_r (2^64) d 0 st 1 1 h wd o 1 oh ow kh kw). rewrite !Nat.mul_1_l in E.
    assert (K : forall a b : nat, (0 < b)%nat -> ((b - 1) * d + a < b * d + a)%nat).
    { intros a b Hb. destruct b as [|b]; [lia|]. cbn [Nat.mul]. replace (S b - 1)%nat with b by lia. lia. }
    pose proof (K (st * (oh - 1) + 1)%nat kh Hkh) as K1. pose proof (K (st * (ow - 1) + 1)%nat kw Hkw) as K2. clear K.
    apply E; auto; unfold h, wd; rewrite (Nat.mul_comm st), (Nat.mul_comm d), Nat.mul_0_r, Nat.add_0_r in *;
      clear - K1 K2; generalize dependent ((oh - 1) * st)%nat; generalize dependent ((ow - 1) * st)%nat;
      generalize dependent ((kh - 1) * d)%nat; generalize dependent ((kw - 1) * d)%nat;
      generalize (kh * d)%nat, (kw * d)%nat; intros; lia.
  Qed.
  Lemma prod2' : exists so f, product (SConv 1 0 1 1) [1; 1; h; wd]%nat [o; 1; oh; ow]%nat so f.
  Proof.
    assert (E := prod_conv_r (2^64) 1 0 1 1 1 h wd o 1 oh ow (h - oh + 1) (wd - ow + 1)). rewrite !Nat.mul_1_l in E.
    assert (A : (oh - 1 <= (oh - 1) * st)%nat) by (clear - Hst; destruct st; [lia|nia]).
    assert (B : (ow - 1 <= (ow - 1) * st)%nat) by (clear - Hst; destruct st; [lia|nia]).
    assert (A' : (oh <= h)%nat) by (clear - A Hoh; unfold h; generalize (d * (kh - 1))%nat; generalize dependent ((oh - 1) * st)%nat; intros; lia).
    assert (B' : (ow <= wd)%nat) by (clear - B How; unfold wd; generalize (d * (kw - 1))%nat; generalize dependent ((ow - 1) * st)%nat; intros; lia).
    eexists. eexists. apply E; auto; clear - A' B' Hoh How; clearbody h wd; lia.
  Qed.
End Steps.
