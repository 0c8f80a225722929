(** The model's bilinear operations compute the specified values. *)
From Coq Require Import Setoid.
From Verif Require Import Util Modular S_Ring S_Tensor S_Bil S_Spdz M_Torch M_Tensor L_Torch L_Tensor L_Spdz.
Local Open Scope Z_scope.

Lemma zsum_flat_map {A B} (f : B -> Z) (g : A -> list B) l :
  zsum (map f (flat_map g l)) = zsum (map (fun a => zsum (map f (g a))) l).
Proof. induction l as [|a l IH]; cbn [flat_map map zsum]; auto. rewrite map_app, zsum_app, IH. reflexivity. Qed.

Lemma flat_map_nest {A} (g : nat -> nat -> A) (h : nat -> list A) n m :
  (forall i, h i = map (g i) (seq 0 n)) ->
  flat_map h (seq 0 m) = map (fun e => g (e / n)%nat (e mod n)%nat) (seq 0 (m * n)).
Proof. intros H. rewrite <- flat_map_seq. apply flat_map_ext. exact H. Qed.

Lemma nest4 {A} (F : nat -> nat -> nat -> nat -> A) a b c d :
  flat_map (fun n => flat_map (fun f => flat_map (fun y => map (fun x => F n f y x) (seq 0 d)) (seq 0 c)) (seq 0 b)) (seq 0 a) =
  map (fun e => match unravel [a; b; c; d] e with [n; f; y; x] => F n f y x | _ => F 0 0 0 0 end)%nat (seq 0 (numel [a; b; c; d])).
Proof.
  rewrite (flat_map_nest (fun n e => F n (e / (c * d)) ((e mod (c * d)) / d) ((e mod (c * d)) mod d))%nat _ (b * (c * d)) a).
  - cbn [numel fold_right unravel]. rewrite !Nat.mul_1_r. apply map_ext. intros e. rewrite !Nat.div_1_r. reflexivity.
  - intros n. rewrite (flat_map_nest (fun f e => F n f (e / d) (e mod d))%nat _ (c * d) b); [reflexivity|].
    intros f. rewrite (flat_map_nest (fun y x => F n f y x) _ d c); reflexivity.
Qed.

Lemma map_unravel4 {A B} (F : nat -> nat -> nat -> nat -> A) (g : A -> B) (G : list nat -> B) (sh : list nat) e : length sh = 4%nat ->
  (forall n f y x, g (F n f y x) = G [n; f; y; x]) ->
  g (match unravel sh e with [n; f; y; x] => F n f y x | _ => F 0 0 0 0 end)%nat = G (unravel sh e).
Proof.
  intros H HG. destruct sh as [|a [|b [|c [|d [|]]]]]; try discriminate H. cbn [unravel]. apply HG.
Qed.

Lemma conv_out_eq h k s p d oh : (0 < s -> d * (k - 1) + 1 <= h + 2 * p ->
  (oh - 1) * s + d * (k - 1) + 1 <= h + 2 * p < oh * s + d * (k - 1) + 1 -> conv_out h k s p d = oh)%nat.
Proof.
  intros Hs Hk H. unfold conv_out. destruct oh as [|o]; [lia|].
  replace (S o - 1)%nat with o in H by lia.
  assert (((h + 2 * p - d * (k - 1) - 1) / s = o)%nat); [|lia].
  symmetry. apply (Nat.div_unique _ _ _ (h + 2 * p - d * (k - 1) - 1 - s * o)%nat); lia.
Qed.

Lemma at4_nth a b c d v i j k l : at4 [a; b; c; d] v i j k l = nth (((i * b + j) * c + k) * d + l) v 0.
Proof. unfold at4, ravel. cbn [numel fold_right]. f_equal. nia. Qed.

Lemma conv_index_spec ring s p d g nb h w og cg kh kw oh ow :
  (0 < s -> 0 < d -> 0 < g -> 0 < kh -> 0 < kw ->
    d * (kh - 1) + 1 <= h + 2 * p -> d * (kw - 1) + 1 <= w + 2 * p ->
    (oh - 1) * s + d * (kh - 1) + 1 <= h + 2 * p < oh * s + d * (kh - 1) + 1 ->
    (ow - 1) * s + d * (kw - 1) + 1 <= w + 2 * p < ow * s + d * (kw - 1) + 1 -> 
  exists ix, conv2d_index (mkConv s p d g) [nb; g * cg; h; w] [g * og; cg; kh; kw] = Some ([nb; g * og; oh; ow], ix) /\
    forall vx vw, s_bil ring ix vx vw = conv_vr ring s p d g nb (g * cg) h w (g * og) cg kh kw oh ow vx vw)%nat.
Proof.
  intros Hs Hd Hg Hkh Hkw H1 H2 H3 H4. unfold conv2d_index. cbn [cv_stride cv_pad cv_dil cv_groups].
  rewrite (conv_out_eq h kh s p d oh), (conv_out_eq w kw s p d ow) by auto.
  assert (EM : Nat.eqb ((g * og) mod g) 0 = true) by (apply Nat.eqb_eq; rewrite Nat.mul_comm; apply Nat.mod_mul; lia).
  rewrite EM.
  replace (Nat.ltb 0 s) with true by (symmetry; apply Nat.ltb_lt; lia).
  replace (Nat.ltb 0 d) with true by (symmetry; apply Nat.ltb_lt; lia).
  replace (Nat.ltb 0 g) with true by (symmetry; apply Nat.ltb_lt; lia).
  replace (Nat.ltb 0 kh) with true by (symmetry; apply Nat.ltb_lt; lia).
  replace (Nat.ltb 0 kw) with true by (symmetry; apply Nat.ltb_lt; lia).
  rewrite Nat.eqb_refl.
  replace (Nat.leb (d * (kh - 1) + 1) (h + 2 * p)) with true by (symmetry; apply Nat.leb_le; lia).
  replace (Nat.leb (d * (kw - 1) + 1) (w + 2 * p)) with true by (symmetry; apply Nat.leb_le; lia).
  cbn [andb]. eexists. split; [reflexivity|]. intros vx vw.
  assert (EO : ((g * og) / g = og)%nat) by (rewrite Nat.mul_comm; apply Nat.div_mul; lia).
  unfold s_bil, conv_vr, tabulate. rewrite nest4, map_map. apply map_ext. intros e.
  rewrite EO.
  cbn [unravel]. f_equal. rewrite zsum_flat_map. apply zsum_ext. intros ch _.
  rewrite zsum_flat_map. apply zsum_ext. intros i _.
  rewrite zsum_flat_map. apply zsum_ext. intros j _.
  set (n := (e / numel [(g * og)%nat; oh; ow])%nat).
  set (f := (e mod numel [(g * og)%nat; oh; ow] / numel [oh; ow])%nat).
  set (y := ((e mod numel [(g * og)%nat; oh; ow]) mod numel [oh; ow] / numel [ow])%nat).
  set (x := (((e mod numel [(g * og)%nat; oh; ow]) mod numel [oh; ow]) mod numel [ow] / numel [])%nat).
  set (iy := (y * s + i * d)%nat). set (jx := (x * s + j * d)%nat).
  rewrite !at4_nth.
  destruct (Nat.leb_spec p iy), (Nat.ltb_spec iy (p + h)), (Nat.leb_spec p jx), (Nat.ltb_spec jx (p + w)); cbn [andb map zsum].
  1:{ replace ((0 <=? Z.of_nat iy - Z.of_nat p) && (Z.of_nat iy - Z.of_nat p <? Z.of_nat h) &&
       (0 <=? Z.of_nat jx - Z.of_nat p) && (Z.of_nat jx - Z.of_nat p <? Z.of_nat w))%bool with true.
      2:{ symmetry. rewrite !andb_true_iff. repeat split; lia. }
      replace (Z.to_nat (Z.of_nat iy - Z.of_nat p)) with (iy - p)%nat by lia.
      replace (Z.to_nat (Z.of_nat jx - Z.of_nat p)) with (jx - p)%nat by lia.
      cbn [fst snd]. rewrite Z.add_0_r. f_equal. do 4 f_equal. lia. }
  all: replace ((0 <=? Z.of_nat iy - Z.of_nat p) && (Z.of_nat iy - Z.of_nat p <? Z.of_nat h) &&
       (0 <=? Z.of_nat jx - Z.of_nat p) && (Z.of_nat jx - Z.of_nat p <? Z.of_nat w))%bool with false; [reflexivity|];
     symmetry; rewrite !andb_false_iff; lia.
Qed.

Lemma convT_index_spec ring s p d g nb h w og cg kh kw oh ow :
  (0 < s -> 0 < d -> 0 < g -> 0 < kh -> 0 < kw -> 0 < h -> 0 < w -> 0 < oh -> 0 < ow ->
    oh + 2 * p = (h - 1) * s + d * (kh - 1) + 1 -> ow + 2 * p = (w - 1) * s + d * (kw - 1) + 1 ->
  exists ix, convT_index (mkConv s p d g) [nb; g * cg; h; w] [g * cg; og; kh; kw] = Some ([nb; g * og; oh; ow], ix) /\
    forall vx vw, s_bil ring ix vx vw = convT_vr ring s p d g nb (g * cg) h w og kh kw oh ow vx vw)%nat.
Proof.
  intros Hs Hd Hg Hkh Hkw Hh Hw Hoh How H1 H2. unfold convT_index. cbn [cv_stride cv_pad cv_dil cv_groups].
  assert (EM : Nat.eqb ((g * cg) mod g) 0 = true) by (apply Nat.eqb_eq; rewrite Nat.mul_comm; apply Nat.mod_mul; lia).
  rewrite EM.
  replace (Nat.ltb 0 s) with true by (symmetry; apply Nat.ltb_lt; lia).
  replace (Nat.ltb 0 d) with true by (symmetry; apply Nat.ltb_lt; lia).
  replace (Nat.ltb 0 g) with true by (symmetry; apply Nat.ltb_lt; lia).
  replace (Nat.ltb 0 kh) with true by (symmetry; apply Nat.ltb_lt; lia).
  replace (Nat.ltb 0 kw) with true by (symmetry; apply Nat.ltb_lt; lia).
  replace (Nat.ltb 0 h) with true by (symmetry; apply Nat.ltb_lt; lia).
  replace (Nat.ltb 0 w) with true by (symmetry; apply Nat.ltb_lt; lia).
  rewrite Nat.eqb_refl.
  replace (Nat.ltb (2 * p) ((h - 1) * s + d * (kh - 1) + 1)) with true by (symmetry; apply Nat.ltb_lt; lia).
  replace (Nat.ltb (2 * p) ((w - 1) * s + d * (kw - 1) + 1)) with true by (symmetry; apply Nat.ltb_lt; lia).
  cbn [andb].
  replace ((h - 1) * s + d * (kh - 1) + 1 - 2 * p)%nat with oh by lia.
  replace ((w - 1) * s + d * (kw - 1) + 1 - 2 * p)%nat with ow by lia.
  eexists. split; [reflexivity|]. intros vx vw.
  unfold s_bil, convT_vr, tabulate. rewrite nest4, map_map. apply map_ext. intros e.
  assert (EO : ((g * cg) / g = cg)%nat) by (rewrite Nat.mul_comm; apply Nat.div_mul; lia).
  rewrite EO. cbn [unravel]. f_equal. rewrite zsum_flat_map. apply zsum_ext. intros ch _.
  rewrite zsum_flat_map. apply zsum_ext. intros u _.
  rewrite zsum_flat_map. apply zsum_ext. intros v _.
  rewrite zsum_flat_map. apply zsum_ext. intros i _.
  rewrite zsum_flat_map. apply zsum_ext. intros j _.
  rewrite !at4_nth. destruct (_ && _)%bool; [|reflexivity].
  cbn [map zsum fst snd]. rewrite Z.add_0_r. f_equal. do 4 f_equal. lia.
Qed.

Lemma bcast_idx_bpos so sh : (length sh <= length so)%nat ->
  bcast_idx so sh = map (bpos sh so) (seq 0 (numel so)).
Proof. intros H. rewrite bcast_idx_spec by auto. reflexivity. Qed.

Lemma combine_map' {A B C} (f : A -> B) (g : A -> C) l : combine (map f l) (map g l) = map (fun a => (f a, g a)) l.
Proof. induction l; simpl; f_equal; auto. Qed.
Lemma flat_map_map' {A B C} (f : B -> list C) (g : A -> B) l : flat_map f (map g l) = flat_map (fun a => f (g a)) l.
Proof. induction l; simpl; f_equal; auto. Qed.

Lemma mm_index_spec ring b1 b2 bs m k n : bshape b1 b2 bs ->
  exists ix, mm_index (b1 ++ [m; k]) (b2 ++ [k; n]) = Some (bs ++ [m; n], ix) /\
    forall vx vy, s_bil ring ix vx vy = mm_vr ring b1 b2 bs m k n vx vy.
Proof.
  intros HB. unfold mm_index. rewrite !rev_app_distr. cbn [rev app]. rewrite Nat.eqb_refl, !rev_involutive.
  rewrite (bcast_complete _ _ _ HB). eexists. split; [reflexivity|]. intros vx vy.
  destruct (bshape_length _ _ _ HB) as [L1 L2]. rewrite !bcast_idx_bpos by auto.
  rewrite combine_map', flat_map_map'. cbn [fst snd].
  unfold ix_matmul. rewrite (flat_map_seq (fun r c => map (fun t => (r * k + t, t * n + c)%nat) (seq 0 k))).
  rewrite (flat_map_nest (fun b e => map (fun q : nat * nat => (bpos b1 bs b * (m * k) + fst q, bpos b2 bs b * (k * n) + snd q)%nat)
     (map (fun t => (e / n * k + t, t * n + e mod n)%nat) (seq 0 k))) _ (m * n)).
  2:{ intros b. rewrite map_map. reflexivity. }
  unfold s_bil, mm_vr. rewrite map_map. apply map_ext. intros e. f_equal.
  rewrite !map_map. unfold sumn. apply zsum_ext. intros t _. cbn [fst snd].
  assert (E1 : ((e mod (m * n)) / n = (e / n) mod m)%nat).
  { destruct (Nat.eq_dec m 0) as [->|]; [cbn; destruct (Nat.eq_dec n 0) as [->|]; [reflexivity|]; reflexivity|].
    destruct (Nat.eq_dec n 0) as [->|].
    - rewrite Nat.mul_0_r. cbn [Nat.div]. rewrite Nat.mod_0_l by auto. reflexivity.
    - rewrite (Nat.mul_comm m n). rewrite Nat.mod_mul_r by auto. rewrite Nat.mul_comm, Nat.div_add by auto.
      rewrite Nat.div_small by (apply Nat.mod_upper_bound; auto). reflexivity. }
  assert (E2 : ((e mod (m * n)) mod n = e mod n)%nat).
  { destruct (Nat.eq_dec n 0) as [->|]; [rewrite Nat.mul_0_r; reflexivity|].
    destruct (Nat.eq_dec m 0) as [->|]; [reflexivity|].
    rewrite (Nat.mul_comm m n). rewrite Nat.mod_mul_r by auto. rewrite Nat.mul_comm, Nat.mod_add by auto.
    apply Nat.mod_mod; auto. }
  rewrite E1, E2. f_equal; f_equal; nia.
Qed.

Lemma bshape_nil_l b : bshape [] b b.
Proof.
  split; [reflexivity|]. intros i Hi. cbn. right. left. split; auto. destruct i; auto.
Qed.
Lemma bshape_nil_r b : bshape b [] b.
Proof.
  split; [cbn; lia|]. intros i Hi. cbn. right. right. split; auto. destruct i; auto.
Qed.

Lemma two_dims {A} (l : list A) a b : exists x y r, l ++ [a; b] = x :: y :: r.
Proof. destruct l as [|x [|y r]]; cbn; eauto. Qed.

Theorem product_index_r ring op sx sy so f : product_r ring op sx sy so f ->
  exists ix, bil_index (bop_of op) sx sy = Some (so, ix) /\ forall vx vy, s_bil ring ix vx vy = f vx vy.
Proof.
  intros H. destruct H as [sx sy so HB|b1 b2 bs m k n HB|b2 k n|b1 m k|k
    |s p d g nb h w og cg kh kw oh ow|s p d g nb h w og cg kh kw oh ow]; cbn [bop_of bil_index].
  - unfold ix_mul. rewrite (bcast_complete _ _ _ HB). eexists. split; [reflexivity|]. intros vx vy.
    destruct (bshape_length _ _ _ HB) as [L1 L2]. rewrite !bcast_idx_bpos by auto.
    rewrite combine_map', map_map. unfold s_bil, mul_vr, s_mul, bexpand. rewrite map_map, map2_map_l, map2_map_r, map2_same.
    apply map_ext. intros e. cbn [map zsum fst snd]. rewrite Z.add_0_r. reflexivity.
  - destruct (mm_index_spec ring b1 b2 bs m k n HB) as (ix & E & HV). exists ix. split; [|exact HV].
    unfold matmul_index. destruct (two_dims b1 m k) as (x1 & y1 & r1 & E1), (two_dims b2 k n) as (x2 & y2 & r2 & E2).
    rewrite E1, E2 in *. exact E.
  - destruct (mm_index_spec ring [] b2 b2 1 k n (bshape_nil_l b2)) as (ix & E & HV). exists ix. split; [|exact HV].
    cbn [app] in E.
    assert (EM : matmul_index [k] (b2 ++ [k; n]) = option_map (fun p => (drop_nth (length (fst p) - 2) (fst p), snd p)) (mm_index [1%nat; k] (b2 ++ [k; n]))).
    { unfold matmul_index. destruct (two_dims b2 k n) as (x2 & y2 & r2 & ->). reflexivity. }
    rewrite EM, E. cbn [option_map fst snd]. do 2 f_equal. unfold drop_nth. rewrite app_length. cbn [length].
    replace (length b2 + 2 - 2)%nat with (length b2) by lia.
    rewrite firstn_app, firstn_all, Nat.sub_diag. cbn [firstn]. rewrite app_nil_r. f_equal.
    rewrite skipn_app, skipn_all2 by lia. replace (S (length b2) - length b2)%nat with 1%nat by lia. reflexivity.
  - destruct (mm_index_spec ring b1 [] b1 m k 1 (bshape_nil_r b1)) as (ix & E & HV). exists ix. split; [|exact HV].
    cbn [app] in E.
    assert (EM : matmul_index (b1 ++ [m; k]) [k] = option_map (fun p => (removelast (fst p), snd p)) (mm_index (b1 ++ [m; k]) [k; 1%nat])).
    { unfold matmul_index. destruct (two_dims b1 m k) as (x2 & y2 & r2 & ->). reflexivity. }
    rewrite EM, E. cbn [option_map fst snd]. do 2 f_equal.
    change [m; 1%nat] with ([m] ++ [1%nat]). rewrite app_assoc. apply removelast_last.
  - destruct (mm_index_spec ring [] [] [] 1 k 1 (bshape_nil_l [])) as (ix & E & HV). exists ix. split; [|exact HV].
    cbn [app] in E. unfold matmul_index. rewrite E. reflexivity.
  - apply conv_index_spec; auto.
  - apply convT_index_spec; auto.
Qed.

Theorem product_index op sx sy so f : product op sx sy so f ->
  exists ix, bil_index (bop_of op) sx sy = Some (so, ix) /\ forall vx vy, s_bil (2^64) ix vx vy = f vx vy.
Proof. apply product_index_r. Qed.
