(** Lemmas on shaped tensors: broadcasting index lists agree with the specification,
    sums of shares commute with linear and bilinear operations. *)
From Coq Require Import Setoid Morphisms.
From Verif Require Import Util Modular S_Ring S_Tensor M_Torch L_Torch M_Tensor.
Local Open Scope Z_scope.

Ltac Zify.zify_post_hook ::= Z.div_mod_to_equations.

(* ---------------------------------------------------------------- lists *)
Lemma map_seq_shift {A} (f : nat -> A) n k : map f (seq k n) = map (fun i => f (k + i)%nat) (seq 0 n).
Proof.
  revert f k; induction n as [|n IH]; intros f k; simpl; auto. f_equal; [f_equal; lia|].
  rewrite (IH f (S k)), (IH (fun i => f (k + i)%nat) 1%nat). apply map_ext. intros; f_equal; lia.
Qed.

Lemma flat_map_seq {A} (g : nat -> nat -> A) n m :
  flat_map (fun i => map (g i) (seq 0 n)) (seq 0 m) =
  map (fun e => g (e / n)%nat (e mod n)%nat) (seq 0 (m * n)).
Proof.
  induction m as [|m IH]; [reflexivity|].
  rewrite seq_S, flat_map_app, IH. cbn [flat_map plus]. rewrite app_nil_r.
  replace (S m * n)%nat with (m * n + n)%nat by lia.
  rewrite seq_app, map_app. f_equal. cbn [plus]. rewrite (map_seq_shift _ n (m * n)).
  apply map_ext_in. intros i Hi. apply in_seq in Hi.
  assert (Hn : n <> 0%nat) by lia.
  rewrite Nat.div_add_l by auto. rewrite Nat.div_small by lia.
  rewrite Nat.add_comm with (n := (m * n)%nat). rewrite Nat.mod_add by auto.
  rewrite Nat.mod_small by lia. f_equal; lia.
Qed.

Lemma flat_map_map {A B C} (f : B -> list C) (g : A -> B) l :
  flat_map f (map g l) = flat_map (fun a => f (g a)) l.
Proof. induction l as [|a l IH]; simpl; [|rewrite IH]; auto. Qed.

Lemma flat_map_ext_in {A B} (f g : A -> list B) l :
  (forall a, In a l -> f a = g a) -> flat_map f l = flat_map g l.
Proof.
  induction l as [|a l IH]; intros H; simpl; auto.
  rewrite H by (simpl; auto). rewrite IH; auto. intros; apply H; simpl; auto.
Qed.

Lemma map_nth_seq {A} (d : A) l : map (fun i => nth i l d) (seq 0 (length l)) = l.
Proof.
  induction l as [|a l IH]; simpl; auto. f_equal. rewrite <- seq_shift, map_map. exact IH.
Qed.

(* ----------------------------------------------------------- broadcasting *)
Definition bfix (d i : nat) : nat := if Nat.eqb d 1 then 0%nat else i.

Lemma unravel_length so : forall e, length (unravel so e) = length so.
Proof. induction so as [|d so IH]; intros e; simpl; auto. Qed.

Lemma bidx_spec so : forall sa, length so = length sa ->
  bidx so sa = map (fun e => ravel sa (map2 bfix sa (unravel so e))) (seq 0 (numel so)).
Proof.
  induction so as [|o so IH]; intros [|a sa] HL; simpl in HL; try discriminate.
  - reflexivity.
  - cbn [bidx numel fold_right]. fold (numel so). rewrite (IH sa) by lia.
    rewrite (flat_map_ext_in _ (fun i => map (fun k => ((if Nat.eqb a 1 then 0 else i) * numel sa +
       ravel sa (map2 bfix sa (unravel so k)))%nat) (seq 0 (numel so)))).
    2:{ intros i _. rewrite map_map. reflexivity. }
    rewrite (flat_map_seq (fun i k => ((if Nat.eqb a 1 then 0 else i) * numel sa +
       ravel sa (map2 bfix sa (unravel so k)))%nat)).
    apply map_ext. intros e. reflexivity.
Qed.

Lemma numel_app a b : numel (a ++ b) = (numel a * numel b)%nat.
Proof. induction a as [|x a IH]; simpl; [lia|]. fold (numel (a ++ b)). rewrite IH.
  fold (numel a). lia. Qed.

Lemma numel_repeat1 n : numel (repeat 1%nat n) = 1%nat.
Proof. induction n as [|n IH]; simpl; auto. fold (numel (repeat 1%nat n)). lia. Qed.

Lemma numel_rev a : numel (rev a) = numel a.
Proof. induction a as [|x a IH]; simpl; auto. rewrite numel_app, IH. simpl. fold (numel a). lia. Qed.

Lemma ravel_pad n : forall sa ix, (n <= length ix)%nat ->
  ravel (repeat 1%nat n ++ sa) (map2 bfix (repeat 1%nat n ++ sa) ix) =
  ravel sa (map2 bfix sa (skipn n ix)).
Proof.
  induction n as [|n IH]; intros sa ix H; [reflexivity|].
  destruct ix as [|i ix]; simpl in H; [lia|]. cbn [repeat app map2 ravel skipn].
  unfold bfix at 1. cbn [Nat.eqb]. rewrite IH by lia. lia.
Qed.

Lemma bcast_idx_spec so sa : (length sa <= length so)%nat ->
  bcast_idx so sa = map (fun e => ravel sa (map2 bfix sa (skipn (length so - length sa) (unravel so e))))
                        (seq 0 (numel so)).
Proof.
  intros H. unfold bcast_idx, pad_shape. rewrite bidx_spec.
  2:{ rewrite app_length, repeat_length. lia. }
  apply map_ext. intros e. apply ravel_pad. rewrite unravel_length. lia.
Qed.

Lemma expand_spec so sa x : (length sa <= length so)%nat -> expand so sa x = bexpand sa so x.
Proof.
  intros H. unfold expand, gather, bexpand, bget. rewrite bcast_idx_spec by auto.
  rewrite map_map. reflexivity.
Qed.

Lemma bcast_rev_length a : forall b so, bcast_rev a b = Some so ->
  length so = Nat.max (length a) (length b).
Proof.
  induction a as [|x a IH]; intros [|y b] so H; cbn [bcast_rev] in H; try (injection H as <-; simpl; lia).
  destruct (bcast_rev a b) as [r|] eqn:E; [|discriminate].
  apply IH in E. destruct (Nat.eqb x y), (Nat.eqb x 1), (Nat.eqb y 1);
    try discriminate; injection H as <-; simpl; lia.
Qed.

Lemma bcast_rev_spec a : forall b so, bcast_rev a b = Some so -> forall i, (i < length so)%nat ->
  let da := nth i a 1%nat in let db := nth i b 1%nat in let d := nth i so 1%nat in
  (da = db /\ d = da) \/ (da = 1%nat /\ d = db) \/ (db = 1%nat /\ d = da).
Proof.
  induction a as [|x a IH]; intros [|y b] so H i Hi; cbn [bcast_rev] in H.
  - injection H as <-. simpl in Hi; lia.
  - injection H as <-. destruct i; simpl; auto.
  - injection H as <-. destruct i; simpl; auto.
  - destruct (bcast_rev a b) as [r|] eqn:E; [|discriminate].
    destruct (Nat.eqb_spec x y), (Nat.eqb_spec x 1), (Nat.eqb_spec y 1); try discriminate;
      injection H as <-; destruct i as [|i]; cbn [nth]; auto; apply (IH b r E); simpl in Hi; lia.
Qed.

Lemma bcast_spec a b so : bcast a b = Some so -> bshape a b so.
Proof.
  unfold bcast. intros H. destruct (bcast_rev (rev a) (rev b)) as [r|] eqn:E; [|discriminate].
  injection H as <-. split.
  - rewrite rev_length. apply bcast_rev_length in E. rewrite !rev_length in E. exact E.
  - intros i Hi. rewrite rev_length in Hi. rewrite rev_involutive. apply (bcast_rev_spec _ _ _ E); auto.
Qed.

Lemma bcast_rev_complete a : forall b so, length so = Nat.max (length a) (length b) ->
  (forall i, (i < length so)%nat ->
    let da := nth i a 1%nat in let db := nth i b 1%nat in let d := nth i so 1%nat in
    (da = db /\ d = da) \/ (da = 1%nat /\ d = db) \/ (db = 1%nat /\ d = da)) ->
  bcast_rev a b = Some so.
Proof.
  induction a as [|x a IH]; intros [|y b] so HL H; cbn [bcast_rev].
  - destruct so; simpl in HL; [auto|lia].
  - f_equal. simpl in HL. apply (nth_ext_len 1%nat); [simpl; lia|].
    intros i Hi. destruct (H i) as [[H1 H2]|[[H1 H2]|[H1 H2]]]; [simpl in Hi; lia|..];
      destruct i; simpl in *; congruence.
  - f_equal. simpl in HL. apply (nth_ext_len 1%nat); [simpl; lia|].
    intros i Hi. destruct (H i) as [[H1 H2]|[[H1 H2]|[H1 H2]]]; [simpl in Hi; lia|..];
      destruct i; simpl in *; congruence.
  - destruct so as [|d so]; simpl in HL; [lia|].
    rewrite (IH b so).
    + specialize (H 0%nat). simpl in H. destruct H as [[H1 H2]|[[H1 H2]|[H1 H2]]]; [lia|..].
      * subst. rewrite Nat.eqb_refl. reflexivity.
      * subst. destruct (Nat.eqb_spec 1 y); subst; reflexivity.
      * subst. destruct (Nat.eqb_spec x 1); subst; reflexivity.
    + lia.
    + intros i Hi. apply (H (S i)). simpl; lia.
Qed.

Lemma bcast_complete a b so : bshape a b so -> bcast a b = Some so.
Proof.
  intros [HL H]. unfold bcast. rewrite (bcast_rev_complete _ _ (rev so)).
  - simpl. rewrite rev_involutive. reflexivity.
  - rewrite !rev_length. exact HL.
  - intros i Hi. rewrite rev_length in Hi. apply H; auto.
Qed.

Lemma bshape_length a b so : bshape a b so -> (length a <= length so)%nat /\ (length b <= length so)%nat.
Proof. intros [H _]. lia. Qed.

Lemma bcast_refl s : bcast s s = Some s.
Proof.
  apply bcast_complete. split; [lia|]. intros i Hi. left; auto.
Qed.

Lemma bcast_comm a b : bcast a b = bcast b a.
Proof.
  assert (H : forall a b so, bcast a b = Some so -> bcast b a = Some so).
  { clear. intros a b so H. apply bcast_spec in H. apply bcast_complete.
    destruct H as [H1 H2]. split; [lia|]. intros i Hi. specialize (H2 i Hi). cbn in *. intuition. }
  destruct (bcast a b) as [so|] eqn:E.
  - symmetry. apply H. exact E.
  - destruct (bcast b a) as [so|] eqn:E2; auto. apply H in E2. congruence.
Qed.

(** a tensor broadcast to its own shape is itself *)
Lemma ravel_unravel sh : forall e, (e < numel sh)%nat -> ravel sh (map2 bfix sh (unravel sh e)) = e.
Proof.
  induction sh as [|d sh IH]; intros e He.
  - simpl in *. lia.
  - cbn [unravel map2 ravel]. cbn [numel fold_right] in He. fold (numel sh) in He.
    assert (Hn : numel sh <> 0%nat) by (intros E; rewrite E in He; lia).
    rewrite IH by (apply Nat.mod_upper_bound; auto).
    assert (Hd : bfix d (e / numel sh) = (e / numel sh)%nat).
    { unfold bfix. destruct (Nat.eqb_spec d 1); auto. subst. rewrite Nat.div_small; lia. }
    rewrite Hd. pose proof (Nat.div_mod e (numel sh) Hn). lia.
Qed.

Lemma bexpand_self sh x : length x = numel sh -> bexpand sh sh x = x.
Proof.
  intros HL. unfold bexpand. rewrite <- HL. transitivity (map (fun i => nth i x 0) (seq 0 (length x))); [|apply map_nth_seq].
  apply map_ext_in. intros e He. apply in_seq in He. unfold bget.
  rewrite Nat.sub_diag. cbn [skipn]. f_equal. apply ravel_unravel. lia.
Qed.

Lemma bexpand_length sh so x : length (bexpand sh so x) = numel so.
Proof. unfold bexpand. rewrite map_length, seq_length. reflexivity. Qed.

Lemma bexpand_nth sh so x e : (e < numel so)%nat -> nth e (bexpand sh so x) 0 = bget sh so x e.
Proof. intros H. unfold bexpand. rewrite (nth_map_in _ 0%nat) by (rewrite seq_length; auto).
  rewrite seq_nth by auto. reflexivity. Qed.

Lemma bexpand_in ring sh so x : supported ring -> vec_in ring x -> vec_in ring (bexpand sh so x).
Proof.
  intros Hs Hx. unfold bexpand, vec_in. apply Forall_map, Forall_forall. intros e _.
  apply nth_in_ring; auto.
Qed.

(** tbin in terms of the specification *)
Lemma tbin_spec f a b so : bshape (tsh a) (tsh b) so ->
  tbin f a b = Ok (mkT so (map2 f (bexpand (tsh a) so (tdat a)) (bexpand (tsh b) so (tdat b)))).
Proof.
  intros H. unfold tbin. rewrite (bcast_complete _ _ _ H).
  destruct (bshape_length _ _ _ H). rewrite !expand_spec by auto. reflexivity.
Qed.

Lemma tbin_err f a b : (forall so, ~ bshape (tsh a) (tsh b) so) -> tbin f a b = Err RuntimeError.
Proof.
  intros H. unfold tbin. destruct (bcast (tsh a) (tsh b)) as [so|] eqn:E; auto.
  apply bcast_spec in E. elim (H _ E).
Qed.

Lemma tbin_same f a b sh : tsh a = sh -> tsh b = sh -> length (tdat a) = numel sh ->
  length (tdat b) = numel sh -> tbin f a b = Ok (mkT sh (map2 f (tdat a) (tdat b))).
Proof.
  intros Ha Hb La Lb. rewrite (tbin_spec f a b sh).
  - rewrite Ha, Hb, !bexpand_self by auto. reflexivity.
  - rewrite Ha, Hb. apply bcast_spec, bcast_refl.
Qed.

(** element-wise product is the bilinear operation BMul *)
Lemma rbil_single ring l1 l2 x y :
  rbil ring (map (fun p => [p]) (combine l1 l2)) x y = map2 (rmul ring) (gather l1 x) (gather l2 y).
Proof.
  revert l2; induction l1 as [|i l1 IH]; intros [|j l2]; simpl; auto.
  f_equal. apply IH.
Qed.

Lemma tbil_mul ring a b : tbil ring BMul a b = tbin (rmul ring) a b.
Proof.
  unfold tbil, bil_index, tbin, ix_mul. destruct (bcast (tsh a) (tsh b)) as [so|]; auto.
  rewrite rbil_single. reflexivity.
Qed.

(** matrix product: element (r, c) is the sum over t of x[r,t] * y[t,c] *)
Lemma ix_matmul_nth m k n r c : (r < m)%nat -> (c < n)%nat ->
  nth (r * n + c) (ix_matmul m k n) [] = map (fun t => (r * k + t, t * n + c)%nat) (seq 0 k).
Proof.
  intros Hr Hc. unfold ix_matmul.
  rewrite (flat_map_seq (fun r c => map (fun t => (r * k + t, t * n + c)%nat) (seq 0 k))).
  assert (Hlt : (r * n + c < m * n)%nat) by nia.
  rewrite (nth_map_in _ 0%nat) by (rewrite seq_length; auto).
  rewrite seq_nth by auto. cbn [plus].
  rewrite Nat.div_add_l by lia. rewrite Nat.div_small by lia.
  rewrite (Nat.add_comm (r * n) c), Nat.mod_add, Nat.mod_small by lia. rewrite Nat.add_0_r. reflexivity.
Qed.

Lemma ix_matmul_length m k n : length (ix_matmul m k n) = (m * n)%nat.
Proof.
  unfold ix_matmul. rewrite (flat_map_seq (fun r c => map (fun t => (r * k + t, t * n + c)%nat) (seq 0 k))).
  rewrite map_length, seq_length. reflexivity.
Qed.

(* ------------------------------------------------ sums and operations *)
Section Sums.
  Variable ring : Z.
  Hypothesis Hs : supported ring.
  Let Hp := supported_pos ring Hs.

  Lemma nth_vadd x y i : vec_in ring x -> vec_in ring y -> length x = length y ->
    nth i (vadd ring x y) 0 == nth i x 0 + nth i y 0 [mod ring].
  Proof.
    intros Hx Hy HL. destruct (Nat.lt_ge_cases i (length x)) as [H|H].
    - unfold vadd. rewrite (nth_map2 _ 0 0 0) by lia. apply radd_eqmod; auto; apply nth_in_ring; auto.
    - rewrite !nth_overflow; auto; try lia; [reflexivity|].
      unfold vadd. rewrite map2_length. lia.
  Qed.
  Lemma nth_vsub x y i : vec_in ring x -> vec_in ring y -> length x = length y ->
    nth i (vsub ring x y) 0 == nth i x 0 - nth i y 0 [mod ring].
  Proof.
    intros Hx Hy HL. destruct (Nat.lt_ge_cases i (length x)) as [H|H].
    - unfold vsub. rewrite (nth_map2 _ 0 0 0) by lia. apply rsub_eqmod; auto; apply nth_in_ring; auto.
    - rewrite !nth_overflow; auto; try lia; [reflexivity|].
      unfold vsub. rewrite map2_length. lia.
  Qed.

  (** coordinate [i] of a sum of tensors of one length *)
  Lemma nth_s_sum m ts i : Forall (fun t => length t = m) ts ->
    nth i (s_sum ring m ts) 0 == zsum (map (fun t => nth i t 0) ts) [mod ring].
  Proof.
    intros HL. destruct (Nat.lt_ge_cases i m) as [H|H].
    - rewrite s_sum_nth by auto. apply to_ring_eqmod, Hp.
    - rewrite nth_overflow by (rewrite s_sum_length; auto).
      rewrite (zsum_ext _ (fun _ => 0)).
      + rewrite zsum_map_zero. reflexivity.
      + intros t Ht. apply nth_overflow. rewrite Forall_forall in HL. rewrite HL; auto.
  Qed.

  Lemma rbil_nth ix x y o : vec_in ring x -> vec_in ring y ->
    nth o (rbil ring ix x y) 0 ==
    zsum (map (fun p => nth (fst p) x 0 * nth (snd p) y 0) (nth o ix [])) [mod ring].
  Proof.
    intros Hx Hy. rewrite rbil_spec by auto. destruct (Nat.lt_ge_cases o (length ix)) as [H|H].
    - rewrite s_bil_nth by auto. apply to_ring_eqmod, Hp.
    - rewrite nth_overflow by (rewrite s_bil_length; auto).
      rewrite (nth_overflow ix) by auto. reflexivity.
  Qed.
  Lemma rlin_nth ix x o : vec_in ring x ->
    nth o (rlin ring ix x) 0 == zsum (map (fun i => nth i x 0) (nth o ix [])) [mod ring].
  Proof.
    intros Hx. rewrite rlin_spec by auto. destruct (Nat.lt_ge_cases o (length ix)) as [H|H].
    - rewrite s_lin_nth by auto. apply to_ring_eqmod, Hp.
    - rewrite nth_overflow by (rewrite s_lin_length; auto).
      rewrite (nth_overflow ix) by auto. reflexivity.
  Qed.

  (** linear operations commute with summing shares *)
  Lemma s_sum_lin m ix ts : Forall (fun t => length t = m) ts -> Forall (vec_in ring) ts ->
    s_sum ring (length ix) (map (rlin ring ix) ts) = s_lin ring ix (s_sum ring m ts).
  Proof.
    intros HL Hin. apply (vec_eq ring Hs).
    - apply s_sum_in; auto.
    - unfold s_lin. apply map_to_ring_in; auto.
    - rewrite s_sum_length, s_lin_length. reflexivity.
    - intros o Ho. rewrite s_sum_length in Ho. rewrite s_sum_nth, s_lin_nth by auto.
      rewrite !to_ring_eqmod by apply Hp. rewrite map_map.
      transitivity (zsum (map (fun t => zsum (map (fun i => nth i t 0) (nth o ix []))) ts)).
      + apply zsum_eqmod. intros t Ht. apply rlin_nth. rewrite Forall_forall in Hin; auto.
      + rewrite zsum_exchange. apply zsum_eqmod. intros i _. symmetry. apply nth_s_sum; auto.
  Qed.

  Lemma s_sum_bexpand sh so ts : Forall (fun t => length t = numel sh) ts ->
    s_sum ring (numel so) (map (bexpand sh so) ts) = bexpand sh so (s_sum ring (numel sh) ts).
  Proof.
    intros HL. apply (vec_eq ring Hs).
    - apply s_sum_in; auto.
    - apply bexpand_in; auto. apply s_sum_in; auto.
    - rewrite s_sum_length, bexpand_length. reflexivity.
    - intros e He. rewrite s_sum_length in He. rewrite s_sum_nth, bexpand_nth by auto.
      rewrite to_ring_eqmod by apply Hp. rewrite map_map. unfold bget.
      rewrite nth_s_sum by auto. apply zsum_eqmod. intros t _. rewrite bexpand_nth by auto. reflexivity.
  Qed.

  (** sum of share-wise sums / differences *)
  Lemma s_sum_map2 m (f : Z -> Z -> Z) (g : list Z -> list Z -> list Z) xs ys :
    (forall x y i, vec_in ring x -> vec_in ring y -> length x = m -> length y = m -> (i < m)%nat ->
       nth i (g x y) 0 == f (nth i x 0) (nth i y 0) [mod ring]) ->
    (forall a b c d, f (a + c) (b + d) = f a b + f c d) -> f 0 0 = 0 ->
    (forall a b c d, a == c [mod ring] -> b == d [mod ring] -> f a b == f c d [mod ring]) ->
    Forall (fun t => vec_in ring t /\ length t = m) xs ->
    Forall (fun t => vec_in ring t /\ length t = m) ys ->
    length xs = length ys ->
    s_sum ring m (map2 g xs ys) =
    map2 (fun a b => to_ring ring (f a b)) (s_sum ring m xs) (s_sum ring m ys).
  Proof.
    intros Hg Hf H0 Hc Hx Hy HL.
    assert (HLm : length (map2 (fun a b => to_ring ring (f a b)) (s_sum ring m xs) (s_sum ring m ys)) = m)
      by (apply map2_length_eq; apply s_sum_length).
    apply (vec_eq ring Hs).
    - apply s_sum_in; auto.
    - apply map2_to_ring_in; auto.
    - rewrite s_sum_length; auto.
    - intros e He. rewrite s_sum_length in He.
      rewrite s_sum_nth by auto. rewrite (nth_map2 _ 0 0 0) by (rewrite s_sum_length; auto).
      rewrite !to_ring_eqmod by apply Hp.
      transitivity (f (zsum (map (fun t => nth e t 0) xs)) (zsum (map (fun t => nth e t 0) ys))).
      2:{ apply Hc; symmetry; apply nth_s_sum;
          [eapply Forall_impl; [|apply Hx] | eapply Forall_impl; [|apply Hy]]; simpl; tauto. }
      clear HLm. revert ys Hy HL. induction xs as [|x xs IH]; intros [|y ys] Hy HL;
        cbn [map2 map zsum]; try (simpl in HL; lia).
      + rewrite H0. reflexivity.
      + inversion Hx as [|? ? [Hx1 Hx2] Hx3]; inversion Hy as [|? ? [Hy1 Hy2] Hy3]; subst.
        rewrite Hf. rewrite Hg by auto. rewrite IH; auto. reflexivity.
  Qed.

  Lemma s_sum_vadd m xs ys :
    Forall (fun t => vec_in ring t /\ length t = m) xs ->
    Forall (fun t => vec_in ring t /\ length t = m) ys -> length xs = length ys ->
    s_sum ring m (map2 (vadd ring) xs ys) = s_add ring (s_sum ring m xs) (s_sum ring m ys).
  Proof.
    intros. apply (s_sum_map2 m Z.add (vadd ring)); auto; try (intros; lia).
    - intros; apply nth_vadd; auto; lia.
    - intros a b c d E F. rewrite E, F. reflexivity.
  Qed.
  Lemma s_sum_vsub m xs ys :
    Forall (fun t => vec_in ring t /\ length t = m) xs ->
    Forall (fun t => vec_in ring t /\ length t = m) ys -> length xs = length ys ->
    s_sum ring m (map2 (vsub ring) xs ys) = s_sub ring (s_sum ring m xs) (s_sum ring m ys).
  Proof.
    intros. apply (s_sum_map2 m Z.sub (vsub ring)); auto; try (intros; lia).
    - intros; apply nth_vsub; auto; lia.
    - intros a b c d E F. rewrite E, F. reflexivity.
  Qed.

  (** reconstruction: the sum of a list of tensors of one shape *)
  Lemma tsum_spec sh ts : ts <> [] -> Forall (tensor_in ring sh) ts ->
    tsum ring ts = Ok (mkT sh (s_sum ring (numel sh) (map tdat ts))).
  Proof.
    destruct ts as [|t ts]; intros Hne Hts; [congruence|]. unfold tsum.
    inversion Hts as [|? ? (Ht1 & Ht2 & Ht3) Hts']; subst.
    assert (G : forall us a, Forall (tensor_in ring (tsh t)) us -> tensor_in ring (tsh t) a ->
      fold_left (fun acc u => do a0 <- acc; tbin (radd ring) a0 u) us (Ok a) =
      Ok (mkT (tsh t) (fold_left (vadd ring) (map tdat us) (tdat a)))).
    { clear Hts Hts'. induction us as [|u us IH]; intros a Hus Ha; cbn [fold_left map].
      - destruct Ha as (E & _). destruct a as [s d]. simpl in *. subst. reflexivity.
      - inversion Hus as [|? ? Hu Hus']; subst.
        destruct Hu as (U1 & U2 & U3). destruct Ha as (A1 & A2 & A3). cbn [rbind].
        rewrite (tbin_same _ a u (tsh t)) by auto. apply IH; auto.
        split; [reflexivity|]. split; cbn [tdat].
        + apply map2_length_eq; auto.
        + apply vadd_in; auto. }
    rewrite (G ts t Hts').
    - f_equal. f_equal.
      change (fold_left (vadd ring) (map tdat ts) (tdat t)) with (vsum ring (map tdat (t :: ts))).
      apply vsum_spec; auto; [discriminate|].
      apply Forall_map. eapply Forall_impl; [|apply Hts]. intros u (_ & U2 & U3). auto.
    - repeat split; auto.
  Qed.

  Lemma shared_tsum sh v ss : shared ring sh v ss -> tsum ring ss = Ok (mkT sh v).
  Proof. intros (H1 & H2 & ->). apply tsum_spec; auto. Qed.

  Lemma shared_vals sh v ss : shared ring sh v ss ->
    length v = numel sh /\ vec_in ring v /\
    forall i, nth i v 0 == zsum (map (fun s => nth i (tdat s) 0) ss) [mod ring].
  Proof.
    intros (H1 & H2 & ->). split; [apply s_sum_length|]. split; [apply s_sum_in; auto|].
    intros i. rewrite nth_s_sum.
    - rewrite map_map. reflexivity.
    - apply Forall_map. eapply Forall_impl; [|apply H2]. intros t (_ & T2 & _). exact T2.
  Qed.

  (** build a sharing from its coordinates *)
  Lemma shared_intro sh v ss : ss <> [] -> Forall (tensor_in ring sh) ss ->
    length v = numel sh -> vec_in ring v ->
    (forall i, (i < numel sh)%nat -> nth i v 0 == zsum (map (fun s => nth i (tdat s) 0) ss) [mod ring]) ->
    shared ring sh v ss.
  Proof.
    intros H1 H2 H3 H4 H5. split; [auto|]. split; [auto|].
    apply (vec_eq ring Hs); auto.
    - apply s_sum_in; auto.
    - rewrite s_sum_length; auto.
    - intros e He. rewrite H3 in He. rewrite s_sum_nth by auto. rewrite to_ring_eqmod by apply Hp.
      rewrite map_map. auto.
  Qed.
End Sums.
