(** Lemmas about sharing with tensors of different dtypes. *)
From Coq Require Import Setoid Morphisms.
From Verif Require Import Util Modular S_Ring S_Tensor M_Torch M_Dtype L_Torch.
Local Open Scope Z_scope.

(** number of values of an integer dtype *)
Definition width (d : dtype) : Z :=
  match d with TBool => 2 | TU8 | TI8 => 2^8 | TI16 => 2^16 | TI32 => 2^32 | TI64 => 2^64 end.

Lemma cast_eqmod d z : d <> TBool -> cast d z == z [mod width d].
Proof.
  assert (W : forall w, 0 < w -> wrap w z == z [mod 2^w]).
  { intros w Hw. unfold wrap. exists (- ((z + 2^(w-1)) / 2^w)).
    pose proof (Z.div_mod (z + 2^(w-1)) (2^w) ltac:(apply Z.pow_nonzero; lia)). lia. }
  destruct d; intros H; [congruence| | apply (W 8) | apply (W 16) | apply (W 32) | apply (W 64)]; try lia.
  cbn [cast width]. exists (- (z / 2^8)). pose proof (Z.div_mod z (2^8) ltac:(lia)). lia.
Qed.

Lemma cast_cong d a b : d <> TBool -> a == b [mod width d] -> cast d a = cast d b.
Proof.
  assert (W : forall w, 0 < w -> a == b [mod 2^w] -> wrap w a = wrap w b).
  { intros w Hw [k ->]. unfold wrap. f_equal. rewrite <- Z.add_assoc, (Z.add_comm (k * _)), Z.add_assoc.
    apply Z.mod_add. apply Z.pow_nonzero; lia. }
  destruct d; intros H E; [congruence| | apply (W 8) | apply (W 16) | apply (W 32) | apply (W 64)]; auto; try lia.
  cbn [cast width] in *. destruct E as [k ->]. apply Z.mod_add. lia.
Qed.

(** the elements of a tensor are values of its dtype *)
Definition typed (d : dtype) (v : list Z) : Prop := Forall (fun z => cast d z = z) v.

Lemma promote_self d : promote d d = d. Proof. destruct d; reflexivity. Qed.
Lemma promote_64 d : promote TI64 d = TI64. Proof. destruct d; reflexivity. Qed.
Lemma promote_64' d : promote d TI64 = TI64. Proof. destruct d; reflexivity. Qed.
Lemma dtype_eqb_bool d : d <> TBool -> dtype_eqb d TBool = false.
Proof. destruct d; intros H; auto; congruence. Qed.
Lemma dtype_eqb_bool64 : dtype_eqb TI64 TBool = false. Proof. reflexivity. Qed.

Definition csub (d : dtype) (a b : list Z) : list Z := map2 (fun x y => cast d (x - y)) a b.
Definition cadd (d : dtype) (a b : list Z) : list Z := map2 (fun x y => cast d (x + y)) a b.

Lemma dsub_same d a b : d <> TBool -> dsub (d, a) (d, b) = Ok (d, csub d a b).
Proof. intros H. unfold dsub. cbn [fst snd]. rewrite !dtype_eqb_bool, promote_self by auto. reflexivity. Qed.
Lemma dsub_64 d a b : d <> TBool -> dsub (TI64, a) (d, b) = Ok (TI64, csub TI64 a b).
Proof. intros H. unfold dsub. cbn [fst snd]. rewrite dtype_eqb_bool64, dtype_eqb_bool, promote_64 by auto. reflexivity. Qed.

(** the differences of neighbours *)
Fixpoint diffs (d : dtype) (prev : list Z) (rs : list (list Z)) : list (list Z) :=
  match rs with [] => [] | r :: t => csub d r prev :: diffs d r t end.

Lemma middle_ok d : d <> TBool -> forall rs prev,
  d_middle (d, prev) (map (fun r => (d, r)) rs) = Ok (map (fun r => (d, r)) (diffs d prev rs)).
Proof.
  intros Hd. induction rs as [|r t IH]; intros prev; cbn [map d_middle diffs]; [reflexivity|].
  rewrite dsub_same by auto. cbn [rbind]. rewrite IH. reflexivity.
Qed.

Lemma last_map {A B} (f : A -> B) l a : last (map f l) (f a) = f (last l a).
Proof. revert a. induction l as [|x [|y l] IH]; intros a; auto. cbn [map last] in *. apply IH. Qed.
Lemma last_cons_any {A} (l : list A) x a : last (x :: l) a = last l x.
Proof. revert x a. induction l as [|y l IH]; intros x a; [reflexivity|]. change (last (x :: y :: l) a) with (last (y :: l) a). rewrite IH.
  symmetry. rewrite IH. reflexivity. Qed.

Lemma generate_ok d v r0 t : d <> TBool ->
  d_generate (TI64, v) (map (fun r => (d, r)) (r0 :: t)) =
  Ok ((d, r0) :: map (fun r => (d, r)) (diffs d r0 t) ++ [(TI64, csub TI64 v (last t r0))]).
Proof.
  intros Hd. cbn [map d_generate]. rewrite middle_ok by auto. cbn [rbind].
  change (dsub (TI64, v) _) with (dsub (TI64, v) (last (map (fun r : list Z => (d, r)) t) (d, r0))).
  rewrite (last_map (fun r => (d, r)) t r0), dsub_64 by auto. reflexivity.
Qed.

(* ------------------------------------------------------ sums *)
Lemma cadd_csub d a b m : d <> TBool -> length a = m -> length b = m -> typed d b -> cadd d a (csub d b a) = b.
Proof.
  intros Hd La Lb T. unfold cadd, csub. revert b m La Lb T.
  induction a as [|x a IH]; intros [|y b] m La Lb T; cbn [map2 length] in *; subst; try lia; auto.
  inversion T as [|? ? T1 T2]; subst. f_equal; [|apply (IH b (length a)); auto].
  rewrite <- T1 at 2. apply cast_cong; auto. rewrite cast_eqmod by auto. apply eqmod_eq. lia.
Qed.

Lemma cadd_four d a b a' b' m : d <> TBool -> length a = m -> length b = m -> length a' = m -> length b' = m ->
  cadd d (cadd d a b) (cadd d (csub d a' a) (csub d b' b)) = cadd d a' b'.
Proof.
  intros Hd. unfold cadd, csub. revert b a' b' m.
  induction a as [|x a IH]; intros [|y b] [|x' a'] [|y' b'] m L1 L2 L3 L4; cbn [map2 length] in *; subst; try lia; auto.
  f_equal; [|apply (IH b a' b' (length a)); auto].
  apply cast_cong; auto. rewrite !cast_eqmod by auto. apply eqmod_eq. lia.
Qed.

Lemma dadd_same d a b : dadd (d, a) (d, b) = (d, cadd d a b).
Proof. unfold dadd. cbn [fst snd]. rewrite promote_self. reflexivity. Qed.

Lemma sum_diffs d m : d <> TBool -> forall t r0, length r0 = m -> Forall (fun r => length r = m /\ typed d r) t ->
  fold_left dadd (map (fun r => (d, r)) (diffs d r0 t)) (d, r0) = (d, last t r0).
Proof.
  intros Hd. induction t as [|r t IH]; intros r0 H0 HT; cbn [diffs map fold_left]; [reflexivity|].
  inversion HT as [|? ? (L & T) HT']; subst.
  rewrite dadd_same, (cadd_csub d r0 r (length r0)) by auto. rewrite (IH r) by auto. rewrite last_cons_any. reflexivity.
Qed.

Lemma add_diffs d : forall t u r0 q0,
  map2 dadd (map (fun r => (d, r)) (diffs d r0 t)) (map (fun r => (d, r)) (diffs d q0 u)) =
  map (fun r => (d, r)) (map2 (cadd d) (diffs d r0 t) (diffs d q0 u)).
Proof.
  induction t as [|r t IH]; intros [|q u] r0 q0; cbn [diffs map map2]; auto. rewrite dadd_same, IH. reflexivity.
Qed.

Lemma sum_diffs2 d m : d <> TBool -> forall t u r0 q0, length t = length u -> length r0 = m -> length q0 = m ->
  Forall (fun r => length r = m) t -> Forall (fun r => length r = m) u ->
  fold_left dadd (map (fun r => (d, r)) (map2 (cadd d) (diffs d r0 t) (diffs d q0 u))) (d, cadd d r0 q0) =
  (d, cadd d (last t r0) (last u q0)).
Proof.
  intros Hd. induction t as [|r t IH]; intros [|q u] r0 q0 HL H0 H1 HT HU; try discriminate; cbn [diffs map map2 fold_left]; [reflexivity|].
  inversion HT; inversion HU; subst. injection HL as HL.
  rewrite dadd_same, (cadd_four d r0 q0 r q (length r0)) by auto. rewrite (IH u) by auto. rewrite !last_cons_any. reflexivity.
Qed.

Lemma map2_app {A B C} (f : A -> B -> C) l1 : forall k1 l2 k2, length l1 = length k1 ->
  map2 f (l1 ++ l2) (k1 ++ k2) = map2 f l1 k1 ++ map2 f l2 k2.
Proof. induction l1; intros [|k k1] l2 k2 H; try discriminate; cbn; f_equal; auto. Qed.
Lemma diffs_length d rs : forall prev, length (diffs d prev rs) = length rs.
Proof. induction rs; intros; cbn; auto. Qed.

Lemma Forall_last {A} (P : A -> Prop) l a : P a -> Forall P l -> P (last l a).
Proof. revert a. induction l as [|x l IH]; intros a Ha Hl; [exact Ha|]. rewrite last_cons_any. inversion Hl; auto. Qed.

(** sharing and reconstructing gives the secret back *)
Lemma share_reconstruct ring d v rs m : get_type_from_ring ring = Ok d -> d <> TBool -> rs <> [] ->
  length v = m -> typed TI64 v -> Forall (fun r => length r = m /\ typed d r) rs ->
  exists xs, d_share ring v rs = Ok xs /\ length xs = S (length rs) /\ d_reconstruct xs = (TI64, v).
Proof.
  intros E Hd Hrs LV TV HF. destruct rs as [|r0 t]; [congruence|]. inversion HF as [|? ? (L0 & T0) HF']; subst.
  unfold d_share. rewrite E. cbn [rbind]. rewrite generate_ok by auto. eexists. split; [reflexivity|]. split.
  { cbn [length]. rewrite app_length, map_length, diffs_length. cbn [length]. lia. }
  cbn [d_reconstruct]. rewrite dtype_eqb_bool by auto. rewrite fold_left_app.
  rewrite (sum_diffs d (length v)) by auto. cbn [fold_left].
  unfold dadd. cbn [fst snd]. rewrite promote_64'. f_equal.
  fold (cadd TI64 (last t r0) (csub TI64 v (last t r0))). apply (cadd_csub TI64 _ _ (length v)); auto; [discriminate|].
  apply (Forall_last (fun r => length r = length v)); auto. eapply Forall_impl; [|exact HF']. intros ? [HH _]; exact HH.
Qed.

(** adding two shared tensors *)
Lemma share_add ring d x y rs qs m : get_type_from_ring ring = Ok d -> d <> TBool -> rs <> [] -> length rs = length qs ->
  length x = m -> length y = m ->
  Forall (fun r => length r = m /\ typed d r) rs -> Forall (fun r => length r = m /\ typed d r) qs ->
  exists xs ys, d_share ring x rs = Ok xs /\ d_share ring y qs = Ok ys /\
    d_reconstruct (d_addp xs ys) =
    (TI64, cadd TI64 (cadd d (last rs []) (last qs [])) (cadd TI64 (csub TI64 x (last rs [])) (csub TI64 y (last qs [])))).
Proof.
  intros E Hd Hrs HL LX LY HF HG. destruct rs as [|r0 t]; [congruence|]. destruct qs as [|q0 u]; [discriminate|].
  injection HL as HL. inversion HF as [|? ? (L0 & T0) HF']; inversion HG as [|? ? (M0 & T1) HG']; subst.
  unfold d_share. rewrite E. cbn [rbind]. rewrite !generate_ok by auto. do 2 eexists. do 2 (split; [reflexivity|]).
  unfold d_addp. cbn [map2]. rewrite dadd_same, map2_app by (rewrite !map_length, !diffs_length; auto).
  rewrite add_diffs. cbn [d_reconstruct]. rewrite dtype_eqb_bool, fold_left_app by auto.
  rewrite (sum_diffs2 d (length x)); auto.
  2:{ eapply Forall_impl; [|exact HF']. intros ? [HH _]; exact HH. }
  2:{ eapply Forall_impl; [|exact HG']. intros ? [HH _]; exact HH. }
  cbn [map2 fold_left]. unfold dadd. cbn [fst snd]. rewrite promote_self, promote_64'. rewrite !last_cons_any. reflexivity.
Qed.

Lemma nth_cadd d a b e : (e < length a)%nat -> (e < length b)%nat -> nth e (cadd d a b) 0 = cast d (nth e a 0 + nth e b 0).
Proof. intros. unfold cadd. rewrite (nth_map2 _ 0 0 0); auto. Qed.
Lemma nth_csub d a b e : (e < length a)%nat -> (e < length b)%nat -> nth e (csub d a b) 0 = cast d (nth e a 0 - nth e b 0).
Proof. intros. unfold csub. rewrite (nth_map2 _ 0 0 0); auto. Qed.

Lemma bool_generate v r t : d_generate (TI64, v) (map (fun r => (TBool, r)) (r :: t)) = Err RuntimeError.
Proof. destruct t as [|q t]; reflexivity. Qed.
