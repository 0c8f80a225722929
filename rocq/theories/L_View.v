(** The model's shape methods compute the specified values. *)
From Verif Require Import Util Modular S_Ring S_Tensor S_Bil S_View M_Torch M_Tensor M_Share L_Torch L_Tensor L_Share.
Local Open Scope Z_scope.

Lemma s_lin_single ix v : vec_in R64 v -> s_lin R64 (map (fun i => [i]) ix) v = map (fun i => nth i v 0) ix.
Proof.
  intros H. unfold s_lin. rewrite map_map. apply map_ext. intros i. cbn [map zsum]. rewrite Z.add_0_r.
  apply (nth_in_ring R64 supR v i H).
Qed.

Lemma s_lin_single' {A} (g : A -> nat) l v : vec_in R64 v ->
  s_lin R64 (map (fun e => [g e]) l) v = map (fun e => nth (g e) v 0) l.
Proof. intros H. rewrite <- (map_map g (fun i => [i])), s_lin_single, map_map by auto. reflexivity. Qed.

Lemma nth_firstn' {A} (l : list A) d n i : (i < n)%nat -> nth i (firstn n l) d = nth i l d.
Proof.
  revert l i. induction n as [|n IH]; intros l i H; [lia|].
  destruct l as [|a l]; [destruct i; reflexivity|]. destruct i; cbn; auto. apply IH. lia.
Qed.
Lemma nth_skipn' {A} (l : list A) d n i : nth i (skipn n l) d = nth (n + i) l d.
Proof.
  revert l. induction n as [|n IH]; intros l; [reflexivity|]. destruct l; [destruct i; reflexivity|]. cbn. apply IH.
Qed.

Lemma swap_exchange a b l : (a < length l)%nat -> (b < length l)%nat -> swap_nth a b l = exchange a b l.
Proof.
  intros Ha Hb. unfold swap_nth, exchange. apply (nth_ext_len 0%nat).
  - rewrite !set_nth_length, map_length, seq_length. reflexivity.
  - intros i Hi. rewrite !set_nth_length in Hi.
    rewrite (nth_map_in _ 0%nat) by (rewrite seq_length; auto). rewrite seq_nth by auto. cbn [Nat.add].
    rewrite (nth_set_nth 0%nat) by (rewrite set_nth_length; auto).
    destruct (Nat.eqb_spec i a) as [->|Ea]; [reflexivity|].
    rewrite (nth_set_nth 0%nat) by auto. destruct (Nat.eqb i b); reflexivity.
Qed.

Lemma unravel_length sh e : length (unravel sh e) = length sh.
Proof. revert e. induction sh as [|d sh IH]; intros e; cbn [unravel length]; auto. Qed.

Lemma concat_repeat_nth {A} (d : A) v k i : (0 < length v)%nat -> (i < k * length v)%nat ->
  nth i (concat (repeat v k)) d = nth (i mod length v) v d.
Proof.
  intros Hv. revert i. induction k as [|k IH]; intros i Hi; [lia|]. cbn [repeat concat].
  destruct (Nat.lt_ge_cases i (length v)) as [H|H].
  - rewrite app_nth1 by auto. rewrite Nat.mod_small by auto. reflexivity.
  - rewrite app_nth2 by auto. rewrite IH by lia. f_equal.
    replace i with (i - length v + 1 * length v)%nat at 2 by lia. rewrite Nat.mod_add by lia. reflexivity.
Qed.
Lemma concat_repeat_length {A} (v : list A) k : length (concat (repeat v k)) = (k * length v)%nat.
Proof. induction k; cbn [repeat concat]; auto. rewrite app_length, IHk. reflexivity. Qed.

Lemma set_nth_split {A} d (x : A) l : (d < length l)%nat -> set_nth d x l = firstn d l ++ x :: skipn (S d) l.
Proof.
  revert l. induction d as [|d IH]; intros [|a l] H; cbn in H; try lia; [reflexivity|].
  cbn [set_nth firstn skipn app]. rewrite IH by lia. reflexivity.
Qed.

Theorem view_spec m s so f v : viewed m s so f -> length v = numel s -> vec_in (2^64) v ->
  tview (2^64) m (mkT s v) = Ok (mkT so (f v)).
Proof.
  intros H HL HV. change (2^64) with R64 in *. unfold tview. cbn [tsh tdat].
  destruct H as [m n|a b s Ha Hb|s so Hs|k n r|start len n r Hr|k n r Hk|s|d s Hd|k s Hk|d s Hd|s]; cbn [view_index].
  - cbn [rbind fst snd]. do 2 f_equal. rewrite rlin_spec, s_lin_single' by auto.
    unfold tabulate. cbn [numel fold_right]. rewrite !Nat.mul_1_r. apply map_ext. intros e.
    cbn [unravel numel fold_right]. rewrite !Nat.mul_1_r, !Nat.div_1_r.
    unfold elt, ravel. cbn [numel fold_right]. f_equal. lia.
  - replace (Nat.ltb a (length s) && Nat.ltb b (length s))%bool with true.
    2:{ symmetry. apply andb_true_iff. rewrite !Nat.ltb_lt. auto. }
    cbn [rbind fst snd]. rewrite (swap_exchange a b s) by auto. do 2 f_equal.
    rewrite rlin_spec, s_lin_single' by auto. unfold tabulate, elt. apply map_ext. intros e.
    rewrite swap_exchange; auto; rewrite unravel_length; unfold exchange; rewrite map_length, seq_length; auto.
  - rewrite Hs, Nat.eqb_refl. cbn [rbind fst snd]. do 2 f_equal. rewrite rlin_spec, s_lin_single by auto.
    rewrite <- HL. apply map_nth_seq.
  - cbn [rbind fst snd]. do 2 f_equal. rewrite rlin_spec, s_lin_single' by auto.
    cbn [numel fold_right] in HL. fold (numel r) in HL. rewrite <- Nat.mul_assoc, <- HL.
    apply (nth_ext_len 0).
    + rewrite map_length, seq_length, concat_repeat_length. reflexivity.
    + intros i Hi. rewrite map_length, seq_length in Hi. rewrite (nth_map_in _ 0%nat) by (rewrite seq_length; auto).
      rewrite seq_nth by auto. cbn [Nat.add]. rewrite concat_repeat_nth; auto. destruct (length v); lia.
  - replace (Nat.leb (start + len) n) with true by (symmetry; apply Nat.leb_le; auto).
    cbn [rbind fst snd]. do 2 f_equal. rewrite rlin_spec, s_lin_single' by auto.
    cbn [numel fold_right] in HL. fold (numel r) in HL.
    apply (nth_ext_len 0).
    + rewrite map_length, seq_length, firstn_length, skipn_length. nia.
    + intros i Hi. rewrite map_length, seq_length in Hi. rewrite (nth_map_in _ 0%nat) by (rewrite seq_length; auto).
      rewrite seq_nth by auto. cbn [Nat.add]. rewrite nth_firstn', nth_skipn' by auto. reflexivity.
  - cbn [rbind fst snd]. do 2 f_equal. rewrite rlin_spec, s_lin_single' by auto.
    cbn [numel fold_right] in HL. fold (numel r) in HL.
    apply (nth_ext_len 0).
    + rewrite map_length, seq_length, app_length, firstn_length, skipn_length. nia.
    + intros i Hi. rewrite map_length, seq_length in Hi. rewrite (nth_map_in _ 0%nat) by (rewrite seq_length; auto).
      rewrite seq_nth by auto. cbn [Nat.add]. rewrite (Nat.mod_small k n) by auto.
      assert (R0 : (0 < numel r)%nat) by nia.
      pose proof (Nat.div_mod i (numel r) ltac:(lia)) as D. pose proof (Nat.mod_upper_bound i (numel r) ltac:(lia)) as M.
      set (q := (i / numel r)%nat) in *. set (c := (i mod numel r)%nat) in *.
      assert (Q : (q < n)%nat) by nia.
      assert (LS : length (skipn ((n - k) * numel r) v) = (k * numel r)%nat) by (rewrite skipn_length; nia).
      destruct (Nat.lt_ge_cases q k) as [C|C].
      * rewrite app_nth1 by (rewrite LS; nia). rewrite nth_skipn'.
        rewrite Nat.mod_small by lia. f_equal. nia.
      * rewrite app_nth2 by (rewrite LS; nia). rewrite LS. rewrite nth_firstn' by nia.
        replace (q + (n - k))%nat with (q - k + 1 * n)%nat by lia. rewrite Nat.mod_add by lia.
        rewrite Nat.mod_small by lia. f_equal. nia.
  - cbn [rbind fst snd]. do 2 f_equal. rewrite rlin_spec by auto. unfold s_lin. cbn [map]. do 2 f_equal.
    f_equal. rewrite <- HL. apply map_nth_seq.
  - rewrite (nth_error_nth' s 0%nat) by auto. cbn [rbind fst snd]. fold (remove_at d s). do 2 f_equal.
    rewrite rlin_spec by auto. unfold s_lin, tabulate. rewrite map_map. apply map_ext. intros e.
    f_equal. rewrite map_map. reflexivity.
  - replace (Nat.leb k (length s)) with true by (symmetry; apply Nat.leb_le; auto). cbn [rbind fst snd]. do 2 f_equal.
    rewrite rlin_spec by auto. unfold s_lin, tabulate. rewrite map_map. apply map_ext. intros e.
    f_equal. rewrite map_map. reflexivity.
  - rewrite (nth_error_nth' s 0%nat) by auto. cbn [rbind fst snd]. rewrite (set_nth_split d 1%nat s) by auto. do 2 f_equal.
    rewrite rlin_spec by auto. unfold s_lin, tabulate. rewrite map_map. apply map_ext. intros e.
    f_equal. rewrite map_map. unfold sumn. f_equal. apply map_ext. intros k. rewrite set_nth_split; [reflexivity|].
    rewrite unravel_length, app_length. cbn [length]. rewrite firstn_length. lia.
  - cbn [rbind fst snd]. do 2 f_equal. rewrite rlin_spec, s_lin_single by auto. rewrite <- HL. apply map_nth_seq.
Qed.
