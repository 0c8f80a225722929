(** Lemmas on the reduction of gradients of broadcast operands. *)
From Verif Require Import Util Modular S_Ring S_Tensor S_Bil S_View M_Encoder M_Torch L_Torch M_Tensor L_Tensor M_Share L_Share L_View M_Grad.
Local Open Scope Z_scope.

(* ------------------------------------------------------------ finite sums *)
Lemma sumn_ext n f g : (forall i, (i < n)%nat -> f i = g i) -> sumn n f = sumn n g.
Proof. intros H. unfold sumn. apply zsum_ext. intros i Hi. apply in_seq in Hi. apply H. lia. Qed.
Lemma sumn_eqmod N n f g : (forall i, (i < n)%nat -> f i == g i [mod N]) -> sumn n f == sumn n g [mod N].
Proof. intros H. unfold sumn. apply zsum_eqmod. intros i Hi. apply in_seq in Hi. apply H. lia. Qed.
Lemma sumn_swap n m (f : nat -> nat -> Z) : sumn n (fun i => sumn m (f i)) = sumn m (fun j => sumn n (fun i => f i j)).
Proof. unfold sumn. apply (zsum_exchange f). Qed.
Lemma sumn_scale n c f : sumn n (fun i => c * f i) = c * sumn n f.
Proof. unfold sumn. apply zsum_map_mul_l. Qed.
Lemma sumn_add a b f : sumn (a + b) f = sumn a f + sumn b (fun j => f (a + j)%nat).
Proof. unfold sumn. rewrite seq_app, map_app, zsum_app. cbn [plus]. rewrite (map_seq_shift f b a). reflexivity. Qed.
Lemma sumn_1 f : sumn 1 f = f 0%nat.
Proof. unfold sumn. cbn [seq map zsum]. apply Z.add_0_r. Qed.
Lemma sumn_mul a b f : sumn (a * b) f = sumn a (fun i => sumn b (fun j => f (i * b + j)%nat)).
Proof.
  revert f. induction a as [|a IH]; intros f; [reflexivity|].
  replace (S a * b)%nat with (a * b + b)%nat by lia. rewrite sumn_add, IH.
  replace (S a) with (a + 1)%nat by lia. rewrite sumn_add, sumn_1. f_equal.
  apply sumn_ext. intros j _. f_equal. lia.
Qed.
Lemma zsum_map2_mul a : forall b n, length a = n -> length b = n -> zsum (map2 Z.mul a b) = sumn n (fun i => nth i a 0 * nth i b 0).
Proof.
  induction a as [|x a IH]; intros b n La Lb; subst; destruct b as [|y b]; try discriminate; [reflexivity|].
  cbn [length] in *. cbn [map2 zsum]. rewrite (IH b (length a)) by lia. change (S (length a)) with (1 + length a)%nat. rewrite sumn_add, sumn_1. reflexivity.
Qed.

(* ------------------------------------------------------------ positions *)
Lemma unravel_step n s k e : (e < numel s)%nat -> unravel (n :: s) (k * numel s + e) = k :: unravel s e.
Proof.
  intros H. cbn [unravel]. rewrite Nat.div_add_l by lia. rewrite Nat.div_small by lia. rewrite Nat.add_0_r. f_equal. f_equal.
  rewrite Nat.add_comm, Nat.mod_add by lia. apply Nat.mod_small. auto.
Qed.
Lemma numel_cons n s : numel (n :: s) = (n * numel s)%nat.
Proof. reflexivity. Qed.

Lemma ravel_app a : forall b ia ib, length ia = length a -> ravel (a ++ b) (ia ++ ib) = (ravel a ia * numel b + ravel b ib)%nat.
Proof.
  induction a as [|n a IH]; intros b [|i ia] ib H; cbn in H; try discriminate; [reflexivity|].
  cbn [app ravel]. rewrite IH by lia. rewrite numel_app. lia.
Qed.
Lemma ravel_unravel_id sh : forall e, (e < numel sh)%nat -> ravel sh (unravel sh e) = e.
Proof.
  induction sh as [|n sh IH]; intros e H; cbn [ravel unravel]; [cbn in H; lia|].
  rewrite numel_cons in H. assert (0 < numel sh)%nat by nia. rewrite IH by (apply Nat.mod_upper_bound; lia).
  pose proof (Nat.div_mod e (numel sh) ltac:(lia)). lia.
Qed.
Lemma unravel_app a : forall b p e, (p < numel a)%nat -> (e < numel b)%nat -> unravel (a ++ b) (p * numel b + e) = unravel a p ++ unravel b e.
Proof.
  induction a as [|n a IH]; intros b p e Hp He.
  - cbn in Hp. assert (p = 0%nat) by lia. subst. reflexivity.
  - cbn [app]. rewrite numel_cons in Hp. assert (0 < numel a)%nat by nia.
    pose proof (Nat.div_mod p (numel a) ltac:(lia)) as D. pose proof (Nat.mod_upper_bound p (numel a) ltac:(lia)) as M.
    set (k := (p / numel a)%nat) in *. set (r := (p mod numel a)%nat) in *.
    replace (p * numel b + e)%nat with (k * numel (a ++ b) + (r * numel b + e))%nat by (rewrite numel_app; nia).
    rewrite unravel_step by (rewrite numel_app; nia). rewrite IH by auto.
    replace p with (k * numel a + r)%nat by lia. rewrite unravel_step by auto. reflexivity.
Qed.

(** the element of a broadcast operand seen at flat position [e], equal numbers of dimensions *)
Definition pos (w s : list nat) (e : nat) : nat :=
  ravel w (map2 (fun d i => if Nat.eqb d 1 then 0%nat else i) w (unravel s e)).

Lemma pos_step m w n s k e : (e < numel s)%nat -> pos (m :: w) (n :: s) (k * numel s + e) = ((if Nat.eqb m 1 then 0 else k) * numel w + pos w s e)%nat.
Proof. intros H. unfold pos. rewrite unravel_step by auto. cbn [map2 ravel]. reflexivity. Qed.

Lemma set_nth_app_at {A} (pre : list A) x y post : set_nth (length pre) x (pre ++ y :: post) = pre ++ x :: post.
Proof. induction pre as [|a pre IH]; cbn [length app set_nth]; [reflexivity|]. rewrite IH. reflexivity. Qed.

(* ------------------------------------------------------------ the two sums *)
Lemma rlin_at ix v i : vec_in R64 v -> (i < length ix)%nat ->
  nth i (rlin R64 ix v) 0 == zsum (map (fun j => nth j v 0) (nth i ix [])) [mod R64].
Proof.
  intros HV Hi. rewrite rlin_spec by auto. unfold s_lin. rewrite (nth_map_in _ []) by auto.
  apply to_ring_eqmod. reflexivity.
Qed.

(** sum over one dimension, kept *)
Lemma keep_spec pre n post g : length g = numel (pre ++ n :: post) -> vec_in R64 g ->
  exists g', tview R64 (VSumKeep (length pre)) (mkT (pre ++ n :: post) g) = Ok (mkT (pre ++ 1%nat :: post) g') /\
    forall p q, (p < numel pre)%nat -> (q < numel post)%nat ->
      nth (p * numel post + q) g' 0 == sumn n (fun k => nth ((p * n + k) * numel post + q)%nat g 0) [mod R64].
Proof.
  intros HL HV. unfold tview. cbn [tsh tdat view_index].
  rewrite nth_error_app2, Nat.sub_diag by lia. cbn [nth_error]. rewrite set_nth_app_at. cbn [rbind fst snd].
  eexists. split; [reflexivity|]. intros p q Hp Hq.
  assert (HE : (p * numel post + q < numel (pre ++ 1%nat :: post))%nat) by (rewrite numel_app, numel_cons; nia).
  rewrite rlin_at by (auto; rewrite map_length, seq_length; auto).
  rewrite (nth_map_in _ 0%nat) by (rewrite seq_length; auto). rewrite nth_seq_lt by auto. cbn [plus]. rewrite map_map.
  apply eqmod_eq. unfold sumn. f_equal. apply map_ext_in. intros k Hk. apply in_seq in Hk. f_equal.
  replace (p * numel post + q)%nat with (p * numel (1%nat :: post) + (0 * numel post + q))%nat by (rewrite numel_cons; nia).
  rewrite unravel_app by (auto; rewrite numel_cons; nia). rewrite unravel_step by auto.
  replace (length pre) with (length (unravel pre p)) at 1 by apply unravel_length. rewrite set_nth_app_at.
  rewrite ravel_app by apply unravel_length. cbn [ravel]. rewrite !ravel_unravel_id by auto. rewrite numel_cons. nia.
Qed.

(** sum over the first dimensions *)
Lemma first_spec pre post g : length g = numel (pre ++ post) -> vec_in R64 g ->
  exists g', tview R64 (VSumFirst (length pre)) (mkT (pre ++ post) g) = Ok (mkT post g') /\
    forall q, (q < numel post)%nat -> nth q g' 0 == sumn (numel pre) (fun p => nth (p * numel post + q)%nat g 0) [mod R64].
Proof.
  intros HL HV. unfold tview. cbn [tsh tdat view_index].
  replace (Nat.leb (length pre) (length (pre ++ post))) with true by (symmetry; apply Nat.leb_le; rewrite app_length; lia).
  assert (ES : skipn (length pre) (pre ++ post) = post) by (rewrite skipn_app, skipn_all, Nat.sub_diag; reflexivity).
  assert (EF : firstn (length pre) (pre ++ post) = pre) by (rewrite firstn_app, firstn_all, Nat.sub_diag; cbn; apply app_nil_r).
  rewrite ES, EF. cbn [rbind fst snd]. eexists. split; [reflexivity|]. intros q Hq.
  rewrite rlin_at by (auto; rewrite map_length, seq_length; auto).
  rewrite (nth_map_in _ 0%nat) by (rewrite seq_length; auto). rewrite nth_seq_lt by auto. cbn [plus]. rewrite map_map.
  apply eqmod_eq. unfold sumn. f_equal. apply map_ext_in. intros k Hk. apply in_seq in Hk. f_equal.
  rewrite ravel_app by apply unravel_length. rewrite !ravel_unravel_id by (auto; lia). reflexivity.
Qed.

(* ------------------------------------------------------------ the loop *)
(** [w] broadcasts to [s], dimension by dimension; no dimension 1 against an empty one *)
Definition fits1 (w s : list nat) : Prop := Forall2 (fun m n => m = n \/ (m = 1 /\ 1 < n)%nat) w s.

Lemma rb_loop_ok w s : fits1 w s -> forall pre x g, m_shape x = pre ++ s -> shared R64 (pre ++ s) g (m_shares x) ->
  exists r t, rb_loop (seq (length pre) (length s)) (pre ++ w) x = Ok r /\ m_sid r = m_sid x /\ m_shape r = pre ++ w /\
    length (m_shares r) = length (m_shares x) /\ shared R64 (pre ++ w) t (m_shares r) /\
    forall y, sumn (numel pre) (fun p => sumn (numel s) (fun e => nth (p * numel w + pos w s e) y 0 * nth (p * numel s + e) g 0)) ==
              sumn (numel pre * numel w) (fun i => nth i y 0 * nth i t 0) [mod R64].
Proof.
  intros HF. induction HF as [|m n w s HD HF IH]; intros pre x g HM HS.
  - exists x, g. cbn [length seq rb_loop]. repeat (split; auto). intros y. apply eqmod_eq. rewrite sumn_mul.
    apply sumn_ext. intros p _. unfold sumn. cbn [numel fold_right seq map zsum]. unfold pos. cbn [unravel map2 ravel]. rewrite !Nat.add_0_r. reflexivity.
  - cbn [length seq rb_loop].
    assert (E1 : get_nth (pre ++ m :: w) (length pre) = Ok m).
    { unfold get_nth. rewrite nth_error_app2, Nat.sub_diag by lia. reflexivity. }
    assert (E2 : get_nth (m_shape x) (length pre) = Ok n).
    { rewrite HM. unfold get_nth. rewrite nth_error_app2, Nat.sub_diag by lia. reflexivity. }
    rewrite E1, E2. cbn [rbind].
    destruct (shared_vals R64 supR _ _ _ HS) as (GL & GV & _).
    destruct (Nat.eqb m 1 && Nat.ltb 1 n)%bool eqn:EB.
    + apply andb_true_iff in EB. destruct EB as [B1 B2]. apply Nat.eqb_eq in B1. apply Nat.ltb_lt in B2. subst m.
      destruct (keep_spec pre n s g GL GV) as (g' & EV & HG').
      rewrite <- HM in HS, EV.
      destruct (mpc_view_commutes _ _ _ _ HS EV) as (x' & EX & X1 & X2 & X3 & X4 & X5). rewrite EX. cbn [rbind tsh tdat] in *.
      destruct (IH (pre ++ [1%nat]) x' g') as (r & t & R1 & R2 & R3 & R4 & R5 & R6).
      { rewrite X2, <- app_assoc. reflexivity. }
      { rewrite <- app_assoc. exact X4. }
      rewrite app_length, <- !app_assoc in *. cbn [length app] in *. rewrite Nat.add_1_r in R1.
      exists r, t. split; [exact R1|]. split; [congruence|]. split; [exact R3|]. split; [congruence|]. split; [exact R5|].
      intros y. specialize (R6 y). rewrite numel_app in R6. cbn [numel fold_right] in R6. change (fold_right Nat.mul 1%nat w) with (numel w) in *. rewrite !Nat.mul_1_r in R6.
      rewrite (numel_cons 1 w), Nat.mul_1_l. rewrite <- R6. apply sumn_eqmod. intros p Hp.
      rewrite numel_cons, sumn_mul.
      etransitivity; [apply eqmod_eq, sumn_swap|]. apply sumn_eqmod. intros e He.
      rewrite (HG' p e Hp He), <- sumn_scale. apply eqmod_eq. apply sumn_ext. intros k Hk.
      rewrite pos_step by auto. cbn [Nat.eqb]. f_equal; f_equal; nia.
    + assert (m = n).
      { destruct HD as [|[D1 D2]]; auto. subst m. apply Nat.ltb_lt in D2. rewrite D2 in EB. discriminate. }
      subst m.
      destruct (IH (pre ++ [n]) x g) as (r & t & R1 & R2 & R3 & R4 & R5 & R6).
      { rewrite <- app_assoc. exact HM. }
      { rewrite <- app_assoc. exact HS. }
      rewrite app_length, <- !app_assoc in *. cbn [length app] in *. rewrite Nat.add_1_r in R1.
      exists r, t. split; [exact R1|]. split; [exact R2|]. split; [exact R3|]. split; [exact R4|]. split; [exact R5|].
      intros y. specialize (R6 y). rewrite numel_app in R6. cbn [numel fold_right] in R6. change (fold_right Nat.mul 1%nat w) with (numel w) in *. rewrite !Nat.mul_1_r in R6.
      rewrite (numel_cons n w), Nat.mul_assoc. rewrite <- R6. apply eqmod_eq. rewrite sumn_mul. apply sumn_ext. intros p Hp.
      rewrite numel_cons, sumn_mul. apply sumn_ext. intros k Hk. apply sumn_ext. intros e He.
      rewrite pos_step by auto.
      assert (K : (if Nat.eqb n 1 then 0%nat else k) = k) by (destruct (Nat.eqb_spec n 1); lia). rewrite K.
      f_equal; f_equal; nia.
Qed.
