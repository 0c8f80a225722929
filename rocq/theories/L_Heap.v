(** Lemmas about the store of shares. *)
From Verif Require Import Util S_Ring S_Tensor M_Torch M_Encoder M_Tensor M_Share M_Spdz M_Heap S_Heap.
Local Open Scope Z_scope.

Lemma deref_app h h' x : exists_in h x -> deref (h ++ h') x = deref h x.
Proof.
  intros H. unfold deref. f_equal. apply map_ext_in. intros a Ha. apply app_nth1.
  unfold exists_in in H. rewrite Forall_forall in H. auto.
Qed.

Lemma write_all_length addrs : forall h ts, length (write_all h addrs ts) = length h.
Proof.
  induction addrs as [|a r IH]; intros h [|t u]; cbn [write_all]; auto. rewrite IH, set_nth_length. reflexivity.
Qed.

Lemma set_nth_out {A} n (x : A) l : (length l <= n)%nat -> set_nth n x l = l.
Proof. revert l. induction n as [|n IH]; intros [|a l] H; cbn in *; auto; [lia|]. f_equal. apply IH. lia. Qed.

Lemma nth_set_nth_other {A} (d : A) n x l i : i <> n -> nth i (set_nth n x l) d = nth i l d.
Proof.
  intros H. destruct (Nat.lt_ge_cases n (length l)) as [L|L].
  - rewrite nth_set_nth by auto. destruct (Nat.eqb_spec i n); [congruence|reflexivity].
  - rewrite set_nth_out by auto. reflexivity.
Qed.

Lemma write_all_other addrs : forall h ts i, ~ In i addrs -> nth i (write_all h addrs ts) (mkT [] []) = nth i h (mkT [] []).
Proof.
  induction addrs as [|a r IH]; intros h [|t u] i H; cbn [write_all]; auto.
  rewrite IH by (intros N; apply H; simpl; auto). apply nth_set_nth_other. intros ->. apply H. simpl. auto.
Qed.

Lemma write_all_read addrs : forall h ts, NoDup addrs -> Forall (fun a => (a < length h)%nat) addrs ->
  length ts = length addrs -> map (fun a => nth a (write_all h addrs ts) (mkT [] [])) addrs = ts.
Proof.
  induction addrs as [|a r IH]; intros h [|t u] HD HF HL; try discriminate HL; auto.
  inversion HD as [|? ? Hna HD']; subst. inversion HF as [|? ? Ha HF']; subst.
  cbn [write_all map]. f_equal.
  - rewrite write_all_other by auto. rewrite nth_set_nth by auto. rewrite Nat.eqb_refl. reflexivity.
  - apply IH; auto. rewrite set_nth_length. auto.
Qed.

Lemma step_unchanged s h op h' z o : h_step s h op = Ok (h', z) ->
  (divides op = true -> s_n s = 2%nat) -> exists_in h o -> deref h' o = deref h o.
Proof.
  intros H HD HO.
  assert (AL : forall m, (h', z) = alloc h m -> deref h' o = deref h o).
  { intros m E. injection E as -> _. apply deref_app; auto. }
  assert (AF : forall x m h1 t, (h1, t) = alloc_first h x m -> exists ext, h1 = h ++ ext).
  { intros x m h1 t E. unfold alloc_first in E. destruct (m_shares m); injection E as -> ->; [exists []; rewrite app_nil_r; auto|eauto]. }
  destruct op as [o' x y|o' x y|y x prim|op x y ts prim|op x y prim|x y prim|v x|x y prim]; cbn [h_step] in H.
  - destruct (mpc_lin o' (deref h x) (deref h y)) as [m|]; cbn [rbind] in H; [|discriminate]. apply (AL m); congruence.
  - destruct (mpc_lin_public s o' (deref h x) y) as [m|]; cbn [rbind] in H; [|discriminate].
    assert (E : (h', z) = alloc_first h x m) by congruence.
    destruct (AF _ _ _ _ E) as [ext ->]. apply deref_app; auto.
  - destruct (mpc_lin_public s LSub (deref h x) y) as [m|]; cbn [rbind] in H; [|discriminate].
    destruct (alloc_first h x m) as [h1 t] eqn:E. destruct (AF _ _ _ _ (eq_sym E)) as [ext ->].
    destruct (mpc_bil_public s BMul _ _ prim) as [m2|]; cbn [rbind] in H; [|discriminate].
    injection H as <- _. rewrite <- app_assoc. apply deref_app; auto.
  - destruct (mpc_bil s op (deref h x) (deref h y) ts prim) as [m|]; cbn [rbind] in H; [|discriminate]. apply (AL m); congruence.
  - destruct (mpc_bil_public s op (deref h x) y prim) as [m|]; cbn [rbind] in H; [|discriminate]. apply (AL m); congruence.
  - destruct (mpc_rmatmul s (deref h x) y prim) as [m|]; cbn [rbind] in H; [|discriminate]. apply (AL m); congruence.
  - destruct (mpc_view v (deref h x)) as [m|]; cbn [rbind] in H; [|discriminate]. apply (AL m); congruence.
  - destruct (public_divide s (deref h x) y prim) as [r|]; cbn [rbind] in H; [|discriminate].
    rewrite (HD eq_refl) in H. cbn [Nat.eqb] in H. apply (AL (fst r)); congruence.
Qed.

Lemma div_effect s h x y prim h' z : h_step s h (HDiv x y prim) = Ok (h', z) -> s_n s <> 2%nat ->
  exists m xs', public_divide s (deref h x) y prim = Ok (m, xs') /\
    (forall o, exists_in h o -> (forall a, In a (o_addr o) -> ~ In a (o_addr x)) -> deref h' o = deref h o) /\
    (NoDup (o_addr x) -> exists_in h x -> length xs' = length (o_addr x) ->
       deref h' x = mkM (o_sid x) (o_shape x) xs').
Proof.
  intros H Hn. cbn [h_step] in H.
  destruct (public_divide s (deref h x) y prim) as [[m xs']|] eqn:E; cbn [rbind fst snd] in H; [|discriminate].
  destruct (Nat.eqb_spec (s_n s) 2); [congruence|]. exists m, xs'. split; [reflexivity|].
  assert (EH : exists ext, h' = write_all h (o_addr x) xs' ++ ext).
  { unfold alloc_first in H. destruct (m_shares m); injection H as <- _; [exists []; rewrite app_nil_r; auto|eauto]. }
  destruct EH as [ext ->]. split.
  - intros o HO HS. rewrite deref_app by (unfold exists_in; rewrite write_all_length; exact HO).
    unfold deref. f_equal. apply map_ext_in. intros a Ha. apply write_all_other. auto.
  - intros HN HX HL. rewrite deref_app by (unfold exists_in; rewrite write_all_length; exact HX).
    unfold deref. rewrite write_all_read; auto.
Qed.
