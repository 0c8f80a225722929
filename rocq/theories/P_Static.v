(** C41: stack and cat.  Specification: S_Static ([is_stack], [is_cat]: position by position). *)
From Verif Require Import Util S_Ring S_Tensor S_Static S_Rep S_RepT M_Encoder M_Torch L_Torch M_Tensor L_Tensor M_Share L_Share M_Rep L_RShare L_Rep L_Rep2 L_Rep3 L_Rep4 L_Rep5 L_Rep6 L_Rep7
  M_Static L_Static P_Rep.
Local Open Scope Z_scope.

(** [x] is a tensor of the session: every party holds one share of [v] *)
Definition held (s : sess) (sh : list nat) (v : list Z) (x : mpc) : Prop :=
  m_shape x = sh /\ length (m_shares x) = s_n s /\ shared R64 sh v (m_shares x).

Lemma held_sharings s shs vs xs : Forall2 (fun p x => held s (fst p) (snd p) x) (combine shs vs) xs -> length shs = length vs ->
  sharings R64 (s_n s) shs vs (map m_shares xs) /\ map m_shape xs = shs.
Proof.
  revert vs xs. induction shs as [|sh shs IH]; intros [|v vs] xs H L; cbn in L; try discriminate; cbn [combine] in H.
  - inversion H. split; [split; [constructor|reflexivity]|reflexivity].
  - inversion H as [|p x ps xs' (A & B & C) H']; subst. cbn [fst snd] in *. destruct (IH vs xs' H' ltac:(lia)) as [[D E] F]. split.
    + split; [|cbn; lia]. cbn. constructor; auto.
    + cbn. congruence.
Qed.

Lemma combine_repeat (sh : list nat) (vs : list (list Z)) xs s : Forall2 (held s sh) vs xs ->
  Forall2 (fun p x => held s (fst p) (snd p) x) (combine (repeat sh (length vs)) vs) xs.
Proof. intros H. induction H; cbn; constructor; auto. Qed.

Lemma combine_sizes (f : nat -> list nat) ns vs xs s : Forall2 (fun p x => held s (f (fst p)) (snd p) x) (combine ns vs) xs ->
  Forall2 (fun p x => held s (fst p) (snd p) x) (combine (map f ns) vs) xs.
Proof.
  revert vs xs. induction ns as [|n ns IH]; intros [|v vs] xs H; cbn in *; inversion H; subst; constructor; auto.
Qed.

(** stack on the shares: along dimension 0 whatever the requested dimension *)
Theorem C41_stack_any_dim : forall s pre post vs xs, (0 < s_n s)%nat -> vs <> [] -> Forall2 (held s (pre ++ post)) vs xs ->
  exists r t, mpc_stack s (Z.of_nat (length pre)) xs = Ok r /\ m_shape r = pre ++ length vs :: post /\ m_sid r = s_id s /\
    length (m_shares r) = s_n s /\ reconstruct r = Ok t /\ is_stack [] (pre ++ post) vs t.
Proof.
  intros s pre post vs xs Hn Hv H. set (sh := pre ++ post) in *.
  destruct (held_sharings s (repeat sh (length vs)) vs xs (combine_repeat _ _ _ _ H)) as [HJ HM]; [apply repeat_length|].
  destruct (join_shared R64 (s_n s) (length vs :: sh) _ _ _ torch_stack HJ Hn) as (rs & E & L & HS & _).
  { replace (map numel (repeat sh (length vs))) with (repeat (numel sh) (length vs)) by (clear; induction vs; cbn; f_equal; auto).
    rewrite list_sum_repeat. reflexivity. }
  { intros ts Ht. unfold torch_stack. rewrite Ht, stack_shape0 by (destruct vs; [congruence|cbn; lia]). reflexivity. }
  exists (mkM (s_id s) (pre ++ length vs :: post) rs), (mkT (length vs :: sh) (concat vs)).
  split.
  - unfold mpc_stack. destruct xs as [|x xs]; [inversion H; subst; congruence|].
    rewrite columns_ok by (eapply sharings_lengths; exact HJ). rewrite rmap_map, E. cbn [rbind]. rewrite HM. unfold sh.
    rewrite stack_shape_at by (destruct vs; [congruence|cbn; lia]). reflexivity.
  - split; [reflexivity|]. split; [reflexivity|]. split; [exact L|]. split.
    + apply (shared_tsum R64 supR). exact HS.
    + apply stack0_is_stack. clear -H. induction H as [|v x vs xs (_ & _ & HS) _ IH]; constructor; auto.
      apply (shared_vals R64 supR) in HS. apply HS.
Qed.
Print Assumptions C41_stack_any_dim.

(** hence right along dimension 0 *)
Theorem C41_stack_partial : forall s sh vs xs, (0 < s_n s)%nat -> vs <> [] -> Forall2 (held s sh) vs xs ->
  exists r t, mpc_stack s 0 xs = Ok r /\ reconstruct r = Ok t /\ is_stack [] sh vs t /\ m_shape r = tsh t.
Proof.
  intros s sh vs xs Hn Hv H. destruct (C41_stack_any_dim s [] sh vs xs Hn Hv H) as (r & t & A & B & _ & _ & C & D).
  exists r, t. split; [exact A|]. split; [exact C|]. split; [exact D|]. destruct D as (D & _). rewrite B, D. reflexivity.
Qed.
Print Assumptions C41_stack_partial.

(** cat along dimension 0, tensors of any sizes along it *)
Theorem C41_cat_partial : forall s post ns vs xs, (0 < s_n s)%nat -> ns <> [] -> length ns = length vs ->
  Forall2 (fun p x => held s (fst p :: post) (snd p) x) (combine ns vs) xs ->
  exists r t, mpc_cat s 0 xs = Ok r /\ reconstruct r = Ok t /\ is_cat [] post ns vs t /\ m_shape r = tsh t.
Proof.
  intros s post ns vs xs Hn Hne HL H.
  destruct (held_sharings s (map (fun n => n :: post) ns) vs xs) as [HJ HM]; [apply combine_sizes; auto|rewrite map_length; auto|].
  destruct (join_shared R64 (s_n s) (list_sum ns :: post) _ _ _ torch_cat HJ Hn) as (rs & E & L & HS & _).
  { rewrite map_map. change (fun x => numel (x :: post)) with (fun x => (x * numel post)%nat). rewrite list_sum_map_mul. reflexivity. }
  { intros ts Ht. unfold torch_cat. rewrite Ht, cat_shape0 by auto. reflexivity. }
  exists (mkM (s_id s) (list_sum ns :: post) rs), (mkT (list_sum ns :: post) (concat vs)).
  split; [|split; [|split; [|reflexivity]]].
  - unfold mpc_cat. destruct xs as [|x xs].
    { destruct ns, vs; cbn in HL; try congruence. inversion H. }
    rewrite columns_ok by (eapply sharings_lengths; exact HJ). rewrite rmap_map, E. cbn [rbind]. rewrite HM, cat_shape0 by auto. reflexivity.
  - apply (shared_tsum R64 supR). exact HS.
  - apply cat0_is_cat. clear -H HL. revert vs xs HL H. induction ns as [|n ns IH]; intros [|v vs] xs HL H; cbn in HL; try discriminate; constructor.
    + cbn [combine] in H. inversion H as [|p x ps xs' (_ & _ & HS) H']; subst. apply (shared_vals R64 supR) in HS. apply HS.
    + cbn [combine] in H. inversion H as [|p x ps xs' _ H']; subst. apply (IH vs xs'); auto.
Qed.
Print Assumptions C41_cat_partial.

(** replicated shares, default ring *)
Theorem C41_replicated_cat_partial : forall s c post ns vs xs, (2 <= rs_n s)%nat -> ns <> [] -> length ns = length vs ->
  Forall2 (fun p x => holds s (2^64) c (fst p :: post) (snd p) x) (combine ns vs) xs ->
  exists r t, rm_cat s 0 xs = Ok r /\ holds s (2^64) (rs_cfg s) (tsh t) (tdat t) r /\ rm_reconstruct s r = Ok t /\ is_cat [] post ns vs t.
Proof.
  intros s c post ns vs xs Hn Hne HL H.
  assert (HV : exists sss cfs, sharings (2^64) (rs_n s) (map (fun n => n :: post) ns) vs sss /\
    length cfs = length sss /\
    xs = map (fun q => mkRM (rs_id s) (fst (fst q) :: post) (rviews s (2^64) (snd (snd q)) (fst (snd q)))) (combine (combine ns vs) (combine sss cfs))).
  { clear Hne. revert vs xs HL H. induction ns as [|n ns IH]; intros [|v vs] xs HL H; cbn in HL; try discriminate; cbn [combine] in H.
    - inversion H. exists [], []. repeat split. constructor.
    - inversion H as [|p x ps xs' HX H']; subst. destruct (IH vs xs' ltac:(lia) H') as (sss & cfs & [A A'] & B & ->).
      destruct (holds_views _ _ _ _ _ _ HX) as (ss & cf & HS & HN & -> & _). cbn [fst snd] in *.
      exists (ss :: sss), (cf :: cfs). split; [split; [cbn; constructor; auto|cbn; lia]|]. split; [cbn; lia|]. reflexivity. }
  destruct HV as (sss & cfs & HJ & HC & HX).
  assert (S64 : supported (2^64)) by sup.
  destruct (join_shared (2^64) (rs_n s) (list_sum ns :: post) _ _ _ torch_cat HJ) as (rs & E & L & HS & ERS); [lia| | |].
  { rewrite map_map. change (fun x => numel (x :: post)) with (fun x => (x * numel post)%nat). rewrite list_sum_map_mul. reflexivity. }
  { intros ts Ht. unfold torch_cat. rewrite Ht, cat_shape0 by auto. reflexivity. }
  assert (LS : length sss = length ns).
  { destruct HJ as [F _]. assert (F2 : forall A B (P : A -> B -> Prop) l l', Forall2 P l l' -> length l = length l') by (intros ? ? ? ? ? FF; induction FF; cbn; auto). apply F2 in F. rewrite combine_length, map_length in F. lia. }
  set (R := mkRM (rs_id s) (list_sum ns :: post) (rviews s (2^64) (fun _ => rs_cfg s) rs)).
  assert (HH : holds s (2^64) (rs_cfg s) (list_sum ns :: post) (concat vs) R).
  { apply views_holds; auto. }
  exists R, (mkT (list_sum ns :: post) (concat vs)). cbn [tsh tdat].
  split; [|split; [exact HH|split]].
  - assert (NX : xs <> []).
    { rewrite HX. destruct ns; [congruence|]. destruct vs; [discriminate|]. destruct sss; [discriminate|]. destruct cfs; discriminate. }
    unfold rm_cat. destruct xs as [|x0 xs0]; [congruence|]. set (xs := x0 :: xs0) in *.
    pose proof (sharings_lengths _ _ _ _ _ HJ) as FL.
    assert (MX : forall A (g : list tensor -> A) (f : rmpc -> A), (forall ss cf n, In ss sss -> f (mkRM (rs_id s) (n :: post) (rviews s (2^64) cf ss)) = g ss) -> map f xs = map g sss).
    { intros A g f Hf. rewrite HX. clear -Hf HC LS HL. revert ns vs cfs HC LS HL. induction sss as [|ss sss IH]; intros [|n ns] [|v vs] [|cf cfs] HC LS HL; cbn in *; try discriminate; auto.
      f_equal; [apply Hf; auto|]. apply IH; auto. }
    assert (EN : fold_right Nat.min (rs_n s) (map (fun x => length (rm_ps x)) xs) = rs_n s).
    { rewrite (MX _ (fun ss => length ss)) by (intros; cbn [rm_ps]; apply rviews_length).
      clear -FL. induction FL as [|ss sss E _ IH]; cbn; [reflexivity|]. rewrite IH, E. lia. }
    rewrite EN.
    assert (ES : cat_shape 0 (map rm_shape xs) = Ok (list_sum ns :: post)).
    { replace (map rm_shape xs) with (map (fun n => n :: post) ns); [apply cat_shape0; auto|]. rewrite HX.
      clear -HC LS HL. revert vs sss cfs HC LS HL. induction ns as [|n ns IH]; intros [|v vs] [|ss sss] [|cf cfs] HC LS HL; cbn in *; try discriminate; auto.
      f_equal. apply (IH vs sss cfs); auto. }
    rewrite ES.
    assert (EP : rmap (fun k => do l <- rmap (fun x => get_nth (rm_ps x) k) xs; cat_replicated s k l) (seq 0 (rs_n s)) =
      Ok (rviews s (2^64) (fun _ => rs_cfg s) rs)).
    { unfold rviews. rewrite L. rewrite <- rmap_ok.
      assert (G : forall l, (forall k, In k l -> (k < rs_n s)%nat) ->
        rmap (fun k => do l <- rmap (fun x => get_nth (rm_ps x) k) xs; cat_replicated s k l) l =
        rmap (fun k => Ok (mkR (2^64) (rs_cfg s) (Some (rs_uuid s k)) (rep_view rs k))) l).
      2:{ apply G. intros k Hk. apply in_seq in Hk. lia. }
      induction l as [|k l IH]; intros Hl; cbn [rmap]; [reflexivity|].
      assert (Hk : (k < rs_n s)%nat) by (apply Hl; left; reflexivity). rewrite IH by (intros; apply Hl; right; auto).
      (* the objects of party k *)
      assert (EO : exists os, rmap (fun x => get_nth (rm_ps x) k) xs = Ok os /\ map r_shares os = map (fun ss => rep_view ss k) sss).
      { rewrite HX. clear -HC LS HL FL Hk. revert ns vs cfs HC LS HL. induction FL as [|ss sss E FL IH]; intros [|n ns] [|v vs] [|cf cfs] HC LS HL; cbn in HC, LS, HL; try discriminate.
        - exists []. split; reflexivity.
        - destruct (IH ns vs cfs) as (os & E1 & E2); try lia. cbn [combine map rmap fst snd rm_ps].
          rewrite rviews_get by lia. rewrite E1. eexists. split; [reflexivity|]. cbn [map r_shares]. rewrite E2. reflexivity. }
      destruct EO as (os & -> & EOS). cbn [rbind]. unfold cat_replicated.
      destruct os as [|o os]. { exfalso. destruct sss; [destruct ns; cbn in LS; congruence|discriminate EOS]. }
      cbn [get_nth nth_error rbind].
      assert (LO : length (r_shares o) = (rs_n s - 1)%nat).
      { destruct sss as [|ss sss']; [discriminate EOS|]. cbn [map] in EOS. injection EOS as EO _. rewrite EO, rep_view_length. inversion FL. lia. }
      rewrite LO. remember (o :: os) as oss eqn:EQO. clear EQO.
      assert (ER : rmap (fun i => do ts <- rmap (fun y => get_nth (r_shares y) i) oss; cat_onto (mkT [0%nat] []) ts) (seq 0 (rs_n s - 1)) = Ok (rep_view rs k)).
      { unfold rep_view. rewrite L. rewrite <- rmap_ok.
        assert (G : forall l, (forall i, In i l -> (i < rs_n s - 1)%nat) ->
          rmap (fun i => do ts <- rmap (fun y => get_nth (r_shares y) i) oss; cat_onto (mkT [0%nat] []) ts) l =
          rmap (fun i => Ok (nth ((k + i) mod rs_n s) rs (mkT [] []))) l).
        2:{ apply G. intros i Hi. apply in_seq in Hi. lia. }
        induction l0 as [|i l0 IH0]; intros Hl0; cbn [rmap]; [reflexivity|].
        assert (Hi : (i < rs_n s - 1)%nat) by (apply Hl0; left; reflexivity). rewrite IH0 by (intros; apply Hl0; right; auto).
        assert (ET : rmap (fun y => get_nth (r_shares y) i) oss = Ok (col sss ((k + i) mod rs_n s))).
        { clear -EOS FL Hi. revert oss EOS. induction FL as [|ss sss E FL IH]; intros [|q l] EOS; try discriminate; [reflexivity|].
          cbn [map] in EOS. injection EOS as E1 E2. cbn [rmap]. rewrite E1, rep_view_get by lia. rewrite (IH l E2). cbn [col map]. rewrite E. reflexivity. }
        rewrite ET. cbn [rbind].
        assert (HM : ((k + i) mod rs_n s < rs_n s)%nat) by (apply Nat.mod_upper_bound; lia).
        destruct (sharings_join (2^64) _ _ _ _ HJ) as [_ J]. destruct (J _ HM) as (J1 & _ & _).
        rewrite (cat_onto_ok post _ ns); [|destruct sss; [destruct ns; cbn in LS; congruence|discriminate]|exact J1].
        assert (EQ : nth ((k + i) mod rs_n s) rs (mkT [] []) = mkT (list_sum ns :: post) (concat (map tdat (col sss ((k + i) mod rs_n s))))).
        { rewrite ERS, (nth_map_in _ 0%nat) by (rewrite seq_length; auto). rewrite nth_seq_lt by auto. reflexivity. }
        rewrite EQ. reflexivity. }
      rewrite ER. cbn [rbind]. unfold rst_make. rewrite rst_cfg_scaled by lia. reflexivity. }
    rewrite EP. reflexivity.
  - apply (holds_reconstruct (2^64) S64 s (rs_cfg s)); auto.
  - apply cat0_is_cat. clear -HJ HL S64. destruct HJ as [F _]. revert vs sss HL F. induction ns as [|n ns IH]; intros [|v vs] sss HL F; cbn in HL; try discriminate; constructor.
    + cbn [combine map] in F. inversion F as [|p x ps xs' (HS & _) H']; subst. apply (shared_vals (2^64) S64) in HS. apply HS.
    + cbn [combine map] in F. inversion F as [|p x ps xs' _ H']; subst. apply (IH vs xs'); auto.
Qed.
Print Assumptions C41_replicated_cat_partial.

(* ------------------------------------------------------------------ examples and refutations *)
Definition S3 : sess := mkS 7 3 (mkConfig 2 16).
Definition ht (sh : list nat) (ss : list (list Z)) : mpc := mkM 7 sh (map (mkT sh) ss).

Lemma ht_held sh v ss : sharedb R64 sh v (map (mkT sh) ss) = true -> length ss = 3%nat -> held S3 sh v (ht sh ss).
Proof. intros H L. split; [reflexivity|]. split; [cbn; rewrite map_length; exact L|]. apply sharedb_ok. exact H. Qed.
Ltac ff tac := cbn [combine fst snd]; repeat (apply Forall2_cons || apply Forall2_nil); tac.
Ltac hh := ff ltac:(apply ht_held; [vm_compute; reflexivity|reflexivity]).

Definition xa := ht [2%nat] [[5; 7]; [-1; 2^63 - 1]; [-3; -2^63]].
Definition xb := ht [2%nat] [[1; 1]; [1; 1]; [1; 2]].
Definition xc := ht [1%nat] [[10]; [1]; [-2]].
Example C41_stack_witness : Forall2 (held S3 [2%nat]) [[1; 6]; [3; 4]] [xa; xb] /\
  (do r <- mpc_stack S3 0 [xa; xb]; reconstruct r) = Ok (mkT [2; 2]%nat [1; 6; 3; 4]).
Proof. split; [hh|vm_compute; reflexivity]. Qed.
Example C41_cat_witness : Forall2 (fun p x => held S3 (fst p :: []) (snd p) x) (combine [2; 1; 2]%nat [[1; 6]; [9]; [3; 4]]) [xa; xc; xb] /\
  (do r <- mpc_cat S3 0 [xa; xc; xb]; reconstruct r) = Ok (mkT [5%nat] [1; 6; 9; 3; 4]).
Proof. split; [hh|vm_compute; reflexivity]. Qed.

Definition ra := rx RS3 (2^64) c16 [1; 2]%nat [[5; 7]; [-1; 2^63 - 1]; [-3; -2^63]].
Definition rb := rx RS3 (2^64) c16 [2; 2]%nat [[1; 1; 0; 0]; [1; 1; 5; 6]; [1; 2; 0; 0]].
Example C41_replicated_cat_witness :
  Forall2 (fun p x => holds RS3 (2^64) c16 (fst p :: [2%nat]) (snd p) x) (combine [1; 2]%nat [[1; 6]; [3; 4; 5; 6]]) [ra; rb] /\
  (do r <- rm_cat RS3 0 [ra; rb]; rm_reconstruct RS3 r) = Ok (mkT [3; 2]%nat [1; 6; 3; 4; 5; 6]).
Proof. split; [ff ltac:(rx)|vm_compute; reflexivity]. Qed.

(** dimension 1: the columns asked for are returned as rows *)
Theorem C41_stack_dim_refuted : exists s sh vs xs r t, Forall2 (held s sh) vs xs /\ length sh = 1%nat /\
  mpc_stack s 1 xs = Ok r /\ reconstruct r = Ok t /\ m_shape r = tsh t /\ ~ is_stack sh [] vs t.
Proof.
  exists S3, [2%nat], [[1; 6]; [3; 4]], [xa; xb]. eexists. eexists. split; [hh|]. split; [reflexivity|].
  split; [vm_compute; reflexivity|]. split; [vm_compute; reflexivity|]. split; [reflexivity|].
  intros (_ & _ & H). specialize (H 1%nat [0%nat] [] ltac:(cbn; lia) ltac:(repeat constructor) ltac:(constructor)).
  vm_compute in H. discriminate.
Qed.
Print Assumptions C41_stack_dim_refuted.

(** cat along dimension 1: rows below instead of beside, with a wrong shape attribute ... *)
Theorem C41_cat_dim_refuted : exists s xs vs r t, Forall2 (held s [1; 2]%nat) vs xs /\
  mpc_cat s 1 xs = Ok r /\ reconstruct r = Ok t /\ m_shape r <> tsh t /\ ~ is_cat [1%nat] [] [2; 2]%nat vs t.
Proof.
  exists S3, [ht [1; 2]%nat [[1; 0]; [0; 0]; [0; 2]]; ht [1; 2]%nat [[3; 0]; [0; 4]; [0; 0]]], [[1; 2]; [3; 4]].
  eexists. eexists. split; [hh|]. split; [vm_compute; reflexivity|]. split; [vm_compute; reflexivity|].
  split; [discriminate|]. intros (H & _). discriminate.
Qed.
Print Assumptions C41_cat_dim_refuted.

(** ... or an exception although torch.cat accepts the tensors *)
Theorem C41_cat_sizes_refuted : exists s xs vs t, Forall2 (fun p x => held s [2%nat; fst p] (snd p) x) (combine [1; 2]%nat vs) xs /\
  is_cat [2%nat] [] [1; 2]%nat vs t /\ mpc_cat s 1 xs = Err RuntimeError.
Proof.
  exists S3, [ht [2; 1]%nat [[1; 0]; [0; 0]; [0; 2]]; ht [2; 2]%nat [[3; 0; 0; 0]; [0; 4; 5; 0]; [0; 0; 0; 6]]], [[1; 2]; [3; 4; 5; 6]], (mkT [2; 3]%nat [1; 3; 4; 2; 5; 6]).
  split; [hh|]. split; [|vm_compute; reflexivity]. split; [reflexivity|]. split; [reflexivity|].
  intros i j p q Hi Hj Hp Hq. inversion Hq; subst. inversion Hp as [|a ? p' ? Ha Hp']; subst. inversion Hp'; subst. cbn [length] in Hi.
  assert (Ei : i = 0%nat \/ i = 1%nat) by lia. assert (Ea : a = 0%nat \/ a = 1%nat) by lia.
  destruct Ei as [-> | ->]; cbn [nth] in Hj.
  - assert (j = 0%nat) by lia. subst j. destruct Ea as [-> | ->]; reflexivity.
  - assert (Ej : j = 0%nat \/ j = 1%nat) by lia. destruct Ea as [-> | ->], Ej as [-> | ->]; reflexivity.
Qed.
Print Assumptions C41_cat_sizes_refuted.

(** replicated tensors cannot be stacked at all *)
Theorem C41_replicated_stack_refuted : exists s c sh v x, holds s (2^64) c sh v x /\ rm_stack s 0 [x; x] = Err AttributeError.
Proof. exists RS3, c16, [1; 2]%nat, [1; 6], ra. split; [rx|reflexivity]. Qed.
Print Assumptions C41_replicated_stack_refuted.

(** in a ring smaller than 2^64 cat of replicated tensors forgets the ring: -2^31 becomes 2^31 *)
Theorem C41_replicated_ring_refuted : exists s c v x r t, holds s (2^32) c [1%nat] v x /\
  rm_cat s 0 [x] = Ok r /\ rm_reconstruct s r = Ok t /\ ~ is_cat [] [] [1%nat] [v] t.
Proof.
  exists RS3, c16, [-2^31], (rx RS3 (2^32) c16 [1%nat] [[2^31 - 1]; [1]; [0]]). eexists. eexists.
  split; [rx|]. split; [vm_compute; reflexivity|]. split; [vm_compute; reflexivity|].
  intros (_ & _ & H). specialize (H 0%nat 0%nat [] [] ltac:(cbn; lia) ltac:(cbn; lia) ltac:(constructor) ltac:(constructor)). vm_compute in H. discriminate.
Qed.
Print Assumptions C41_replicated_ring_refuted.
