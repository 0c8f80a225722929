(** Lemmas on replicated sharings: views, distribution, reconstruction, linear operations. *)
From Coq Require Import QArith Setoid Morphisms.
From Verif Require Import Util Modular S_Ring S_Tensor S_Bil S_Spdz S_Rep M_Torch L_Torch M_Encoder M_Tensor L_Tensor M_Share L_Share M_Spdz L_Spdz L_Bil
  L_RShare L_Mul M_Session L_Session M_Rep S_RepT.
Local Open Scope Z_scope.

Notation dT := (mkT [] []).

(* ------------------------------------------------------------ rmap *)
Lemma rmap_map {A B C} (f : B -> result C) (g : A -> B) l : rmap f (map g l) = rmap (fun a => f (g a)) l.
Proof. induction l as [|a l IH]; cbn [rmap map]; auto. rewrite IH. reflexivity. Qed.

Lemma rmap_nth {A B} (f : A -> result B) (da : A) (db : B) l zs : rmap f l = Ok zs ->
  forall i, (i < length l)%nat -> f (nth i l da) = Ok (nth i zs db).
Proof.
  revert zs. induction l as [|a l IH]; intros zs H i Hi; cbn [length] in Hi; [lia|].
  cbn [rmap] in H. destruct (f a) as [b|] eqn:E; [|discriminate].
  destruct (rmap f l) as [bs|]; [|discriminate]. injection H as <-.
  destruct i; cbn [nth]; auto. apply IH; auto. lia.
Qed.

Lemma nth_combine {A B} (da : A) (db : B) l1 l2 i : length l1 = length l2 ->
  nth i (combine l1 l2) (da, db) = (nth i l1 da, nth i l2 db).
Proof. intros H. apply combine_nth; auto. Qed.

Lemma get_nth_nth {A} (l : list A) (d : A) i : (i < length l)%nat -> get_nth l i = Ok (nth i l d).
Proof. intros H. unfold get_nth. rewrite (nth_error_nth' l d) by auto. reflexivity. Qed.

(* ------------------------------------------------------------ views *)
Lemma rep_view_length ss k : length (rep_view ss k) = (length ss - 1)%nat.
Proof. unfold rep_view. rewrite map_length, seq_length. reflexivity. Qed.

Lemma rep_view_nth ss k i : (i < length ss - 1)%nat ->
  nth i (rep_view ss k) dT = nth ((k + i) mod length ss) ss dT.
Proof.
  intros H. unfold rep_view. rewrite (nth_map_in _ 0%nat dT) by (rewrite seq_length; auto).
  rewrite nth_seq_lt by auto. f_equal.
Qed.

Lemma rep_view_get ss k i : (i < length ss - 1)%nat ->
  get_nth (rep_view ss k) i = Ok (nth ((k + i) mod length ss) ss dT).
Proof. intros H. rewrite (get_nth_nth _ dT) by (rewrite rep_view_length; auto). rewrite rep_view_nth by auto. reflexivity. Qed.

Lemma rep_view_map f ss k : rep_view (map f ss) k = map (fun t => f t) (rep_view ss k) \/ (ss = []).
Proof.
  destruct ss as [|s0 ss]; [right; reflexivity|left]. unfold rep_view. rewrite map_map, map_length.
  apply map_ext_in. intros i _. apply (nth_map_in f dT dT). apply Nat.mod_upper_bound. discriminate.
Qed.

Lemma rmap_rep_view (f : tensor -> result tensor) ss zs k : ss <> [] -> rmap f ss = Ok zs ->
  rmap f (rep_view ss k) = Ok (rep_view zs k).
Proof.
  intros Hne H. pose proof (rmap_ok_length _ _ _ H) as HL. unfold rep_view. rewrite rmap_map, HL.
  apply rmap_pointwise. intros i _. apply (rmap_nth f dT dT _ _ H). apply Nat.mod_upper_bound.
  destruct ss; [congruence|discriminate].
Qed.

Lemma combine_rep_view xs ys k : length xs = length ys ->
  combine (rep_view xs k) (rep_view ys k) =
  map (fun i => (nth ((k + i) mod length xs) xs dT, nth ((k + i) mod length xs) ys dT)) (seq 0 (length xs - 1)).
Proof.
  intros HL. unfold rep_view. rewrite <- HL. generalize (seq 0 (length xs - 1)).
  induction l as [|i l IH]; cbn [map combine]; [reflexivity|]. rewrite IH. reflexivity.
Qed.

Lemma rmap2_rep_view (f : tensor -> tensor -> result tensor) xs ys zs k : length xs = length ys -> xs <> [] ->
  rmap (fun p => f (fst p) (snd p)) (combine xs ys) = Ok zs ->
  rmap (fun p => f (fst p) (snd p)) (combine (rep_view xs k) (rep_view ys k)) = Ok (rep_view zs k).
Proof.
  intros HL Hne H. pose proof (rmap_ok_length _ _ _ H) as HZ. rewrite combine_length in HZ.
  rewrite combine_rep_view by auto. rewrite rmap_map. unfold rep_view.
  replace (length zs) with (length xs) by lia.
  apply rmap_pointwise. intros i _. cbn [fst snd].
  assert (Hi : ((k + i) mod length xs < length xs)%nat) by (apply Nat.mod_upper_bound; destruct xs; [congruence|discriminate]).
  pose proof (rmap_nth _ (dT, dT) dT _ _ H ((k + i) mod length xs)) as E.
  rewrite combine_length in E. specialize (E ltac:(lia)). rewrite nth_combine in E by auto. exact E.
Qed.

Lemma rep_view_one ss : (1 <= length ss)%nat -> rep_view ss 1 = tl ss.
Proof.
  intros H. apply (nth_ext_len dT).
  - rewrite rep_view_length. destruct ss; cbn; lia.
  - intros i Hi. rewrite rep_view_length in Hi. rewrite rep_view_nth by auto.
    destruct ss as [|s0 ss]; [cbn in H; lia|]. cbn [length] in *. rewrite Nat.mod_small by lia. reflexivity.
Qed.

Definition rviews (s : rsess) (ring : Z) (cf : nat -> config) (ss : list tensor) : list rst :=
  map (fun k => mkR ring (cf k) (Some (rs_uuid s k)) (rep_view ss k)) (seq 0 (length ss)).

Lemma rviews_length s ring cf ss : length (rviews s ring cf ss) = length ss.
Proof. unfold rviews. rewrite map_length, seq_length. reflexivity. Qed.
Lemma rviews_get s ring cf ss k : (k < length ss)%nat ->
  get_nth (rviews s ring cf ss) k = Ok (mkR ring (cf k) (Some (rs_uuid s k)) (rep_view ss k)).
Proof.
  intros H. unfold get_nth, rviews. rewrite (map_nth_error_eq _ _ _ k); [reflexivity|].
  rewrite (nth_error_nth' _ 0%nat) by (rewrite seq_length; auto). rewrite nth_seq_lt by auto. reflexivity.
Qed.
Lemma rviews_shares s ring cf ss : map r_shares (rviews s ring cf ss) = map (rep_view ss) (seq 0 (length ss)).
Proof. unfold rviews. rewrite map_map. reflexivity. Qed.

Lemma rst_cfg_idem ring c : rst_cfg ring (rst_cfg ring c) = rst_cfg ring c.
Proof. unfold rst_cfg. destruct ((ring =? 2) || (ring =? PRIME)); reflexivity. Qed.

Lemma rst_cfg_scaled ring c : ring <> 2 -> ring <> 67 -> rst_cfg ring c = c.
Proof.
  intros H1 H2. unfold rst_cfg, PRIME. destruct (Z.eqb_spec ring 2); [congruence|].
  destruct (Z.eqb_spec ring 67); [congruence|]. reflexivity.
Qed.
Lemma rst_cfg_unscaled ring c : unscaled ring (rst_cfg ring c).
Proof. intros [->| ->]; reflexivity. Qed.
Lemma unscaled_cfg ring c : unscaled ring c -> rst_cfg ring c = c.
Proof.
  intros H. unfold rst_cfg, PRIME. destruct (Z.eqb_spec ring 2) as [E|]; [rewrite H; auto|].
  destruct (Z.eqb_spec ring 67) as [E|]; [rewrite H; auto|]. reflexivity.
Qed.

(** a held tensor is the views of a sharing *)
Lemma holds_views s ring c sh v x : holds s ring c sh v x ->
  exists ss cf, shared ring sh v ss /\ length ss = rs_n s /\
    x = mkRM (rs_id s) sh (rviews s ring cf ss) /\
    (forall k, (k < length ss)%nat -> rst_cfg ring (cf k) = c) /\ unscaled ring c.
Proof.
  intros (H1 & H2 & H3 & (ss & Hss & Hv) & HU & HP).
  assert (HL : length ss = rs_n s).
  { apply (f_equal (@length _)) in Hv. rewrite !map_length, seq_length in Hv. lia. }
  exists ss, (fun k => r_cfg (nth k (rm_ps x) (mkR 0 c None []))). split; [exact Hss|]. split; [exact HL|]. split.
  - destruct x as [sid shp ps]. cbn [rm_sid rm_shape rm_ps] in *. subst sid shp. f_equal.
    apply (nth_ext_len (mkR 0 c None [])); [rewrite rviews_length; lia|].
    intros i Hi. unfold rviews. rewrite (nth_map_in _ 0%nat) by (rewrite seq_length; lia).
    rewrite nth_seq_lt by lia. cbn [plus].
    pose proof (nth_error_nth' ps (mkR 0 c None []) Hi) as E.
    destruct (HP _ _ E) as (P1 & P2 & P3).
    apply (f_equal (fun l => nth i l [])) in Hv.
    rewrite (nth_map_in r_shares (mkR 0 c None []) []) in Hv by auto.
    rewrite (nth_map_in (rep_view ss) 0%nat []) in Hv by (rewrite seq_length; lia).
    rewrite nth_seq_lt in Hv by lia. cbn [plus] in Hv.
    destruct (nth i ps (mkR 0 c None [])) as [a1 a2 a3 a4]. cbn in *. subst. reflexivity.
  - split; [|exact HU]. intros k Hk.
    pose proof (nth_error_nth' (rm_ps x) (mkR 0 c None []) (n := k) ltac:(lia)) as E.
    destruct (HP _ _ E) as (P1 & P2 & P3).
    destruct (Z.eq_dec ring 2) as [e|n1]; [rewrite (HU (or_introl e)), e; reflexivity|].
    destruct (Z.eq_dec ring 67) as [e|n2]; [rewrite (HU (or_intror e)), e; reflexivity|].
    rewrite rst_cfg_scaled, P2; auto.
Qed.

Lemma views_holds s ring c sh v ss cf : shared ring sh v ss -> length ss = rs_n s ->
  (forall k, (k < length ss)%nat -> rst_cfg ring (cf k) = c) ->
  holds s ring c sh v (mkRM (rs_id s) sh (rviews s ring cf ss)).
Proof.
  intros Hss HL Hc. split; [reflexivity|]. split; [reflexivity|]. cbn [rm_ps]. split; [rewrite rviews_length; auto|].
  split; [exists ss; split; [auto|apply rviews_shares]|]. split.
  { rewrite <- (Hc 0%nat); [apply rst_cfg_unscaled|]. destruct Hss as (Hne & _). destruct ss; [congruence|cbn; lia]. }
  intros k p Hk. unfold rviews in Hk.
  assert (Hlt : (k < length ss)%nat).
  { assert (Hk' : nth_error (rviews s ring cf ss) k <> None) by (unfold rviews; congruence).
    apply nth_error_Some in Hk'. rewrite rviews_length in Hk'. exact Hk'. }
  rewrite (map_nth_error_eq _ _ _ k) in Hk.
  2:{ rewrite (nth_error_nth' _ 0%nat) by (rewrite seq_length; auto). rewrite nth_seq_lt by auto. reflexivity. }
  injection Hk as <-. cbn. split; [reflexivity|]. split; [|reflexivity].
  intros N1 N2. rewrite <- (Hc k Hlt). symmetry. apply rst_cfg_scaled; auto.
Qed.

Lemma views_eq s ring cf cf' ss : (forall k, (k < length ss)%nat -> cf k = cf' k) -> rviews s ring cf ss = rviews s ring cf' ss.
Proof. intros H. apply map_ext_in. intros k Hk. apply in_seq in Hk. rewrite H by lia. reflexivity. Qed.

(* ------------------------------------------------------------ distribution *)
Lemma rst_distribute_ok s ss ring c : length ss = rs_n s -> (1 <= rs_n s)%nat ->
  rst_distribute s ss (Some ring) (Some c) = Ok (Sent (rviews s ring (fun _ => rst_cfg ring c) ss)).
Proof.
  intros HL Hn. unfold rst_distribute. rewrite HL, Nat.eqb_refl. cbn [negb].
  rewrite (rmap_pointwise _ (fun k => mkR ring (rst_cfg ring c) (Some (rs_uuid s k)) (rep_view ss k))).
  - cbn [rbind]. unfold rviews. rewrite HL. reflexivity.
  - intros k _. unfold distribute_to.
    rewrite (rmap_pointwise _ (fun i => nth ((k + i) mod length ss) ss dT)).
    + cbn [rbind]. unfold rst_make, rep_view. rewrite <- HL. reflexivity.
    + intros i _. replace (rs_n s - 1 + 1)%nat with (length ss) by lia. apply get_nth_nth.
      apply Nat.mod_upper_bound. lia.
Qed.

(* ------------------------------------------------------------ reconstruction *)
Section Ring.
  Variable ring : Z.
  Hypothesis Hs : supported ring.
  Let Hp : 0 < ring := supported_pos ring Hs.

  Lemma reconstruct_sh_views s cf sh v ss : shared ring sh v ss -> (2 <= length ss)%nat ->
    reconstruct_sh (rviews s ring cf ss) = Ok (mkT sh v).
  Proof.
    intros Hss Hn. unfold reconstruct_sh. rewrite !rviews_get by lia. cbn [rbind r_shares r_ring].
    rewrite rep_view_get by lia. cbn [rbind]. rewrite rep_view_one by lia. unfold shares_sum.
    replace (nth ((0 + 0) mod length ss) ss dT :: tl ss) with ss; [apply shared_tsum_r; auto|].
    rewrite Nat.mod_small by lia. destruct ss; [cbn in Hn; lia|reflexivity].
  Qed.

  (** what the pair (k, k+1) of parties sees is a rotation of the sharing *)
  Lemma rotation_sum (f : nat -> Z) n k : (0 < n)%nat ->
    zsum (map (fun i => f ((k + i) mod n)%nat) (seq 0 n)) = zsum (map f (seq 0 n)).
  Proof.
    intros Hn. induction k as [|k IH].
    - apply zsum_ext. intros i Hi. apply in_seq in Hi. cbn [plus]. rewrite Nat.mod_small by lia. reflexivity.
    - rewrite <- IH. rewrite <- (cyclic_sum (fun i => f ((k + i) mod n)%nat)) by auto.
      apply zsum_ext. intros i _. f_equal. rewrite Nat.add_mod_idemp_r by lia. f_equal. lia.
  Qed.

  Lemma rotation_view ss k : (1 <= length ss)%nat ->
    nth (k mod length ss) ss dT :: rep_view ss (S k) = map (fun i => nth ((k + i) mod length ss) ss dT) (seq 0 (length ss)).
  Proof.
    intros H. destruct ss as [|s0 ss]; [cbn in H; lia|].
    unfold rep_view. cbn [length]. replace (S (length ss) - 1)%nat with (length ss) by lia.
    cbn [seq map]. rewrite Nat.add_0_r. f_equal. rewrite <- seq_shift, map_map. apply map_ext. intros i.
    f_equal. f_equal. lia.
  Qed.

  Lemma rotation_shared sh v ss k : shared ring sh v ss ->
    shared ring sh v (nth (k mod length ss) ss dT :: rep_view ss (S k)).
  Proof.
    intros Hss. pose proof (shared_vals ring Hs _ _ _ Hss) as (VL & VI & VN). destruct Hss as (H1 & H2 & H3).
    assert (HL : (1 <= length ss)%nat) by (destruct ss; [congruence|cbn; lia]).
    rewrite rotation_view by auto. apply shared_intro; auto.
    - destruct ss; [congruence|]. discriminate.
    - apply Forall_map, Forall_forall. intros i _. apply Forall_nth_in; auto. apply Nat.mod_upper_bound. lia.
    - intros e He. rewrite VN. rewrite map_map.
      rewrite (rotation_sum (fun j => nth e (tdat (nth j ss dT)) 0)) by lia.
      apply eqmod_eq. f_equal. rewrite <- (map_map (fun j => nth j ss dT) (fun t => nth e (tdat t) 0)).
      f_equal. apply (nth_ext_len dT); [rewrite map_length, seq_length; auto|].
      intros i Hi. rewrite (nth_map_in _ 0%nat) by (rewrite seq_length; auto). rewrite nth_seq_lt by auto. reflexivity.
  Qed.

  Lemma rep_view_mod ss k : rep_view ss (k mod length ss) = rep_view ss k.
  Proof.
    destruct ss as [|s0 ss]; [reflexivity|]. unfold rep_view. apply map_ext. intros i.
    rewrite Nat.add_mod_idemp_l by discriminate. reflexivity.
  Qed.

  Lemma tdiffer_same a b sh : tensor_in ring sh a -> tensor_in ring sh b ->
    tdiffer a b = Ok (negb (if list_eq_dec Z.eq_dec (tdat a) (tdat b) then true else false)).
  Proof.
    intros (A1 & A2 & A3) (B1 & B2 & B3). unfold tdiffer. rewrite (tbin_same _ a b sh) by auto. cbn [rbind tdat].
    f_equal. destruct (list_eq_dec Z.eq_dec (tdat a) (tdat b)) as [E|N]; cbn [negb].
    - rewrite E, map2_same. clear. induction (tdat b) as [|v l IH]; cbn; [reflexivity|]. rewrite Z.eqb_refl. exact IH.
    - assert (HL : length (tdat a) = length (tdat b)) by lia. clear - N HL. revert N HL.
      generalize (tdat a) (tdat b). induction l as [|u l IH]; intros [|w m] N HL; cbn in *; try lia; [congruence|].
      destruct (Z.eqb_spec u w) as [->|Hn]; [|reflexivity]. cbn. apply IH; [congruence|lia].
  Qed.

  Lemma reconstruct_mal_views s cf sh v ss : shared ring sh v ss -> (2 <= length ss)%nat ->
    reconstruct_mal (rviews s ring cf ss) = Ok (mkT sh v).
  Proof.
    intros Hss Hn. unfold reconstruct_mal. rewrite rviews_get by lia. cbn [rbind r_ring]. rewrite rviews_length.
    pose proof (shared_vals ring Hs _ _ _ Hss) as (VL & VI & _).
    assert (HT : tensor_in ring sh (mkT sh v)) by (split; [reflexivity|split; auto]).
    assert (G : forall ranks o, (forall k, In k ranks -> (k < length ss)%nat) ->
      (o = Some (mkT sh v) \/ (o = None /\ ranks <> [])) ->
      reconstruct_loop ring (rviews s ring cf ss) ranks o = Ok (mkT sh v)).
    { induction ranks as [|k r IH]; intros o Hk Ho; cbn [reconstruct_loop].
      - destruct Ho as [->|[_ Ho]]; [reflexivity|congruence].
      - rewrite rviews_length. rewrite (rviews_get s ring cf ss k) by (apply Hk; simpl; auto).
        rewrite (rviews_get s ring cf ss ((k + 1) mod length ss)) by (apply Nat.mod_upper_bound; lia).
        cbn [rbind r_shares]. rewrite rep_view_get by lia. cbn [rbind]. rewrite Nat.add_0_r, Nat.add_1_r. rewrite rep_view_mod.
        unfold shares_sum. rewrite (shared_tsum_r ring Hs sh v) by (apply rotation_shared; auto). cbn [rbind].
        destruct Ho as [->|[-> Ho]].
        + rewrite (tdiffer_same _ _ sh) by auto.
          destruct (list_eq_dec Z.eq_dec _ _) as [E|N]; [|congruence]. cbn [negb rbind]. apply IH; auto.
          intros; apply Hk; simpl; auto.
        + apply IH; auto. intros; apply Hk; simpl; auto. }
    apply G.
    - intros k Hk. apply in_seq in Hk. lia.
    - right. split; [reflexivity|]. destruct (length ss); [lia|discriminate].
  Qed.

  Lemma reconstruct_views mal s cf sh v ss : shared ring sh v ss -> (2 <= length ss)%nat ->
    rst_reconstruct mal (rviews s ring cf ss) = Ok (mkT sh v).
  Proof.
    intros Hss Hn. unfold rst_reconstruct.
    assert (E : rviews s ring cf ss <> []).
    { intros E. apply (f_equal (@length _)) in E. rewrite rviews_length in E. cbn in E. lia. }
    destruct (rviews s ring cf ss) eqn:EV; [congruence|]. rewrite <- EV.
    destruct mal; [apply reconstruct_mal_views | apply reconstruct_sh_views]; auto.
  Qed.

  Lemma holds_reconstruct s c sh v x : holds s ring c sh v x -> (2 <= rs_n s)%nat ->
    rm_reconstruct s x = Ok (mkT sh v).
  Proof.
    intros H Hn. destruct (holds_views _ _ _ _ _ _ H) as (ss & cf & Hss & HL & -> & _).
    apply reconstruct_views; auto. lia.
  Qed.

  (* ---------------------------------------------------------- linear operations *)
  Lemma get_op_lin o : get_op ring (op_of_lin o) = Ok (r_lop ring o).
  Proof.
    unfold get_op. destruct (type_supported _ Hs) as [d Hd]. rewrite Hd.
    destruct (ring =? 2), (ring =? PRIME), o; reflexivity.
  Qed.
  Lemma get_op_mul : get_op ring OMul = Ok (rmul ring).
  Proof.
    unfold get_op. destruct (type_supported _ Hs) as [d Hd]. rewrite Hd.
    destruct (ring =? 2), (ring =? PRIME); reflexivity.
  Qed.

  Lemma rst_lin_views s o cf cg sx sy so vx vy xs ys : length xs = length ys ->
    shared ring sx vx xs -> shared ring sy vy ys -> bshape sx sy so ->
    exists zs, length zs = length xs /\
      shared ring so (s_lop ring o (bexpand sx so vx) (bexpand sy so vy)) zs /\
      forall k, (k < length xs)%nat -> rst_lin o (mkR ring (cf k) (Some (rs_uuid s k)) (rep_view xs k))
                        (mkR ring (cg k) (Some (rs_uuid s k)) (rep_view ys k)) =
                Ok (mkR ring (rst_cfg ring (cf k)) (Some (rs_uuid s k)) (rep_view zs k)).
  Proof.
    intros HL HX HY Hb. destruct (lin_shares ring Hs o _ _ _ _ _ _ _ HL HX HY Hb) as (zs & E & EL & HZ).
    exists zs. split; [exact EL|]. split; [exact HZ|]. intros k Hk.
    unfold rst_lin, rst_check. cbn [r_uuid r_shares r_ring]. rewrite Nat.eqb_refl. cbn [negb].
    rewrite !rep_view_length, HL, Nat.eqb_refl. cbn [negb]. rewrite Z.eqb_refl. cbn [negb rbind].
    rewrite get_op_lin. cbn [rbind].
    rewrite (rmap2_rep_view (tbin (r_lop ring o)) xs ys zs k HL) by (auto; apply HX). reflexivity.
  Qed.

  Lemma combine_rviews s cf cg xs ys : length xs = length ys ->
    combine (rviews s ring cf xs) (rviews s ring cg ys) =
    map (fun k => (mkR ring (cf k) (Some (rs_uuid s k)) (rep_view xs k),
                   mkR ring (cg k) (Some (rs_uuid s k)) (rep_view ys k))) (seq 0 (length xs)).
  Proof.
    intros HL. unfold rviews. rewrite <- HL. generalize (seq 0 (length xs)).
    induction l as [|i l IH]; cbn [map combine]; [reflexivity|]. rewrite IH. reflexivity.
  Qed.

  Lemma rmap_lin_views s o cf cg sx sy so vx vy xs ys : length xs = length ys ->
    shared ring sx vx xs -> shared ring sy vy ys -> bshape sx sy so ->
    exists zs, length zs = length xs /\
      shared ring so (s_lop ring o (bexpand sx so vx) (bexpand sy so vy)) zs /\
      rmap (fun p => rst_lin o (fst p) (snd p)) (combine (rviews s ring cf xs) (rviews s ring cg ys)) =
      Ok (rviews s ring (fun k => rst_cfg ring (cf k)) zs).
  Proof.
    intros HL HX HY Hb.
    destruct (rst_lin_views s o cf cg _ _ _ _ _ _ _ HL HX HY Hb) as (zs & EL & HZ & E).
    exists zs. split; [exact EL|]. split; [exact HZ|].
    rewrite combine_rviews by auto. rewrite rmap_map. cbn [fst snd].
    unfold rviews. rewrite EL. apply rmap_pointwise. intros k Hk. apply in_seq in Hk. apply E. lia.
  Qed.

  Lemma rm_lin_holds s o c d sx sy so vx vy x y : holds s ring c sx vx x -> holds s ring d sy vy y -> bshape sx sy so ->
    exists z, rm_lin o x y = Ok z /\
      holds s ring c so (s_lop ring o (bexpand sx so vx) (bexpand sy so vy)) z.
  Proof.
    intros HX HY Hb.
    destruct (holds_views _ _ _ _ _ _ HX) as (xs & cf & Hxs & Lx & -> & Hcf & _).
    destruct (holds_views _ _ _ _ _ _ HY) as (ys & cg & Hys & Ly & -> & Hcg & _).
    destruct (rmap_lin_views s o cf cg _ _ _ _ _ _ _ (eq_trans Lx (eq_sym Ly)) Hxs Hys Hb) as (zs & EL & HZ & E).
    unfold rm_lin. cbn [rm_sid rm_ps rm_shape]. rewrite Nat.eqb_refl. cbn [negb]. rewrite E. cbn [rbind].
    unfold shape_bin. rewrite (bcast_complete _ _ _ Hb). cbn [rbind].
    eexists. split; [reflexivity|]. apply views_holds; [exact HZ|rewrite EL; exact Lx|].
    intros k Hk. rewrite rst_cfg_idem. apply Hcf. lia.
  Qed.
End Ring.
