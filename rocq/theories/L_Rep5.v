(** Lemmas on products by public values and on tampered shares. *)
From Coq Require Import QArith Setoid Morphisms.
From Verif Require Import Util Modular S_Ring S_Tensor S_Bil S_Spdz S_Rep M_Torch L_Torch M_Encoder M_Tensor L_Tensor M_Share L_Share M_Spdz L_Spdz L_Bil
  L_RShare L_Mul M_Session L_Session M_Rep S_RepT L_Rep L_Rep2 L_Rep3 L_Rep4.
Local Open Scope Z_scope.

Section Ring.
  Variable ring : Z.
  Hypothesis Hs : supported ring.
  Let Hp : 0 < ring := supported_pos ring Hs.

  Lemma rst_mul_public_views s sx sy so c cf vx xs y w : length xs = rs_n s ->
    shared ring sx vx xs -> (forall k, (k < length xs)%nat -> rst_cfg ring (cf k) = c) -> unscaled ring c ->
    pub_ok y -> pub_in ring c y w -> sy = pub_shape y -> bshape sx sy so ->
    exists zs, length zs = length xs /\ shared ring so (mul_vr ring sx sy so vx w) zs /\
      forall k, (k < length xs)%nat ->
        rst_mul_public (mkR ring (cf k) (Some (rs_uuid s k)) (rep_view xs k)) y =
        Ok (mkR ring (rst_cfg ring (cf k)) (Some (rs_uuid s k)) (rep_view zs k)) /\
        rmap (fun a => tbin (rmul ring) a (mkT sy w)) xs = Ok zs.
  Proof.
    intros HL HX Hc HU Hy Hw Es Hb.
    assert (HT : tensor_in ring sy (mkT sy w)).
    { subst sy. apply (rst_public_ok ring c (mkR ring c None []) y w); auto. cbn [r_cfg]. apply unscaled_cfg; auto. }
    destruct (bil_shares_right ring Hs SMul sx sy so _ vx xs (mkT sy w) (prod_mul_r ring sx sy so Hb) HX HT) as (zs & E & LZ & SZ).
    cbn [tdat] in SZ. exists zs. split; [exact LZ|]. split; [exact SZ|]. intros k Hk.
    unfold rst_mul_public.
    destruct (rst_public_ok ring c (mkR ring (cf k) (Some (rs_uuid s k)) (rep_view xs k)) y w) as [-> _]; auto.
    { cbn [r_cfg]. apply Hc. lia. }
    cbn [rbind r_ring r_shares]. rewrite (get_op_mul ring Hs). cbn [rbind]. rewrite <- Es.
    assert (E' : rmap (fun s0 => tbin (rmul ring) s0 (mkT sy w)) xs = Ok zs).
    { rewrite <- E. apply rmap_ext. intros a _. cbn [bop_of]. symmetry. apply tbil_mul. }
    rewrite (rmap_rep_view _ _ _ k (proj1 HX) E'). auto.
  Qed.

  (** the products at the parties, for any number of them *)
  Lemma mul_public_local s c sx so vx x y w :
    holds s ring c sx vx x -> pub_ok y -> pub_in ring c y w -> bshape sx (pub_shape y) so ->
    exists ps, at_parties s (fun _ p => rst_mul_public p y) (rm_ps x) = Ok ps /\
      holds s ring c so (mul_vr ring sx (pub_shape y) so vx w) (mkRM (rs_id s) so ps).
  Proof.
    intros HX Hy Hw Hb. destruct (holds_views _ _ _ _ _ _ HX) as (xs & cf & Hxs & Lx & -> & Hcf & HU).
    destruct (rst_mul_public_views s sx (pub_shape y) so c cf vx xs y w Lx Hxs Hcf HU Hy Hw eq_refl Hb) as (zs & LZ & SZ & FZ).
    cbn [rm_ps]. rewrite at_parties_views by auto.
    rewrite (rmap_pointwise _ (fun k => mkR ring (rst_cfg ring (cf k)) (Some (rs_uuid s k)) (rep_view zs k))).
    2:{ intros k Hk. apply in_seq in Hk. apply FZ. lia. }
    eexists. split; [reflexivity|]. rewrite <- LZ. fold (rviews s ring (fun k => rst_cfg ring (cf k)) zs).
    apply views_holds; [auto|lia|]. intros k Hk. rewrite rst_cfg_idem. apply Hcf. lia.
  Qed.

  Lemma rm_mul_public_ok s c sx so vx x y w rnd : rs_n s = 3%nat -> cfg_ok c ->
    holds s ring c sx vx x -> pub_ok y -> pub_in ring c y w -> bshape sx (pub_shape y) so -> tensor_in ring so rnd ->
    exists z zs ps, rm_bil_public s BMul x y rnd = Ok z /\
      at_parties s (fun _ p => rst_mul_public p y) (rm_ps x) = Ok ps /\
      map r_shares ps = map (rep_view zs) (seq 0 3) /\ length zs = 3%nat /\
      shared ring so (mul_vr ring sx (pub_shape y) so vx w) zs /\
      holds s ring c so (trunc_value ring c so zs (mul_vr ring sx (pub_shape y) so vx w)) z /\
      exists xs, shared ring sx vx xs /\ rmap (fun a => tbin (rmul ring) a (mkT (pub_shape y) w)) xs = Ok zs.
  Proof.
    intros Hn HO HX Hy Hw Hb HR. destruct (holds_views _ _ _ _ _ _ HX) as (xs & cf & Hxs & Lx & -> & Hcf & HU).
    destruct (rst_mul_public_views s sx (pub_shape y) so c cf vx xs y w Lx Hxs Hcf HU Hy Hw eq_refl Hb) as (zs & LZ & SZ & FZ).
    unfold rm_bil_public. cbn [rm_ps rm_shape rm_sid]. rewrite at_parties_views by auto.
    rewrite (rmap_pointwise _ (fun k => mkR ring (rst_cfg ring (cf k)) (Some (rs_uuid s k)) (rep_view zs k))).
    2:{ intros k Hk. apply in_seq in Hk. apply FZ. lia. }
    cbn [rbind].
    destruct (product_index_r ring _ _ _ _ _ (prod_mul_r ring _ _ _ Hb)) as (ix & EI & _). cbn [bop_of] in EI.
    unfold shape_bil. rewrite EI. cbn [rbind].
    unfold first_ring. cbn [rm_ps]. rewrite rviews_get by lia. cbn [rbind fst snd r_ring r_cfg].
    rewrite <- LZ. fold (rviews s ring (fun k => rst_cfg ring (cf k)) zs).
    destruct (aby3_replicated ring Hs s (fun k => rst_cfg ring (cf k)) c so _ zs rnd Hn SZ ltac:(lia)) as (z & E & H); auto.
    { intros k Hk. rewrite rst_cfg_idem. apply Hcf. lia. }
    exists z, zs, (rviews s ring (fun k => rst_cfg ring (cf k)) zs). split; [|split; [reflexivity|split; [|split; [lia|split; [auto|split; [auto|]]]]]].
    3:{ exists xs. split; [auto|]. apply (FZ 0%nat). lia. }
    2:{ rewrite rviews_shares. replace (length zs) with 3%nat by lia. reflexivity. }
    rewrite <- E.
    unfold aby3_truncate. rewrite Hn. cbn [Nat.eqb negb]. unfold PRIME.
    destruct ((ring =? 2) || (ring =? 67)) eqn:E2; [reflexivity|].
    rewrite rst_cfg_scaled by (intros ->; discriminate). reflexivity.
  Qed.

  (* ---------------------------------------------------------- tampering *)
  Definition rec_step (ps : list rst) (k : nat) : result tensor :=
    do p <- get_nth ps k;
    do q <- get_nth ps ((k + 1) mod length ps)%nat;
    do s0 <- get_nth (r_shares p) 0;
    shares_sum ring (s0 :: r_shares q).

  Lemma reconstruct_loop_ok ps sh t : forall ranks v0,
    (forall k, In k ranks -> rec_step ps k = Ok (t k) /\ tensor_in ring sh (t k)) -> tensor_in ring sh v0 ->
    reconstruct_loop ring ps ranks (Some v0) =
    if forallb (fun k => if list_eq_dec Z.eq_dec (tdat (t k)) (tdat v0) then true else false) ranks
    then Ok v0 else Err ValueError.
  Proof.
    induction ranks as [|k r IH]; intros v0 Hk Hv; cbn [reconstruct_loop forallb]; [reflexivity|].
    destruct (Hk k (or_introl eq_refl)) as (E & HT). unfold rec_step in E.
    destruct (get_nth ps k) as [p|]; [|discriminate]. cbn [rbind] in *.
    destruct (get_nth ps ((k + 1) mod length ps)) as [q|]; [|discriminate]. cbn [rbind] in *.
    destruct (get_nth (r_shares p) 0) as [s0|]; [|discriminate]. cbn [rbind] in *.
    rewrite E. cbn [rbind]. rewrite (tdiffer_same ring (t k) v0 sh) by auto.
    destruct (list_eq_dec Z.eq_dec (tdat (t k)) (tdat v0)); cbn [negb andb rbind]; [|reflexivity].
    apply IH; auto. intros; apply Hk; simpl; auto.
  Qed.

  Lemma tampered_views s cf j ts ss :
    tampered j ts (rviews s ring cf ss) =
    map (fun k => mkR ring (cf k) (Some (rs_uuid s k)) (if Nat.eqb k j then ts else rep_view ss k)) (seq 0 (length ss)).
  Proof.
    unfold tampered. rewrite rviews_length. unfold rviews.
    assert (E : forall l, combine l (map (fun k => mkR ring (cf k) (Some (rs_uuid s k)) (rep_view ss k)) l) =
      map (fun k => (k, mkR ring (cf k) (Some (rs_uuid s k)) (rep_view ss k))) l).
    { induction l as [|i l IH]; cbn [map combine]; [reflexivity|]. rewrite IH. reflexivity. }
    rewrite E, map_map. apply map_ext. intros k. cbn [fst snd r_ring r_cfg r_uuid]. destruct (Nat.eqb k j); reflexivity.
  Qed.

  (** what the pair (k, k+1) of parties adds up after the change *)
  Definition pair_list (j : nat) (ts ss : list tensor) (k : nat) : list tensor :=
    let sharesof i := if Nat.eqb i j then ts else rep_view ss i in
    hd dT (sharesof k) :: sharesof ((k + 1) mod length ss)%nat.
  Definition pair_val (sh : list nat) (j : nat) (ts ss : list tensor) (k : nat) : tensor :=
    mkT sh (s_sum ring (numel sh) (map tdat (pair_list j ts ss k))).

  Lemma pair_list_in sh j ts ss k : Forall (tensor_in ring sh) ss -> Forall (tensor_in ring sh) ts -> ts <> [] -> (2 <= length ss)%nat ->
    Forall (tensor_in ring sh) (pair_list j ts ss k).
  Proof.
    intros HS HT Hne Hn.
    assert (G : forall i, Forall (tensor_in ring sh) (if Nat.eqb i j then ts else rep_view ss i)).
    { intros i. destruct (Nat.eqb i j); [auto|]. apply Forall_map, Forall_forall. intros m _.
      apply Forall_nth_in; auto. apply Nat.mod_upper_bound. lia. }
    constructor; [|apply G]. specialize (G k).
    destruct (if Nat.eqb k j then ts else rep_view ss k) as [|a l] eqn:E; [|inversion G; auto].
    exfalso. destruct (Nat.eqb k j); [congruence|]. apply (f_equal (@length _)) in E. rewrite rep_view_length in E. cbn in E. lia.
  Qed.

  Lemma rec_step_tampered s cf sh j ts ss k : Forall (tensor_in ring sh) ss -> Forall (tensor_in ring sh) ts -> ts <> [] ->
    (2 <= length ss)%nat -> (k < length ss)%nat ->
    rec_step (tampered j ts (rviews s ring cf ss)) k = Ok (pair_val sh j ts ss k) /\ tensor_in ring sh (pair_val sh j ts ss k).
  Proof.
    intros HS HT Hne Hn Hk. pose proof (pair_list_in sh j ts ss k HS HT Hne Hn) as HP. split.
    2:{ split; [reflexivity|]. cbn [pair_val tdat]. split; [apply s_sum_length|apply s_sum_in; auto]. }
    unfold rec_step. rewrite tampered_views. rewrite map_length, seq_length.
    assert (G : forall i, (i < length ss)%nat -> get_nth (map (fun k => mkR ring (cf k) (Some (rs_uuid s k)) (if Nat.eqb k j then ts else rep_view ss k)) (seq 0 (length ss))) i =
       Ok (mkR ring (cf i) (Some (rs_uuid s i)) (if Nat.eqb i j then ts else rep_view ss i))).
    { intros i Hi. unfold get_nth. rewrite (map_nth_error_eq _ _ _ i); [reflexivity|].
      rewrite (nth_error_nth' _ 0%nat) by (rewrite seq_length; auto). rewrite nth_seq_lt by auto. reflexivity. }
    rewrite !G by (auto; apply Nat.mod_upper_bound; lia). cbn [rbind r_shares].
    assert (E0 : get_nth (if Nat.eqb k j then ts else rep_view ss k) 0 = Ok (hd dT (if Nat.eqb k j then ts else rep_view ss k))).
    { destruct (if Nat.eqb k j then ts else rep_view ss k) as [|a l] eqn:E; [|reflexivity].
      exfalso. destruct (Nat.eqb k j); [congruence|]. apply (f_equal (@length _)) in E. rewrite rep_view_length in E. cbn in E. lia. }
    rewrite E0. cbn [rbind]. unfold shares_sum. apply (tsum_spec ring Hs sh); auto. discriminate.
  Qed.

  (** the two parties k, k+1 being honest *)
  Lemma pair_honest sh v j ts ss k : shared ring sh v ss -> (2 <= length ss)%nat -> (k < length ss)%nat ->
    k <> j -> ((k + 1) mod length ss)%nat <> j -> pair_val sh j ts ss k = mkT sh v.
  Proof.
    intros HX Hn Hk N1 N2. unfold pair_val, pair_list. apply Nat.eqb_neq in N1, N2. rewrite N1, N2.
    rewrite Nat.add_1_r, rep_view_mod.
    assert (E : hd dT (rep_view ss k) = nth (k mod length ss) ss dT).
    { pose proof (rep_view_nth ss k 0 ltac:(lia)) as E. rewrite Nat.add_0_r in E. rewrite <- E.
      destruct (rep_view ss k); reflexivity. }
    rewrite E. destruct (rotation_shared ring Hs sh v ss k HX) as (_ & _ & EV). rewrite <- EV. reflexivity.
  Qed.

  Lemma honest_rank n j : (3 <= n)%nat -> (j < n)%nat -> exists k, (k < n)%nat /\ k <> j /\ ((k + 1) mod n)%nat <> j.
  Proof.
    intros Hn Hj. exists ((j + 1) mod n)%nat. split; [apply Nat.mod_upper_bound; lia|].
    destruct (Nat.eq_dec (j + 1) n) as [E|N].
    - rewrite E, Nat.mod_same by lia. split; [lia|]. rewrite Nat.mod_small by lia. lia.
    - rewrite (Nat.mod_small (j + 1)) by lia. split; [lia|].
      destruct (Nat.eq_dec (j + 1 + 1) n) as [E|N']; [rewrite E, Nat.mod_same by lia; lia|rewrite Nat.mod_small by lia; lia].
  Qed.

  Lemma reconstruct_tampered s cf sh v j ts ss : shared ring sh v ss -> (2 <= length ss)%nat -> (j < length ss)%nat ->
    Forall (tensor_in ring sh) ts -> ts <> [] ->
    reconstruct_mal (tampered j ts (rviews s ring cf ss)) =
    if forallb (fun k => if list_eq_dec Z.eq_dec (tdat (pair_val sh j ts ss k)) (tdat (pair_val sh j ts ss 0)) then true else false)
         (seq 1 (length ss - 1))
    then Ok (pair_val sh j ts ss 0) else Err ValueError.
  Proof.
    intros HX Hn Hj HT Hne. pose proof HX as (_ & HS & _).
    assert (HK : forall k, (k < length ss)%nat -> rec_step (tampered j ts (rviews s ring cf ss)) k = Ok (pair_val sh j ts ss k) /\
       tensor_in ring sh (pair_val sh j ts ss k)) by (intros; apply rec_step_tampered; auto).
    unfold reconstruct_mal.
    assert (E0 : exists p0, get_nth (tampered j ts (rviews s ring cf ss)) 0 = Ok p0 /\ r_ring p0 = ring).
    { rewrite tampered_views. destruct (length ss) as [|n]; [lia|]. cbn [seq map]. eexists. split; reflexivity. }
    destruct E0 as (p0 & -> & ER). cbn [rbind]. rewrite ER.
    assert (EL : length (tampered j ts (rviews s ring cf ss)) = length ss)
      by (rewrite tampered_views, map_length, seq_length; auto).
    rewrite EL. destruct (length ss) as [|n] eqn:EN; [lia|]. cbn [seq reconstruct_loop].
    replace (S n - 1)%nat with n by lia.
    destruct (HK 0%nat ltac:(lia)) as (E & HT0). unfold rec_step in E.
    destruct (get_nth (tampered j ts (rviews s ring cf ss)) 0) as [p|]; [|discriminate]. cbn [rbind] in *.
    destruct (get_nth (tampered j ts (rviews s ring cf ss)) ((0 + 1) mod length (tampered j ts (rviews s ring cf ss)))) as [q|]; [|discriminate]. cbn [rbind] in *.
    destruct (get_nth (r_shares p) 0) as [s0|]; [|discriminate]. cbn [rbind] in *.
    rewrite E. cbn [rbind]. apply (reconstruct_loop_ok _ sh); auto.
    intros k Hk. apply in_seq in Hk. apply HK. lia.
  Qed.

  Lemma tampered_sound s cf sh v j ts ss : shared ring sh v ss -> (3 <= length ss)%nat -> (j < length ss)%nat ->
    Forall (tensor_in ring sh) ts -> ts <> [] ->
    reconstruct_mal (tampered j ts (rviews s ring cf ss)) = Err ValueError \/
    (reconstruct_mal (tampered j ts (rviews s ring cf ss)) = Ok (mkT sh v) /\
     forall k, (k < length ss)%nat -> pair_val sh j ts ss k = mkT sh v).
  Proof.
    intros HX Hn Hj HT Hne. rewrite (reconstruct_tampered s cf sh v) by (auto; lia).
    destruct (forallb _ (seq 1 (length ss - 1))) eqn:EF; [right|left; reflexivity].
    rewrite forallb_forall in EF.
    assert (EA : forall k, (k < length ss)%nat -> pair_val sh j ts ss k = pair_val sh j ts ss 0).
    { intros k Hk. destruct k as [|k]; [reflexivity|].
      specialize (EF (S k) ltac:(apply in_seq; lia)). unfold pair_val in *. cbn [tdat] in EF.
      destruct (list_eq_dec Z.eq_dec _ _) as [E|]; [|discriminate]. rewrite E. reflexivity. }
    destruct (honest_rank (length ss) j Hn Hj) as (k & Hk & N1 & N2).
    pose proof (pair_honest sh v j ts ss k HX ltac:(lia) Hk N1 N2) as EH.
    rewrite EA in EH by auto. split; [congruence|]. intros i Hi. rewrite EA by auto. exact EH.
  Qed.

  (** with three parties the shares themselves are then unchanged *)
  Lemma tampered_three s cf sh v j a b ss : shared ring sh v ss -> length ss = 3%nat -> (j < 3)%nat ->
    tensor_in ring sh a -> tensor_in ring sh b ->
    reconstruct_mal (tampered j [a; b] (rviews s ring cf ss)) <> Err ValueError -> [a; b] = rep_view ss j.
  Proof.
    intros HX HL Hj Ha Hb HR.
    destruct (tampered_sound s cf sh v j [a; b] ss HX ltac:(lia) ltac:(lia)) as [E|[_ E]]; auto; [discriminate|congruence|].
    pose proof HX as (_ & HS & EV).
    destruct (three ss HL) as (s0 & s1 & s2 & ->).
    inversion HS as [|? ? A0 HS']; inversion HS' as [|? ? A1 HS'']; inversion HS'' as [|? ? A2 _]; subst; clear HS HS' HS''.
    assert (EQ : forall t u, tensor_in ring sh t -> tensor_in ring sh u ->
      (forall e, (e < numel sh)%nat -> nth e (tdat t) 0 == nth e (tdat u) 0 [mod ring]) -> t = u).
    { intros [ts tv] [us uv] (T1 & T2 & T3) (U1 & U2 & U3) H. cbn in *. subst. f_equal. apply (vec_eq ring Hs); auto; try lia.
      intros e He. apply H. lia. }
    assert (CO : forall k e, (k < 3)%nat -> (e < numel sh)%nat ->
      zsum (map (fun t => nth e (tdat t) 0) (pair_list j [a; b] [s0; s1; s2] k)) ==
      zsum (map (fun t => nth e (tdat t) 0) [s0; s1; s2]) [mod ring]).
    { intros k e Hk He. specialize (E k Hk). unfold pair_val in E. revert E.
      generalize (pair_list j [a; b] [s0; s1; s2] k). generalize [s0; s1; s2]. intros l1 l2 E.
      apply (f_equal (fun t => nth e (tdat t) 0)) in E. cbn [tdat] in E. rewrite !s_sum_nth in E by auto. rewrite !map_map in E.
      rewrite <- (to_ring_eqmod ring (zsum (map _ l2)) Hp), E, to_ring_eqmod by apply Hp. reflexivity. }
    destruct j as [|[|[|]]]; [| | |lia].
    - pose proof (fun e => CO 0%nat e ltac:(lia)) as C0. pose proof (fun e => CO 2%nat e ltac:(lia)) as C2.
      unfold pair_list in C0, C2.
      change ((0 + 1) mod length [s0; s1; s2])%nat with 1%nat in C0. change ((2 + 1) mod length [s0; s1; s2])%nat with 0%nat in C2.
      cbn [Nat.eqb] in C0, C2. rewrite ?rv0, ?rv1, ?rv2 in *. cbn [hd map zsum] in C0, C2.
      assert (a = s0) as ->. { apply EQ; auto. intros e He. specialize (C0 e He).
        apply (eqmod_add_cancel_r _ (nth e (tdat s1) 0 + (nth e (tdat s2) 0 + 0))). rewrite C0. apply eqmod_eq; lia. }
      assert (b = s1) as ->; [|reflexivity]. apply EQ; auto. intros e He. specialize (C2 e He).
        apply (eqmod_add_cancel_r _ (nth e (tdat s0) 0 + nth e (tdat s2) 0)).
        etransitivity; [|etransitivity; [exact C2|]]; apply eqmod_eq; lia.
    - pose proof (fun e => CO 1%nat e ltac:(lia)) as C0. pose proof (fun e => CO 0%nat e ltac:(lia)) as C2.
      unfold pair_list in C0, C2.
      change ((1 + 1) mod length [s0; s1; s2])%nat with 2%nat in C0. change ((0 + 1) mod length [s0; s1; s2])%nat with 1%nat in C2.
      cbn [Nat.eqb] in C0, C2. rewrite ?rv0, ?rv1, ?rv2 in *. cbn [hd map zsum] in C0, C2.
      assert (a = s1) as ->. { apply EQ; auto. intros e He. specialize (C0 e He).
        apply (eqmod_add_cancel_r _ (nth e (tdat s0) 0 + (nth e (tdat s2) 0 + 0))).
        etransitivity; [|etransitivity; [exact C0|]]; apply eqmod_eq; lia. }
      assert (b = s2) as ->; [|reflexivity]. apply EQ; auto. intros e He. specialize (C2 e He).
        apply (eqmod_add_cancel_r _ (nth e (tdat s0) 0 + nth e (tdat s1) 0)).
        etransitivity; [|etransitivity; [exact C2|]]; apply eqmod_eq; lia.
    - pose proof (fun e => CO 2%nat e ltac:(lia)) as C0. pose proof (fun e => CO 1%nat e ltac:(lia)) as C2.
      unfold pair_list in C0, C2.
      change ((2 + 1) mod length [s0; s1; s2])%nat with 0%nat in C0. change ((1 + 1) mod length [s0; s1; s2])%nat with 2%nat in C2.
      cbn [Nat.eqb] in C0, C2. rewrite ?rv0, ?rv1, ?rv2 in *. cbn [hd map zsum] in C0, C2.
      assert (a = s2) as ->. { apply EQ; auto. intros e He. specialize (C0 e He).
        apply (eqmod_add_cancel_r _ (nth e (tdat s0) 0 + (nth e (tdat s1) 0 + 0))).
        etransitivity; [|etransitivity; [exact C0|]]; apply eqmod_eq; lia. }
      assert (b = s0) as ->; [|reflexivity]. apply EQ; auto. intros e He. specialize (C2 e He).
        apply (eqmod_add_cancel_r _ (nth e (tdat s1) 0 + nth e (tdat s2) 0)).
        etransitivity; [|etransitivity; [exact C2|]]; apply eqmod_eq; lia.
  Qed.
End Ring.
