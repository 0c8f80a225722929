(** Lemmas on replicated sharings: public operands, truncation and multiplication. *)
From Coq Require Import QArith Setoid Morphisms.
From Verif Require Import Util Modular S_Ring S_Tensor S_Bil S_Spdz S_Rep M_Torch L_Torch M_Encoder M_Tensor L_Tensor M_Share L_Share M_Spdz L_Spdz L_Bil
  L_RShare L_Mul M_Session L_Session M_Rep S_RepT L_Rep.
Local Open Scope Z_scope.

(* ------------------------------------------------------------ public operands *)
Lemma cast_ring ring d v : get_type_from_ring ring = Ok d -> ring <> 2 -> ring <> 67 -> cast d v = to_ring ring v.
Proof.
  unfold get_type_from_ring. intros H H2 H67.
  destruct (Z.eqb_spec ring 2); [congruence|].
  destruct (Z.eqb_spec ring (2^8)) as [->|_]; [injection H as <-; reflexivity|].
  destruct (Z.eqb_spec ring 67); [congruence|].
  destruct (Z.eqb_spec ring (2^16)) as [->|_]; [injection H as <-; reflexivity|].
  destruct (Z.eqb_spec ring (2^32)) as [->|_]; [injection H as <-; reflexivity|].
  destruct (Z.eqb_spec ring (2^64)) as [->|_]; [injection H as <-; reflexivity|].
  discriminate.
Qed.

Lemma share_init_pub c p : share_init c p = mkT (pub_shape p) (encode c (pub_vals p)).
Proof. destruct p; reflexivity. Qed.
Lemma pub_mod_shape p : pub_shape (pub_mod p) = pub_shape p.
Proof. destruct p; reflexivity. Qed.
Lemma pub_mod_vals p : pub_vals (pub_mod p) = map num_mod (pub_vals p).
Proof. destruct p; reflexivity. Qed.
Lemma pub_ok_length p : pub_ok p -> length (pub_vals p) = numel (pub_shape p).
Proof. destruct p; cbn; auto. Qed.

Lemma rst_public_ok ring c x y w : supported ring -> r_ring x = ring -> rst_cfg ring (r_cfg x) = c ->
  pub_ok y -> pub_in ring c y w ->
  rst_public x y = Ok (mkT (pub_shape y) w) /\ tensor_in ring (pub_shape y) (mkT (pub_shape y) w).
Proof.
  intros Hs Hr Hc Hy Hw. destruct (type_supported _ Hs) as [d Hd]. unfold rst_public, rst_encode. rewrite Hr, Hd. cbn [rbind].
  rewrite share_init_pub. cbn [tsh tdat]. rewrite Hc.
  pose proof (pub_ok_length _ Hy) as HL. destruct Hw as [(-> & E & HB)|[(-> & zs & E & ->)|(N2 & N67 & ->)]].
  - injection Hd as <-. cbn in Hc. subst c. change (2 =? PRIME) with false. cbv iota.
    rewrite E. unfold encode. rewrite !map_map. rewrite Forall_forall in HB. split.
    + f_equal. f_equal. rewrite <- (map_id w) at 2. apply map_ext_in. intros z Hz.
      destruct (HB z Hz) as [->| ->]; reflexivity.
    + split; [reflexivity|]. cbn [tdat]. rewrite E, map_length in HL. split; [exact HL|].
      apply Forall_forall. intros z Hz. destruct (HB z Hz) as [->| ->]; reflexivity.
  - injection Hd as <-. cbn in Hc. subst c. change (67 =? PRIME) with true. cbv iota.
    rewrite pub_mod_shape, pub_mod_vals, E. unfold encode. rewrite !map_map. split.
    + f_equal. f_equal. apply map_ext. intros z. cbn [num_mod encode1]. unfold scale. cbn [c_base c_prec].
      change (1 ^ Z.of_nat 0) with 1. rewrite Z.mul_1_r. unfold PRIME.
      apply (cast_in_ring 67 TU8); [reflexivity|]. unfold in_ring, to_ring. cbn [Z.eqb orb Pos.eqb].
      apply Z.mod_mod. lia.
    + split; [reflexivity|]. cbn [tdat]. rewrite E, map_length in HL. rewrite map_length. split; [exact HL|].
      apply Forall_map, Forall_forall. intros z _. unfold in_ring, to_ring. cbn [Z.eqb orb Pos.eqb]. apply Z.mod_mod. lia.
  - assert (EP : (ring =? PRIME) = false) by (apply Z.eqb_neq; exact N67). rewrite EP. split.
    + f_equal. f_equal. apply map_ext. intros v. apply cast_ring; auto.
    + split; [reflexivity|]. cbn [tdat]. unfold encode. rewrite !map_length. split; [exact HL|].
      apply map_to_ring_in; auto.
Qed.

(* ------------------------------------------------------------ public addition *)
Lemma rep_view_set ss k t : (2 <= length ss)%nat -> (k < length ss)%nat -> k <> 1%nat ->
  get_nth (rep_view ss k) ((length ss - k) mod length ss) = Ok (nth 0 ss dT) /\
  set_nth ((length ss - k) mod length ss) t (rep_view ss k) = rep_view (set_nth 0 t ss) k.
Proof.
  intros Hn Hk H1. set (n := length ss) in *.
  assert (Hi : ((n - k) mod n < n - 1)%nat).
  { destruct k as [|[|k]]; [rewrite Nat.sub_0_r, Nat.mod_same by lia; lia|lia|rewrite Nat.mod_small by lia; lia]. }
  assert (Hki : ((k + (n - k) mod n) mod n = 0)%nat).
  { rewrite Nat.add_mod_idemp_r by lia. replace (k + (n - k))%nat with n by lia. apply Nat.mod_same. lia. }
  split.
  - rewrite rep_view_get by auto. fold n. rewrite Hki. reflexivity.
  - assert (HL : length (set_nth 0 t ss) = n) by (rewrite set_nth_length; reflexivity).
    apply (nth_ext_len dT).
    + rewrite set_nth_length, !rep_view_length, HL. reflexivity.
    + intros i Hii. rewrite set_nth_length, rep_view_length in Hii. fold n in Hii.
      rewrite (nth_set_nth dT) by (rewrite rep_view_length; fold n; lia).
      rewrite (rep_view_nth (set_nth 0 t ss)) by (rewrite HL; auto). rewrite HL.
      rewrite nth_set_nth by (fold n; lia).
      destruct (Nat.eqb_spec i ((n - k) mod n)) as [->|Hne].
      * rewrite Hki. reflexivity.
      * rewrite rep_view_nth by auto. fold n.
        destruct (Nat.eqb_spec ((k + i) mod n) 0) as [E|_]; [exfalso|reflexivity].
        apply Hne. destruct (Nat.eq_dec k 0) as [->|Hk0].
        -- cbn [plus] in E. rewrite Nat.mod_small in E by lia. rewrite Nat.sub_0_r, Nat.mod_same by lia. exact E.
        -- rewrite Nat.mod_small by lia. destruct (Nat.lt_ge_cases (k + i) n) as [L|G].
           ++ rewrite Nat.mod_small in E by lia. lia.
           ++ replace (k + i)%nat with ((k + i - n) + 1 * n)%nat in E by lia.
              rewrite Nat.mod_add in E by lia. rewrite Nat.mod_small in E by lia. lia.
Qed.

Lemma at_parties_views s f ring cf ss : length ss = rs_n s ->
  at_parties s f (rviews s ring cf ss) =
  rmap (fun k => f (mkPC (Z.of_nat k) (length ss)) (mkR ring (cf k) (Some (rs_uuid s k)) (rep_view ss k))) (seq 0 (length ss)).
Proof.
  intros HL. unfold at_parties. rewrite rviews_length. unfold rviews.
  assert (E : forall l, combine l (map (fun k => mkR ring (cf k) (Some (rs_uuid s k)) (rep_view ss k)) l) =
    map (fun k => (k, mkR ring (cf k) (Some (rs_uuid s k)) (rep_view ss k))) l).
  { induction l as [|i l IH]; cbn [map combine]; [reflexivity|]. rewrite IH. reflexivity. }
  rewrite E, rmap_map. cbn [fst snd]. rewrite HL. reflexivity.
Qed.

Ltac Zify.zify_post_hook ::= Z.div_mod_to_equations.
Lemma signed_range ring : supported ring -> ring <> 2 -> ring <> 67 ->
  exists h, 0 < h /\ ring = 2 * h /\ (forall u, in_ring ring u <-> - h <= u < h).
Proof.
  intros Hs N2 N67.
  destruct (supported_cases _ Hs) as [E|[E|[E|[E|[E|E]]]]]; try (exfalso; auto; fail); rewrite E;
    [exists (2^7)|exists (2^15)|exists (2^31)|exists (2^63)]; (split; [reflexivity|]); (split; [reflexivity|]); intros u;
    unfold in_ring, to_ring.
  - change ((2^8 =? 2) || (2^8 =? 67)) with false. cbv iota. lia.
  - change ((2^16 =? 2) || (2^16 =? 67)) with false. cbv iota. lia.
  - change ((2^32 =? 2) || (2^32 =? 67)) with false. cbv iota. lia.
  - change ((2^64 =? 2) || (2^64 =? 67)) with false. cbv iota. lia.
Qed.
Ltac Zify.zify_post_hook ::= idtac.

Section Ring.
  Variable ring : Z.
  Hypothesis Hs : supported ring.
  Let Hp : 0 < ring := supported_pos ring Hs.

  Lemma rm_lin_public_holds s o c sh vx x y w : (2 <= rs_n s)%nat -> holds s ring c sh vx x -> pub_ok y ->
    pub_in ring c y w -> bshape sh (pub_shape y) sh ->
    exists z, rm_lin_public s o x y = Ok z /\
      holds s ring c sh (s_lop ring o vx (bexpand (pub_shape y) sh w)) z.
  Proof.
    intros Hn HX Hy Hw Hb. destruct (holds_views _ _ _ _ _ _ HX) as (xs & cf & Hxs & Lx & -> & Hcf & HU).
    unfold rm_lin_public. cbn [rm_ps rm_shape rm_sid]. rewrite at_parties_views by auto.
    destruct xs as [|s0 rest]; [cbn in Lx; lia|].
    assert (HT : tensor_in ring (pub_shape y) (mkT (pub_shape y) w)).
    { apply (rst_public_ok ring c (mkR ring c None []) y w); auto. cbn [r_cfg]. apply unscaled_cfg; auto. }
    destruct (lin_first ring Hs o sh (pub_shape y) vx s0 rest _ Hxs HT Hb) as (s0' & E0 & HZ). cbn [tdat] in HZ.
    rewrite (rmap_pointwise _ (fun k => mkR ring (rst_cfg ring (cf k)) (Some (rs_uuid s k)) (rep_view (s0' :: rest) k))).
    - cbn [rbind]. unfold shape_bin. rewrite (bcast_complete _ _ _ Hb). cbn [rbind].
      eexists. split; [reflexivity|].
      apply (views_holds s ring c sh _ (s0' :: rest) (fun k => rst_cfg ring (cf k))); [exact HZ|exact Lx|].
      intros k Hk. rewrite rst_cfg_idem. apply Hcf. exact Hk.
    - intros k Hk. apply in_seq in Hk. unfold rst_lin_public.
      destruct (rst_public_ok ring c (mkR ring (cf k) (Some (rs_uuid s k)) (rep_view (s0 :: rest) k)) y w) as [-> _]; auto.
      { cbn [r_cfg]. apply Hcf. lia. }
      cbn [rbind]. unfold ctx_of. cbn [r_uuid r_ring pc_rank pc_nr r_shares].
      rewrite (get_op_lin ring Hs o). cbn [rbind].
      destruct (Z.eqb_spec (Z.of_nat k) 1) as [E1|N1].
      + assert (k = 1%nat) by lia. subst k. rewrite !rep_view_one by (cbn; lia). reflexivity.
      + assert (EI : Z.to_nat ((Z.of_nat (length (s0 :: rest)) - Z.of_nat k) mod Z.of_nat (length (s0 :: rest))) =
                     ((length (s0 :: rest) - k) mod length (s0 :: rest))%nat).
        { rewrite <- Nat2Z.inj_sub by lia. rewrite <- Nat2Z.inj_mod. apply Nat2Z.id. }
        rewrite EI. destruct (rep_view_set (s0 :: rest) k s0') as [G1 G2]; try lia.
        rewrite G1. cbn [rbind nth]. rewrite E0. cbn [rbind]. rewrite G2. reflexivity.
  Qed.

  (* ---------------------------------------------------------- truncation *)
  Lemma scale_down_elt c v : trunc_elt c v = scale_down c v.
  Proof.
    unfold trunc_elt, scale_down, scale. destruct (Z.eqb_spec (c_base c) 2) as [E|N].
    - destruct (Z.eq_dec (c_base c) 2); [|congruence]. apply Z.shiftr_div_pow2. lia.
    - destruct (Z.eq_dec (c_base c) 2); [congruence|reflexivity].
  Qed.

  Lemma scale_down_in c v : ring <> 2 -> ring <> 67 -> cfg_ok c -> in_ring ring v -> in_ring ring (scale_down c v).
  Proof.
    intros N2 N67 Hc Hv.
    destruct (signed_range ring Hs N2 N67) as (h & Hh & _ & R). apply R. apply R in Hv. unfold scale_down.
    destruct (Z.eq_dec (c_base c) 2) as [_|_].
    - assert (P : 0 < 2 ^ Z.of_nat (c_prec c)) by (apply Z.pow_pos_nonneg; lia).
      pose proof (Z.div_mod v (2 ^ Z.of_nat (c_prec c)) ltac:(lia)) as E.
      pose proof (Z.mod_pos_bound v (2 ^ Z.of_nat (c_prec c)) P).
      split; [apply Z.div_le_lower_bound; nia | apply Z.div_lt_upper_bound; nia].
    - assert (P : 0 < c_base c ^ Z.of_nat (c_prec c)) by (apply Z.pow_pos_nonneg; unfold cfg_ok in Hc; lia).
      set (m := c_base c ^ Z.of_nat (c_prec c)) in *.
      destruct (Z.le_gt_cases 0 v) as [G|L].
      + rewrite Z.quot_div_nonneg by lia. split; [apply Z.div_le_lower_bound; nia | apply Z.div_lt_upper_bound; nia].
      + replace v with (- (- v)) by lia. rewrite Z.quot_opp_l by lia. rewrite Z.quot_div_nonneg by lia.
        pose proof (Z.div_pos (- v) m ltac:(lia) P).
        pose proof (Z.div_le_upper_bound (- v) m h P ltac:(nia)). lia.
  Qed.
End Ring.
