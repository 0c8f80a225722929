(** Lemmas on the local division, shift and equality of replicated share objects. *)
From Coq Require Import QArith Setoid Morphisms.
From Verif Require Import Util Modular S_Ring S_Tensor S_Bil S_View S_Spdz S_Rep M_Torch L_Torch M_Encoder M_Tensor L_Tensor M_Share L_Share L_View
  M_Spdz L_Spdz L_Bil L_RShare L_Mul M_Session L_Session M_Rep S_RepT L_Rep L_Rep2 M_RepView S_RepView L_RepView.
Local Open Scope Z_scope.

Lemma holds_sharing s ring c sh v x ss : supported ring -> holds s ring c sh v x -> shared ring sh v ss ->
  map r_shares (rm_ps x) = map (rep_view ss) (seq 0 (length ss)) ->
  exists cf, length ss = rs_n s /\ x = mkRM (rs_id s) sh (rviews s ring cf ss) /\
    (forall k, (k < length ss)%nat -> rst_cfg ring (cf k) = c).
Proof.
  intros Hsup HX Hss HV. destruct (holds_views _ _ _ _ _ _ HX) as (ss' & cf & Hss' & HL & -> & Hc & _).
  cbn [rm_ps] in HV. rewrite rviews_shares in HV.
  assert (LE : length ss = length ss').
  { apply (f_equal (@length _)) in HV. rewrite !map_length, !seq_length in HV. auto. }
  exists cf. split; [lia|]. split; [|rewrite LE; exact Hc]. f_equal. unfold rviews. rewrite LE.
  apply map_ext_in. intros k Hk. f_equal. rewrite LE in HV.
  apply (f_equal (fun l => nth k l [])) in HV. apply in_seq in Hk.
  rewrite !(nth_map_in _ 0%nat) in HV by (rewrite seq_length; lia). rewrite nth_seq_lt in HV by lia. exact HV.
Qed.

(** a function applied to every element of every share *)
Definition tmap (g : Z -> Z) (t : tensor) : tensor := mkT (tsh t) (map g (tdat t)).
Lemma tmap_shared ring g sh v ss : supported ring -> shared ring sh v ss -> (forall u, in_ring ring u -> in_ring ring (g u)) ->
  shared ring sh (map (fun e => to_ring ring (zsum (map (fun t => g (nth e (tdat t) 0)) ss))) (seq 0 (numel sh))) (map (tmap g) ss).
Proof.
  intros Hs (H1 & H2 & H3) HG. pose proof (supported_pos _ Hs) as Hp. rewrite Forall_forall in H2.
  apply shared_intro; auto.
  - destruct ss; [congruence|discriminate].
  - apply Forall_map, Forall_forall. intros t Ht. destruct (H2 t Ht) as (T1 & T2 & T3).
    split; [exact T1|]. cbn [tmap tdat]. split; [rewrite map_length; auto|].
    apply Forall_map. revert T3. apply Forall_impl. exact HG.
  - rewrite map_length, seq_length. reflexivity.
  - apply Forall_map, Forall_forall. intros e _. apply in_to_ring; auto.
  - intros e He. rewrite (nth_map_in _ 0%nat) by (rewrite seq_length; auto). rewrite nth_seq_lt by auto. cbn [plus].
    rewrite to_ring_eqmod by auto. rewrite map_map. apply zsum_eqmod. intros t Ht. cbn [tmap tdat].
    destruct (H2 t Ht) as (T1 & T2 & T3). rewrite (nth_map_in g 0 0) by lia. reflexivity.
Qed.

Lemma tmap_views s ring cf ss g (F : rst -> result rst) : ss <> [] ->
  (forall p, r_ring p = ring -> F p = Ok (rst_like p (map (tmap g) (r_shares p)))) ->
  rmap F (rviews s ring cf ss) = Ok (rviews s ring (fun k => rst_cfg ring (cf k)) (map (tmap g) ss)).
Proof.
  intros HN HF. unfold rviews. rewrite rmap_map, map_length. apply rmap_pointwise. intros k _. rewrite HF by reflexivity.
  unfold rst_like, rst_make. cbn [r_ring r_cfg r_uuid r_shares]. do 2 f_equal.
  destruct (rep_view_map (tmap g) ss k) as [E|E]; [rewrite E; apply map_ext; auto|congruence].
Qed.

Lemma quot_bound ring y u : supported ring -> ring <> 2 -> ring <> 67 -> in_ring ring u -> in_ring ring (plain_op ring Z.quot u y).
Proof. intros. rewrite plain_spec by auto. apply in_to_ring, supported_pos; auto. Qed.

(** sum of the quotients *)
Lemma zsum_quot y l : y <> 0 -> Z.abs (y * zsum (map (fun u => Z.quot u y) l) - zsum l) <= Z.of_nat (length l) * (Z.abs y - 1).
Proof.
  intros Hy. induction l as [|u l IH]; cbn [map zsum fold_right length]; [lia|].
  fold (zsum l). fold (zsum (map (fun u => Z.quot u y) l)).
  pose proof (Z.quot_rem u y Hy) as E. pose proof (Z.rem_bound_abs u y Hy) as B.
  rewrite Nat2Z.inj_succ. lia.
Qed.
Lemma zsum_shift k l : 0 <= k ->
  2^k * zsum (map (fun u => Z.shiftr u k) l) <= zsum l <= 2^k * zsum (map (fun u => Z.shiftr u k) l) + Z.of_nat (length l) * (2^k - 1).
Proof.
  intros Hk. assert (Hp : 0 < 2^k) by (apply Z.pow_pos_nonneg; lia).
  induction l as [|u l IH]; cbn [map zsum fold_right length]; [lia|].
  fold (zsum l). fold (zsum (map (fun u => Z.shiftr u k) l)).
  rewrite Z.shiftr_div_pow2 by auto.
  pose proof (Z.div_mod u (2^k) ltac:(lia)) as E. pose proof (Z.mod_pos_bound u (2^k) Hp) as B.
  rewrite Nat2Z.inj_succ. nia.
Qed.

Lemma to_ring_sum ring l : 0 < ring -> to_ring ring (zsum (map (to_ring ring) l)) = to_ring ring (zsum l).
Proof.
  intros Hp. apply to_ring_eq. induction l as [|u l IH]; cbn [map zsum fold_right]; [reflexivity|].
  fold (zsum l). fold (zsum (map (to_ring ring) l)). rewrite IH, to_ring_eqmod by auto. reflexivity.
Qed.

Lemma rep_divide s ring c sh v x ss y : supported ring -> ring <> 2 -> ring <> 67 -> y <> 0 ->
  holds s ring c sh v x -> shared ring sh v ss -> map r_shares (rm_ps x) = map (rep_view ss) (seq 0 (length ss)) ->
  exists ps w, rmap (fun p => rst_truediv p (DInt y)) (rm_ps x) = Ok ps /\ holds s ring c sh w (mkRM (rm_sid x) (rm_shape x) ps) /\
    forall e, (e < numel sh)%nat -> exists q, nth e w 0 = to_ring ring q /\
      Z.abs (y * q - zsum (map (fun t => nth e (tdat t) 0) ss)) <= Z.of_nat (rs_n s) * (Z.abs y - 1).
Proof.
  intros Hs N2 N67 Hy HX Hss HV. pose proof (supported_pos _ Hs) as Hp.
  destruct (holds_sharing s ring c sh v x ss Hs HX Hss HV) as (cf & HL & -> & Hc). cbn [rm_ps rm_sid rm_shape].
  set (g := fun u => plain_op ring Z.quot u y).
  rewrite (tmap_views s ring cf ss g).
  2:{ apply Hss. }
  2:{ intros p Hpr. unfold rst_truediv. rewrite Hpr. destruct (Z.eqb_spec y 0); [congruence|]. reflexivity. }
  eexists _, _. split; [reflexivity|].
  split.
  - apply views_holds; [apply (tmap_shared ring g sh v ss Hs Hss)|rewrite map_length; auto|].
    + intros u Hu. apply quot_bound; auto.
    + intros k Hk. rewrite rst_cfg_idem. apply Hc. rewrite map_length in Hk. auto.
  - intros e He. exists (zsum (map (fun u => Z.quot u y) (map (fun t => nth e (tdat t) 0) ss))). split.
    + rewrite (nth_map_in _ 0%nat) by (rewrite seq_length; auto). rewrite nth_seq_lt by auto. cbn [plus].
      rewrite <- (to_ring_sum ring (map _ (map _ ss))) by auto. do 2 f_equal. rewrite !map_map.
      apply map_ext. intros t. unfold g. apply plain_spec; auto.
    + rewrite <- HL. rewrite <- (map_length (fun t => nth e (tdat t) 0) ss). apply zsum_quot. auto.
Qed.

Lemma log2_bits k : 0 < k -> Z.of_nat (get_nr_bits (2^k)) = k.
Proof. intros H. unfold get_nr_bits. rewrite Z.log2_up_pow2 by lia. lia. Qed.

Lemma rep_shift s ring c sh v x ss k : supported ring -> ring <> 2 -> ring <> 67 -> 0 <= k -> 2^(k+1) <= ring ->
  holds s ring c sh v x -> shared ring sh v ss -> map r_shares (rm_ps x) = map (rep_view ss) (seq 0 (length ss)) ->
  exists ps w, rmap (fun p => rst_rshift p (DInt k)) (rm_ps x) = Ok ps /\ holds s ring c sh w (mkRM (rm_sid x) (rm_shape x) ps) /\
    forall e, (e < numel sh)%nat -> exists q, nth e w 0 = to_ring ring q /\
      let W := zsum (map (fun t => nth e (tdat t) 0) ss) in
      2^k * q <= W <= 2^k * q + Z.of_nat (rs_n s) * (2^k - 1).
Proof.
  intros Hs N2 N67 Hk Hr HX Hss HV. pose proof (supported_pos _ Hs) as Hp.
  destruct (holds_sharing s ring c sh v x ss Hs HX Hss HV) as (cf & HL & -> & Hc). cbn [rm_ps rm_sid rm_shape].
  set (g := fun u => Z.shiftr u k).
  assert (HB : exists b, 0 < b /\ ring = 2^b).
  { destruct (supported_cases _ Hs) as [E|[E|[E|[E|[E|E]]]]]; try congruence; rewrite E; eexists; (split; [|reflexivity]); lia. }
  destruct HB as (b & Hb & Eb).
  assert (KB : k + 1 <= b).
  { destruct (Z.lt_ge_cases b (k + 1)) as [C|C]; [|lia]. pose proof (Z.pow_lt_mono_r 2 b (k + 1)). lia. }
  rewrite (tmap_views s ring cf ss g).
  2:{ apply Hss. }
  2:{ intros p Hpr. unfold rst_rshift. rewrite Hpr, Eb, log2_bits by auto.
      replace (k <? 0) with false by (symmetry; apply Z.ltb_ge; lia).
      replace (b - 1 <? k) with false by (symmetry; apply Z.ltb_ge; lia). reflexivity. }
  eexists _, _. split; [reflexivity|].
  split.
  - apply views_holds; [apply (tmap_shared ring g sh v ss Hs Hss)|rewrite map_length; auto|].
    + intros u Hu. destruct (signed_range ring Hs N2 N67) as (h & H0 & Eh & HR). apply HR. apply HR in Hu. unfold g.
      rewrite Z.shiftr_div_pow2 by auto. assert (P : 0 < 2^k) by (apply Z.pow_pos_nonneg; lia).
      clear - Hu P. split.
      * apply Z.div_le_lower_bound; nia.
      * apply Z.div_lt_upper_bound; nia.
    + intros j Hj. rewrite rst_cfg_idem. apply Hc. rewrite map_length in Hj. auto.
  - intros e He. exists (zsum (map (fun u => Z.shiftr u k) (map (fun t => nth e (tdat t) 0) ss))). split.
    + rewrite (nth_map_in _ 0%nat) by (rewrite seq_length; auto). rewrite nth_seq_lt by auto. cbn [plus].
      do 2 f_equal. rewrite map_map. reflexivity.
    + cbv zeta. rewrite <- HL. rewrite <- (map_length (fun t => nth e (tdat t) 0) ss). apply zsum_shift. auto.
Qed.

(* ------------------------------------------------------------ equality *)
Lemma concat_eq {A} n (l m : list (list A)) : Forall (fun a => length a = n) l -> Forall (fun a => length a = n) m ->
  length l = length m -> concat l = concat m -> l = m.
Proof.
  revert m. induction l as [|a l IH]; intros [|b m] H1 H2 HL E; cbn in HL; try lia; [reflexivity|].
  inversion H1; inversion H2; subst. cbn [concat] in E.
  assert (E1 : a = b) by (apply (f_equal (firstn (length a))) in E; rewrite !firstn_app, Nat.sub_diag, firstn_all in E;
    replace (length a) with (length b) in E by lia; rewrite firstn_all, Nat.sub_diag in E; cbn [firstn] in E; rewrite !app_nil_r in E; auto).
  subst b. apply app_inv_head in E. f_equal. apply IH; auto.
Qed.

Lemma tcat_ok n r ts : ts <> [] -> Forall (whole (n :: r)) ts ->
  tcat ts = Ok (mkT ((length ts * n)%nat :: r) (concat (map tdat ts))).
Proof.
  intros HN HF. unfold tcat. destruct ts as [|t l]; [congruence|]. pose proof HF as HF'. inversion HF as [|? ? (T1 & T2) HF1]; subst.
  rewrite T1. replace (forallb _ (t :: l)) with true.
  - do 3 f_equal. clear HN HF1 T1 T2 HF. induction HF' as [|u l' (U1 & U2) HF IH]; [reflexivity|].
    cbn [map length]. rewrite U1. cbn [hd]. change (list_sum (n :: ?a)) with (n + list_sum a)%nat.
    unfold list_sum in *. cbn [fold_right]. rewrite IH. lia.
  - symmetry. apply forallb_forall. intros u Hu. rewrite Forall_forall in HF'. destruct (HF' u Hu) as (-> & _).
    destruct (list_eq_dec Nat.eq_dec r r); congruence.
Qed.

Lemma tdiffer_shape a b sh : whole sh a -> whole sh b ->
  tdiffer a b = Ok (negb (if list_eq_dec Z.eq_dec (tdat a) (tdat b) then true else false)).
Proof.
  intros (A1 & A2) (B1 & B2). unfold tdiffer. rewrite (tbin_same _ a b sh) by auto. cbn [rbind tdat].
  f_equal. destruct (list_eq_dec Z.eq_dec (tdat a) (tdat b)) as [E|N]; cbn [negb].
  - rewrite E, map2_same. clear. induction (tdat b) as [|v l IH]; cbn; [reflexivity|]. rewrite Z.eqb_refl. exact IH.
  - assert (HL : length (tdat a) = length (tdat b)) by lia. clear - N HL. revert N HL.
    generalize (tdat a) (tdat b). induction l as [|u l IH]; intros [|w m] N HL; cbn in *; try lia; [congruence|].
    destruct (Z.eqb_spec u w) as [->|Hn]; [|reflexivity]. cbn. apply IH; [congruence|lia].
Qed.

Lemma whole_concat n r ts : Forall (whole (n :: r)) ts -> length (concat (map tdat ts)) = numel ((length ts * n)%nat :: r).
Proof.
  induction 1 as [|t l (T1 & T2) _ IH]; [reflexivity|]. cbn [map concat length]. rewrite app_length, IH, T2.
  cbn [numel fold_right]. fold (numel r). lia.
Qed.

Lemma rst_eq_spec x y n r : r_shares x <> [] -> length (r_shares x) = length (r_shares y) ->
  Forall (whole (n :: r)) (r_shares x) -> Forall (whole (n :: r)) (r_shares y) ->
  exists b, rst_eq x y = Ok b /\
    (b = true <-> r_shares x = r_shares y /\ r_cfg x = r_cfg y /\ r_ring x = r_ring y /\
      (r_uuid x = None \/ r_uuid y = None \/ r_uuid x = r_uuid y)).
Proof.
  intros HN HL FX FY. unfold rst_eq. assert (HN' : r_shares y <> []) by (destruct (r_shares x), (r_shares y); try congruence; discriminate).
  rewrite (tcat_ok n r), (tcat_ok n r) by auto. cbn [rbind]. rewrite <- HL.
  rewrite (tdiffer_shape _ _ ((length (r_shares x) * n)%nat :: r)).
  2:{ split; [reflexivity|]. cbn [tdat]. apply whole_concat; auto. }
  2:{ split; [reflexivity|]. cbn [tdat]. rewrite HL. apply whole_concat; auto. }
  cbn [rbind tdat].
  assert (EQ : concat (map tdat (r_shares x)) = concat (map tdat (r_shares y)) <-> r_shares x = r_shares y).
  { split; [|congruence]. intros E. apply (concat_eq (numel (n :: r))) in E.
    - revert E FX FY. clear. generalize (r_shares y). induction (r_shares x) as [|a l IH]; intros [|b m] E FX FY; cbn in E; try discriminate; [reflexivity|].
      inversion FX as [|? ? (A1 & A2)]; inversion FY as [|? ? (B1 & B2)]; subst. injection E as E1 E2.
      f_equal; [destruct a, b; cbn in *; congruence|]. apply IH; auto.
    - apply Forall_map. revert FX. apply Forall_impl. intros t (_ & T). exact T.
    - apply Forall_map. revert FY. apply Forall_impl. intros t (_ & T). exact T.
    - rewrite !map_length. exact HL. }
  destruct (list_eq_dec Z.eq_dec _ _) as [E|E]; cbn [negb].
  2:{ exists false. split; [reflexivity|]. split; [discriminate|]. intros (A & _). apply EQ in A. congruence. }
  apply EQ in E.
  assert (EC : cfg_eqb (r_cfg x) (r_cfg y) = true <-> r_cfg x = r_cfg y).
  { unfold cfg_eqb. rewrite andb_true_iff, Z.eqb_eq, Nat.eqb_eq. destruct (r_cfg x), (r_cfg y); cbn. split; [intros (-> & ->); auto|]. intros [= -> ->]; auto. }
  destruct (cfg_eqb (r_cfg x) (r_cfg y)); cbn [negb].
  2:{ exists false. split; [reflexivity|]. split; [discriminate|]. intros (_ & A & _). apply EC in A. congruence. }
  assert (C : r_cfg x = r_cfg y) by (apply EC; auto).
  destruct (r_uuid x) as [u|] eqn:EX, (r_uuid y) as [w|] eqn:EY; cbn [negb].
  1: destruct (Nat.eqb_spec u w) as [->|NE]; cbn [negb].
  2:{ exists false. split; [reflexivity|]. split; [discriminate|]. intros (_ & _ & _ & [A|[A|A]]); congruence. }
  all: destruct (Z.eqb_spec (r_ring x) (r_ring y)) as [ER|ER]; cbn [negb];
    eexists; (split; [reflexivity|]); split; try discriminate; try tauto; intros _; auto 6.
Qed.
