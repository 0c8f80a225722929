(** Lemmas on the values opened by comparisons and divisions. *)
From Coq Require Import QArith Setoid Morphisms.
From Verif Require Import Util Modular S_Ring S_Tensor S_Wraps S_Div S_Bil S_Spdz S_Priv M_Torch M_Encoder M_Float M_Tensor M_Share M_Spdz M_Store M_Fss M_Opened S_Opened
  L_Torch L_Tensor L_Encoder L_Float L_Share L_Spdz L_Div L_Bil L_Mul L_Priv.
Local Open Scope Z_scope.

(* ------------------------------------------------------------- comparisons *)
Lemma fss_core_opened {K} (alpha : K -> Z) ev s o so x1 x2 masks keys :
  fss_core alpha ev s o so x1 x2 masks keys =
  (do m <- fss_masked alpha (m_shares x1) (m_shares x2) masks;
   do k0 <- get_nth keys 0; do k1 <- get_nth keys 1;
   Ok (mkM (s_id s) so [evaluate ev (s_cfg s) o 0 (tsh m) (fss_sent m) k0; evaluate ev (s_cfg s) o 1 (tsh m) (fss_sent m) k1])).
Proof. unfold fss_core, fss_masked. destruct (rmap _ _); reflexivity. Qed.

Lemma masked_value x1 x2 s1 s2 so v1 v2 m0 m1 :
  length x1 = 2%nat -> length x2 = 2%nat -> shared R64 s1 v1 x1 -> shared R64 s2 v2 x2 -> bshape s1 s2 so ->
  length m0 = numel so -> length m1 = numel so ->
  exists m, fss_masked (fun a : Z => a) x1 x2 [m0; m1] = Ok m /\ tsh m = so /\ length (tdat m) = numel so /\
    vec_in R64 (tdat m) /\
    forall e, (e < numel so)%nat ->
      nth e (tdat m) 0 == bget s1 so v1 e - bget s2 so v2 e + nth e m0 0 + nth e m1 0 [mod R64].
Proof.
  intros L1 L2 H1 H2 Hso LK0 LK1.
  destruct (mpc_lin_shared LSub (mkM 0 s1 x1) (mkM 0 s2 x2) so v1 v2) as (d & ED & _ & _ & LD & SD);
    cbn [m_sid m_shape m_shares] in *; auto; [congruence|].
  unfold mpc_lin in ED. cbn [m_sid m_shape m_shares Nat.eqb negb] in ED.
  destruct x1 as [|a0 [|a1 [|]]]; try discriminate.
  destruct x2 as [|b0 [|b1 [|]]]; try discriminate.
  cbn [combine rmap fst snd] in ED.
  destruct (sh_lin LSub a0 b0) as [d0|] eqn:D0; [|discriminate]. cbn [rbind] in ED.
  destruct (sh_lin LSub a1 b1) as [d1|] eqn:D1; [|discriminate]. cbn [rbind] in ED.
  destruct (shape_bin _ _) as [so'|] eqn:ES; [|discriminate]. cbn [rbind] in ED. injection ED as <-.
  cbn [m_shares] in SD, LD.
  pose proof (shared_vals R64 supR _ _ _ SD) as (VL & VI & VN).
  destruct SD as (_ & FD & _). inversion FD as [|? ? (T0 & N0 & I0) FD']; subst. inversion FD' as [|? ? (T1 & N1 & I1) _]; subst. clear FD FD'.
  unfold fss_masked. cbn [combine rmap fst snd]. unfold mask_builder. rewrite D0, D1. cbn [rbind].
  rewrite N0, N1, LK0, LK1, Nat.eqb_refl. cbn [rbind]. rewrite T1.
  set (so := tsh d0) in *. set (f := fun v k => cast TI64 (v + k)).
  assert (TI : forall x k, vec_in R64 (map2 f x k)).
  { intros x k. revert k. induction x as [|x xs IH]; intros [|k ks]; try (constructor; fail). constructor; [apply (in_to_ring R64 (x + k) posR)|apply IH]. }
  rewrite (tsum_spec R64 supR so).
  2:{ discriminate. }
  2:{ constructor; [|constructor; [|constructor]]; (split; [reflexivity|]; split; [cbn [tdat]; rewrite map2_length; lia|apply TI]). }
  eexists. split; [reflexivity|]. cbn [tsh tdat map]. split; [reflexivity|]. split; [apply s_sum_length|].
  split; [apply s_sum_in; apply supR|].
  intros e He. rewrite s_sum_nth by auto. rewrite to_ring_eqmod by apply posR. cbn [map zsum].
  rewrite !(nth_map2 _ 0 0 0) by lia. unfold f. change (cast TI64) with (to_ring R64). rewrite !to_ring_eqmod by apply posR.
  assert (Q2 : bget s1 so v1 e - bget s2 so v2 e == nth e (tdat d0) 0 + nth e (tdat d1) 0 [mod R64]).
  { specialize (VN e). cbn [map zsum] in VN. cbn [s_linop] in VN. unfold s_sub in VN.
    rewrite (nth_map2 _ 0 0 0) in VN by (rewrite !bexpand_length; auto). rewrite !bexpand_nth in VN by auto.
    rewrite to_ring_eqmod in VN by apply posR. etransitivity; [exact VN|]. apply eqmod_eq. ring. }
  rewrite Q2. apply eqmod_eq. ring.
Qed.

Lemma mod64_32 a b : a == b [mod R64] -> a mod W32 = b mod W32.
Proof.
  intros [c E]. unfold W32, R64 in *. replace a with (b + (c * 2^32) * 2^32) by lia. apply Z_mod_plus_full.
Qed.

Lemma sent_value x1 x2 s1 s2 so v1 v2 m0 m1 :
  length x1 = 2%nat -> length x2 = 2%nat -> shared R64 s1 v1 x1 -> shared R64 s2 v2 x2 -> bshape s1 s2 so ->
  length m0 = numel so -> length m1 = numel so ->
  exists m, fss_masked (fun a : Z => a) x1 x2 [m0; m1] = Ok m /\
    fss_sent m = map (fun e => (bget s1 so v1 e - bget s2 so v2 e + nth e m0 0 + nth e m1 0) mod W32) (seq 0 (numel so)).
Proof.
  intros L1 L2 S1 S2 B K0 K1. destruct (masked_value x1 x2 s1 s2 so v1 v2 m0 m1 L1 L2 S1 S2 B K0 K1) as (m & E & _ & L & _ & V).
  exists m. split; [exact E|]. unfold fss_sent. apply (nth_ext_len 0).
  - rewrite !map_length, seq_length. exact L.
  - intros e He. rewrite map_length, L in He. rewrite (nth_map_in _ 0) by lia. rewrite map_seq_nth by auto.
    apply mod64_32. auto.
Qed.

(** the same draws, with those of party [j] adapted to another secret *)
Definition sd (j : nat) (v v' : list Z) (rnd : list (list Z)) : list (list Z) := shift_draws j (vsub R64 v' v) true rnd.

Lemma sd_ok n sh j v v' rnd : tensor_in R64 sh (mkT sh v) -> tensor_in R64 sh (mkT sh v') ->
  draws R64 n sh rnd -> draws R64 n sh (sd j v v' rnd).
Proof.
  intros (_ & A & B) (_ & C & D) H. cbn [tdat] in *. apply shift_draws_ok; auto.
  - apply vsub_length; auto.
  - apply vsub_in; auto.
Qed.

Lemma sd_inv n sh j v v' rnd : tensor_in R64 sh (mkT sh v) -> tensor_in R64 sh (mkT sh v') ->
  draws R64 n sh rnd -> sd j v' v (sd j v v' rnd) = rnd.
Proof.
  intros (_ & A & B) (_ & C & D) H. cbn [tdat] in *. pose proof H as [HL HF].
  transitivity (shift_draws j (vsub R64 v' v) (negb true) (sd j v v' rnd)).
  - unfold sd at 1. unfold shift_draws at 1. cbn [negb]. unfold shift_draws at 1. apply map_ext_in. intros i Hi.
    apply in_seq in Hi. destruct (Nat.ltb i j); auto.
    assert (HD : draws R64 n sh (sd j v v' rnd)) by (apply sd_ok; repeat split; auto).
    destruct HD as [HL' HF']. destruct (Forall_nth_in _ _ [] i HF') as [X1 X2]; [lia|].
    set (x := nth i (sd j v v' rnd) []) in *.
    assert (E1 : length (vsub R64 v v') = numel sh) by (apply vsub_length; auto).
    assert (E2 : length (vsub R64 v' v) = numel sh) by (apply vsub_length; auto).
    apply vec_eqR; auto using vadd_in, vsub_in.
    + rewrite (vadd_length R64 _ _ (numel sh)), (vsub_length R64 _ _ (numel sh)) by auto. reflexivity.
    + intros e _. rewrite nth_vadd by (auto using vsub_in; lia).
      rewrite (nth_vsub R64 supR x) by (auto using vsub_in; lia). rewrite !nth_vsub by (auto; lia). apply eqmod_eq; lia.
  - apply (shift_draws_inv n sh); auto.
    + apply vsub_length; auto.
    + apply vsub_in; auto.
Qed.

Section CmpView.
  Variables (s1 s2 so : list nat) (j : nat).
  Hypothesis Hj : (j < 2)%nat.
  Hypothesis Hso : bshape s1 s2 so.

  Let delta (v1 v2 : list Z) (e : nat) : Z := bget s1 so v1 e - bget s2 so v2 e.
  Definition shift_mask (v1 v2 v1' v2' : list Z) (a : list Z) : list Z :=
    map (fun e => (nth e a 0 + (delta v1 v2 e - delta v1' v2' e)) mod W32) (seq 0 (numel so)).
  Definition cmpF (v1 v2 v1' v2' : list Z) (r : cmprand) : cmprand :=
    mkCR (sd j v1 v1' (cr_1 r)) (sd j v2 v2' (cr_2 r))
      (match cr_m r with
       | [a; b] => if Nat.eqb j 0 then [shift_mask v1 v2 v1' v2' a; b] else [a; shift_mask v1 v2 v1' v2' b]
       | m => m
       end).

  Lemma shift_mask_ok v1 v2 v1' v2' a : mask_words (numel so) a -> mask_words (numel so) (shift_mask v1 v2 v1' v2' a).
  Proof.
    intros [L F]. split; [unfold shift_mask; rewrite map_length, seq_length; auto|].
    apply Forall_map, Forall_forall. intros e _. apply Z.mod_pos_bound. reflexivity.
  Qed.

  Lemma shift_mask_inv v1 v2 v1' v2' a : mask_words (numel so) a -> shift_mask v1' v2' v1 v2 (shift_mask v1 v2 v1' v2' a) = a.
  Proof.
    intros [L F]. apply (nth_ext_len 0).
    - unfold shift_mask. rewrite map_length, seq_length; auto.
    - intros e He. unfold shift_mask at 1 in He. rewrite map_length, seq_length in He.
      unfold shift_mask. rewrite !map_seq_nth by auto.
      assert (R : 0 <= nth e a 0 < W32) by (rewrite Forall_forall in F; apply F, nth_In; lia).
      rewrite Zplus_mod_idemp_l.
      replace (nth e a 0 + (delta v1 v2 e - delta v1' v2' e) + (delta v1' v2' e - delta v1 v2 e)) with (nth e a 0) by lia.
      apply Z.mod_small. exact R.
  Qed.

  Lemma cmpF_ok v1 v2 v1' v2' r :
    tensor_in R64 s1 (mkT s1 v1) -> tensor_in R64 s2 (mkT s2 v2) -> tensor_in R64 s1 (mkT s1 v1') -> tensor_in R64 s2 (mkT s2 v2') ->
    cmprand_ok s1 s2 so r -> cmprand_ok s1 s2 so (cmpF v1 v2 v1' v2' r) /\ cmpF v1' v2' v1 v2 (cmpF v1 v2 v1' v2' r) = r.
  Proof.
    intros V1 V2 V1' V2' (D1 & D2 & LM & FM). destruct r as [r1 r2 m]. cbn [cr_1 cr_2 cr_m] in *.
    destruct m as [|a [|b [|]]]; try discriminate LM. inversion FM as [|? ? Fa FM']. inversion FM' as [|? ? Fb _]. subst.
    unfold cmpF. cbn [cr_1 cr_2 cr_m]. split.
    - split; [apply (sd_ok 2 s1); auto|]. split; [apply (sd_ok 2 s2); auto|]. cbn [cr_m].
      destruct (Nat.eqb j 0); (split; [reflexivity|]); (constructor; [|constructor; [|constructor]]); auto; apply shift_mask_ok; auto.
    - rewrite (sd_inv 2 s1), (sd_inv 2 s2) by auto. f_equal.
      destruct (Nat.eqb j 0); rewrite shift_mask_inv; auto.
  Qed.

  Lemma cmp_view_private v1 v2 v1' v2' :
    tensor_in R64 s1 (mkT s1 v1) -> tensor_in R64 s2 (mkT s2 v2) -> tensor_in R64 s1 (mkT s1 v1') -> tensor_in R64 s2 (mkT s2 v2') ->
    exists F G : cmprand -> cmprand,
      (forall r, cmprand_ok s1 s2 so r -> cmprand_ok s1 s2 so (F r) /\ cmprand_ok s1 s2 so (G r) /\ G (F r) = r /\ F (G r) = r) /\
      (forall r, cmprand_ok s1 s2 so r -> exists w, cmp_view j s1 s2 v1 v2 r = Ok w /\ cmp_view j s1 s2 v1' v2' (F r) = Ok w).
  Proof.
    intros V1 V2 V1' V2'. exists (cmpF v1 v2 v1' v2'), (cmpF v1' v2' v1 v2). split.
    { intros r Hr. destruct (cmpF_ok v1 v2 v1' v2' r V1 V2 V1' V2' Hr) as [A B].
      destruct (cmpF_ok v1' v2' v1 v2 r V1' V2' V1 V2 Hr) as [C D]. auto. }
    intros r Hr. destruct (cmpF_ok v1 v2 v1' v2' r V1 V2 V1' V2' Hr) as [(D1' & D2' & _ & FM') _].
    destruct Hr as (D1 & D2 & LM & FM). destruct r as [r1 r2 m]. cbn [cr_1 cr_2 cr_m] in *.
    unfold cmpF in D1', D2', FM'. cbn [cr_1 cr_2 cr_m] in *.
    destruct m as [|a [|b [|]]]; try discriminate LM. inversion FM as [|? ? Fa FMb]. inversion FMb as [|? ? Fb _]. subst. clear FMb.
    unfold cmp_view, cmpF. cbn [cr_1 cr_2 cr_m].
    destruct (share_shift 2 s1 v1 v1' j r1 ltac:(lia) Hj V1 V1' D1) as (xs & xs' & Ex & Ex' & Lx & Lx' & Nx).
    destruct (share_shift 2 s2 v2 v2' j r2 ltac:(lia) Hj V2 V2' D2) as (ys & ys' & Ey & Ey' & Ly & Ly' & Ny).
    fold (sd j v1 v1' r1) in Ex'. fold (sd j v2 v2' r2) in Ey'.
    assert (SX : shared R64 s1 v1 xs) by (destruct (gen_shares 2 s1 v1 r1 ltac:(lia) V1 D1) as (q & Q & _ & S); congruence).
    assert (SY : shared R64 s2 v2 ys) by (destruct (gen_shares 2 s2 v2 r2 ltac:(lia) V2 D2) as (q & Q & _ & S); congruence).
    assert (SX' : shared R64 s1 v1' xs') by (destruct (gen_shares 2 s1 v1' _ ltac:(lia) V1' D1') as (q & Q & _ & S); congruence).
    assert (SY' : shared R64 s2 v2' ys') by (destruct (gen_shares 2 s2 v2' _ ltac:(lia) V2' D2') as (q & Q & _ & S); congruence).
    rewrite Ex, Ey, Ex', Ey'. cbn [rbind].
    destruct Fa as [La Fa], Fb as [Lb Fb].
    destruct (sent_value xs ys s1 s2 so v1 v2 a b) as (mm & EM & SM); auto.
    rewrite EM. cbn [rbind]. rewrite SM.
    assert (LS : forall a, length (shift_mask v1 v2 v1' v2' a) = numel so) by (intros; unfold shift_mask; rewrite map_length, seq_length; auto).
    rewrite (others_ext xs j xs'), (others_ext ys j ys') by (try lia; intros; try apply Nx; try apply Ny; lia).
    destruct (Nat.eqb_spec j 0) as [->|J].
    - destruct (sent_value xs' ys' s1 s2 so v1' v2' (shift_mask v1 v2 v1' v2' a) b) as (mm' & EM' & SM'); auto.
      rewrite EM'. cbn [rbind]. rewrite SM'. eexists. split; [reflexivity|]. do 2 f_equal.
      apply map_ext_in. intros e He. apply in_seq in He. unfold shift_mask. rewrite map_seq_nth by lia.
      rewrite <- (Zplus_mod_idemp_l (_ + _ mod W32)), Zplus_mod_idemp_r, Zplus_mod_idemp_l. f_equal. unfold delta. ring.
    - assert (j = 1%nat) as -> by lia.
      destruct (sent_value xs' ys' s1 s2 so v1' v2' a (shift_mask v1 v2 v1' v2' b)) as (mm' & EM' & SM'); auto.
      rewrite EM'. cbn [rbind]. rewrite SM'. eexists. split; [reflexivity|]. do 2 f_equal.
      apply map_ext_in. intros e He. apply in_seq in He. unfold shift_mask. rewrite map_seq_nth by lia.
      rewrite Zplus_mod_idemp_r. f_equal. unfold delta. ring.
  Qed.
End CmpView.

Lemma cmp_opened_value s1 s2 so v1 v2 r :
  tensor_in R64 s1 (mkT s1 v1) -> tensor_in R64 s2 (mkT s2 v2) -> bshape s1 s2 so -> cmprand_ok s1 s2 so r ->
  exists m m0 m1, cmp_opened s1 s2 v1 v2 r = Ok m /\ cr_m r = [m0; m1] /\ vec_in R64 (tdat m) /\ length (tdat m) = numel so /\
    forall e, (e < numel so)%nat ->
      nth e (tdat m) 0 == bget s1 so v1 e - bget s2 so v2 e + nth e m0 0 + nth e m1 0 [mod R64].
Proof.
  intros V1 V2 B (D1 & D2 & LM & FM). destruct r as [r1 r2 m]. cbn [cr_1 cr_2 cr_m] in *.
  destruct m as [|a [|b [|]]]; try discriminate LM. inversion FM as [|? ? [La Fa] FMb]. inversion FMb as [|? ? [Lb Fb] _]. subst.
  destruct (gen_shares 2 s1 v1 r1 ltac:(lia) V1 D1) as (xs & Ex & Lx & SX).
  destruct (gen_shares 2 s2 v2 r2 ltac:(lia) V2 D2) as (ys & Ey & Ly & SY).
  destruct (masked_value xs ys s1 s2 so v1 v2 a b) as (mm & EM & _ & L & I & V); auto.
  exists mm, a, b. unfold cmp_opened. cbn [cr_1 cr_2 cr_m]. rewrite Ex, Ey. cbn [rbind]. auto.
Qed.
