(** Properties C12, C13, C14, C15: division, wrap counting, and what division does to its operand.
    Specifications: S_Wraps, S_Div. *)
From Coq Require Import QArith.
From Verif Require Import Util S_Ring S_Tensor S_Wraps S_Div S_Bil S_Spdz
  M_Torch M_Encoder M_Float M_Tensor M_Share M_Spdz M_Heap S_Heap
  L_Torch L_Tensor L_Share L_Spdz L_Div L_Bil L_Mul L_Rsub L_Heap.
Local Open Scope Z_scope.

(** C12: dividing both shares locally.  Without wrap the result is the (truncated) quotient
    up to one unit; with wrap it is the quotient of the value shifted by 2^64, i.e. off by
    2^64/y. *)
Theorem C12_two_party_rescaling : forall s x y prim sh vx,
  s_n s = 2%nat -> 0 < y -> m_shape x = sh -> length (m_shares x) = 2%nat ->
  shared (2^64) sh vx (m_shares x) ->
  exists z vz, public_divide s x y prim = Ok (z, m_shares x) /\ m_shape z = sh /\ shared (2^64) sh vz (m_shares z) /\
    forall e, (e < numel sh)%nat ->
      (zsum (col e (m_shares x)) = nth e vx 0 -> Z.abs (nth e vz 0 - Z.quot (nth e vx 0) y) <= 1) /\
      (zsum (col e (m_shares x)) <> nth e vx 0 -> 2 <= y -> exists k, (k = 1 \/ k = -1) /\
         quot_within y (nth e vx 0 + k * 2^64) (nth e vz 0) (2 * (y - 1))).
Proof. exact two_party_divide. Qed.
Print Assumptions C12_two_party_rescaling.

Example C12_witness : (* first element without wrap (off by one), second with wrap *)
  let s := mkS 0 2 default_config in
  let x := mkM 0 [2%nat] [mkT [2%nat] [100; 2^63 - 1]; mkT [2%nat] [-93; 65]] in
  shared (2^64) [2%nat] [7; -2^63 + 64] (m_shares x) /\
  (do r <- public_divide s x 8 ([], []); Ok (map tdat (m_shares (fst r)))) = Ok [[12; 2^60 - 1]; [-11; 8]] /\
  Z.quot 7 8 = 0 /\ zsum (col 1 (m_shares x)) = -2^63 + 64 + 1 * 2^64.
Proof.
  cbn zeta. split; [split; [discriminate|]; split; [repeat constructor|reflexivity]|].
  split; [vm_compute; reflexivity|]. split; vm_compute; reflexivity.
Qed.

(** C12: the first shares for which the two shares of z wrap form an interval of |z + 1|
    of the 2^64 ring elements. *)
Theorem C12_wrapping_shares : forall z, - 2^63 <= z < 2^63 ->
  exists lo, - 2^63 <= lo /\ lo + Z.abs (z + 1) <= 2^63 /\
  forall x0, - 2^63 <= x0 < 2^63 ->
    (x0 + to_ring (2^64) (z - x0) <> z <-> lo <= x0 < lo + Z.abs (z + 1)).
Proof. exact wrapping_first_shares. Qed.
Print Assumptions C12_wrapping_shares.

Example C12_wrapping_witness :
  -2^63 + to_ring (2^64) (3 - -2^63) <> 3 /\ -2^63 + 4 + to_ring (2^64) (3 - (-2^63 + 4)) = 3.
Proof. split; [vm_compute; discriminate | vm_compute; reflexivity]. Qed.

(** C13: what the counter counts: it misses one wrap whenever the running sum and the next
    value are both the smallest integer. *)
Theorem C13_wrap_counter : forall l, l <> [] -> vec_in (2^64) l ->
  zsum l = to_ring (2^64) (zsum l) + 2^64 * (count_wraps1 l - min_steps (hd 0 l) (tl l)).
Proof. exact count_wraps1_spec. Qed.
Print Assumptions C13_wrap_counter.

(** C13: exact if no value after the first is the smallest integer; on whole tensors. *)
Theorem C13_wrap_counter_partial : forall sh ts, ts <> [] -> Forall (tensor_in (2^64) sh) ts ->
  (forall t, In t (tl ts) -> Forall (fun v => v <> - 2^63) (tdat t)) ->
  exists w, count_wraps ts = Ok w /\ tsh w = sh /\ length (tdat w) = numel sh /\
    forall e, (e < numel sh)%nat ->
      zsum (col e ts) = to_ring (2^64) (zsum (col e ts)) + 2^64 * nth e (tdat w) 0.
Proof.
  intros sh ts NE HF HM. rewrite (count_wraps_spec sh ts NE HF). eexists. split; [reflexivity|].
  cbn [tsh tdat]. split; [reflexivity|]. split; [rewrite map_length, seq_length; reflexivity|].
  intros e He. rewrite map_seq_nth by auto. apply count_wraps1_exact.
  - unfold col. destruct ts; [congruence|discriminate].
  - unfold col. apply Forall_map. eapply Forall_impl; [|exact HF]. intros t (_ & _ & T3). apply nth_in_ring; auto using supR.
  - destruct ts as [|t0 ts]; [congruence|]. cbn [col map tl] in *. apply Forall_map. apply Forall_forall.
    intros t Ht. specialize (HM t Ht). rewrite Forall_forall in HM. apply HM. apply nth_In.
    rewrite Forall_forall in HF. destruct (HF t (or_intror Ht)) as (_ & -> & _). auto.
Qed.
Print Assumptions C13_wrap_counter_partial.

Example C13_witness :
  count_wraps [mkT [2%nat] [2^63 - 1; -2^63]; mkT [2%nat] [2^63 - 1; -1]; mkT [2%nat] [5; -3]] =
  Ok (mkT [2%nat] [1; -1]) /\
  (2^63 - 1) + (2^63 - 1) + 5 = 3 + 2^64 * 1 /\ -2^63 + -1 + -3 = (2^63 - 4) + 2^64 * -1.
Proof. split; [vm_compute; reflexivity | split; reflexivity]. Qed.

(** C13 refuted: the wrap of (-2^63) + (-2^63) = 0 - 2^64 is not counted. *)
Theorem C13_min_int_refuted : exists l, l <> [] /\ vec_in (2^64) l /\
  zsum l <> to_ring (2^64) (zsum l) + 2^64 * count_wraps1 l.
Proof.
  exists [-2^63; -2^63]. split; [discriminate|]. split; [repeat constructor|]. vm_compute. discriminate.
Qed.
Print Assumptions C13_min_int_refuted.

(** C14: division by a public integer, three or more parties: off by less than n units (plus
    (n+1)/2 * 4 * (2^62 mod y) / y, which is 0 for powers of two) when the masks do not
    wrap and the correction is exact. *)
Theorem C14_public_division_partial : forall s x y prim sh vx,
  (3 <= s_n s)%nat -> 0 < y -> m_sid x = s_id s -> m_shape x = sh ->
  length (m_shares x) = s_n s -> shared (2^64) sh vx (m_shares x) -> Z.of_nat (s_n s) < 2^60 ->
  exact_correction (c_base (s_cfg s)) (c_prec (s_cfg s)) (s_n s) y ->
  good_masks (s_n s) sh vx (m_shares x) (fst prim) (snd prim) ->
  exists z xs' vz, public_divide s x y prim = Ok (z, xs') /\
    m_sid z = m_sid x /\ m_shape z = sh /\ length (m_shares z) = s_n s /\
    shared (2^64) sh vz (m_shares z) /\
    (forall e, (e < numel sh)%nat ->
      quot_within y (nth e vx 0) (nth e vz 0)
        (Z.of_nat (s_n s) * (y - 1) + 2 * (Z.of_nat (s_n s) + 1) * (2^62 mod y))) /\
    (forall p, 0 <= p <= 62 -> y = 2^p -> forall e, (e < numel sh)%nat ->
      y * (nth e vz 0 - Z.of_nat (s_n s)) < nth e vx 0 < y * (nth e vz 0 + Z.of_nat (s_n s))).
Proof.
  intros s x y prim sh vx Hn Hy Hsid Hsh HL HX Hb HE HG.
  destruct (divide_value s x y prim sh vx Hy Hsid Hsh HL HX) as (z & xs' & vz & E & Z1 & Z2 & Z3 & Z4 & Z5).
  { right. auto. }
  exists z, xs', vz. do 5 (split; [assumption|]). split; [exact Z5|].
  intros p Hp -> e He. specialize (Z5 e He). unfold quot_within in Z5.
  rewrite (proj2 (Z.mod_divide (2^62) (2^p) ltac:(lia))) in Z5.
  2:{ exists (2 ^ (62 - p)). rewrite <- Z.pow_add_r by lia. f_equal. lia. }
  nia.
Qed.
Print Assumptions C14_public_division_partial.

Example C14_witness : (* three parties, sum of the shares 30 + 2^64, divisor 16 *)
  let s := mkS 0 3 default_config in
  let x := mkM 0 [1%nat] [mkT [1%nat] [2^63 - 1]; mkT [1%nat] [2^63 - 1]; mkT [1%nat] [32]] in
  let rs := [mkT [1%nat] [-1]; mkT [1%nat] [-2]; mkT [1%nat] [3]] in
  let ths := [mkT [1%nat] [4]; mkT [1%nat] [5]; mkT [1%nat] [-9]] in
  shared (2^64) [1%nat] [30] (m_shares x) /\ good_masks 3 [1%nat] [30] (m_shares x) rs ths /\
  exact_correction 2 16 3 16 /\
  (do r <- public_divide s x 16 (rs, ths); reconstruct (fst r)) = Ok (mkT [1%nat] [0]).
Proof.
  cbn zeta. split; [split; [discriminate|]; split; [repeat constructor|reflexivity]|]. split.
  { split; [reflexivity|]. split; [reflexivity|]. exists [0].
    split; [split; [discriminate|]; split; [repeat constructor|reflexivity]|].
    split; [split; [discriminate|]; split; [repeat constructor|reflexivity]|].
    split; [intros e He; destruct e as [|e]; [|cbn in He; lia]; cbn; lia|].
    split.
    - intros t [<-|[<-|[<-|[]]]]; repeat constructor; discriminate.
    - intros k e Hk He. destruct e as [|e]; [|cbn in He; lia].
      destruct k as [|[|[|k]]]; [..|lia]; vm_compute; discriminate. }
  split; [|vm_compute; reflexivity].
  right. split; [reflexivity|]. split; [lia|]. split; [lia|]. exists 4. lia.
Qed.

(** C14 refuted for divisors that are not powers of two: dividing 30 by 3 with good masks and
    the default precision is off by more than 2^30. *)
Theorem C14_divisor_three_refuted : exists s x rs ths q,
  s_cfg s = default_config /\ s_n s = 3%nat /\ length (m_shares x) = 3%nat /\ m_shape x = [1%nat] /\
  shared (2^64) [1%nat] [30] (m_shares x) /\ good_masks 3 [1%nat] [30] (m_shares x) rs ths /\
  (do r <- public_divide s x 3 (rs, ths); reconstruct (fst r)) = Ok (mkT [1%nat] [q]) /\ 2^30 < Z.abs (q - 10).
Proof.
  exists (mkS 0 3 default_config), (mkM 0 [1%nat] [mkT [1%nat] [2^63 - 1]; mkT [1%nat] [2^63 - 1]; mkT [1%nat] [32]]),
    [mkT [1%nat] [-1]; mkT [1%nat] [-2]; mkT [1%nat] [3]], [mkT [1%nat] [4]; mkT [1%nat] [5]; mkT [1%nat] [-9]].
  eexists. split; [reflexivity|]. split; [reflexivity|]. split; [reflexivity|]. split; [reflexivity|].
  split; [split; [discriminate|]; split; [repeat constructor|reflexivity]|]. split.
  { split; [reflexivity|]. split; [reflexivity|]. exists [0].
    split; [split; [discriminate|]; split; [repeat constructor|reflexivity]|].
    split; [split; [discriminate|]; split; [repeat constructor|reflexivity]|].
    split; [intros e He; destruct e as [|e]; [|cbn in He; lia]; cbn; lia|].
    split.
    - intros t [<-|[<-|[<-|[]]]]; repeat constructor; discriminate.
    - intros k e Hk He. destruct e as [|e]; [|cbn in He; lia].
      destruct k as [|[|[|k]]]; [..|lia]; vm_compute; discriminate. }
  split; [vm_compute; reflexivity|]. vm_compute. reflexivity.
Qed.
Print Assumptions C14_divisor_three_refuted.

(** C15: every operation but division leaves all existing tensors unchanged; division does so
    for two parties. *)
Theorem C15_operands_unchanged_partial : forall s h op h' z o,
  h_step s h op = Ok (h', z) -> (divides op = true -> s_n s = 2%nat) ->
  exists_in h o -> deref h' o = deref h o.
Proof. exact step_unchanged. Qed.
Print Assumptions C15_operands_unchanged_partial.

Example C15_witness :
  let h := [mkT [1%nat] [5]; mkT [1%nat] [6]] in let x := mkO 0 [1%nat] [0; 1]%nat in
  exists_in h x /\
  h_step (mkS 0 2 default_config) h (HLinPub LAdd x (PNum (NInt 1))) =
    Ok (h ++ [mkT [1%nat] [65541]], mkO 0 [1%nat] [2; 1]%nat).
Proof. cbn zeta. split; [repeat constructor|reflexivity]. Qed.

(** C15: with three or more parties division succeeds and overwrites every share of the operand
    by its quotient; tensors that have no share in common with the operand are unchanged. *)
Theorem C15_division_effect : forall s h x y prim sh vx,
  (3 <= s_n s)%nat -> 0 < y -> o_sid x = s_id s -> o_shape x = sh ->
  length (o_addr x) = s_n s -> NoDup (o_addr x) -> exists_in h x ->
  shared (2^64) sh vx (m_shares (deref h x)) -> any_masks (s_n s) sh (fst prim) (snd prim) ->
  exists h' z, h_step s h (HDiv x y prim) = Ok (h', z) /\
    m_shares (deref h' x) = map (fun t => mkT sh (map (fun v => Z.quot v y) (tdat t))) (m_shares (deref h x)) /\
    forall o, exists_in h o -> (forall a, In a (o_addr o) -> ~ In a (o_addr x)) -> deref h' o = deref h o.
Proof.
  intros s h x y [rs ths] sh vx Hn Hy HS HSH HL HN HX SX [H2|(_ & Hb & Lr & Lt & FR & FT)]; [lia|].
  destruct (public_divide_gen s (deref h x) y rs ths sh (s_n s)) as (m & E & _); auto; try lia.
  { unfold deref. cbn [m_shares]. rewrite map_length. auto. }
  { apply SX. }
  cbn [fst snd] in *. destruct (h_step s h (HDiv x y (rs, ths))) as [[h' z]|] eqn:EH.
  2:{ exfalso. cbn [h_step] in EH. rewrite E in EH. cbn [rbind] in EH. destruct (Nat.eqb (s_n s) 2); discriminate EH. }
  exists h', z. split; [reflexivity|].
  destruct (div_effect s h x y _ h' z EH ltac:(lia)) as (m' & xs' & E' & O & D).
  rewrite E in E'. injection E' as <- <-. split; [|exact O].
  rewrite D; auto. rewrite map_length. unfold deref. cbn [m_shares]. rewrite map_length. reflexivity.
Qed.
Print Assumptions C15_division_effect.

Example C15_effect_witness :
  let h := [mkT [1%nat] [9]; mkT [1%nat] [-9]; mkT [1%nat] [65536]] in let x := mkO 0 [1%nat] [0; 1; 2]%nat in
  let o := [mkT [1%nat] [1]; mkT [1%nat] [2]; mkT [1%nat] [3]] in
  any_masks 3 [1%nat] o o /\ (do r <- h_step (mkS 0 3 default_config) h (HDiv x 2 (o, o)); Ok (m_shares (deref (fst r) x))) =
    Ok [mkT [1%nat] [4]; mkT [1%nat] [-4]; mkT [1%nat] [32768]].
Proof.
  cbn zeta. split; [|vm_compute; reflexivity]. right. split; [lia|]. split; [lia|]. repeat split; repeat constructor.
Qed.

(** C15 refuted: three parties, 4.0 / 2 turns the operand into 2.0; and dividing w = x + 1
    changes x, whose shares w partly reuses. *)
Theorem C15_division_refuted : exists s h x prim h1 z h2 w h3 z3,
  s_cfg s = default_config /\ s_n s = 3%nat /\ exists_in h x /\
  reconstruct (deref h x) = Ok (mkT [1%nat] [4 * 65536]) /\
  h_step s h (HDiv x 2 prim) = Ok (h1, z) /\
  reconstruct (deref h1 x) = Ok (mkT [1%nat] [2 * 65536]) /\
  h_step s h (HLinPub LAdd x (PNum (NInt 1))) = Ok (h2, w) /\
  h_step s h2 (HDiv w 2 prim) = Ok (h3, z3) /\
  reconstruct (deref h3 x) <> reconstruct (deref h2 x).
Proof.
  exists (mkS 0 3 default_config), [mkT [1%nat] [65536]; mkT [1%nat] [131072]; mkT [1%nat] [65536]],
    (mkO 0 [1%nat] [0; 1; 2]%nat),
    ([mkT [1%nat] [1]; mkT [1%nat] [2]; mkT [1%nat] [3]], [mkT [1%nat] [0]; mkT [1%nat] [0]; mkT [1%nat] [0]]).
  do 6 eexists. split; [reflexivity|]. split; [reflexivity|]. split; [repeat constructor|].
  split; [vm_compute; reflexivity|]. split; [vm_compute; reflexivity|]. split; [vm_compute; reflexivity|].
  split; [vm_compute; reflexivity|]. split; [vm_compute; reflexivity|]. vm_compute. discriminate.
Qed.
Print Assumptions C15_division_refuted.
