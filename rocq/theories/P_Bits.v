(** Property C51: the binary decomposition helper.
    Specification: S_Bits ([bit]: binary digits, two's complement for negative numbers;
    [rep_int]: integers of at most 24 significant digits). *)
From Coq Require Import QArith.
From Verif Require Import Util S_Ring S_Tensor S_Bits M_Torch M_Encoder M_Float M_Bits L_Tensor L_Bits.
Local Open Scope Z_scope.

(** the rings for which decompose returns digits *)
Definition digit_rings : list Z := [2^8; 67; 2^16; 2^32; 2^64].

(** C51: get_nr_bits is the number of binary digits needed for the ring. *)
Theorem C51_nr_bits : forall ring, 1 < ring -> 2 ^ (get_nr_bits ring - 1) < ring <= 2 ^ get_nr_bits ring.
Proof. exact nr_bits_spec. Qed.
Print Assumptions C51_nr_bits.

Example C51_nr_bits_witness : map get_nr_bits [2; 67; 2^8; 2^64] = [1; 7; 8; 64].
Proof. reflexivity. Qed.

Lemma digit_ring_powers ring : In ring digit_rings -> exists d, get_type_from_ring ring = Ok d /\ d <> TBool /\
  (forall k, (k < Z.to_nat (get_nr_bits ring))%nat ->
     exists s, cast d (2 ^ Z.of_nat k) = s * 2 ^ Z.of_nat k /\ (s = 1 \/ (s = -1 /\ ring = 2 ^ (Z.of_nat k + 1) /\ (ring =? 2) || (ring =? 67) = false))) /\
  (forall b, b = 0 \/ b = 1 -> cast d b = b) /\ (ring <> 67 -> forall b, b = 0 \/ b = 1 -> cast d (- b) = - b).
Proof.
  intros H.
  destruct H as [<-|[<-|[<-|[<-|[<-|[]]]]]]; eexists; (split; [reflexivity|]); (split; [discriminate|]);
    (split; [|split; [intros b [->| ->]; reflexivity|intros N; try congruence; intros b [->| ->]; reflexivity]]);
    intros k Hk; match type of Hk with (k < ?n)%nat => let m := eval vm_compute in n in change n with m in Hk end;
    do 64 (destruct k as [|k]; [first [exists 1; split; [vm_compute; reflexivity|left; reflexivity]
                                       |exists (-1); split; [vm_compute; reflexivity|right; split; [reflexivity|split; reflexivity]]] | try lia]).
Qed.

(** C51: the digits of every non-negative element with at most 24 significant digits (in
    particular of every element of the rings 2^8, 67, 2^16 that is not negative) are its
    binary digits; those of a negative one are the negated digits of its absolute value.
    Partial: not the two's complement digits of negative numbers, and numbers of more than 24
    significant digits are left out: both are wrong (next theorems). *)
Theorem C51_digits_partial : forall ring sh xs, In ring digit_rings -> length xs = numel sh ->
  vec_in ring xs -> Forall rep_int xs ->
  let nb := Z.to_nat (get_nr_bits ring) in
  exists ds, decompose ring (mkT sh xs) = Ok (mkT (sh ++ [nb]) ds) /\ length ds = numel (sh ++ [nb]) /\
    forall e k, (e < numel sh)%nat -> (k < nb)%nat ->
      (0 <= nth e xs 0 -> nth (e * nb + k) ds 0 = bit (nth e xs 0) k) /\
      (nth e xs 0 < 0 -> (S k < nb)%nat -> nth (e * nb + k) ds 0 = - bit (- nth e xs 0) k).
Proof.
  intros ring sh xs HR HL HV HI nb.
  destruct (digit_ring_powers ring HR) as (d & ED & Hd & HP & HC & HC').
  eexists. unfold decompose. rewrite ED. cbn [rbind]. split; [destruct d; [congruence|reflexivity..]|]. cbn [tsh tdat].
  assert (LF : forall x, length (map (decompose1 d x) (seq 0 nb)) = nb) by (intros; rewrite map_length, seq_length; auto).
  split. { rewrite (flat_map_length_const _ nb) by auto. rewrite numel_app, HL. cbn [numel fold_right]. lia. }
  intros e k He Hk. rewrite (nth_flat_map_const _ nb _ e k 0) by (auto; lia).
  fold nb. cbv beta. rewrite (nth_indep (map (decompose1 d (nth e xs 0)) (seq 0 nb)) 0 (decompose1 d (nth e xs 0) 0)) by (rewrite LF; auto). rewrite map_nth, seq_nth by auto. cbn [Nat.add].
  set (x := nth e xs 0). destruct (HP k Hk) as (s & ES & Hs).
  assert (Rx : rep_int x) by (rewrite Forall_forall in HI; apply HI, nth_In; lia).
  assert (Vx : in_ring ring x) by (unfold vec_in in HV; rewrite Forall_forall in HV; apply HV, nth_In; lia).
  rewrite (decompose1_value d x k s) by (auto; tauto).
  assert (B : forall v, bit v k = 0 \/ bit v k = 1).
  { intros v. unfold bit. pose proof (Z.mod_pos_bound (v / 2 ^ Z.of_nat k) 2 ltac:(lia)). lia. }
  split; intros Sx.
  - rewrite (Z.abs_eq x) by auto. destruct Hs as [->|(-> & HK & HK2)].
    + rewrite Z.mul_1_l. destruct (Z.eq_dec x 0) as [->|N].
      * cbn [Z.sgn]. rewrite Z.mul_0_l. unfold bit. rewrite Z.div_0_l by (apply Z.pow_nonzero; lia). apply HC. auto.
      * rewrite Z.sgn_pos, Z.mul_1_l by lia. apply HC, B.
    + assert (Z0 : bit x k = 0).
      { unfold bit. rewrite Z.div_small; [reflexivity|]. split; [auto|].
        unfold in_ring, to_ring in Vx. rewrite HK2 in Vx.
        assert (E2 : ring = 2 * 2 ^ Z.of_nat k) by (rewrite HK, Z.pow_add_r by lia; ring). rewrite E2 in Vx.
        rewrite (Z.mul_comm 2), Z.div_mul in Vx by lia.
        pose proof (Z.mod_pos_bound (x + 2 ^ Z.of_nat k) (2 ^ Z.of_nat k * 2) ltac:(lia)). lia. }
      rewrite Z0, Z.mul_0_r. apply HC. auto.
  - intros Sk. rewrite (Z.abs_neq x) by lia. destruct Hs as [->|(-> & HK & HK2)].
    + rewrite Z.mul_1_l, Z.sgn_neg by lia. replace (-1 * bit (- x) k) with (- bit (- x) k) by lia.
      apply HC'; [|apply B]. intros ->. unfold in_ring, to_ring in Vx. cbn in Vx. pose proof (Z.mod_pos_bound x 67 ltac:(lia)). lia.
    + exfalso. unfold nb in Sk. destruct (nr_bits_spec ring) as [_ U].
      { rewrite HK. apply Z.pow_gt_1; lia. }
      pose proof (nr_bits_spec ring) as [L _]. { rewrite HK. apply Z.pow_gt_1; lia. }
      rewrite HK in L at 2. apply Z.pow_lt_mono_r_iff in L; lia.
Qed.
Print Assumptions C51_digits_partial.

Example C51_digits_witness :
  rep_int 13 /\ rep_int (-6) /\ vec_in (2^8) [13; -6] /\
  decompose (2^8) (mkT [2%nat] [13; -6]) =
  Ok (mkT [2; 8]%nat [1; 0; 1; 1; 0; 0; 0; 0;  0; -1; -1; 0; 0; 0; 0; 0]).
Proof.
  split; [exists 13, 0; repeat split; discriminate|]. split; [exists (-3), 1; repeat split; discriminate|].
  split; [repeat constructor|]. vm_compute. reflexivity.
Qed.
Example C51_large_witness : rep_int (2^62) /\ (do t <- decompose (2^64) (mkT [1%nat] [2^62]); Ok (nth 62 (tdat t) 0)) = Ok 1.
Proof. split; [exists 1, 62; repeat split; discriminate|]. vm_compute. reflexivity. Qed.

(** C51 is false for negative numbers: the digits of -1 are not all 1 (the last one, with
    modulus 2^7 = -128 in int8, is 0). *)
Theorem C51_negative_refuted : exists ds,
  vec_in (2^8) [-1] /\ decompose (2^8) (mkT [1%nat] [-1]) = Ok (mkT [1; 8]%nat ds) /\
  nth 0 ds 0 <> bit (-1) 0 /\ nth 1 ds 0 <> bit (-1) 1.
Proof.
  eexists. split; [repeat constructor|]. split; [vm_compute; reflexivity|]. vm_compute. split; discriminate.
Qed.
Print Assumptions C51_negative_refuted.

(** C51 is false for numbers of more than 24 digits: the lowest digit of 2^24 + 1 is lost in the
    conversion to float32. *)
Theorem C51_large_refuted : exists x ds, 0 <= x < 2^31 /\
  decompose (2^32) (mkT [1%nat] [x]) = Ok (mkT [1; 32]%nat ds) /\ nth 0 ds 0 <> bit x 0.
Proof.
  exists (2^24 + 1). eexists. split; [split; [discriminate|reflexivity]|]. split; [vm_compute; reflexivity|]. vm_compute. discriminate.
Qed.
Print Assumptions C51_large_refuted.

(** The ring of bits is refused, although the only digit is the value itself. *)
Example C51_bits_witness : decompose 2 (mkT [1%nat] [1]) = Err RuntimeError.
Proof. reflexivity. Qed.
