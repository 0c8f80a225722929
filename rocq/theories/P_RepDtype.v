(** Property C82: sharing and addition in replicated sessions of every ring size.
    Specification: S_Ring ([vec_in]: machine representatives of a ring; [s_add]). *)
From Coq Require Import Lia List.
From Verif Require Import Util Modular S_Ring S_Tensor M_Torch M_Dtype M_RepDtype L_Torch L_Rep2 L_Dtype L_RepDtype P_Dtype.
Import ListNotations.
Local Open Scope Z_scope.

(** the draws of the code (torch's random_ without bounds): the lower half of a signed type *)
Definition drawn (ring : Z) (m : nat) (r : list Z) : Prop := length r = m /\ Forall (fun z => 0 <= z < ring / 2) r.

Lemma cast64 v : cast TI64 v = to_ring (2^64) v.
Proof. apply cast_ring; [reflexivity|discriminate|discriminate]. Qed.
Lemma vec_typed v : vec_in (2^64) v -> typed TI64 v.
Proof. intros H. eapply Forall_impl; [|exact H]. intros z Hz. rewrite cast64. exact Hz. Qed.

(** a secret is reconstructed exactly, in both security modes, for any number of parties *)
Theorem C82_secret : forall ring v rs m mal, In ring signed_rings -> rs <> [] -> length v = m -> vec_in (2^64) v ->
  Forall (drawn ring m) rs ->
  exists x, rd_share ring v rs = Ok x /\ length x = S (length rs) /\ rd_reconstruct mal ring x = Ok (TI64, v).
Proof.
  intros ring v rs m mal HR Hrs Lv Hv HF. destruct (signed_dtype ring HR) as (d & E & _).
  apply (rd_share_ok ring d v rs m mal); try assumption.
Qed.
Print Assumptions C82_secret.
Example C82_secret_witness : (* ring 2^16, four parties *)
  In (2^16) signed_rings /\ Forall (drawn (2^16) 2) [[32767; 0]; [5; 32000]; [0; 1]] /\
  (do x <- rd_share (2^16) [7; -9] [[32767; 0]; [5; 32000]; [0; 1]]; rd_reconstruct true (2^16) x) = Ok (TI64, [7; -9]).
Proof. split; [cbn; tauto|]. split; [repeat constructor; cbn; lia|]. vm_compute. reflexivity. Qed.

(** a sum is exact if the draws of the two operands add up within the lower half of the ring.
    Partial: without this it is not, see below. *)
Theorem C82_sum_partial : forall ring x y rs qs m mal, In ring signed_rings -> rs <> [] -> length rs = length qs ->
  length x = m -> length y = m -> Forall (drawn ring m) rs -> Forall (drawn ring m) qs ->
  Forall (drawn ring m) (map2 (map2 Z.add) rs qs) ->
  exists xs ys zs, rd_share ring x rs = Ok xs /\ rd_share ring y qs = Ok ys /\ rd_add ring xs ys = Ok zs /\
    rd_reconstruct mal ring zs = Ok (TI64, s_add (2^64) x y).
Proof.
  intros ring x y rs qs m mal HR Hrs HL Lx Ly HF HG HS.
  destruct (rd_share_add ring x y rs qs m HR Hrs HL Lx Ly) as (xs & ys & E1 & E2 & E3).
  { eapply Forall_impl; [|exact HF]. intros r [H _]. exact H. }
  { eapply Forall_impl; [|exact HG]. intros r [H _]. exact H. }
  { eapply Forall_impl; [|exact HS]. intros r [_ H]. exact H. }
  assert (EQ : cadd TI64 x y = s_add (2^64) x y) by (apply map2_ext_in; intros a b _; apply cast64).
  destruct (C82_secret ring (s_add (2^64) x y) (map2 (map2 Z.add) rs qs) m mal HR) as (zs & E4 & _ & E5).
  - destruct rs as [|r rs]; [congruence|]. destruct qs; [discriminate|]. discriminate.
  - unfold s_add. rewrite map2_length. lia.
  - rewrite <- EQ. unfold vec_in, cadd. apply Forall_forall. intros z Hz. destruct (In_nth _ _ 0 Hz) as (i & Hi & <-).
    rewrite map2_length in Hi. rewrite (nth_map2 _ 0 0 0) by lia. red. rewrite <- !cast64.
    apply (cast_cong TI64); [discriminate|]. apply (cast_eqmod TI64). discriminate.
  - exact HS.
  - exists xs, ys, zs. rewrite E3, EQ. auto.
Qed.
Print Assumptions C82_sum_partial.
Example C82_sum_witness :
  Forall (drawn (2^32) 1) [[5]; [2^30]] /\ Forall (drawn (2^32) 1) [[2^31 - 6]; [3]] /\
  Forall (drawn (2^32) 1) (map2 (map2 Z.add) [[5]; [2^30]] [[2^31 - 6]; [3]]).
Proof. repeat split; repeat constructor; cbn; lia. Qed.

(** REFUTED for the smaller rings: with the draws of the code a semi-honest session returns a sum that
    is off by the ring size, ... *)
Theorem C82_sum_refuted : exists rs qs xs ys zs, Forall (drawn (2^32) 1) (rs ++ qs) /\
  rd_share (2^32) [5] rs = Ok xs /\ rd_share (2^32) [7] qs = Ok ys /\ rd_add (2^32) xs ys = Ok zs /\
  rd_reconstruct false (2^32) zs = Ok (TI64, [12 - 2^32]).
Proof.
  exists [[1]; [2^31 - 1]], [[1]; [2^31 - 1]]. do 3 eexists. split; [repeat constructor; cbn; lia|].
  do 3 (split; [vm_compute; reflexivity|]). vm_compute. reflexivity.
Qed.
Print Assumptions C82_sum_refuted.
(** ... a malicious session accuses honest parties, ... *)
Theorem C82_honest_refuted : exists rs qs xs ys zs, Forall (drawn (2^32) 1) (rs ++ qs) /\
  rd_share (2^32) [5] rs = Ok xs /\ rd_share (2^32) [7] qs = Ok ys /\ rd_add (2^32) xs ys = Ok zs /\
  rd_reconstruct true (2^32) zs = Err ValueError.
Proof.
  exists [[2^30]; [2^30 + 5]], [[2^30 - 1]; [2^30 + 5]]. do 3 eexists. split; [repeat constructor; cbn; lia|].
  do 3 (split; [vm_compute; reflexivity|]). vm_compute. reflexivity.
Qed.
Print Assumptions C82_honest_refuted.
(** ... or accepts a wrong sum *)
Theorem C82_malicious_sum_refuted : exists rs qs xs ys zs, Forall (drawn (2^32) 1) (rs ++ qs) /\
  rd_share (2^32) [5] rs = Ok xs /\ rd_share (2^32) [7] qs = Ok ys /\ rd_add (2^32) xs ys = Ok zs /\
  rd_reconstruct true (2^32) zs = Ok (TI64, [12 - 2^32]).
Proof.
  exists [[2^31 - 1]; [2^31 - 1]], [[2^31 - 1]; [2^31 - 1]]. do 3 eexists. split; [repeat constructor; cbn; lia|].
  do 3 (split; [vm_compute; reflexivity|]). vm_compute. reflexivity.
Qed.
Print Assumptions C82_malicious_sum_refuted.

(** in the prime field no secret can be reconstructed: the last share is an int64 tensor, which the
    addition modulo 67 refuses *)
Theorem C82_prime : forall v rs x mal, rs <> [] -> rd_share 67 v rs = Ok x -> rd_reconstruct mal 67 x = Err ValueError.
Proof. exact prime_never. Qed.
Print Assumptions C82_prime.
Theorem C82_prime_refuted : exists rs x, rd_share 67 [5] rs = Ok x /\ rd_reconstruct false 67 x = Err ValueError.
Proof. exists [[3]; [8]]. eexists. split; [vm_compute; reflexivity|]. vm_compute. reflexivity. Qed.
Print Assumptions C82_prime_refuted.

(** bits cannot be shared at all *)
Theorem C82_bits : forall v rs, rs <> [] -> rd_share 2 v rs = Err RuntimeError.
Proof. intros v rs H. unfold rd_share. rewrite C50_bits_never_shared by exact H. reflexivity. Qed.
Print Assumptions C82_bits.
Example C82_bits_witness : rd_share 2 [1] [[0]; [1]] = Err RuntimeError.
Proof. reflexivity. Qed.
