(** Property C50: addition in sessions of every ring size (additive shares).
    Specification: S_Ring ([vec_in]: machine representatives of a ring; [s_add]). *)
From Verif Require Import Util Modular S_Ring S_Tensor M_Torch M_Dtype L_Torch L_Rep2 L_Dtype.
Local Open Scope Z_scope.

(** the ring sizes with a signed integer dtype *)
Definition signed_rings : list Z := [2^8; 2^16; 2^32; 2^64].

Lemma signed_dtype ring : In ring signed_rings -> exists d, get_type_from_ring ring = Ok d /\ d <> TBool /\
  width d = ring /\ ring <> 2 /\ ring <> 67 /\ supported ring /\ 0 < ring <= 2^64 /\ (ring <> 2^64 -> ring <= 2^32).
Proof.
  intros [<-|[<-|[<-|[<-|[]]]]]; eexists; (split; [reflexivity|]); (split; [discriminate|]); (split; [reflexivity|]);
    (split; [discriminate|]); (split; [discriminate|]); (split; [cbn; tauto|]); (split; [split; [reflexivity|discriminate]|]);
    intros H; try discriminate; congruence.
Qed.

(** C50: sharing gives the secret back in every such ring, and the sum of two shared tensors
    reconstructs to an int64 tensor congruent to the sum modulo the ring size; in the ring
    2^64 it is the sum in the ring.
    Partial: in the smaller rings the result is in general not the representative of the
    sum in the ring, but off by a multiple of the ring size (next theorems); replicated
    sessions are not covered. *)
Theorem C50_sum_congruent_partial : forall ring x y rs qs m,
  In ring signed_rings -> rs <> [] -> length rs = length qs ->
  length x = m -> length y = m -> vec_in (2^64) x -> vec_in (2^64) y ->
  Forall (fun r => length r = m /\ vec_in ring r) rs -> Forall (fun r => length r = m /\ vec_in ring r) qs ->
  exists xs ys z, d_share ring x rs = Ok xs /\ d_share ring y qs = Ok ys /\
    length xs = S (length rs) /\ length ys = S (length qs) /\
    d_reconstruct xs = (TI64, x) /\ d_reconstruct ys = (TI64, y) /\
    d_reconstruct (d_addp xs ys) = (TI64, z) /\ length z = m /\
    (forall e, (e < m)%nat -> (nth e z 0 - (nth e x 0 + nth e y 0)) mod ring = 0) /\
    (ring = 2^64 -> z = s_add (2^64) x y) /\
    (ring <> 2^64 -> forall e, (e < m)%nat -> - 2^63 <= nth e x 0 + nth e y 0 < 2^63 ->
       (nth e z 0 = nth e x 0 + nth e y 0 <->
        - (ring / 2) <= nth e (last rs []) 0 + nth e (last qs []) 0 < ring / 2)).
Proof.
  intros ring x y rs qs m HR Hrs HL LX LY VX VY HF HG.
  destruct (signed_dtype ring HR) as (d & ED & Hd & _ & R2 & R67 & HS & HP & HP').
  assert (CR : forall v, cast d v = to_ring ring v) by (intros; apply cast_ring; auto).
  assert (C64 : forall v, cast TI64 v = to_ring (2^64) v) by (intros; apply cast_ring; [reflexivity|discriminate|discriminate]).
  assert (TF : forall l, Forall (fun r => length r = m /\ vec_in ring r) l -> Forall (fun r => length r = m /\ typed d r) l).
  { intros l Hl. eapply Forall_impl; [|exact Hl]. intros r [A B]. split; [exact A|]. eapply Forall_impl; [|exact B].
    intros v Hv. rewrite CR. exact Hv. }
  assert (T64 : forall v, vec_in (2^64) v -> typed TI64 v).
  { intros v Hv. eapply Forall_impl; [|exact Hv]. intros w Hw. rewrite C64. exact Hw. }
  assert (Hqs : qs <> []) by (intros ->; destruct rs; [congruence|discriminate]).
  destruct (share_reconstruct ring d x rs m) as (xs & EX & NX & RX); auto.
  destruct (share_reconstruct ring d y qs m) as (ys & EY & NY & RY); auto.
  destruct (share_add ring d x y rs qs m) as (xs' & ys' & EX' & EY' & EZ); auto.
  assert (xs' = xs) as -> by congruence. assert (ys' = ys) as -> by congruence.
  set (r := last rs []) in *. set (q := last qs []) in *.
  assert (Hr : length r = m) by (unfold r; destruct rs as [|r0 t]; [congruence|]; inversion HF; subst; rewrite last_cons_any;
    apply (Forall_last (fun r => length r = length x /\ vec_in ring r)); auto).
  assert (Hq : length q = m) by (unfold q; destruct qs as [|q0 t]; [congruence|]; inversion HG; subst; rewrite last_cons_any;
    apply (Forall_last (fun r => length r = length x /\ vec_in ring r)); auto).
  eexists xs, ys, _. do 6 (split; [eassumption|]). split; [exact EZ|].
  assert (LC : forall d a b, length a = m -> length b = m -> length (cadd d a b) = m) by (intros; unfold cadd; rewrite map2_length; lia).
  assert (LS : forall d a b, length a = m -> length b = m -> length (csub d a b) = m) by (intros; unfold csub; rewrite map2_length; lia).
  assert (N : forall e, (e < m)%nat -> nth e (cadd TI64 (cadd d r q) (cadd TI64 (csub TI64 x r) (csub TI64 y q))) 0 =
     to_ring (2^64) (nth e x 0 + nth e y 0 + (to_ring ring (nth e r 0 + nth e q 0) - (nth e r 0 + nth e q 0)))).
  { intros e He. rewrite nth_cadd by (rewrite ?LC; auto; rewrite ?LS; auto). rewrite nth_cadd by lia.
    rewrite nth_cadd by (rewrite LS; auto). rewrite !nth_csub by lia. rewrite <- (C64 (nth e x 0 + _ + _)).
    apply cast_cong; [discriminate|]. rewrite !(cast_eqmod TI64) by discriminate. rewrite CR. apply eqmod_eq. lia. }
  split; [apply LC; auto|]. split; [|split].
  - intros e He. rewrite N by auto. apply Z.mod_divide; [lia|].
    destruct (to_ring_eqmod (2^64) (nth e x 0 + nth e y 0 + (to_ring ring (nth e r 0 + nth e q 0) - (nth e r 0 + nth e q 0))) ltac:(lia)) as [k ->].
    destruct (to_ring_eqmod ring (nth e r 0 + nth e q 0) ltac:(lia)) as [j ->].
    assert (D : (ring | 2^64)).
    { destruct HR as [<-|[<-|[<-|[<-|[]]]]]; [exists (2^56)|exists (2^48)|exists (2^32)|exists 1]; reflexivity. }
    destruct D as [c D]. exists (j + k * c). rewrite D. ring.
  - intros ->. apply (nth_ext_len 0).
    + rewrite LC; auto. unfold s_add. rewrite map2_length. lia.
    + intros e He. rewrite LC in He; auto. rewrite N by auto. unfold s_add. rewrite (nth_map2 _ 0 0 0) by lia.
      apply to_ring_eq. destruct (to_ring_eqmod (2^64) (nth e r 0 + nth e q 0) ltac:(lia)) as [j ->]. exists j. lia.
  - intros NE e He HB. rewrite N by auto. specialize (HP' NE).
    set (w := nth e r 0 + nth e q 0). set (s := nth e x 0 + nth e y 0) in *.
    assert (IR : forall v, to_ring ring v = (v + ring / 2) mod ring - ring / 2).
    { intros v. unfold to_ring. destruct (Z.eqb_spec ring 2), (Z.eqb_spec ring 67); try congruence; reflexivity. }
    assert (I64 : forall v, - 2^63 <= v < 2^63 -> to_ring (2^64) v = v).
    { intros v Hv. unfold to_ring. change ((2^64 =? 2) || (2^64 =? 67)) with false. cbv iota. change (2^64 / 2) with (2^63).
      rewrite Z.mod_small by (change (2^64) with (2 * 2^63); lia). lia. }
    assert (EV : ring = 2 * (ring / 2)) by (destruct HR as [<-|[<-|[<-|[<-|[]]]]]; reflexivity).
    assert (BR : - (ring / 2) <= to_ring ring w < ring / 2) by (rewrite IR; pose proof (Z.mod_pos_bound (w + ring / 2) ring ltac:(lia)); lia).
    split.
    + intros HZ. assert (K : to_ring ring w = w); [|lia].
      assert (WB : - ring <= w < ring).
      { assert (EB : forall l, Forall (fun r => length r = m /\ vec_in ring r) l -> l <> [] -> - (ring / 2) <= nth e (last l []) 0 < ring / 2).
        { intros l Hl Hn. destruct l as [|a l]; [congruence|]. rewrite last_cons_any. inversion Hl as [|? ? Ha Hl']; subst.
          pose proof (Forall_last (fun r => length r = length x /\ vec_in ring r) l a Ha Hl') as [A B].
          unfold vec_in in B. rewrite Forall_forall in B. specialize (B (nth e (last l a) 0) ltac:(apply nth_In; lia)).
          unfold in_ring in B. rewrite IR in B. pose proof (Z.mod_pos_bound (nth e (last l a) 0 + ring / 2) ring ltac:(lia)). lia. }
        pose proof (EB rs HF Hrs) as B1. pose proof (EB qs HG Hqs) as B2. fold r in B1. fold q in B2. unfold w. lia. }
      destruct (to_ring_eqmod (2^64) (s + (to_ring ring w - w)) ltac:(lia)) as [k HK]. rewrite HZ in HK.
      assert (k = 0) by (change (2^64) with (2^32 * 2^32) in HK; nia). lia.
    + intros HW2. rewrite (IR w), Z.mod_small by lia. rewrite I64 by lia. lia.
Qed.
Print Assumptions C50_sum_congruent_partial.

Example C50_witness : (* three parties, ring 2^32 *)
  let rs := [[5; -7]; [1000; 2^31 - 1]] in let qs := [[2^31 - 1; 0]; [-2^31; 1]] in
  In (2^32) signed_rings /\
  Forall (fun r => length r = 2%nat /\ vec_in (2^32) r) rs /\ Forall (fun r => length r = 2%nat /\ vec_in (2^32) r) qs /\
  (do xs <- d_share (2^32) [10; 20] rs; do ys <- d_share (2^32) [1; -3] qs;
   Ok (d_reconstruct xs, d_reconstruct (d_addp xs ys))) =
  Ok ((TI64, [10; 20]), (TI64, [11; 17 - 2^32])).
Proof.
  cbn zeta. split; [cbn; tauto|]. split; [repeat constructor|]. split; [repeat constructor|]. vm_compute. reflexivity.
Qed.

(** C50 is false in the rings 2^8, 2^16, 2^32: the parties' shares are added with wrap-around
    but the last share is int64, so the sum of 0 and 0 can reconstruct to minus the ring size. *)
Theorem C50_small_rings_wrap : forall ring, In ring [2^8; 2^16; 2^32] ->
  exists rs qs xs ys, Forall (vec_in ring) rs /\ Forall (vec_in ring) qs /\ Forall (Forall (fun v => 0 <= v)) (rs ++ qs) /\
    d_share ring [0] rs = Ok xs /\ d_share ring [0] qs = Ok ys /\
    d_reconstruct (d_addp xs ys) = (TI64, [- ring]) /\ to_ring ring (- ring) = 0 /\ - ring <> 0.
Proof.
  intros ring [<-|[<-|[<-|[]]]].
  1: exists [[2^7 - 1]], [[2^7 - 1]]. 2: exists [[2^15 - 1]], [[2^15 - 1]]. 3: exists [[2^31 - 1]], [[2^31 - 1]].
  all: do 2 eexists; split; [repeat constructor|]; split; [repeat constructor|]; split; [repeat constructor; discriminate|].
  all: split; [vm_compute; reflexivity|]; split; [vm_compute; reflexivity|]; split; [vm_compute; reflexivity|].
  all: split; [reflexivity|discriminate].
Qed.
Print Assumptions C50_small_rings_wrap.

Theorem C50_small_ring_refuted : exists rs qs xs ys z,
  Forall (vec_in (2^32)) rs /\ Forall (vec_in (2^32)) qs /\ vec_in (2^32) [5] /\ vec_in (2^32) [7] /\
  d_share (2^32) [5] rs = Ok xs /\ d_share (2^32) [7] qs = Ok ys /\
  d_reconstruct (d_addp xs ys) = (TI64, [z]) /\ z <> to_ring (2^32) (5 + 7).
Proof.
  exists [[2^31 - 1]], [[1]]. do 3 eexists. do 2 (split; [repeat constructor|]). do 2 (split; [repeat constructor|]).
  do 3 (split; [vm_compute; reflexivity|]). vm_compute. discriminate.
Qed.
Print Assumptions C50_small_ring_refuted.

(** C50 is false in the prime field: shares are added modulo 256, so the sum of 0 and 0 need
    not even be 0 modulo 67. *)
Theorem C50_prime_refuted : exists rs qs xs ys z, Forall (Forall (fun v => 0 <= v < 256)) (rs ++ qs) /\
  d_share 67 [0] rs = Ok xs /\ d_share 67 [0] qs = Ok ys /\
  d_reconstruct xs = (TI64, [0]) /\ d_reconstruct ys = (TI64, [0]) /\
  d_reconstruct (d_addp xs ys) = (TI64, [z]) /\ z mod 67 <> 0.
Proof.
  exists [[200]], [[100]]. do 3 eexists. split; [repeat constructor; discriminate|].
  split; [vm_compute; reflexivity|]. split; [vm_compute; reflexivity|]. split; [vm_compute; reflexivity|].
  split; [vm_compute; reflexivity|]. split; [vm_compute; reflexivity|]. vm_compute. discriminate.
Qed.
Print Assumptions C50_prime_refuted.

(** C50 for bits: nothing can be shared; every attempt raises RuntimeError. *)
Theorem C50_bits_never_shared : forall v rs, rs <> [] -> d_share 2 v rs = Err RuntimeError.
Proof. intros v [|r t] H; [congruence|]. exact (bool_generate v r t). Qed.
Print Assumptions C50_bits_never_shared.

Example C50_bits_witness : d_share 2 [1] [[0]] = Err RuntimeError /\ d_share 2 [1] [[0]; [1]] = Err RuntimeError.
Proof. split; reflexivity. Qed.
