(** C59: the mean squared error. *)
From Coq Require Import QArith.
From Verif Require Import Util Modular S_Ring S_Tensor S_Wraps S_Div S_Bil S_Spdz S_View S_Module
  M_Torch M_Encoder M_Tensor M_Share M_Spdz M_Loss
  L_Torch L_Tensor L_Encoder L_Share L_Spdz L_Div L_Bil L_Mul L_View L_Circuit L_Conv L_Rep6.
Local Open Scope Z_scope.

(** Specification: the sum of the squared differences, [a] and [b] being of equal length *)
Definition squares (a b : list Z) : Z := zsum (map2 (fun x y => (x - y) * (x - y)) a b).

Lemma zsum_map_eqmod N (f g : Z -> Z) l : (forall a, f a == g a [mod N]) -> zsum (map f l) == zsum (map g l) [mod N].
Proof. intros H. apply zsum_eqmod. auto. Qed.

(** C59, reduction "sum" (integer sessions, any number of parties): the sum of the squared
    differences in the ring, for tensors of the same shape; "mean": that sum divided by the first
    dimension, up to n units, when the division is accurate ([divisible], C12, C14). *)
Theorem C59_sum : forall s sh pred target va vb tri msk prim,
  c_prec (s_cfg s) = 0%nat -> 0 < c_base (s_cfg s) -> (2 <= s_n s)%nat -> sh <> [] ->
  sharing_of s sh va pred -> sharing_of s sh vb target ->
  (forall k, valid_triples sh sh sh (mul_val sh sh sh) (s_n s) (tri k)) ->
  (forall k, any_masks (s_n s) sh (fst (msk k)) (snd (msk k))) ->
  exists t, mse_loss s pred target RSum tri msk prim = Ok t /\
    sharing_of s [] [to_ring (2^64) (squares va vb)] t.
Proof.
  intros s sh pred target va vb tri msk prim Hp Hc Hn Hsh (A1 & A2 & A3 & A4) (B1 & B2 & B3 & B4) HT HM.
  change (2^64) with R64 in *.
  destruct (shared_vals R64 supR _ _ _ A4) as (LA & IA & _). destruct (shared_vals R64 supR _ _ _ B4) as (LB & IB & _).
  destruct (mpc_lin_shared LSub pred target sh va vb) as (d & ED & D1 & D2 & D3 & D4); try congruence.
  { rewrite A2, B2. apply bshape_same. }
  rewrite A2, B2, !bexpand_self in D4 by auto. cbn [s_linop] in D4.
  set (vd := s_sub (2^64) va vb) in *.
  assert (GD : good s sh vd d) by (split; [congruence|]; split; [exact D2|]; split; [congruence|exact D4]).
  destruct (pow_correct s sh tri msk Hp Hc Hn Hsh HT HM d vd 2 GD) as (p & EP & P1 & P2 & P3 & P4).
  pose proof (shared_vals R64 supR _ _ _ P4) as (LP & IP & _).
  destruct (mpc_view_commutes VSum p (pow_vec vd 2) (mkT [] [to_ring R64 (zsum (pow_vec vd 2))])) as (t & ET & T1 & T2 & T3 & T4 & _).
  - rewrite P2. exact P4.
  - rewrite P2. apply (view_spec VSum sh [] (fun v => [to_ring (2^64) (zsum v)])); auto. apply vw_sum.
  - exists t. unfold mse_loss, sq_err. rewrite ED. cbn [rbind]. rewrite EP. cbn [rbind]. split; [exact ET|].
    cbn [tsh tdat] in T2, T4. split; [congruence|]. split; [exact T2|]. split; [congruence|].
    assert (EQ : to_ring R64 (zsum (pow_vec vd 2)) = to_ring R64 (squares va vb)); [|rewrite <- EQ; exact T4].
    apply to_ring_eq. unfold squares, pow_vec, vd, s_sub. clear -LA LB. revert sh vb LA LB.
    assert (G : forall va vb, length va = length vb ->
      zsum (map (fun a => to_ring (2^64) (a ^ 2)) (map2 (fun a b => to_ring (2^64) (a - b)) va vb)) == zsum (map2 (fun x y => (x - y) * (x - y)) va vb) [mod R64]).
    { induction va0 as [|a va0 IH]; intros [|b vb] HL; try discriminate HL; [reflexivity|]. cbn [map2 map zsum fold_right].
      change (2^64) with R64 in *. rewrite IH by (cbn in HL; lia). rewrite to_ring_eqmod by apply posR.
      replace (to_ring R64 (a - b) ^ 2) with (to_ring R64 (a - b) * to_ring R64 (a - b)) by ring.
      rewrite to_ring_eqmod by apply posR. reflexivity. }
    intros. apply G. lia.
Qed.
Print Assumptions C59_sum.

Theorem C59_mean_value : forall s n r pred target va vb tri msk prim,
  let sh := n :: r in
  c_prec (s_cfg s) = 0%nat -> 0 < c_base (s_cfg s) -> (2 <= s_n s)%nat -> (0 < n)%nat ->
  sharing_of s sh va pred -> sharing_of s sh vb target ->
  (forall k, valid_triples sh sh sh (mul_val sh sh sh) (s_n s) (tri k)) ->
  (forall k, any_masks (s_n s) sh (fst (msk k)) (snd (msk k))) ->
  exists t v, mse_loss s pred target RSum tri msk prim = Ok t /\ v = to_ring (2^64) (squares va vb) /\
    shared (2^64) [] [v] (m_shares t) /\
    (divisible (c_base (s_cfg s)) (c_prec (s_cfg s)) (s_n s) [] [v] (m_shares t) (Z.of_nat n) (fst prim) (snd prim) ->
     exists z q, mse_loss s pred target RMean tri msk prim = Ok z /\ sharing_of s [] [q] z /\
       quot_within (Z.of_nat n) v q
         (Z.of_nat (s_n s) * (Z.of_nat n - 1) + 2 * (Z.of_nat (s_n s) + 1) * (2^62 mod Z.of_nat n))).
Proof.
  intros s n r pred target va vb tri msk prim sh Hp Hc Hn Hn0 GA GB HT HM.
  destruct (C59_sum s sh pred target va vb tri msk prim Hp Hc Hn) as (t & ET & T1 & T2 & T3 & T4); auto; [discriminate|].
  exists t, (to_ring (2^64) (squares va vb)). split; [exact ET|]. split; [reflexivity|]. split; [exact T4|]. intros HD.
  destruct (divide_value s t (Z.of_nat n) prim [] [to_ring (2^64) (squares va vb)]) as (z & xs' & vz & EZ & Z1 & Z2 & Z3 & Z4 & Z5); auto; [lia|].
  pose proof (shared_vals R64 supR _ _ _ Z4) as (LZ & _ & _). destruct vz as [|q [|? ?]]; try discriminate LZ.
  exists z, q. cbn [mse_loss] in *. rewrite ET. cbn [rbind]. destruct GA as (_ & -> & _). unfold sh, mpc_truediv. rewrite EZ. cbn [rbind fst].
  split; [reflexivity|]. split; [split; [congruence|]; split; [exact Z2|]; split; [exact Z3|exact Z4]|].
  apply (Z5 0%nat). cbn. lia.
Qed.
Print Assumptions C59_mean_value.

(** C59: for tensors of one dimension the result of "mean" is the mean of the squared differences
    (same bound); missing: more dimensions, for which it is false, see below. *)
Theorem C59_mean_partial : forall s pred target va vb tri msk prim t,
  c_prec (s_cfg s) = 0%nat -> 0 < c_base (s_cfg s) -> (2 <= s_n s)%nat -> (0 < length va)%nat -> length vb = length va ->
  let n := length va in let sh := [n] in
  sharing_of s sh va pred -> sharing_of s sh vb target ->
  (forall k, valid_triples sh sh sh (mul_val sh sh sh) (s_n s) (tri k)) ->
  (forall k, any_masks (s_n s) sh (fst (msk k)) (snd (msk k))) ->
  squares va vb < 2^63 ->
  mse_loss s pred target RSum tri msk prim = Ok t ->
  divisible (c_base (s_cfg s)) (c_prec (s_cfg s)) (s_n s) [] [squares va vb] (m_shares t) (Z.of_nat n) (fst prim) (snd prim) ->
  exists z q, mse_loss s pred target RMean tri msk prim = Ok z /\ reconstruct z = Ok (mkT [] [q]) /\
    Z.abs (Z.of_nat n * q - squares va vb) <= Z.of_nat (s_n s) * (Z.of_nat n - 1) + 2 * (Z.of_nat (s_n s) + 1) * (2^62 mod Z.of_nat n).
Proof.
  intros s pred target va vb tri msk prim t Hp Hc Hn HL HB n sh GA GB HT HM HS ET HD.
  assert (H0 : 0 <= squares va vb).
  { unfold squares. clear. revert vb. induction va as [|a va IH]; intros [|b vb]; cbn [map2 zsum fold_right]; try lia.
    specialize (IH vb). pose proof (Z.square_nonneg (a - b)). lia. }
  destruct (C59_mean_value s n [] pred target va vb tri msk prim Hp Hc Hn HL GA GB HT HM) as (t' & v & ET' & EV & S1 & K).
  rewrite ET in ET'. injection ET' as <-. rewrite to_ring64_small in EV by lia. subst v.
  destruct (K HD) as (z & q & EZ & (_ & ZS & _ & SZ) & Q).
  exists z, q. split; [exact EZ|]. split; [|exact Q]. apply (shared_shape [] [q]). exact SZ.
Qed.
Print Assumptions C59_mean_partial.

(* two parties, [5, 1, -2] against [2, 1, 2]: 9 + 0 + 16 = 25, divided by 3 *)
Definition C59_s : sess := mkS 3 2 (mkConfig 2 0).
Definition C59_ts (sh : list nat) (n : nat) : list triple :=
  [(mkT sh (repeat 1 n), mkT sh (repeat 3 n), mkT sh (repeat 30 n)); (mkT sh (repeat 2 n), mkT sh (repeat 4 n), mkT sh (repeat (-9) n))].
Definition C59_a : mpc := mkM 3 [3]%nat [mkT [3]%nat [4; 9; -20]; mkT [3]%nat [1; -8; 18]].
Definition C59_b : mpc := mkM 3 [3]%nat [mkT [3]%nat [0; 0; 1]; mkT [3]%nat [2; 1; 1]].
Example C59_witness :
  sharing_of C59_s [3]%nat [5; 1; -2] C59_a /\ sharing_of C59_s [3]%nat [2; 1; 2] C59_b /\
  valid_triples [3]%nat [3]%nat [3]%nat (mul_val [3]%nat [3]%nat [3]%nat) 2 (C59_ts [3]%nat 3) /\
  squares [5; 1; -2] [2; 1; 2] = 25 /\
  (exists t, mse_loss C59_s C59_a C59_b RSum (fun _ => C59_ts [3]%nat 3) (fun _ => ([], [])) ([], []) = Ok t /\
     reconstruct t = Ok (mkT [] [25]) /\ divisible 2 0 2 [] [25] (m_shares t) 3 [] []) /\
  (do z <- mse_loss C59_s C59_a C59_b RMean (fun _ => C59_ts [3]%nat 3) (fun _ => ([], [])) ([], []); reconstruct z) = Ok (mkT [] [8]).
Proof.
  split; [do 3 (split; [reflexivity|]); apply sharedb_ok; vm_compute; reflexivity|].
  split; [do 3 (split; [reflexivity|]); apply sharedb_ok; vm_compute; reflexivity|]. split.
  { split; [reflexivity|]. exists [3; 3; 3], [7; 7; 7].
    split; [apply sharedb_ok; vm_compute; reflexivity|]. split; apply sharedb_ok; vm_compute; reflexivity. }
  split; [reflexivity|]. split; [|vm_compute; reflexivity].
  eexists. split; [vm_compute; reflexivity|]. split; [vm_compute; reflexivity|]. left. split; [reflexivity|].
  intros [|e] He; [vm_compute; reflexivity|cbn in He; lia].
Qed.

(** C59 refuted for more dimensions: the sum is divided by the first dimension, not by the number of
    elements. *)
Definition C59_m (v : list Z) : mpc := mkM 3 [2;2]%nat [mkT [2;2]%nat v; mkT [2;2]%nat [0; 0; 0; 0]].
Theorem C59_mean_refuted : exists s pred target va vb tri msk prim z,
  c_prec (s_cfg s) = 0%nat /\ s_n s = 2%nat /\ sharing_of s [2;2]%nat va pred /\ sharing_of s [2;2]%nat vb target /\
  (forall k, valid_triples [2;2]%nat [2;2]%nat [2;2]%nat (mul_val [2;2]%nat [2;2]%nat [2;2]%nat) (s_n s) (tri k)) /\
  mse_loss s pred target RMean tri msk prim = Ok z /\ squares va vb = 4 * 4 /\ reconstruct z = Ok (mkT [] [2 * 4]).
Proof.
  exists C59_s, (C59_m [4; 0; 0; 0]), (C59_m [0; 0; 0; 0]), [4; 0; 0; 0], [0; 0; 0; 0], (fun _ => C59_ts [2;2]%nat 4), (fun _ => ([], [])), ([], []).
  eexists. do 2 (split; [reflexivity|]).
  split; [do 3 (split; [reflexivity|]); apply sharedb_ok; vm_compute; reflexivity|].
  split; [do 3 (split; [reflexivity|]); apply sharedb_ok; vm_compute; reflexivity|]. split.
  { intros _. split; [reflexivity|]. exists [3; 3; 3; 3], [7; 7; 7; 7].
    split; [apply sharedb_ok; vm_compute; reflexivity|]. split; apply sharedb_ok; vm_compute; reflexivity. }
  split; [vm_compute; reflexivity|]. split; [reflexivity|]. vm_compute. reflexivity.
Qed.
Print Assumptions C59_mean_refuted.

(** C59: any other reduction is refused. *)
Theorem C59_unknown_reduction : forall s pred target tri msk prim, mse_loss s pred target ROther tri msk prim = Err ValueError.
Proof. reflexivity. Qed.
Print Assumptions C59_unknown_reduction.
