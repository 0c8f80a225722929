(** Properties C66 to C68: forwarded methods, local division and shift, equality of replicated
    tensors.  Specifications: S_RepView ([moved], [summed]: the methods element by element, sums
    in the integers), S_RepT ([holds]). *)
From Coq Require Import QArith.
From Verif Require Import Util S_Ring S_Tensor S_Bil S_View S_Rep S_RepT M_Torch L_Torch M_Encoder M_Tensor L_Tensor M_Share M_Spdz M_Rep
  S_Spdz L_Bil L_RShare L_Rep L_Rep6 P_Rep M_RepView S_RepView L_RepView L_RepView2.
Local Open Scope Z_scope.

(* ------------------------------------------------------------------ C66 *)
(** t, T, unsqueeze, view, clone and repeat: in every ring, for any number of parties, the
    parties afterwards hold the method's result *)
Theorem C66_methods : forall s ring c sh v x m so f, supported ring -> holds s ring c sh v x -> moved m sh so f ->
  exists y, rm_method m x = Ok (false, y) /\ holds s ring c so (f v) y.
Proof. intros s ring c sh v x m so f Hs. apply rm_moved. exact Hs. Qed.
Print Assumptions C66_methods.

Example C66_methods_witness : (* the transpose of a matrix of residues modulo 67, three parties *)
  let x := rx RS3 67 c0 [2; 2]%nat [[60; 1; 2; 3]; [10; 1; 1; 1]; [66; 0; 0; 5]] in
  supported 67 /\ holds RS3 67 c0 [2; 2]%nat [2; 2; 3; 9] x /\ moved Mt [2; 2]%nat [2; 2]%nat
    (fun v => tabulate [2; 2]%nat (fun ix => match ix with [i; j] => elt [2; 2]%nat v [j; i] | _ => 0 end)) /\
  (do y <- rm_method Mt x; rw_reconstruct RS3 y) = Ok (mkT [2; 2]%nat [2; 3; 2; 9]).
Proof. split; [sup|]. split; [rx|]. split; [constructor|]. vm_compute; reflexivity. Qed.

(** numel, for at least two parties *)
Theorem C66_numel : forall s ring c sh v x, (2 <= rs_n s)%nat -> holds s ring c sh v x -> rm_numel x = Ok (numel sh).
Proof. intros s ring c sh v x. apply rm_numel_ok. Qed.
Print Assumptions C66_numel.

Example C66_numel_witness :
  let x := rx RS3 2 c0 [2; 2]%nat [[0; 1; 0; 1]; [1; 1; 1; 1]; [0; 0; 0; 1]] in
  (2 <= rs_n RS3)%nat /\ holds RS3 2 c0 [2; 2]%nat [1; 0; 1; 1] x /\ rm_numel x = Ok 4%nat.
Proof. split; [cbn; lia|]. split; [rx|]. vm_compute; reflexivity. Qed.

(** sum() and sum(d) in the ring 2^64 *)
Theorem C66_sum : forall s c sh v x m so f, holds s (2^64) c sh v x -> summed m sh so f ->
  exists y, rm_method m x = Ok (false, y) /\ holds s (2^64) c so (map (to_ring (2^64)) (f v)) y.
Proof. exact rm_sum_64. Qed.
Print Assumptions C66_sum.

Example C66_sum_witness :
  let x := rx RS4 (2^64) c16 [2; 2]%nat [[1; 2; 3; 4]; [2^63 - 1; 0; 0; 0]; [1; 1; 1; 1]; [0; 0; 0; -10]] in
  holds RS4 (2^64) c16 [2; 2]%nat [-2^63 + 1; 3; 4; -5] x /\
  summed (MSumDim 1) [2; 2]%nat [2]%nat
    (fun v => tabulate [2]%nat (fun ix => sumn 2 (fun k => elt [2; 2]%nat v (insert_at 1 k ix)))) /\
  (do y <- rm_method (MSumDim 1) x; rw_reconstruct RS4 y) = Ok (mkT [2]%nat [-2^63 + 4; -1]).
Proof. split; [rx|]. split; [apply (sm_dim 1 [2; 2]%nat); cbn; lia|]. vm_compute; reflexivity. Qed.

(** in the rings 2^8, 2^16 and 2^32 torch.sum makes int64 tensors of the shares: what is
    reconstructed is congruent to the sum modulo the ring (C66_sum_unreduced_refuted: it is
    in general not its representative) *)
Theorem C66_sum_rings_partial : forall s ring c sh v x m so f, supported ring -> ring <> 2 -> ring <> 67 -> ring <> 2^64 ->
  (2 <= rs_n s)%nat -> holds s ring c sh v x -> summed m sh so f ->
  exists y w, rm_method m x = Ok y /\ rw_reconstruct s y = Ok (mkT so w) /\ length w = numel so /\
    forall e, (e < numel so)%nat -> exists k, nth e w 0 = nth e (f v) 0 + k * ring.
Proof. exact rm_sum_ring. Qed.
Print Assumptions C66_sum_rings_partial.

Example C66_sum_rings_witness :
  let x := rx RS3 (2^8) c0 [3]%nat [[100; 1; 2]; [100; 0; 0]; [1; 1; 1]] in
  supported (2^8) /\ 2^8 <> 2 /\ 2^8 <> 67 /\ 2^8 <> 2^64 /\ (2 <= rs_n RS3)%nat /\
  holds RS3 (2^8) c0 [3]%nat [-55; 2; 3] x /\ summed MSum [3]%nat [] (fun v => [zsum v]) /\
  zsum [-55; 2; 3] + 1 * 2^8 = 206 /\
  (do y <- rm_method MSum x; rw_reconstruct RS3 y) = Ok (mkT [] [206]).
Proof.
  split; [sup|]. split; [discriminate|]. split; [discriminate|]. split; [discriminate|]. split; [cbn; lia|].
  split; [rx|]. split; [constructor|]. split; [reflexivity|]. vm_compute; reflexivity.
Qed.

(** false: the reconstructed sum is an element of the ring *)
Theorem C66_sum_unreduced_refuted : exists s ring c sh v x y w, supported ring /\ holds s ring c sh v x /\
  rm_method MSum x = Ok y /\ rw_reconstruct s y = Ok (mkT [] [w]) /\
  in_ring ring (zsum v) /\ w <> zsum v /\ ~ in_ring ring w.
Proof.
  exists RS3, (2^8), c0, [3]%nat, [-55; 2; 3], (rx RS3 (2^8) c0 [3]%nat [[100; 1; 2]; [100; 0; 0]; [1; 1; 1]]).
  eexists _, _. split; [sup|]. split; [rx|]. split; [vm_compute; reflexivity|]. split; [vm_compute; reflexivity|].
  split; [vm_compute; reflexivity|]. split; [discriminate|]. vm_compute. discriminate.
Qed.
Print Assumptions C66_sum_unreduced_refuted.

(** false: the sum of shared bits can be reconstructed (it depends on the sharing, not on the bits) *)
Theorem C66_sum_bits_refuted : exists s sh v x x' y y' t t', holds s 2 c0 sh v x /\ holds s 2 c0 sh v x' /\
  rm_method MSum x = Ok y /\ rw_reconstruct s y = Ok t /\
  rm_method MSum x' = Ok y' /\ rw_reconstruct s y' = Ok t' /\ t <> t'.
Proof.
  exists RS3, [2]%nat, [1; 1], (rx RS3 2 c0 [2]%nat [[1; 1]; [0; 0]; [0; 0]]), (rx RS3 2 c0 [2]%nat [[1; 0]; [0; 1]; [0; 0]]).
  eexists _, _, _, _. split; [rx|]. split; [rx|].
  split; [vm_compute; reflexivity|]. split; [vm_compute; reflexivity|].
  split; [vm_compute; reflexivity|]. split; [vm_compute; reflexivity|]. discriminate.
Qed.
Print Assumptions C66_sum_bits_refuted.

(** false: the sum of residues modulo 67 can be reconstructed *)
Theorem C66_sum_prime_refuted : exists s sh v x y, holds s 67 c0 sh v x /\
  rm_method MSum x = Ok y /\ rw_reconstruct s y = Err ValueError.
Proof.
  exists RS3, [2]%nat, [1; 2], (rx RS3 67 c0 [2]%nat [[1; 2]; [60; 60]; [7; 7]]). eexists. split; [rx|].
  split; [vm_compute; reflexivity|]. vm_compute; reflexivity.
Qed.
Print Assumptions C66_sum_prime_refuted.

(** false: the methods that additive tensors have (squeeze, flatten, reshape, narrow, transpose,
    dim) exist for replicated ones *)
Theorem C66_missing_refuted : exists s x, holds s (2^64) c16 [1; 2]%nat [1; 2] x /\
  Forall (fun m => rm_method m x = Err AttributeError)
    [MSqueeze; MFlatten; MReshape [2%nat]; MNarrow 0 1; MTranspose 0 1; MDim].
Proof.
  exists RS3, (rx RS3 (2^64) c16 [1; 2]%nat [[1; 2]; [5; 5]; [-5; -5]]). split; [rx|].
  repeat constructor.
Qed.
Print Assumptions C66_missing_refuted.

(* ------------------------------------------------------------------ C67 *)
(** division of every share by a non-zero integer: the parties hold a sharing of some [q] with
    |y q - W| <= n (|y| - 1), where W is the sum of the shares in the integers *)
Theorem C67_division_partial : forall s ring c sh v x ss y, supported ring -> ring <> 2 -> ring <> 67 -> y <> 0 ->
  holds s ring c sh v x -> shared ring sh v ss -> map r_shares (rm_ps x) = map (rep_view ss) (seq 0 (length ss)) ->
  exists ps w, rmap (fun p => rst_truediv p (DInt y)) (rm_ps x) = Ok ps /\ holds s ring c sh w (mkRM (rm_sid x) (rm_shape x) ps) /\
    forall e, (e < numel sh)%nat -> exists q, nth e w 0 = to_ring ring q /\
      Z.abs (y * q - zsum (map (fun t => nth e (tdat t) 0) ss)) <= Z.of_nat (rs_n s) * (Z.abs y - 1).
Proof. exact rep_divide. Qed.
Print Assumptions C67_division_partial.

Example C67_division_witness :
  let ss := map (mkT [1]%nat) [[40]; [30]; [30]] in
  let x := rx RS3 (2^64) c16 [1]%nat [[40]; [30]; [30]] in
  supported (2^64) /\ 2^64 <> 2 /\ 2^64 <> 67 /\ 7 <> 0 /\ holds RS3 (2^64) c16 [1]%nat [100] x /\
  shared (2^64) [1]%nat [100] ss /\ map r_shares (rm_ps x) = map (rep_view ss) (seq 0 (length ss)) /\
  (do ps <- rmap (fun p => rst_truediv p (DInt 7)) (rm_ps x); rm_reconstruct RS3 (mkRM 0 [1]%nat ps)) = Ok (mkT [1]%nat [13]).
Proof.
  split; [sup|]. split; [discriminate|]. split; [discriminate|]. split; [discriminate|]. split; [rx|].
  split; [apply sharedb_ok; vm_compute; reflexivity|]. split; [vm_compute; reflexivity|]. vm_compute; reflexivity.
Qed.

(** false: the quotient is that of the shared value, up to rounding (here by 100) *)
Theorem C67_division_refuted : exists s ring c sh v x ps w, supported ring /\ holds s ring c sh [v] x /\
  rmap (fun p => rst_truediv p (DInt 5)) (rm_ps x) = Ok ps /\ rm_reconstruct s (mkRM (rm_sid x) sh ps) = Ok (mkT sh [w]) /\
  Z.abs (5 * w - v) > 100.
Proof.
  exists RS3, (2^64), c16, [1]%nat, 10, (rx RS3 (2^64) c16 [1]%nat [[2^63 - 1]; [2^63 - 1]; [12]]).
  eexists _, _. split; [sup|]. split; [rx|]. split; [vm_compute; reflexivity|]. split; [vm_compute; reflexivity|]. reflexivity.
Qed.
Print Assumptions C67_division_refuted.

(** false: a shared tensor of three parties can be divided by a public integer *)
Theorem C67_parties_refuted : exists s ring c sh v x y, supported ring /\ holds s ring c sh v x /\ y <> 0 /\
  rm_truediv s x (DInt y) = Err AttributeError.
Proof.
  exists RS3, (2^64), c16, [1]%nat, [100], (rx RS3 (2^64) c16 [1]%nat [[40]; [30]; [30]]), 5.
  split; [sup|]. split; [rx|]. split; [discriminate|]. reflexivity.
Qed.
Print Assumptions C67_parties_refuted.

(** two parties: the same bound for MPCTensor / integer *)
Theorem C67_two_parties_partial : forall s ring c sh v x ss y, supported ring -> ring <> 2 -> ring <> 67 -> y <> 0 ->
  rs_n s = 2%nat -> holds s ring c sh v x -> shared ring sh v ss ->
  map r_shares (rm_ps x) = map (rep_view ss) (seq 0 (length ss)) ->
  exists z w, rm_truediv s x (DInt y) = Ok z /\ holds s ring c sh w z /\
    forall e, (e < numel sh)%nat -> exists q, nth e w 0 = to_ring ring q /\
      Z.abs (y * q - zsum (map (fun t => nth e (tdat t) 0) ss)) <= 2 * (Z.abs y - 1).
Proof.
  intros s ring c sh v x ss y Hs N2 N67 Hy Hn HX Hss HV.
  destruct (rep_divide s ring c sh v x ss y Hs N2 N67 Hy HX Hss HV) as (ps & w & E & H & HB). rewrite Hn in HB.
  exists (mkRM (rm_sid x) (rm_shape x) ps), w. split; [|split; [exact H|exact HB]].
  unfold rm_truediv. rewrite Hn. cbn [Nat.eqb]. rewrite E. reflexivity.
Qed.
Print Assumptions C67_two_parties_partial.

Example C67_two_parties_witness :
  let s := mkRS 0 2 (2^64) c16 false (fun k => k) in
  let ss := map (mkT [1]%nat) [[45]; [-5]] in
  let x := rx s (2^64) c16 [1]%nat [[45]; [-5]] in
  rs_n s = 2%nat /\ holds s (2^64) c16 [1]%nat [40] x /\ shared (2^64) [1]%nat [40] ss /\
  map r_shares (rm_ps x) = map (rep_view ss) (seq 0 (length ss)) /\
  (do z <- rm_truediv s x (DInt 7); rm_reconstruct s z) = Ok (mkT [1]%nat [6]).
Proof.
  split; [reflexivity|]. split; [rx|]. split; [apply sharedb_ok; vm_compute; reflexivity|].
  split; [vm_compute; reflexivity|]. vm_compute; reflexivity.
Qed.

(** shift of every share by k bits *)
Theorem C67_shift_partial : forall s ring c sh v x ss k, supported ring -> ring <> 2 -> ring <> 67 -> 0 <= k -> 2^(k+1) <= ring ->
  holds s ring c sh v x -> shared ring sh v ss -> map r_shares (rm_ps x) = map (rep_view ss) (seq 0 (length ss)) ->
  exists ps w, rmap (fun p => rst_rshift p (DInt k)) (rm_ps x) = Ok ps /\ holds s ring c sh w (mkRM (rm_sid x) (rm_shape x) ps) /\
    forall e, (e < numel sh)%nat -> exists q, nth e w 0 = to_ring ring q /\
      let W := zsum (map (fun t => nth e (tdat t) 0) ss) in
      2^k * q <= W <= 2^k * q + Z.of_nat (rs_n s) * (2^k - 1).
Proof. exact rep_shift. Qed.
Print Assumptions C67_shift_partial.

Example C67_shift_witness :
  let ss := map (mkT [1]%nat) [[45]; [-5]; [3]] in
  let x := rx RS3 (2^8) c16 [1]%nat [[45]; [-5]; [3]] in
  supported (2^8) /\ 2^8 <> 2 /\ 2^8 <> 67 /\ 0 <= 2 /\ 2^(2+1) <= 2^8 /\ holds RS3 (2^8) c16 [1]%nat [43] x /\
  shared (2^8) [1]%nat [43] ss /\ map r_shares (rm_ps x) = map (rep_view ss) (seq 0 (length ss)) /\
  (do ps <- rmap (fun p => rst_rshift p (DInt 2)) (rm_ps x); rm_reconstruct RS3 (mkRM 0 [1]%nat ps)) = Ok (mkT [1]%nat [9]).
Proof.
  split; [sup|]. split; [discriminate|]. split; [discriminate|]. split; [lia|]. split; [vm_compute; discriminate|]. split; [rx|].
  split; [apply sharedb_ok; vm_compute; reflexivity|]. split; [vm_compute; reflexivity|]. vm_compute; reflexivity.
Qed.

(** in a ring of [b] bits exactly the shifts 0, ..., b-1 are accepted *)
Theorem C67_shift_range : forall x b k, 0 < b -> r_ring x = 2^b ->
  (exists y, rst_rshift x (DInt k) = Ok y) <-> 0 <= k < b.
Proof.
  intros x b k Hb E. unfold rst_rshift. rewrite E, log2_bits by auto.
  destruct (Z.ltb_spec k 0); cbn [orb]; [split; [intros (y & H1); discriminate|lia]|].
  destruct (Z.ltb_spec (b - 1) k); [split; [intros (y & H1); discriminate|lia]|]. split; [lia|eauto].
Qed.
Print Assumptions C67_shift_range.

Example C67_shift_range_witness :
  let x := mkR (2^16) c16 None [t1 [1000]] in
  r_ring x = 2^16 /\ rst_rshift x (DInt 15) = Ok (mkR (2^16) c16 None [t1 [0]]) /\ rst_rshift x (DInt 16) = Err ValueError.
Proof. split; [reflexivity|]. split; [vm_compute; reflexivity|]. vm_compute; reflexivity. Qed.

(* ------------------------------------------------------------------ C68 *)
(** two share objects with the same number of shares, all of the same shape with at least one
    dimension, are equal if and only if shares, configuration and ring are and the sessions,
    where known, are the same *)
Theorem C68_equal : forall x y n r, r_shares x <> [] -> length (r_shares x) = length (r_shares y) ->
  Forall (whole (n :: r)) (r_shares x) -> Forall (whole (n :: r)) (r_shares y) ->
  exists b, rst_eq x y = Ok b /\
    (b = true <-> r_shares x = r_shares y /\ r_cfg x = r_cfg y /\ r_ring x = r_ring y /\
      (r_uuid x = None \/ r_uuid y = None \/ r_uuid x = r_uuid y)).
Proof. exact rst_eq_spec. Qed.
Print Assumptions C68_equal.

Example C68_equal_witness :
  let x := mkR (2^16) c16 (Some 3%nat) [t1 [1; 2]; t1 [3; 4]] in
  let y := mkR (2^16) c16 (Some 3%nat) [t1 [1; 2]; t1 [3; 5]] in
  r_shares x <> [] /\ length (r_shares x) = length (r_shares y) /\
  Forall (whole [2]%nat) (r_shares x) /\ Forall (whole [2]%nat) (r_shares y) /\
  rst_eq x y = Ok false /\ rst_eq x x = Ok true.
Proof.
  split; [discriminate|]. split; [reflexivity|]. split; [repeat constructor|]. split; [repeat constructor|].
  split; [vm_compute; reflexivity|]. vm_compute; reflexivity.
Qed.

(** false: objects that compare equal have the same shares (one share is broadcast) *)
Theorem C68_broadcast_refuted : exists x y, rst_eq x y = Ok true /\ length (r_shares x) <> length (r_shares y).
Proof.
  exists (mkR (2^64) c16 None [t1 [7]]), (mkR (2^64) c16 None [t1 [7]; t1 [7]]). split; [vm_compute; reflexivity|discriminate].
Qed.
Print Assumptions C68_broadcast_refuted.

(** false: an object equals itself (shares without dimensions cannot be concatenated) *)
Theorem C68_reflexive_refuted : exists x, Forall (whole []) (r_shares x) /\ rst_eq x x = Err RuntimeError.
Proof. exists (mkR (2^64) c16 None [mkT [] [7]; mkT [] [8]]). split; [repeat constructor|]. vm_compute; reflexivity. Qed.
Print Assumptions C68_reflexive_refuted.

(** false: equality is transitive (an object without session equals those of all sessions) *)
Theorem C68_transitive_refuted : exists x y z, rst_eq x y = Ok true /\ rst_eq y z = Ok true /\ rst_eq x z = Ok false.
Proof.
  exists (mkR (2^64) c16 (Some 1%nat) [t1 [7]]), (mkR (2^64) c16 None [t1 [7]]), (mkR (2^64) c16 (Some 2%nat) [t1 [7]]).
  split; [vm_compute; reflexivity|]. split; [vm_compute; reflexivity|]. vm_compute; reflexivity.
Qed.
Print Assumptions C68_transitive_refuted.

(** reading and replacing one share *)
Theorem C68_items : forall x k t, (k < length (r_shares x))%nat ->
  exists y, rst_setitem x k t = Ok y /\ rst_getitem y k = Ok t /\ length (r_shares y) = length (r_shares x) /\
    (forall j, j <> k -> rst_getitem y j = rst_getitem x j) /\
    r_ring y = r_ring x /\ r_cfg y = r_cfg x /\ r_uuid y = r_uuid x.
Proof.
  intros x k t Hk. unfold rst_setitem, rst_getitem. rewrite (get_nth_nth _ dT) by auto. cbn [rbind].
  eexists. split; [reflexivity|]. cbn [r_shares r_ring r_cfg r_uuid].
  split; [rewrite (get_nth_nth _ dT) by (rewrite set_nth_length; auto); rewrite nth_set_nth by auto; rewrite Nat.eqb_refl; reflexivity|].
  split; [apply set_nth_length|]. split; [|auto].
  intros j Hj. destruct (Nat.lt_ge_cases j (length (r_shares x))) as [C|C].
  - rewrite !(get_nth_nth _ dT) by (rewrite ?set_nth_length; auto). rewrite nth_set_nth by auto.
    destruct (Nat.eqb_spec j k); [congruence|reflexivity].
  - unfold get_nth. rewrite !(proj2 (nth_error_None _ _)) by (rewrite ?set_nth_length; auto). reflexivity.
Qed.
Print Assumptions C68_items.

Example C68_items_witness :
  let x := mkR (2^16) c16 None [t1 [1]; t1 [3]] in
  (1 < length (r_shares x))%nat /\ rst_setitem x 1 (t1 [9]) = Ok (mkR (2^16) c16 None [t1 [1]; t1 [9]]).
Proof. split; [cbn; lia|]. vm_compute; reflexivity. Qed.
