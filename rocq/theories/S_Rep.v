(** Specification: replicated sharings, as plain mathematics. *)
From Verif Require Import Util S_Ring S_Tensor.
Local Open Scope Z_scope.

(** party [k] of [n] holds all shares but the one before its own: k, k+1, ..., k+n-2 *)
Definition rep_view (ss : list tensor) (k : nat) : list tensor :=
  map (fun i => nth ((k + i) mod length ss) ss (mkT [] [])) (seq 0 (length ss - 1)).

(** the tensors held by the parties are the views of one sharing of [v]: parties holding
    the same share hold the same tensor, and the shares add up to [v] in the ring *)
Definition replicated (ring : Z) (sh : list nat) (v : list Z) (ps : list (list tensor)) : Prop :=
  exists ss, shared ring sh v ss /\ ps = map (rep_view ss) (seq 0 (length ss)).
