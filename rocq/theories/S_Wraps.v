(** Specification: wrap-around of a sum of 64-bit integers. *)
From Verif Require Import Util S_Ring S_Tensor.
Local Open Scope Z_scope.

(** the running (wrapped) sum and the next value are both the smallest integer *)
Fixpoint min_steps (acc : Z) (l : list Z) : Z :=
  match l with
  | [] => 0
  | c :: r => (if (to_ring (2^64) acc =? - 2^63) && (c =? - 2^63) then 1 else 0) + min_steps (acc + c) r
  end.

(** element [e] of every tensor of the list *)
Definition col (e : nat) (ts : list tensor) : list Z := map (fun t => nth e (tdat t) 0) ts.

(** how often the exact sum exceeds the ring: sum = wrapped sum + 2^64 * wraps *)
Definition wraps (l : list Z) : Z := (zsum l - to_ring (2^64) (zsum l)) / 2^64.
