(** Specification: multiplying every share by a public number. *)
From Verif Require Import Util S_Ring S_Tensor.
Local Open Scope Z_scope.

Definition times (l : Z) (v : list Z) : list Z := map (fun a => to_ring (2^64) (a * l)) v.
Definition times_shares (l : Z) (sh : list nat) (ts : list tensor) : list tensor :=
  map (fun t => mkT sh (times l (tdat t))) ts.
