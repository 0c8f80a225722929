(** Specification: broadcasting of one operand, inner products. *)
From Verif Require Import Util S_Ring S_Tensor.
Local Open Scope Z_scope.

(** tensors of shape [w] broadcast to the shape [so]: new leading dimensions, and dimensions
    of size 1 repeated *)
Definition broadcasts (w so : list nat) : Prop :=
  exists lead s, so = lead ++ s /\ Forall2 (fun m n => m = n \/ m = 1%nat) w s.

(** the inner product of two tensors of one shape *)
Definition inner (x y : list Z) : Z := zsum (map2 Z.mul x y).
