(** Specification vocabulary for the store of shares. *)
From Verif Require Import Util S_Tensor M_Heap.

(** all shares of the object exist *)
Definition exists_in (h : heap) (x : obj) : Prop := Forall (fun a => (a < length h)%nat) (o_addr x).

(** the operation is a division by a public integer *)
Definition divides (op : hop) : bool := match op with HDiv _ _ _ => true | _ => false end.
