(** Specification: softmax of a list of real numbers. *)
From Coq Require Import Reals List.
Import ListNotations.
Local Open Scope R_scope.

(** sum of a list *)
Definition rsum (l : list R) : R := fold_right Rplus 0 l.

(** no element of [l] is larger than [x] *)
Definition largest (l : list R) (x : R) : Prop := forall y, In y l -> y <= x.

(** softmax of [xs] at the entry [x] *)
Definition softmax_at (xs : list R) (x : R) : R := exp x / rsum (map exp xs).
