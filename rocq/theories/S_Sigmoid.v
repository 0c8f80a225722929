(** The functions that sigmoid and division approximate. *)
From Coq Require Import Reals.
Local Open Scope R_scope.

Definition logistic (x : R) : R := / (1 + exp (- x)).

(** [y] is [x] up to the fraction [eps] of [x] *)
Definition near (eps x y : R) : Prop := Rabs (y - x) <= eps * Rabs x.
