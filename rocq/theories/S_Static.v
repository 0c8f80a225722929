(** Specification: stacking and concatenation along a dimension, position by position. *)
From Verif Require Import Util S_Ring S_Tensor.
Local Open Scope Z_scope.

(** [ix] is a position of the shape [sh] *)
Definition within (sh ix : list nat) : Prop := Forall2 (fun i d => (i < d)%nat) ix sh.
(** element at a position *)
Definition at_pos (t : tensor) (ix : list nat) : Z := nth (ravel (tsh t) ix) (tdat t) 0.

(** [t] is the stack, along a new dimension [length pre], of tensors of the shape pre ++ post
    with the elements [vs] *)
Definition is_stack (pre post : list nat) (vs : list (list Z)) (t : tensor) : Prop :=
  tsh t = pre ++ length vs :: post /\ length (tdat t) = numel (tsh t) /\
  forall i p q, (i < length vs)%nat -> within pre p -> within post q ->
    at_pos t (p ++ i :: q) = at_pos (mkT (pre ++ post) (nth i vs [])) (p ++ q).

(** [t] is the concatenation, along the dimension [length pre], of the tensors with sizes [ns]
    along it and elements [vs] *)
Definition is_cat (pre post : list nat) (ns : list nat) (vs : list (list Z)) (t : tensor) : Prop :=
  tsh t = pre ++ list_sum ns :: post /\ length (tdat t) = numel (tsh t) /\
  forall i j p q, (i < length ns)%nat -> (j < nth i ns 0)%nat -> within pre p -> within post q ->
    at_pos t (p ++ (list_sum (firstn i ns) + j)%nat :: q) =
    at_pos (mkT (pre ++ nth i ns 0%nat :: post) (nth i vs [])) (p ++ j :: q).
