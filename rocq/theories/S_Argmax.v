(** Specification: lines of a tensor along a dimension, maxima and their places. *)
From Verif Require Import Util S_Ring S_Tensor S_View.
Local Open Scope Z_scope.

(** the values met from position [e] when only the coordinate of dimension [d] is changed *)
Definition line_of (sh : list nat) (d : nat) (v : list Z) (e : nat) : list Z :=
  let ix := unravel sh e in
  map (fun j => elt sh v (firstn d ix ++ j :: skipn (S d) ix)) (seq 0 (nth d sh 0%nat)).

(** a tensor with dimension [d] removed, or kept with length 1 *)
Definition reduced (keep : bool) (sh : list nat) (d : nat) : list nat :=
  firstn d sh ++ (if keep then [1%nat] else []) ++ skipn (S d) sh.

(** the values of the line belonging to position [e] of the reduced tensor *)
Definition line_at (keep : bool) (sh : list nat) (d : nat) (v : list Z) (e : nat) : list Z :=
  let ix := unravel (reduced keep sh d) e in
  map (fun j => elt sh v (firstn d ix ++ j :: skipn (if keep then S d else d) ix)) (seq 0 (nth d sh 0%nat)).

(** [m] is the largest value of [l] *)
Definition is_maximum (m : Z) (l : list Z) : Prop := In m l /\ forall x, In x l -> x <= m.

(** the places of [m] in [l], counted from 0 *)
Definition places (l : list Z) (m : Z) : list nat :=
  filter (fun j => nth j l 0 =? m) (seq 0 (length l)).
