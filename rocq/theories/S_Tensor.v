(** Specification: tensors, broadcasting and additive sharings, as plain mathematics. *)
From Verif Require Import Util S_Ring.
Local Open Scope Z_scope.

(** a tensor: its shape and its elements in row-major order *)
Record tensor := mkT { tsh : list nat; tdat : list Z }.

(** number of elements of a shape *)
Definition numel (s : list nat) : nat := fold_right Nat.mul 1%nat s.

(** multi-index of the flat position [e] and back *)
Fixpoint unravel (sh : list nat) (e : nat) : list nat :=
  match sh with
  | [] => []
  | _ :: r => (e / numel r)%nat :: unravel r (e mod numel r)
  end.
Fixpoint ravel (sh ix : list nat) : nat :=
  match sh, ix with
  | _ :: r, i :: jx => (i * numel r + ravel r jx)%nat
  | _, _ => 0%nat
  end.

(** a tensor of the ring: as many elements as its shape says, all representatives *)
Definition tensor_in (ring : Z) (sh : list nat) (t : tensor) : Prop :=
  tsh t = sh /\ length (tdat t) = numel sh /\ vec_in ring (tdat t).

(** broadcasting of shapes, aligned at the last dimension: equal dimensions or 1 *)
Definition bshape (a b so : list nat) : Prop :=
  length so = Nat.max (length a) (length b) /\
  forall i, (i < length so)%nat ->
    let da := nth i (rev a) 1%nat in
    let db := nth i (rev b) 1%nat in
    let d := nth i (rev so) 1%nat in
    (da = db /\ d = da) \/ (da = 1%nat /\ d = db) \/ (db = 1%nat /\ d = da).

(** element [e] of [x] (shape [sh]) seen as a tensor of shape [so] *)
Definition bget (sh so : list nat) (x : list Z) (e : nat) : Z :=
  nth (ravel sh (map2 (fun d i => if Nat.eqb d 1 then 0%nat else i) sh
                      (skipn (length so - length sh) (unravel so e)))) x 0.
Definition bexpand (sh so : list nat) (x : list Z) : list Z :=
  map (bget sh so x) (seq 0 (numel so)).

(** additive sharing of the tensor [v] of shape [sh]: one tensor of that shape per party,
    adding up to [v] in the ring *)
Definition shared (ring : Z) (sh : list nat) (v : list Z) (ss : list tensor) : Prop :=
  ss <> [] /\ Forall (tensor_in ring sh) ss /\
  v = s_sum ring (numel sh) (map tdat ss).

(** the random tensors drawn to split a secret of shape [sh] among [n] parties *)
Definition draws (ring : Z) (n : nat) (sh : list nat) (rnd : list (list Z)) : Prop :=
  length rnd = (n - 1)%nat /\
  Forall (fun r => length r = numel sh /\ vec_in ring r) rnd.
