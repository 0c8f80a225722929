(** Specification: paths of a computation graph, and sums over all of them. *)
From Verif Require Import Util Modular.
Local Open Scope Z_scope.

(** [path par a b q]: [q] leads from node [a] down to node [b]; [(i, k)] stands for the step from
    node [i] to its operand number [k]; [par i] are the operands of [i] *)
Inductive path (par : nat -> list nat) : nat -> nat -> list (nat * nat) -> Prop :=
| path_here i : path par i i []
| path_step i k j l q : nth_error (par i) k = Some j -> path par j l q -> path par i l ((i, k) :: q).

(** [b] is used, directly or not, by [a] *)
Definition below (par : nat -> list nat) (a b : nat) : Prop := exists q, path par a b q.

(** all of the paths, each once *)
Definition all_paths (par : nat -> list nat) (a b : nat) (L : list (list (nat * nat))) : Prop :=
  NoDup L /\ forall q, In q L <-> path par a b q.

(** a vector, given by its elements *)
Definition vec : Type := nat -> Z.

(** [J i k]: what the (transposed) derivative of node [i] for its operand number [k] does to a
    vector; along a path these are composed *)
Definition along (J : nat -> nat -> vec -> vec) (q : list (nat * nat)) (g : vec) : vec :=
  fold_left (fun g e => J (fst e) (snd e) g) q g.

(** the sum over the paths of a list *)
Definition path_sum (J : nat -> nat -> vec -> vec) (L : list (list (nat * nat))) (g : vec) : vec :=
  fun e => zsum (map (fun q => along J q g e) L).

(** linear maps from vectors of length [m] to vectors of length [n], modulo [M] *)
Definition eqv (M : Z) (n : nat) (f g : vec) : Prop := forall e, (e < n)%nat -> f e == g e [mod M].
Definition linear (M : Z) (m n : nat) (F : vec -> vec) : Prop :=
  (forall f g, eqv M m f g -> eqv M n (F f) (F g)) /\
  (forall f g, eqv M n (F (fun e => f e + g e)) (fun e => F f e + F g e)).
