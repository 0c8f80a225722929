(** Model of the Chebyshev coefficients, /repo/src/sympc/approximations/tanh.py:82-103, with real
    numbers in place of float32. *)
From Coq Require Import Reals List.
Import ListNotations.
Local Open Scope R_scope.

(** torch.sum of a line of [n] entries, tanh.py:102 *)
Fixpoint total (n : nat) (g : nat -> R) : R := match n with O => 0 | S n => total n g + g n end.

(** (n_range + 0.5) * np.pi / terms, tanh.py:99, 101 *)
Definition angle (terms k : nat) : R := (INR k + 1 / 2) * PI / INR terms.

(** tanh.py:82-103 (chebyshev_series).  Simplified: the float32 tensors are functions of the index
    into the reals; torch.cos, np.pi and the function are exact; the cache of line 82 is left out *)
Definition chebyshev_series (func : R -> R) (width : R) (terms : nat) : list R :=
  let x k := width * cos (angle terms k) in
  let y k := func (x k) in
  let cos_term i k := cos (INR i * (INR k + 1 / 2) * PI / INR terms) in
  map (fun i => 2 / INR terms * total terms (fun k => y k * cos_term i k)) (seq 0 terms).

(** the slice [1::2] of tanh.py:48 *)
Fixpoint odd_positions {A} (l : list A) : list A :=
  match l with _ :: a :: l => a :: odd_positions l | _ => [] end.
