(** Model of mse_loss, /repo/src/sympc/module/nn/functional.py:54-74, for sessions with additive
    shares. *)
From Coq Require Import QArith.
From Verif Require Import Util S_Ring S_Tensor M_Torch M_Encoder M_Tensor M_Share M_Spdz.
Local Open Scope Z_scope.

(** the argument reduction: "mean", "sum" or any other string *)
Inductive reduction := RMean | RSum | ROther.

(** functional.py:69 and 71: (pred - target).pow(2).sum() *)
Definition sq_err (s : sess) (pred target : mpc) (tri : nat -> list triple) (msk : nat -> list tensor * list tensor) : result mpc :=
  do d <- mpc_lin LSub pred target;
  do p <- mpc_pow s d 2 tri msk;
  match p with
  | inl p => mpc_view VSum p
  | inr _ => Err AttributeError
  end.

(** functional.py:54-74 (mse_loss); [pred.shape[0]] raises IndexError for tensors without
    dimensions (before the division, after the sum) *)
Definition mse_loss (s : sess) (pred target : mpc) (r : reduction) (tri : nat -> list triple)
  (msk : nat -> list tensor * list tensor) (prim : list tensor * list tensor) : result mpc :=
  match r with
  | RMean =>
      do t <- sq_err s pred target tri msk;
      match m_shape pred with
      | [] => Err IndexError
      | n :: _ => mpc_truediv s t (Z.of_nat n) prim
      end
  | RSum => sq_err s pred target tri msk
  | ROther => Err ValueError
  end.
