(** Programs composed of the operations of replicated shared tensors (the methods of
    /repo/src/sympc/tensor/mpc_tensor.py in a Falcon session, modelled in M_Rep.v), evaluated
    operation by operation as a user's script would.  There is no such function in the
    repository: this is the composition of its methods. *)
From Verif Require Import Util S_Ring S_Tensor M_Torch M_Encoder M_Tensor M_Share M_Spdz M_Rep M_RepView M_Aby3.
Local Open Scope Z_scope.

(** x + y, x - y, x * y, x @ y, the variants with a public operand on the right, p - x, p @ x,
    the methods forwarded to torch and positive powers *)
Inductive rexpr :=
| RInput (i : nat)
| RLin (o : linop) (a b : rexpr)
| RLinPub (o : linop) (a : rexpr) (p : pub)
| RRsub (p : pub) (a : rexpr)
| RMul (a b : rexpr) | RMatmul (a b : rexpr)
| RMulPub (a : rexpr) (p : pub) | RMatmulPub (a : rexpr) (p : pub)
| RRmatmul (p : pub) (a : rexpr)
| RMeth (m : meth) (a : rexpr)
| RPow (a : rexpr) (k : positive).

(** mpc_tensor.py:552-577 (rmatmul): the first step calls rmatmul of every party's object, which
    raises (replicatedshare_tensor.py:615-624) *)
Definition rst_rmatmul (x : rst) (y : pub) : result rst := Err NotImplementedErr.
Definition rm_rmatmul (s : rsess) (x : rmpc) (y : pub) : result rmpc :=
  do ps <- at_parties s (fun _ p => rst_rmatmul p y) (rm_ps x);
  do so <- shape_bil BMatmul (pub_shape y) (rm_shape x);
  Ok (mkRM (rm_sid x) so ps).

(** the randomness of the product or truncation at a node of the program, the node given by its
    path from the root *)
Definition rsupply := list bool -> mulsup.
(** the randomness of the [i]th product of a power: a power has one operand, so the paths that
    start with its right branch are free *)
Definition rpow_at (path : list bool) (i : nat) : list bool := repeat true (S i) ++ path.

(** a forwarded method inside a program (mpc_tensor.py:976-1067, M_RepView.v).  Simplification: a
    sum in another ring than 2^64 gives shares of another torch type; programs that go on from
    there are not modelled (an error here). *)
Definition rm_meth (m : meth) (x : rmpc) : result rmpc :=
  do y <- rm_method m x; if fst y then Err NotImplementedErr else Ok (snd y).

(** evaluation with the methods of MPCTensor: add / sub (mpc_tensor.py:406-439), rsub
    (441-450), mul / matmul (452-472), rmatmul (552-577), forwarded methods (976-1067) *)
Fixpoint reval (s : rsess) (env : nat -> rmpc) (sup : rsupply) (path : list bool) (e : rexpr) : result rmpc :=
  match e with
  | RInput i => Ok (env i)
  | RLin o a b =>
      do x <- reval s env sup (false :: path) a; do y <- reval s env sup (true :: path) b; rm_lin o x y
  | RLinPub o a p => do x <- reval s env sup (false :: path) a; rm_lin_public s o x p
  | RRsub p a => do x <- reval s env sup (false :: path) a; rm_rsub s x p (su_rand (sup path))
  | RMul a b =>
      do x <- reval s env sup (false :: path) a; do y <- reval s env sup (true :: path) b;
      rm_bil s BMul x y (sup path)
  | RMatmul a b =>
      do x <- reval s env sup (false :: path) a; do y <- reval s env sup (true :: path) b;
      rm_bil s BMatmul x y (sup path)
  | RMulPub a p => do x <- reval s env sup (false :: path) a; rm_bil_public s BMul x p (su_rand (sup path))
  | RMatmulPub a p => do x <- reval s env sup (false :: path) a; rm_bil_public s BMatmul x p (su_rand (sup path))
  | RRmatmul p a => do x <- reval s env sup (false :: path) a; rm_rmatmul s x p
  | RMeth m a => do x <- reval s env sup (false :: path) a; rm_meth m x
  | RPow a k => do x <- reval s env sup (false :: path) a;
      rm_pow_loop s k x None (fun q => sup (rpow_at path (hd 0%nat q))) 0
  end.
