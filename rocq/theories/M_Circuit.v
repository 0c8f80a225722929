(** Programs composed of the operations of shared tensors (the methods of
    /repo/src/sympc/tensor/mpc_tensor.py modelled in M_Share.v and M_Spdz.v), evaluated
    operation by operation as a user's script would.  There is no such function in the
    repository: this is the composition of its methods. *)
From Verif Require Import Util S_Ring S_Tensor M_Torch M_Encoder M_Tensor M_Share M_Spdz.
Local Open Scope Z_scope.

(** x + y, x - y, x * y, x @ y and the variants with a public operand; conv2d and
    conv_transpose2d of two shared tensors, without bias; x / k for an int k;
    x ** k for an int k > 0; shape methods *)
Inductive expr :=
| EInput (i : nat)
| ELin (o : linop) (a b : expr)
| ELinPub (o : linop) (a : expr) (p : pub)
| ERsub (p : pub) (a : expr)
| EMul (a b : expr) | EMatmul (a b : expr)
| EMulPub (a : expr) (p : pub) | EMatmulPub (a : expr) (p : pub)
| ERmatmul (p : pub) (a : expr)
| EConv (p : convp) (a b : expr) | EConvT (p : convp) (a b : expr)
| EDiv (a : expr) (k : Z)
| EPow (a : expr) (k : positive)
| EView (m : viewop) (a : expr).

(** the primitives taken from the stores by the product at a node of the program, the node
    given by its path from the root *)
Definition supply := list bool -> list triple * (list tensor * list tensor).
(** (not code) where product number [i] of a power at the node [path] finds its primitives *)
Definition pow_at (path : list bool) (i : nat) : list bool := repeat true (S i) ++ path.

(** evaluation with the methods of MPCTensor: add / sub (mpc_tensor.py:406-439), rsub
    (441-450), mul / matmul (452-472), conv2d / conv_transpose2d (474-550), rmatmul (552-577),
    truediv by an int (591-619), pow (621-652), forwarded methods (982-1067) *)
Fixpoint eval (s : sess) (env : nat -> mpc) (sup : supply) (path : list bool) (e : expr) : result mpc :=
  match e with
  | EInput i => Ok (env i)
  | ELin o a b =>
      do x <- eval s env sup (false :: path) a; do y <- eval s env sup (true :: path) b; mpc_lin o x y
  | ELinPub o a p => do x <- eval s env sup (false :: path) a; mpc_lin_public s o x p
  | ERsub p a => do x <- eval s env sup (false :: path) a; mpc_rsub s x p (snd (sup path))
  | EMul a b =>
      do x <- eval s env sup (false :: path) a; do y <- eval s env sup (true :: path) b;
      mpc_bil s BMul x y (fst (sup path)) (snd (sup path))
  | EMatmul a b =>
      do x <- eval s env sup (false :: path) a; do y <- eval s env sup (true :: path) b;
      mpc_bil s BMatmul x y (fst (sup path)) (snd (sup path))
  | EMulPub a p => do x <- eval s env sup (false :: path) a; mpc_bil_public s BMul x p (snd (sup path))
  | EMatmulPub a p => do x <- eval s env sup (false :: path) a; mpc_bil_public s BMatmul x p (snd (sup path))
  | ERmatmul p a => do x <- eval s env sup (false :: path) a; mpc_rmatmul s x p (snd (sup path))
  | EConv p a b =>
      do x <- eval s env sup (false :: path) a; do y <- eval s env sup (true :: path) b;
      mpc_bil s (BConv2d p) x y (fst (sup path)) (snd (sup path))
  | EConvT p a b =>
      do x <- eval s env sup (false :: path) a; do y <- eval s env sup (true :: path) b;
      mpc_bil s (BConvT p) x y (fst (sup path)) (snd (sup path))
  | EDiv a k => do x <- eval s env sup (false :: path) a; mpc_truediv s x k (snd (sup path))
  | EPow a k =>
      do x <- eval s env sup (false :: path) a;
      do r <- mpc_pow s x (Zpos k) (fun i => fst (sup (pow_at path i))) (fun i => snd (sup (pow_at path i)));
      match r with inl z => Ok z | inr _ => Err TypeError end
  | EView m a => do x <- eval s env sup (false :: path) a; mpc_view m x
  end.
