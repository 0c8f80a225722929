(** Which share objects an operation creates, reuses and overwrites.
    The shares of all parties live in one store ([heap]); an MPCTensor holds the addresses of
    its shares (mpc_tensor.py: share_ptrs).  Every ShareTensor operation creates a new object
    (share_tensor.py:201-204); the exceptions are modelled here:
    - add/sub of a public value keeps the share pointers of the ranks 1, 2, ... of its operand
      (mpc_tensor.py:743-749);
    - div_wraps divides the operand's share in place (spdz.py:274).
    Simplification: torch views (t, view, ...) sharing the storage of their operand are
    modelled as copies. *)
From Verif Require Import Util S_Ring S_Tensor M_Torch M_Encoder M_Tensor M_Share M_Spdz.
Local Open Scope Z_scope.

Definition heap := list tensor.

(** an MPCTensor: session, shape attribute, share pointers (mpc_tensor.py:131-208) *)
Record obj := mkO { o_sid : nat; o_shape : list nat; o_addr : list nat }.

(** the shares an MPCTensor currently points to *)
Definition deref (h : heap) (x : obj) : mpc :=
  mkM (o_sid x) (o_shape x) (map (fun a => nth a h (mkT [] [])) (o_addr x)).

(** new share objects *)
Definition alloc (h : heap) (m : mpc) : heap * obj :=
  (h ++ m_shares m, mkO (m_sid m) (m_shape m) (seq (length h) (length (m_shares m)))).

(** overwrite the objects at the given addresses *)
Fixpoint write_all (h : heap) (addrs : list nat) (ts : list tensor) : heap :=
  match addrs, ts with
  | a :: r, t :: u => write_all (set_nth a t h) r u
  | _, _ => h
  end.

(** a new object for rank 0, the pointers of [x] for the others (mpc_tensor.py:743-749) *)
Definition alloc_first (h : heap) (x : obj) (m : mpc) : heap * obj :=
  match m_shares m with
  | [] => (h, mkO (m_sid m) (m_shape m) [])
  | t :: _ => (h ++ [t], mkO (m_sid m) (m_shape m) (length h :: tl (o_addr x)))
  end.

(** the operations of an MPCTensor on existing MPCTensors *)
Inductive hop :=
| HLin (o : linop) (x y : obj)                              (* x + y, x - y *)
| HLinPub (o : linop) (x : obj) (y : pub)                   (* x + c, x - c *)
| HRsub (y : pub) (x : obj) (prim : list tensor * list tensor)     (* c - x *)
| HBil (op : bop) (x y : obj) (ts : list triple) (prim : list tensor * list tensor)
| HBilPub (op : bop) (x : obj) (y : pub) (prim : list tensor * list tensor)
| HRmatmul (x : obj) (y : pub) (prim : list tensor * list tensor)
| HView (v : viewop) (x : obj)
| HDiv (x : obj) (y : Z) (prim : list tensor * list tensor).       (* x / integer *)

(** evaluation of one operation: the store afterwards and the result *)
Definition h_step (s : sess) (h : heap) (op : hop) : result (heap * obj) :=
  match op with
  | HLin o x y => do m <- mpc_lin o (deref h x) (deref h y); Ok (alloc h m)
  | HLinPub o x y => do m <- mpc_lin_public s o (deref h x) y; Ok (alloc_first h x m)
  | HRsub y x prim =>
      (* mpc_tensor.py:450: the difference is a temporary object *)
      do m <- mpc_lin_public s LSub (deref h x) y;
      let (h1, t) := alloc_first h x m in
      do m2 <- mpc_bil_public s BMul (deref h1 t) (PNum (NInt (-1))) prim;
      Ok (alloc h1 m2)
  | HBil op x y ts prim => do m <- mpc_bil s op (deref h x) (deref h y) ts prim; Ok (alloc h m)
  | HBilPub op x y prim => do m <- mpc_bil_public s op (deref h x) y prim; Ok (alloc h m)
  | HRmatmul x y prim => do m <- mpc_rmatmul s (deref h x) y prim; Ok (alloc h m)
  | HView v x => do m <- mpc_view v (deref h x); Ok (alloc h m)
  | HDiv x y prim =>
      do r <- public_divide s (deref h x) y prim;
      if Nat.eqb (s_n s) 2 then Ok (alloc h (fst r))
      else Ok (alloc_first (write_all h (o_addr x) (snd r)) x (fst r))
  end.
