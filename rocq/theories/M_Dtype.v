(** Sharing, addition and reconstruction in sessions whose ring is not 2^64.
    Here tensors carry their torch dtype: the secret is always encoded as int64
    (mpc_tensor.py:248-249, ShareTensor has the default ring 2^64), while the random shares have
    the dtype of the session's ring (mpc_tensor.py:325-332).
    Simplifications: additive shares; the operands have one common shape, which is left out
    (a tensor is the list of its elements). *)
From Verif Require Import Util S_Ring S_Tensor M_Torch.
Local Open Scope Z_scope.

(** a torch tensor: dtype and elements *)
Definition dten : Type := dtype * list Z.

(** torch type promotion of two integer dtypes (torch; tensors of equal dimension) *)
Definition promote (a b : dtype) : dtype :=
  match a, b with
  | TBool, d | d, TBool => d
  | TI64, _ | _, TI64 => TI64
  | TI32, _ | _, TI32 => TI32
  | TI16, _ | _, TI16 => TI16
  | TU8, TU8 => TU8
  | TI8, TI8 => TI8
  | TU8, TI8 | TI8, TU8 => TI16
  end.

(** torch a + b; for two bool tensors this is the logical or *)
Definition dadd (a b : dten) : dten :=
  let d := promote (fst a) (fst b) in (d, map2 (fun x y => cast d (x + y)) (snd a) (snd b)).

(** torch a - b: refused if one of them is a bool tensor (RuntimeError) *)
Definition dsub (a b : dten) : result dten :=
  if dtype_eqb (fst a) TBool || dtype_eqb (fst b) TBool then Err RuntimeError
  else let d := promote (fst a) (fst b) in Ok (d, map2 (fun x y => cast d (x - y)) (snd a) (snd b)).

(** mpc_tensor.py:340-356 (generate_shares): the first share is the first random tensor, the
    next ones are differences of neighbours, the last is the secret minus the last random
    tensor; with a single party there is no random tensor (IndexError) *)
Fixpoint d_middle (prev : dten) (rs : list dten) : result (list dten) :=
  match rs with
  | [] => Ok []
  | r :: t => do s <- dsub r prev; do ss <- d_middle r t; Ok (s :: ss)
  end.
Definition d_generate (secret : dten) (rs : list dten) : result (list dten) :=
  match rs with
  | [] => Err IndexError
  | r0 :: t =>
      do mid <- d_middle r0 t;
      do lst <- dsub secret (last t r0);
      Ok (r0 :: mid ++ [lst])
  end.

(** mpc_tensor.py:131-208 and 210-253: MPCTensor(secret, session): the encoded secret [v] (int64)
    is split with random tensors [rs] of the session's tensor_type (session.py:173) *)
Definition d_share (ring : Z) (v : list Z) (rs : list (list Z)) : result (list dten) :=
  do d <- get_type_from_ring ring;
  d_generate (TI64, v) (map (fun r => (d, r)) rs).

(** mpc_tensor.py:704-713 (add of two MPCTensors), share_tensor.py:181-226: share by share *)
Definition d_addp (xs ys : list dten) : list dten := map2 dadd xs ys.

(** share_tensor.py:532-540 (reconstruct): python's sum, which starts with the int 0 *)
Definition d_reconstruct (xs : list dten) : dten :=
  match xs with
  | [] => (TI64, [])
  | (d, v) :: r => fold_left dadd r ((if dtype_eqb d TBool then TI64 else d), v)
  end.
