(** Convolution of shared tensors with a bias (mpc_tensor.py:474-550). *)
From Coq Require Import QArith.
From Verif Require Import Util S_Ring S_Tensor M_Torch M_Encoder M_Tensor M_Share M_Spdz.
Local Open Scope Z_scope.

(** the argument bias: None, a torch tensor, or an MPCTensor *)
Inductive cbias := NoBias | PubBias (sh : list nat) (vs : list num) | ShBias (b : mpc).

(** is a number different from zero *)
Definition num_true (v : num) : bool :=
  match v with NInt z => negb (z =? 0) | NFloat q => negb (Qnum q =? 0) end.

(** mpc_tensor.py:508 and 547, [if bias:]: the truth value of None, of a torch tensor (its only
    element; an empty tensor is false; several elements are a RuntimeError) and of an
    MPCTensor (python calls __len__, the first dimension: mpc_tensor.py:864-870; a tensor
    without dimensions is an IndexError) *)
Definition bias_true (b : cbias) : result bool :=
  match b with
  | NoBias => Ok false
  | PubBias _ [] => Ok false
  | PubBias _ [v] => Ok (num_true v)
  | PubBias _ _ => Err RuntimeError
  | ShBias m => match m_shape m with [] => Err IndexError | d :: _ => Ok (negb (Nat.eqb d 0)) end
  end.

(** shape after unsqueeze(1).unsqueeze(1) *)
Definition unsqueeze11 (sh : list nat) : result (list nat) :=
  match sh with [] => Err IndexError | d :: r => Ok (d :: 1%nat :: 1%nat :: r) end.

(** mpc_tensor.py:474-511 (conv2d) and 513-550 (conv_transpose2d); [op] carries the keyword
    arguments *)
Definition mpc_conv (s : sess) (op : bop) (x w : mpc) (ts : list triple) (prim : list tensor * list tensor)
  (bias : cbias) : result mpc :=
  do c <- mpc_bil s op x w ts prim;
  do b <- bias_true bias;
  if negb b then Ok c
  else match bias with
       | NoBias => Ok c
       | PubBias sh vs => do sh' <- unsqueeze11 sh; mpc_lin_public s LAdd c (PTensor sh' vs)
       | ShBias m =>
           do sh' <- unsqueeze11 (m_shape m);
           do m' <- mpc_view (VReshape sh') m; mpc_lin LAdd c m'
       end.
