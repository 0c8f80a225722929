(** The shared layers, the squared error and the optimiser in sessions with replicated shares
    (protocol Falcon): /repo/src/sympc/module/nn/linear.py:47-61, conv.py:64-82,
    functional.py:54-74 and /repo/src/sympc/optim/sgd.py:24-40, with the operations of M_Rep.v,
    M_RepView.v and M_RepEngine.v.  Automatic differentiation is off (as in sgd.py:26; for the
    others: MPCTensor.AUTOGRAD_IS_ON or the session's autograd_active is off). *)
From Coq Require Import QArith.
From Verif Require Import Util S_Ring S_Tensor M_Torch M_Encoder M_Tensor M_Share M_Spdz M_Fss M_Engine M_Approx M_Loss M_Rep M_RepView M_RepEngine.
Local Open Scope Z_scope.
Local Open Scope list_scope.

(** linear.py:15-45: the attributes weight and bias of the layer *)
Record rlinear := mkRL { rl_w : rmpc; rl_b : option rmpc }.

(** linear.py:47-61 (forward); the transposed weight has the torch type of the ring *)
Definition rep_linear (s : rsess) (l : rlinear) (x : rmpc) (u : mulsup) : result rmpc :=
  do wt <- rm_method Mt (rl_w l);
  do r <- rm_bil s BMatmul x (snd wt) u;
  match rl_b l with
  | None => Ok r
  | Some b => rm_lin LAdd r b
  end.

(** conv.py:64-82 (forward) with mpc_tensor.py:474-511 (conv2d) and 654-696 (__apply_private_op, here
    [rm_bil]).  Without a bias attribute the layer's forward raises AttributeError first; with one the
    convolution comes before the bias is added: [conv] is its result. *)
Definition rep_conv (s : rsess) (k : convp) (x w : rmpc) (b : option rmpc) (u : mulsup) : result rmpc :=
  match b with
  | None => Err AttributeError
  | Some b =>
      do conv <- rm_bil s (BConv2d k) x w u;
      do b1 <- rm_method (MUnsqueeze 1) b;
      do b2 <- rm_method (MUnsqueeze 1) (snd b1);
      rm_lin LAdd conv (snd b2)
  end.

(** functional.py:69 and 71: (pred - target).pow(2).sum() *)
Definition rep_sq_err (s : rsess) (u : rep_supply) (pred target : rmpc) : result rwide :=
  do d <- rm_lin LSub pred target;
  do p <- fst (rep_pow s u 2 d None 0%nat);
  rm_method MSum p.

(** functional.py:54-74 (mse_loss); [pred.shape[0]] raises IndexError for tensors without dimensions.
    Only [rs_n s] is asked when the sum is divided (M_RepView.rm_truediv), so that it does not matter
    that the sum may have another torch type than the ring. *)
Definition rep_mse (s : rsess) (u : rep_supply) (pred target : rmpc) (r : reduction) : result rwide :=
  match r with
  | RMean =>
      do t <- rep_sq_err s u pred target;
      match rm_shape pred with
      | [] => Err IndexError
      | n :: _ => do q <- rm_truediv s (snd t) (DInt (Z.of_nat n)); Ok (fst t, q)
      end
  | RSum => rep_sq_err s u pred target
  | ROther => Err ValueError
  end.

(** an MPCTensor object with its attribute grad, and the objects with the class attribute
    AUTOGRAD_IS_ON, as in M_Optim.v *)
Record robj := mkRO { ro_val : rmpc; ro_grad : option rmpc }.
Record rworld := mkRW { rw_objs : list robj; rw_on : bool }.

(** mpc_tensor.py:417-428 (isub): the shares are replaced, the shape attribute is kept *)
Definition rm_isub (x y : rmpc) : result rmpc :=
  do r <- rm_lin LSub x y; Ok (mkRM (rm_sid x) (rm_shape x) (rm_ps r)).

(** sgd.py:27-34: the loop of step, from the parameter number [k] on; [rnd k] is the tensor drawn by
    the truncation of the product number [k].  It stops at the first exception.  [None * lr] is a
    TypeError. *)
Fixpoint rep_sgd_loop (s : rsess) (lr : num) (rnd : nat -> tensor) (k : nat) (ids : list nat) (objs : list robj)
  : list robj * result unit :=
  match ids with
  | [] => (objs, Ok tt)
  | i :: r =>
      match nth_error objs i with
      | None => (objs, Err AttributeError)
      | Some p =>
          match ro_grad p with
          | None => (objs, Err TypeError)
          | Some g =>
              match (do d <- rm_bil_public s BMul g (PNum lr) (rnd k); rm_isub (ro_val p) d) with
              | Err e => (objs, Err e)
              | Ok v => rep_sgd_loop s lr rnd (S k) r (set_nth i (mkRO v (ro_grad p)) objs)
              end
          end
      end
  end.

(** sgd.py:24-35 (step): AUTOGRAD_IS_ON is set again only when the loop ends without exception *)
Definition rep_sgd_step (s : rsess) (lr : num) (rnd : nat -> tensor) (ids : list nat) (w : rworld) : rworld * result unit :=
  let (o, r) := rep_sgd_loop s lr rnd 0 ids (rw_objs w) in
  (mkRW o (match r with Ok _ => true | Err _ => false end), r).
