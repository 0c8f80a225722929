(** The SGD optimiser (optim/sgd.py).
    The parameters are MPCTensor objects that the model shares with the optimiser; they are
    modelled as positions in a store, so that the same object can be listed several times
    and objects that are not parameters can be seen to stay as they are. *)
From Verif Require Import Util S_Ring S_Tensor M_Torch M_Encoder M_Tensor M_Share M_Spdz.
Local Open Scope Z_scope.

(** an MPCTensor object: its value (session, shape attribute and shares) and its attribute
    grad (mpc_tensor.py:131-208).
    Simplification: the graph attributes (grad_fn, parents, ctx, nr_out_edges) are left out.
    Optimiser steps do not read them; [grad * lr] is recorded in the graph when
    session.autograd_active is set (mpc_tensor.py:914-917), which changes no value. *)
Record pobj := mkPO { p_val : mpc; p_grad : option mpc }.

(** the objects and the class attribute MPCTensor.AUTOGRAD_IS_ON (sgd.py:26 and 35) *)
Record world := mkW { w_objs : list pobj; w_on : bool }.

(** sgd.py:27-34: the loop of step, from the parameter number [k] on; it stops at the first
    exception, the parameters before it having been updated.  [None * lr] is a TypeError.
    [msk k] is the randomness used by the division in the product number [k]. *)
Fixpoint sgd_loop (s : sess) (lr : num) (msk : nat -> list tensor * list tensor) (k : nat)
  (ids : list nat) (objs : list pobj) : list pobj * result unit :=
  match ids with
  | [] => (objs, Ok tt)
  | i :: r =>
      match nth_error objs i with
      | None => (objs, Err AttributeError)
      | Some p =>
          match p_grad p with
          | None => (objs, Err TypeError)
          | Some g =>
              match (do d <- mpc_bil_public s BMul g (PNum lr) (msk k); mpc_isub (p_val p) d) with
              | Err e => (objs, Err e)
              | Ok v => sgd_loop s lr msk (S k) r (set_nth i (mkPO v (p_grad p)) objs)
              end
          end
      end
  end.

(** sgd.py:24-35 (step): AUTOGRAD_IS_ON is reset only when the loop ends without exception *)
Definition sgd_step (s : sess) (lr : num) (msk : nat -> list tensor * list tensor)
  (ids : list nat) (w : world) : world * result unit :=
  let (o, r) := sgd_loop s lr msk 0 ids (w_objs w) in
  (mkW o (match r with Ok _ => true | Err _ => false end), r).

(** sgd.py:37-40 (zero_grad) *)
Definition sgd_zero_grad (ids : list nat) (w : world) : world :=
  mkW (fold_left (fun objs i =>
         match nth_error objs i with
         | None => objs
         | Some p => set_nth i (mkPO (p_val p) None) objs
         end) ids (w_objs w)) (w_on w).
