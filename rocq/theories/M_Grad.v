(** Model of the helpers of the gradient functions, /repo/src/sympc/grads/grad_functions.py. *)
From Verif Require Import Util S_Ring S_Tensor M_Encoder M_Torch M_Tensor M_Share.
Local Open Scope Z_scope.

(** grad_functions.py:47-49: for every dimension of the result, in order *)
Fixpoint rb_loop (dims wanted : list nat) (x : mpc) : result mpc :=
  match dims with
  | [] => Ok x
  | d :: r =>
      do wd <- get_nth wanted d;
      do xd <- get_nth (m_shape x) d;
      if Nat.eqb wd 1 && Nat.ltb 1 xd then do y <- mpc_view (VSumKeep d) x; rb_loop r wanted y
      else rb_loop r wanted x
  end.

(** grad_functions.py:27-51 (_reverse_broadcast) *)
Definition reverse_broadcast (x : mpc) (wanted : list nat) : result mpc :=
  do r <- (if Nat.ltb (length wanted) (length (m_shape x))
           then mpc_view (VSumFirst (length (m_shape x) - length wanted)) x else Ok x);
  rb_loop (seq 0 (length (m_shape r))) wanted r.
