(** Model of the sigmoid and division nodes of the computational graph and of division by a
    secret, over an [engine]. *)
From Coq Require Import QArith.
From Verif Require Import Util M_Encoder M_Share M_Fss M_Engine M_Approx.
Local Open Scope Z_scope.

Section Nodes.
  Context {W T : Type} (E : engine W T).

  (** mpc_tensor.py:607-614 (truediv, private branch): self * reciprocal(y); reciprocal.py:9 gives
      the method and the 10 rounds.  [parties] is len(self.session.session_ptrs). *)
  Definition div_private (parties : nat) (x y : T) : comp W T :=
    if Nat.ltb 2 parties then cerr ValueError
    else let! r := reciprocal E RNewton 10 y in e_mul E x r.

  (** mpc_tensor.py:579-589 (rtruediv): reciprocal(self) * y *)
  Definition rdiv (y : num) (x : T) : comp W T :=
    let! r := reciprocal E RNewton 10 x in e_mulp E r y.

  (** grad_functions.py:206-219 (GradSigmoid.forward): x.sigmoid() with the default method
      (sigmoid.py:13); the result is also ctx["probabilities"].
      functional.py:20-35 (sigmoid) computes the same, with or without autograd. *)
  Definition sigmoid_forward (x : T) : comp W T := sigmoid E SExp [] x.

  (** grad_functions.py:221-234 (GradSigmoid.backward): grad * probs * (1 - probs) *)
  Definition sigmoid_backward (probs grad : T) : comp W T :=
    let! a := e_mul E grad probs in
    let! b := e_rsub E (NInt 1) probs in
    e_mul E a b.

  (** grad_functions.py:364-382 (GradDiv.forward) for an MPCTensor y: x / y, also ctx["result"] *)
  Definition gdiv_forward (parties : nat) (x y : T) : comp W T := div_private parties x y.

  (** grad_functions.py:384-400 (GradDiv.backward) for an MPCTensor y:
      grad_x = grad / y, grad_y = (-1) * (grad_x * result) *)
  Definition gdiv_backward (parties : nat) (y res grad : T) : comp W (T * T) :=
    let! gx := div_private parties grad y in
    let! t := e_mul E gx res in
    let! gy := e_mulp E t (NInt (-1)) in
    cret (gx, gy).
End Nodes.
