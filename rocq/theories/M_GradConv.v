(** Model of the gradient of the two-dimensional convolution
    (/repo/src/sympc/grads/grad_functions.py:496-607, GradConv2d). *)
From Coq Require Import QArith.
From Verif Require Import Util S_Ring S_Tensor M_Torch M_Encoder M_Tensor M_Share M_Spdz M_Conv.
Local Open Scope Z_scope.

(** torch.nn.grad._grad_input_padding for one dimension (called at grad_functions.py:557-564):
    input size, gradient size, kernel size, stride, padding, dilation *)
Definition grad_pad (h oh k st p d : nat) : result nat :=
  let least := (Z.of_nat oh - 1) * Z.of_nat st - 2 * Z.of_nat p + 1 + Z.of_nat d * (Z.of_nat k - 1) in
  if ((Z.of_nat h <? least) || (least + Z.of_nat st - 1 <? Z.of_nat h))%bool then Err ValueError
  else Ok (Z.to_nat (Z.of_nat h - least)).

(** several shape methods, one after the other *)
Fixpoint mpc_views (vs : list viewop) (x : mpc) : result mpc :=
  match vs with [] => Ok x | v :: r => do y <- mpc_view v x; mpc_views r y end.

(** grad_functions.py:571, grad.repeat(1, k, 1, 1).  Simplified: written as a repetition along the
    first dimension between two transpositions. *)
Definition repeat1 (k : nat) : list viewop := [VTranspose 0 1; VRepeat0 k; VTranspose 0 1].
(** grad_functions.py:604-605, narrow(dim, 0, len).  Simplified in the same way. *)
Definition narrow (dim len : nat) : list viewop := [VTranspose 0 dim; VNarrow0 0 len; VTranspose 0 dim].

(** grad_functions.py:517-539 (GradConv2d.forward): the value; [x], [weight] and the parameters
    are what the ctx keeps *)
Definition gconv_forward (s : sess) (x w : mpc) (b : cbias) (st p d groups : nat)
  (ts : list triple) (prim : list tensor * list tensor) : result mpc :=
  mpc_conv s (BConv2d (mkConv st p d groups)) x w ts prim b.

(** grad_functions.py:541-607 (GradConv2d.backward); [ts1], [prim1] and [ts2], [prim2] are what the
    store holds for the two products.  The stride, padding and dilation are numbers (572-578 pass
    them on; tuples are not modelled).  Simplified: conv_transpose2d with two different paddings
    (566-568) is the argument [other]. *)
Definition conv_backward (s : sess) (x w : mpc) (st p d groups : nat)
  (ts1 ts2 : list triple) (prim1 prim2 : list tensor * list tensor)
  (other : nat * nat -> result mpc) (g : mpc) : result (mpc * mpc) :=
  match m_shape x, m_shape w, m_shape g with
  | [nb; c; h; wd], [_; _; kh; kw], [gn; o; oh; ow] =>
      do q1 <- grad_pad h oh kh st p d;
      do q2 <- grad_pad wd ow kw st p d;
      do gx <- (if Nat.eqb q1 q2 then mpc_conv s (BConvT (mkConv st q1 d groups)) g w ts1 prim1 NoBias
                else other (q1, q2));
      if Nat.eqb groups 0 then Err ZeroDivision
      else
        do g' <- mpc_views (repeat1 (c / groups)) g;
        do g' <- match m_shape g' with
                 | [a; b; e; f] => mpc_view (VReshape [(a * b)%nat; 1%nat; e; f]) g'
                 | _ => Err IndexError
                 end;
        do x' <- mpc_view (VReshape [1%nat; (nb * c)%nat; h; wd]) x;
        do r <- mpc_conv s (BConv2d (mkConv d p st (c * nb))) x' g' ts2 prim2 NoBias;
        match m_shape r with
        | [_; b; e; f] =>
            if Nat.eqb nb 0 then Err ZeroDivision
            else
              do r <- mpc_views ([VReshape [nb; (b / nb)%nat; e; f]; VSumDim 0;
                                  VReshape [(c / groups)%nat; o; e; f]; VTranspose 0 1]
                                 ++ narrow 2 kw ++ narrow 3 kh) r;
              Ok (gx, r)
        | _ => Err IndexError
        end
  | _, _, _ => Err IndexError
  end.
