(** Programs that make tensors, call any methods with a gradient function and call backward
    (/repo/src/sympc/tensor/mpc_tensor.py:897-973), and the gradient functions that M_Autograd.v
    leaves out. *)
From Coq Require Import QArith String.
From Verif Require Import Util S_Ring S_Tensor M_Torch M_Encoder M_Tensor M_Share M_Spdz M_Store M_Fss M_Engine M_Approx M_Grad M_Static M_Conv M_Pool M_GradConv M_GradFun M_Autograd.
Local Open Scope Z_scope.
Local Open Scope list_scope.

Section Program.
  Context {K : Type} (alpha : K -> Z) (ev : fop -> Z -> Z -> K -> Z)
          (gen : fop -> nat -> nat -> result (list (list K))) (s : sess)
          (su : tri_supply) (on : nat -> list nat -> list (list Z)).
  Notation W := (mpcw (K:=K)).

  (** mpc_tensor.py:131-253 (a new tensor), mpc_tensor.py:897-926 with grad_functions.py:766-795 (a
      call of a method for the tensors [ps]: [fw] is grad_fn.forward, giving the result and the
      function of its ctx, [plain] the method itself), mpc_tensor.py:928-973 (backward) *)
  Inductive gstep :=
  | GNew (x : mpc) (needs : bool)
  | GCall (ps : list nat) (fw : list mpc -> comp W (mpc * (mpc -> comp W (list mpc)))) (plain : list mpc -> comp W mpc)
  | GBack (root : nat) (gradient : option mpc).
  Definition gexec (fuel : nat) (e : gstep) : gcomp W mpc unit :=
    match e with
    | GNew x b => let! _ := leaf x b in cret tt
    | GCall ps fw plain => let! _ := record ps fw plain in cret tt
    | GBack root g => mbackward alpha ev gen s su on fuel root g
    end.
  Definition gexecs (fuel : nat) (l : list gstep) : gcomp W mpc unit := for_each l (gexec fuel).

  (** the methods of M_Autograd.v, with the triples [mm] for matrix products *)
  Definition g_un (f : gfun) (i : nat) : gstep :=
    GCall [i] (fun vs => match vs with [x] => fun1 alpha ev gen s su f x | _ => cerr TypeError end)
              (fun vs => match vs with [x] => plain1 alpha ev gen s su f x | _ => cerr TypeError end).
  Definition g_bin (mm : nat -> list nat -> list nat -> list triple) (f : gfun) (i j : nat) : gstep :=
    GCall [i; j] (fun vs => match vs with [x; y] => fun2 alpha ev gen s su mm f x (inl y) | _ => cerr TypeError end)
                 (fun vs => match vs with [x; y] => plain2 alpha ev gen s su mm f x (inl y) | _ => cerr TypeError end).

  Let E := mpc_engine alpha ev gen s su.
  (** grad_functions.py:203-234 (GradSigmoid); functional.py:20-35 *)
  Definition g_sigmoid (i : nat) : gstep :=
    GCall [i] (fun vs => match vs with
                         | [x] => let! r := sigmoid_forward E x in
                                  cret (r, fun g => let! g := sigmoid_backward E r g in cret [g])
                         | _ => cerr TypeError end)
              (fun vs => match vs with [x] => sigmoid_forward E x | _ => cerr TypeError end).
  (** grad_functions.py:361-400 (GradDiv) for two tensors *)
  Definition g_div (i j : nat) : gstep :=
    GCall [i; j] (fun vs => match vs with
                            | [x; y] => let! r := gdiv_forward E (s_n s) x y in
                                        cret (r, fun g => let! p := gdiv_backward E (s_n s) y r g in cret [fst p; snd p])
                            | _ => cerr TypeError end)
                 (fun vs => match vs with [x; y] => div_private E (s_n s) x y | _ => cerr TypeError end).
  (** grad_functions.py:496-607 (GradConv2d) without bias; [ts], [ts1], [ts2]: what the store holds for
      the three products.  Simplified as in M_GradConv.v. *)
  Definition g_conv (i j st p d groups : nat) (ts ts1 ts2 : list triple) (other : nat * nat -> result mpc) : gstep :=
    GCall [i; j] (fun vs => match vs with
                            | [x; y] => let! r := lift (gconv_forward s x y NoBias st p d groups ts ([], [])) in
                                        cret (r, fun g => let! q := lift (conv_backward s x y st p d groups ts1 ts2 ([], []) ([], []) other g) in
                                                          cret [fst q; snd q])
                            | _ => cerr TypeError end)
                 (fun vs => match vs with [x; y] => lift (gconv_forward s x y NoBias st p d groups ts ([], [])) | _ => cerr TypeError end).
  (** grad_functions.py:679-763 (GradMaxPool2D); without autograd functional.py:326-381 *)
  Definition g_pool (i : nat) (kernel : iarg) (stride : option iarg) (padding dilation : iarg) : gstep :=
    GCall [i] (fun vs => match vs with
                         | [x] => let! r := grad_pool_forward alpha ev gen s su x kernel stride padding dilation in
                                  cret (fst r, fun g => let! g := grad_pool_backward alpha ev gen s su (snd r) g in cret [g])
                         | _ => cerr TypeError end)
              (fun vs => match vs with
                         | [x] => let! r := max_pool2d alpha ev gen s su x kernel stride padding dilation false in cret (fst r)
                         | _ => cerr TypeError end).
End Program.
