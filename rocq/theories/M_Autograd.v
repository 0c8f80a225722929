(** Model of the recording of computations and of back-propagation:
    /repo/src/sympc/tensor/mpc_tensor.py:897-973 (MPCTensor.__getattribute__, backward) and
    /repo/src/sympc/grads/grad_functions.py (forward and the gradient functions t, add, sum, sub,
    mul, pow, matmul, flatten, reshape, relu; not truediv, sigmoid, conv2d, max_pool2d).
    Tensors that take part in a computation are numbered in the order of their creation. *)
From Coq Require Import QArith String.
From Verif Require Import Util S_Ring S_Tensor M_Torch M_Encoder M_Tensor M_Share M_Spdz M_Store M_Fss M_Engine M_Approx M_Grad M_Static.
Local Open Scope Z_scope.
Local Open Scope list_scope.

Section Graph.
  (** tensors, their shape attribute, [x + y], and MPCTensor(secret=torch.ones(shape)) *)
  Context {W T : Type} (shape_of : T -> list nat) (tadd : T -> T -> comp W T) (ones : list nat -> comp W T).

  (** the fields of an MPCTensor that matter here (mpc_tensor.py:102-111, 202-208): the tensor,
      requires_grad, grad_fn with its ctx (as the function grad -> grad_fn.backward(ctx, grad)),
      parents, grad, nr_out_edges *)
  Record node := mkN { n_val : T; n_req : bool; n_fun : option (T -> comp W (list T));
                       n_parents : list nat; n_grad : option T; n_edges : Z }.
  (** all tensors, and session.autograd_active (session.py:178) *)
  Record graph := mkG { g_nodes : list node; g_active : bool }.
  Definition gcomp (A : Type) : Type := comp (graph * W) A.

  Definition liftw {A} (m : comp W A) : gcomp A := fun st => let (r, w) := m (snd st) in (r, (fst st, w)).
  Definition get_node (i : nat) : gcomp node := fun st => (get_nth (g_nodes (fst st)) i, st).
  Definition set_active (b : bool) : gcomp unit := fun st => (Ok tt, (mkG (g_nodes (fst st)) b, snd st)).
  Definition put_node (i : nat) (n : node) : gcomp unit :=
    fun st => (Ok tt, (mkG (set_nth i n (g_nodes (fst st))) (g_active (fst st)), snd st)).
  Definition set_grad (i : nat) (x : T) : gcomp unit :=
    let! n := get_node i in put_node i (mkN (n_val n) (n_req n) (n_fun n) (n_parents n) (Some x) (n_edges n)).
  Definition add_edges (i : nat) (d : Z) : gcomp unit :=
    let! n := get_node i in put_node i (mkN (n_val n) (n_req n) (n_fun n) (n_parents n) (n_grad n) (n_edges n + d)).
  Definition append (n : node) : gcomp nat :=
    fun st => (Ok (length (g_nodes (fst st))), (mkG (g_nodes (fst st) ++ [n]) (g_active (fst st)), snd st)).

  Fixpoint for_each {A} (l : list A) (f : A -> gcomp unit) : gcomp unit :=
    match l with [] => cret tt | a :: r => let! _ := f a in for_each r f end.

  (** mpc_tensor.py:131-253: a new tensor *)
  Definition leaf (x : T) (req : bool) : gcomp nat := append (mkN x req None [] None 0).

  (** grad_functions.py:766-795 (forward) for the tensors [params] among the arguments (self
      first); [run] is grad_fn.forward, giving the result and the function of its ctx *)
  Definition forward (params : list nat) (run : list T -> comp W (T * (T -> comp W (list T)))) : gcomp nat :=
    fun st =>
      match rmap (get_nth (g_nodes (fst st))) params with
      | Err e => (Err e, st)
      | Ok ns =>
          (let! _ := set_active false in
           let! r := liftw (run (map n_val ns)) in
           let! _ := set_active true in
           let! i := append (mkN (fst r) (existsb n_req ns) (Some (snd r)) params None 0) in
           let! _ := for_each params (fun j => add_edges j 1) in
           cret i) st
      end.

  (** mpc_tensor.py:928-973 (backward).  [fuel]: how deep python may recurse. *)
  Fixpoint backward (fuel : nat) (i : nat) (gradient : option T) : gcomp unit :=
    match fuel with
    | O => cerr RuntimeError
    | S fuel =>
        let! n := get_node i in
        if negb (n_req n) then cret tt
        else
          let! _ := set_active false in
          let! g := match gradient with
                    | Some g => cret g
                    | None => if Nat.ltb 1 (length (shape_of (n_val n))) then cerr ValueError
                              else liftw (ones (shape_of (n_val n)))
                    end in
          let! g := match n_grad n with None => cret g | Some old => liftw (tadd old g) end in
          let! _ := set_grad i g in
          match n_parents n with
          | [] => cret tt
          | _ =>
              let! _ := add_edges i (-1) in
              if 0 <? n_edges n - 1 then cret tt
              else match n_fun n with
                   | None => cerr ValueError
                   | Some f =>
                       let! gs := liftw (f g) in
                       let! _ := for_each (combine (seq 0 (length (n_parents n))) (n_parents n))
                                   (fun p => let! g := fun st => (get_nth gs (fst p), st) in
                                             backward fuel (snd p) (Some g)) in
                       set_active true
                   end
          end
    end.
End Graph.
Arguments node : clear implicits. Arguments graph : clear implicits. Arguments gcomp : clear implicits.

(* ------------------------------------------------------------- the gradient functions *)
Section Functions.
  Context {K : Type} (alpha : K -> Z) (ev : fop -> Z -> Z -> K -> Z)
          (gen : fop -> nat -> nat -> result (list (list K))) (s : sess)
          (su : tri_supply)
          (mm : nat -> list nat -> list nat -> list triple)  (* triples for matrix products *)
          (on : nat -> list nat -> list (list Z)).           (* randomness for sharing ones *)
  Let E := mpc_engine alpha ev gen s su.
  Notation W := (mpcw (K:=K)).

  (** an operand: shared or public *)
  Definition operand : Type := mpc + pub.
  (** torch.tensor(y) for a number (grad_functions.py:138-139 and others) *)
  Definition as_tensor (y : operand) : operand :=
    match y with inr (PNum v) => inr (PTensor [] [v]) | _ => y end.
  Definition op_shape (y : operand) : list nat := match y with inl y => m_shape y | inr y => pub_shape y end.
  (** x + y, x - y, x * y, x @ y *)
  Definition x_lin (o : linop) (x : mpc) (y : operand) : comp W mpc :=
    match y with inl y => e_lin E o x y | inr y => lift (mpc_lin_public s o x y) end.
  Definition x_mul (x : mpc) (y : operand) : comp W mpc :=
    match y with inl y => e_mul E x y | inr y => lift (mpc_bil_public s BMul x y ([], [])) end.
  Definition x_matmul (x : mpc) (y : operand) : comp W mpc :=
    match y with
    | inl y => let! k := tick in lift (mpc_bil s BMatmul x y (mm k (m_shape x) (m_shape y)) ([], []))
    | inr y => lift (mpc_bil_public s BMatmul x y ([], []))
    end.
  (** shape methods of an operand; a number has none *)
  Definition x_view (v : viewop) (y : operand) : result operand :=
    match y with
    | inl y => do z <- mpc_view v y; Ok (inl z)
    | inr (PTensor sh vs) =>
        do p <- view_index v sh;
        Ok (inr (PTensor (fst p) (map (fun l => nth (nth 0 l 0%nat) vs (NInt 0)) (snd p))))
    | inr (PNum _) => Err AttributeError
    end.
  (** unsqueeze(d) for d = 0, 1 *)
  Definition x_unsqueeze (d : nat) (y : operand) : result operand :=
    let sh := op_shape y in
    if Nat.ltb (length sh) d then Err IndexError else x_view (VReshape (firstn d sh ++ 1%nat :: skipn d sh)) y.

  Inductive gfun :=
  | FT                       (* t() *)
  | FSum                     (* sum() *)
  | FReshape (sh : list nat) (* reshape, flatten *)
  | FPow (k : Z)             (* x ** k *)
  | FRelu
  | FAdd | FSub | FMul | FMatmul.

  Definition result_of (r : mpc) (b : mpc -> comp W (list mpc)) : comp W (mpc * (mpc -> comp W (list mpc))) := cret (r, b).

  (** functions of one tensor: the result, and grad -> the gradients passed on
      grad_functions.py:92-120 (GradT), grad_functions.py:165-200 (GradSum),
      grad_functions.py:610-642 (GradReshape), grad_functions.py:460-493 (GradFlatten; the new
      shape being given), grad_functions.py:318-358 (GradPow), grad_functions.py:645-676 (GradReLU);
      GradFunc, 53-89, has no code *)
  Definition fun1 (f : gfun) (x : mpc) : comp W (mpc * (mpc -> comp W (list mpc))) :=
    match f with
    | FT => let! r := lift (mpc_view VT x) in
            result_of r (fun g => let! g := lift (mpc_view VT g) in cret [g])
    | FSum => let! r := lift (mpc_view VSum x) in
              result_of r (fun g => let! g := x_mul g (inr (PTensor (m_shape x) (repeat (NFloat 1) (numel (m_shape x))))) in cret [g])
    | FReshape sh => let! r := lift (mpc_view (VReshape sh) x) in
              result_of r (fun g => let! g := lift (mpc_view (VReshape (m_shape x)) g) in cret [g])
    | FPow k =>
        match k with
        | Zpos p => let! r := e_pow E x p in
            result_of r (fun g =>
              let! g := (match k - 1 with
                         | Zpos q => let! y := e_pow E x q in let! y := e_mulp E y (NInt k) in e_mul E y g
                         | _ => e_mulp E g (NInt k) (* 1 * y * grad with ints 1, y *)
                         end) in cret [g])
        | Z0 => cerr AttributeError (* the int 1 has no requires_grad *)
        | Zneg _ => cerr RuntimeError
        end
    | FRelu => let! m := e_relp E RGt x (NFloat 0) in let! m := sign E m in
               let! r := e_mul E x m in
               result_of r (fun g => let! g := e_mul E g m in cret [g])
    | _ => cerr TypeError
    end.

  (** functions of two; grad_functions.py:123-162 (GradAdd), grad_functions.py:237-275 (GradSub),
      grad_functions.py:278-315 (GradMul), grad_functions.py:403-457 (GradMatMul) *)
  Definition fun2 (f : gfun) (x : mpc) (y : operand) : comp W (mpc * (mpc -> comp W (list mpc))) :=
    match f with
    | FAdd | FSub =>
        let y := as_tensor y in let o := match f with FAdd => LAdd | _ => LSub end in
        let! r := x_lin o x y in
        result_of r (fun g =>
          let! gx := lift (reverse_broadcast g (m_shape x)) in
          let! gy := lift (reverse_broadcast g (op_shape y)) in
          match f with
          | FAdd => cret [gx; gy]
          | _ => let! gy := e_mulp E gy (NInt (-1)) in cret [gx; gy]
          end)
    | FMul =>
        let y := as_tensor y in
        let! r := x_mul x y in
        result_of r (fun g =>
          let! gx := x_mul g y in let! gx := lift (reverse_broadcast gx (m_shape x)) in
          let! gy := e_mul E g x in let! gy := lift (reverse_broadcast gy (op_shape y)) in
          cret [gx; gy])
    | FMatmul =>
        let! r := x_matmul x y in
        result_of r (fun g =>
          let! gx := lift (mpc_view VClone g) in
          let! gy := lift (mpc_view VClone g) in
          let lift_op r := lift (do o <- r; match o with inl z => Ok z | inr _ => Err TypeError end) in
          let! x1 := (if Nat.ltb (length (m_shape x)) 2 then lift_op (x_unsqueeze 0 (inl x)) else cret x) in
          let! gx := (if Nat.ltb (length (m_shape x)) 2 then lift_op (x_unsqueeze 0 (inl gx)) else cret gx) in
          let! y1 := (if Nat.ltb (length (op_shape y)) 2 then lift (x_unsqueeze 1 y) else cret y) in
          let! gy := (if Nat.ltb (length (op_shape y)) 2 then lift_op (x_unsqueeze 1 (inl gy)) else cret gy) in
          let! yt := lift (x_view VT y1) in
          let! gx := x_matmul gx yt in
          let! xt := lift (mpc_view VT x1) in
          let! gy := x_matmul xt (inl gy) in
          if (shape_eqb (m_shape x1) (m_shape gx) && shape_eqb (op_shape y1) (m_shape gy))%bool
          then cret [gx; gy] else cerr ValueError)
    | _ => cerr TypeError
    end.

  Definition mgraph : Type := graph W mpc.
  Definition madd (x y : mpc) : comp W mpc := e_lin E LAdd x y.
  (** mpc_tensor.py:947 *)
  Definition mones (sh : list nat) : comp W mpc :=
    let! k := tick in lift (mpc_secret s (PTensor sh (repeat (NFloat 1) (numel sh))) (on k sh)).
  Definition mbackward := backward (W:=W) m_shape madd mones.

  (** the methods when autograd is not active (functional.py:38-51 for relu).  Not modelled there:
      exponents below 1. *)
  Definition plain1 (f : gfun) (x : mpc) : comp W mpc :=
    match f with
    | FT => lift (mpc_view VT x)
    | FSum => lift (mpc_view VSum x)
    | FReshape sh => lift (mpc_view (VReshape sh) x)
    | FPow (Zpos p) => e_pow E x p
    | FPow _ => cerr NotImplementedErr
    | FRelu => relu E x
    | _ => cerr TypeError
    end.
  Definition plain2 (f : gfun) (x : mpc) (y : operand) : comp W mpc :=
    match f with
    | FAdd => x_lin LAdd x y
    | FSub => x_lin LSub x y
    | FMul => x_mul x y
    | FMatmul => x_matmul x y
    | _ => cerr TypeError
    end.

  (** x.f(...) and the corresponding operator: mpc_tensor.py:897-926 (and 46-71, 1168-1179);
      recorded when autograd is active, else a new tensor without history *)
  Definition record (params : list nat) (fw : list mpc -> comp W (mpc * (mpc -> comp W (list mpc))))
                    (plain : list mpc -> comp W mpc) : gcomp W mpc nat :=
    fun st =>
      if g_active (fst st) then forward params fw st
      else match rmap (get_nth (g_nodes (fst st))) params with
           | Err e => (Err e, st)
           | Ok ns => (let! r := liftw (plain (map n_val ns)) in leaf r false) st
           end.
  Definition call1 (f : gfun) (x : nat) : gcomp W mpc nat :=
    record [x] (fun vs => match vs with [x] => fun1 f x | _ => cerr TypeError end)
               (fun vs => match vs with [x] => plain1 f x | _ => cerr TypeError end).
  Definition call2 (f : gfun) (x : nat) (y : nat + pub) : gcomp W mpc nat :=
    match y with
    | inl y => record [x; y] (fun vs => match vs with [x; y] => fun2 f x (inl y) | _ => cerr TypeError end)
                             (fun vs => match vs with [x; y] => plain2 f x (inl y) | _ => cerr TypeError end)
    | inr p => record [x] (fun vs => match vs with [x] => fun2 f x (inr p) | _ => cerr TypeError end)
                          (fun vs => match vs with [x] => plain2 f x (inr p) | _ => cerr TypeError end)
    end.

  (** mpc_tensor.py:441-450 (c - x) with autograd active: the subtraction is done by the private
      method and gives a new tensor that does not require gradients, only the product with -1
      is recorded *)
  Definition call_rsub (x : nat) (c : pub) : gcomp W mpc nat :=
    let! n := get_node x in
    let! d := liftw (lift (mpc_lin_public s LSub (n_val n) c)) in
    let! i := leaf d false in
    call2 FMul i (inr (PNum (NInt (-1)))).

  (** a program that makes such calls: a new tensor (requires_grad given), a method of one tensor,
      of a tensor and another or a public one, and calls of backward.  Tensors are named by the
      order in which they are made. *)
  Inductive pstep :=
  | PLeaf (x : mpc) (needs : bool)
  | PUn (f : gfun) (i : nat)
  | PBin (f : gfun) (i : nat) (y : nat + pub).
  Inductive event :=
  | EvStep (st : pstep)
  | EvBack (root : nat) (gradient : option mpc).
  Definition exec (fuel : nat) (e : event) : gcomp W mpc unit :=
    match e with
    | EvStep (PLeaf x b) => let! _ := leaf x b in cret tt
    | EvStep (PUn f i) => let! _ := call1 f i in cret tt
    | EvStep (PBin f i y) => let! _ := call2 f i y in cret tt
    | EvBack root g => mbackward fuel root g
    end.
  Definition run (fuel : nat) (l : list event) : gcomp W mpc unit := for_each l (exec fuel).
End Functions.
