(** Model of single share objects, with or without a session:
    /repo/src/sympc/tensor/share_tensor.py (constructor, sanity_checks, apply_function, the
    operators and the forwarded methods).  M_Share.v treats the shares inside an MPCTensor of
    the ring 2^64; here the objects keep all their fields and the dtype of their tensor. *)
From Coq Require Import QArith.
From Verif Require Import Util S_Ring S_Tensor M_Torch M_Encoder M_Tensor M_Share M_Dtype.
Local Open Scope Z_scope.

(** share_tensor.py:70-80 (slots; id, tags and description left out, fp_encoder is given by
    config); the tensor with its torch dtype *)
Record share := mkShare { so_uuid : option nat; so_cfg : config; so_ring : Z; so_type : dtype; so_ten : tensor }.

(** session/session_utils.py:12-21 (get_session) for the ring_size and config of the session
    stored under an identifier; None has neither (AttributeError) *)
Definition sessions : Type := nat -> option (Z * config).
Definition lookup (env : sessions) (u : nat) : result (Z * config) :=
  match env u with Some p => Ok p | None => Err AttributeError end.

(** share_tensor.py:102-133 (__init__ with data) *)
Definition so_new (c : config) (u : option nat) (ring : Z) (p : pub) : result share :=
  do d <- get_type_from_ring ring;
  let t := share_init c p in
  Ok (mkShare u c ring d (mkT (tsh t) (map (cast d) (tdat t)))).

(** an operand: another share or a public value *)
Definition operand_s : Type := share + pub.

(** share_tensor.py:146-179 (sanity_checks) *)
Definition sanity (env : sessions) (x : share) (y : operand_s) : result share :=
  match y with
  | inr p =>
      do rc <- match so_uuid x with Some u => lookup env u | None => Ok (so_ring x, so_cfg x) end;
      so_new (snd rc) None (fst rc) p
  | inl y =>
      match so_uuid y, so_uuid x with
      | Some v, Some u => if Nat.eqb v u then Ok y else Err ValueError
      | _, _ => Ok y
      end
  end.

(** torch: type of the result of a binary operator of integer tensors; a tensor without
    dimensions does not widen the other one *)
Definition result_type (a b : share) : dtype :=
  match so_type a, so_type b with
  | TBool, d | d, TBool => d
  | da, db =>
      match tsh (so_ten a), tsh (so_ten b) with
      | [], _ :: _ => db
      | _ :: _, [] => da
      | _, _ => promote da db
      end
  end.

(** the operators of share_tensor.py:181-212: operator.add, sub, mul, matmul, xor.  torch refuses
    the difference of bool tensors, matrix products of bool tensors and of tensors of different
    types (RuntimeError); it converts both operands to the type of the result. *)
Inductive sop := SAdd | SSub | SMul | SMatmul | SXor.
Definition sop_elt (o : sop) : Z -> Z -> Z :=
  match o with SAdd => Z.add | SSub => Z.sub | SMul | SMatmul => Z.mul | SXor => Z.lxor end.
Definition torch_op (o : sop) (a b : share) : result (dtype * tensor) :=
  let d := result_type a b in
  match o with
  | SMatmul =>
      if (dtype_eqb (so_type a) TBool || negb (dtype_eqb (so_type a) (so_type b)))%bool then Err RuntimeError
      else match bil_index BMatmul (tsh (so_ten a)) (tsh (so_ten b)) with
           | None => Err RuntimeError
           | Some (so, ix) =>
               Ok (d, mkT so (map (fun ps => cast d (zsum (map (fun p => nth (fst p) (tdat (so_ten a)) 0 *
                                                                        nth (snd p) (tdat (so_ten b)) 0) ps))) ix))
           end
  | SSub =>
      if (dtype_eqb (so_type a) TBool || dtype_eqb (so_type b) TBool)%bool then Err RuntimeError
      else do t <- tbin (fun x y => cast d (cast d x - cast d y)) (so_ten a) (so_ten b); Ok (d, t)
  | _ => do t <- tbin (fun x y => cast d (sop_elt o (cast d x) (cast d y))) (so_ten a) (so_ten b); Ok (d, t)
  end.

(** share_tensor.py:181-212 (apply_function) with another share: ring size and config of the
    session of one of them, else of [a]; the tensor is not converted *)
Definition apply_function (env : sessions) (a b : share) (o : sop) : result share :=
  do t <- torch_op o a b;
  let u := match so_uuid a with Some u => Some u | None => so_uuid b end in
  do rc <- match u with Some u => lookup env u | None => Ok (so_ring a, so_cfg a) end;
  Ok (mkShare u (snd rc) (fst rc) (fst t) (snd t)).

(** share_tensor.py:214-238 (add, sub), 240-251 (rsub) *)
Definition so_add (env : sessions) (x : share) (y : operand_s) : result share :=
  do b <- sanity env x y; apply_function env x b SAdd.
Definition so_sub (env : sessions) (x : share) (y : operand_s) : result share :=
  do b <- sanity env x y; apply_function env x b SSub.
Definition so_rsub (env : sessions) (x : share) (y : operand_s) : result share :=
  do b <- sanity env x y; apply_function env b x SSub.

(** torch [t // k] for a python int k, of an integer tensor: k is converted to the type of the
    tensor; truncated toward zero (torch<=1.8.1); division by 0 is a RuntimeError *)
Definition floordiv (d : dtype) (t : tensor) (k : Z) : result tensor :=
  if cast d k =? 0 then Err RuntimeError
  else Ok (mkT (tsh t) (map (fun v => cast d (Z.quot v (cast d k))) (tdat t))).

(** share_tensor.py:253-271 (mul), 285-305 (matmul): without a session the product is divided by
    the scale of [x].  In place (mul) a bool tensor cannot hold the quotient (RuntimeError). *)
Definition rescale (x y r : share) : result share :=
  match so_uuid x, so_uuid y with
  | None, None =>
      if dtype_eqb (so_type r) TBool then Err RuntimeError
      else do t <- floordiv (so_type r) (so_ten r) (scale (so_cfg x));
           Ok (mkShare (so_uuid r) (so_cfg r) (so_ring r) (so_type r) t)
  | _, _ => Ok r
  end.
Definition so_mul (env : sessions) (x : share) (y : operand_s) : result share :=
  do b <- sanity env x y; do r <- apply_function env x b SMul; rescale x b r.
Definition so_matmul (env : sessions) (x : share) (y : operand_s) : result share :=
  do b <- sanity env x y; do r <- apply_function env x b SMatmul; rescale x b r.

(** share_tensor.py:307-317 (rmatmul) *)
Definition so_rmatmul (env : sessions) (x : share) (y : operand_s) : result share :=
  do b <- sanity env x y; so_matmul env b (inl x).

(** share_tensor.py:319-337 (div by an int): the new object has the default ring size; a bool
    tensor becomes int64 *)
Definition so_div (x : share) (k : Z) : result share :=
  let d := match so_type x with TBool => TI64 | d => d end in
  do t <- floordiv d (so_ten x) k;
  Ok (mkShare (so_uuid x) (so_cfg x) R64 d t).

(** share_tensor.py:273-283 (xor): the operand is not checked or encoded; a public one has no
    session_uuid, which is asked for if [x] has none (AttributeError).  Public: integer tensors
    (int64) or an int; torch refuses floats (RuntimeError). *)
Definition so_xor (env : sessions) (x : share) (y : operand_s) : result share :=
  match y with
  | inl y => apply_function env x y SXor
  | inr p =>
      if forallb (fun v => match v with NInt _ => true | NFloat _ => false end) (pub_vals p) then
        let raw := map (fun v => match v with NInt z => z | NFloat _ => 0 end) (pub_vals p) in
        let b := match p with
                 | PNum _ => mkShare None (so_cfg x) R64 TI64 (mkT [] raw)
                 | PTensor sh _ => mkShare None (so_cfg x) R64 TI64 (mkT sh raw)
                 end in
        do t <- torch_op SXor x b;
        match so_uuid x with
        | None => Err AttributeError
        | Some u => do rc <- lookup env u; Ok (mkShare (Some u) (snd rc) (fst rc) (fst t) (snd t))
        end
      else Err RuntimeError
  end.

(** share_tensor.py:339-350 (__gt__), 352-363 (__lt__): a bool tensor *)
Definition compare_s (f : Z -> Z -> bool) (x y : share) : result tensor :=
  let d := result_type x y in
  tbin (fun a b => Z.b2z (f (cast d a) (cast d b))) (so_ten x) (so_ten y).
Definition so_gt (env : sessions) (x : share) (y : operand_s) : result tensor :=
  do b <- sanity env x y; compare_s Z.gtb x b.
Definition so_lt (env : sessions) (x : share) (y : operand_s) : result tensor :=
  do b <- sanity env x y; compare_s Z.ltb x b.

(** share_tensor.py:418-489 (hook_property, hook_method) for the methods of
    PROPERTIES_NEW_SHARE_TENSOR and METHODS_NEW_SHARE_TENSOR (28-44) that return tensors: the new
    object has the default ring size.  torch's sum of an integer tensor is int64. *)
Definition sums (v : viewop) : bool :=
  match v with VSum | VSumDim _ | VSumFirst _ | VSumKeep _ => true | _ => false end.
Definition so_view (v : viewop) (x : share) : result share :=
  do t <- tview R64 v (so_ten x);
  Ok (mkShare (so_uuid x) (so_cfg x) R64 (if sums v then TI64 else so_type x) t).

(** share_tensor.py:477-482 (the other forwarded method, numel) and 440-442 (shape) *)
Definition so_numel (x : share) : nat := numel (tsh (so_ten x)).
Definition so_shape (x : share) : list nat := tsh (so_ten x).

(** share_tensor.py:135-144 (decode) *)
Definition so_decode (x : share) : result ttensor := decode (so_cfg x) (TLong (tdat (so_ten x))).
