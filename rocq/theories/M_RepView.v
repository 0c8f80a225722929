(** Model of the methods that replicated tensors forward to torch, of their local division and
    shift, and of their equality:
    /repo/src/sympc/tensor/replicatedshare_tensor.py:34-35, 535-584, 658-724, 970-1055 and
    /repo/src/sympc/tensor/mpc_tensor.py:28-42, 113-129, 976-1067.
    A torch tensor is the list of its elements; "view" is taken to accept every shape with the
    same number of elements (torch also asks for compatible strides, which are not modelled). *)
From Coq Require Import QArith.
From Verif Require Import Util S_Ring S_Tensor M_Torch M_Tensor M_Encoder M_Share M_Spdz M_Rep.
Local Open Scope Z_scope.

(** the methods of MPCTensor.METHODS_FORWARD (mpc_tensor.py:114-128) and its property T (line 129;
    here for at most two dimensions); arguments: repeat(k, 1, ..., 1), narrow(0, start, len),
    sum(), sum(d), sum(d, keepdim=True), the others as in torch with non-negative dimensions *)
Inductive meth :=
| MNumel | Mt | MTprop | MSqueeze | MUnsqueeze (d : nat) | MView (s : list nat) | MSum | MSumDim (d : nat) | MSumKeep (d : nat)
| MClone | MFlatten | MReshape (s : list nat) | MRepeat (k : nat) | MNarrow (start len : nat) | MDim | MTranspose (a b : nat).

(** replicatedshare_tensor.py:66-67 (METHODS_FORWARD, PROPERTIES_FORWARD of the share objects):
    every other attribute raises AttributeError *)
Definition rst_has (m : meth) : bool :=
  match m with
  | MNumel | Mt | MTprop | MUnsqueeze _ | MView _ | MSum | MSumDim _ | MSumKeep _ | MClone | MRepeat _ => true
  | _ => false
  end.

(** the torch method on a tensor of shape [sh] (torch); squeeze drops the dimensions 1, flatten
    gives one dimension.  [None]: numel and dim return an int. *)
Definition meth_op (m : meth) (sh : list nat) : result (option viewop) :=
  match m with
  | MNumel | MDim => Ok None
  | Mt | MTprop => Ok (Some VT)
  | MSqueeze => Ok (Some (VReshape (filter (fun n => negb (Nat.eqb n 1)) sh)))
  | MUnsqueeze d => if Nat.leb d (length sh) then Ok (Some (VReshape (firstn d sh ++ 1%nat :: skipn d sh))) else Err IndexError
  | MView s | MReshape s => Ok (Some (VReshape s))
  | MSum => Ok (Some VSum)
  | MSumDim d => Ok (Some (VSumDim d))
  | MSumKeep d => Ok (Some (VSumKeep d))
  | MClone => Ok (Some VClone)
  | MFlatten => Ok (Some (VReshape [numel sh]))
  | MRepeat k => Ok (Some (VRepeat0 k))
  | MNarrow a l => Ok (Some (VNarrow0 a l))
  | MTranspose a b => Ok (Some (VTranspose a b))
  end.

(** the torch method on one share.  torch.sum of any integer (or bool) tensor is an int64 sum;
    the other methods only move elements.  So the int64 ring is used for all of them. *)
Definition tmeth (m : meth) (t : tensor) : result tensor :=
  do o <- meth_op m (tsh t);
  match o with Some v => tview R64 v t | None => Err AttributeError (* an int *) end.

(** whether the method's result has another torch type than the ring's (torch.sum, see above) *)
Definition is_sum (m : meth) : bool := match m with MSum | MSumDim _ | MSumKeep _ => true | _ => false end.

(** replicatedshare_tensor.py:970-1055 (hook_property, hook_method) for the methods and
    properties in METHODS_NEW_RS_TENSOR, PROPERTIES_NEW_RS_TENSOR (lines 34-35) *)
Definition rst_method (m : meth) (x : rst) : result rst :=
  if rst_has m then do shs <- rmap (tmeth m) (r_shares x); Ok (rst_like x shs) else Err AttributeError.

(** replicatedshare_tensor.py:1035-1044 (the other forwarded method, numel): asks the first share *)
Definition rst_numel (x : rst) : result nat := do t <- get_nth (r_shares x) 0; Ok (numel (tsh t)).
(** mpc_tensor.py:1055-1067: numel is in METHODS_FORWARD but not in METHODS_FORWARD_ALL_SHARES *)
Definition rm_numel (x : rmpc) : result nat := do p <- get_nth (rm_ps x) 0; rst_numel p.

(** a tensor whose share tensors have the torch type of the ring, or (flag) int64 *)
Definition rwide : Type := bool * rmpc.

(** mpc_tensor.py:976-1067 (hook_property, hook_method): every share, then the shape of the
    method on an empty tensor; an int has no shape (AttributeError).  At least one party. *)
Definition rm_method (m : meth) (x : rmpc) : result rwide :=
  do ps <- rmap (rst_method m) (rm_ps x);
  do o <- meth_op m (rm_shape x);
  match o with
  | None => Err AttributeError
  | Some v =>
      do p <- view_index v (rm_shape x);
      do rc <- first_ring x;
      Ok (is_sum m && negb (fst rc =? R64), mkRM (rm_sid x) (fst p) ps)
  end.

(** replicatedshare_tensor.py:726-742 (shares_sum) of int64 tensors in a ring with another type:
    bitwise xor in the ring 2, ValueError of addmodprime (lines 181-184) in the ring 67, int64
    sums in the others *)
Definition wide_sum (ring : Z) (ts : list tensor) : result tensor :=
  if ring =? 2 then
    match ts with
    | [] => Err TypeError (* reduce() of an empty list *)
    | t :: r => fold_left (fun acc u => do a <- acc; tbin Z.lxor a u) r (Ok t)
    end
  else if ring =? PRIME then match ts with [t] => Ok t | [] => Err TypeError | _ => Err ValueError end
  else tsum R64 ts.

(** replicatedshare_tensor.py:765-845 with that sum; see [reconstruct_sh], [reconstruct_loop] *)
Definition wide_sh (ps : list rst) : result tensor :=
  do p0 <- get_nth ps 0;
  do p1 <- get_nth ps 1;
  do s0 <- get_nth (r_shares p0) 0;
  wide_sum (r_ring p0) (s0 :: r_shares p1).
Fixpoint wide_loop (ring : Z) (ps : list rst) (ranks : list nat) (value : option tensor) : result tensor :=
  match ranks with
  | [] => match value with Some v => Ok v | None => Err ValueError end
  | k :: r =>
      do p <- get_nth ps k;
      do q <- get_nth ps ((k + 1) mod length ps)%nat;
      do s0 <- get_nth (r_shares p) 0;
      do t <- wide_sum ring (s0 :: r_shares q);
      match value with
      | None => wide_loop ring ps r (Some t)
      | Some v => do b <- tdiffer t v; if (b : bool) then Err ValueError else wide_loop ring ps r value
      end
  end.
(** mpc_tensor.py:359-393 (reconstruct, decode=False) *)
Definition rw_reconstruct (s : rsess) (x : rwide) : result tensor :=
  if fst x then
    let ps := rm_ps (snd x) in
    match ps with
    | [] => Err ValueError
    | p0 :: _ => if rs_mal s then wide_loop (r_ring p0) ps (seq 0 (length ps)) None else wide_sh ps
    end
  else rm_reconstruct s (snd x).

(* ------------------------------------------------------------------ *)
(** local division and shift, equality *)

(** the denominators of truediv: a python int, a LongTensor of one element is not distinguished
    from it; anything else *)
Inductive denom := DInt (y : Z) | DOther.

(** replicatedshare_tensor.py:535-556 (truediv) for the rings 2^8 to 2^64: every share divided,
    rounding toward zero (torch<=1.8.1) *)
Definition rst_truediv (x : rst) (y : denom) : result rst :=
  match y with
  | DOther => Err ValueError
  | DInt y =>
      if y =? 0 then Err RuntimeError
      else Ok (rst_like x (map (fun t => mkT (tsh t) (map (fun v => plain_op (r_ring x) Z.quot v y) (tdat t))) (r_shares x)))
  end.

(** replicatedshare_tensor.py:558-584 (rshift) for the rings 2^8 to 2^64: arithmetic shifts *)
Definition rst_rshift (x : rst) (y : denom) : result rst :=
  match y with
  | DOther => Err ValueError
  | DInt y =>
      if (y <? 0) || (Z.of_nat (get_nr_bits (r_ring x)) - 1 <? y) then Err ValueError
      else Ok (rst_like x (map (fun t => mkT (tsh t) (map (fun v => Z.shiftr v y) (tdat t))) (r_shares x)))
  end.

(** mpc_tensor.py:591-619 (truediv) and spdz.py:181-226 (public_divide) of a replicated tensor by
    a public integer: two parties divide their shares; with more of them div_wraps (spdz.py:261)
    asks the share object for its attribute "tensor", which replicated shares do not have
    (AttributeError; the preceding steps have no other effect) *)
Definition rm_truediv (s : rsess) (x : rmpc) (y : denom) : result rmpc :=
  if Nat.eqb (rs_n s) 2 then
    do ps <- rmap (fun p => rst_truediv p y) (rm_ps x);
    Ok (mkRM (rm_sid x) (rm_shape x) ps)
  else Err AttributeError.

(** torch.cat of a list of tensors along dimension 0 (torch): no tensor without dimensions, equal
    remaining dimensions *)
Definition tcat (ts : list tensor) : result tensor :=
  match ts with
  | [] => Err RuntimeError
  | t :: _ =>
      match tsh t with
      | [] => Err RuntimeError
      | _ :: r =>
          if forallb (fun u => match tsh u with
                               | [] => false
                               | _ :: q => if list_eq_dec Nat.eq_dec q r then true else false end) ts
          then Ok (mkT (list_sum (map (fun u => hd 0%nat (tsh u)) ts) :: r) (concat (map tdat ts)))
          else Err RuntimeError
      end
  end.

(** config/config.py:9-18 (dataclass equality) *)
Definition cfg_eqb (a b : config) : bool := (c_base a =? c_base b) && Nat.eqb (c_prec a) (c_prec b).

(** replicatedshare_tensor.py:669-692 (eq) with another share object *)
Definition rst_eq (x y : rst) : result bool :=
  do a <- tcat (r_shares x);
  do b <- tcat (r_shares y);
  do d <- tdiffer a b;
  if (d : bool) then Ok false
  else if negb (cfg_eqb (r_cfg x) (r_cfg y)) then Ok false
  else if match r_uuid x, r_uuid y with Some u, Some v => negb (Nat.eqb u v) | _, _ => false end then Ok false
  else if negb (r_ring x =? r_ring y) then Ok false
  else Ok true.

(** replicatedshare_tensor.py:646-667 (lt, gt), 715-724 (ne): the methods; the operator != is
    python's negation of == *)
Definition rst_ne (x y : rst) : result bool := Err NotImplementedErr.
Definition rst_lt (x y : rst) : result bool := Err NotImplementedErr.
Definition rst_gt (x y : rst) : result bool := Err NotImplementedErr.

(** replicatedshare_tensor.py:694-713 (__getitem__, __setitem__) for a non-negative key *)
Definition rst_getitem (x : rst) (k : nat) : result tensor := get_nth (r_shares x) k.
Definition rst_setitem (x : rst) (k : nat) (t : tensor) : result rst :=
  do _ <- get_nth (r_shares x) k; Ok (mkR (r_ring x) (r_cfg x) (r_uuid x) (set_nth k t (r_shares x))).
