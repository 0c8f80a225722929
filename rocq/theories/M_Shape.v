(** Model of the shape attribute of MPCTensor as the python object it is
    (/repo/src/sympc/tensor/mpc_tensor.py), which callers may give as a torch.Size, a tuple or a
    list.  The other model files have it as a list of numbers. *)
From Verif Require Import Util S_Ring S_Tensor M_Torch M_Encoder M_Tensor M_Share M_Spdz.
Local Open Scope Z_scope.
Local Open Scope list_scope.

(** mpc_tensor.py:135 (the types of the parameter): None, a tuple (torch.Size is one), a list;
    other sequences and entries that are no integers are not modelled *)
Inductive pyshape := ShNone | ShTuple (l : list Z) | ShList (l : list Z).
Definition as_size (sh : list nat) : pyshape := ShTuple (map Z.of_nat sh).

(** torch.empty(shape).shape, as in mpc_tensor.py:775-776, 1001 and 1044: None is no size,
    negative entries are refused *)
Definition torch_size (p : pyshape) : result (list nat) :=
  match p with
  | ShNone => Err TypeError
  | ShTuple l | ShList l => if forallb (fun z => 0 <=? z) l then Ok (map Z.to_nat l) else Err RuntimeError
  end.

(** mpc_tensor.py:757-781 (_get_shape); lru_cache (758) hashes the arguments first and lists
    cannot be hashed.  [f] is the shape of the operation. *)
Definition get_shape (f : list nat -> list nat -> result (list nat)) (x y : pyshape) : result (list nat) :=
  match x, y with
  | ShList _, _ | _, ShList _ => Err TypeError
  | ShNone, _ | _, ShNone => Err ValueError
  | _, _ => do a <- torch_size x; do b <- torch_size y; f a b
  end.

(** an MPCTensor (mpc_tensor.py:74-111): session, shape attribute, shares *)
Record obj := mkO { o_sid : nat; o_shape : pyshape; o_shares : list tensor }.
(** the shares and the session alone, for the functions that do not look at the attribute *)
Definition bare (x : obj) : mpc := mkM (o_sid x) [] (o_shares x).

(** mpc_tensor.py:131-211 for a secret known by the orchestrator: the shape of the secret (252),
    then the parameter if there is one (208-209) *)
Definition obj_secret (s : sess) (p : pub) (shape : pyshape) (rnd : list (list Z)) : result obj :=
  do m <- mpc_secret s p rnd;
  Ok (mkO (m_sid m) (match shape with ShNone => as_size (m_shape m) | _ => shape end) (m_shares m)).

(** mpc_tensor.py:176-183 and 255-278 for a secret of party [owner]: every party makes a zero share
    of the shape tuple(shape), [przs] are their elements *)
Definition obj_remote (s : sess) (parties : list nat) (owner : nat) (shape : pyshape) (value : pub) (przs : list (list Z)) : result obj :=
  if Nat.eqb (s_n s) 0 then Err ValueError
  else match shape with
       | ShNone => Err ValueError
       | _ => do sh <- torch_size shape;
              do shs <- add_at_owner parties owner (share_init (s_cfg s) value) (map (mkT sh) przs);
              Ok (mkO (s_id s) shape shs)
       end.

(** mpc_tensor.py:703-717 and 851-862, "add"/"sub" of two shared tensors: the shares first, the
    attribute afterwards *)
Definition obj_lin (o : linop) (x y : obj) : result obj :=
  if negb (Nat.eqb (o_sid x) (o_sid y)) then Err ValueError
  else
    do shs <- rmap (fun p => sh_lin o (fst p) (snd p)) (combine (o_shares x) (o_shares y));
    do so <- get_shape shape_bin (o_shape x) (o_shape y);
    Ok (mkO (o_sid x) (as_size so) shs).

(** mpc_tensor.py:719-755 and 851-862, "add"/"sub" of a public value; the shape of a number is
    the tuple (1,), that of a tensor a torch.Size *)
Definition obj_lin_public (s : sess) (o : linop) (x : obj) (y : pub) : result obj :=
  do s0 <- get_nth (o_shares x) 0;
  do s0' <- sh_lin o s0 (share_init (s_cfg s) y);
  do so <- get_shape shape_bin (o_shape x) (as_size (pub_shape y));
  Ok (mkO (o_sid x) (as_size so) (set_nth 0 s0' (o_shares x))).

(** mpc_tensor.py:676-687 and 851-862, products of two shared tensors, with spdz.py:54-55
    (tuple(shape), which None is not); the shares first, which consumes the triples, the attribute
    afterwards, twice *)
Definition obj_bil (s : sess) (op : bop) (x y : obj) (ts : list triple) (prim : list tensor * list tensor) : result obj :=
  if negb (Nat.eqb (o_sid x) (o_sid y)) then Err ValueError
  else match o_shape x, o_shape y with
  | ShNone, _ | _, ShNone => Err TypeError
  | _, _ =>
    do shs <- mul_master s op (bare x) (bare y) ts;
    do so' <- get_shape (shape_bil (no_kwargs op)) (o_shape x) (o_shape y);
    do so <- get_shape (shape_bil op) (o_shape x) (o_shape y);
    do r <- truncate s true (mkM (o_sid x) so shs) prim;
    Ok (mkO (m_sid r) (as_size (m_shape r)) (m_shares r))
  end.

(** mpc_tensor.py:982-1067 (hook_property, hook_method): the method on every share and on
    torch.empty(shape), which takes lists as well *)
Definition obj_view (v : viewop) (x : obj) : result obj :=
  do shs <- rmap (tview R64 v) (o_shares x);
  do sh <- torch_size (o_shape x);
  do p <- view_index v sh;
  Ok (mkO (o_sid x) (as_size (fst p)) shs).

(** mpc_tensor.py:864-870 (__len__) *)
Definition obj_len (x : obj) : result Z :=
  match o_shape x with
  | ShNone => Err TypeError
  | ShTuple l | ShList l => match l with [] => Err IndexError | z :: _ => Ok z end
  end.

(** mpc_tensor.py:359-393 and share_tensor.py:491-540 (reconstruct, without decoding) *)
Definition obj_reconstruct (x : obj) : result tensor := tsum R64 (o_shares x).
