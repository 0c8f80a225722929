(** Model of additively shared tensors in the ring 2^64 (the default ring):
    /repo/src/sympc/tensor/share_tensor.py and the linear part of
    /repo/src/sympc/tensor/mpc_tensor.py.
    A share tensor is a [tensor] of int64 values; its configuration and session are those
    of the session that produced it.  Other ring sizes are treated in M_Dtype.v. *)
From Verif Require Import Util S_Ring S_Tensor M_Torch M_Encoder M_Tensor.
Local Open Scope Z_scope.

(** default ring: share_tensor.py:107, session.py:101 *)
Definition R64 : Z := 2^64.

(** public operands: a python number or a torch tensor
    (mpc_tensor.py:720, share_tensor.py:163-172) *)
Inductive pub := PNum (v : num) | PTensor (sh : list nat) (vs : list num).

(** share_tensor.py:102-133 (ShareTensor.__init__ with data) in the ring 2^64: the value is
    encoded; a python number becomes a tensor of shape (1,) (fp_encoder.py:56-57) *)
Definition share_init (c : config) (p : pub) : tensor :=
  match p with
  | PNum v => mkT [1%nat] [encode1 c v]
  | PTensor sh vs => mkT sh (encode c vs)
  end.

(** shape of a public operand as MPCTensor sees it: mpc_tensor.py:852-855 *)
Definition pub_shape (p : pub) : list nat :=
  match p with PNum _ => [1%nat] | PTensor sh _ => sh end.

(** (not code) a public operand has as many values as its shape says; its values *)
Definition pub_ok (p : pub) : Prop :=
  match p with PNum _ => True | PTensor sh vs => length vs = numel sh end.
Definition pub_vals (p : pub) : list num :=
  match p with PNum v => [v] | PTensor _ vs => vs end.

(** share_tensor.py:214-238 (add, sub) through apply_function 181-212, both operands
    being int64 tensors; [y] has been converted by sanity_checks 146-179 *)
Inductive linop := LAdd | LSub.
Definition lin_elt (o : linop) : Z -> Z -> Z :=
  match o with LAdd => radd R64 | LSub => rsub R64 end.
Definition sh_lin (o : linop) (a b : tensor) : result tensor := tbin (lin_elt o) a b.

(** share_tensor.py:240-251 (rsub): y - self *)
Definition sh_rsub (a b : tensor) : result tensor := tbin (rsub R64) b a.

(** share_tensor.py:253-271 (mul) and 285-305 (matmul) of shares attached to a session:
    no rescaling; conv2d is not available on shares *)
Definition sh_bil (o : bop) (a b : tensor) : result tensor := tbil R64 o a b.

(** share_tensor.py:319-337 (div by an int): torch [//] truncates toward zero *)
Definition sh_div (a : tensor) (y : Z) : result tensor :=
  if y =? 0 then Err ZeroDivision
  else Ok (mkT (tsh a) (map (fun v => cast TI64 (Z.quot v y)) (tdat a))).

(** torch list indexing *)
Definition get_nth {A} (l : list A) (i : nat) : result A :=
  match nth_error l i with Some a => Ok a | None => Err IndexError end.

(** mpc_tensor.py:280-357 (generate_shares) for a secret already encoded as a share tensor.
    [rnd] are the tensors drawn in lines 338-345 (one per loop iteration). *)
Definition generate_shares (n : nat) (secret : tensor) (rnd : list (list Z)) : result (list tensor) :=
  let random_shares := map (mkT (tsh secret)) (firstn (n - 1) rnd) in
  rmap (fun i =>
          if Nat.eqb i 0 then get_nth random_shares i
          else if Nat.ltb i (n - 1) then
            do a <- get_nth random_shares i;
            do b <- get_nth random_shares (i - 1);
            sh_lin LSub a b
          else
            do b <- get_nth random_shares (i - 1);
            sh_lin LSub secret b) (seq 0 n).

(** share_tensor.py:542-562 (distribute_shares): share k is tagged with the session of rank
    k and sent to the party of rank k *)
Record pointer := mkPtr { p_party : nat; p_uuid : nat; p_share : tensor }.
Fixpoint distribute_from (rank : nat) (parties uuids : list nat) (shares : list tensor)
  : result (list pointer) :=
  match shares with
  | [] => Ok []
  | s :: r =>
      match nth_error uuids rank with
      | None => Err KeyError
      | Some u =>
          do p <- get_nth parties rank;
          do rest <- distribute_from (S rank) parties uuids r;
          Ok (mkPtr p u s :: rest)
      end
  end.
Definition distribute_shares := distribute_from 0.

(** an MPCTensor (mpc_tensor.py:74-111): the session it belongs to, its shape attribute
    and the shares, the k-th one held by the party of rank k.  The autograd fields are
    modelled in M_Autograd.v. *)
Record mpc := mkM { m_sid : nat; m_shape : list nat; m_shares : list tensor }.

(** what the operations need of a session: identifier, number of parties, encoder *)
Record sess := mkS { s_id : nat; s_n : nat; s_cfg : config }.

(** mpc_tensor.py:131-253 for a secret known by the orchestrator *)
Definition mpc_secret (s : sess) (p : pub) (rnd : list (list Z)) : result mpc :=
  if Nat.eqb (s_n s) 0 then Err ValueError
  else
    let secret := share_init (s_cfg s) p in
    do shs <- generate_shares (s_n s) secret rnd;
    Ok (mkM (s_id s) (tsh secret) shs).

(** mpc_tensor.py:176-183: the secret lives at party [owner]; [przs] are the zero shares
    obtained from the parties (generate_przs, 255-278).  The first share whose client is the
    owner gets the (encoded) secret added; if there is none nothing happens. *)
Fixpoint add_at_owner (parties : list nat) (owner : nat) (sec : tensor) (shs : list tensor)
  : result (list tensor) :=
  match parties, shs with
  | p :: ps, x :: xs =>
      if Nat.eqb p owner then do y <- sh_lin LAdd x sec; Ok (y :: xs)
      else do ys <- add_at_owner ps owner sec xs; Ok (x :: ys)
  | _, _ => Ok shs
  end.
Definition mpc_remote (s : sess) (parties : list nat) (owner : nat) (shape : option (list nat))
  (value : pub) (przs : list tensor) : result mpc :=
  if Nat.eqb (s_n s) 0 then Err ValueError
  else match shape with
       | None => Err ValueError
       | Some sh => do shs <- add_at_owner parties owner (share_init (s_cfg s) value) przs;
                    Ok (mkM (s_id s) sh shs)
       end.

(** share_tensor.py:491-540 and mpc_tensor.py:359-393 without decoding *)
Definition reconstruct (x : mpc) : result tensor := tsum R64 (m_shares x).
(** with decoding *)
Definition reconstruct_decode (s : sess) (x : mpc) : result ttensor :=
  do t <- reconstruct x; decode (s_cfg s) (TLong (tdat t)).

(** mpc_tensor.py:757-781 (_get_shape) for add, sub, mul *)
Definition shape_bin (sa sb : list nat) : result (list nat) :=
  match bcast sa sb with Some so => Ok so | None => Err RuntimeError end.

(** mpc_tensor.py:654-717 and 827-862, "add"/"sub" of two shared tensors.  (The share class
    test is omitted: all tensors here are additive.) *)
Definition mpc_lin (o : linop) (x y : mpc) : result mpc :=
  if negb (Nat.eqb (m_sid x) (m_sid y)) then Err ValueError
  else
    do shs <- rmap (fun p => sh_lin o (fst p) (snd p)) (combine (m_shares x) (m_shares y));
    do so <- shape_bin (m_shape x) (m_shape y);
    Ok (mkM (m_sid x) so shs).

(** mpc_tensor.py:719-755 and 827-862, "add"/"sub" of a shared tensor and a public value:
    only the share of rank 0 is changed *)
Definition mpc_lin_public (s : sess) (o : linop) (x : mpc) (y : pub) : result mpc :=
  do s0 <- get_nth (m_shares x) 0;
  do s0' <- sh_lin o s0 (share_init (s_cfg s) y);
  do so <- shape_bin (m_shape x) (pub_shape y);
  Ok (mkM (m_sid x) so (set_nth 0 s0' (m_shares x))).

(** mpc_tensor.py:417-428 (isub): the shares are replaced, the shape attribute is kept *)
Definition mpc_isub (x y : mpc) : result mpc :=
  do r <- mpc_lin LSub x y; Ok (mkM (m_sid x) (m_shape x) (m_shares r)).

(** mpc_tensor.py:982-1067 (hook_property, hook_method): the method is applied to every
    share; the new shape is the one of the method applied to an empty tensor of the old
    shape attribute *)
Definition mpc_view (v : viewop) (x : mpc) : result mpc :=
  do shs <- rmap (tview R64 v) (m_shares x);
  do p <- view_index v (m_shape x);
  Ok (mkM (m_sid x) (fst p) shs).
