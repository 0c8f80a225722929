(** Model of replicated shared tensors and of the three-party protocols:
    /repo/src/sympc/tensor/replicatedshare_tensor.py, the replicated branches of
    /repo/src/sympc/tensor/mpc_tensor.py, /repo/src/sympc/protocol/falcon/falcon.py and
    /repo/src/sympc/protocol/aby3/aby3.py (truncation and multiplication).
    The tensors of a share object have the torch type of its ring size. *)
From Coq Require Import QArith.
From Verif Require Import Util S_Ring S_Tensor M_Torch M_Tensor M_Encoder M_Share M_Spdz.

Local Open Scope Z_scope.

(* ------------------------------------------------------------------ *)
(** one party's object *)

(** replicatedshare_tensor.py:53-64 (slots): ring_size, config, session_uuid, shares *)
Record rst := mkR { r_ring : Z; r_cfg : config; r_uuid : option nat; r_shares : list tensor }.

(** replicatedshare_tensor.py:91-94: bits and the prime field are never scaled *)
Definition rst_cfg (ring : Z) (c : config) : config :=
  if (ring =? 2) || (ring =? PRIME) then mkConfig 1 0 else c.

(** replicatedshare_tensor.py:69-107 without shares, the shares being set afterwards *)
Definition rst_make (ring : Z) (c : config) (u : option nat) (shares : list tensor) : rst :=
  mkR ring (rst_cfg ring c) u shares.

(** replicatedshare_tensor.py:105-107 and 109-119 on one share: encoded, then converted to
    the type of the ring *)
Definition rst_encode (ring : Z) (c : config) (p : pub) : result tensor :=
  do d <- get_type_from_ring ring;
  let t := share_init (rst_cfg ring c) p in
  Ok (mkT (tsh t) (map (cast d) (tdat t))).

(** "y % PRIME_NUMBER" of a public operand (line 290) *)
Definition num_mod (v : num) : num :=
  match v with
  | NInt z => NInt (z mod PRIME)
  | NFloat q => NFloat (q - inject_Z (PRIME * ((Qnum q) / (Zpos (Qden q) * PRIME))))%Q
  end.
Definition pub_mod (p : pub) : pub :=
  match p with PNum v => PNum (num_mod v) | PTensor sh vs => PTensor sh (map num_mod vs) end.

(** replicatedshare_tensor.py:288-297: the first share of the object made of a public operand *)
Definition rst_public (x : rst) (y : pub) : result tensor :=
  rst_encode (r_ring x) (r_cfg x) (if r_ring x =? PRIME then pub_mod y else y).

(** replicatedshare_tensor.py:299-310: the checks on two share objects *)
Definition rst_check (x y : rst) : result unit :=
  if match r_uuid x, r_uuid y with Some u, Some v => negb (Nat.eqb u v) | _, _ => false end
  then Err ValueError
  else if negb (Nat.eqb (length (r_shares x)) (length (r_shares y))) then Err ValueError
  else if negb (r_ring x =? r_ring y) then Err ValueError
  else Ok tt.

(** what the operations of a party use of the session found under the object's session_uuid
    (session_utils.py:12-20): rank, number of parties *)
Record pctx := mkPC { pc_rank : Z; pc_nr : nat }.
(** replicatedshare_tensor.py:312-318: an object without session_uuid gets a new Session, whose
    rank is -1 (session.py:162), with one party *)
Definition ctx_of (x : rst) (c : pctx) : pctx :=
  match r_uuid x with Some _ => c | None => mkPC (-1) 1 end.

Definition op_of_lin (o : linop) : opname := match o with LAdd => OAdd | LSub => OSub end.

(** a new object with the attributes of [x] (e.g. lines 346-351) *)
Definition rst_like (x : rst) (shares : list tensor) : rst :=
  rst_make (r_ring x) (r_cfg x) (r_uuid x) shares.

(** python list indexing with a non-negative or negative index is not needed: every index used
    is computed modulo the number of parties *)

(** replicatedshare_tensor.py:320-353 (__apply_public_op): add and sub of a public value; every
    party but the one of rank 1 changes its copy of the first share *)
Definition rst_lin_public (c : pctx) (o : linop) (x : rst) (y : pub) : result rst :=
  do t <- rst_public x y;
  let c := ctx_of x c in
  do op <- get_op (r_ring x) (op_of_lin o);
  if pc_rank c =? 1 then Ok (rst_like x (r_shares x))
  else
    let idx := Z.to_nat ((Z.of_nat (pc_nr c) - pc_rank c) mod Z.of_nat (pc_nr c)) in
    do s <- get_nth (r_shares x) idx;
    do s' <- tbin op s t;
    Ok (rst_like x (set_nth idx s' (r_shares x))).

(** replicatedshare_tensor.py:355-388 (__apply_private_op): add and sub of two objects *)
Definition rst_lin (o : linop) (x y : rst) : result rst :=
  do _ <- rst_check x y;
  do op <- get_op (r_ring x) (op_of_lin o);
  do shs <- rmap (fun p => tbin op (fst p) (snd p)) (combine (r_shares x) (r_shares y));
  Ok (rst_like x shs).

(** replicatedshare_tensor.py:441-452 (rsub): the operands are not exchanged *)
Definition rst_rsub_public (c : pctx) (x : rst) (y : pub) : result rst := rst_lin_public c LSub x y.

(** falcon.py:380-407 (multiplication_protocol): the party's additive share of the product *)
Definition opname_of (op : bop) : result opname :=
  match op with BMul => Ok OMul | BMatmul => Ok OMatmul | _ => Err NotImplementedErr end.
Definition multiplication_protocol (op : bop) (x y : rst) : result tensor :=
  do o <- opname_of op;
  do _ <- get_op (r_ring x) o;
  do x0 <- get_nth (r_shares x) 0;
  do y0 <- get_nth (r_shares y) 0;
  do p00 <- tbil (r_ring x) op x0 y0;
  do x1 <- get_nth (r_shares x) 1;
  do p10 <- tbil (r_ring x) op x1 y0;
  do y1 <- get_nth (r_shares y) 1;
  do p01 <- tbil (r_ring x) op x0 y1;
  tsum (r_ring x) [p00; p10; p01].

(** replicatedshare_tensor.py:454-492 (mul) of two objects: one tensor, an additive share *)
Definition rst_mul (c : pctx) (x y : rst) : result rst :=
  do _ <- rst_check x y;
  do _ <- get_op (r_ring x) OMul;
  if Nat.eqb (pc_nr (ctx_of x c)) 3 then
    do z <- multiplication_protocol BMul x y; Ok (rst_like x [z])
  else Err ValueError.

(** replicatedshare_tensor.py:454-492 (mul) by a public value *)
Definition rst_mul_public (x : rst) (y : pub) : result rst :=
  do t <- rst_public x y;
  do op <- get_op (r_ring x) OMul;
  do shs <- rmap (fun s => tbin op s t) (r_shares x);
  Ok (rst_like x shs).

(** operator.matmul on tensors of the ring's type: torch has no boolean matrix product; uint8
    results are not reduced modulo 67 *)
Definition plain_matmul (ring : Z) (a b : tensor) : result tensor :=
  if ring =? 2 then Err RuntimeError
  else if ring =? PRIME then
    match bil_index BMatmul (tsh a) (tsh b) with
    | None => Err RuntimeError
    | Some (so, ix) =>
        Ok (mkT so (map (fun ps => cast TU8 (zsum (map (fun p => nth (fst p) (tdat a) 0 * nth (snd p) (tdat b) 0) ps))) ix))
    end
  else tbil ring BMatmul a b.

(** replicatedshare_tensor.py:494-532 (matmul) by a public value *)
Definition rst_matmul_public (x : rst) (y : pub) : result rst :=
  do t <- rst_public x y;
  do shs <- rmap (fun s => plain_matmul (r_ring x) s t) (r_shares x);
  Ok (rst_like x shs).

(** replicatedshare_tensor.py:628-648 (xor) with a public value *)
Definition rst_xor_public (c : pctx) (x : rst) (y : pub) : result rst :=
  if r_ring x =? 2 then rst_lin_public c LAdd x y
  else match get_type_from_ring (r_ring x) with
       | Err _ => Err ValueError
       | Ok _ =>
           do a <- rst_lin_public c LAdd x y;
           do m <- rst_mul_public x y;
           do m2 <- rst_mul_public m (PNum (NInt 2));
           rst_lin LSub a m2
       end.

(** mpc_utils.py:113-123 (get_nr_bits) *)
Definition get_nr_bits (ring : Z) : nat := Z.to_nat (Z.log2_up ring).

(** replicatedshare_tensor.py:586-614 (bit_extraction): the masked value is converted to bool *)
Definition rst_bit (x : rst) (pos : nat) : result rst :=
  if Nat.ltb pos (get_nr_bits (r_ring x)) then
    Ok (rst_make 2 (mkConfig 1 0) (r_uuid x)
          (map (fun t => mkT (tsh t) (map (fun v => cast TBool (Z.land v (2 ^ Z.of_nat pos))) (tdat t))) (r_shares x)))
  else Err ValueError.

(* ------------------------------------------------------------------ *)
(** distribution and reconstruction *)

(** what a replicated session offers to the modelled operations: uuid, number of parties, ring
    size, encoder configuration, whether the protocol's security_type is "malicious", and
    rank_to_uuid (session.py:98-178, session_manager.py:47-61) *)
Record rsess := mkRS { rs_id : nat; rs_n : nat; rs_ring : Z; rs_cfg : config; rs_mal : bool; rs_uuid : nat -> nat }.

(** replicatedshare_tensor.py:880-925 (distribute_shares_to_party); indices past the end of the
    list of shares raise IndexError *)
Definition distribute_to (s : rsess) (shares : list tensor) (ring : Z) (c : config) (k : nat) : result rst :=
  let nshares := (rs_n s - 1)%nat in
  do ps <- rmap (fun i => get_nth shares ((k + i) mod (nshares + 1))%nat) (seq 0 nshares);
  Ok (rst_make ring c (Some (rs_uuid s k)) ps).

(** replicatedshare_tensor.py:927-968 (distribute_shares): with a wrong number of shares a
    ValueError object is returned, not raised *)
Inductive distributed := Sent (ps : list rst) | ErrorObject (e : exn).
Definition rst_distribute (s : rsess) (shares : list tensor) (ring : option Z) (c : option config) : result distributed :=
  if negb (Nat.eqb (length shares) (rs_n s)) then Ok (ErrorObject ValueError)
  else
    let ring := match ring with None => rs_ring s | Some r => r end in
    let c := match c with None => rs_cfg s | Some c => c end in
    do ps <- rmap (distribute_to s shares ring c) (seq 0 (rs_n s));
    Ok (Sent ps).

(** the MPCTensor constructor applied to the value returned (mpc_tensor.py:193): the error object
    cannot be indexed *)
Definition received (d : distributed) : result (list rst) :=
  match d with Sent ps => Ok ps | ErrorObject _ => Err TypeError end.

(** replicatedshare_tensor.py:726-742 (shares_sum) *)
Definition shares_sum (ring : Z) (ts : list tensor) : result tensor := tsum ring ts.

(** replicatedshare_tensor.py:765-795 (__reconstruct_semi_honest) *)
Definition reconstruct_sh (ps : list rst) : result tensor :=
  do p0 <- get_nth ps 0;
  do p1 <- get_nth ps 1;
  do s0 <- get_nth (r_shares p0) 0;
  shares_sum (r_ring p0) (s0 :: r_shares p1).

(** (a != b).any() *)
Definition tdiffer (a b : tensor) : result bool :=
  do d <- tbin (fun u v => if u =? v then 0 else 1) a b;
  Ok (existsb (fun v => negb (v =? 0)) (tdat d)).

(** replicatedshare_tensor.py:797-845 (__reconstruct_malicious): the loop over the ranks;
    [value] is the first party's reconstruction *)
Fixpoint reconstruct_loop (ring : Z) (ps : list rst) (ranks : list nat) (value : option tensor) : result tensor :=
  match ranks with
  | [] => match value with Some v => Ok v | None => Err ValueError end
  | k :: r =>
      do p <- get_nth ps k;
      do q <- get_nth ps ((k + 1) mod length ps)%nat;
      do s0 <- get_nth (r_shares p) 0;
      do t <- shares_sum ring (s0 :: r_shares q);
      match value with
      | None => reconstruct_loop ring ps r (Some t)
      | Some v => do b <- tdiffer t v; if (b : bool) then Err ValueError else reconstruct_loop ring ps r value
      end
  end.
Definition reconstruct_mal (ps : list rst) : result tensor :=
  do p0 <- get_nth ps 0;
  reconstruct_loop (r_ring p0) ps (seq 0 (length ps)) None.

(** replicatedshare_tensor.py:847-878 (reconstruct); the security type is one of the two *)
Definition rst_reconstruct (malicious : bool) (ps : list rst) : result tensor :=
  match ps with
  | [] => Err ValueError
  | _ => if malicious then reconstruct_mal ps else reconstruct_sh ps
  end.

(* ------------------------------------------------------------------ *)
(** MPCTensors made of replicated shares *)

(** mpc_tensor.py:74-111: session uuid, shape attribute, the objects of the parties by rank *)
Record rmpc := mkRM { rm_sid : nat; rm_shape : list nat; rm_ps : list rst }.

(** mpc_tensor.py:359-393 (reconstruct, decode=False) *)
Definition rm_reconstruct (s : rsess) (x : rmpc) : result tensor := rst_reconstruct (rs_mal s) (rm_ps x).

(** the ring size and configuration read from the first pointer (falcon.py:112-114,
    mpc_tensor.py:816-818) *)
Definition first_ring (x : rmpc) : result (Z * config) :=
  do p <- get_nth (rm_ps x) 0; Ok (r_ring p, r_cfg p).

(** mpc_tensor.py:654-717, 827-862: add and sub of two shared tensors *)
Definition rm_lin (o : linop) (x y : rmpc) : result rmpc :=
  if negb (Nat.eqb (rm_sid x) (rm_sid y)) then Err ValueError
  else
    do ps <- rmap (fun p => rst_lin o (fst p) (snd p)) (combine (rm_ps x) (rm_ps y));
    do so <- shape_bin (rm_shape x) (rm_shape y);
    Ok (mkRM (rm_sid x) so ps).

(** the operation run at every party, with its rank *)
Definition at_parties (s : rsess) (f : pctx -> rst -> result rst) (ps : list rst) : result (list rst) :=
  rmap (fun p => f (mkPC (Z.of_nat (fst p)) (rs_n s)) (snd p)) (combine (seq 0 (length ps)) ps).

(** mpc_tensor.py:719-755, 827-862: add, sub and xor with a public value, at every party *)
Definition rm_lin_public (s : rsess) (o : linop) (x : rmpc) (y : pub) : result rmpc :=
  do ps <- at_parties s (fun c p => rst_lin_public c o p y) (rm_ps x);
  do so <- shape_bin (rm_shape x) (pub_shape y);
  Ok (mkRM (rm_sid x) so ps).
Definition rm_xor_public (s : rsess) (x : rmpc) (y : pub) : result rmpc :=
  do ps <- at_parties s (fun c p => rst_xor_public c p y) (rm_ps x);
  do so <- shape_bin (rm_shape x) (pub_shape y);
  Ok (mkRM (rm_sid x) so ps).

(** aby3.py:71-102 (truncation_algorithm1); [rnd] is the tensor drawn in line 90 (of the
    shape attribute).  Shifts by more bits than the type has are undefined in torch; here
    they give 0 or -1. *)
Definition trunc_elt (c : config) (v : Z) : Z :=
  if c_base c =? 2 then Z.shiftr v (Z.of_nat (c_prec c)) else Z.quot v (scale c).
Definition truncation_algorithm1 (s : rsess) (ptrs : list tensor) (ring : Z) (c : config) (rnd : tensor) : result (list rst) :=
  match ptrs with
  | [x1; x2; x3] =>
      if negb (c_base c =? 2) && (scale c =? 0) then Err ZeroDivision else
      let x1t := mkT (tsh x1) (map (trunc_elt c) (tdat x1)) in
      do x23 <- tbin (plain_op ring Z.add) x2 x3;
      let xt := mkT (tsh x23) (map (trunc_elt c) (tdat x23)) in
      do xr <- tbin (plain_op ring Z.sub) xt rnd;
      do d <- rst_distribute s [x1t; xr; rnd] (Some ring) (Some c);
      received d
  | _ => Err ValueError
  end.

(** the two kinds of pointers ABY3.truncate distinguishes (aby3.py:130-158) *)
Inductive ptrs := PReplicated (ps : list rst) | PTensors (ts : list tensor).

(** aby3.py:105-163 (truncate) *)
Definition aby3_truncate (s : rsess) (x : ptrs) (shape : list nat) (ring : Z) (c : config) (rnd : tensor) : result rmpc :=
  if negb (Nat.eqb (rs_n s) 3) then Err ValueError
  else
    do ps <- match x with
      | PReplicated ps =>
          if (ring =? 2) || (ring =? PRIME) then Ok ps
          else
            do p0 <- get_nth ps 0;
            do s0 <- get_nth (r_shares p0) 0;
            do p1 <- get_nth ps 1;
            truncation_algorithm1 s (s0 :: r_shares p1) ring c rnd
      | PTensors ts =>
          if (ring =? 2) || (ring =? PRIME) then
            do d <- rst_distribute s ts (Some ring) (Some c); received d
          else truncation_algorithm1 s ts ring c rnd
      end;
    Ok (mkRM (rs_id s) shape ps).

(** mpc_tensor.py:719-755, 827-862 and 783-825: mul and matmul by a public value *)
Definition rm_bil_public (s : rsess) (op : bop) (x : rmpc) (y : pub) (rnd : tensor) : result rmpc :=
  do ps <- at_parties s (fun _ p => match op with
                                    | BMul => rst_mul_public p y
                                    | BMatmul => rst_matmul_public p y
                                    | _ => Err AttributeError end) (rm_ps x);
  do so <- shape_bil op (rm_shape x) (pub_shape y);
  do rc <- first_ring x;
  aby3_truncate s (PReplicated ps) so (fst rc) (snd rc) rnd.

(** mpc_tensor.py:441-450 (rsub) *)
Definition rm_rsub (s : rsess) (x : rmpc) (y : pub) (rnd : tensor) : result rmpc :=
  do d <- rm_lin_public s LSub x y;
  rm_bil_public s BMul d (PNum (NInt (-1))) rnd.

(** falcon.py:349-377 (compute_zvalue_and_add_mask); [mask] is the tensor of the party's zero
    share (session.py:219-260) *)
Definition compute_z (op : bop) (x y : rst) (mask : tensor) : result tensor :=
  do z <- multiplication_protocol op x y;
  do add <- get_op (r_ring x) OAdd;
  tbin add z mask.

(** falcon.py:161-168: at every party *)
Definition falcon_z (op : bop) (x y : rmpc) (masks : list tensor) : result (list tensor) :=
  rmap (fun p => compute_z op (fst (fst p)) (snd (fst p)) (snd p))
       (combine (combine (rm_ps x) (rm_ps y)) masks).

(** falcon.py:246-269 (falcon_mask) *)
Definition falcon_mask (x y a b : rst) : result (rst * rst) :=
  do e <- rst_lin LSub x a;
  do d <- rst_lin LSub y b;
  Ok (e, d).

(** falcon.py:185-243 (triple_verification) at the party of rank [rank] *)
Definition triple_verification (rank : nat) (op : bop) (z a b c : rst) (eps delta : tensor) : result rst :=
  let ring := r_ring z in
  do o <- opname_of op;
  do _ <- get_op ring o;
  do eps_delta <- tbil ring op eps delta;
  do b0 <- get_nth (r_shares b) 0;
  do eb0 <- tbil ring op eps b0;
  do a0 <- get_nth (r_shares a) 0;
  do da0 <- tbil ring op a0 delta;
  do b1 <- get_nth (r_shares b) 1;
  do eb1 <- tbil ring op eps b1;
  do a1 <- get_nth (r_shares a) 1;
  do da1 <- tbil ring op a1 delta;
  let eps_b := rst_like b (set_nth 1 eb1 (set_nth 0 eb0 (r_shares b))) in
  let delta_a := rst_like a (set_nth 1 da1 (set_nth 0 da0 (r_shares a))) in
  do cd <- rst_lin LAdd c delta_a;
  do r <- rst_lin LAdd cd eps_b;
  do r' <- (if Nat.eqb rank 0 then
              do s <- get_nth (r_shares r) 0; do s' <- shares_sum ring [s; eps_delta];
              Ok (mkR (r_ring r) (r_cfg r) (r_uuid r) (set_nth 0 s' (r_shares r)))
            else if Nat.eqb rank 2 then
              do s <- get_nth (r_shares r) 1; do s' <- shares_sum ring [s; eps_delta];
              Ok (mkR (r_ring r) (r_cfg r) (r_uuid r) (set_nth 1 s' (r_shares r)))
            else Ok r);
  rst_lin LSub z r'.

(** a triple: the objects a, b, c of every party *)
Record rtriple := mkRT { rt_a : list rst; rt_b : list rst; rt_c : list rst }.

(** falcon.py:178-182 with reshare=True: the local products become a replicated sharing *)
Definition falcon_reshare (s : rsess) (zs : list tensor) (ring : Z) (c : config) (shape : list nat) : result rmpc :=
  do d <- rst_distribute s zs (Some ring) (Some c);
  do ps <- received d;
  Ok (mkRM (rs_id s) shape ps).

(** falcon.py:302-346: the verification of the re-shared product [z] (mul_malicious after
    mul_semi_honest); the triple is the one in the parties' stores.  eps and delta are opened
    without the malicious check (reconstruct's default). *)
Definition falcon_verify (s : rsess) (op : bop) (x y z : rmpc) (t : rtriple) : result rmpc :=
  do masks <- rmap (fun p => falcon_mask (fst (fst p)) (snd (fst p)) (fst (snd p)) (snd (snd p)))
                   (combine (combine (rm_ps x) (rm_ps y)) (combine (rt_a t) (rt_b t)));
  do eps <- rst_reconstruct false (map fst masks);
  do delta <- rst_reconstruct false (map snd masks);
  do vs <- rmap (fun p => triple_verification (fst p) op (fst (snd p)) (fst (fst (snd (snd p)))) (snd (fst (snd (snd p))))
                            (snd (snd (snd p))) eps delta)
                (combine (seq 0 (length (rm_ps z))) (combine (rm_ps z) (combine (combine (rt_a t) (rt_b t)) (rt_c t))));
  do w <- rst_reconstruct (rs_mal s) vs;
  if forallb (fun v => v =? 0) (tdat w) then Ok z else Err ValueError.

(** the randomness of one multiplication: the zero shares of the parties, the tensor drawn by
    the truncation, and the triple (malicious case) *)
Record mulsup := mkSup { su_mask : list tensor; su_rand : tensor; su_tri : rtriple }.

(** falcon.py:86-131 (mul_master) with mul_semi_honest 134-182 and mul_malicious 272-346; the
    checks of mpc_tensor.py:673-679 come first.  The session of [y] is that of [x]. *)
Definition rm_bil (s : rsess) (op : bop) (x y : rmpc) (u : mulsup) : result rmpc :=
  if negb (Nat.eqb (rm_sid x) (rm_sid y)) then Err ValueError
  else match opname_of op with
  | Err e => Err e
  | Ok _ =>
    if negb (Nat.eqb (rs_n s) 3) then Err ValueError
    else
      do rc <- first_ring x;
      do zs <- falcon_z op x y (su_mask u);
      do so <- shape_bil op (rm_shape x) (rm_shape y);
      if rs_mal s then
        do z <- falcon_reshare s zs (fst rc) (snd rc) so;
        do z' <- falcon_verify s op x y z (su_tri u);
        aby3_truncate s (PReplicated (rm_ps z')) so (fst rc) (snd rc) (su_rand u)
      else aby3_truncate s (PTensors zs) so (fst rc) (snd rc) (su_rand u)
  end.

(** beaver.py:104-140: a triple made of the random sharings [a], [b] (session.py:262-303) and
    their product; line 139 refuses it only if every element of c is wrong *)
Definition rep_triples (s : rsess) (op : bop) (a b : rmpc) (ring : Z) (masks : list tensor) : result rtriple :=
  do zs <- falcon_z op a b masks;
  do so <- shape_bil op (rm_shape a) (rm_shape b);
  do c <- falcon_reshare s zs ring (mkConfig 2 0) so;
  do va <- reconstruct_sh (rm_ps a);
  do vb <- reconstruct_sh (rm_ps b);
  do vc <- reconstruct_sh (rm_ps c);
  do o <- opname_of op;
  do _ <- get_op ring o;
  do ab <- tbil ring op va vb;
  do d <- tbin (fun u v => if u =? v then 0 else 1) vc ab;
  if forallb (fun v => negb (v =? 0)) (tdat d) then Err ValueError
  else Ok (mkRT (rm_ps a) (rm_ps b) (rm_ps c)).
