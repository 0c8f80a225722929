(** Model of the SPDZ protocol: /repo/src/sympc/protocol/spdz/spdz.py, the triple and wrap
    generators of /repo/src/sympc/protocol/beaver/beaver.py, count_wraps of
    /repo/src/sympc/utils/mpc_utils.py and the products and divisions of
    /repo/src/sympc/tensor/mpc_tensor.py, for additively shared tensors in the ring 2^64.
    The primitives a party takes from its store are arguments here; the stores are modelled
    in M_Store.v. *)
From Coq Require Import QArith.
From Verif Require Import Util S_Ring S_Tensor M_Torch M_Encoder M_Float M_Tensor M_Share.
Local Open Scope Z_scope.

(** the three shares (a_k, b_k, c_k) one party takes from its store (spdz.py:120, 150) *)
Definition triple : Type := tensor * tensor * tensor.
Definition tr_a (t : triple) : tensor := fst (fst t).
Definition tr_b (t : triple) : tensor := snd (fst t).
Definition tr_c (t : triple) : tensor := snd t.

(** zip of the shares of a, b, c (beaver.py:163) *)
Definition zip3 (a b c : list tensor) : list triple := combine (combine a b) c.

(** beaver.py:79-103 and 163 (_get_triples for additive shares): [a], [b] are the values
    drawn in lines 80 and 90, [ra], [rb], [rc] the draws of the three generate_shares *)
Definition get_triples (op : bop) (n : nat) (a b : tensor) (ra rb rc : list (list Z))
  : result (list triple) :=
  do sa <- generate_shares n a ra;
  do sb <- generate_shares n b rb;
  do c <- tbil R64 op a b;
  do sc <- generate_shares n c rc;
  Ok (zip3 sa sb sc).

(** spdz.py:99-122 (spdz_mask) *)
Definition spdz_mask (x y : tensor) (t : triple) : result (tensor * tensor) :=
  do e <- sh_lin LSub x (tr_a t);
  do d <- sh_lin LSub y (tr_b t);
  Ok (e, d).

(** torch in-place addition: the result must have the shape of the left operand *)
Definition tiadd (a b : tensor) : result tensor :=
  do r <- tbin (radd R64) a b;
  if list_eq_dec Nat.eq_dec (tsh r) (tsh a) then Ok r else Err RuntimeError.

(** spdz.py:140-166 (mul_parties up to the rescaling) *)
Definition mul_parties_raw (op : bop) (rank : nat) (eps delta : tensor) (t : triple) : result tensor :=
  do eps_b <- tbil R64 op eps (tr_b t);
  do delta_a <- tbil R64 op (tr_a t) delta;
  do s1 <- tbin (radd R64) (tr_c t) eps_b;
  do s2 <- tbin (radd R64) s1 delta_a;
  if Nat.eqb rank 0 then
    do eps_delta <- tbil R64 op eps delta; tiadd s2 eps_delta
  else Ok s2.

(** spdz.py:125-178 (mul_parties): with two parties every share is divided by the scale *)
Definition mul_parties (s : sess) (op : bop) (rank : nat) (eps delta : tensor) (t : triple)
  : result tensor :=
  do r <- mul_parties_raw op rank eps delta t;
  if Nat.eqb (s_n s) 2 then sh_div r (scale (s_cfg s)) else Ok r.

(** spdz.py:60-84: the masked operands, opened *)
Definition open_masks (x y : mpc) (ts : list triple) : result (tensor * tensor) :=
  do masks <- rmap (fun p => spdz_mask (fst (fst p)) (snd (fst p)) (snd p))
                   (combine (combine (m_shares x) (m_shares y)) ts);
  do eps <- tsum R64 (map fst masks);
  do delta <- tsum R64 (map snd masks);
  Ok (eps, delta).

(** spdz.py:36-96 (mul_master) given the triples; [party] is what each party computes *)
Definition run_mul (party : nat -> tensor -> tensor -> triple -> result tensor)
  (x y : mpc) (ts : list triple) : result (list tensor) :=
  do ed <- open_masks x y ts;
  rmap (fun p => party (fst p) (fst ed) (snd ed) (snd p)) (combine (seq 0 (length ts)) ts).
Definition mul_master (s : sess) (op : bop) (x y : mpc) (ts : list triple) : result (list tensor) :=
  run_mul (mul_parties s op) x y ts.

(** mpc_utils.py:23-49 (count_wraps) on one element *)
Definition wrap_step (st : Z * Z) (cur : Z) : Z * Z :=
  let (prev, res) := st in
  let next := radd R64 cur prev in
  let res := if (prev <? 0) && (cur <? 0) && (0 <? next) then res - 1 else res in
  let res := if (0 <? prev) && (0 <? cur) && (next <? 0) then res + 1 else res in
  (next, res).
Definition count_wraps1 (l : list Z) : Z :=
  match l with [] => 0 | x :: r => snd (fold_left wrap_step r (x, 0)) end.

(** mpc_utils.py:23-49 on tensors; simplification: tensors of different shapes are refused
    instead of broadcast *)
Definition count_wraps (ts : list tensor) : result tensor :=
  match ts with
  | [] => Err IndexError
  | t :: r =>
      if forallb (fun u => if list_eq_dec Nat.eq_dec (tsh u) (tsh t) then true else false) r then
        Ok (mkT (tsh t) (map (fun e => count_wraps1 (map (fun u => nth e (tdat u) 0) ts))
                             (seq 0 (numel (tsh t)))))
      else Err RuntimeError
  end.

(** beaver.py:504-548 (count_wraps_rand): shares of a random value [r] and of the number of
    wraps of these shares; returned as the list of pairs of the parties *)
Definition count_wraps_rand (n : nat) (r : tensor) (rr rt : list (list Z))
  : result (list tensor * list tensor) :=
  do rs <- generate_shares n r rr;
  do w <- count_wraps rs;
  do ths <- generate_shares n w rt;
  Ok (rs, ths).

(** spdz.py:234-276 (div_wraps): the party's share of theta_x, and the new contents of
    x_share.tensor, which line 274 divides IN PLACE.  [y] is a python int (a tensor [y] is
    not modelled). *)
Definition div_wraps (rank : nat) (r theta_r x : tensor) (zs : list tensor) (y : Z)
  : result (tensor * tensor) :=
  do beta <- count_wraps [x; r];
  do th <- tbin (rsub R64) beta theta_r;
  do th' <- (if Nat.eqb rank 0 then do tz <- count_wraps zs; tiadd th tz else Ok th);
  do x' <- sh_div x y;
  Ok (th', x').

(** spdz.py:224-226 on one element: theta (decoded with the session's configuration)
    times 4 times ((2^64 // 4) // y), encoded again as the public operand of "sub".
    Without decoding (precision 0) this is int64 arithmetic, otherwise float32. *)
Definition theta_corr (c : config) (y theta : Z) : Z :=
  let k := (R64 / 4) / y in
  if Nat.eqb (c_prec c) 0 then encode1 c (NInt (cast TI64 (cast TI64 (theta * 4) * k)))
  else encode1_f32 c (fmul (fmul (decode1_f32 c theta) 4%Q) (ffloat k)).

(** spdz.py:181-228 (public_divide) with the primitives [prim] (r shares, theta_r shares);
    returns the result and the shares of the operand [x] afterwards *)
Definition public_divide (s : sess) (x : mpc) (y : Z) (prim : list tensor * list tensor)
  : result (mpc * list tensor) :=
  if Nat.eqb (s_n s) 2 then
    do shs <- rmap (fun t => sh_div t y) (m_shares x);
    Ok (mkM (m_sid x) (m_shape x) shs, m_shares x)
  else
    do z <- mpc_lin LAdd (mkM (s_id s) (m_shape x) (fst prim)) x;
    do rs <- rmap (fun p => div_wraps (fst p) (fst (fst (snd p))) (snd (fst (snd p)))
                                      (snd (snd p)) (m_shares z) y)
                  (combine (seq 0 (length (m_shares x)))
                           (combine (combine (fst prim) (snd prim)) (m_shares x)));
    do theta <- tsum R64 (map fst rs);
    let xs' := map snd rs in
    do x0 <- get_nth xs' 0;
    do s0 <- sh_lin LSub x0 (mkT (tsh theta) (map (theta_corr (s_cfg s) y) (tdat theta)));
    do so <- shape_bin (m_shape x) (tsh theta);
    Ok (mkM (m_sid x) so (set_nth 0 s0 xs'), xs').

(** mpc_tensor.py:757-781 (_get_shape) for the bilinear operations *)
Definition shape_bil (op : bop) (sa sb : list nat) : result (list nat) :=
  match bil_index op sa sb with Some (so, _) => Ok so | None => Err RuntimeError end.
(** the operation called without its keyword arguments (mpc_tensor.py:687) *)
Definition no_kwargs (op : bop) : bop :=
  match op with BConv2d _ => BConv2d conv_default | BConvT _ => BConvT conv_default | _ => op end.

(** mpc_tensor.py:783-825 (truncate) for additive shares: division by the scale, except for
    private operations of two parties, which mul_parties has rescaled *)
Definition truncate (s : sess) (private : bool) (x : mpc) (prim : list tensor * list tensor)
  : result mpc :=
  if negb private || Nat.ltb 2 (s_n s) then
    do r <- public_divide s x (scale (s_cfg s)) prim; Ok (fst r)
  else Ok x.

(** mpc_tensor.py:654-717 and 827-862: mul, matmul, conv2d, conv_transpose2d of two shared
    tensors; line 687 computes a shape without the keyword arguments first *)
Definition mpc_bil (s : sess) (op : bop) (x y : mpc) (ts : list triple)
  (prim : list tensor * list tensor) : result mpc :=
  if negb (Nat.eqb (m_sid x) (m_sid y)) then Err ValueError
  else
    do shs <- mul_master s op x y ts;
    do so' <- shape_bil (no_kwargs op) (m_shape x) (m_shape y);
    do so <- shape_bil op (m_shape x) (m_shape y);
    truncate s true (mkM (m_sid x) so shs) prim.

(** mpc_tensor.py:719-755 and 827-862: mul, matmul with a public value; convolutions are not
    available (operator has no conv2d: AttributeError) *)
Definition mpc_bil_public (s : sess) (op : bop) (x : mpc) (y : pub)
  (prim : list tensor * list tensor) : result mpc :=
  match op with
  | BMul | BMatmul =>
      do shs <- rmap (fun t => sh_bil op t (share_init (s_cfg s) y)) (m_shares x);
      do so <- shape_bil op (m_shape x) (pub_shape y);
      truncate s false (mkM (m_sid x) so shs) prim
  | _ => Err AttributeError
  end.

(** mpc_tensor.py:441-450 (rsub): (self - y) * -1 *)
Definition mpc_rsub (s : sess) (x : mpc) (y : pub) (prim : list tensor * list tensor) : result mpc :=
  do d <- mpc_lin_public s LSub x y;
  mpc_bil_public s BMul d (PNum (NInt (-1))) prim.

(** mpc_tensor.py:552-577 (rmatmul): y @ self *)
Definition mpc_rmatmul (s : sess) (x : mpc) (y : pub) (prim : list tensor * list tensor) : result mpc :=
  do shs <- rmap (fun t => sh_bil BMatmul (share_init (s_cfg s) y) t) (m_shares x);
  do so <- shape_bil BMatmul (pub_shape y) (m_shape x);
  do r <- public_divide s (mkM (m_sid x) so shs) (scale (s_cfg s)) prim;
  Ok (fst r).

(** mpc_tensor.py:591-619 (truediv) by a public integer *)
Definition mpc_truediv (s : sess) (x : mpc) (y : Z) (prim : list tensor * list tensor) : result mpc :=
  do r <- public_divide s x y prim; Ok (fst r).

(** mpc_tensor.py:621-652 (pow) for a positive exponent, the loop following its binary
    digits; product number [k] of the computation uses the triples [tri k] and the masks
    [msk k]; [acc] is the result so far (None for the initial int 1) *)
Fixpoint pow_loop (s : sess) (p : positive) (base : mpc) (acc : option mpc) (k : nat)
  (tri : nat -> list triple) (msk : nat -> list tensor * list tensor) : result mpc :=
  let step := match acc with
              | None => mpc_bil_public s BMul base (PNum (NInt 1)) (msk k)
              | Some r => mpc_bil s BMul r base (tri k) (msk k)
              end in
  match p with
  | xH => do r <- step; do _ <- mpc_bil s BMul base base (tri (S k)) (msk (S k)); Ok r
  | xO p => do b <- mpc_bil s BMul base base (tri k) (msk k); pow_loop s p b acc (S k) tri msk
  | xI p => do r <- step;
            do b <- mpc_bil s BMul base base (tri (S k)) (msk (S k));
            pow_loop s p b (Some r) (S (S k)) tri msk
  end.

(** mpc_tensor.py:621-652 (pow); [inr] is the python int 1 returned for exponent 0 *)
Definition mpc_pow (s : sess) (x : mpc) (power : Z)
  (tri : nat -> list triple) (msk : nat -> list tensor * list tensor) : result (mpc + Z) :=
  match power with
  | Zneg _ => Err RuntimeError
  | Z0 => Ok (inr 1)
  | Zpos p => do r <- pow_loop s p x None 0 tri msk; Ok (inl r)
  end.
