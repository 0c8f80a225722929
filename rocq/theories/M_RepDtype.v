(** Sharing, addition and reconstruction in replicated sessions (protocol Falcon) whose ring is not
    2^64, with the torch dtypes of the shares (see M_Dtype.v for additive sessions): the secret is
    encoded as int64, the random shares have the dtype of the session's ring.
    Simplification: the operands have one common shape, which is left out. *)
From Verif Require Import Util S_Ring S_Tensor M_Torch M_Share M_Dtype.
Local Open Scope Z_scope.

(** replicatedshare_tensor.py:167-186 (addmodprime): both tensors must be uint8, whose sum wraps
    modulo 256 before the remainder is taken *)
Definition d_addmodprime (a b : dten) : result dten :=
  if dtype_eqb (fst a) TU8 && dtype_eqb (fst b) TU8
  then Ok (TU8, map2 (fun x y => cast TU8 (x + y) mod PRIME) (snd a) (snd b)) else Err ValueError.

(** torch a ^ b of two tensors of equal dimension *)
Definition d_xor (a b : dten) : dten :=
  let d := promote (fst a) (fst b) in (d, map2 (fun x y => cast d (Z.lxor x y)) (snd a) (snd b)).

(** replicatedshare_tensor.py:726-742 (shares_sum): reduce with xor, reduce with addmodprime, or
    python's sum; reduce of no tensors raises TypeError *)
Fixpoint d_reduce (f : dten -> dten -> result dten) (acc : dten) (l : list dten) : result dten :=
  match l with [] => Ok acc | a :: r => do x <- f acc a; d_reduce f x r end.
Definition d_shares_sum (ring : Z) (l : list dten) : result dten :=
  match l with
  | [] => if (ring =? 2) || (ring =? PRIME) then Err TypeError else Ok (TI64, [])
  | a :: r => if ring =? 2 then d_reduce (fun x y => Ok (d_xor x y)) a r
              else if ring =? PRIME then d_reduce d_addmodprime a r
              else Ok (d_reconstruct (a :: r))
  end.

(** mpc_tensor.py:131-196 with replicatedshare_tensor.py:874-961: the shares of M_Dtype.d_share,
    party k holding the shares k, ..., k + n - 2 modulo n *)
Definition d_view (shs : list dten) (k : nat) : list dten :=
  map (fun i => nth ((k + i) mod length shs) shs (TI64, [])) (seq 0 (length shs - 1)).
Definition rd_share (ring : Z) (v : list Z) (rs : list (list Z)) : result (list (list dten)) :=
  do shs <- d_share ring v rs; Ok (map (d_view shs) (seq 0 (length shs))).

(** replicatedshare_tensor.py:242-266 (get_op) and 356-391 (add of two share objects), at every
    party *)
Definition d_op_add (ring : Z) (a b : dten) : result dten :=
  if ring =? 2 then Ok (d_xor a b) else if ring =? PRIME then d_addmodprime a b else Ok (dadd a b).
Definition rd_add (ring : Z) (x y : list (list dten)) : result (list (list dten)) :=
  rmap (fun p => rmap (fun q => d_op_add ring (fst q) (snd q)) (combine (fst p) (snd p))) (combine x y).

(** replicatedshare_tensor.py:764-795 (semi-honest): the first share of party 0 and the shares of
    party 1 *)
Definition rd_reconstruct_sh (ring : Z) (x : list (list dten)) : result dten :=
  do p0 <- get_nth x 0; do p1 <- get_nth x 1; do a <- get_nth p0 0;
  d_shares_sum ring (a :: p1).

(** (tensor != value).any() of two tensors of one shape *)
Definition d_differ (a b : dten) : bool := existsb (fun p => negb (fst p =? snd p)) (combine (snd a) (snd b)).

(** replicatedshare_tensor.py:797-838 (malicious): every party and its successor, all results equal *)
Fixpoint rd_loop (ring : Z) (x : list (list dten)) (ranks : list nat) (value : option dten) : result (option dten) :=
  match ranks with
  | [] => Ok value
  | k :: r =>
      do p <- get_nth x k; do q <- get_nth x ((k + 1) mod length x)%nat; do a <- get_nth p 0;
      do t <- d_shares_sum ring (a :: q);
      match value with
      | None => rd_loop ring x r (Some t)
      | Some v => if d_differ t v then Err ValueError else rd_loop ring x r value
      end
  end.
(** replicatedshare_tensor.py:840-872 (reconstruct) *)
Definition rd_reconstruct (mal : bool) (ring : Z) (x : list (list dten)) : result dten :=
  match x with
  | [] => Err ValueError
  | _ => if mal then do v <- rd_loop ring x (seq 0 (length x)) None;
                     match v with Some t => Ok t | None => Err ValueError end
         else rd_reconstruct_sh ring x
  end.
