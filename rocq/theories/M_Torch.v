(** Model of the torch integer-tensor operations SyMPC relies on (torch<=1.8.1, see
    /repo/setup.cfg:33) and of the ring-dependent operations SyMPC builds from them.
    A tensor is a flat row-major [list Z]; shapes are handled separately. *)
From Verif Require Import Util S_Ring S_Tensor.
Local Open Scope Z_scope.

(** two's complement wrap-around to [w] bits (torch integer arithmetic, not repo code) *)
Definition wrap (w z : Z) : Z := (z + 2^(w-1)) mod 2^w - 2^(w-1).

(** torch dtypes used by SyMPC: /repo/src/sympc/utils/mpc_utils.py:13-20 *)
Inductive dtype := TBool | TU8 | TI8 | TI16 | TI32 | TI64.

Definition dtype_eqb (a b : dtype) : bool :=
  match a, b with
  | TBool, TBool | TU8, TU8 | TI8, TI8 | TI16, TI16 | TI32, TI32 | TI64, TI64 => true
  | _, _ => false
  end.

(** [tensor.to(dtype)] on one element (torch; bool conversion is "non-zero") *)
Definition cast (d : dtype) (z : Z) : Z :=
  match d with
  | TBool => if z =? 0 then 0 else 1
  | TU8 => z mod 2^8
  | TI8 => wrap 8 z
  | TI16 => wrap 16 z
  | TI32 => wrap 32 z
  | TI64 => wrap 64 z
  end.

(** /repo/src/sympc/utils/mpc_utils.py:13-20 and 52-68 (get_type_from_ring) *)
Definition get_type_from_ring (ring : Z) : result dtype :=
  if ring =? 2 then Ok TBool
  else if ring =? 2^8 then Ok TI8
  else if ring =? 67 then Ok TU8
  else if ring =? 2^16 then Ok TI16
  else if ring =? 2^32 then Ok TI32
  else if ring =? 2^64 then Ok TI64
  else Err ValueError.

(** /repo/src/sympc/tensor/replicatedshare_tensor.py:38 *)
Definition PRIME : Z := 67.

(** /repo/src/sympc/tensor/replicatedshare_tensor.py:167-186, one element; the dtype
    check is [modprime_t] *)
Definition addmodprime (x y : Z) : Z := cast TU8 (x + y) mod PRIME.

(** replicatedshare_tensor.py:188-213: both operands cast to int8 first *)
Definition submodprime (x y : Z) : Z :=
  cast TU8 (cast TI8 (cast TI8 x - cast TI8 y) mod PRIME).

(** replicatedshare_tensor.py:215-240: both operands cast to int16 first *)
Definition mulmodprime (x y : Z) : Z :=
  cast TU8 (cast TI16 (cast TI16 x * cast TI16 y) mod PRIME).

(** the guard shared by the three functions: lines 181-184, 202-205, 229-232 *)
Definition modprime_t (f : Z -> Z -> Z) (dx dy : dtype) (x y : list Z) : result (list Z) :=
  if dtype_eqb dx TU8 && dtype_eqb dy TU8 then Ok (map2 f x y) else Err ValueError.

(** python operator on one element of two tensors of the ring's dtype *)
Definition plain_op (ring : Z) (f : Z -> Z -> Z) (x y : Z) : Z :=
  match get_type_from_ring ring with Ok d => cast d (f x y) | Err _ => f x y end.

(** replicatedshare_tensor.py:36 (BINARY_MAP) and 242-266 (get_op) on one element:
    bits use xor/and, the prime field the modprime functions, the others the plain
    operator with the wrap-around of the tensor type. *)
Definition radd (ring x y : Z) : Z :=
  if ring =? 2 then Z.lxor x y
  else if ring =? PRIME then addmodprime x y
  else plain_op ring Z.add x y.
Definition rsub (ring x y : Z) : Z :=
  if ring =? 2 then Z.lxor x y
  else if ring =? PRIME then submodprime x y
  else plain_op ring Z.sub x y.
Definition rmul (ring x y : Z) : Z :=
  if ring =? 2 then Z.land x y
  else if ring =? PRIME then mulmodprime x y
  else plain_op ring Z.mul x y.

(** operation names used with get_op *)
Inductive opname := OAdd | OSub | OMul | OMatmul.

(** replicatedshare_tensor.py:242-266 with its error cases: "matmul" is not a key of
    BINARY_MAP (KeyError), ReplicatedSharedTensor has no matmulmodprime
    (AttributeError); an unknown ring size is a ValueError.  For matmul in a
    power-of-two ring only availability is reported (see [rbil]). *)
Definition get_op (ring : Z) (o : opname) : result (Z -> Z -> Z) :=
  if ring =? 2 then
    match o with OAdd => Ok (radd ring) | OSub => Ok (rsub ring) | OMul => Ok (rmul ring)
               | OMatmul => Err KeyError end
  else if ring =? PRIME then
    match o with OAdd => Ok (radd ring) | OSub => Ok (rsub ring) | OMul => Ok (rmul ring)
               | OMatmul => Err AttributeError end
  else match get_type_from_ring ring with
       | Ok _ => match o with OAdd => Ok (radd ring) | OSub => Ok (rsub ring)
                            | OMul | OMatmul => Ok (rmul ring) end
       | Err _ => Err ValueError
       end.

(** element-wise operations on tensors of one shape *)
Definition vadd (ring : Z) (x y : list Z) : list Z := map2 (radd ring) x y.
Definition vsub (ring : Z) (x y : list Z) : list Z := map2 (rsub ring) x y.
Definition vmul (ring : Z) (x y : list Z) : list Z := map2 (rmul ring) x y.

(** ring sum of one or more elements: python [reduce(op, l)], and [sum(l)] whose
    leading "0 +" leaves the first tensor unchanged
    (replicatedshare_tensor.py:726-742, share_tensor.py:538) *)
Definition rsum (ring : Z) (l : list Z) : Z :=
  match l with [] => 0 | x :: r => fold_left (radd ring) r x end.

(** the same on tensors *)
Definition vsum (ring : Z) (ts : list (list Z)) : list Z :=
  match ts with [] => [] | x :: r => fold_left (vadd ring) r x end.

(** linear tensor operations: each output element is the sum of some input elements;
    covers the forwarded methods t, T, transpose, view, reshape, flatten, expand,
    repeat, narrow, roll, squeeze, unsqueeze, clone and sum
    (share_tensor.py:83-100, mpc_tensor.py METHODS_FORWARD) *)
Definition rlin (ring : Z) (ix : list (list nat)) (x : list Z) : list Z :=
  map (fun is => rsum ring (map (fun i => nth i x 0) is)) ix.

(** bilinear tensor operations: mul with broadcasting, matmul, conv2d, conv_transpose2d *)
Definition rbil (ring : Z) (ix : list (list (nat * nat))) (x y : list Z) : list Z :=
  map (fun ps => rsum ring (map (fun p => rmul ring (nth (fst p) x 0) (nth (snd p) y 0)) ps)) ix.

(* ------------------------------------------------------------------ *)
(** shapes *)

(** torch broadcasting of two shapes (right aligned), on reversed shapes *)
Fixpoint bcast_rev (a b : list nat) : option (list nat) :=
  match a, b with
  | [], s => Some s
  | s, [] => Some s
  | x :: a', y :: b' =>
      match bcast_rev a' b' with
      | None => None
      | Some r => if Nat.eqb x y then Some (x :: r)
                  else if Nat.eqb x 1 then Some (y :: r)
                  else if Nat.eqb y 1 then Some (x :: r)
                  else None
      end
  end.
Definition bcast (a b : list nat) : option (list nat) :=
  option_map (@rev nat) (bcast_rev (rev a) (rev b)).

(** prepend ones up to [n] dimensions *)
Definition pad_shape (n : nat) (s : list nat) : list nat := repeat 1%nat (n - length s) ++ s.

(** flat input index of every element of the broadcast output (row-major) *)
Fixpoint bidx (so sa : list nat) : list nat :=
  match so, sa with
  | o :: so', a :: sa' =>
      let sub := bidx so' sa' in
      let blk := numel sa' in
      flat_map (fun i => map (fun k => ((if Nat.eqb a 1 then 0 else i) * blk + k)%nat) sub)
               (seq 0 o)
  | _, _ => [0%nat]
  end.
Definition bcast_idx (so sa : list nat) : list nat := bidx so (pad_shape (length so) sa).

(** expand a tensor of shape [sa] to shape [so] *)
Definition gather (ix : list nat) (x : list Z) : list Z := map (fun i => nth i x 0) ix.
Definition expand (so sa : list nat) (x : list Z) : list Z := gather (bcast_idx so sa) x.

(** index lists of the bilinear operations: element-wise product with broadcasting *)
Definition ix_mul (sa sb : list nat) : option (list (list (nat * nat))) :=
  match bcast sa sb with
  | None => None
  | Some so => Some (map (fun p => [p]) (combine (bcast_idx so sa) (bcast_idx so sb)))
  end.

(** matrix product of shapes (m,k) and (k,n) *)
Definition ix_matmul (m k n : nat) : list (list (nat * nat)) :=
  flat_map (fun r => map (fun c => map (fun t => (r * k + t, t * n + c)%nat) (seq 0 k)) (seq 0 n))
           (seq 0 m).
