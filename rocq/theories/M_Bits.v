(** utils/mpc_utils.py: number of bits of a ring and binary decomposition of a tensor.
    decompose is exported by sympc.utils but not used by the protocols (ABY3 decomposes
    with bit masks, see M_Aby3). *)
From Coq Require Import QArith.
From Verif Require Import Util S_Ring S_Tensor M_Torch M_Encoder M_Float.
Local Open Scope Z_scope.

(** mpc_utils.py:113-123 (get_nr_bits): python's int.bit_length of ring_size - 1 *)
Definition get_nr_bits (ring : Z) : Z := if ring - 1 =? 0 then 0 else Z.log2 (Z.abs (ring - 1)) + 1.

(** torch.fmod of floats (exact; the sign is that of the dividend) *)
Definition fmod (x y : Q) : Q := (x - y * inject_Z (Qtrunc (x / y)))%Q.

(** mpc_utils.py:151-152 on one element [x] and one power [k], in a ring of dtype [d]:
    moduli = 2 ** powers (integer power, with wrap-around), tensor / moduli is the true
    division of torch >= 1.7 (both operands become float32), .to() truncates *)
Definition decompose1 (d : dtype) (x : Z) (k : nat) : Z :=
  let m := cast d (2 ^ Z.of_nat k) in
  cast d (flong (fmod (fdiv (ffloat x) (ffloat m)) 2)).

(** mpc_utils.py:126-153 (decompose) with the default shape: the digits of an element are the
    last dimension of the result; torch.arange does not exist for bool (RuntimeError) *)
Definition decompose (ring : Z) (t : tensor) : result tensor :=
  do d <- get_type_from_ring ring;
  let nb := Z.to_nat (get_nr_bits ring) in
  match d with
  | TBool => Err RuntimeError
  | _ => Ok (mkT (tsh t ++ [nb]) (flat_map (fun x => map (decompose1 d x) (seq 0 nb)) (tdat t)))
  end.
