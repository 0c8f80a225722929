(** Specification: tensors held by the parties of a session in replicated form. *)
From Coq Require Import QArith.
From Verif Require Import Util S_Ring S_Tensor S_Bil S_Rep M_Encoder M_Torch M_Share M_Rep.
Local Open Scope Z_scope.

(** bits and the prime field are never scaled *)
Definition unscaled (ring : Z) (c : config) : Prop := ring = 2 \/ ring = 67 -> c = mkConfig 1 0.

(** [x] is a tensor of session [s]: its parties, one for every rank, hold the views of one
    sharing of [v] (elements of the ring, shape [sh]); every party's object knows the ring, the
    party's session identifier and, where values are scaled, the configuration [c] *)
Definition holds (s : rsess) (ring : Z) (c : config) (sh : list nat) (v : list Z) (x : rmpc) : Prop :=
  rm_sid x = rs_id s /\ rm_shape x = sh /\ length (rm_ps x) = rs_n s /\
  replicated ring sh v (map r_shares (rm_ps x)) /\ unscaled ring c /\
  forall k p, nth_error (rm_ps x) k = Some p ->
    r_ring p = ring /\ (ring <> 2 -> ring <> 67 -> r_cfg p = c) /\ r_uuid p = Some (rs_uuid s k).

(** [w] are the ring elements meant by the public operand [y]: bits in the ring 2, residues
    in the ring 67 (integer operands only), fixed-point encodings in the others *)
Definition pub_in (ring : Z) (c : config) (y : pub) (w : list Z) : Prop :=
  (ring = 2 /\ pub_vals y = map NInt w /\ Forall (fun z => z = 0 \/ z = 1) w) \/
  (ring = 67 /\ exists zs, pub_vals y = map NInt zs /\ w = map (fun z => z mod 67) zs) \/
  (ring <> 2 /\ ring <> 67 /\ w = map (to_ring ring) (encode c (pub_vals y))).

(** the products the three-party protocol offers: element-wise in every ring, matrix products
    in the rings 2^k *)
Definition rep_op (ring : Z) (op : bspec) : Prop :=
  op = SMul \/ (op = SMatmul /\ ring <> 2 /\ ring <> 67).

(** division by the scale: rounding down for base 2, toward zero for the other bases *)
Definition scale_down (c : config) (v : Z) : Z :=
  if Z.eq_dec (c_base c) 2 then v / 2 ^ Z.of_nat (c_prec c) else Z.quot v (c_base c ^ Z.of_nat (c_prec c)).

(** the first share and the wrapped sum of the two others, divided separately *)
Definition trunc3 (ring : Z) (c : config) (so : list nat) (zs : list tensor) : list Z :=
  match zs with
  | [z1; z2; z3] =>
      map (fun e => to_ring ring (scale_down c (nth e (tdat z1) 0) +
                                  scale_down c (to_ring ring (nth e (tdat z2) 0 + nth e (tdat z3) 0))))
          (seq 0 (numel so))
  | _ => []
  end.

(** configurations that can divide: base 2, or a positive base *)
Definition cfg_ok (c : config) : Prop := 1 <= c_base c.

(** party [j] replaces the shares it holds by [ts] *)
Definition tampered (j : nat) (ts : list tensor) (ps : list rst) : list rst :=
  map (fun q => if Nat.eqb (fst q) j then mkR (r_ring (snd q)) (r_cfg (snd q)) (r_uuid (snd q)) ts else snd q)
      (combine (seq 0 (length ps)) ps).
