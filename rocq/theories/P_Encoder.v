(** Properties C01, C02: fixed-point encoding.
    Specification used: the rational number t / base^precision, Q's order and distance. *)
From Coq Require Import QArith Qabs.
From Verif Require Import Util M_Torch M_Encoder L_Encoder.
Local Open Scope Z_scope.

(** C01: decoding is division by the scale (a float tensor is refused, precision 0
    leaves the tensor alone). *)
Theorem C01_decode_is_division : forall c, 1 <= c_base c ->
  (forall ts, c_prec c = 0%nat -> decode c (TLong ts) = Ok (TLong ts)) /\
  (forall ts, c_prec c <> 0%nat -> exists qs, decode c (TLong ts) = Ok (TFloat qs) /\
     Forall2 (fun q t => q == inject_Z t / inject_Z (c_base c ^ Z.of_nat (c_prec c)))%Q qs ts) /\
  (forall fs, decode c (TFloat fs) = Err ValueError).
Proof. exact decode_is_division. Qed.
Print Assumptions C01_decode_is_division.

Example C01_witness : 1 <= c_base (mkConfig 10 2) /\ c_prec (mkConfig 10 2) <> 0%nat /\
  match decode (mkConfig 10 2) (TLong [-150; -200; 7; 0]) with
  | Ok (TFloat [a; b; c; d]) => (a == -3#2 /\ b == -2 /\ c == 7#100 /\ d == 0)%Q
  | _ => False
  end.
Proof. vm_compute. repeat split; discriminate. Qed.

(** C02: encoding then decoding truncates toward zero by less than 1/scale and is exact
    on the multiples of 1/scale, for every tensor whose scaled values fit in 64 bits.
    Missing from the full statement: larger values (refuted below). *)
Theorem C02_encode_decode_error_partial : forall c vs, 1 <= c_base c -> c_prec c <> 0%nat ->
  Forall (fun v => inject_Z (- 2^63) <= v * inject_Z (c_base c ^ Z.of_nat (c_prec c)) /\
                   v * inject_Z (c_base c ^ Z.of_nat (c_prec c)) < inject_Z (2^63))%Q vs ->
  exists qs, decode c (TLong (encode c (map NFloat vs))) = Ok (TFloat qs) /\
  Forall2 (fun q v => (Qabs (q - v) < 1 / inject_Z (c_base c ^ Z.of_nat (c_prec c)))%Q /\
     (0 <= v -> 0 <= q <= v)%Q /\ (v <= 0 -> v <= q <= 0)%Q /\
     (forall k, v == inject_Z k / inject_Z (c_base c ^ Z.of_nat (c_prec c)) -> q == v)%Q) qs vs.
Proof. exact encode_decode_bound. Qed.
Print Assumptions C02_encode_decode_error_partial.

Example C02_witness :
  Forall (fun v => inject_Z (- 2^63) <= v * inject_Z (2 ^ 16) /\
                   v * inject_Z (2 ^ 16) < inject_Z (2^63))%Q [(-5#3); (31#10); (-2)]%Q /\
  decode default_config (TLong (encode default_config (map NFloat [(-5#3); (-2)]%Q))) =
  Ok (TFloat [(inject_Z (-2) + inject_Z 21846 / inject_Z 65536);
              (inject_Z (-3) + inject_Z 65536 / inject_Z 65536)]%Q).
Proof.
  split; [|vm_compute; reflexivity].
  repeat (apply Forall_cons || apply Forall_nil); unfold Qle, Qlt, inject_Z; simpl; lia.
Qed.

(** The 64-bit bound in C02 cannot be dropped: an integer secret too large for the
    precision is silently encoded as something else (2^48 becomes 0 by default). *)
Theorem C02_large_integer_refuted :
  exists z, decode default_config (TLong (encode default_config [NInt z])) <>
            Ok (TFloat [inject_Z z]) /\ encode default_config [NInt z] = [0] /\ 0 < z.
Proof. exact encode_int_overflow. Qed.
Print Assumptions C02_large_integer_refuted.
