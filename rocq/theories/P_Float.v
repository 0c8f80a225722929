(** C63: the encoder in single precision. *)
From Coq Require Import QArith Qabs.
From Verif Require Import Util M_Encoder M_Float S_Float L_Float L_Float2.
Local Open Scope Z_scope.

(** Rounding, as the model of torch does it: the result has 24 significant bits and is
    within half a unit in the last place.  (Sanity of M_Float, used by all that follows.) *)
Theorem C63_rounding q : single (f32 q) /\ within (1 # 2^24) q (f32 q).
Proof. split; [apply f32_single | apply f32_err]. Qed.
Print Assumptions C63_rounding.
Example C63_rounding_witness : (f32 (7 # 10) == 11744051 # 16777216)%Q /\ ~ (f32 (7 # 10) == 7 # 10)%Q.
Proof. split; [vm_compute; reflexivity|]. intros H. vm_compute in H. discriminate. Qed.

(** ... and of the numbers of 24 bits around the exact one it is the nearest, the even one when two
    are equally near *)
Theorem C63_ties q : nearest_even q (f32 q).
Proof. apply f32_nearest. Qed.
Print Assumptions C63_ties.
Example C63_ties_witness : (* half-way: 2^24 + 1 goes down, 2^24 + 3 up *)
  (f32 (inject_Z (2^24 + 1)) == inject_Z (2^24))%Q /\ (f32 (inject_Z (2^24 + 3)) == inject_Z (2^24 + 4))%Q /\
  (f32 (- inject_Z (2^24 + 3)) == - inject_Z (2^24 + 4))%Q.
Proof. repeat split; vm_compute; reflexivity. Qed.

(** In base 2, whatever the precision, encoding a float32 number cuts its scaled value toward
    zero; the machine adds no error of its own. *)
Theorem C63_encode p v : single v ->
  (- inject_Z (2^63) <= v * inject_Z (2 ^ Z.of_nat p))%Q ->
  (v * inject_Z (2 ^ Z.of_nat p) < inject_Z (2^63))%Q ->
  cut_toward_zero (v * inject_Z (2 ^ Z.of_nat p)) (encode1_f32 (mkConfig 2 p) v).
Proof. apply encode1_f32_single. Qed.
Print Assumptions C63_encode.
Example C63_encode_witness :
  let v := (-11744051 # 16777216)%Q in
  single v /\ (- inject_Z (2^63) <= v * inject_Z (2^16))%Q /\ (v * inject_Z (2^16) < inject_Z (2^63))%Q /\
  encode1_f32 (mkConfig 2 16) v = -45875.
Proof.
  split; [exists (-11744051), (-24); split; [reflexivity|vm_compute; reflexivity]|].
  split; [vm_compute; discriminate|]. split; [reflexivity|]. vm_compute. reflexivity.
Qed.

(** Decoding with a power of two of at most 24 bits is within 2^-22 of the quotient,
    relative to it, for every number. *)
Theorem C63_decode p t : (p <= 24)%nat ->
  within (1 # 2^22) (inject_Z t / inject_Z (2 ^ Z.of_nat p)) (decode1_f32 (mkConfig 2 p) t).
Proof. apply decode1_f32_err. Qed.
Print Assumptions C63_decode.
Example C63_decode_witness :
  (decode1_f32 (mkConfig 2 16) (- 2^40 - 77777) == -16777218)%Q /\
  (decode1_f32 (mkConfig 2 24) (-5) == -5 # 16777216)%Q.
Proof. split; vm_compute; reflexivity. Qed.

(** Numbers below 2^24 - 1 in magnitude survive being decoded and encoded again. *)
Theorem C63_round_trip p t : (p <= 24)%nat -> Z.abs t < 2^24 - 1 ->
  (decode1_f32 (mkConfig 2 p) t == inject_Z t / inject_Z (2 ^ Z.of_nat p))%Q /\
  encode1_f32 (mkConfig 2 p) (decode1_f32 (mkConfig 2 p) t) = t.
Proof. intros Hp Ht. split; [apply decode1_f32_exact | apply round_trip_f32]; auto. Qed.
Print Assumptions C63_round_trip.
Example C63_round_trip_witness :
  encode1_f32 (mkConfig 2 24) (decode1_f32 (mkConfig 2 24) (-12345677)) = -12345677.
Proof. vm_compute. reflexivity. Qed.

(** Beyond 2^24 they need not. *)
Theorem C63_round_trip_refuted : exists t, - 2^63 <= t < 2^63 /\
  encode1_f32 (mkConfig 2 16) (decode1_f32 (mkConfig 2 16) t) <> t.
Proof. exists (2^24 + 1). split; [lia|]. vm_compute. discriminate. Qed.
Print Assumptions C63_round_trip_refuted.

(** With a precision of 25 the smallest negative number decodes to zero, although the
    smallest positive one is exact. *)
Theorem C63_precision_refuted : exists p t, t <> 0 /\
  (decode1_f32 (mkConfig 2 p) t == 0)%Q /\
  (decode1_f32 (mkConfig 2 p) (- t) == inject_Z (- t) / inject_Z (2 ^ Z.of_nat p))%Q.
Proof.
  exists 25%nat, (-1). split; [lia|]. split; vm_compute; reflexivity.
Qed.
Print Assumptions C63_precision_refuted.

(** In base 10 the product is rounded before it is cut: the float32 number next below 7/10
    is encoded as 7, larger than its scaled value. *)
Theorem C63_base10_refuted : exists p v, single v /\
  (0 < v * inject_Z (10 ^ Z.of_nat p) < inject_Z (encode1_f32 (mkConfig 10 p) v))%Q.
Proof.
  exists 1%nat, (11744051 # 16777216)%Q.
  split; [exists 11744051, (-24); split; [reflexivity|vm_compute; reflexivity]|].
  split; vm_compute; reflexivity.
Qed.
Print Assumptions C63_base10_refuted.
