(** What single precision means, stated without the model of its operations. *)
From Coq Require Import QArith Qabs Qpower ZArith.
Local Open Scope Q_scope.

(** a number of at most 24 significant bits (no bound on the exponent) *)
Definition single (q : Q) : Prop :=
  exists (m e : Z), (Z.abs m < 2^24)%Z /\ q == inject_Z m * 2 ^ e.

(** [n] is [x] cut toward zero *)
Definition cut_toward_zero (x : Q) (n : Z) : Prop :=
  Qabs (inject_Z n) <= Qabs x /\ Qabs x < Qabs (inject_Z n) + 1 /\ 0 <= inject_Z n * x.

(** [y] is [x] up to the fraction [eps] of [x] *)
Definition within (eps x y : Q) : Prop := Qabs (y - x) <= eps * Qabs x.

(** [r] is [q] rounded to nearest even: zero stays zero; otherwise [t] is the unit in the last of
    24 places of [q], [r] is a multiple of it at most half a unit away, an even one if [q] is
    half-way between two *)
Definition nearest_even (q r : Q) : Prop :=
  (q == 0 -> r == 0) /\
  (~ q == 0 -> exists (t : Q) (e m : Z), t == 2 ^ e /\
     inject_Z (2^23) * t <= Qabs q /\ Qabs q < inject_Z (2^24) * t /\
     r == inject_Z m * t /\ Qabs (q - r) <= (1 # 2) * t /\
     (Qabs (q - r) == (1 # 2) * t -> Z.even m = true)).
