(** Specification: how far the result of a division may be from the exact quotient, and
    the random masks a division among three or more parties needs. *)
From Verif Require Import Util S_Ring S_Tensor S_Wraps.
Local Open Scope Z_scope.

(** [q] is the quotient of [v] by [y] up to [err] (compared after multiplying by [y]) *)
Definition quot_within (y v q err : Z) : Prop := Z.abs (y * q - v) <= err.

(** configurations and divisors for which the wrap correction is computed without rounding:
    no decoding (precision 0), or base 2 and a power of two as divisor *)
Definition exact_correction (base : Z) (prec n : nat) (y : Z) : Prop :=
  prec = 0%nat \/
  (base = 2 /\ (prec <= 24)%nat /\ Z.of_nat n < 2^24 /\
   exists p, 0 <= p <= 62 /\ y = 2^p /\ Z.of_nat n + 1 < 2^p).

(** [rs] is a sharing of random masks and [ths] one of the numbers of wraps of [rs]; adding
    the masks to the values [vx], shared as [xs], wraps for no element; no share of a mask
    or of a masked value is the smallest integer (which the wrap counter miscounts) *)
Definition good_masks (n : nat) (sh : list nat) (vx : list Z) (xs rs ths : list tensor) : Prop :=
  length rs = n /\ length ths = n /\
  exists vr, shared (2^64) sh vr rs /\
    shared (2^64) sh (map (fun e => wraps (col e rs)) (seq 0 (numel sh))) ths /\
    (forall e, (e < numel sh)%nat -> - 2^63 <= nth e vx 0 + nth e vr 0 < 2^63) /\
    (forall t, In t rs -> Forall (fun v => v <> - 2^63) (tdat t)) /\
    (forall k e, (k < n)%nat -> (e < numel sh)%nat ->
       to_ring (2^64) (nth e (tdat (nth k rs (mkT [] []))) 0 + nth e (tdat (nth k xs (mkT [] []))) 0) <> - 2^63).

(** when dividing the values [vx], shared as [xs], by [y] gives an accurate result: two
    parties and shares that add up without wrapping, or more parties and good masks *)
Definition divisible (base : Z) (prec n : nat) (sh : list nat) (vx : list Z) (xs : list tensor) (y : Z)
  (rs ths : list tensor) : Prop :=
  (n = 2%nat /\ forall e, (e < numel sh)%nat -> zsum (col e xs) = nth e vx 0) \/
  ((3 <= n)%nat /\ Z.of_nat n < 2^60 /\ exact_correction base prec n y /\ good_masks n sh vx xs rs ths).

(** masks of the right number and shape (nothing else) *)
Definition any_masks (n : nat) (sh : list nat) (rs ths : list tensor) : Prop :=
  n = 2%nat \/ ((3 <= n)%nat /\ Z.of_nat n < 2^60 /\ length rs = n /\ length ths = n /\
    Forall (tensor_in (2^64) sh) rs /\ Forall (tensor_in (2^64) sh) ths).

(** the shares [ts], each element multiplied by [- sc] (what "public minus shared" divides) *)
Definition neg_scaled (sc : Z) (sh : list nat) (ts : list tensor) : list tensor :=
  map (fun t => mkT sh (map (fun v => to_ring (2^64) (v * to_ring (2^64) (- sc))) (tdat t))) ts.
