(** Model of float32 arithmetic as used on torch float tensors (not repo code): a float is
    the exact rational it denotes; the result of an operation is rounded to nearest even
    with 24 significant bits.  Exponent range (overflow, subnormals) is not modelled. *)
From Coq Require Import QArith Qabs.
From Verif Require Import Util M_Encoder.
Local Open Scope Z_scope.

(** n / d rounded to the nearest integer, ties to even (n >= 0, d > 0) *)
Definition rhe (n d : Z) : Z :=
  let q := n / d in
  let r := n mod d in
  match Z.compare (2 * r) d with
  | Lt => q
  | Gt => q + 1
  | Eq => if Z.even q then q else q + 1
  end.

(** |q| = a/d with a, d > 0, rounded to 24 bits; returned as (mantissa, exponent) *)
Definition f32_pos (a d : Z) : Z * Z :=
  let e0 := Z.log2 a - Z.log2 d in
  let below := if 0 <=? e0 then a <? d * 2^e0 else a * 2^(- e0) <? d in
  let u := (if below then e0 - 1 else e0) - 23 in
  (if 0 <=? u then rhe a (d * 2^u) else rhe (a * 2^(- u)) d, u).

(** round to float32 *)
Definition f32 (q : Q) : Q :=
  let a := Qnum q in
  let d := Zpos (Qden q) in
  if a =? 0 then 0%Q
  else
    let (m, u) := f32_pos (Z.abs a) d in
    let m := Z.sgn a * m in
    if 0 <=? u then inject_Z (m * 2^u) else Qmake m (Z.to_pos (2^(- u))).

(** float32 addition, multiplication, division and conversion of an int64 element *)
Definition fadd (x y : Q) : Q := f32 (x + y)%Q.
Definition fmul (x y : Q) : Q := f32 (x * y)%Q.
Definition fdiv (x y : Q) : Q := f32 (x / y)%Q.
Definition ffloat (z : Z) : Q := f32 (inject_Z z).

(** fp_encoder.py:86-91 with float32 rounding: dividend.float() + remainder.float()/scale *)
Definition decode1_f32 (c : config) (t : Z) : Q :=
  let s := scale c in
  let correction := if t <? 0 then 1 else 0 in
  let dividend := Z.quot t s - correction in
  let remainder := t mod s in
  let remainder := remainder + (if remainder =? 0 then 1 else 0) * s * correction in
  fadd (ffloat dividend) (fdiv (ffloat remainder) (ffloat s)).

(** fp_encoder.py:60 on a float tensor with float32 rounding: (value * scale).long() *)
Definition encode1_f32 (c : config) (v : Q) : Z := flong (fmul v (ffloat (scale c))).
