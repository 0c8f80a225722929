(** Model of /repo/src/sympc/encoder/fp_encoder.py and /repo/src/sympc/config/config.py *)
From Coq Require Import QArith.
From Verif Require Import Util M_Torch.
Local Open Scope Z_scope.

(** config/config.py:8-31 (Config); the encoder keeps the same two numbers,
    fp_encoder.py:36-45 *)
Record config := mkConfig { c_base : Z; c_prec : nat }.

(** config.py:20: the defaults *)
Definition default_config : config := mkConfig 2 16.
(** fp_encoder.py:45: scale = base ** precision *)
Definition scale (c : config) : Z := c_base c ^ Z.of_nat (c_prec c).

(** The numbers a user can encode: an element of an integer tensor, or of a floating
    one.  A floating element is taken as the exact rational it denotes. *)
Inductive num := NInt (z : Z) | NFloat (q : Q).

(** truncation of a rational toward zero (torch float -> integer conversion) *)
Definition Qtrunc (q : Q) : Z := Z.quot (Qnum q) (Zpos (Qden q)).

(** conversion of a float to int64; out of range is undefined behaviour in torch, x86
    returns the minimum: modelled as such *)
Definition flong (q : Q) : Z :=
  let t := Qtrunc q in
  if (- 2^63 <=? t) && (t <? 2^63) then t else - 2^63.

(** fp_encoder.py:47-62 on one element: [(value * scale).long()]; int64 tensors wrap.
    Simplification: the float32 rounding of the product is not modelled here (it is
    exact for base 2, the default, as long as the product is a finite float32). *)
Definition encode1 (c : config) (v : num) : Z :=
  match v with
  | NInt z => cast TI64 (z * scale c)
  | NFloat q => flong (q * inject_Z (scale c))
  end.

(** fp_encoder.py:47-62 *)
Definition encode (c : config) (vs : list num) : list Z := map (encode1 c) vs.

(** fp_encoder.py:84-91 on one element: quotient truncated toward zero (torch<=1.8.1),
    minus one for negative values, plus the patched remainder.
    Simplification: the float32 rounding of the last line is not modelled here. *)
Definition decode1 (c : config) (t : Z) : Q :=
  let s := scale c in
  let correction := if t <? 0 then 1 else 0 in
  let dividend := Z.quot t s - correction in
  let remainder := t mod s in
  let remainder := remainder + (if remainder =? 0 then 1 else 0) * s * correction in
  (inject_Z dividend + inject_Z remainder / inject_Z s)%Q.

(** tensors handed to or returned by decode *)
Inductive ttensor := TLong (l : list Z) | TFloat (l : list Q).

(** fp_encoder.py:64-92 *)
Definition decode (c : config) (t : ttensor) : result ttensor :=
  match t with
  | TFloat _ => Err ValueError
  | TLong l => if Nat.eqb (c_prec c) 0 then Ok (TLong l) else Ok (TFloat (map (decode1 c) l))
  end.

(** fp_encoder.py:103-107 and 118-122: the setters recompute the scale *)
Definition set_precision (c : config) (p : nat) : config := mkConfig (c_base c) p.
Definition set_base (c : config) (b : Z) : config := mkConfig b (c_prec c).
