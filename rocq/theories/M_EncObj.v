(** Model of encoder objects: /repo/src/sympc/encoder/fp_encoder.py.  M_Encoder.v describes an
    encoder by its base and precision; here the object keeps the scale it has computed, and python
    ints that do not fit 64 bits are refused by torch. *)
From Coq Require Import QArith.
From Verif Require Import Util M_Torch M_Encoder.
Local Open Scope Z_scope.

(** fp_encoder.py:34 (slots) *)
Record fpe := mkFpe { fe_precision : nat; fe_base : Z; fe_scale : Z }.

(** fp_encoder.py:36-45 (__init__).  Simplification: the precision is not negative (a negative one
    gives a float scale). *)
Definition fpe_new (base : Z) (precision : nat) : fpe := mkFpe precision base (base ^ Z.of_nat precision).

(** torch: a python int used with a tensor is unpacked into 64 bits (RuntimeError: overflow) *)
Definition unpack (k : Z) : result Z :=
  if ((- 2^63 <=? k) && (k <? 2^63))%bool then Ok k else Err RuntimeError.

(** fp_encoder.py:47-62 (encode); elements as in M_Encoder.encode1 *)
Definition fpe_encode (e : fpe) (vs : list num) : result (list Z) :=
  do s <- unpack (fe_scale e);
  Ok (map (fun v => match v with
                    | NInt z => cast TI64 (z * s)
                    | NFloat q => flong (q * inject_Z s)
                    end) vs).

(** fp_encoder.py:83-91 on one element.  Simplification: the float32 rounding of the last line is
    not modelled. *)
Definition fpe_decode1 (s t : Z) : Q :=
  let correction := if t <? 0 then 1 else 0 in
  let dividend := Z.quot t s - correction in
  let remainder := t mod s in
  let remainder := remainder + (if remainder =? 0 then 1 else 0) * s * correction in
  (inject_Z dividend + inject_Z remainder / inject_Z s)%Q.

(** fp_encoder.py:64-92 (decode); torch raises (RuntimeError) when an integer is divided by 0 *)
Definition fpe_decode (e : fpe) (t : ttensor) : result ttensor :=
  match t with
  | TFloat _ => Err ValueError
  | TLong l =>
      if Nat.eqb (fe_precision e) 0 then Ok (TLong l)
      else do s <- unpack (fe_scale e);
           match l with
           | _ :: _ => if s =? 0 then Err RuntimeError else Ok (TFloat (map (fpe_decode1 s) l))
           | [] => Ok (TFloat [])
           end
  end.

(** fp_encoder.py:103-107 (precision.setter), 118-122 (base.setter) *)
Definition fpe_set_precision (e : fpe) (p : nat) : fpe := mkFpe p (fe_base e) (fe_base e ^ Z.of_nat p).
Definition fpe_set_base (e : fpe) (b : Z) : fpe := mkFpe (fe_precision e) b (b ^ Z.of_nat (fe_precision e)).

(** an assignment to one of the two attributes (the setters above, fp_encoder.py:103-122) *)
Inductive assignment := AsgBase (b : Z) | AsgPrecision (p : nat).
Definition fpe_assign (e : fpe) (a : assignment) : fpe :=
  match a with AsgBase b => fpe_set_base e b | AsgPrecision p => fpe_set_precision e p end.
