(** Specification of the relational operators and of a correct function-secret-sharing backend. *)
From Coq Require Import String.
From Verif Require Import Util S_Ring M_Encoder M_Store M_Fss.
Local Open Scope Z_scope.

(** the 32-bit word of [z] read as a signed number *)
Definition signed32 (z : Z) : Z := (z + 2^31) mod 2^32 - 2^31.

(** 1 or 0 *)
Definition b2z (b : bool) : Z := if b then 1 else 0.

(** what the two functions of a backend test of the unmasked word *)
Definition test (o : fop) (d : Z) : bool :=
  match o with FEq => d =? 0 | FComp => d <=? 0 end.

(** a correct pair of keys: the mask shares are unsigned words, and on every masked word the
    two parties' results add up modulo 2^32 to the test of the unmasked word *)
Definition keys_ok {K} (alpha : K -> Z) (ev : fop -> Z -> Z -> K -> Z) (o : fop) (k0 k1 : K) : Prop :=
  0 <= alpha k0 < 2^32 /\ 0 <= alpha k1 < 2^32 /\
  forall x, 0 <= x < 2^32 ->
    (ev o 0 x k0 + ev o 1 x k1) mod 2^32 = b2z (test o (signed32 (x - alpha k0 - alpha k1))) mod 2^32.

(** the word of party 0 is not one of the two lowest ones *)
Definition no_carry {K} (ev : fop -> Z -> Z -> K -> Z) (o : fop) (k0 : K) : Prop :=
  forall x, 0 <= x < 2^32 -> - 2^31 + 1 < signed32 (ev o 0 x k0).

(** a generator of correct keys for two parties *)
Definition good_gen {K} (P : fop -> K -> K -> Prop) (gen : fop -> nat -> nat -> result (list (list K))) : Prop :=
  forall o i nr, exists k0 k1, gen o i nr = Ok [k0; k1] /\ length k0 = nr /\ length k1 = nr /\
    Forall2 (P o) k0 k1.

(** no keys are left over in the stores of the two parties *)
Definition none_waiting {K} (w : fworld K) : Prop :=
  exists s0 s1, w_stores w = [s0; s1] /\
    forall o st, st = s0 \/ st = s1 ->
      dget st (fkey o) = None \/ dget st (fkey o) = Some [] \/ dget st (fkey o) = Some [[]].

(** the six relations *)
Inductive rel := Rle | Rlt | Rge | Rgt | Req | Rne.
Definition relates (r : rel) (a b : Z) : bool :=
  match r with
  | Rle => a <=? b | Rlt => a <? b | Rge => b <=? a | Rgt => b <? a
  | Req => a =? b | Rne => negb (a =? b)
  end.

(** the relation the code decides: the difference is taken as a signed 32-bit word *)
Definition relates32 (r : rel) (a b : Z) : bool :=
  match r with
  | Rle => signed32 (a - b) <=? 0
  | Rlt => signed32 (a + 1 - b) <=? 0
  | Rge => signed32 (b - a) <=? 0
  | Rgt => signed32 (b + 1 - a) <=? 0
  | Req => signed32 (a - b) =? 0
  | Rne => negb (signed32 (a - b) =? 0)
  end.

(** the model's name for a relation *)
Definition rop_of (r : rel) : relop :=
  match r with Rle => RLe | Rlt => RLt | Rge => RGe | Rgt => RGt | Req => REq | Rne => RNe end.

(** the encoders and shapes each operator works for *)
Definition rel_fits (r : rel) (c : config) (sx sy : list nat) : Prop :=
  match r with
  | Rle | Rge | Req => True
  | Rlt => 1 <= c_base c /\ sx <> []
  | Rgt => 1 <= c_base c /\ sy <> []
  | Rne => c_base c = 2 /\ (c_prec c <= 16)%nat /\ (sx <> [] \/ sy <> [])
  end.
