(** Specification: the real numbers as an engine (the operators without rounding), and the
    Chebyshev polynomials. *)
From Coq Require Import QArith Reals Qreals.
From Verif Require Import Util M_Encoder M_Share M_Fss M_Engine.
Local Open Scope R_scope.

(** the real number denoted by a python number *)
Definition num_R (c : num) : R := match c with NInt z => IZR z | NFloat q => Q2R q end.

(** 1 if the relation holds, else 0 *)
Definition rel_R (r : relop) (a b : R) : R :=
  match r with
  | RLe => if Rle_dec a b then 1 else 0
  | RLt => if Rlt_dec a b then 1 else 0
  | RGe => if Rle_dec b a then 1 else 0
  | RGt => if Rlt_dec b a then 1 else 0
  | REq => if Req_EM_T a b then 1 else 0
  | RNe => if Req_EM_T a b then 0 else 1
  end.

Definition lin_R (o : linop) (a b : R) : R := match o with LAdd => a + b | LSub => a - b end.

Definition real_engine : engine unit R := mkE unit R
  (fun o x y => cret (lin_R o x y))
  (fun x y => cret (x * y))
  (fun o x c => cret (lin_R o x (num_R c)))
  (fun c x => cret (num_R c - x))
  (fun x c => cret (x * num_R c))
  (fun x k => cret (x / IZR k))
  (fun x p => cret (x ^ Pos.to_nat p))
  (fun r x y => cret (rel_R r x y))
  (fun r x c => cret (rel_R r x (num_R c))).

(** the computation returns [v] *)
Definition gives {A} (m : comp unit A) (v : A) : Prop := m tt = (Ok v, tt).

(** Chebyshev polynomials of the first kind *)
Fixpoint cheb2 (n : nat) (x : R) : R * R :=
  match n with O => (1, x) | S n => let (a, b) := cheb2 n x in (b, 2 * x * b - a) end.
Definition cheb (n : nat) (x : R) : R := fst (cheb2 n x).

(** the sign of a real number *)
Definition sgn_R (x : R) : R := if Rlt_dec 0 x then 1 else if Rlt_dec x 0 then -1 else 0.

(** (1 + x / 2^k) ^ (2^k) *)
Definition limexp (k : nat) (x : R) : R := (1 + x / 2 ^ k) ^ (2 ^ k).

(** the initial guess for 1 / a *)
Definition guess (a : R) : R := 3 * limexp 8 (1 / 2 - a) + 3 / 1000.
