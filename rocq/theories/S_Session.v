(** Specification: what is assumed of the random generators, and synchronisation. *)
From Verif Require Import Util S_Ring S_Tensor M_Torch M_Session.
Local Open Scope Z_scope.

(** values of a torch integer type *)
Definition dtype_range (d : dtype) (v : Z) : Prop :=
  match d with
  | TBool => 0 <= v < 2
  | TU8 => 0 <= v < 2^8
  | TI8 => - 2^7 <= v < 2^7
  | TI16 => - 2^15 <= v < 2^15
  | TI32 => - 2^31 <= v < 2^31
  | TI64 => - 2^63 <= v < 2^63
  end.

(** [random_] fills the requested number of elements with values of the type, below the
    bound if one is given *)
Definition prng_ok (g : prng) : Prop :=
  forall st d m k,
    length (fst (pg_draw g st d m k)) = k /\
    Forall (fun v => match m with Some b => 0 < b -> 0 <= v < b | None => dtype_range d v end)
           (fst (pg_draw g st d m k)).

(** every party's second generator is in the state of the next party's first one *)
Definition synchronised {g} (ps : list (psess g)) : Prop :=
  forall k a, nth_error ps k = Some a ->
    exists b g1 g2 g3, nth_error ps (Nat.modulo (S k) (length ps)) = Some b /\
      ps_gens g a = Some (g1, g2) /\ ps_gens g b = Some (g2, g3).

(** a concrete generator for the examples: a linear congruential one *)
Definition toy_fit (d : dtype) (m : option Z) (s : Z) : Z :=
  match m with
  | Some b => s mod b
  | None => match d with
            | TBool => s mod 2
            | TU8 => s mod 2^8
            | TI8 => s mod 2^8 - 2^7
            | TI16 => s mod 2^16 - 2^15
            | TI32 => s mod 2^32 - 2^31
            | TI64 => s mod 2^64 - 2^63
            end
  end.
Fixpoint toy_draw (d : dtype) (m : option Z) (k : nat) (s : Z) : list Z * Z :=
  match k with
  | O => ([], s)
  | S k' => let s' := (s * 6364136223846793005 + 1442695040888963407) mod 2^64 in
            let (v, s'') := toy_draw d m k' s' in (toy_fit d m (s' / 2^7) :: v, s'')
  end.
Definition toy_prng : prng := mkPrng Z (fun s => s) (fun s d m k => toy_draw d m k s).
