(** The operators of MPCTensor that the algorithms of /repo/src/sympc/approximations,
    /repo/src/sympc/algorithms and /repo/src/sympc/module/nn/functional.py are written with,
    as a record, so that an algorithm is modelled once and can be read over the shared tensors
    ([mpc_engine] below) or over other numbers.  Every operator takes and returns the state of
    the computation: primitives, keys and randomness not used yet. *)
From Coq Require Import QArith String.
From Verif Require Import Util S_Ring S_Tensor M_Torch M_Encoder M_Tensor M_Share M_Spdz M_Store M_Fss.
Local Open Scope Z_scope.
Local Open Scope list_scope.

(** a step of a computation with state [W]; python exceptions stop it *)
Definition comp (W A : Type) : Type := W -> result A * W.
Definition cret {W A} (a : A) : comp W A := fun w => (Ok a, w).
Definition cerr {W A} (e : exn) : comp W A := fun w => (Err e, w).
Definition cbind {W A B} (m : comp W A) (k : A -> comp W B) : comp W B :=
  fun w => match m w with (Ok a, w') => k a w' | (Err e, w') => (Err e, w') end.
Notation "'let!' x := m 'in' k" := (cbind m (fun x => k)) (at level 200, x pattern, right associativity).

Record engine (W T : Type) := mkE {
  e_lin : linop -> T -> T -> comp W T;          (* x + y, x - y *)
  e_mul : T -> T -> comp W T;                   (* x * y *)
  e_linp : linop -> T -> num -> comp W T;       (* x + c, c + x, x - c *)
  e_rsub : num -> T -> comp W T;                (* c - x *)
  e_mulp : T -> num -> comp W T;                (* x * c, c * x *)
  e_div : T -> Z -> comp W T;                   (* x / k for an int k *)
  e_pow : T -> positive -> comp W T;            (* x ** k *)
  e_rel : relop -> T -> T -> comp W T;          (* x <= y, ... *)
  e_relp : relop -> T -> num -> comp W T        (* x <= c, ... *)
}.
Arguments e_lin {W T}. Arguments e_mul {W T}. Arguments e_linp {W T}. Arguments e_rsub {W T}.
Arguments e_mulp {W T}. Arguments e_div {W T}. Arguments e_pow {W T}. Arguments e_rel {W T}. Arguments e_relp {W T}.

(** the shared tensors of a session of two parties under the FSS protocol (mpc_tensor.py:406-652
    and 1069-1155).  Request number [k] of a triple for a product of the shapes is answered with
    [su_tri k], the randomness drawn to share a public number with [su_rnd k]. *)
Record tri_supply := mkSup { su_tri : nat -> list nat -> list nat -> list triple; su_rnd : nat -> list (list Z) }.

Section Mpc.
  Context {K : Type} (alpha : K -> Z) (ev : fop -> Z -> Z -> K -> Z)
          (gen : fop -> nat -> nat -> result (list (list K))) (s : sess) (su : tri_supply).
  Definition mpcw : Type := fworld K * nat.

  Definition lift {A} (r : result A) : comp mpcw A := fun w => (r, w).
  (** the number of the next request *)
  Definition tick : comp mpcw nat := fun w => (Ok (snd w), (fst w, S (snd w))).

  Definition m_mul (x y : mpc) : comp mpcw mpc :=
    let! k := tick in lift (mpc_bil s BMul x y (su_tri su k (m_shape x) (m_shape y)) ([], [])).
  Definition m_rel (r : relop) (x y : mpc) : comp mpcw mpc :=
    fun w => let (z, f) := mpc_rel alpha ev gen s r x y ([], []) (fst w) in (z, (f, snd w)).

  (** mpc_tensor.py:621-652 (pow), as [pow_loop] but with one triple per product *)
  Fixpoint m_pow (p : positive) (base : mpc) (acc : option mpc) : comp mpcw mpc :=
    let step := match acc with
                | None => lift (mpc_bil_public s BMul base (PNum (NInt 1)) ([], []))
                | Some r => m_mul r base
                end in
    match p with
    | xH => let! r := step in let! _ := m_mul base base in cret r
    | xO p => let! b := m_mul base base in m_pow p b acc
    | xI p => let! r := step in let! b := m_mul base base in m_pow p b (Some r)
    end.

  Definition mpc_engine : engine mpcw mpc := mkE mpcw mpc
    (fun o x y => lift (mpc_lin o x y))
    m_mul
    (fun o x c => lift (mpc_lin_public s o x (PNum c)))
    (fun c x => lift (mpc_rsub s x (PNum c) ([], [])))
    (fun x c => lift (mpc_bil_public s BMul x (PNum c) ([], [])))
    (fun x k => lift (mpc_truediv s x k ([], [])))
    (fun x p => m_pow p x None)
    m_rel
    (fun r x c => let! k := tick in let! y := lift (check_or_convert s (inr (PNum c)) (su_rnd su k)) in m_rel r x y).
End Mpc.
