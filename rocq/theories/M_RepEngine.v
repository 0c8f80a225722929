(** The operators of MPCTensor in a session whose protocol is Falcon or ABY3 (replicated shares), as
    an [engine] (M_Engine.v), so that the algorithms of /repo/src/sympc/approximations and
    /repo/src/sympc/algorithms, modelled in M_Approx.v and M_Softmax.v, can be read in such a
    session. *)
From Coq Require Import QArith.
From Verif Require Import Util S_Ring S_Tensor M_Torch M_Encoder M_Tensor M_Share M_Spdz M_Fss M_Engine M_Approx M_Rep M_RepView.
Local Open Scope Z_scope.
Local Open Scope list_scope.

(** the protocols with replicated shares: falcon.py:34-39 and aby3.py:32-37 *)
Inductive rprot := PFalcon | PAby3.

(** mpc_tensor.py:131-198 and 280-357 (the constructor with a secret known by the orchestrator),
    falcon.py:55-66 and replicatedshare_tensor.py:921-961 (distribute_shares): the secret is encoded
    and split, and the pieces are replicated.  The class ABY3 (aby3.py:32-427) has no function
    distribute_shares, which line 194 asks for.  [rnd] are the draws of lines 338-345.
    Simplification: rings of 2^64 elements (the draws and the pieces are of type int64). *)
Definition rm_secret (pr : rprot) (s : rsess) (p : pub) (rnd : list (list Z)) : result rmpc :=
  if Nat.eqb (rs_n s) 0 then Err ValueError
  else
    let secret := share_init (rs_cfg s) p in
    do shs <- generate_shares (rs_n s) secret rnd;
    match pr with
    | PAby3 => Err AttributeError
    | PFalcon =>
        do d <- rst_distribute s shs None None;
        do ps <- received d;
        Ok (mkRM (rs_id s) (tsh secret) ps)
    end.

(** mpc_tensor.py:975-980 (__check_or_convert) *)
Definition rm_convert (pr : rprot) (s : rsess) (y : rmpc + pub) (rnd : list (list Z)) : result rmpc :=
  match y with inl y => Ok y | inr p => rm_secret pr s p rnd end.

(** mpc_tensor.py:1069-1155: the relational operators.  They ask the protocol of the session
    (session.py:180-186) for its function le or eq; FSS has them (fss.py:204-229), the classes of
    falcon.py:34-555 and aby3.py:32-427 do not: AttributeError.  Python looks the function up before it
    evaluates the arguments, so "lt" does not come to its sum; "gt" computes its sum in a line of its
    own before (1129).  [ne] (1145-1155) calls [eq]. *)
Definition rm_rel (pr : rprot) (s : rsess) (r : relop) (x : rmpc) (y : rmpc + pub) (rnd : list (list Z)) : result rmpc :=
  do y <- rm_convert pr s y rnd;
  match r with
  | RGt => do _ <- rm_lin_public s LAdd y (one_ulp (rs_cfg s)); Err AttributeError
  | _ => Err AttributeError
  end.

(** the randomness of request number k: that of a product and the draws for sharing a number *)
Record rep_supply := mkRSup { ru_mul : nat -> mulsup; ru_rnd : nat -> list (list Z) }.

Section Rep.
  Context (pr : rprot) (s : rsess) (u : rep_supply).
  (** the state is the number of the next request *)
  Definition rlift {A} (r : result A) : comp nat A := fun w => (r, w).
  Definition rtick : comp nat nat := fun w => (Ok w, S w).

  (** mpc_tensor.py:452-462 with falcon.py:86-131 *)
  Definition rep_mul (x y : rmpc) : comp nat rmpc :=
    let! k := rtick in rlift (rm_bil s BMul x y (ru_mul u k)).
  (** mpc_tensor.py:452-462 with a number *)
  Definition rep_mulp (x : rmpc) (c : num) : comp nat rmpc :=
    let! k := rtick in rlift (rm_bil_public s BMul x (PNum c) (su_rand (ru_mul u k))).

  (** mpc_tensor.py:621-652 (pow) for a positive exponent *)
  Fixpoint rep_pow (p : positive) (base : rmpc) (acc : option rmpc) : comp nat rmpc :=
    let step := match acc with None => rep_mulp base (NInt 1) | Some r => rep_mul r base end in
    match p with
    | xH => let! r := step in let! _ := rep_mul base base in cret r
    | xO p => let! b := rep_mul base base in rep_pow p b acc
    | xI p => let! r := step in let! b := rep_mul base base in rep_pow p b (Some r)
    end.

  (** mpc_tensor.py:406-652 and 1069-1155, with the models of M_Rep.v and M_RepView.v *)
  Definition rep_engine : engine nat rmpc := mkE nat rmpc
    (fun o x y => rlift (rm_lin o x y))
    rep_mul
    (fun o x c => rlift (rm_lin_public s o x (PNum c)))
    (fun c x => let! k := rtick in rlift (rm_rsub s x (PNum c) (su_rand (ru_mul u k))))
    rep_mulp
    (fun x k => rlift (rm_truediv s x (DInt k)))
    (fun x p => rep_pow p x None)
    (fun r x y => rlift (rm_rel pr s r x (inl y) []))
    (fun r x c => let! k := rtick in rlift (rm_rel pr s r x (inr (PNum c)) (ru_rnd u k))).
End Rep.

(** mpc_tensor.py:591-619 (truediv) by a shared tensor: refused for more than two parties, otherwise
    the product with the reciprocal (its defaults: method "NR", 10 rounds) *)
Definition rep_div (pr : rprot) (s : rsess) (u : rep_supply) (x y : rmpc) : comp nat rmpc :=
  if Nat.ltb 2 (rs_n s) then cerr ValueError
  else let! r := reciprocal (rep_engine pr s u) RNewton 10 y in rep_mul s u x r.
