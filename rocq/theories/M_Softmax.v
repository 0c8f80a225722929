(** Model of /repo/src/sympc/approximations/softmax.py over an [engine], for one line of the tensor
    along the dimension (softmax.py:22-23 and 53-54 choose the last one by default; all operations
    act on every line separately).  Simplification: the comparisons, which the code makes at once for
    the whole tensor, are made one by one; M_Argmax.v has them on tensors. *)
From Coq Require Import QArith.
From Verif Require Import Util M_Encoder M_Share M_Fss M_Engine M_Approx.
Local Open Scope Z_scope.
Local Open Scope list_scope.

(** the computation for every element in turn *)
Fixpoint cmap {W A B} (f : A -> comp W B) (l : list A) : comp W (list B) :=
  match l with [] => cret [] | a :: r => let! b := f a in let! bs := cmap f r in cret (b :: bs) end.

Section Softmax.
  Context {W T : Type} (E : engine W T).

  (** sum(dim, keepdim=True) of a line (not empty) *)
  Fixpoint csum (xs : list T) : comp W T :=
    match xs with
    | [] => cerr RuntimeError
    | [x] => cret x
    | x :: r => let! t := csum r in e_lin E LAdd x t
    end.

  (** static.py:183-200 and 289-319: entry [i] of the one-hot result: the line minus its rotation by
      k, for k = 1, 2, ..., compared with 0, and the number of successes compared with n - 1 *)
  Definition one_hot_at (xs : list T) (d : T) (i : nat) : comp W T :=
    let n := length xs in
    let! cs := cmap (fun k => let! y := e_lin E LSub (nth i xs d) (nth ((i + n - k) mod n) xs d) in
                              e_relp E RGe y (NInt 0)) (seq 1 (n - 1)) in
    let! c := csum cs in
    e_relp E RGe c (NInt (Z.of_nat n - 1)).

  (** static.py:252-286 (max_mpc), the maximum: the sum of the products of entries and one-hot
      entries *)
  Definition line_max (xs : list T) (d : T) : comp W T :=
    let! hs := cmap (one_hot_at xs d) (seq 0 (length xs)) in
    let! ms := cmap (fun p => e_mul E (fst p) (snd p)) (combine hs xs) in
    csum ms.

  (** softmax.py:12-36; [z] is the sharing of zero made from pseudo random zero shares (line 27);
      the defaults are 8 rounds of exp and 10 of reciprocal *)
  Definition softmax (z : T) (xs : list T) : comp W (list T) :=
    match xs with
    | [_] => let! o := e_linp E LAdd z (NInt 1) in cret [o]
    | _ =>
        let! m := line_max xs z in
        let! ls := cmap (fun x => e_lin E LSub x m) xs in
        let! ys := cmap (exp_a E 8) ls in
        let! d := csum ys in
        let! r := reciprocal E RNewton 10 d in
        cmap (fun y => e_mul E y r) ys
    end.

  (** softmax.py:39-67; log with its defaults, 2 and 8 rounds *)
  Definition log_softmax (z : T) (xs : list T) : comp W (list T) :=
    match xs with
    | [_] => cret [z]
    | _ =>
        let! m := line_max xs z in
        let! ls := cmap (fun x => e_lin E LSub x m) xs in
        let! ys := cmap (exp_a E 8) ls in
        let! d := csum ys in
        let! g := log_a E 2 8 d in
        cmap (fun l => e_lin E LSub l g) ls
    end.
End Softmax.
