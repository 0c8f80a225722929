(** Specification vocabulary for the multiplication protocol: which call of the code stands for
    which operation of S_Bil, and when triples are valid for it. *)
From Verif Require Import Util S_Ring S_Tensor S_Bil M_Tensor M_Share M_Spdz.
Local Open Scope Z_scope.

(** the model's name for an operation *)
Definition bop_of (op : bspec) : bop :=
  match op with
  | SMul => BMul | SMatmul => BMatmul
  | SConv s p d g => BConv2d (mkConv s p d g) | SConvT s p d g => BConvT (mkConv s p d g)
  end.

(** the operation with its keyword arguments left out *)
Definition bare_op (op : bspec) : bspec :=
  match op with SConv _ _ _ _ => SConv 1 0 1 1 | SConvT _ _ _ _ => SConvT 1 0 1 1 | _ => op end.

(** the triples of the parties are sharings of a, b and the product of a and b *)
Definition valid_triples (sx sy so : list nat) (f : list Z -> list Z -> list Z) (n : nat) (ts : list triple) : Prop :=
  length ts = n /\ exists va vb,
    shared (2^64) sx va (map tr_a ts) /\ shared (2^64) sy vb (map tr_b ts) /\
    shared (2^64) so (f va vb) (map tr_c ts).
