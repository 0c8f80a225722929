(** Specification for C88: a tensor whose shape attribute is the shape of the secret. *)
From Verif Require Import Util S_Ring S_Tensor M_Share M_Shape.
Local Open Scope Z_scope.

(** [x] belongs to session [s], holds one share of [v] for each party, and says it has the shape
    [sh] that [v] has *)
Definition truthful (s : sess) (sh : list nat) (v : list Z) (x : obj) : Prop :=
  o_sid x = s_id s /\ o_shape x = ShTuple (map Z.of_nat sh) /\ length (o_shares x) = s_n s /\ shared (2^64) sh v (o_shares x).
(** the same with the shape given as a list *)
Definition listed (s : sess) (sh : list nat) (v : list Z) (x : obj) : Prop :=
  o_sid x = s_id s /\ o_shape x = ShList (map Z.of_nat sh) /\ length (o_shares x) = s_n s /\ shared (2^64) sh v (o_shares x).
