(** Specification: how gradients flow back through a computation graph, whatever the functions
    recorded in it compute. *)
From Coq Require Import QArith.
From Verif Require Import Util S_Autograd.
Local Open Scope list_scope.

Section Flow.
  (** [par c]: the operands of node [c]; [apply c X gs]: the backward function of [c], called with
      the gradient [X], may return [gs]; [add x y z]: the sum of [x] and [y] may come out as [z];
      [old i]: the gradient [i] has before; [seed X]: the gradient handed to the root may be [X] *)
  Context {T : Type} (par : nat -> list nat) (root : nat) (seed : T -> Prop) (old : nat -> option T)
          (apply : nat -> T -> list T -> Prop) (add : T -> T -> T -> Prop).

  (** [L] names once every use of [i] that leads to the root ([Some (c, k)]: as operand number [k]
      of [c]) and its earlier gradient ([None]), if it has one *)
  Definition all_uses (i : nat) (L : list (option (nat * nat))) : Prop :=
    NoDup L /\ (forall c k, In (Some (c, k)) L <-> below par root c /\ nth_error (par c) k = Some i) /\
    (In None L <-> old i <> None).

  (** [flows i L x]: [x] is the sum, in some order, of what [i] gets for the uses in [L]; for a use
      by [c] that is the matching result of the backward function of [c] for the whole gradient
      of [c] *)
  Inductive flows : nat -> list (option (nat * nat)) -> T -> Prop :=
  | fl_old i x : old i = Some x -> flows i [None] x
  | fl_root k i X gs y : seed X -> apply root X gs -> nth_error gs k = Some y ->
      nth_error (par root) k = Some i -> flows i [Some (root, k)] y
  | fl_use c k i L X gs y : flows c L X -> all_uses c L -> apply c X gs -> nth_error gs k = Some y ->
      nth_error (par c) k = Some i -> flows i [Some (c, k)] y
  | fl_add i L L' x y z : flows i L x -> flows i L' y -> add x y z -> flows i (L ++ L') z.
End Flow.

Section Adjoint.
  Local Open Scope Q_scope.
  (** [J c k]: the (transposed) derivative of [c] for its operand number [k] *)
  Context (par : nat -> list nat) (root : nat) (J : nat -> nat -> (nat -> Q) -> nat -> Q).

  Definition qsum (l : list Q) : Q := fold_right Qplus 0 l.

  (** the gradients [A]: that of the root is [g], every other one is the old one [o i] plus, for each
      use, the derivative applied to the gradient of the user *)
  Definition adjoint (o : nat -> nat -> Q) (g : nat -> Q) (A : nat -> nat -> Q) : Prop :=
    (forall e, A root e == g e) /\
    forall i L, i <> root -> NoDup L ->
      (forall c k, In (c, k) L <-> below par root c /\ nth_error (par c) k = Some i) ->
      forall e, A i e == o i e + qsum (map (fun u => J (fst u) (snd u) (A (fst u)) e) L).
End Adjoint.

(** A program seen from outside: for every tensor it makes, in order, whether it is made with the
    wish for gradients, and its operands (none for a tensor that is not computed) *)
Section Outline.
  Variable P : list (bool * list nat).
  Definition opnds (i : nat) : list nat := match nth_error P i with Some t => snd t | None => [] end.
  (** gradients are wanted for a tensor made with that wish, and for what is computed from such *)
  Inductive wanted : nat -> Prop :=
  | want_made i ps : nth_error P i = Some (true, ps) -> wanted i
  | want_from i j : In j (opnds i) -> wanted j -> wanted i.
  (** how often a tensor is an operand *)
  Definition used (i : nat) : nat := count_occ Nat.eq_dec (flat_map snd P) i.
  (** a call of backward for [root], after calls that visited [seen]: the root is computed, wanted
      and used at most once; what is computed and wanted below the root was not visited before and
      is only used below the root *)
  Definition fair (seen : nat -> Prop) (root : nat) : Prop :=
    opnds root <> [] /\ wanted root /\ (used root <= 1)%nat /\
    forall i, below opnds root i -> wanted i -> opnds i <> [] ->
      ~ seen i /\ forall c, i <> root -> In i (opnds c) -> below opnds root c.
End Outline.
