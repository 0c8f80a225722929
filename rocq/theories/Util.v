(** Generic list and integer helpers used by the model and the proofs.
    Nothing here models code of /repo; these are library functions Coq's
    standard library lacks (Python's [zip], [sum], [enumerate] on lists). *)
From Coq Require Export List Arith ZArith Lia Bool.
From Coq Require Import ZifyBool ZifyNat ZifyN Setoid Morphisms Zdiv.
Export ListNotations.
Ltac Zify.zify_post_hook ::= Z.div_mod_to_equations.

Arguments Z.add : simpl never.
Arguments Z.mul : simpl never.
Arguments Z.sub : simpl never.
Arguments Z.opp : simpl never.
Arguments Z.pow : simpl never.
Arguments Z.modulo : simpl never.
Arguments Z.div : simpl never.
Arguments Z.quot : simpl never.
Arguments Z.rem : simpl never.
Arguments Z.of_nat : simpl never.
Arguments Nat.modulo : simpl never.
Arguments Nat.div : simpl never.

(** zip two lists with a function (Python: [[f(a,b) for a,b in zip(l1,l2)]]) *)
Fixpoint map2 {A B C} (f : A -> B -> C) (l1 : list A) (l2 : list B) : list C :=
  match l1, l2 with
  | a :: r1, b :: r2 => f a b :: map2 f r1 r2
  | _, _ => []
  end.

(** sum of a list of integers *)
Fixpoint zsum (l : list Z) : Z :=
  match l with [] => 0%Z | x :: r => (x + zsum r)%Z end.

(** exceptions as values *)
Inductive exn :=
| ValueError | TypeError | IndexError | KeyError | RuntimeError
| AttributeError | EmptyPrimitiveStore | NotImplementedErr | ZeroDivision.

Inductive result (A : Type) := Ok (a : A) | Err (e : exn).
Arguments Ok {A} _.
Arguments Err {A} _.

Definition rbind {A B} (x : result A) (f : A -> result B) : result B :=
  match x with Ok a => f a | Err e => Err e end.

Notation "'do' x <- e ; f" := (rbind e (fun x => f))
  (at level 200, x name, e at level 100, f at level 200, right associativity).

Fixpoint rmap {A B} (f : A -> result B) (l : list A) : result (list B) :=
  match l with
  | [] => Ok []
  | a :: r => match f a with
              | Err e => Err e
              | Ok b => match rmap f r with Err e => Err e | Ok bs => Ok (b :: bs) end
              end
  end.

(** all results if every one is [Ok], otherwise the first error *)
Fixpoint rseq {A} (l : list (result A)) : result (list A) :=
  match l with
  | [] => Ok []
  | Ok a :: r => match rseq r with Err e => Err e | Ok bs => Ok (a :: bs) end
  | Err e :: _ => Err e
  end.

(** replace position [n] *)
Fixpoint set_nth {A} (n : nat) (x : A) (l : list A) : list A :=
  match n, l with
  | _, [] => []
  | O, _ :: r => x :: r
  | S m, a :: r => a :: set_nth m x r
  end.

(** columns of a list of rows of length [m] *)
Definition column {A} (d : A) (j : nat) (rows : list (list A)) : list A :=
  map (fun r => nth j r d) rows.

(* ------------------------------------------------------------------ *)
(** lemmas *)

Lemma map2_length {A B C} (f : A -> B -> C) l1 : forall l2,
  length (map2 f l1 l2) = Nat.min (length l1) (length l2).
Proof. induction l1 as [|a l1 IH]; intros [|b l2]; simpl; auto. Qed.

Lemma map2_length_eq {A B C} (f : A -> B -> C) l1 l2 m :
  length l1 = m -> length l2 = m -> length (map2 f l1 l2) = m.
Proof. intros H1 H2. rewrite map2_length, H1, H2. apply Nat.min_id. Qed.

Lemma nth_map2 {A B C} (f : A -> B -> C) (da : A) (db : B) (dc : C) l1 : forall l2 i,
  i < length l1 -> i < length l2 ->
  nth i (map2 f l1 l2) dc = f (nth i l1 da) (nth i l2 db).
Proof.
  induction l1 as [|a l1 IH]; intros [|b l2] i H1 H2; simpl in *; try lia.
  destruct i as [|i]; simpl; auto. apply IH; lia.
Qed.

Lemma map2_map_l {A A' B C} (f : A' -> B -> C) (g : A -> A') l1 : forall l2,
  map2 f (map g l1) l2 = map2 (fun a b => f (g a) b) l1 l2.
Proof. induction l1 as [|a l1 IH]; intros [|b l2]; simpl; f_equal; auto. Qed.

Lemma map2_map_r {A B B' C} (f : A -> B' -> C) (g : B -> B') l1 : forall l2,
  map2 f l1 (map g l2) = map2 (fun a b => f a (g b)) l1 l2.
Proof. induction l1 as [|a l1 IH]; intros [|b l2]; simpl; f_equal; auto. Qed.

Lemma map_map2 {A B C D} (g : C -> D) (f : A -> B -> C) l1 : forall l2,
  map g (map2 f l1 l2) = map2 (fun a b => g (f a b)) l1 l2.
Proof. induction l1 as [|a l1 IH]; intros [|b l2]; simpl; f_equal; auto. Qed.

Lemma map2_ext_in {A B C} (f g : A -> B -> C) l1 : forall l2,
  (forall a b, In (a, b) (combine l1 l2) -> f a b = g a b) -> map2 f l1 l2 = map2 g l1 l2.
Proof.
  induction l1 as [|a l1 IH]; intros [|b l2] H; simpl; auto.
  f_equal; [apply H; simpl; auto | apply IH; intros; apply H; simpl; auto].
Qed.

Lemma map2_same {A C} (f : A -> A -> C) l : map2 f l l = map (fun a => f a a) l.
Proof. induction l as [|a l IH]; simpl; f_equal; auto. Qed.

Lemma zsum_app l1 l2 : zsum (l1 ++ l2) = (zsum l1 + zsum l2)%Z.
Proof. induction l1 as [|x l IH]; cbn [zsum app]; [lia | rewrite IH; lia]. Qed.

Lemma zsum_map_add {A} (f g : A -> Z) l :
  zsum (map (fun a => f a + g a)%Z l) = (zsum (map f l) + zsum (map g l))%Z.
Proof. induction l as [|x l IH]; cbn [zsum map]; [lia | rewrite IH; lia]. Qed.

Lemma zsum_map_sub {A} (f g : A -> Z) l :
  zsum (map (fun a => f a - g a)%Z l) = (zsum (map f l) - zsum (map g l))%Z.
Proof. induction l as [|x l IH]; cbn [zsum map]; [lia | rewrite IH; lia]. Qed.

Lemma zsum_map_mul_l {A} (c : Z) (f : A -> Z) l :
  zsum (map (fun a => c * f a)%Z l) = (c * zsum (map f l))%Z.
Proof. induction l as [|x l IH]; cbn [zsum map]; [lia | rewrite IH; lia]. Qed.

Lemma zsum_map_mul_r {A} (c : Z) (f : A -> Z) l :
  zsum (map (fun a => f a * c)%Z l) = (zsum (map f l) * c)%Z.
Proof. induction l as [|x l IH]; cbn [zsum map]; [lia | rewrite IH; lia]. Qed.

Lemma zsum_map_zero {A} (l : list A) : zsum (map (fun _ => 0%Z) l) = 0%Z.
Proof. induction l as [|x l IH]; cbn [zsum map]; [lia | rewrite IH; lia]. Qed.

Lemma zsum_exchange {A B} (f : A -> B -> Z) (l : list A) (m : list B) :
  zsum (map (fun a => zsum (map (f a) m)) l) =
  zsum (map (fun b => zsum (map (fun a => f a b) l)) m).
Proof.
  induction l as [|a l IH]; cbn [zsum map].
  - rewrite zsum_map_zero. reflexivity.
  - rewrite IH, <- zsum_map_add. reflexivity.
Qed.

Lemma zsum_ext {A} (f g : A -> Z) l : (forall a, In a l -> f a = g a) ->
  zsum (map f l) = zsum (map g l).
Proof. intros H. f_equal. apply map_ext_in. exact H. Qed.

Lemma zsum_repeat_zero n : zsum (repeat 0%Z n) = 0%Z.
Proof. induction n as [|n IH]; cbn [zsum repeat]; [lia | rewrite IH; lia]. Qed.

Lemma zsum_rev l : zsum (rev l) = zsum l.
Proof. induction l as [|x l IH]; cbn [zsum rev]; [auto | rewrite zsum_app, IH; cbn [zsum]; lia]. Qed.

Lemma set_nth_length {A} n (x : A) l : length (set_nth n x l) = length l.
Proof. revert n; induction l as [|a l IH]; intros [|n]; simpl; auto. Qed.

Lemma nth_set_nth {A} (d : A) n x l i : n < length l ->
  nth i (set_nth n x l) d = if Nat.eqb i n then x else nth i l d.
Proof.
  revert n i; induction l as [|a l IH]; intros [|n] [|i] H; simpl in *; try lia; auto.
  apply IH; lia.
Qed.

Lemma nth_map_in {A B} (f : A -> B) (da : A) (db : B) l i :
  i < length l -> nth i (map f l) db = f (nth i l da).
Proof. intros H. rewrite (nth_indep _ db (f da)) by (rewrite map_length; auto). apply map_nth. Qed.

Lemma nth_ext_len {A} (d : A) l l' :
  length l = length l' -> (forall i, i < length l -> nth i l d = nth i l' d) -> l = l'.
Proof. intros HL H. apply (nth_ext l l' d d); auto. Qed.

Lemma nth_repeat_lt {A} (d x : A) n i : i < n -> nth i (repeat x n) d = x.
Proof. revert i; induction n as [|n IH]; intros [|i] H; simpl; try lia; auto. apply IH; lia. Qed.

Lemma Forall_nth_in {A} (P : A -> Prop) l d i : Forall P l -> i < length l -> P (nth i l d).
Proof. intros H Hi. rewrite Forall_forall in H. apply H, nth_In, Hi. Qed.

Lemma nth_seq_lt a n i d : i < n -> nth i (seq a n) d = a + i.
Proof. intros H. rewrite seq_nth; auto. Qed.

Lemma zsum_map2_add (l1 l2 : list Z) : length l1 = length l2 ->
  zsum (map2 Z.add l1 l2) = (zsum l1 + zsum l2)%Z.
Proof.
  revert l2; induction l1 as [|a l1 IH]; intros [|b l2] H; cbn [map2 zsum]; simpl in H; try lia.
  rewrite IH by lia. lia.
Qed.

Lemma rmap_ok_length {A B} (f : A -> result B) l ys : rmap f l = Ok ys -> length ys = length l.
Proof.
  revert ys; induction l as [|a l IH]; intros ys H; simpl in *.
  - inversion H; reflexivity.
  - destruct (f a); [|discriminate]. destruct (rmap f l) eqn:E; [|discriminate].
    inversion H; subst; simpl. f_equal. apply IH; reflexivity.
Qed.

Lemma rmap_ok {A B} (f : A -> B) l : rmap (fun a => Ok (f a)) l = Ok (map f l).
Proof. induction l as [|a l IH]; simpl; [|rewrite IH]; reflexivity. Qed.

Lemma combine_map2 {A B} (l1 : list A) : forall (l2 : list B), combine l1 l2 = map2 pair l1 l2.
Proof. induction l1 as [|a l1 IH]; intros [|b l2]; simpl; f_equal; auto. Qed.
