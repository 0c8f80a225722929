(** Specification vocabulary for the stores of primitives: histories of calls and what should
    have been handed out. *)
From Coq Require Import String.
From Verif Require Import Util S_Ring S_Tensor S_Bil S_Spdz M_Tensor M_Share M_Spdz M_Store.

(* -------------------------------------------------- one party's store *)
(** a call on the store of one party *)
Inductive sev (P : Type) :=
| EAdd (k : kind) (a b : pyshape) (ps : list P)
| EGet (k : kind) (a b : pyshape) (remove : bool).
Arguments EAdd {P}. Arguments EGet {P}.

Definition sev_step {P} (e : sev P) (st : store P) : option (result P) * store P :=
  match e with
  | EAdd k a b ps => (None, store_add k st ps (a, b))
  | EGet k a b r => let (p, st') := store_get k st a b r in (Some p, st')
  end.

(** the calls of [h] one after the other: what the gets returned, and the store at the end *)
Fixpoint sev_run {P} (h : list (sev P)) (st : store P) : list (option (result P)) * store P :=
  match h with
  | [] => ([], st)
  | e :: r => let (o, st1) := sev_step e st in let (os, st2) := sev_run r st1 in (o :: os, st2)
  end.

Definition kind_eq_dec (k k' : kind) : {k = k'} + {k <> k'}.
Proof. decide equality. Defined.
Definition same_request (k k' : kind) (a a' b b' : list nat) : bool :=
  if kind_eq_dec k k' then
    if list_eq_dec Nat.eq_dec a a' then
      if list_eq_dec Nat.eq_dec b b' then true else false
    else false
  else false.

(** everything added for an operation and a pair of shapes, in order *)
Definition added {P} (k : kind) (a b : list nat) (h : list (sev P)) : list P :=
  flat_map (fun e => match e with
    | EAdd k' a' b' ps => if same_request k k' a (dims a') b (dims b') then ps else []
    | EGet _ _ _ _ => [] end) h.

(** everything handed out with removal for it, in order *)
Definition handed {P} (k : kind) (a b : list nat) (h : list (sev P)) (os : list (option (result P))) : list P :=
  flat_map (fun eo => match eo with
    | (EGet k' a' b' true, Some (Ok p)) => if same_request k k' a (dims a') b (dims b') then [p] else []
    | _ => [] end) (combine h os).

(** shapes are given as tuples when adding *)
Definition adds_tuples {P} (h : list (sev P)) : Prop :=
  Forall (fun e => match e with EAdd _ a b _ => a = PTuple (dims a) /\ b = PTuple (dims b) | _ => True end) h.

(** what a party's store holds for an operation and two shapes *)
Definition queue {P} (k : kind) (a b : list nat) (st : store P) : list P :=
  match dget st (config_key k (PTuple a) (PTuple b)) with Some q => q | None => [] end.

(* -------------------------------------------------- the stores of a session *)
(** an event of a session: generating a triple in advance, or a product *)
Inductive wev := WPreload (op : bop) (a b : list nat) | WProduct (op : bop) (a b : list nat).
Definition wev_req (e : wev) : treq := match e with WPreload op a b | WProduct op a b => (op, (a, b)) end.

Definition preload {P} (gen : nat -> treq -> result (list (list P))) (op : bop) (a b : list nat) (w : tworld P)
  : tworld P :=
  snd (generate_primitives (beaver_gens gen) beaver_adders (op_key (kind_of op)) (op, (a, b))
         (Some (PTuple a, PTuple b)) w).

Definition wev_step {P} (gen : nat -> treq -> result (list (list P))) (e : wev) (w : tworld P)
  : list (result (list P * list P)) * tworld P :=
  match e with
  | WPreload op a b => ([], preload gen op a b w)
  | WProduct op a b => let (r, w') := take gen op a b w in ([r], w')
  end.

(** the results of the products of a history, and the state at the end *)
Fixpoint wev_run {P} (gen : nat -> treq -> result (list (list P))) (h : list wev) (w : tworld P)
  : list (result (list P * list P)) * tworld P :=
  match h with
  | [] => ([], w)
  | e :: r => let (o, w1) := wev_step gen e w in let (os, w2) := wev_run gen r w1 in (o ++ os, w2)
  end.

(** the products of a history, in order *)
Definition products (h : list wev) : list treq :=
  flat_map (fun e => match e with WProduct _ _ _ => [wev_req e] | WPreload _ _ _ => [] end) h.

(** no primitive anywhere, [n] parties *)
Definition empty_world {S A G} (empty : S) (n : nat) : provider S A G := mkW (repeat empty n) false [] 0.

(** the generator returns for every party a list of one primitive *)
Definition one_each {P} (n : nat) (gen : nat -> treq -> result (list (list P))) : Prop :=
  forall i g rows, gen i g = Ok rows -> length rows = n /\ Forall (fun r => length r = 1%nat) rows.

(** the triples [ts], one per party, are what call [i] of the generator returned *)
Definition from_call {P} (gen : nat -> treq -> result (list (list P))) (i : nat) (g : treq) (ts : list P) : Prop :=
  gen i g = Ok (map (fun t => [t]) ts).

(** a generator of triples: call [i] returns triples produced by get_triples with some draws *)
Definition triple_gen (n : nat) (gen : nat -> treq -> result (list (list triple))) : Prop :=
  forall i op a b rows, gen i (op, (a, b)) = Ok rows ->
    exists ta tb ra rb rc ts, get_triples op n ta tb ra rb rc = Ok ts /\ rows = triple_rows ts /\
      tensor_in (2^64) a ta /\ tensor_in (2^64) b tb /\ draws (2^64) n a ra /\ draws (2^64) n b rb /\
      (forall c, tbil R64 op ta tb = Ok c -> draws (2^64) n (tsh c) rc).

(* -------------------------------------------------- comparison keys *)
Inductive fev := FPreload (o : fop) (nr : nat) | FCompare (o : fop) (nr : nat).

Definition fpreload {K} (gen : fop -> nat -> nat -> result (list (list K))) (o : fop) (nr : nat) (w : fworld K) : fworld K :=
  snd (generate_primitives (fss_gens gen) fss_adders (fkey o) nr (Some tt) w).

Definition fev_step {K} (gen : fop -> nat -> nat -> result (list (list K))) (e : fev) (w : fworld K)
  : list (result (list (list K) * list (list K))) * fworld K :=
  match e with
  | FPreload o nr => ([], fpreload gen o nr w)
  | FCompare o nr => let (r, w') := fss_take gen o nr w in ([r], w')
  end.
Fixpoint fev_run {K} (gen : fop -> nat -> nat -> result (list (list K))) (h : list fev) (w : fworld K)
  : list (result (list (list K) * list (list K))) * fworld K :=
  match h with
  | [] => ([], w)
  | e :: r => let (o, w1) := fev_step gen e w in let (os, w2) := fev_run gen r w1 in (o ++ os, w2)
  end.
Definition compares (h : list fev) : list (fop * nat) :=
  flat_map (fun e => match e with FCompare o nr => [(o, nr)] | FPreload _ _ => [] end) h.

(** the key generator returns an array of [nr] keys for each of the two evaluators *)
Definition two_arrays {K} (gen : fop -> nat -> nat -> result (list (list K))) : Prop :=
  forall o i nr, exists k0 k1, gen o i nr = Ok [k0; k1] /\ length k0 = nr /\ length k1 = nr.

(** the keys used by a comparison: the first [nr] of what call [i] of the generator returned *)
Definition first_keys {K} (gen : fop -> nat -> nat -> result (list (list K))) (i : nat) (o : fop) (nr : nat)
  (keys : list (list K)) : Prop :=
  exists m rows, gen o i m = Ok rows /\ keys = map (firstn nr) rows.

(** requests and results of the products that succeeded *)
Definition served {P} (qs : list treq) (os : list (result (list P * list P))) : list (treq * (list P * list P)) :=
  flat_map (fun qr => match snd qr with Ok mt => [(fst qr, mt)] | Err _ => [] end) (combine qs os).

(** same operation up to the keyword arguments, same shapes *)
Definition like (g q : treq) : Prop := kind_of (fst g) = kind_of (fst q) /\ snd g = snd q.

(** the comparisons that succeeded, with the keys used for masking and for evaluating *)
Definition fserved {K} (qs : list (fop * nat)) (os : list (result (list (list K) * list (list K))))
  : list ((fop * nat) * (list (list K) * list (list K))) :=
  flat_map (fun qr => match snd qr with Ok mt => [(fst qr, mt)] | Err _ => [] end) (combine qs os).

(** the numbers of keys generated for [o] in a history *)
Definition sizes (o : fop) (h : list fev) : list nat :=
  flat_map (fun e => match e with FPreload o' nr | FCompare o' nr =>
    match o, o' with FEq, FEq | FComp, FComp => [nr] | _, _ => [] end end) h.

(** the products of a computation as events *)
Definition prods (c : list treq) : list wev := map (fun g => WProduct (fst g) (fst (snd g)) (snd (snd g))) c.
(** every request was served *)
Definition all_ok {A} (l : list (result A)) : Prop := Forall (fun r => exists a, r = Ok a) l.
(** a generator that always fails *)
Definition no_gen {P} : nat -> treq -> result (list (list P)) := fun _ _ => Err ValueError.


(** an example of a generator of triples (with constant draws) *)
Definition ex_gen (n : nat) (i : nat) (g : treq) : result (list (list triple)) :=
  let '(op, (a, b)) := g in
  let ta := mkT a (repeat 5%Z (numel a)) in
  let tb := mkT b (repeat 7%Z (numel b)) in
  do ts <- get_triples op n ta tb (repeat (repeat 9%Z (numel a)) (n - 1)) (repeat (repeat (-3)%Z (numel b)) (n - 1))
             (match tbil M_Share.R64 op ta tb with Ok c => repeat (repeat 11%Z (numel (tsh c))) (n - 1) | Err _ => [] end);
  Ok (triple_rows ts).
