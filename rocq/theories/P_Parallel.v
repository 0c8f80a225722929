(** C34: parallel execution is deterministic. *)
From Coq Require Import List Lia.
From Verif Require Import Util M_Parallel.

(** Specification: a worker run alone from start to end *)
Fixpoint alone {S A} (s : S) (p : prog S A) : S * result A :=
  match p with Ret r => (s, r) | Act f k => alone (f s) (k s) end.

(** the first exception in party order, or all values *)
Definition in_order {A} (rs : list (result A)) (r : result (list A)) : Prop :=
  match r with
  | Ok vs => rs = map Ok vs
  | Err e => exists vs rest, rs = map Ok vs ++ Err e :: rest
  end.

Lemma step1_alone {S A} (c : S * prog S A) : alone (fst (step1 c)) (snd (step1 c)) = alone (fst c) (snd c).
Proof. destruct c as [s []]; reflexivity. Qed.

Lemma at_nth_map {B C} (g : B -> B) (h : B -> C) : (forall b, h (g b) = h b) -> forall l i, map h (at_nth i g l) = map h l.
Proof. intros H l. induction l as [|b l IH]; intros [|i]; cbn; rewrite ?H, ?IH; reflexivity. Qed.

Lemma at_nth_len {B} (g : B -> B) : forall l i, length (at_nth i g l) = length l.
Proof. induction l as [|b l IH]; intros [|i]; cbn; auto. Qed.

Lemma run_alone {S A} sched : forall cs : list (S * prog S A), map (fun c => alone (fst c) (snd c)) (run sched cs) = map (fun c => alone (fst c) (snd c)) cs.
Proof.
  induction sched as [|i r IH]; intros cs; cbn [run]; [reflexivity|]. rewrite IH. apply at_nth_map. intro b. apply step1_alone.
Qed.

Lemma run_len {S A} sched : forall cs : list (S * prog S A), length (run sched cs) = length cs.
Proof. induction sched as [|i r IH]; intros cs; cbn; auto. rewrite IH. apply at_nth_len. Qed.

Lemma outcomes_done {S A} : forall (cs : list (S * prog S A)) rs, outcomes cs = Some rs ->
  map (fun c => alone (fst c) (snd c)) cs = combine (map fst cs) rs /\ length rs = length cs.
Proof.
  induction cs as [|[s p] cs IH]; intros rs H; cbn in H; [injection H as <-; auto|].
  destruct p as [r|]; cbn in H; [|discriminate]. destruct (outcomes cs) as [l|]; [|discriminate]. injection H as <-.
  destruct (IH l eq_refl) as [E L]. cbn. rewrite E, L. auto.
Qed.

Lemma combine_split_eq {B C} : forall (l1 : list B) (l2 : list C), length l1 = length l2 -> map fst (combine l1 l2) = l1 /\ map snd (combine l1 l2) = l2.
Proof. induction l1; intros [|c l2] H; cbn in *; try discriminate; auto. destruct (IHl1 l2) as [E1 E2]; [lia|]. rewrite E1, E2. auto. Qed.

Lemma collect_order {A} : forall rs : list (result A), in_order rs (collect rs).
Proof.
  induction rs as [|[a|e] rs IH]; cbn; [reflexivity| |exists [], rs; reflexivity].
  destruct (collect rs) as [vs|e]; cbn in *; [rewrite IH; reflexivity|].
  destruct IH as (vs & rest & ->). exists (a :: vs), rest. reflexivity.
Qed.

(** Whatever the interleaving that finishes the workers: every party ends in the state, and
    every worker with the result, of running alone; the results come in the order of the
    parties, or the exception of the first failing party in that order is raised (the other
    parties have still run to the end). *)
Theorem C34_deterministic : forall S A X (remote : option (list (X -> prog S A))) fn args states sched out,
  let funcs := match remote with Some (f :: fs) => f :: fs | _ => repeat fn (length args) end in
  args <> [] -> length funcs = length args -> length states = length args ->
  parallel_execution remote fn args states sched = Some out ->
  let ends := map (fun p => alone (fst p) (fst (snd p) (snd (snd p)))) (combine states (combine funcs args)) in
  snd out = map fst ends /\ in_order (map snd ends) (fst out).
Proof.
  intros S A X remote fn args states sched out funcs Ha Hf Hs H. unfold parallel_execution in H.
  destruct args as [|a args']; [congruence|]. set (args := a :: args') in *. fold funcs in H.
  set (cs := map (fun p : S * ((X -> prog S A) * X) => (fst p, fst (snd p) (snd (snd p)))) (combine states (combine funcs args))) in *.
  destruct (outcomes (run sched cs)) as [rs|] eqn:E; [|discriminate]. injection H as <-. cbn [fst snd].
  destruct (outcomes_done _ _ E) as [E1 L1]. rewrite run_alone in E1.
  assert (LC : length cs = length states).
  { unfold cs. rewrite map_length, !combine_length. lia. }
  assert (LR : length (run sched cs) = length cs).
  { apply run_len. }
  unfold cs in E1 at 1. rewrite map_map in E1. cbn [fst snd] in E1. rewrite E1.
  destruct (combine_split_eq (map fst (run sched cs)) rs) as [-> ->]; [rewrite map_length; lia|].
  split.
  - rewrite skipn_all2 by lia. apply app_nil_r.
  - match goal with |- context [Nat.ltb ?a ?b] => destruct (Nat.ltb_spec a b) as [LT|_]; [exfalso; change (length funcs < length args) in LT; lia|] end. apply collect_order.
Qed.
Print Assumptions C34_deterministic.

(** running the workers one after the other, each to its end, is one such interleaving, so the
    theorem is not about an empty set of schedules *)
Theorem C34_some_schedule : forall S A (cs : list (S * prog S A)), exists sched rs, outcomes (run sched cs) = Some rs.
Proof.
  intros S A. assert (R : forall sched (c : S * prog S A) cs, run (map Datatypes.S sched) (c :: cs) = c :: run sched cs).
  { induction sched as [|i r IH]; intros c cs; cbn; auto. }
  assert (RA : forall s1 s2 (cs : list (S * prog S A)), run (s1 ++ s2) cs = run s2 (run s1 cs)).
  { induction s1; intros; cbn; auto. }
  induction cs as [|[s p] cs IH]; [exists [], []; reflexivity|].
  destruct IH as (sched & rs & E). revert s. induction p as [r|f k IH]; intros s.
  - exists (map Datatypes.S sched), (r :: rs). rewrite R. cbn. rewrite E. reflexivity.
  - destruct (IH s (f s)) as (s2 & rs2 & E2). exists (0 :: s2), rs2. cbn. exact E2.
Qed.
Print Assumptions C34_some_schedule.

(** no workers: ValueError of the executor; more arguments than parties: IndexError, while the
    workers already submitted run to the end *)
Theorem C34_refused : forall S A X (remote : option (list (X -> prog S A))) fn args states sched,
  parallel_execution remote fn [] states sched = Some (Err ValueError, states) /\
  (forall f fs out, length (f :: fs) < length args -> parallel_execution (Some (f :: fs)) fn args states sched = Some out -> fst out = Err IndexError).
Proof.
  intros S A X remote fn args states sched. split; [reflexivity|]. intros f fs out Hl H. unfold parallel_execution in H.
  destruct args; [cbn in Hl; lia|]. destruct (outcomes _); [|discriminate]. injection H as <-. cbn [fst].
  match goal with |- context [Nat.ltb ?a ?b] => destruct (Nat.ltb_spec a b) as [_|GE]; [reflexivity|exfalso; change (length (x :: args) <= length (f :: fs)) in GE; lia] end.
Qed.
Print Assumptions C34_refused.

(** three parties count; the second fails after one step, the third after two *)
Definition C34_fn (x : nat) : prog nat nat :=
  Act (fun s => s + x) (fun s => if Nat.eqb x 5 then Ret (Err KeyError)
    else Act (fun s => s * 2) (fun s' => if Nat.eqb x 7 then Ret (Err ValueError) else Ret (Ok (s + s')))).

Example C34_witness :
  parallel_execution None C34_fn [3; 5; 7] [10; 20; 30] [2; 1; 0; 2; 0] = Some (Err KeyError, [26; 25; 74]) /\
  parallel_execution None C34_fn [3; 5; 7] [10; 20; 30] [0; 0; 1; 2; 2; 1] = Some (Err KeyError, [26; 25; 74]) /\
  parallel_execution (Some [C34_fn; C34_fn]) C34_fn [3; 4] [10; 20] [1; 0; 0; 1] = Some (Ok [23; 44], [26; 48]).
Proof. repeat split. Qed.
