(** Model of parallel_execution, /repo/src/sympc/utils/utils.py:46-128.
    A worker is the function of one party applied to its arguments: a sequence of atomic steps
    on the state of that party.  The threads run in any order, step by step: a schedule is a
    list of worker numbers.  Simplification: a worker touches no state but that of its party,
    and the event loop (lines 66-76, 109) is left out.  cpu_bound (lines 92-95, processes
    instead of threads) is not modelled: no caller in the repository sets it. *)
From Verif Require Import Util.

Section Par.
  Context {S A : Type}.

  (** a running function: finished with a value or an exception, or one more step that changes
      the state of the party; what comes next depends on the state before the step *)
  Inductive prog := Ret (r : result A) | Act (f : S -> S) (k : S -> prog).

  (** one step of a worker *)
  Definition step1 (c : S * prog) : S * prog :=
    match snd c with Ret _ => c | Act f k => (f (fst c), k (fst c)) end.

  Fixpoint at_nth {B} (i : nat) (g : B -> B) (l : list B) : list B :=
    match l, i with [], _ => [] | b :: l, O => g b :: l | b :: l, Datatypes.S i => b :: at_nth i g l end.

  (** lines 111-118: the workers under a schedule; leaving the [with] block waits for all *)
  Fixpoint run (sched : list nat) (cs : list (S * prog)) : list (S * prog) :=
    match sched with [] => cs | i :: r => run r (at_nth i step1 cs) end.

  Definition outcome (c : S * prog) : option (result A) := match snd c with Ret r => Some r | Act _ _ => None end.
  Fixpoint outcomes (cs : list (S * prog)) : option (list (result A)) :=
    match cs with
    | [] => Some []
    | c :: cs => match outcome c, outcomes cs with Some r, Some l => Some (r :: l) | _, _ => None end
    end.

  (** line 120: f.result() in the order of submission; the first exception is raised *)
  Fixpoint collect (l : list (result A)) : result (list A) :=
    match l with
    | [] => Ok []
    | Ok a :: l => match collect l with Ok v => Ok (a :: v) | Err e => Err e end
    | Err e :: _ => Err e
    end.

  (** lines 78-122 (wrapper).  [args]: one list of arguments per worker; [funcs] are the
      functions of line 100 (remote) or, without parties, copies of the function (line 106).
      No worker at all: the executor refuses max_workers = 0.  Fewer functions than argument
      lists: funcs[i] raises IndexError in the loop, after the earlier workers were submitted.
      [None]: the schedule does not finish the workers. *)
  Definition parallel_execution {X} (remote : option (list (X -> prog))) (fn : X -> prog) (args : list X)
    (states : list S) (sched : list nat) : option (result (list A) * list S) :=
    match args with
    | [] => Some (Err ValueError, states)
    | _ =>
      let funcs := match remote with Some (f :: fs) => f :: fs | _ => repeat fn (length args) end in
      let cs := map (fun p => (fst p, (fst (snd p)) (snd (snd p)))) (combine states (combine funcs args)) in
      let cs' := run sched cs in
      match outcomes cs' with
      | None => None
      | Some rs => Some (if Nat.ltb (length funcs) (length args) then Err IndexError else collect rs,
                         map fst cs' ++ skipn (length cs') states)
      end
    end.
End Par.
Arguments prog : clear implicits.
