(** Specification: what a program of M_Program.v makes, what its calls of backward visit, and which
    of those calls the code handles. *)
From Verif Require Import Util S_Ring S_Tensor S_Autograd S_Flow M_Torch M_Encoder M_Tensor M_Share M_Spdz M_Store M_Fss M_Engine M_Autograd M_Program.
Local Open Scope list_scope.

Section Prog.
  Context {K : Type}.
  Notation W := (mpcw (K:=K)).
  Notation nd := (node W mpc).

  (** the tensors a program makes *)
  Fixpoint mades (l : list (gstep (K:=K))) : list (gstep (K:=K)) :=
    match l with [] => [] | GBack _ _ :: r => mades r | e :: r => e :: mades r end.
  Definition outline1 (e : gstep (K:=K)) : bool * list nat :=
    match e with GNew _ b => (b, []) | GCall ps _ _ => (false, ps) | GBack _ _ => (false, []) end.
  Definition outline (l : list (gstep (K:=K))) : list (bool * list nat) := map outline1 (mades l).
  (** what earlier calls of backward visited *)
  Definition seen (l : list (gstep (K:=K))) (i : nat) : Prop :=
    exists r g, In (GBack r g) l /\ below (opnds (outline l)) r i.
  (** every call of backward is fair *)
  Inductive fairs : list (gstep (K:=K)) -> Prop :=
  | fs_nil : fairs []
  | fs_new l x b : fairs l -> fairs (l ++ [GNew x b])
  | fs_call l ps fw plain : fairs l -> fairs (l ++ [GCall ps fw plain])
  | fs_back l root g : fairs l -> fair (outline l) (seen l) root -> fairs (l ++ [GBack root g]).

  (** what stands at a node made by [e] *)
  Definition made_by (nodes : list nd) (n : nd) (e : gstep (K:=K)) : Prop :=
    match e with
    | GNew x b => n_val n = x
    | GCall ps fw _ => exists ns b w0 w1, Forall2 (fun j m => option_map n_val (nth_error nodes j) = Some m) ps ns /\
                         fw ns w0 = (Ok (n_val n, b), w1) /\ n_fun n = Some b
    | GBack _ _ => False
    end.

  (** what a computation may return *)
  Definition returns {A} (m : comp W A) (a : A) : Prop := exists w w', m w = (Ok a, w').
  (** the gradient a tensor has *)
  Definition old_grad (nodes : list nd) (i : nat) : option mpc := match nth_error nodes i with Some n => n_grad n | None => None end.
  (** what the function recorded at a tensor may return for the gradient [x] *)
  Definition passes_on (nodes : list nd) (c : nat) (x : mpc) (gs : list mpc) : Prop :=
    exists n b, nth_error nodes c = Some n /\ n_fun n = Some b /\ returns (b x) gs.
  (** the gradient of the root: the given one, or a sharing of ones *)
  Definition start (s : sess) (on : nat -> list nat -> list (list Z)) (nodes : list nd) (root : nat) (gradient : option mpc) (x : mpc) : Prop :=
    match gradient with Some g => x = g | None => exists n, nth_error nodes root = Some n /\ returns (mones s on (m_shape (n_val n))) x end.
End Prog.
