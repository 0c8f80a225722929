(** Specification: histories of class definitions and of share() calls. *)
From Coq Require Import String.
From Verif Require Import Util S_Ring S_Tensor M_Torch M_Encoder M_Session.

(** the registry after a history of class statements (failed ones included) *)
Definition after_classes (h : list classdef) : list (string * classdef) :=
  fold_left (fun reg c => snd (define_class reg c)) h [].

(** the table of sessions after a history of share() calls *)
Definition call := (option (list nat) * option shared_session * list string)%type.
Definition after_calls (h : list call) (st : parties_map) : parties_map :=
  fold_left (fun st c => snd (share_call st (fst (fst c)) (snd (fst c)) (snd c))) h st.

(** two lists of clients with the same members *)
Definition same_clients (a b : list nat) : Prop := forall x, In x a <-> In x b.
