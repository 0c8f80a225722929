(** Model of copies of sessions and of the equality of protocol objects:
    /repo/src/sympc/session/session.py:98-186, 333-345, session_manager.py:36-60 and the __eq__
    methods of the protocols.  Sessions are given by the attributes Session.__eq__ compares
    ([sesscmp] of M_Session.v). *)
From Coq Require Import String.
From Verif Require Import Util S_Ring S_Tensor M_Torch M_Encoder M_Session.
Local Open Scope Z_scope.

(** session.py:98-178 (__init__): [nr] is the number of parties; the checks of the protocol and
    the number of parties are in [session_init] *)
Definition new_session (nr : nat) (ring : Z) (cfg : config) (proto : string * bool) (ttp : option nat) : result sesscmp :=
  do d <- get_type_from_ring ring;
  Ok (mkSC None [] nr ttp proto cfg (-1) ring ((- ring) / 2) ((ring - 1) / 2) d false).

(** session.py:333-345 (copy): Session() and four assignments.  deepcopy of the configuration is
    the same value. *)
Definition session_copy (s : sesscmp) : result sesscmp :=
  do n <- new_session 0 (2^64) default_config ("FSS"%string, false) None;
  Ok (mkSC (sc_uuid n) (sc_r2u n) (sc_nr s) (sc_ttp n) (sc_proto s) (sc_cfg s) (sc_rank n) (sc_ring s)
           (sc_min n) (sc_max n) (sc_type n) (sc_autograd n)).

(** session.py:180-186 (get_protocol) *)
Definition get_protocol (s : sesscmp) : string * bool := sc_proto s.

(** session_manager.py:46-56: what is sent to the party of the given rank *)
Definition sent_to (s : sesscmp) (rank uuid : nat) : result sesscmp :=
  do c <- session_copy s;
  Ok (mkSC (Some uuid) (sc_r2u c) (sc_nr c) (sc_ttp c) (sc_proto c) (sc_cfg c) (Z.of_nat rank) (sc_ring c)
           (sc_min c) (sc_max c) (sc_type c) (sc_autograd c)).

(** an arbitrary python object: its class and its attribute security_type, if it has one *)
Record pyobj := mkObj { ob_class : string; ob_security : option string }.
(** aby3.py:53-68, falcon.py:68-83, fss.py:243-258 (__eq__ of the three protocols), [self] being an
    instance of one of them *)
Definition proto_eq (self other : pyobj) : result bool :=
  match ob_security self, ob_security other with
  | Some a, Some b => if negb (String.eqb a b) then Ok false else Ok (String.eqb (ob_class self) (ob_class other))
  | _, _ => Err AttributeError
  end.
