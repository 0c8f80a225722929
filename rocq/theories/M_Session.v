(** Model of sessions: /repo/src/sympc/session/session.py, session_manager.py,
    session_utils.py, protocol/protocol.py and the [share] method of
    /repo/src/sympc/tensor/mpc_tensor.py:1189-1216. *)
From Coq Require Import String.
From Verif Require Import Util S_Ring S_Tensor M_Torch M_Encoder.
Local Open Scope Z_scope.

(* ------------------------------------------------------------------ *)
(** pseudo-random generators *)

(** A torch generator (utils/mpc_utils.py:71-81, get_new_generator) and
    [torch.empty(shape, dtype).random_(max_val, generator)] (mpc_utils.py:84-110): the
    values depend on the generator's state, the dtype, the bound and the number of
    elements only.  The Mersenne twister itself is not modelled: any such machine. *)
Record prng := mkPrng {
  pg_state : Type;
  pg_seed : Z -> pg_state;
  pg_draw : pg_state -> dtype -> option Z -> nat -> list Z * pg_state }.

(** the two share classes: protocol attribute [share_class] *)
Inductive share_class := CShare | CReplicated.

Section Session.
Variable g : prng.

(** the session object of one party (session.py:98-178, after session.copy 333-345 and
    setup_mpc): only the attributes used by the zero-share functions.  [ps_gens] is the
    list przs_generators, empty or with two generators. *)
Record psess := mkPS {
  ps_rank : nat; ps_uuid : nat; ps_nr : nat; ps_ring : Z; ps_class : share_class;
  ps_gens : option (pg_state g * pg_state g) }.

(** session.py:305-314 (init_generators) *)
Definition init_generators (s : psess) (seed_current seed_next : Z) : psess :=
  mkPS (ps_rank s) (ps_uuid s) (ps_nr s) (ps_ring s) (ps_class s)
       (Some (pg_seed g seed_current, pg_seed g seed_next)).

(** session.py:188-217 (_generate_random_share): both generators are advanced.  Unpacking an
    empty przs_generators list raises ValueError. *)
Definition generate_random_share (s : psess) (sh : list nat) (ring : Z)
  : result (list Z * list Z) * psess :=
  match ps_gens s with
  | None => (Err ValueError, s)
  | Some (g1, g2) =>
      match get_type_from_ring ring with
      | Err e => (Err e, s)
      | Ok d =>
          let max_val := if ring =? PRIME then Some PRIME else None in
          let (v1, g1') := pg_draw g g1 d max_val (numel sh) in
          let (v2, g2') := pg_draw g g2 d max_val (numel sh) in
          (Ok (v1, v2), mkPS (ps_rank s) (ps_uuid s) (ps_nr s) (ps_ring s) (ps_class s) (Some (g1', g2')))
      end
  end.

(** encoding with Config(encoder_precision=0) and conversion to the ring's dtype
    (share_tensor.py:128-133, replicatedshare_tensor.py:88-107) *)
Definition as_share (ring : Z) (v : list Z) : result (list Z) :=
  do d <- get_type_from_ring ring;
  Ok (map (cast d) (encode (mkConfig 2 0) (map NInt v))).

(** session.py:219-260 (przs_generate_random_share).  The result is the list of tensors of
    the share object: one tensor in both cases.  [ring = None] is the session's ring size.
    torch refuses to subtract boolean tensors with "-" (RuntimeError). *)
Definition przs (s : psess) (sh : list nat) (ring : option Z) : result (list tensor) * psess :=
  let r := match ring with None => ps_ring s | Some r => r end in
  let (p, s') := generate_random_share s sh r in
  (do p <- p;
   do v <- match ps_class s with
           | CShare => if r =? 2 then Err RuntimeError else
                       do d <- get_type_from_ring r;
                       Ok (map2 (fun a b => cast d (a - b)) (fst p) (snd p))
           | CReplicated => do op <- get_op r OSub; Ok (map2 op (fst p) (snd p))
           end;
   do w <- as_share r v;
   Ok [mkT sh w], s').

(** session.py:262-303 (prrs_generate_random_share): a share tensor holds the first value,
    a replicated tensor both *)
Definition prrs (s : psess) (sh : list nat) (ring : option Z) : result (list tensor) * psess :=
  let r := match ring with None => ps_ring s | Some r => r end in
  let (p, s') := generate_random_share s sh r in
  (do p <- p;
   match ps_class s with
   | CShare => do w <- as_share r (fst p); Ok [mkT sh w]
   | CReplicated => do w1 <- as_share r (fst p); do w2 <- as_share r (snd p); Ok [mkT sh w1; mkT sh w2]
   end, s').

(** a request made to every party of a session, as mpc_tensor.py:275 (generate_przs),
    falcon.py:171-177, aby3.py:139-141 do *)
Inductive request := RPrzs (sh : list nat) (ring : option Z) | RPrrs (sh : list nat) (ring : option Z).
Definition serve (r : request) (s : psess) : result (list tensor) * psess :=
  match r with RPrzs sh ring => przs s sh ring | RPrrs sh ring => prrs s sh ring end.
Definition joint (r : request) (ps : list psess) : list (result (list tensor)) * list psess :=
  (map (fun s => fst (serve r s)) ps, map (fun s => snd (serve r s)) ps).
Fixpoint joints (h : list request) (ps : list psess) : list psess :=
  match h with [] => ps | r :: h' => joints h' (snd (joint r ps)) end.

(* ------------------------------------------------------------------ *)
(** session construction and set-up *)

(** an instance of a protocol class: its class name, share class and security_type
    (fss.py:183-202, aby3.py:32-51, falcon.py:34-53) *)
Record proto := mkProto { pr_name : string; pr_class : share_class; pr_malicious : bool }.

(** the orchestrator's session (session.py:98-178); the attributes not listed are not
    needed by the modelled functions.  Party clients are numbers. *)
Record session := mkSession {
  ss_parties : list nat; ss_nr : nat; ss_proto : proto; ss_cfg : config;
  ss_ring : Z; ss_min : Z; ss_max : Z;
  ss_uuid : option nat; ss_ptrs : list psess; ss_r2u : list nat }.

(** session.py:98-178 (Session.__init__); [reg] is Protocol.registered_protocols.  A protocol
    given as None becomes FSS(), a missing "FSS" entry would be a KeyError. *)
Definition session_init (reg : list (string * share_class)) (parties : option (list nat)) (ring : Z)
  (cfg : option config) (protocol : option proto) : result session :=
  let ps := match parties with None => [] | Some l => l end in
  do p <- match protocol with
          | None => if existsb (fun e => String.eqb (fst e) "FSS") reg
                    then Ok (mkProto "FSS" CShare false) else Err KeyError
          | Some p => if existsb (fun e => String.eqb (fst e) (pr_name p)) reg
                      then Ok p else Err ValueError
          end;
  if (Nat.ltb 0 (List.length ps) && Nat.ltb (List.length ps) 3 && pr_malicious p)%bool then Err ValueError
  else
    do _ <- get_type_from_ring ring;
    Ok (mkSession ps (List.length ps) p (match cfg with Some c => c | None => default_config end)
          ring ((- ring) / 2) ((ring - 1) / 2) None [] []).

(** session_manager.py:49-59: one session per party with its rank and a fresh identifier
    ([uuids]: the values returned by uuid4) *)
Definition party_session (s : session) (rank uuid : nat) : psess :=
  mkPS rank uuid (ss_nr s) (ss_ring s) (pr_class (ss_proto s)) None.

(** session_manager.py:63-92 (_setup_przs): [seeds] are the nr_parties numbers drawn in line
    87; reading past the end is an IndexError *)
Fixpoint setup_przs_from (seeds : list Z) (nr rank : nat) (ptrs : list psess) : result (list psess) :=
  match ptrs with
  | [] => Ok []
  | p :: r =>
      match nth_error seeds rank, nth_error seeds (Nat.modulo (S rank) nr) with
      | Some a, Some b =>
          do rest <- setup_przs_from seeds nr (S rank) r;
          Ok (init_generators p a b :: rest)
      | _, _ => Err IndexError
      end
  end.

(** session_manager.py:37-61 (setup_mpc); [uuids] are the identifiers drawn for the parties,
    [own] the one drawn for the session itself *)
Definition setup_mpc (s : session) (uuids : list nat) (own : nat) (seeds : list Z) : result session :=
  let fresh := map (fun k => party_session s k (nth k uuids 0%nat)) (seq 0 (List.length (ss_parties s))) in
  do ptrs <- setup_przs_from (firstn (ss_nr s) seeds) (ss_nr s) 0 (ss_ptrs s ++ fresh);
  Ok (mkSession (ss_parties s) (ss_nr s) (ss_proto s) (ss_cfg s) (ss_ring s) (ss_min s) (ss_max s)
        (Some own) ptrs (firstn (List.length (ss_parties s)) uuids)).

(** mpc_tensor.py:673-679: the checks before an operation on two shared tensors *)
Definition same_session_check (a b : session) : result unit :=
  match pr_class (ss_proto a), pr_class (ss_proto b) with
  | CShare, CReplicated | CReplicated, CShare => Err TypeError
  | _, _ => if match ss_uuid a, ss_uuid b with
               | Some u, Some v => Nat.eqb u v
               | None, None => true
               | _, _ => false
               end then Ok tt else Err ValueError
  end.

End Session.

(* ------------------------------------------------------------------ *)
(** the dictionary of sessions of a process: session_utils.py:12-31; uuids are already
    strings there, here numbers *)
Definition sessions (S : Type) := list (nat * S).
Definition get_session {S} (d : sessions S) (uuid : nat) : option S :=
  option_map snd (List.find (fun e => Nat.eqb (fst e) uuid) d).
Definition set_session {S} (d : sessions S) (uuid : nat) (s : S) : sessions S :=
  (uuid, s) :: filter (fun e => negb (Nat.eqb (fst e) uuid)) d.

(* ------------------------------------------------------------------ *)
(** protocol classes *)

(** a class statement with metaclass Protocol: name and the two attributes as [getattr] finds
    them (inherited ones included), None when absent or None *)
Record classdef := mkClass { cd_name : string; cd_share : option share_class; cd_levels : option (list string) }.

(** protocol/protocol.py:17-49 (Protocol.__new__) *)
Definition define_class (reg : list (string * classdef)) (c : classdef)
  : result unit * list (string * classdef) :=
  match cd_share c with
  | None => (Err ValueError, reg)
  | Some _ =>
      match cd_levels c with
      | None => (Err ValueError, reg)
      | Some _ =>
          if existsb (fun e => String.eqb (fst e) (cd_name c)) reg then (Err ValueError, reg)
          else (Ok tt, reg ++ [(cd_name c, c)])
      end
  end.

(* ------------------------------------------------------------------ *)
(** tensor.share(...) *)

(** session.py:76-96: the attributes a Session object can have *)
Definition session_slots : list string :=
  ["id"; "tags"; "description"; "uuid"; "rank_to_uuid"; "parties"; "nr_parties";
   "trusted_third_party"; "crypto_store"; "protocol"; "config"; "przs_generators";
   "session_ptrs"; "rank"; "ring_size"; "min_value"; "max_value"; "tensor_type";
   "autograd_active"]%string.

(** mpc_tensor.py:131-138: keyword arguments of MPCTensor *)
Definition mpc_kwargs : list string := ["session"; "secret"; "shape"; "shares"; "requires_grad"]%string.

Definition mem (s : string) (l : list string) : bool := existsb (String.eqb s) l.

(** frozenset({client.id ...}) used as dictionary key: equality of sets *)
Definition same_set (a b : list nat) : bool :=
  forallb (fun x => existsb (Nat.eqb x) b) a && forallb (fun x => existsb (Nat.eqb x) a) b.

(** PARTIES_TO_SESSION: the set of client ids and the session, here the party list it was
    created with and its number in order of creation *)
Record shared_session := mkSS { sv_id : nat; sv_parties : list nat }.
Definition parties_map := list (list nat * shared_session).

(** mpc_tensor.py:1192-1216 (share) for a secret known by the caller.  [session] and
    [parties] are those keyword arguments, [kw] the names of the other ones.  The result is
    the session the tensor is shared in; a session with less than two parties makes the
    constructor fail (ValueError for none, IndexError for one, see M_Share.mpc_secret), an
    unknown keyword is a TypeError.  Session(...) itself cannot fail here (default protocol
    and ring size).  The new session is stored before set-up and before the attributes are
    set, so it stays when an attribute cannot be set. *)
Definition construct (s : shared_session) (kw : list string) : result shared_session :=
  if negb (forallb (fun k => mem k mpc_kwargs && negb (String.eqb k "secret")) kw) then Err TypeError
  else match List.length (sv_parties s) with
       | 0%nat => Err ValueError
       | 1%nat => Err IndexError
       | _ => Ok s
       end.
Definition share_call (st : parties_map) (parties : option (list nat)) (sess : option shared_session)
  (kw : list string) : result shared_session * parties_map :=
  match sess, parties with
  | None, None => (Err ValueError, st)
  | Some s, None => (construct s kw, st)
  | Some _, Some _ => (Err TypeError, st)  (* "parties" is not popped: unexpected keyword *)
  | None, Some ps =>
      match List.find (fun e => same_set (fst e) ps) st with
      | Some e => (construct (snd e) kw, st)
      | None =>
          let s := mkSS (List.length st) ps in
          let st' := st ++ [(ps, s)] in
          if forallb (fun k => mem k session_slots) kw then (construct s kw, st')
          else (Err AttributeError, st')
      end
  end.

(* ------------------------------------------------------------------ *)
(** equality of share tensors and sessions *)

(** a share tensor as [__eq__] sees it; tensors of one shape (torch "==" broadcasts
    otherwise, not modelled) *)
Record sharet := mkSh { se_data : list Z; se_cfg : config; se_uuid : option nat }.
Definition config_eqb (a b : config) : bool := (c_base a =? c_base b) && Nat.eqb (c_prec a) (c_prec b).
Definition list_eqb (a b : list Z) : bool :=
  Nat.eqb (List.length a) (List.length b) && forallb (fun p => fst p =? snd p) (combine a b).

(** share_tensor.py:387-416 (__eq__) *)
Definition share_eq (a b : sharet) : bool :=
  list_eqb (se_data a) (se_data b) && config_eqb (se_cfg a) (se_cfg b) &&
  match se_uuid a, se_uuid b with Some u, Some v => Nat.eqb u v | _, _ => true end.

(** the attributes Session.__eq__ compares (session.py:64-73 removed from 76-96), by value *)
Record sesscmp := mkSC { sc_uuid : option nat; sc_r2u : list nat; sc_nr : nat; sc_ttp : option nat;
  sc_proto : string * bool; sc_cfg : config; sc_rank : Z; sc_ring : Z; sc_min : Z; sc_max : Z;
  sc_type : dtype; sc_autograd : bool }.
Definition opt_eqb (a b : option nat) : bool :=
  match a, b with Some u, Some v => Nat.eqb u v | None, None => true | _, _ => false end.
(** session.py:316-331 (__eq__) between two sessions *)
Definition session_eq (a b : sesscmp) : bool :=
  opt_eqb (sc_uuid a) (sc_uuid b) &&
  (Nat.eqb (List.length (sc_r2u a)) (List.length (sc_r2u b)) &&
   forallb (fun p => Nat.eqb (fst p) (snd p)) (combine (sc_r2u a) (sc_r2u b))) &&
  Nat.eqb (sc_nr a) (sc_nr b) && opt_eqb (sc_ttp a) (sc_ttp b) &&
  (String.eqb (fst (sc_proto a)) (fst (sc_proto b)) && Bool.eqb (snd (sc_proto a)) (snd (sc_proto b))) &&
  config_eqb (sc_cfg a) (sc_cfg b) && (sc_rank a =? sc_rank b) && (sc_ring a =? sc_ring b) &&
  (sc_min a =? sc_min b) && (sc_max a =? sc_max b) && dtype_eqb (sc_type a) (sc_type b) &&
  Bool.eqb (sc_autograd a) (sc_autograd b).
