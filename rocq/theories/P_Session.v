(** Properties C06, C07, C35, C36, C37, C53, C54: sessions, zero shares, registries.
    Specifications: S_Session (contract of a generator, synchronisation), S_Rep
    (replicated sharings), S_Calls (histories), S_Ring, S_Tensor. *)
From Coq Require Import String.
From Verif Require Import Util S_Ring S_Tensor S_Rep M_Torch M_Encoder M_Tensor M_Share M_Session S_Session S_Calls
  L_Torch L_Tensor L_Share L_Session L_Calls.
Local Open Scope Z_scope.

(** C06: after set-up and any history of joint requests, the next zero shares add up to zero
    in the requested ring, and the generators are (and stay) synchronised.  Sessions with
    replicated sharing: every ring.  Sessions with additive sharing: every ring but 2 and 67. *)
Theorem C06_zero_shares_partial : forall g s uuids own seeds s' h sh ring,
  prng_ok g -> ss_ptrs g s = [] -> ss_nr g s = length (ss_parties g s) -> (1 <= ss_nr g s)%nat ->
  length uuids = ss_nr g s -> length seeds = ss_nr g s ->
  setup_mpc g s uuids own seeds = Ok s' ->
  let r := match ring with None => ss_ring g s | Some r => r end in
  supported r -> (pr_class (ss_proto g s) = CShare -> r <> 2 /\ r <> 67) ->
  let ps := joints g h (ss_ptrs g s') in
  let ans := joint g (RPrzs sh ring) ps in
  synchronised ps /\ synchronised (snd ans) /\
  exists ts, fst ans = map (fun t => Ok [t]) ts /\ length ts = ss_nr g s /\
    shared r sh (repeat 0 (numel sh)) ts.
Proof.
  intros g s uuids own seeds s' h sh ring Hg H1 H2 H3 H4 H5 E r Hr Hc ps ans.
  rewrite setup_ok in E by auto. injection E as <-. cbn [ss_ptrs] in ps.
  destruct (joints_ringed g h (ss_nr g s) (ss_nr g s) (ss_ring g s) (pr_class (ss_proto g s)) (fun k => k)
    (fun k => nth k uuids 0%nat) (fun k => pg_seed g (nth k seeds 0))) as [gs E].
  subst ans ps. rewrite E. split; [apply ringed_sync; lia|]. split.
  - rewrite joint_ringed. apply ringed_sync; lia.
  - apply (joint_przs g Hg); auto.
Qed.
Print Assumptions C06_zero_shares_partial.

(** a session of three parties, replicated sharing, in the ring 67, after two requests *)
Definition ex_session (c : share_class) (n : nat) : session toy_prng :=
  mkSession toy_prng (seq 10 n) n (mkProto "ABY3" c false) default_config (2^64) (-2^63) (2^63 - 1) None [] [].
Example C06_witness :
  prng_ok toy_prng /\
  exists s', setup_mpc toy_prng (ex_session CReplicated 3) [7; 8; 9]%nat 5 [111; 222; 333] = Ok s' /\
    let ps := joints toy_prng [RPrrs [3%nat] None; RPrzs [2%nat; 2%nat] (Some (2^16))] (ss_ptrs _ s') in
    exists a b c, fst (joint toy_prng (RPrzs [1%nat] (Some 67)) ps) =
      [Ok [mkT [1%nat] [a]]; Ok [mkT [1%nat] [b]]; Ok [mkT [1%nat] [c]]] /\
      a <> 0 /\ b <> 0 /\ (a + b + c) mod 67 = 0.
Proof.
  split; [apply toy_prng_ok|]. eexists. split; [reflexivity|]. cbn zeta. do 3 eexists.
  split; [vm_compute; reflexivity|]. repeat split; discriminate.
Qed.

(** C06 for additive sharing in the ring 67: the zero shares need not add up to zero (the
    8-bit difference is not reduced modulo 67). *)
Theorem C06_prime_refuted : exists g s uuids own seeds s' sh a b,
  prng_ok g /\ ss_ptrs g s = [] /\ ss_nr g s = length (ss_parties g s) /\
  pr_class (ss_proto g s) = CShare /\ NoDup uuids /\
  setup_mpc g s uuids own seeds = Ok s' /\
  fst (joint g (RPrzs sh (Some 67)) (ss_ptrs g s')) = [Ok [mkT sh [a]]; Ok [mkT sh [b]]] /\
  (a + b) mod 67 <> 0.
Proof.
  exists toy_prng, (ex_session CShare 2), [7; 8]%nat, 5%nat, [111; 222]. eexists. exists [1%nat]. do 2 eexists.
  split; [apply toy_prng_ok|]. split; [reflexivity|]. split; [reflexivity|]. split; [reflexivity|].
  split; [repeat constructor; cbn; intuition discriminate|].
  split; [reflexivity|]. split; [vm_compute; reflexivity|]. vm_compute. discriminate.
Qed.
Print Assumptions C06_prime_refuted.

(** C06 for additive sharing of bits: every party raises RuntimeError. *)
Theorem C06_bits_always_fail : forall g s sh, ps_class g s = CShare -> ps_gens g s <> None ->
  fst (przs g s sh (Some 2)) = Err RuntimeError.
Proof.
  intros g s sh Hc Hg. unfold przs. rewrite Hc. unfold generate_random_share.
  destruct (ps_gens g s) as [[g1 g2]|]; [|congruence].
  cbn [get_type_from_ring]. change (get_type_from_ring 2) with (Ok TBool).
  change (2 =? PRIME) with false. cbn match.
  destruct (pg_draw g g1 TBool None (numel sh)), (pg_draw g g2 TBool None (numel sh)). reflexivity.
Qed.
Print Assumptions C06_bits_always_fail.

Example C06_bits_witness :
  let s := mkPS toy_prng 0 1 2 (2^64) CShare (Some (3, 4)) in
  ps_gens _ s <> None /\ fst (przs toy_prng s [2%nat] (Some 2)) = Err RuntimeError.
Proof. cbn zeta. split; [discriminate|reflexivity]. Qed.

(** C07: random replicated shares of three parties are the views of one sharing. *)
Theorem C07_random_sharing : forall g s uuids own seeds s' h sh ring,
  prng_ok g -> ss_ptrs g s = [] -> ss_nr g s = 3%nat -> length (ss_parties g s) = 3%nat ->
  length uuids = 3%nat -> length seeds = 3%nat ->
  pr_class (ss_proto g s) = CReplicated ->
  setup_mpc g s uuids own seeds = Ok s' ->
  let r := match ring with None => ss_ring g s | Some r => r end in
  supported r ->
  let ps := joints g h (ss_ptrs g s') in
  exists v views, fst (joint g (RPrrs sh ring) ps) = map Ok views /\ length views = 3%nat /\
    replicated r sh v views.
Proof.
  intros g s uuids own seeds s' h sh ring Hg H1 H2 H3 H4 H5 H6 E r Hr ps.
  rewrite setup_ok in E by lia || auto. injection E as <-. cbn [ss_ptrs] in ps.
  destruct (joints_ringed g h (ss_nr g s) (ss_nr g s) (ss_ring g s) (pr_class (ss_proto g s)) (fun k => k)
    (fun k => nth k uuids 0%nat) (fun k => pg_seed g (nth k seeds 0))) as [gs E].
  subst ps. rewrite E, H6, H2.
  destruct (joint_prrs g Hg 3 (ss_ring g s) (fun k => k) (fun k => nth k uuids 0%nat) gs sh ring Hr)
    as (v & ps & E1 & E2).
  exists v, ps. split; [exact E1|]. split; [|exact E2].
  assert (L : length (map (@Ok (list tensor)) ps) = 3%nat) by (rewrite <- E1; reflexivity).
  rewrite map_length in L. exact L.
Qed.
Print Assumptions C07_random_sharing.

Example C07_witness :
  exists s', setup_mpc toy_prng (ex_session CReplicated 3) [7; 8; 9]%nat 5 [111; 222; 333] = Ok s' /\
    exists a b c, fst (joint toy_prng (RPrrs [] (Some 2)) (joints toy_prng [RPrzs [2%nat] None] (ss_ptrs _ s'))) =
      [Ok [mkT [] [a]; mkT [] [b]]; Ok [mkT [] [b]; mkT [] [c]]; Ok [mkT [] [c]; mkT [] [a]]].
Proof. eexists. split; [reflexivity|]. do 3 eexists. vm_compute. reflexivity. Qed.

(** C35: construction succeeds exactly for a registered protocol, a supported ring size and
    not malicious with one or two parties; otherwise ValueError. *)
Theorem C35_construction : forall g reg parties ring cfg p,
  let ps := match parties with None => [] | Some l => l end in
  let acceptable := In (pr_name p) (map fst reg) /\ supported ring /\
                    ~ ((1 <= length ps <= 2)%nat /\ pr_malicious p = true) in
  (acceptable -> exists s, session_init g reg parties ring cfg (Some p) = Ok s /\
     ss_parties g s = ps /\ ss_nr g s = length ps /\ ss_proto g s = p /\ ss_ring g s = ring /\
     ss_ptrs g s = [] /\ ss_uuid g s = None) /\
  (~ acceptable -> session_init g reg parties ring cfg (Some p) = Err ValueError) /\
  (In "FSS"%string (map fst reg) ->
     session_init g reg parties ring cfg None =
     session_init g reg parties ring cfg (Some (mkProto "FSS" CShare false))).
Proof.
  intros g reg parties ring cfg p ps acc.
  destruct (session_init_iff g reg parties ring cfg p) as [A B]. split; [|split].
  - intros H. rewrite A by exact H. eexists. split; [reflexivity|]. repeat split.
  - intros H. apply B, H.
  - apply session_init_default.
Qed.
Print Assumptions C35_construction.

(** C35: for every supported ring size but 67 the bounds are those of the signed integers:
    every integer has exactly one representative between them. *)
Theorem C35_bounds_partial : forall g reg parties ring cfg p s z,
  session_init g reg parties ring cfg p = Ok s -> ring <> 67 ->
  exists! v, ss_min g s <= v <= ss_max g s /\ exists k, z = v + k * ring.
Proof.
  intros g reg parties ring cfg p s z E H67.
  assert (S : supported ring /\ ss_min g s = (- ring) / 2 /\ ss_max g s = (ring - 1) / 2).
  { unfold session_init in E.
    destruct (match p with Some _ => _ | None => _ end) as [q|]; cbn [rbind] in E; [|discriminate].
    destruct (_ && _)%bool in E; [discriminate|].
    destruct (get_type_from_ring ring) eqn:T; cbn [rbind] in E; [|discriminate].
    injection E as <-. split; [eapply supported_type; eauto|]. split; reflexivity. }
  destruct S as (S & -> & ->). apply bounds_even; auto.
Qed.
Print Assumptions C35_bounds_partial.

Example C35_witness :
  let reg := [("FSS"%string, CShare); ("Falcon"%string, CReplicated)] in
  let p := mkProto "Falcon" CReplicated true in
  (exists s, session_init toy_prng reg (Some [1; 2; 3]%nat) (2^32) None (Some p) = Ok s /\
     ss_min _ s = - 2^31 /\ ss_max _ s = 2^31 - 1) /\
  session_init toy_prng reg (Some [1; 2]%nat) (2^32) None (Some p) = Err ValueError /\
  session_init toy_prng reg (Some [1; 2; 3]%nat) 100 None None = Err ValueError /\
  session_init toy_prng reg None (2^8) None (Some (mkProto "GMW" CShare false)) = Err ValueError.
Proof. cbn zeta. repeat split. eexists. repeat split. Qed.

(** C35 for the ring size 67: the bounds -34 and 33 denote the same residue. *)
Theorem C35_prime_bounds_refuted : exists g reg s,
  session_init g reg None 67 None None = Ok s /\
  ss_min g s <> ss_max g s /\ (ss_max g s - ss_min g s) mod 67 = 0.
Proof.
  exists toy_prng, [("FSS"%string, CShare)]. eexists. split; [reflexivity|]. split; [discriminate|reflexivity].
Qed.
Print Assumptions C35_prime_bounds_refuted.

(** C36: set-up. *)
Theorem C36_setup : forall g s uuids own seeds,
  ss_ptrs g s = [] -> ss_nr g s = length (ss_parties g s) ->
  length uuids = ss_nr g s -> length seeds = ss_nr g s -> NoDup (own :: uuids) ->
  exists s', setup_mpc g s uuids own seeds = Ok s' /\ ss_uuid g s' = Some own /\
    length (ss_ptrs g s') = length (ss_parties g s) /\ ss_r2u g s' = uuids /\
    NoDup (own :: map (ps_uuid g) (ss_ptrs g s')) /\
    forall k p, nth_error (ss_ptrs g s') k = Some p ->
      ps_rank g p = k /\ nth_error (ss_r2u g s') k = Some (ps_uuid g p) /\
      ps_ring g p = ss_ring g s /\ ps_nr g p = ss_nr g s /\
      exists a b, nth_error seeds k = Some a /\
        nth_error seeds (if Nat.eqb (S k) (ss_nr g s) then 0 else S k)%nat = Some b /\
        ps_gens g p = Some (pg_seed g a, pg_seed g b).
Proof.
  intros g s uuids own seeds H1 H2 H3 H4 H5. rewrite setup_ok by auto. eexists. split; [reflexivity|].
  cbn [ss_uuid ss_ptrs ss_r2u]. split; [reflexivity|].
  split; [unfold ringed; rewrite map_length, seq_length; auto|]. split; [reflexivity|]. split.
  - unfold ringed. rewrite map_map. cbn [ps_uuid].
    rewrite <- H3, map_nth_seq. exact H5.
  - intros k p Hp. unfold ringed in Hp.
    assert (Hk : (k < ss_nr g s)%nat).
    { assert (E : nth_error (map (fun k : nat => mkPS g k (nth k uuids 0%nat) (ss_nr g s) (ss_ring g s)
         (pr_class (ss_proto g s)) (Some (pg_seed g (nth k seeds 0),
          pg_seed g (nth (Nat.modulo (S k) (ss_nr g s)) seeds 0)))) (seq 0 (ss_nr g s))) k <> None) by congruence.
      apply nth_error_Some in E. rewrite map_length, seq_length in E. exact E. }
    rewrite (map_nth_error_eq _ k (seq 0 (ss_nr g s)) k) in Hp.
    2: { rewrite (nth_error_nth' _ 0%nat) by (rewrite seq_length; auto). rewrite seq_nth by auto. reflexivity. }
    injection Hp as <-. cbn [ps_rank ps_uuid ps_ring ps_nr ps_gens].
    split; [reflexivity|]. split; [apply nth_error_nth'; lia|]. split; [reflexivity|]. split; [reflexivity|].
    exists (nth k seeds 0), (nth (Nat.modulo (S k) (ss_nr g s)) seeds 0).
    split; [apply nth_error_nth'; lia|]. split; [|reflexivity].
    destruct (Nat.eqb_spec (S k) (ss_nr g s)) as [E|E].
    + rewrite E, Nat.mod_same by lia. apply nth_error_nth'; lia.
    + rewrite Nat.mod_small by lia. apply nth_error_nth'; lia.
Qed.
Print Assumptions C36_setup.

Example C36_witness :
  let s := ex_session CReplicated 3 in
  NoDup (5 :: [7; 8; 9])%nat /\ ss_nr _ s = length (ss_parties _ s) /\
  setup_mpc toy_prng s [7; 8; 9]%nat 5 [11; 22; 33] =
  Ok (mkSession toy_prng [10; 11; 12]%nat 3 (mkProto "ABY3" CReplicated false) default_config (2^64) (-2^63) (2^63 - 1)
    (Some 5%nat)
    [mkPS toy_prng 0 7 3 (2^64) CReplicated (Some (11, 22)); mkPS toy_prng 1 8 3 (2^64) CReplicated (Some (22, 33));
     mkPS toy_prng 2 9 3 (2^64) CReplicated (Some (33, 11))] [7; 8; 9]%nat).
Proof. cbn zeta. split; [repeat constructor; cbn; intuition discriminate|]. split; reflexivity. Qed.

(** C36: operations between tensors of different sessions are refused. *)
Theorem C36_different_sessions : forall g a b u v,
  ss_uuid g a = Some u -> ss_uuid g b = Some v -> u <> v ->
  (same_session_check g a b = Err ValueError \/ same_session_check g a b = Err TypeError) /\
  forall o x y, m_sid x = u -> m_sid y = v -> mpc_lin o x y = Err ValueError.
Proof.
  intros g a b u v Ha Hb Huv. apply Nat.eqb_neq in Huv. split.
  - unfold same_session_check. rewrite Ha, Hb, Huv.
    destruct (pr_class (ss_proto g a)), (pr_class (ss_proto g b)); auto.
  - intros o x y <- <-. unfold mpc_lin. rewrite Huv. reflexivity.
Qed.
Print Assumptions C36_different_sessions.

(** C36, set-up called twice on one session: the second call fails (the party sessions are
    appended, the seeds are not). *)
Theorem C36_second_setup_fails : forall g s uuids own seeds s' uuids2 own2 seeds2,
  ss_ptrs g s = [] -> ss_nr g s = length (ss_parties g s) -> (1 <= ss_nr g s)%nat ->
  length uuids = ss_nr g s -> length seeds = ss_nr g s ->
  setup_mpc g s uuids own seeds = Ok s' ->
  length seeds2 = ss_nr g s ->
  setup_mpc g s' uuids2 own2 seeds2 = Err IndexError.
Proof.
  intros g s uuids own seeds s' uuids2 own2 seeds2 H1 H2 H3 H4 H5 E H6.
  rewrite setup_ok in E by auto. injection E as <-.
  unfold setup_mpc. cbn [ss_nr ss_ptrs ss_parties].
  rewrite setup_przs_over; [reflexivity| | |lia].
  - rewrite app_length. unfold ringed. rewrite !map_length, !seq_length, firstn_length. lia.
  - lia.
Qed.
Print Assumptions C36_second_setup_fails.

Example C36_second_setup_witness :
  exists s', setup_mpc toy_prng (ex_session CShare 2) [7; 8]%nat 5 [11; 22] = Ok s' /\
    setup_mpc toy_prng s' [17; 18]%nat 15 [111; 122] = Err IndexError.
Proof. eexists. split; reflexivity. Qed.

(** C37: without further keyword arguments, calls for the same set of clients use one session,
    whatever happened before and in between, and the session is for exactly these clients;
    it fails only if there are not two different clients. *)
Theorem C37_one_session_partial : forall h1 h2 ps ps', same_clients ps ps' ->
  let st := after_calls h1 [] in
  let r1 := share_call st (Some ps) None [] in
  let r2 := share_call (after_calls h2 (snd r1)) (Some ps') None [] in
  fst r2 = fst r1 /\
  match fst r1 with
  | Ok s => same_clients (sv_parties s) ps
  | Err _ => exists a, forall x, In x ps -> x = a
  end.
Proof.
  intros h1 h2 ps ps' H. cbn zeta. split; [apply share_call_stable, H|apply share_call_members].
Qed.
Print Assumptions C37_one_session_partial.

Example C37_witness :
  same_clients [4; 5]%nat [5; 4]%nat /\
  let h1 := [(Some [1; 2]%nat, None, []); (Some [4]%nat, None, ["requires_grad"%string])] in
  share_call (after_calls h1 []) (Some [4; 5]%nat) None [] =
    (Ok (mkSS 2 [4; 5]%nat), [([1; 2]%nat, mkSS 0 [1; 2]%nat); ([4]%nat, mkSS 1 [4]%nat);
                              ([4; 5]%nat, mkSS 2 [4; 5]%nat)]).
Proof. split; [intros x; cbn; tauto|reflexivity]. Qed.

(** C37 refuted: with requires_grad the first call fails and the second, identical, succeeds. *)
Theorem C37_keyword_refuted : exists ps kw,
  let r1 := share_call [] (Some ps) None kw in
  fst r1 = Err AttributeError /\
  exists s, fst (share_call (snd r1) (Some ps) None kw) = Ok s.
Proof. exists [1; 2]%nat, ["requires_grad"%string]. split; [reflexivity|]. eexists. reflexivity. Qed.
Print Assumptions C37_keyword_refuted.

(** C37 refuted, even without keyword arguments: a client listed twice. *)
Theorem C37_repeated_client_refuted : exists ps h,
  (exists s, fst (share_call [] (Some ps) None []) = Ok s) /\
  fst (share_call (after_calls h []) (Some ps) None []) = Err IndexError.
Proof.
  exists [4; 4]%nat, [(Some [4]%nat, None, [])]. split; [eexists|]; reflexivity.
Qed.
Print Assumptions C37_repeated_client_refuted.

(** C53: after any history of class statements the registered names are distinct and each is
    the name of a class with a share class and security levels; a further statement succeeds
    exactly for a complete class with a new name and then adds just that class at the end,
    otherwise it raises ValueError and changes nothing. *)
Theorem C53_registry : forall h c,
  let reg := after_classes h in
  let ok := cd_share c <> None /\ cd_levels c <> None /\ ~ In (cd_name c) (map fst reg) in
  NoDup (map fst reg) /\
  (forall n d, In (n, d) reg -> cd_name d = n /\ cd_share d <> None /\ cd_levels d <> None) /\
  (ok -> define_class reg c = (Ok tt, reg ++ [(cd_name c, c)])) /\
  (~ ok -> define_class reg c = (Err ValueError, reg)).
Proof.
  intros h c reg ok. destruct (after_classes_ok h) as [A B]. fold reg in A, B.
  split; [exact A|]. split; [exact B|].
  destruct (define_class_cases reg c) as [[D E]|[D E]].
  - split; [|auto]. intros (O1 & O2 & O3). destruct D as [D|[D|D]]; contradiction.
  - split; [auto|]. intros N. contradiction.
Qed.
Print Assumptions C53_registry.

Example C53_witness :
  let fss := mkClass "FSS" (Some CShare) (Some ["semi-honest"%string]) in
  after_classes [fss; mkClass "X" None (Some []); mkClass "FSS" (Some CReplicated) (Some [])] = [("FSS"%string, fss)].
Proof. reflexivity. Qed.

(** C54: equality of share tensors is reflexive and symmetric, and transitive through a share
    that carries a session identifier; equality of sessions is equality of the compared
    attributes, hence an equivalence. *)
Theorem C54_equality_partial :
  (forall a, share_eq a a = true) /\
  (forall a b, share_eq a b = share_eq b a) /\
  (forall a b c, se_uuid b <> None -> share_eq a b = true -> share_eq b c = true -> share_eq a c = true) /\
  (forall a b, session_eq a b = true <-> a = b).
Proof.
  exact (conj share_eq_refl (conj share_eq_sym (conj share_eq_trans session_eq_eq))).
Qed.
Print Assumptions C54_equality_partial.

Example C54_witness :
  let a := mkSh [1; 2] default_config None in
  let b := mkSh [1; 2] default_config (Some 3%nat) in
  se_uuid b <> None /\ share_eq a b = true /\ share_eq b b = true /\ share_eq b (mkSh [1; 2] default_config (Some 4%nat)) = false.
Proof. cbn zeta. split; [discriminate|]. repeat split. Qed.

(** C54 refuted: not transitive, a share without session identifier equals both. *)
Theorem C54_transitivity_refuted : exists a b c,
  share_eq a b = true /\ share_eq b c = true /\ share_eq a c = false.
Proof.
  exists (mkSh [5] default_config (Some 1%nat)), (mkSh [5] default_config None), (mkSh [5] default_config (Some 2%nat)).
  repeat split.
Qed.
Print Assumptions C54_transitivity_refuted.
