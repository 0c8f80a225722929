(** Lemmas about sessions: zero shares and random shares after any history. *)
From Coq Require Import String.
From Verif Require Import Util Modular S_Ring S_Tensor S_Rep M_Torch M_Encoder M_Session S_Session
  L_Torch L_Tensor L_Share.
Local Open Scope Z_scope.

Lemma toy_prng_ok : prng_ok toy_prng.
Proof.
  intros st d m k. cbn [toy_prng pg_draw]. revert st.
  induction k as [|k IH]; intros st; cbn [toy_draw]; [split; [reflexivity|constructor]|].
  set (s' := (st * 6364136223846793005 + 1442695040888963407) mod 2^64).
  specialize (IH s'). destruct (toy_draw d m k s') as [v s''] eqn:E. cbn [fst length] in *.
  destruct IH as [I1 I2]. split; [congruence|]. constructor; auto.
  generalize (s' / 2^7); intros u. unfold toy_fit. destruct m as [b|]; [intros Hb; apply Z.mod_pos_bound, Hb|].
  destruct d; cbn [dtype_range]; lia.
Qed.

Lemma map_nth_error_eq {A B} (f : A -> B) i l a : nth_error l i = Some a -> nth_error (map f l) i = Some (f a).
Proof. apply map_nth_error. Qed.

(** cyclic shift of a sum *)
Lemma cyclic_map {A} (f : nat -> A) n : (0 < n)%nat ->
  map (fun k => f (Nat.modulo (S k) n)) (seq 0 n) = map f (seq 1 (n - 1)) ++ [f 0%nat].
Proof.
  intros Hn. destruct n as [|m]; [lia|]. rewrite seq_S, map_app. cbn [plus map].
  rewrite Nat.mod_same by lia. f_equal.
  replace (S m - 1)%nat with m by lia. rewrite <- seq_shift, map_map.
  apply map_ext_in. intros k Hk. apply in_seq in Hk. rewrite Nat.mod_small by lia. reflexivity.
Qed.

Lemma cyclic_sum (f : nat -> Z) n : (0 < n)%nat ->
  zsum (map (fun k => f (Nat.modulo (S k) n)) (seq 0 n)) = zsum (map f (seq 0 n)).
Proof.
  intros Hn. rewrite cyclic_map by auto. destruct n as [|m]; [lia|].
  rewrite zsum_app. cbn [seq map zsum]. replace (S m - 1)%nat with m by lia. lia.
Qed.

(** values of a ring's dtype *)
Lemma range_in_ring ring d v : get_type_from_ring ring = Ok d -> ring <> 67 -> dtype_range d v -> in_ring ring v.
Proof.
  unfold get_type_from_ring. intros H H67 Hv.
  destruct (Z.eqb_spec ring 2) as [->|_].
  { injection H as <-. cbn [dtype_range] in Hv. unfold in_ring, to_ring. cbn [Z.eqb Pos.eqb orb]. lia. }
  destruct (Z.eqb_spec ring (2^8)) as [->|_].
  { injection H as <-. cbn [dtype_range] in Hv. unfold in_ring, to_ring.
    change (2^8) with 256. change (2^7) with 128 in Hv. cbn [Z.eqb Pos.eqb orb]. change (256/2) with 128. lia. }
  destruct (Z.eqb_spec ring 67) as [->|_]; [congruence|].
  destruct (Z.eqb_spec ring (2^16)) as [->|_].
  { injection H as <-. cbn [dtype_range] in Hv. unfold in_ring, to_ring.
    change (2^16) with 65536. change (2^15) with 32768 in Hv. cbn [Z.eqb Pos.eqb orb]. change (65536/2) with 32768. lia. }
  destruct (Z.eqb_spec ring (2^32)) as [->|_].
  { injection H as <-. cbn [dtype_range] in Hv. unfold in_ring, to_ring.
    change (2^32) with 4294967296. change (2^31) with 2147483648 in Hv. cbn [Z.eqb Pos.eqb orb].
    change (4294967296/2) with 2147483648. lia. }
  destruct (Z.eqb_spec ring (2^64)) as [->|_]; [|discriminate].
  injection H as <-. apply in_ring64. exact Hv.
Qed.

Lemma type_supported ring : supported ring -> exists d, get_type_from_ring ring = Ok d.
Proof.
  intros H. destruct (supported_cases _ H) as [->|[->|[->|[->|[->| ->]]]]]; eexists; reflexivity.
Qed.

Lemma supported_type ring d : get_type_from_ring ring = Ok d -> supported ring.
Proof.
  unfold get_type_from_ring, supported, ring_sizes. intros H. cbn [In].
  destruct (Z.eqb_spec ring 2) as [->|_]; [tauto|].
  destruct (Z.eqb_spec ring (2^8)) as [->|_]; [tauto|].
  destruct (Z.eqb_spec ring 67) as [->|_]; [tauto|].
  destruct (Z.eqb_spec ring (2^16)) as [->|_]; [tauto|].
  destruct (Z.eqb_spec ring (2^32)) as [->|_]; [tauto|].
  destruct (Z.eqb_spec ring (2^64)) as [->|_]; [tauto|].
  discriminate.
Qed.

(** conversion to the ring's type leaves representatives unchanged *)
Lemma cast_in_ring ring d v : get_type_from_ring ring = Ok d -> in_ring ring v -> cast d (cast TI64 v) = v.
Proof.
  intros H Hv. pose proof (supported_type _ _ H) as Hs.
  assert (E : cast TI64 v = v).
  { cbn [cast]. rewrite wrap_to_ring64. apply in_ring64.
    destruct (in_ring_range ring v Hs Hv) as [R1 R2].
    destruct (supported_cases _ Hs) as [->|[->|[->|[->|[->| ->]]]]];
      try (specialize (R1 (or_introl eq_refl))); try (specialize (R1 (or_intror eq_refl)));
      try (specialize (R2 ltac:(discriminate) ltac:(discriminate)));
      try lia. }
  rewrite E. clear E.
  destruct (supported_cases _ Hs) as [->|[->|[->|[->|[->| ->]]]]]; injection H as <-; try exact Hv.
  - apply bit_cases in Hv. destruct Hv as [->| ->]; reflexivity.
  - apply res67 in Hv. cbn [cast]. apply Z.mod_small. lia.
Qed.

Lemma as_share_ok ring d v : get_type_from_ring ring = Ok d -> vec_in ring v -> as_share ring v = Ok v.
Proof.
  intros H Hv. unfold as_share. rewrite H. cbn [rbind]. f_equal. unfold encode. rewrite !map_map.
  rewrite <- (map_id v) at 2. apply map_ext_in. intros a Ha. unfold encode1, scale. cbn [c_base c_prec].
  change (2 ^ Z.of_nat 0) with 1. rewrite Z.mul_1_r.
  apply (cast_in_ring ring); auto. unfold vec_in in Hv. rewrite Forall_forall in Hv. auto.
Qed.

Section Gen.
  Variable g : prng.
  Hypothesis Hg : prng_ok g.

  (** the value a generator yields for a request and its next state *)
  Definition maxv (ring : Z) : option Z := if ring =? PRIME then Some PRIME else None.
  Definition val (ring : Z) (m : nat) (st : pg_state g) : list Z :=
    match get_type_from_ring ring with Ok d => fst (pg_draw g st d (maxv ring) m) | Err _ => [] end.
  Definition next (ring : Z) (m : nat) (st : pg_state g) : pg_state g :=
    match get_type_from_ring ring with Ok d => snd (pg_draw g st d (maxv ring) m) | Err _ => st end.

  Lemma val_ok ring m st : supported ring -> length (val ring m st) = m /\ vec_in ring (val ring m st).
  Proof.
    intros Hs. destruct (type_supported _ Hs) as [d Hd]. unfold val. rewrite Hd.
    destruct (Hg st d (maxv ring) m) as [H1 H2]. split; [exact H1|].
    unfold vec_in. eapply Forall_impl; [|apply H2]. intros v Hv. unfold maxv in Hv. unfold PRIME in Hv.
    destruct (Z.eqb_spec ring 67) as [->|E].
    - unfold in_ring, to_ring. cbn [Z.eqb Pos.eqb orb]. specialize (Hv ltac:(lia)). lia.
    - eapply range_in_ring; eauto.
  Qed.

  (** [n] parties holding neighbouring generators of the cycle [gs] *)
  Definition ringed (n nr : nat) (ring : Z) (c : share_class) (rk uu : nat -> nat) (gs : nat -> pg_state g)
    : list (psess g) :=
    map (fun k => mkPS g (rk k) (uu k) nr ring c (Some (gs k, gs (Nat.modulo (S k) n)))) (seq 0 n).

  Lemma gen_share_ok rk uu nr ring c g1 g2 sh r : supported r ->
    generate_random_share g (mkPS g rk uu nr ring c (Some (g1, g2))) sh r =
    (Ok (val r (numel sh) g1, val r (numel sh) g2),
     mkPS g rk uu nr ring c (Some (next r (numel sh) g1, next r (numel sh) g2))).
  Proof.
    intros Hs. destruct (type_supported _ Hs) as [d Hd].
    unfold generate_random_share, val, next. cbn [ps_gens]. rewrite Hd. fold (maxv r).
    destruct (pg_draw g g1 d (maxv r) (numel sh)), (pg_draw g g2 d (maxv r) (numel sh)). reflexivity.
  Qed.

  Lemma gen_share_state rk uu nr ring c g1 g2 sh r :
    snd (generate_random_share g (mkPS g rk uu nr ring c (Some (g1, g2))) sh r) =
    mkPS g rk uu nr ring c (Some (next r (numel sh) g1, next r (numel sh) g2)).
  Proof.
    unfold generate_random_share, next. cbn [ps_gens ps_rank ps_uuid ps_nr ps_ring ps_class].
    destruct (get_type_from_ring r) as [d|e]; [|reflexivity]. fold (maxv r).
    destruct (pg_draw g g1 d (maxv r) (numel sh)), (pg_draw g g2 d (maxv r) (numel sh)). reflexivity.
  Qed.

  Definition ring_of (ring : Z) (o : option Z) : Z := match o with None => ring | Some r => r end.
  Definition advance (ring : Z) (r : request) : pg_state g -> pg_state g :=
    match r with RPrzs sh o | RPrrs sh o => next (ring_of ring o) (numel sh) end.

  Lemma serve_state r rk uu nr ring c g1 g2 :
    snd (serve g r (mkPS g rk uu nr ring c (Some (g1, g2)))) =
    mkPS g rk uu nr ring c (Some (advance ring r g1, advance ring r g2)).
  Proof.
    destruct r as [sh o|sh o]; cbn [serve advance]; unfold przs, prrs; cbn [ps_ring];
      fold (ring_of ring o);
      pose proof (gen_share_state rk uu nr ring c g1 g2 sh (ring_of ring o)) as E;
      destruct (generate_random_share g _ _ _) as [p s']; cbn [snd] in *; exact E.
  Qed.

  Lemma joint_ringed r n nr ring c rk uu gs :
    snd (joint g r (ringed n nr ring c rk uu gs)) = ringed n nr ring c rk uu (fun k => advance ring r (gs k)).
  Proof.
    unfold joint, ringed. cbn [snd]. rewrite map_map. apply map_ext. intros k. apply serve_state.
  Qed.

  Lemma joints_ringed h n nr ring c rk uu : forall gs, exists gs',
    joints g h (ringed n nr ring c rk uu gs) = ringed n nr ring c rk uu gs'.
  Proof.
    induction h as [|r h IH]; intros gs; cbn [joints]; [exists gs; reflexivity|].
    rewrite joint_ringed. apply IH.
  Qed.

  Lemma ringed_sync n nr ring c rk uu gs : (0 < n)%nat -> synchronised (ringed n nr ring c rk uu gs).
  Proof.
    intros Hn k a Ha. unfold ringed in *. rewrite map_length, seq_length.
    assert (Hk : (k < n)%nat).
    { (assert (E : nth_error (map (fun k => mkPS g (rk k) (uu k) nr ring c
        (Some (gs k, gs (Nat.modulo (S k) n)))) (seq 0 n)) k <> None) by congruence;
        apply nth_error_Some in E; rewrite map_length, seq_length in E; exact E). }
    assert (N : forall j, (j < n)%nat -> nth_error (map (fun k => mkPS g (rk k) (uu k) nr ring c
        (Some (gs k, gs (Nat.modulo (S k) n)))) (seq 0 n)) j =
        Some (mkPS g (rk j) (uu j) nr ring c (Some (gs j, gs (Nat.modulo (S j) n))))).
    { intros j Hj. apply (map_nth_error_eq (fun k => mkPS g (rk k) (uu k) nr ring c
        (Some (gs k, gs (Nat.modulo (S k) n)))) j (seq 0 n) j).
      rewrite (nth_error_nth' _ 0%nat) by (rewrite seq_length; auto). rewrite seq_nth by auto. reflexivity. }
    rewrite N in Ha by auto. injection Ha as <-.
    assert (Hm : (Nat.modulo (S k) n < n)%nat) by (apply Nat.mod_upper_bound; lia).
    rewrite (N _ Hm). do 4 eexists. repeat split.
  Qed.

  (** zero shares *)
  Definition zero_vec (r : Z) (a b : list Z) : list Z := map2 (rsub r) a b.

  Lemma przs_ok rk uu nr ring c g1 g2 sh o : supported (ring_of ring o) ->
    (c = CShare -> ring_of ring o <> 2 /\ ring_of ring o <> 67) ->
    fst (przs g (mkPS g rk uu nr ring c (Some (g1, g2))) sh o) =
    Ok [mkT sh (zero_vec (ring_of ring o) (val (ring_of ring o) (numel sh) g1) (val (ring_of ring o) (numel sh) g2))].
  Proof.
    intros Hs Hc. set (r := ring_of ring o) in *. destruct (type_supported _ Hs) as [d Hd].
    unfold przs. cbn [ps_ring ps_class]. fold (ring_of ring o). fold r.
    rewrite gen_share_ok by auto. cbn [fst snd rbind].
    destruct (val_ok r (numel sh) g1 Hs) as [L1 V1]. destruct (val_ok r (numel sh) g2 Hs) as [L2 V2].
    assert (VZ : vec_in r (zero_vec r (val r (numel sh) g1) (val r (numel sh) g2))) by (apply vsub_in; auto).
    destruct c.
    - destruct (Hc eq_refl) as [N2 N67]. rewrite (proj2 (Z.eqb_neq r 2) N2). rewrite Hd. cbn [rbind].
      replace (map2 (fun a b => cast d (a - b)) (val r (numel sh) g1) (val r (numel sh) g2))
        with (zero_vec r (val r (numel sh) g1) (val r (numel sh) g2)).
      + rewrite (as_share_ok r d) by auto. reflexivity.
      + unfold zero_vec. apply map2_ext_in. intros a b _. unfold rsub.
        rewrite (proj2 (Z.eqb_neq r 2) N2). unfold PRIME. rewrite (proj2 (Z.eqb_neq r 67) N67).
        unfold plain_op. rewrite Hd. reflexivity.
    - assert (E : get_op r OSub = Ok (rsub r)).
      { unfold get_op. destruct (r =? 2); [reflexivity|]. destruct (r =? PRIME); [reflexivity|].
        rewrite Hd. reflexivity. }
      rewrite E. cbn [rbind]. fold (zero_vec r (val r (numel sh) g1) (val r (numel sh) g2)).
      rewrite (as_share_ok r d) by auto. reflexivity.
  Qed.

  Lemma joint_przs n nr ring c rk uu gs sh o : (0 < n)%nat -> supported (ring_of ring o) ->
    (c = CShare -> ring_of ring o <> 2 /\ ring_of ring o <> 67) ->
    exists ts, fst (joint g (RPrzs sh o) (ringed n nr ring c rk uu gs)) = map (fun t => Ok [t]) ts /\
      length ts = n /\ shared (ring_of ring o) sh (repeat 0 (numel sh)) ts.
  Proof.
    intros Hn Hs Hc. set (r := ring_of ring o) in *.
    set (D := fun k => val r (numel sh) (gs k)).
    exists (map (fun k => mkT sh (zero_vec r (D k) (D (Nat.modulo (S k) n)))) (seq 0 n)).
    split; [|split; [rewrite map_length, seq_length; reflexivity|]].
    - unfold joint, ringed. cbn [fst]. rewrite !map_map. apply map_ext. intros k. cbn [serve].
      apply przs_ok; auto.
    - assert (HD : forall k, length (D k) = numel sh /\ vec_in r (D k)) by (intros; apply val_ok; auto).
      apply (shared_intro r Hs).
      + destruct n; [lia|discriminate].
      + apply Forall_map, Forall_forall. intros k _. destruct (HD k), (HD (Nat.modulo (S k) n)).
        repeat split; cbn [tdat].
        * apply map2_length_eq; auto.
        * apply vsub_in; auto.
      + apply repeat_length.
      + apply Forall_forall. intros v Hv. apply repeat_spec in Hv. subst v. apply in_ring_0; auto.
      + intros i Hi. rewrite nth_repeat_lt by auto. rewrite map_map.
        etransitivity; [|symmetry; apply (zsum_eqmod r _ (fun k => nth i (D k) 0 - nth i (D (Nat.modulo (S k) n)) 0))].
        * rewrite zsum_map_sub, (cyclic_sum (fun k => nth i (D k) 0)) by auto. apply eqmod_eq; lia.
        * intros k _. cbn [tdat]. destruct (HD k) as [A1 A2], (HD (Nat.modulo (S k) n)) as [B1 B2].
          unfold zero_vec. rewrite (nth_map2 _ 0 0 0) by lia.
          apply rsub_eqmod; auto; apply nth_in_ring; auto.
  Qed.

  (** random replicated shares *)
  Lemma prrs_ok rk uu nr ring g1 g2 sh o : supported (ring_of ring o) ->
    fst (prrs g (mkPS g rk uu nr ring CReplicated (Some (g1, g2))) sh o) =
    Ok [mkT sh (val (ring_of ring o) (numel sh) g1); mkT sh (val (ring_of ring o) (numel sh) g2)].
  Proof.
    intros Hs. set (r := ring_of ring o) in *. destruct (type_supported _ Hs) as [d Hd].
    unfold prrs. cbn [ps_ring ps_class]. fold (ring_of ring o). fold r.
    rewrite gen_share_ok by auto. cbn [fst snd rbind].
    destruct (val_ok r (numel sh) g1 Hs), (val_ok r (numel sh) g2 Hs).
    rewrite !(as_share_ok r d) by auto. reflexivity.
  Qed.

  Lemma joint_prrs nr ring rk uu gs sh o : supported (ring_of ring o) ->
    exists v ps, fst (joint g (RPrrs sh o) (ringed 3 nr ring CReplicated rk uu gs)) = map Ok ps /\
      replicated (ring_of ring o) sh v ps.
  Proof.
    intros Hs. set (r := ring_of ring o) in *.
    set (D := fun k => val r (numel sh) (gs k)).
    assert (HD : forall k, length (D k) = numel sh /\ vec_in r (D k)) by (intros; apply val_ok; auto).
    set (ss := map (fun k => mkT sh (D k)) (seq 0 3)).
    exists (s_sum r (numel sh) (map tdat ss)), (map (rep_view ss) (seq 0 3)). split.
    - unfold joint, ringed. cbn [fst seq map serve]. rewrite !prrs_ok by auto. reflexivity.
    - exists ss. split; [|reflexivity]. split; [discriminate|]. split; [|reflexivity].
      apply Forall_map, Forall_forall. intros k _. destruct (HD k). repeat split; auto.
  Qed.
End Gen.

(** set-up *)
Lemma setup_przs_ok g seeds nr ps : forall rank, (rank + length ps <= length seeds)%nat ->
  (nr = length seeds) ->
  setup_przs_from g seeds nr rank ps =
  Ok (map (fun k => init_generators g (nth k ps (mkPS g 0 0 0 0 CShare None))
             (nth (rank + k) seeds 0) (nth (Nat.modulo (S (rank + k)) nr) seeds 0)) (seq 0 (length ps))).
Proof.
  induction ps as [|p ps IH]; intros rank H Hn; cbn [setup_przs_from length seq map]; [reflexivity|].
  cbn [length] in H.
  rewrite (nth_error_nth' seeds 0) by lia.
  rewrite (nth_error_nth' seeds 0) by (rewrite <- Hn; apply Nat.mod_upper_bound; lia).
  rewrite IH by (auto; lia). cbn [rbind nth]. rewrite Nat.add_0_r. f_equal. f_equal.
  rewrite <- seq_shift, map_map. apply map_ext. intros k. rewrite <- Nat.add_succ_comm. reflexivity.
Qed.

Lemma setup_ok g s uuids own seeds : ss_ptrs g s = [] -> ss_nr g s = length (ss_parties g s) ->
  length uuids = ss_nr g s -> length seeds = ss_nr g s ->
  setup_mpc g s uuids own seeds =
  Ok (mkSession g (ss_parties g s) (ss_nr g s) (ss_proto g s) (ss_cfg g s) (ss_ring g s) (ss_min g s) (ss_max g s)
        (Some own)
        (ringed g (ss_nr g s) (ss_nr g s) (ss_ring g s) (pr_class (ss_proto g s)) (fun k => k)
                (fun k => nth k uuids 0%nat) (fun k => pg_seed g (nth k seeds 0)))
        uuids).
Proof.
  intros H1 H2 H3 H4. unfold setup_mpc. rewrite H1. cbn [app].
  rewrite (firstn_all2 seeds) by lia. rewrite (firstn_all2 uuids) by lia.
  rewrite setup_przs_ok.
  - cbn [rbind]. f_equal. f_equal. unfold ringed. rewrite map_length, seq_length, <- H2.
    apply map_ext_in. intros k Hk. apply in_seq in Hk.
    rewrite (nth_map_in _ 0%nat) by (rewrite seq_length; lia). rewrite seq_nth by lia. reflexivity.
  - rewrite map_length, seq_length. lia.
  - auto.
Qed.

(** a second set-up of the same session fails *)
Lemma setup_przs_over g seeds nr ps : forall rank, (length seeds < rank + length ps)%nat -> (rank <= length seeds)%nat ->
  (0 < nr)%nat -> setup_przs_from g seeds nr rank ps = Err IndexError.
Proof.
  induction ps as [|p ps IH]; intros rank H Hr Hn; cbn [length] in H; [lia|]. cbn [setup_przs_from].
  destruct (nth_error seeds rank) as [a|] eqn:E; [|reflexivity].
  assert (Hlt : (rank < length seeds)%nat) by (apply nth_error_Some; congruence).
  destruct (nth_error seeds (Nat.modulo (S rank) nr)) as [b|]; [|reflexivity].
  rewrite IH by lia. reflexivity.
Qed.
