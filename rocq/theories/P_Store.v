(** Properties C29 to C33: stores of precomputed primitives, the provider and its log.
    Specifications: S_Store (histories of calls, what was added and handed out). *)
From Coq Require Import String.
From Verif Require Import Util S_Ring S_Tensor S_Bil S_Spdz M_Torch M_Encoder M_Tensor M_Share M_Spdz M_Store S_Store
  L_StoreKey L_Store L_Take L_Replay L_Fss L_Tensor.
Local Open Scope list_scope.

(** C29: over any history of additions (with shapes given as tuples) and requests on a party's
    store, the primitives handed out with removal for an operation and a pair of shapes are the
    first ones added for it, in order, each once; the next request for it, whether it removes or
    only looks, returns the next one, or raises EmptyPrimitiveStore when none is left. *)
Theorem C29_queue_partial : forall P (h : list (sev P)) k a b, adds_tuples h ->
  let run := sev_run h [] in
  exists left, handed k (dims a) (dims b) h (fst run) ++ left = added k (dims a) (dims b) h /\
    forall remove, fst (store_get k (snd run) a b remove) =
      match left with [] => Err EmptyPrimitiveStore | p :: _ => Ok p end.
Proof. intros P h k a b. exact (store_history h k a b). Qed.
Print Assumptions C29_queue_partial.

(** two shape pairs and two operations interleaved; (1,12),(3) and (11,2),(3) stay apart *)
Example C29_witness :
  let h := [EAdd KMul (PTuple [1; 12]) (PTuple [3]) [100; 101];
            EAdd KMatmul (PTuple [1; 12]) (PTuple [3]) [200];
            EGet KMul (PSize [1; 12]) (PSize [3]) false;
            EGet KMul (PSize [1; 12]) (PSize [3]) true;
            EAdd KMul (PTuple [1; 12]) (PTuple [3]) [102];
            EGet KMul (PTuple [11; 2]) (PTuple [3]) true;
            EGet KMul (PTuple [1; 12]) (PTuple [3]) true] in
  adds_tuples h /\
  fst (sev_run h []) = [None; None; Some (Ok 100); Some (Ok 100); None; Some (Err EmptyPrimitiveStore); Some (Ok 101)] /\
  handed KMul [1; 12] [3] h (fst (sev_run h [])) = [100; 101] /\ added KMul [1; 12] [3] h = [100; 101; 102].
Proof. cbn zeta. split; [repeat constructor|]. repeat split; vm_compute; reflexivity. Qed.

(** C29 refuted for other shape objects: primitives added under x.shape (a torch.Size) are never
    found, because the key of the addition is "beaver_mul_torch.Size([2])_torch.Size([2])". *)
Theorem C29_torch_size_refuted : exists (h : list (sev nat)) k a b,
  added k (dims a) (dims b) h <> [] /\ handed k (dims a) (dims b) h (fst (sev_run h [])) = [] /\
  forall remove, fst (store_get k (snd (sev_run h [])) a b remove) = Err EmptyPrimitiveStore.
Proof.
  exists [EAdd KMul (PSize [2]) (PSize [2]) [7]], KMul, (PSize [2]), (PSize [2]).
  split; [discriminate|]. split; [reflexivity|]. intros r. vm_compute. reflexivity.
Qed.
Print Assumptions C29_torch_size_refuted.

(** C30 (operation and shapes): in any history of products and of triples generated in advance,
    every product that succeeds reads and then removes the same triples, one per party; they
    come from one call of the generator, for a request of the history with the same operation
    and the same shapes (keyword arguments aside), and different products use different calls.
    A product fails only when the generator fails for it. *)
Theorem C30_triples_partial : forall P n (gen : nat -> treq -> result (list (list P))) h,
  (0 < n)%nat -> one_each n gen ->
  let os := fst (wev_run gen h (empty_world [] n)) in
  (exists calls, NoDup calls /\
     Forall2 (fun i s => fst (snd s) = snd (snd s) /\ length (snd (snd s)) = n /\
        exists g, In g (map wev_req h) /\ like g (fst s) /\ from_call gen i g (snd (snd s)))
       calls (served (products h) os)) /\
  Forall2 (fun q r => forall e, r = Err e -> exists i, gen i q = Err e) (products h) os.
Proof.
  intros P n gen h Hn HG. cbn zeta.
  destruct (wev_history n gen (from_call gen) (fun g => In g (map wev_req h)) h Hn HG (fun i g ts H => H) [] (fun _ => [])
    (empty_world [] n) (winv_start n _ _)) as [ids [pend [HW [A B]]]].
  { intros e He. apply in_map, He. }
  split; [|exact B]. exists ids. split; [exact (ids_nodup _ _ _ (wi_ids _ _ _ _ _ _ HW))|exact A].
Qed.
Print Assumptions C30_triples_partial.

(** C30: hence every product whose operation and shapes were always requested with the same
    keyword arguments (in particular every element-wise and matrix product) is computed with
    triples that are valid for it, unless the generator fails. *)
Theorem C30_products_partial : forall n gen h s op sx sy so f x y,
  (2 <= n)%nat -> triple_gen n gen -> product op sx sy so f -> m_shape x = sx -> m_shape y = sy ->
  (forall e, In e h -> like (wev_req e) (bop_of op, (sx, sy)) -> wev_req e = (bop_of op, (sx, sy))) ->
  let r := fst (mul_master_store s gen (bop_of op) x y (snd (wev_run gen h (empty_world [] n)))) in
  (exists ts, valid_triples sx sy so f n ts /\ r = mul_master s (bop_of op) x y ts) \/
  (exists e i, r = Err e /\ gen i (bop_of op, (sx, sy)) = Err e).
Proof. exact product_with_store. Qed.
Print Assumptions C30_products_partial.

(** the condition on the keyword arguments always holds for products without any *)
Lemma C30_no_keywords : forall g op sx sy, op = SMul \/ op = SMatmul ->
  like g (bop_of op, (sx, sy)) -> g = (bop_of op, (sx, sy)).
Proof.
  intros [o [a b]] op sx sy H [H1 H2]. cbn in *. injection H2 as -> ->. f_equal.
  destruct H as [-> | ->], o; cbn in *; congruence.
Qed.

Example C30_witness : (* two kept triples are used first, a third is made on demand *)
  let h := [WPreload BMul [2] [1]; WPreload BMatmul [2] [2]; WPreload BMul [2] [1]; WProduct BMul [2] [1]; WProduct BMul [2] [1]] in
  let w := snd (wev_run (ex_gen 3) h (empty_world [] 3)) in
  let x := mkM 0 [2] [mkT [2] [10; 20]%Z; mkT [2] [1; 2]%Z; mkT [2] [0; -25]%Z] in
  let y := mkM 0 [1] [mkT [1] [2^63 - 1]%Z; mkT [1] [1]%Z; mkT [1] [4]%Z] in
  triple_gen 3 (ex_gen 3) /\ product SMul [2] [1] [2] (mul_val [2] [1] [2]) /\
  (forall e, In e h -> like (wev_req e) (BMul, ([2], [1])) -> wev_req e = (BMul, ([2], [1]))) /\
  w_calls w = 3 /\
  (do zs <- fst (mul_master_store (mkS 0 3 (mkConfig 2 0)) (ex_gen 3) BMul x y w); tsum (2^64) zs) =
    Ok (mkT [2] [-2^63 + 44; 2^63 - 12]%Z).
Proof.
  cbn zeta. split; [apply ex_gen_triples; lia|]. split; [apply prod_mul; apply bcast_spec; reflexivity|].
  split; [|split; vm_compute; reflexivity].
  intros e _ H. apply (C30_no_keywords _ SMul [2] [1]); auto.
Qed.

(** C30 refuted for convolutions: the store key leaves out stride, padding, dilation and groups,
    so a triple kept for a padded, dilated convolution is used for a plain one of the same
    shapes, and the product is wrong. *)
Theorem C30_convolution_refuted : exists h s sx sy so f x y vx vy zs t,
  product (SConv 1 0 1 1) sx sy so f /\ c_prec (s_cfg s) = 0 /\
  shared (2^64) sx vx (m_shares x) /\ shared (2^64) sy vy (m_shares y) /\ m_shape x = sx /\ m_shape y = sy /\
  fst (mul_master_store s (ex_gen 2) (bop_of (SConv 1 0 1 1)) x y (snd (wev_run (ex_gen 2) h (empty_world [] 2)))) = Ok zs /\
  tsum (2^64) zs = Ok t /\ tdat t <> f vx vy.
Proof.
  exists [WPreload (BConv2d (mkConv 1 1 3 1)) [1; 1; 3; 3] [1; 1; 2; 2]], (mkS 0 2 (mkConfig 2 0)),
    [1; 1; 3; 3], [1; 1; 2; 2], [1; 1; 2; 2].
  exists (conv_val 1 0 1 1 1 1 3 3 1 1 2 2 2 2).
  exists (mkM 0 [1; 1; 3; 3] [mkT [1; 1; 3; 3] [1; 2; 3; 4; 5; 6; 7; 8; 9]%Z; mkT [1; 1; 3; 3] [0; 0; 0; 0; 0; 0; 0; 0; 0]%Z]).
  exists (mkM 0 [1; 1; 2; 2] [mkT [1; 1; 2; 2] [1; 0; 0; 1]%Z; mkT [1; 1; 2; 2] [0; 0; 0; 0]%Z]).
  exists [1; 2; 3; 4; 5; 6; 7; 8; 9]%Z, [1; 0; 0; 1]%Z.
  eexists _, _.
  split. { apply (prod_conv 1 0 1 1 1 3 3 1 1 2 2 2 2); lia. }
  split; [reflexivity|].
  split; [split; [discriminate|]; split; [repeat constructor|reflexivity]|].
  split; [split; [discriminate|]; split; [repeat constructor|reflexivity]|].
  split; [reflexivity|]. split; [reflexivity|].
  split; [vm_compute; reflexivity|]. split; [vm_compute; reflexivity|].
  vm_compute. discriminate.
Qed.
Print Assumptions C30_convolution_refuted.

(** C31: in any history of comparisons and of keys generated in advance, a comparison that
    succeeds masks and evaluates with the same keys at both parties, they are the first keys of
    one array returned by one call of the key generator for its operation, and no two
    comparisons use keys of the same call; a comparison that fails raises ValueError. *)
Theorem C31_keys_once : forall K (gen : fop -> nat -> nat -> result (list (list K))) h, two_arrays gen ->
  let os := fst (fev_run gen h (empty_world [] 2)) in
  length os = length (compares h) /\
  (exists calls, NoDup calls /\
     Forall2 (fun i s => fst (snd s) = snd (snd s) /\ first_keys gen i (fst (fst s)) (snd (fst s)) (snd (snd s)))
       calls (fserved (compares h) os)) /\
  Forall (fun r => forall e, r = Err e -> e = ValueError) os.
Proof.
  intros K gen h HG. cbn zeta.
  destruct (fss_history gen h HG (fun _ _ => True) [] (fun _ => []) (empty_world [] 2) (finv_start gen _)) as [ids [pend [HI [A [B C]]]]].
  { intros [] _; exact I. }
  split; [exact C|]. split; [|exact B]. exists ids. split; [exact (ids_nodup _ _ _ (fi_ids _ _ _ _ _ HI))|exact A].
Qed.
Print Assumptions C31_keys_once.

(** C31: when keys are only made on demand every comparison succeeds with the keys just made. *)
Theorem C31_on_demand_partial : forall K (gen : fop -> nat -> nat -> result (list (list K))) qs, two_arrays gen ->
  forall j o nr, nth_error qs j = Some (o, nr) ->
  exists rows, gen o j nr = Ok rows /\
    nth_error (fst (fev_run gen (map (fun q => FCompare (fst q) (snd q)) qs) (empty_world [] 2))) j = Some (Ok (rows, rows)).
Proof.
  intros K gen qs HG j o nr E. exact (fss_on_demand gen qs HG [] (empty_world [] 2) (finv_start gen _) j o nr E).
Qed.
Print Assumptions C31_on_demand_partial.

(** C31: with keys generated in advance a comparison of [nr] elements succeeds if every array
    generated before for the operation has at least [nr] keys (or none). *)
Theorem C31_preloaded_partial : forall K (gen : fop -> nat -> nat -> result (list (list K))) h o nr, two_arrays gen ->
  (forall m, In m (sizes o h) -> m = 0 \/ nr <= m) ->
  exists keys, fst (fss_take gen o nr (snd (fev_run gen h (empty_world [] 2)))) = Ok (keys, keys).
Proof. exact @fss_large_enough. Qed.
Print Assumptions C31_preloaded_partial.

(** keys numbered by operation, call and position *)
Definition C31_gen (o : fop) (i nr : nat) : result (list (list (nat * nat * nat))) :=
  Ok [map (fun j => (0, i, j)) (seq 0 nr); map (fun j => (1, i, j)) (seq 0 nr)].
Lemma C31_gen_ok : two_arrays C31_gen.
Proof.
  intros o i nr. eexists _, _. split; [reflexivity|]. rewrite !map_length, seq_length. auto.
Qed.

Example C31_witness :
  let h := [FPreload FComp 3; FCompare FEq 1; FCompare FComp 2; FCompare FComp 1] in
  fst (fev_run C31_gen h (empty_world [] 2)) =
    [Ok ([[(0, 1, 0)]; [(1, 1, 0)]], [[(0, 1, 0)]; [(1, 1, 0)]]);
     Ok ([[(0, 0, 0); (0, 0, 1)]; [(1, 0, 0); (1, 0, 1)]], [[(0, 0, 0); (0, 0, 1)]; [(1, 0, 0); (1, 0, 1)]]);
     Ok ([[(0, 2, 0)]; [(1, 2, 0)]], [[(0, 2, 0)]; [(1, 2, 0)]])] /\
  (forall m, In m (sizes FComp h) -> m = 0 \/ 1 <= m).
Proof. cbn zeta. split; [vm_compute; reflexivity|]. intros m H. cbn in H. lia. Qed.

(** C31 refuted: after generating the keys of a smaller comparison in advance a larger one fails,
    although it has just generated the keys it needs. *)
Theorem C31_small_preload_refuted : exists h o nr,
  fst (fss_take C31_gen o nr (snd (fev_run C31_gen h (empty_world [] 2)))) = Err ValueError.
Proof. exists [FPreload FComp 1], FComp, 2. vm_compute. reflexivity. Qed.
Print Assumptions C31_small_preload_refuted.

(** C31: with a number of parties other than two every comparison raises ValueError. *)
Theorem C31_two_parties_only : forall K (gen : fop -> nat -> nat -> result (list (list K))) o nr n, two_arrays gen -> n <> 2 ->
  fst (fss_take gen o nr (empty_world [] n)) = Err ValueError.
Proof.
  intros K gen o nr n HG Hn. rewrite fss_take_eq. unfold fgen_call, generate_primitives.
  replace (dget (fss_gens gen) (fkey o)) with (Some (gen o)) by (destruct o; reflexivity).
  cbn [empty_world w_calls w_logging w_stores]. destruct (HG o 0 nr) as [k0 [k1 [E _]]]. rewrite E.
  unfold transfer. rewrite repeat_length. cbn [length].
  replace (Nat.eqb 2 n) with false by (symmetry; apply Nat.eqb_neq; lia). reflexivity.
Qed.
Print Assumptions C31_two_parties_only.

(** C32: generated triples arrive in order: party j's queue for the operation and the shapes is
    extended by (a_j, b_j, c_j), the j-th shares of the three values, and its other queues stay. *)
Theorem C32_generation : forall n gen op a b (w : tworld triple) ta tb ra rb rc ts,
  (0 < n)%nat -> length (w_stores w) = n ->
  gen (w_calls w) (op, (a, b)) = Ok (triple_rows ts) -> get_triples op n ta tb ra rb rc = Ok ts ->
  let r := generate_primitives (beaver_gens gen) beaver_adders (op_key (kind_of op)) (op, (a, b)) (Some (PTuple a, PTuple b)) w in
  fst r = Ok (triple_rows ts) /\ length (w_stores (snd r)) = n /\
  exists sa sb c sc, generate_shares n ta ra = Ok sa /\ generate_shares n tb rb = Ok sb /\
    tbil R64 op ta tb = Ok c /\ generate_shares n c rc = Ok sc /\
    forall j st, nth_error (w_stores w) j = Some st ->
    exists st' aj bj cj, nth_error (w_stores (snd r)) j = Some st' /\
      nth_error sa j = Some aj /\ nth_error sb j = Some bj /\ nth_error sc j = Some cj /\
      queue (kind_of op) a b st' = queue (kind_of op) a b st ++ [(aj, bj, cj)] /\
      forall k' a' b', (k', a', b') <> (kind_of op, a, b) -> queue k' a' b' st' = queue k' a' b' st.
Proof.
  intros n gen op a b w ta tb ra rb rc ts Hn HL HG HT. cbn zeta.
  destruct (get_triples_inv _ _ _ _ _ _ _ _ HT) as (sa & sb & c & sc & Ea & Eb & Ec & Es & Ez & La & Lb & Lc & Lt).
  pose proof (gen_call_ok n gen op a b w ts Hn HL HG Lt) as E. unfold gen_call in E. rewrite E. cbn [fst snd w_stores].
  split; [reflexivity|]. split; [apply map2_length_eq; [exact HL|rewrite map_length; exact Lt]|].
  exists sa, sb, c, sc. repeat (split; [assumption|]). intros j st Hj.
  assert (Hjn : j < n) by (rewrite <- HL; apply nth_error_Some; congruence).
  destruct (nth_error sa j) as [aj|] eqn:Eaj; [|apply nth_error_None in Eaj; lia].
  destruct (nth_error sb j) as [bj|] eqn:Ebj; [|apply nth_error_None in Ebj; lia].
  destruct (nth_error sc j) as [cj|] eqn:Ecj; [|apply nth_error_None in Ecj; lia].
  assert (Etj : nth_error ts j = Some (aj, bj, cj)).
  { rewrite Ez. clear -Eaj Ebj Ecj. unfold zip3. revert sa sb sc Eaj Ebj Ecj.
    induction j; intros [|x sa] [|y sb] [|z sc] E1 E2 E3; cbn in *; try discriminate; [|auto].
    injection E1 as ->. injection E2 as ->. injection E3 as ->. reflexivity. }
  exists (store_add (kind_of op) st [(aj, bj, cj)] (PTuple a, PTuple b)), aj, bj, cj.
  split.
  { rewrite map2_map_r. clear -Hj Etj. revert Hj Etj. generalize (w_stores w). intros sts. revert sts ts.
    induction j; intros [|x sts] [|y ts] E1 E2; cbn in *; try discriminate; [|auto].
    injection E1 as ->. injection E2 as ->. reflexivity. }
  split; [reflexivity|]. split; [reflexivity|]. split; [reflexivity|]. split.
  - rewrite queue_add, same_request_refl. reflexivity.
  - intros k' a' b' N. rewrite queue_add. destruct (same_request _ _ _ _ _ _) eqn:S; [|apply app_nil_r].
    apply same_request_spec in S as [-> [-> ->]]. congruence.
Qed.
Print Assumptions C32_generation.

Example C32_witness :
  let w := empty_world [] 2 : tworld triple in
  let r := generate_primitives (beaver_gens (ex_gen 2)) beaver_adders (op_key KMul) (BMul, ([2], [1])) (Some (PTuple [2], PTuple [1])) w in
  map (queue KMul [2] [1]) (w_stores (snd r)) =
  [[(mkT [2] [9; 9]%Z, mkT [1] [-3]%Z, mkT [2] [11; 11]%Z)]; [(mkT [2] [-4; -4]%Z, mkT [1] [10]%Z, mkT [2] [24; 24]%Z)]].
Proof. vm_compute. reflexivity. Qed.

(** C32: an operation that is not registered, or primitives for a different number of parties,
    raise ValueError; whatever the reason, a failing generation changes no party's store. *)
Theorem C32_refused : forall S A G X
  (gens : list (string * (nat -> G -> result (list X)))) (adders : list (string * (S -> X -> A -> S)))
  op g a (w : provider S A G),
  let r := generate_primitives gens adders op g a w in
  (~ In op (map fst gens) -> r = (Err ValueError, w)) /\
  (forall gen prims pa, dget gens op = Some gen -> gen (w_calls w) g = Ok prims -> a = Some pa ->
     length prims <> length (w_stores w) -> fst r = Err ValueError) /\
  (forall e, fst r = Err e -> w_stores (snd r) = w_stores w).
Proof.
  intros S A G X gens adders op g a w. cbn zeta. split; [|split].
  - intros H. unfold generate_primitives. replace (dget gens op) with (@None (nat -> G -> result (list X))); [reflexivity|].
    symmetry. induction gens as [|[k v] gens IH]; cbn in *; auto. destruct (string_dec op k) as [->|]; [tauto|apply IH; tauto].
  - intros gen prims pa E1 E2 -> HN. unfold generate_primitives. rewrite E1, E2. unfold transfer.
    replace (Nat.eqb (length prims) (length (w_stores w))) with false by (symmetry; apply Nat.eqb_neq; exact HN). reflexivity.
  - intros e. unfold generate_primitives. destruct (dget gens op) as [gen|]; [|reflexivity].
    destruct (gen (w_calls w) g) as [prims|]; [|reflexivity]. destruct a as [pa|]; [|discriminate].
    destruct (transfer adders op prims (w_stores w) pa); [discriminate|reflexivity].
Qed.
Print Assumptions C32_refused.

Example C32_refused_witness :
  let gen := fun (_ : nat) (_ : treq) => Ok [[1]; [2]; [3]] in
  fst (generate_primitives (beaver_gens gen) beaver_adders (op_key KMul) (BMul, ([2], [1])) (Some (PTuple [2], PTuple [1])) (empty_world [] 2))
    = Err ValueError /\
  fst (generate_primitives (beaver_gens gen) beaver_adders "beaver_div" (BMul, ([2], [1])) (Some (PTuple [2], PTuple [1])) (empty_world [] 3))
    = Err ValueError.
Proof. split; reflexivity. Qed.

(** C32: registering under a new name makes exactly this function available; registering under a
    name in use raises ValueError and changes nothing. *)
Theorem C32_registration : forall F (reg : list (string * F)) name f,
  let r := register reg name f in
  (In name (map fst reg) -> r = (Err ValueError, reg)) /\
  (~ In name (map fst reg) -> fst r = Ok tt /\ snd r = reg ++ [(name, f)]).
Proof.
  intros F reg name f. cbn zeta. unfold register. split.
  - intros H. destruct (dget reg name) eqn:E; [reflexivity|]. exfalso. revert H E.
    induction reg as [|[k v] reg IH]; cbn; [tauto|]. destruct (string_dec name k); [discriminate|].
    intros [H|H]; [congruence|auto].
  - intros H. assert (E : dget reg name = None /\ dset reg name f = reg ++ [(name, f)]).
    { induction reg as [|[k v] reg IH]; cbn in *; [auto|]. destruct (string_dec name k) as [->|]; [tauto|].
      destruct IH as [E1 E2]; [tauto|]. rewrite E2. auto. }
    destruct E as [-> ->]. auto.
Qed.
Print Assumptions C32_registration.

Example C32_registration_witness :
  let reg := snd (register (snd (register [] "beaver_mul" 1)) "beaver_matmul" 2) in
  reg = [("beaver_mul", 1); ("beaver_matmul", 2)]%string /\ register reg "beaver_mul" 5 = (Err ValueError, reg).
Proof. split; reflexivity. Qed.

(** C33: record a computation [c] (in a session with any history [h]) and generate from the
    record in the session as it was before; then the computation can run with no generator at
    all: every product is served, with triples generated for the same request as the first
    time, and every queue of every party ends with exactly what was left the first time.
    Missing: comparisons (see below). *)
Theorem C33_replay_partial : forall P n (gen gen' : nat -> treq -> result (list (list P))) h c serial,
  (0 < n)%nat -> one_each n gen -> one_each n gen' ->
  (forall i j g rows, gen i g = Ok rows -> exists rows', gen' j g = Ok rows') ->
  let w0 := snd (wev_run gen h (empty_world [] n)) in
  let first := wev_run gen (prods c) (start_logging w0) in
  all_ok (fst first) ->
  exists log, fst (stop_logging serial false (snd first)) = Ok log /\
  let pre := replay (beaver_gens gen') beaver_adders log w0 in
  let again := wev_run no_gen (prods c) (snd pre) in
  fst pre = Ok tt /\
  Forall2 (fun r r' => exists ts ts' i i' g, r = Ok (ts, ts) /\ r' = Ok (ts', ts') /\
      from_call gen i g ts /\ (from_call gen i' g ts' \/ from_call gen' i' g ts')) (fst first) (fst again) /\
  length (w_stores (snd again)) = n /\
  forall k a b j st st', nth_error (w_stores (snd first)) j = Some st -> nth_error (w_stores (snd again)) j = Some st' ->
    queue k a b st = queue k a b st'.
Proof. intros P n gen gen' h c serial. exact (record_replay n gen gen' h c serial). Qed.
Print Assumptions C33_replay_partial.

Example C33_witness :
  let gen := fun (i : nat) (g : treq) => Ok [[(i, g, 0)]; [(i, g, 1)]] in
  let h := [WPreload BMul [2] [2]; WPreload BMul [3] [3]] in
  let c := [(BMul, ([2], [2])); (BMatmul, ([2], [2])); (BMul, ([2], [2])); (BMatmul, ([2], [2]))] in
  one_each 2 gen /\
  all_ok (fst (wev_run gen (prods c) (start_logging (snd (wev_run gen h (empty_world [] 2)))))) /\
  fst (stop_logging (fun _ => false) false (snd (wev_run gen (prods c) (start_logging (snd (wev_run gen h (empty_world [] 2)))))))
  = Ok [(op_key KMatmul, [(Some (PTuple [2], PTuple [2]), (BMatmul, ([2], [2]))); (Some (PTuple [2], PTuple [2]), (BMatmul, ([2], [2])))]);
        (op_key KMul, [(Some (PTuple [2], PTuple [2]), (BMul, ([2], [2])))])].
Proof.
  cbn zeta. split; [intros i g rows E; injection E as <-; split; repeat constructor|].
  split; [vm_compute; repeat constructor; eexists; reflexivity|]. vm_compute. reflexivity.
Qed.

(** C33 refuted for comparisons: they generate their keys whether or not keys are stored, so
    after replaying the record of one comparison the second run leaves keys behind. *)
Theorem C33_comparisons_refuted : exists c log,
  let w0 := empty_world [] 2 : fworld (nat * nat * nat) in
  let first := fev_run C31_gen c (start_logging w0) in
  fst (stop_logging (fun _ => true) false (snd first)) = Ok log /\
  let again := fev_run C31_gen c (snd (replay (fss_gens C31_gen) fss_adders log w0)) in
  map (stack FComp) (w_stores (snd first)) = [[]; []] /\
  map (stack FComp) (w_stores (snd again)) = [[[(0, 1, 0)]]; [[(1, 1, 0)]]].
Proof. exists [FCompare FComp 1]. eexists. cbn zeta. split; [reflexivity|]. split; vm_compute; reflexivity. Qed.
Print Assumptions C33_comparisons_refuted.

(** C33 refuted when the record is to be written to a file: the generator arguments of triples
    contain the session, which json cannot write, so stop_logging raises TypeError, and the
    record is lost. *)
Theorem C33_file_refuted : exists c (w : tworld nat),
  let gen := fun (i : nat) (_ : treq) => Ok [[i]; [i]] in
  let first := wev_run gen (prods c) (start_logging w) in
  all_ok (fst first) /\ w_log (snd first) <> [] /\
  fst (stop_logging (fun _ => false) true (snd first)) = Err TypeError /\
  w_log (snd (stop_logging (fun _ => false) true (snd first))) = [].
Proof.
  exists [(BMul, ([2], [2]))], (empty_world [] 2). cbn zeta. split; [vm_compute; repeat constructor; eexists; reflexivity|].
  split; [vm_compute; discriminate|]. split; vm_compute; reflexivity.
Qed.
Print Assumptions C33_file_refuted.
