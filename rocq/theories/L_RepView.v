(** Lemmas on the forwarded methods, the local division and the equality of replicated tensors. *)
From Coq Require Import QArith Setoid Morphisms.
From Verif Require Import Util Modular S_Ring S_Tensor S_Bil S_View S_Spdz S_Rep M_Torch L_Torch M_Encoder M_Tensor L_Tensor M_Share L_Share L_View
  M_Spdz L_Spdz L_Bil L_RShare L_Mul M_Session L_Session M_Rep S_RepT L_Rep M_RepView S_RepView.
Local Open Scope Z_scope.

Lemma in_ring_64 ring v : supported ring -> in_ring ring v -> in_ring R64 v.
Proof.
  intros Hs H. destruct (in_ring_range _ _ Hs H) as (A & B). apply in_ring64. change (2^63) with 9223372036854775808.
  destruct (supported_cases _ Hs) as [E|[E|[E|[E|[E|E]]]]]; rewrite E in *.
  - specialize (A (or_introl eq_refl)). lia.
  - specialize (B ltac:(discriminate) ltac:(discriminate)). change (2^8/2) with 128 in B. lia.
  - specialize (A (or_intror eq_refl)). lia.
  - specialize (B ltac:(discriminate) ltac:(discriminate)). change (2^16/2) with 32768 in B. lia.
  - specialize (B ltac:(discriminate) ltac:(discriminate)). change (2^32/2) with 2147483648 in B. lia.
  - specialize (B ltac:(discriminate) ltac:(discriminate)). change (2^64/2) with 9223372036854775808 in B. lia.
Qed.
Lemma vec_in_64 ring v : supported ring -> vec_in ring v -> vec_in R64 v.
Proof. intros Hs. apply Forall_impl. intros a. apply in_ring_64. exact Hs. Qed.

(** a method that only moves elements does the same in every ring *)
Definition singles (ix : list (list nat)) : Prop := Forall (fun l => exists i, l = [i]) ix.
Lemma singles_map {A} (g : A -> nat) l : singles (map (fun e => [g e]) l).
Proof. apply Forall_map, Forall_forall. intros a _. eexists; reflexivity. Qed.
Lemma singles_rlin ring ring' ix v : singles ix -> rlin ring ix v = rlin ring' ix v.
Proof. intros H. apply map_ext_in. intros l Hl. unfold singles in H. rewrite Forall_forall in H. destruct (H l Hl) as (i & ->). reflexivity. Qed.

Lemma moved_index m s so f : moved m s so f ->
  rst_has m = true /\ is_sum m = false /\
  exists vo ix, meth_op m s = Ok (Some vo) /\ view_index vo s = Ok (so, ix) /\ singles ix /\
    forall v, length v = numel s -> vec_in R64 v -> rlin R64 ix v = f v.
Proof.
  intros H.
  assert (G : forall vo ix, viewed vo s so f -> view_index vo s = Ok (so, ix) ->
    forall v, length v = numel s -> vec_in R64 v -> rlin R64 ix v = f v).
  { intros vo ix HV EV v HL HI. pose proof (view_spec _ _ _ _ v HV HL HI) as E. change (2^64) with R64 in E.
    unfold tview in E. cbn [tsh tdat] in E. rewrite EV in E. cbn [rbind fst snd] in E. congruence. }
  destruct H as [m n|m n|d s Hd|s so Hso|s|k n r]; (split; [reflexivity|]); (split; [reflexivity|]); cbn [meth_op].
  - eexists VT, _. split; [reflexivity|]. split; [reflexivity|]. split; [apply singles_map|]. apply (G VT); [constructor|reflexivity].
  - eexists VT, _. split; [reflexivity|]. split; [reflexivity|]. split; [apply singles_map|]. apply (G VT); [constructor|reflexivity].
  - replace (Nat.leb d (length s)) with true by (symmetry; apply Nat.leb_le; auto).
    assert (E : numel (insert_at d 1 s) = numel s).
    { unfold insert_at. rewrite numel_app. cbn [numel fold_right]. fold (numel (skipn d s)). rewrite Nat.mul_1_l.
      rewrite <- numel_app, firstn_skipn. reflexivity. }
    assert (EV : view_index (VReshape (insert_at d 1 s)) s = Ok (insert_at d 1 s, map (fun e => [e]) (seq 0 (numel s)))).
    { cbn [view_index]. rewrite E, Nat.eqb_refl. reflexivity. }
    exists (VReshape (insert_at d 1 s)), (map (fun e => [e]) (seq 0 (numel s))).
    split; [reflexivity|]. split; [exact EV|].
    split; [apply (singles_map (fun e => e))|]. apply (G (VReshape (insert_at d 1 s))); [constructor; auto|exact EV].
  - assert (EV : view_index (VReshape so) s = Ok (so, map (fun e => [e]) (seq 0 (numel s)))).
    { cbn [view_index]. rewrite Hso, Nat.eqb_refl. reflexivity. }
    eexists (VReshape so), _. split; [reflexivity|]. split; [exact EV|].
    split; [apply (singles_map (fun e => e))|]. apply (G (VReshape so)); [constructor; auto|exact EV].
  - eexists VClone, _. split; [reflexivity|]. split; [reflexivity|].
    split; [apply (singles_map (fun e => e))|]. apply (G VClone); [constructor|reflexivity].
  - eexists (VRepeat0 k), _. split; [reflexivity|]. split; [reflexivity|].
    split; [apply singles_map|]. apply (G (VRepeat0 k)); [constructor|reflexivity].
Qed.

Lemma summed_index m s so f : summed m s so f ->
  rst_has m = true /\ is_sum m = true /\
  exists vo ix, meth_op m s = Ok (Some vo) /\ view_index vo s = Ok (so, ix) /\
    forall v, length v = numel s -> vec_in R64 v -> rlin R64 ix v = map (to_ring R64) (f v).
Proof.
  intros H.
  assert (G : forall vo g, viewed vo s so g -> (forall v, g v = map (to_ring R64) (f v)) ->
    exists ix, view_index vo s = Ok (so, ix) /\
      forall v, length v = numel s -> vec_in R64 v -> rlin R64 ix v = map (to_ring R64) (f v)).
  { intros vo g HV HG.
    assert (exists ix, view_index vo s = Ok (so, ix)) as (ix & EV).
    { pose proof (view_spec _ _ _ _ (repeat 0 (numel s)) HV (repeat_length _ _)) as E.
      assert (I : vec_in (2^64) (repeat 0 (numel s))).
      { apply Forall_forall. intros z Hz. apply repeat_spec in Hz. subst. reflexivity. }
      specialize (E I). unfold tview in E. cbn [tsh] in E. destruct (view_index vo s) as [[a b]|]; [|discriminate].
      cbn [rbind fst snd] in E. injection E as -> _. eauto. }
    exists ix. split; [exact EV|]. intros v HL HI. rewrite <- HG.
    pose proof (view_spec _ _ _ _ v HV HL HI) as E. change (2^64) with R64 in E.
    unfold tview in E. cbn [tsh tdat] in E. rewrite EV in E. cbn [rbind fst snd] in E. congruence. }
  destruct H as [s|d s Hd|d s Hd]; (split; [reflexivity|]); (split; [reflexivity|]); cbn [meth_op].
  - destruct (G VSum _ (vw_sum s)) as (ix & E1 & E2); [reflexivity|]. eauto 7.
  - destruct (G (VSumDim d) _ (vw_sumdim d s Hd)) as (ix & E1 & E2); [|eauto 7].
    intros v. unfold tabulate. rewrite map_map. reflexivity.
  - destruct (G (VSumKeep d) _ (vw_sumkeep d s Hd)) as (ix & E1 & E2); [|eauto 7].
    intros v. unfold tabulate. rewrite map_map. reflexivity.
Qed.

(** what a method does to the parties' objects *)
Lemma rm_method_views s ring cf sh ss m vo so ix : rst_has m = true -> ss <> [] -> Forall (tensor_in ring sh) ss ->
  meth_op m sh = Ok (Some vo) -> view_index vo sh = Ok (so, ix) ->
  rm_method m (mkRM (rs_id s) sh (rviews s ring cf ss)) =
  Ok (is_sum m && negb (ring =? R64),
      mkRM (rs_id s) so (rviews s ring (fun k => rst_cfg ring (cf k)) (map (fun t => mkT so (rlin R64 ix (tdat t))) ss))).
Proof.
  intros HM HN HT EM EV. unfold rm_method. cbn [rm_ps rm_shape rm_sid].
  set (zs := map (fun t => mkT so (rlin R64 ix (tdat t))) ss).
  assert (LZ : length zs = length ss) by apply map_length.
  assert (FZ : rmap (tmeth m) ss = Ok zs).
  { apply rmap_pointwise. intros t Ht. rewrite Forall_forall in HT. destruct (HT t Ht) as (T1 & _).
    unfold tmeth, tview. rewrite T1, EM. cbn [rbind]. rewrite EV. reflexivity. }
  assert (EP : rmap (rst_method m) (rviews s ring cf ss) = Ok (rviews s ring (fun k => rst_cfg ring (cf k)) zs)).
  { unfold rviews. rewrite rmap_map, LZ. apply rmap_pointwise. intros k _. unfold rst_method. rewrite HM. cbn [r_shares].
    rewrite (rmap_rep_view _ _ _ k HN FZ). reflexivity. }
  rewrite EP. cbn [rbind]. rewrite EM. cbn [rbind]. rewrite EV. cbn [rbind fst].
  unfold first_ring. cbn [rm_ps]. rewrite rviews_get by (destruct ss; [congruence|cbn; lia]). reflexivity.
Qed.

Section Ring.
  Variable ring : Z.
  Hypothesis Hs : supported ring.

  Lemma rm_moved s c sh v x m so f : holds s ring c sh v x -> moved m sh so f ->
    exists y, rm_method m x = Ok (false, y) /\ holds s ring c so (f v) y.
  Proof.
    intros HX HM. destruct (holds_views _ _ _ _ _ _ HX) as (ss & cf & Hss & HL & -> & Hc & _).
    destruct (moved_index _ _ _ _ HM) as (M1 & M2 & vo & ix & M3 & M4 & M5 & M6).
    pose proof (shared_vals ring Hs _ _ _ Hss) as (VL & VI & _). pose proof Hss as (H1 & H2 & H3).
    rewrite (rm_method_views s ring cf sh ss m vo so ix) by auto. rewrite M2. cbn [andb].
    eexists. split; [reflexivity|].
    apply views_holds; [|rewrite map_length; auto|intros k Hk; rewrite rst_cfg_idem; apply Hc; rewrite map_length in Hk; auto].
    rewrite <- M6 by (auto; apply (vec_in_64 ring); auto). pose proof (view_length _ _ _ _ M4) as LI.
    rewrite Forall_forall in H2. split; [|split].
    - destruct ss; [congruence|discriminate].
    - apply Forall_map, Forall_forall. intros t Ht. destruct (H2 t Ht) as (T1 & T2 & T3).
      split; [reflexivity|]. cbn [tdat]. rewrite (singles_rlin R64 ring) by auto.
      split; [rewrite rlin_length; auto | apply rlin_in; auto].
    - rewrite (singles_rlin R64 ring) by auto. rewrite rlin_spec by auto. rewrite map_map. cbn [tdat].
      rewrite (map_ext _ (fun t => rlin ring ix (tdat t))) by (intros; apply singles_rlin; auto).
      rewrite <- (map_map tdat (rlin ring ix)). rewrite <- LI. subst v. symmetry. apply s_sum_lin; auto.
      + apply Forall_map, Forall_forall. intros t Ht. apply (H2 t Ht).
      + apply Forall_map, Forall_forall. intros t Ht. apply (H2 t Ht).
  Qed.

  Lemma rm_numel_ok s c sh v x : (2 <= rs_n s)%nat -> holds s ring c sh v x -> rm_numel x = Ok (numel sh).
  Proof.
    intros Hn HX. destruct (holds_views _ _ _ _ _ _ HX) as (ss & cf & Hss & HL & -> & _).
    unfold rm_numel. cbn [rm_ps]. rewrite rviews_get by lia. cbn [rbind]. unfold rst_numel. cbn [r_shares].
    rewrite rep_view_get by lia. cbn [rbind]. destruct Hss as (_ & HF & _).
    assert (HT : tensor_in ring sh (nth ((0 + 0) mod length ss) ss dT)).
    { apply Forall_nth_in; auto. apply Nat.mod_upper_bound. lia. }
    destruct HT as (-> & _). reflexivity.
  Qed.
End Ring.

Lemma tview64_shared sh so ix v ss : Forall (tensor_in R64 sh) ss -> ss <> [] -> length ix = numel so ->
  v = s_sum R64 (numel sh) (map tdat ss) ->
  shared R64 so (rlin R64 ix v) (map (fun t => mkT so (rlin R64 ix (tdat t))) ss).
Proof.
  intros H2 HN LI ->. rewrite Forall_forall in H2. split; [|split].
  - destruct ss; [congruence|discriminate].
  - apply Forall_map, Forall_forall. intros t Ht. destruct (H2 t Ht) as (T1 & T2 & T3).
    split; [reflexivity|]. cbn [tdat]. split; [rewrite rlin_length; auto | apply rlin_in; auto].
  - rewrite rlin_spec by (auto; apply s_sum_in; auto). rewrite map_map. cbn [tdat].
    rewrite <- (map_map tdat (rlin R64 ix)). rewrite <- LI. symmetry. apply s_sum_lin; auto.
    + apply Forall_map, Forall_forall. intros t Ht. apply (H2 t Ht).
    + apply Forall_map, Forall_forall. intros t Ht. apply (H2 t Ht).
Qed.

Lemma rm_sum_64 s c sh v x m so f : holds s R64 c sh v x -> summed m sh so f ->
  exists y, rm_method m x = Ok (false, y) /\ holds s R64 c so (map (to_ring R64) (f v)) y.
Proof.
  intros HX HM. destruct (holds_views _ _ _ _ _ _ HX) as (ss & cf & Hss & HL & -> & Hc & _).
  destruct (summed_index _ _ _ _ HM) as (M1 & M2 & vo & ix & M3 & M4 & M6).
  pose proof (shared_vals R64 supR _ _ _ Hss) as (VL & VI & _). pose proof Hss as (H1 & H2 & H3).
  rewrite (rm_method_views s R64 cf sh ss m vo so ix) by auto. rewrite Z.eqb_refl, andb_false_r.
  eexists. split; [reflexivity|].
  apply views_holds; [|rewrite map_length; auto|intros k Hk; rewrite rst_cfg_idem; apply Hc; rewrite map_length in Hk; auto].
  rewrite <- M6 by auto. apply (tview64_shared sh); auto. apply (view_length _ _ _ _ M4).
Qed.

(** reconstruction of int64 tensors in the other power-of-two rings *)
Definition as64 (p : rst) : rst := mkR R64 (r_cfg p) (r_uuid p) (r_shares p).
Lemma get_nth_map {A B} (f : A -> B) l i : get_nth (map f l) i = (do a <- get_nth l i; Ok (f a)).
Proof. unfold get_nth. rewrite nth_error_map. destruct (nth_error l i); reflexivity. Qed.
Lemma wide_sum_64 ring ts : ring <> 2 -> ring <> 67 -> wide_sum ring ts = tsum R64 ts.
Proof.
  intros A B. unfold wide_sum, PRIME. destruct (Z.eqb_spec ring 2); [congruence|].
  destruct (Z.eqb_spec ring 67); [congruence|]. reflexivity.
Qed.
Lemma wide_loop_64 ring ps ranks o : ring <> 2 -> ring <> 67 ->
  wide_loop ring ps ranks o = reconstruct_loop R64 (map as64 ps) ranks o.
Proof.
  intros A B. revert o. induction ranks as [|k r IH]; intros o; cbn [wide_loop reconstruct_loop]; [reflexivity|].
  rewrite map_length, !get_nth_map. destruct (get_nth ps k) as [p|]; cbn [rbind]; [|reflexivity].
  destruct (get_nth ps ((k + 1) mod length ps)) as [q|]; cbn [rbind]; [|reflexivity].
  cbn [as64 r_shares]. destruct (get_nth (r_shares p) 0); cbn [rbind]; [|reflexivity].
  unfold shares_sum. rewrite wide_sum_64 by auto. destruct (tsum R64 _); cbn [rbind]; [|reflexivity].
  destruct o; [destruct (tdiffer _ _) as [[|]|]; cbn [rbind]; auto|apply IH].
Qed.
Lemma rw_reconstruct_64 s x ring : ring <> 2 -> ring <> 67 -> Forall (fun p => r_ring p = ring) (rm_ps x) ->
  rw_reconstruct s (true, x) = rst_reconstruct (rs_mal s) (map as64 (rm_ps x)).
Proof.
  intros A B H. unfold rw_reconstruct, rst_reconstruct. cbn [fst snd].
  destruct (rm_ps x) as [|p0 ps] eqn:E; [reflexivity|]. cbn [map]. change (as64 p0 :: map as64 ps) with (map as64 (p0 :: ps)).
  inversion H; subst. destruct (rs_mal s).
  - unfold reconstruct_mal. cbn [map get_nth nth_error rbind as64 r_ring].
    change (get_nth _ 0) with (Ok (as64 p0)). cbn [rbind as64 r_ring]. cbn [length]. rewrite map_length.
    rewrite (wide_loop_64 (r_ring p0)) by auto. reflexivity.
  - unfold wide_sh, reconstruct_sh. rewrite !get_nth_map. change (get_nth (p0 :: ps) 0) with (Ok p0). cbn [rbind].
    destruct (get_nth (p0 :: ps) 1) as [p1|]; cbn [rbind]; [|reflexivity]. cbn [as64 r_shares r_ring].
    destruct (get_nth (r_shares p0) 0); cbn [rbind]; [|reflexivity]. unfold shares_sum. apply wide_sum_64; auto.
Qed.

Lemma eqmod_dvd N M a b : (exists q, N = q * M) -> a == b [mod N] -> a == b [mod M].
Proof. intros (q & ->) (k & ->). exists (k * q). ring. Qed.

Lemma rm_sum_ring s ring c sh v x m so f : supported ring -> ring <> 2 -> ring <> 67 -> ring <> R64 -> (2 <= rs_n s)%nat ->
  holds s ring c sh v x -> summed m sh so f ->
  exists y w, rm_method m x = Ok y /\ rw_reconstruct s y = Ok (mkT so w) /\ length w = numel so /\
    forall e, (e < numel so)%nat -> nth e w 0 == nth e (f v) 0 [mod ring].
Proof.
  intros Hs N2 N67 N64 Hn HX HM. destruct (holds_views _ _ _ _ _ _ HX) as (ss & cf & Hss & HL & -> & Hc & _).
  destruct (summed_index _ _ _ _ HM) as (M1 & M2 & vo & ix & M3 & M4 & M6).
  pose proof (shared_vals ring Hs _ _ _ Hss) as (VL & VI & VN). pose proof Hss as (H1 & H2 & H3).
  pose proof (view_length _ _ _ _ M4) as LI.
  assert (T64 : Forall (tensor_in R64 sh) ss).
  { apply (Forall_impl _ (P := tensor_in ring sh)); [|exact H2]. intros t (A & B & C). split; [auto|]. split; [auto|]. apply (vec_in_64 ring); auto. }
  rewrite (rm_method_views s ring cf sh ss m vo so ix) by auto. rewrite M2.
  replace (ring =? R64) with false by (symmetry; apply Z.eqb_neq; auto). cbn [negb andb].
  set (V := s_sum R64 (numel sh) (map tdat ss)).
  pose proof (tview64_shared sh so ix V ss T64 H1 LI eq_refl) as S64.
  eexists _, _. split; [reflexivity|].
  rewrite (rw_reconstruct_64 s _ ring) by (auto; cbn [rm_ps]; apply Forall_map, Forall_forall; intros; reflexivity).
  cbn [rm_ps]. unfold rviews. rewrite map_map. cbn [as64 r_cfg r_uuid r_shares].
  change (map (fun k => as64 (mkR ring (rst_cfg ring (cf k)) (Some (rs_uuid s k)) (rep_view (map (fun t => mkT so (rlin R64 ix (tdat t))) ss) k)))
    (seq 0 (length (map (fun t => mkT so (rlin R64 ix (tdat t))) ss))))
    with (rviews s R64 (fun k => rst_cfg ring (cf k)) (map (fun t => mkT so (rlin R64 ix (tdat t))) ss)).
  rewrite (reconstruct_views R64 supR _ s _ so _ _ S64) by (rewrite map_length; lia).
  assert (VV : vec_in R64 V) by (apply s_sum_in; auto).
  split; [reflexivity|]. split; [rewrite rlin_length; auto|]. intros e He.
  assert (DV : exists q, R64 = q * ring).
  { unfold R64. destruct (supported_cases _ Hs) as [->|[->|[->|[->|[->| ->]]]]]; try congruence;
      [exists (2^56)|exists (2^48)|exists (2^32)|exists 1]; reflexivity. }
  assert (V64 : vec_in R64 v) by (apply (vec_in_64 ring); auto).
  rewrite (eqmod_dvd _ ring _ _ DV (rlin_nth R64 supR ix V e VV)).
  transitivity (zsum (map (fun i => nth i v 0) (nth e ix []))).
  - apply zsum_eqmod. intros i _. rewrite VN. unfold V.
    rewrite (eqmod_dvd _ ring _ _ DV (nth_s_sum R64 supR (numel sh) (map tdat ss) i ltac:(apply Forall_map, (Forall_impl _ (P := tensor_in ring sh)); [intros t Ht; apply Ht|exact H2]))).
    rewrite map_map. reflexivity.
  - rewrite <- (eqmod_dvd _ ring _ _ DV (rlin_nth R64 supR ix v e V64)). rewrite M6 by auto.
    destruct (Nat.lt_ge_cases e (length (f v))) as [C|C].
    + rewrite (nth_map_in (to_ring R64) 0 0) by auto. apply (eqmod_dvd _ ring _ _ DV). apply to_ring_eqmod. reflexivity.
    + rewrite (nth_overflow (f v)), nth_overflow by (rewrite ?map_length; auto). reflexivity.
Qed.
