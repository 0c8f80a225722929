(** Running a program on shares: the error bounds of S_FixProg.v hold. *)
From Coq Require Import QArith Reals Qreals Lra.
From Verif Require Import Util Modular S_Ring S_Tensor S_Wraps S_Div S_Bil S_Spdz S_View S_Circuit S_Fixed S_Real S_FixProg
  M_Torch M_Encoder M_Float M_Tensor M_Share M_Spdz M_Circuit
  L_Torch L_Tensor L_Encoder L_Float L_Share L_Spdz L_Div L_Bil L_Mul L_View L_Circuit L_Conv L_FixProg.
Local Open Scope Z_scope.
Local Open Scope list_scope.

Section Run.
  Variable s : sess.
  Hypothesis Hb : 0 < c_base (s_cfg s).
  Hypothesis Hn : (2 <= s_n s)%nat.
  Notation c := (s_cfg s).
  Notation n := (s_n s).
  Notation near := (near s).

  (** a shared tensor of real values [r] up to [b] *)
  Definition is_near (sh : list nat) (r b : list R) (z : mpc) : Prop := exists v, good s sh v z /\ near sh v r b.

  Lemma shared_unique sh v so w ws : shared R64 sh v ws -> shared R64 so w ws -> sh = so /\ v = w.
  Proof.
    intros (H1 & H2 & H3) (_ & G2 & G3). destruct ws as [|t ws]; [congruence|].
    pose proof (Forall_inv H2) as [A _]. pose proof (Forall_inv G2) as [B _]. assert (sh = so) by congruence. subst so. split; congruence.
  Qed.

  (** the division of shares with an even division *)
  Lemma divide_evenly sh v ws k prim : 0 < k -> length ws = n -> shared R64 sh v ws -> evenly s ws k prim ->
    exists z vz, (do r <- public_divide s (mkM (s_id s) sh ws) k prim; Ok (fst r)) = Ok z /\ good s sh vz z /\
      forall e, (e < numel sh)%nat -> quot_within k (nth e v 0) (nth e vz 0) (slack n k).
  Proof.
    intros Hk HL HS (so & w & SW & HD). destruct (shared_unique _ _ _ _ _ HS SW) as [<- <-].
    destruct (divide_value_eq s (mkM (s_id s) sh ws) k prim sh v) as (z & xs' & vz & E & Z1 & Z2 & Z3 & Z4 & Z5); auto.
    rewrite E. cbn [rbind fst]. exists z, vz. split; [reflexivity|]. split; [repeat split; auto; apply Z4|].
    intros e He. destruct (Z5 e He) as (th & T1 & T2 & T3). cbn [m_shares] in *. unfold quot_within, slack. rewrite T3.
    pose proof (div_error_bound (col e ws) k th Hk) as B. unfold col in B at 2. rewrite map_length, HL in B.
    pose proof (Z.mod_pos_bound (2^62) k Hk).
    destruct (Nat.eqb_spec n 2) as [E2|E2].
    - assert (th = 0). { destruct HD as [(_ & HD)|(HD & _)]; [specialize (HD e He)|]; lia. }
      subst th. cbn [Z.abs] in B. lia.
    - nia.
  Qed.

  (** products *)
  Lemma dot_near sx sy so ps vx rx bx vy ry by_ prim ws : near sx vx rx bx -> near sy vy ry by_ ->
    length ws = n -> shared R64 so (ring_dot so ps vx vy) ws -> evenly s ws (scale c) prim ->
    (forall e, (e < numel so)%nat -> room c (real_sum (map (fun p => mag rx bx (fst p) * mag ry by_ (snd p))%R (ps e)) * IZR (scale c))) ->
    exists z, (do r <- public_divide s (mkM (s_id s) so ws) (scale c) prim; Ok (fst r)) = Ok z /\
      is_near so (real_dot so ps rx ry) (dot_err so ps rx bx ry by_ (rounding c n)) z.
  Proof.
    intros NX NY LW SW EW HR.
    destruct (divide_evenly so _ ws (scale c) prim (SZ_pos s Hb Hn) LW SW EW) as (z & vz & E & G & HQ).
    exists z. split; [exact E|]. exists vz. split; [exact G|].
    unfold real_dot, dot_err. apply (near_intro s Hb Hn).
    - destruct G as (_ & _ & _ & G). apply (shared_vals R64 supR _ _ _ G).
    - intros e He. specialize (HQ e He). specialize (HR e He).
      destruct (dot_real s Hb Hn sx sy vx rx bx vy ry by_ (ps e) NX NY) as [D1 D2].
      unfold ring_dot in HQ. rewrite map_seq_nth in HQ by auto.
      change (2^64) with R64 in HQ. rewrite (to_ring64_small _ (fits2 s Hb Hn _ _ D2 HR)) in HQ.
      apply (rescale_real s Hb Hn) in HQ. set (P := zsum _) in *.
      match goal with |- (Rabs (?a - ?b) <= ?x + ?y)%R => replace (a - b)%R with ((fixed2 s P - b) + (a - fixed2 s P))%R by ring end.
      eapply Rle_trans; [apply Rabs_triang|]. apply Rplus_le_compat; [exact D1|exact HQ].
  Qed.

  Lemma mul_near op sx sy so so' ps ps' x y rx bx ry by_ ts prim : terms op sx sy so ps -> terms (bare_op op) sx sy so' ps' ->
    is_near sx rx bx x -> is_near sy ry by_ y -> valid_triples sx sy so (ring_dot so ps) n ts ->
    (forall ws, run_mul (mul_parties_raw (bop_of op)) x y ts = Ok ws -> evenly s ws (scale c) prim) ->
    (forall e, (e < numel so)%nat -> room c (real_sum (map (fun p => mag rx bx (fst p) * mag ry by_ (snd p))%R (ps e)) * IZR (scale c))) ->
    exists z, mpc_bil s (bop_of op) x y ts prim = Ok z /\ is_near so (real_dot so ps rx ry) (dot_err so ps rx bx ry by_ (rounding c n)) z.
  Proof.
    intros HT HT' (vx & (X1 & X2 & X3 & X4) & NX) (vy & (Y1 & Y2 & Y3 & Y4) & NY) HV HE HR.
    destruct (terms_product _ _ _ _ _ HT) as (f & HP & EF). destruct (terms_product _ _ _ _ _ HT') as (f' & HP' & _).
    assert (HV' : valid_triples sx sy so f n ts).
    { destruct HV as (L & va & vb & A & B & C). split; [exact L|]. exists va, vb. rewrite EF. auto. }
    destruct (mpc_bil_raw s op sx sy so so' f f' Hb Hn HP HP') with (x := x) (y := y) (vx := vx) (vy := vy) (ts := ts) (prim := prim)
      as (ws & L & SW & RW & ->); auto.
    rewrite EF in SW. eapply dot_near; eauto.
  Qed.

  Lemma mulpub_near op sx so ps x p rx bx prim : op = SMul \/ op = SMatmul -> terms op sx (shape_of p) so ps ->
    is_near sx rx bx x -> pub_fits c p ->
    (forall ws, rmap (fun t => sh_bil (bop_of op) t (share_init c p)) (m_shares x) = Ok ws -> evenly s ws (scale c) prim) ->
    (forall e, (e < numel so)%nat -> room c (real_sum (map (fun q => mag rx bx (fst q) * mag (pub_real p) (pub_err c p) (snd q))%R (ps e)) * IZR (scale c))) ->
    exists z, mpc_bil_public s (bop_of op) x p prim = Ok z /\
      is_near so (real_dot so ps rx (pub_real p)) (dot_err so ps rx bx (pub_real p) (pub_err c p) (rounding c n)) z.
  Proof.
    intros Hop HT (vx & (X1 & X2 & X3 & X4) & NX) HF HE HR. pose proof (pub_near s Hb Hn p HF) as NP. destruct HF as [HP0 _].
    destruct (terms_product _ _ _ _ _ HT) as (f & HP & EF). rewrite <- pub_shape_of in HP.
    destruct (share_init_in c p HP0) as [HI EI].
    destruct (bil_shares_l op sx (pub_shape p) so f (m_shares x) vx _ HP X4 HI) as (ws & E & L & SW). cbn [tdat] in SW.
    assert (ESH := shape_of_product _ _ _ _ _ HP). rewrite <- EI in E. specialize (HE ws E).
    assert (EQ : mpc_bil_public s (bop_of op) x p prim = (do r <- public_divide s (mkM (s_id s) so ws) (scale c) prim; Ok (fst r))).
    { unfold mpc_bil_public. destruct Hop as [->| ->]; cbn [bop_of] in *; rewrite E; cbn [rbind]; rewrite X2, ESH, X1; reflexivity. }
    rewrite EQ. rewrite EF in SW. eapply dot_near; eauto. congruence.
  Qed.

  Lemma rmatmul_near sx so ps x p rx bx prim : terms SMatmul (shape_of p) sx so ps ->
    is_near sx rx bx x -> pub_fits c p ->
    (forall ws, rmap (fun t => sh_bil BMatmul (share_init c p) t) (m_shares x) = Ok ws -> evenly s ws (scale c) prim) ->
    (forall e, (e < numel so)%nat -> room c (real_sum (map (fun q => mag (pub_real p) (pub_err c p) (fst q) * mag rx bx (snd q))%R (ps e)) * IZR (scale c))) ->
    exists z, mpc_rmatmul s x p prim = Ok z /\
      is_near so (real_dot so ps (pub_real p) rx) (dot_err so ps (pub_real p) (pub_err c p) rx bx (rounding c n)) z.
  Proof.
    intros HT (vx & (X1 & X2 & X3 & X4) & NX) HF HE HR. pose proof (pub_near s Hb Hn p HF) as NP. destruct HF as [HP0 _].
    destruct (terms_product _ _ _ _ _ HT) as (f & HP & EF). rewrite <- pub_shape_of in HP.
    destruct (share_init_in c p HP0) as [HI EI].
    destruct (bil_shares_r SMatmul (pub_shape p) sx so f (m_shares x) vx _ HP X4 HI) as (ws & E & L & SW). cbn [tdat bop_of] in SW, E.
    assert (ESH := shape_of_product _ _ _ _ _ HP). rewrite <- EI in E. specialize (HE ws E).
    assert (EQ : mpc_rmatmul s x p prim = (do r <- public_divide s (mkM (s_id s) so ws) (scale c) prim; Ok (fst r))).
    { unfold mpc_rmatmul. cbn [bop_of] in *. rewrite E; cbn [rbind]; rewrite X2, ESH, X1; reflexivity. }
    rewrite EQ. rewrite EF in SW. eapply dot_near; eauto. congruence.
  Qed.

  (** sums and differences *)
  Lemma bget_bpos sh so v e : bget sh so v e = nth (bpos sh so e) v 0.
  Proof. reflexivity. Qed.

  Lemma lin_value o a b M : room c M -> (Rabs (fixed c a) + Rabs (fixed c b) <= M)%R ->
    fixed c (to_ring R64 (match o with LAdd => a + b | LSub => a - b end)) = real_lin o (fixed c a) (fixed c b).
  Proof.
    intros HM HA.
    assert (E : fixed c (match o with LAdd => a + b | LSub => a - b end) = real_lin o (fixed c a) (fixed c b)).
    { destruct o; cbn [real_lin]; unfold fixed; rewrite ?plus_IZR, ?minus_IZR; unfold Rdiv; ring. }
    rewrite to_ring64_small; [exact E|]. apply (fits s Hb Hn _ M); auto. rewrite E.
    eapply Rle_trans; [|exact HA]. destruct o; cbn [real_lin]; [apply Rabs_triang|].
    unfold Rminus. eapply Rle_trans; [apply Rabs_triang|]. rewrite Rabs_Ropp. lra.
  Qed.

  Lemma lin_err o x y rx ry bx by_ : (Rabs (x - rx) <= bx -> Rabs (y - ry) <= by_ ->
    Rabs (real_lin o x y - real_lin o rx ry) <= bx + by_)%R.
  Proof.
    intros H1 H2. destruct o; cbn [real_lin].
    - replace (x + y - (rx + ry))%R with ((x - rx) + (y - ry))%R by ring. eapply Rle_trans; [apply Rabs_triang|]. lra.
    - replace (x - y - (rx - ry))%R with ((x - rx) + - (y - ry))%R by ring. eapply Rle_trans; [apply Rabs_triang|]. rewrite Rabs_Ropp. lra.
  Qed.

  Lemma s_linop_nth o so fx fy e : (e < numel so)%nat ->
    nth e (s_linop o (map fx (seq 0 (numel so))) (map fy (seq 0 (numel so)))) 0 =
    to_ring R64 (match o with LAdd => fx e + fy e | LSub => fx e - fy e end).
  Proof.
    intros He. destruct o; cbn [s_linop]; unfold s_add, s_sub; rewrite map2_map_same, map_seq_nth by auto; reflexivity.
  Qed.

  Lemma lin_near_vals o sx sy so vx rx bx vy ry by_ : near sx vx rx bx -> near sy vy ry by_ ->
    (forall e, (e < numel so)%nat -> room c (mag rx bx (bpos sx so e) + mag ry by_ (bpos sy so e))) ->
    near so (s_linop o (bexpand sx so vx) (bexpand sy so vy))
      (build so (fun e => real_lin o (rat rx (bpos sx so e)) (rat ry (bpos sy so e))))
      (build so (fun e => rat bx (bpos sx so e) + rat by_ (bpos sy so e))%R).
  Proof.
    intros NX NY HR. apply (near_intro s Hb Hn).
    - unfold s_linop, s_add, s_sub. destruct o; rewrite map2_length, !bexpand_length; lia.
    - intros e He. unfold bexpand. rewrite s_linop_nth by auto. rewrite !bget_bpos.
      rewrite (lin_value o _ _ _ (HR e He)).
      + apply lin_err; [apply NX|apply NY].
      + apply Rplus_le_compat; [apply (near_mag s sx _ _ _ _ NX)|apply (near_mag s sy _ _ _ _ NY)].
  Qed.

  Lemma bpos_self sh e : (e < numel sh)%nat -> bpos sh sh e = e.
  Proof.
    intros He. pose proof (bexpand_self sh (map Z.of_nat (seq 0 (numel sh)))) as E.
    rewrite map_length, seq_length in E. specialize (E eq_refl).
    assert (A : nth e (bexpand sh sh (map Z.of_nat (seq 0 (numel sh)))) (-1) = Z.of_nat e).
    { rewrite E. rewrite (nth_indep _ (-1) (Z.of_nat 0)) by (rewrite map_length, seq_length; auto). rewrite map_nth, seq_nth by auto. reflexivity. }
    rewrite (nth_indep _ (-1) 0) in A by (rewrite bexpand_length; auto). rewrite bexpand_nth, bget_bpos in A by auto.
    destruct (Nat.lt_ge_cases (bpos sh sh e) (numel sh)) as [H|H].
    - rewrite map_seq_nth in A by auto. lia.
    - rewrite nth_overflow in A by (rewrite map_length, seq_length; auto).
      exfalso. assert (e = 0%nat) by lia. subst e.
      (* position 0 is found at position 0 *)
      pose proof (bexpand_self sh (map (fun i => Z.of_nat i + 1) (seq 0 (numel sh)))) as E2.
      rewrite map_length, seq_length in E2. specialize (E2 eq_refl).
      assert (B : nth 0 (bexpand sh sh (map (fun i => Z.of_nat i + 1) (seq 0 (numel sh)))) 0 = 1).
      { rewrite E2, map_seq_nth by auto. reflexivity. }
      rewrite bexpand_nth, bget_bpos in B by auto. rewrite nth_overflow in B by (rewrite map_length, seq_length; auto). lia.
  Qed.

  Lemma near_ext sh v f g f' g' : (forall e, (e < numel sh)%nat -> f e = f' e) -> (forall e, (e < numel sh)%nat -> g e = g' e) ->
    near sh v (build sh f) (build sh g) -> near sh v (build sh f') (build sh g').
  Proof.
    intros H1 H2 H.
    assert (E : forall (h h' : nat -> R), (forall e, (e < numel sh)%nat -> h e = h' e) -> build sh h = build sh h').
    { intros h h' E. unfold build. apply map_ext_in. intros e He. apply in_seq in He. apply E. lia. }
    rewrite <- (E f f' H1), <- (E g g' H2). exact H.
  Qed.

  Lemma linpub_near_vals o sa p va ra ba : near sa va ra ba -> pub_fits c p ->
    (forall e, (e < numel sa)%nat -> room c (mag ra ba e + mag (pub_real p) (pub_err c p) (bpos (shape_of p) sa e))) ->
    near sa (s_linop o (bexpand sa sa va) (bexpand (shape_of p) sa (encode c (pub_vals p))))
      (build sa (fun e => real_lin o (rat ra e) (rat (pub_real p) (bpos (shape_of p) sa e))))
      (build sa (fun e => rat ba e + rat (pub_err c p) (bpos (shape_of p) sa e))%R).
  Proof.
    intros NA HF HR. eapply near_ext; [..|apply (lin_near_vals o sa (shape_of p) sa va ra ba _ (pub_real p) (pub_err c p) NA (pub_near s Hb Hn p HF))].
    - intros e He. cbv beta. rewrite (bpos_self sa e He). reflexivity.
    - intros e He. cbv beta. rewrite (bpos_self sa e He). reflexivity.
    - intros e He. rewrite (bpos_self sa e He). apply HR; auto.
  Qed.

  (** p - x: the difference and the product with the public -1 *)
  Lemma bpos_one so e : bpos [1%nat] so e = 0%nat.
  Proof. unfold bpos. destruct (skipn _ _) as [|i l]; reflexivity. Qed.

  Lemma scale_ge1 : (1 <= IZR (scale c))%R.
  Proof. apply IZR_le. pose proof (SZ_pos s Hb Hn). lia. Qed.

  Lemma room_le M M' : (M <= M')%R -> room c M' -> room c M.
  Proof.
    unfold room. intros H HR. pose proof scale_ge1. eapply Rle_lt_trans; [|exact HR]. apply Rmult_le_compat_r; lra.
  Qed.

  Lemma rsub_near sa ra ba x p prim : sa <> [] -> is_near sa ra ba x -> pub_fits c p -> room c 1 -> bshape sa (shape_of p) sa ->
    (forall e, (e < numel sa)%nat ->
       room c ((mag ra ba e + mag (pub_real p) (pub_err c p) (bpos (shape_of p) sa e)) * IZR (scale c))) ->
    (forall d ws, mpc_lin_public s LSub x p = Ok d ->
        rmap (fun t => sh_bil BMul t (share_init c (PNum (NInt (-1))))) (m_shares d) = Ok ws -> evenly s ws (scale c) prim) ->
    exists z, mpc_rsub s x p prim = Ok z /\ is_near sa
      (build sa (fun e => rat (pub_real p) (bpos (shape_of p) sa e) - rat ra e)%R)
      (build sa (fun e => rat ba e + rat (pub_err c p) (bpos (shape_of p) sa e) + rounding c n)%R) z.
  Proof.
    intros Hsa (vx & (X1 & X2 & X3 & X4) & NX) HF H1 HB HR HE. unfold mpc_rsub.
    assert (P1 : pub_ok p) by apply HF.
    destruct (mpc_lin_public_value s LSub x p vx sa) as (d & ED & D1 & D2 & D3 & D4 & D5);
      try (rewrite X2, ?pub_shape_of; assumption); auto.
    specialize (HE d). rewrite ED in *. cbn [rbind]. specialize (D5 (eq_sym X2)). rewrite X2, pub_shape_of in D5.
    pose proof (pub_near s Hb Hn p HF) as NP. pose proof scale_ge1 as GS.
    assert (ND : is_near sa (build sa (fun e => real_lin LSub (rat ra e) (rat (pub_real p) (bpos (shape_of p) sa e))))
      (build sa (fun e => rat ba e + rat (pub_err c p) (bpos (shape_of p) sa e))%R) d).
    { eexists. split; [split; [congruence|split; [exact D2|split; [congruence|exact D5]]]|].
      apply linpub_near_vals; auto. intros e He. eapply room_le; [|apply (HR e He)].
      set (A := mag ra ba e). set (B := mag _ _ _).
      assert (0 <= A)%R by (eapply Rle_trans; [apply Rabs_pos|apply (near_mag s sa vx ra ba e NX)]).
      assert (0 <= B)%R by (eapply Rle_trans; [apply Rabs_pos|apply (near_mag s _ _ _ _ _ NP)]).
      rewrite <- (Rmult_1_r (A + B)) at 1. apply Rmult_le_compat_l; lra. }
    assert (HT : terms SMul sa (shape_of (PNum (NInt (-1)))) sa (fun e => [(bpos sa sa e, bpos [1%nat] sa e)])).
    { apply tm_mul. apply bshape_scalar. auto. }
    assert (RM : pub_real (PNum (NInt (-1))) = [(-1)%R]) by reflexivity.
    assert (RE : pub_err c (PNum (NInt (-1))) = [0%R]) by reflexivity.
    assert (FM : pub_fits c (PNum (NInt (-1)))).
    { split; [exact I|]. repeat constructor. cbn [num_R]. replace (Rabs (IZR (-1))) with 1%R; [exact H1|].
      rewrite Rabs_left by lra. lra. }
    destruct (mulpub_near SMul sa sa _ d (PNum (NInt (-1))) _ _ prim (or_introl eq_refl) HT ND FM) as (z & EZ & vz & GZ & NZ).
    - intros ws Hws. apply (HE ws eq_refl Hws).
    - intros e He. cbn [map fst snd real_sum fold_right]. rewrite RM, RE, bpos_one, bpos_self by auto.
      eapply room_le; [|apply (HR e He)]. apply Rmult_le_compat_r; [lra|].
      unfold mag at 1 2. rewrite !(build_nth) by auto. cbn [rat nth real_lin].
      replace (Rabs (-1)) with 1%R by (rewrite Rabs_left by lra; lra).
      unfold mag. set (q := bpos (shape_of p) sa e).
      pose proof (Rabs_triang (rat ra e) (- rat (pub_real p) q)) as T. rewrite Rabs_Ropp in T. unfold Rminus. lra.
    - exists z. split; [exact EZ|]. exists vz. split; [exact GZ|].
      unfold real_dot, dot_err in NZ. eapply near_ext; [..|exact NZ].
      + intros e He. cbn [map fst snd real_sum fold_right]. rewrite RM, bpos_one, bpos_self by auto.
        rewrite build_nth by auto. cbn [rat nth real_lin]. ring.
      + intros e He. cbn [map fst snd real_sum fold_right]. rewrite RM, RE, bpos_one, bpos_self by auto.
        rewrite !build_nth by auto. cbn [rat nth real_lin].
        replace (Rabs (-1)) with 1%R by (rewrite Rabs_left by lra; lra). ring.
  Qed.

  Lemma view_near m sa so ps ra ba x : picks m sa so ps -> is_near sa ra ba x ->
    (forall e, (e < numel so)%nat -> room c (real_sum (map (mag ra ba) (ps e)))) ->
    exists z, mpc_view m x = Ok z /\ is_near so (real_gather so ps ra) (real_gather so ps ba) z.
  Proof.
    intros HP (va & (X1 & X2 & X3 & X4) & NX) HR.
    destruct (picks_viewed m sa so ps HP) as (f & HV & EF).
    pose proof (shared_vals R64 supR _ _ _ X4) as (VL & VI & _).
    destruct (mpc_view_commutes m x va (mkT so (f va))) as (y & E & Y1 & Y2 & Y3 & Y4 & Y5).
    - rewrite X2. exact X4.
    - rewrite X2. apply view_spec; auto.
    - cbn [tsh tdat] in *. exists y. split; [exact E|]. exists (f va).
      split; [repeat split; try congruence; apply Y4|].
      pose proof (shared_vals R64 supR _ _ _ Y4) as (FL & _ & _).
      unfold real_gather. apply (near_intro s Hb Hn); [exact FL|].
      intros e He. rewrite EF by auto.
      destruct (gather_real s Hb Hn sa va ra ba (ps e) NX) as [G1 G2].
      change (2^64) with R64. rewrite (to_ring64_small _ (fits s Hb Hn _ _ G2 (HR e He))). exact G1.
  Qed.

  Lemma div_near sa ra ba x k prim : 0 < k -> is_near sa ra ba x -> evenly s (m_shares x) k prim ->
    exists z, mpc_truediv s x k prim = Ok z /\ is_near sa (build sa (fun e => rat ra e / IZR k)%R)
      (build sa (fun e => (rat ba e + IZR (slack n k) * ulp c) / IZR k)%R) z.
  Proof.
    intros Hk (va & (X1 & X2 & X3 & X4) & NX) HE.
    destruct (divide_evenly sa va (m_shares x) k prim Hk X3 X4 HE) as (z & vz & E & G & HQ).
    exists z. split.
    - unfold mpc_truediv. destruct x as [sid shp shs]. cbn in *. subst. exact E.
    - exists vz. split; [exact G|]. apply (near_intro s Hb Hn).
      + destruct G as (_ & _ & _ & G). apply (shared_vals R64 supR _ _ _ G).
      + intros e He. apply (divide_real s Hb Hn k _ _ Hk (HQ e He)). apply NX.
  Qed.

  (** powers *)
  Section Power.
    Variables (sh : list nat) (tri : nat -> list triple) (msk : nat -> list tensor * list tensor).
    Hypothesis Hsh : sh <> [].
    Hypothesis H1 : room c 1.
    Hypothesis HT : forall k, valid_triples sh sh sh (mul_val sh sh sh) n (tri k).
    Hypothesis HM : forall k, any_masks n sh (fst (msk k)) (snd (msk k)).

    Lemma self_terms : terms SMul sh sh sh (fun e => [(bpos sh sh e, bpos sh sh e)]).
    Proof. apply tm_mul. apply bshape_same. Qed.

    Lemma self_triples k : valid_triples sh sh sh (ring_dot sh (fun e => [(bpos sh sh e, bpos sh sh e)])) n (tri k).
    Proof.
      destruct (HT k) as (L & va & vb & A & B & C). split; [exact L|]. exists va, vb. split; [exact A|]. split; [exact B|].
      assert (E : ring_dot sh (fun e => [(bpos sh sh e, bpos sh sh e)]) va vb = mul_val sh sh sh va vb); [|rewrite E; exact C].
      unfold ring_dot, mul_vr, s_mul, bexpand. rewrite map2_map_same. apply map_ext. intros e.
      cbn [map fst snd zsum fold_right]. rewrite Z.add_0_r. rewrite !bget_bpos. reflexivity.
    Qed.

    Lemma times_near x y rx bx ry by_ k : is_near sh rx bx x -> is_near sh ry by_ y -> times_room c sh rx bx ry by_ ->
      (forall ws, run_mul (mul_parties_raw BMul) x y (tri k) = Ok ws -> evenly s ws (scale c) (msk k)) ->
      exists z, mpc_bil s BMul x y (tri k) (msk k) = Ok z /\ is_near sh (real_times sh rx ry) (err_times c n sh rx bx ry by_) z.
    Proof.
      intros NX NY HR HE.
      destruct (mul_near SMul sh sh sh sh _ _ x y rx bx ry by_ (tri k) (msk k) self_terms self_terms NX NY (self_triples k) HE)
        as (z & EZ & vz & GZ & NZ).
      - intros e He. cbn [map fst snd real_sum fold_right]. rewrite !bpos_self by auto. rewrite Rplus_0_r. apply HR; auto.
      - exists z. split; [exact EZ|]. exists vz. split; [exact GZ|]. unfold real_times, err_times, real_dot, dot_err in *.
        eapply near_ext; [..|exact NZ]; intros e He; cbn [map fst snd real_sum fold_right]; rewrite ?bpos_self by auto; ring.
    Qed.

    Lemma one_near x rx bx k : is_near sh rx bx x -> (forall e, (e < numel sh)%nat -> room c (mag rx bx e * IZR (scale c))) ->
      (forall ws, rmap (fun t => sh_bil BMul t (share_init c (PNum (NInt 1)))) (m_shares x) = Ok ws -> evenly s ws (scale c) (msk k)) ->
      exists z, mpc_bil_public s BMul x (PNum (NInt 1)) (msk k) = Ok z /\
        is_near sh rx (build sh (fun e => rat bx e + rounding c n)%R) z.
    Proof.
      intros NX HR HE.
      assert (HT1 : terms SMul sh (shape_of (PNum (NInt 1))) sh (fun e => [(bpos sh sh e, bpos [1%nat] sh e)])).
      { apply tm_mul. apply bshape_scalar. auto. }
      assert (RM : pub_real (PNum (NInt 1)) = [1%R]) by reflexivity.
      assert (RE : pub_err c (PNum (NInt 1)) = [0%R]) by reflexivity.
      assert (A1 : Rabs 1 = 1%R) by apply Rabs_R1.
      assert (FM : pub_fits c (PNum (NInt 1))).
      { split; [exact I|]. repeat constructor. cbn [num_R]. rewrite A1. exact H1. }
      destruct (mulpub_near SMul sh sh _ x (PNum (NInt 1)) rx bx (msk k) (or_introl eq_refl) HT1 NX FM HE) as (z & EZ & vz & GZ & NZ).
      - intros e He. cbn [map fst snd real_sum fold_right]. rewrite RM, RE, bpos_one, bpos_self by auto.
        unfold mag at 2. cbn [rat nth]. rewrite A1. rewrite !Rplus_0_r, Rmult_1_r. apply HR; auto.
      - exists z. split; [exact EZ|]. exists vz. split; [exact GZ|].
        destruct NX as (vx & _ & NX).
        assert (ER : rx = build sh (fun e => rat rx e)).
        { destruct NX as (_ & L & _ & _). apply nth_ext with (d := 0%R) (d' := 0%R); [rewrite build_length; auto|].
          intros e He. fold (rat rx e) (rat (build sh (fun e => rat rx e)) e). rewrite build_nth by congruence. reflexivity. }
        rewrite ER. unfold real_dot, dot_err in NZ.
        eapply near_ext; [..|exact NZ]; intros e He; cbn [map fst snd real_sum fold_right]; rewrite RM, ?RE, bpos_one, ?bpos_self by auto;
          cbn [rat nth]; rewrite ?A1; ring.
    Qed.

    (** the last squaring only has to return *)
    Lemma square_returns x rx bx k : is_near sh rx bx x -> exists z, mpc_bil s BMul x x (tri k) (msk k) = Ok z.
    Proof.
      intros (vx & (X1 & X2 & X3 & X4) & _).
      assert (HP : product SMul sh sh sh (mul_val sh sh sh)) by (apply prod_mul; apply bshape_same).
      destruct (mpc_bil_raw s SMul sh sh sh sh (mul_val sh sh sh) (mul_val sh sh sh) Hb Hn HP HP)
        with (x := x) (y := x) (vx := vx) (vy := vx) (ts := tri k) (prim := msk k) as (ws & L & SW & _ & E); auto.
      cbn [bop_of] in E. rewrite E.
      destruct (divide_any s (mkM (s_id s) sh ws) (scale c) (msk k) sh (mul_val sh sh sh vx vx)) as (z & xs' & vz & EZ & _); auto.
      - apply (SZ_pos s Hb Hn).
      - rewrite EZ. cbn [rbind]. eauto.
    Qed.

    Definition acc_near (acc : option mpc) (ra : option (list R * list R)) : Prop :=
      match acc, ra with
      | None, None => True
      | Some a, Some (r, b) => is_near sh r b a
      | _, _ => False
      end.

    Lemma pow_loop_near p : forall base acc rb bb ra k, is_near sh rb bb base -> acc_near acc ra ->
      pow_room c n sh p rb bb ra -> pow_steady s p base acc k tri msk ->
      exists z, pow_loop s p base acc k tri msk = Ok z /\
        is_near sh (build sh (fun e => match ra with None => 1 | Some (r, _) => rat r e end * rat rb e ^ Pos.to_nat p)%R)
          (pow_bound c n sh p rb bb ra) z.
    Proof.
      assert (STEP : forall base acc rb bb ra k, is_near sh rb bb base -> acc_near acc ra -> step_room c sh rb bb ra ->
        match acc with
        | None => forall ws, rmap (fun t => sh_bil BMul t (share_init c (PNum (NInt 1)))) (m_shares base) = Ok ws -> evenly s ws (scale c) (msk k)
        | Some r => forall ws, run_mul (mul_parties_raw BMul) r base (tri k) = Ok ws -> evenly s ws (scale c) (msk k)
        end ->
        exists z, match acc with
                  | None => mpc_bil_public s BMul base (PNum (NInt 1)) (msk k)
                  | Some r => mpc_bil s BMul r base (tri k) (msk k)
                  end = Ok z /\ is_near sh (fst (pow_factor c n sh rb bb ra)) (snd (pow_factor c n sh rb bb ra)) z).
      { intros base [a|] rb bb [[r b]|] k NB NA HR HE; try contradiction; cbn [acc_near step_room pow_factor fst snd] in *.
        - apply times_near; auto.
        - apply one_near; auto. }
      assert (EXT : forall f f' b z, (forall e, (e < numel sh)%nat -> f e = f' e) -> is_near sh (build sh f) b z -> is_near sh (build sh f') b z).
      { intros f f' b z E N. replace (build sh f') with (build sh f); [exact N|]. unfold build. apply map_ext_in.
        intros e He. apply in_seq in He. apply E. lia. }
      induction p as [p IH|p IH|]; intros base acc rb bb ra k NB NA HR HS; cbn [pow_loop pow_room pow_steady pow_bound] in *.
      - destruct HR as (R1 & R2 & R3), HS as (S1 & S2 & S3).
        destruct (STEP base acc rb bb ra k NB NA R1 S1) as (r & ER & NR). rewrite ER. cbn [rbind].
        destruct (times_near base base rb bb rb bb (S k) NB NB R2 S2) as (b & EB & NBB). rewrite EB. cbn [rbind].
        destruct (IH b (Some r) _ _ (Some (pow_factor c n sh rb bb ra)) (S (S k)) NBB) as (z & EZ & NZ); auto.
        { cbn [acc_near]. destruct (pow_factor c n sh rb bb ra). exact NR. }
        exists z. split; [exact EZ|]. eapply EXT; [|exact NZ]. intros e He. cbv beta.
        rewrite Pos2Nat.inj_xI. unfold real_times. rewrite build_nth by auto.
        replace (S (2 * Pos.to_nat p)) with (1 + 2 * Pos.to_nat p)%nat by lia. rewrite pow_add, pow_mult, pow_1.
        replace (rat rb e ^ 2)%R with (rat rb e * rat rb e)%R by ring.
        destruct ra as [[r0 b0]|]; cbn [pow_factor].
        + unfold real_times. rewrite build_nth by auto. ring.
        + ring.
      - destruct HR as (R2 & R3), HS as (S2 & S3).
        destruct (times_near base base rb bb rb bb k NB NB R2 S2) as (b & EB & NBB). rewrite EB. cbn [rbind].
        destruct (IH b acc _ _ ra (S k) NBB NA R3) as (z & EZ & NZ); auto.
        exists z. split; [exact EZ|]. eapply EXT; [|exact NZ]. intros e He. cbv beta.
        rewrite Pos2Nat.inj_xO. unfold real_times. rewrite build_nth by auto. rewrite pow_mult.
        replace (rat rb e ^ 2)%R with (rat rb e * rat rb e)%R by ring. reflexivity.
      - destruct (STEP base acc rb bb ra k NB NA HR HS) as (r & ER & NR). rewrite ER. cbn [rbind].
        destruct (square_returns base rb bb (S k) NB) as (b & EB). rewrite EB. cbn [rbind].
        exists r. split; [reflexivity|]. change (Pos.to_nat 1) with 1%nat.
        destruct ra as [[r0 b0]|]; cbn [pow_factor fst snd] in *.
        + eapply EXT; [|exact NR]. intros e He. cbv beta. rewrite pow_1. reflexivity.
        + replace (build sh (fun e => 1 * rat rb e ^ 1)%R) with rb; [exact NR|].
          destruct NB as (vb & _ & _ & L & _). symmetry. apply nth_ext with (d := 0%R) (d' := 0%R); [rewrite build_length; auto|].
          intros e He. rewrite build_length in He. fold (rat (build sh (fun e => 1 * rat rb e ^ 1)%R) e). rewrite build_nth by auto.
          unfold rat. ring.
    Qed.

    Lemma pow_near x rx bx p : is_near sh rx bx x -> pow_room c n sh p rx bx None -> pow_steady s p x None 0 tri msk ->
      exists z, mpc_pow s x (Zpos p) tri msk = Ok (inl z) /\
        is_near sh (build sh (fun e => rat rx e ^ Pos.to_nat p)%R) (pow_bound c n sh p rx bx None) z.
    Proof.
      intros NX HR HS. destruct (pow_loop_near p x None rx bx None 0%nat NX I HR HS) as (z & EZ & NZ).
      unfold mpc_pow. rewrite EZ. cbn [rbind]. exists z. split; [reflexivity|].
      replace (build sh (fun e => rat rx e ^ Pos.to_nat p)%R) with (build sh (fun e => 1 * rat rx e ^ Pos.to_nat p)%R); [exact NZ|].
      unfold build. apply map_ext. intros e. ring.
    Qed.
  End Power.

  Theorem eval_near env ins sup : (forall i, is_near (fst (ins i)) (fst (snd (ins i))) (snd (snd (ins i))) (env i)) ->
    forall path e sh r b, approx c n ins sup path e sh r b -> steady s env sup path e ->
    exists z, eval s env sup path e = Ok z /\ is_near sh r b z.
  Proof.
    intros Henv path e sh r b H.
    induction H as [path i
      |path o a b sa sb so ra ba rb bb HA IHA HB IHB HS HR
      |path o a p sa ra ba HA IHA HF HS HR
      |path a p sa ra ba HA IHA Hsa HF H1 HS HR
      |path a b sa sb so ra ba rb bb ps HA IHA HB IHB HT HV HR
      |path a b sa sb so ra ba rb bb ps HA IHA HB IHB HT HV HR
      |path st pd dl g a b sa sb so so' ra ba rb bb ps ps' HA IHA HB IHB HT HT' HV HR
      |path st pd dl g a b sa sb so so' ra ba rb bb ps ps' HA IHA HB IHB HT HT' HV HR
      |path a p sa so ra ba ps HA IHA HF HT HR
      |path a p sa so ra ba ps HA IHA HF HT HR
      |path a p sa so ra ba ps HA IHA HF HT HR
      |path a k sa ra ba HA IHA Hk
      |path a k sa ra ba HA IHA Hsa H1 HT HM HR
      |path m a sa so ra ba ps HA IHA HP HR]; cbn [steady]; intros HD; cbn [eval].
    - exists (env i). split; [reflexivity|apply Henv].
    - destruct HD as [DA DB]. destruct (IHA DA) as (x & -> & vx & (X1 & X2 & X3 & X4) & NX).
      destruct (IHB DB) as (y & -> & vy & (Y1 & Y2 & Y3 & Y4) & NY). cbn [rbind].
      destruct (mpc_lin_shared o x y so vx vy) as (z & E & Z1 & Z2 & Z3 & Z4);
        try (rewrite ?X2, ?Y2; assumption); try congruence.
      exists z. split; [exact E|]. rewrite X2, Y2 in Z4. eexists.
      split; [split; [congruence|split; [exact Z2|split; [congruence|exact Z4]]]|]. apply lin_near_vals; auto.
    - destruct (IHA HD) as (x & -> & vx & (X1 & X2 & X3 & X4) & NX). cbn [rbind].
      destruct (mpc_lin_public_value s o x p vx sa) as (z & E & Z1 & Z2 & Z3 & Z4 & Z5);
        try (rewrite X2, ?pub_shape_of; assumption); [apply HF|].
      exists z. split; [exact E|]. specialize (Z5 (eq_sym X2)). rewrite X2, pub_shape_of in Z5. eexists.
      split; [split; [congruence|split; [exact Z2|split; [congruence|exact Z5]]]|]. apply linpub_near_vals; auto.
    - destruct HD as [DA DE]. destruct (IHA DA) as (x & EX & NX). rewrite EX. cbn [rbind].
      apply rsub_near; auto. intros d ws Ed Ew. apply (DE x d ws EX Ed Ew).
    - destruct HD as (DA & DB & DE). destruct (IHA DA) as (x & EX & NX). destruct (IHB DB) as (y & EY & NY).
      rewrite EX, EY. cbn [rbind]. apply (mul_near SMul sa sb so so ps ps); auto. intros ws Ew. apply (DE x y ws EX EY Ew).
    - destruct HD as (DA & DB & DE). destruct (IHA DA) as (x & EX & NX). destruct (IHB DB) as (y & EY & NY).
      rewrite EX, EY. cbn [rbind]. apply (mul_near SMatmul sa sb so so ps ps); auto. intros ws Ew. apply (DE x y ws EX EY Ew).
    - destruct HD as (DA & DB & DE). destruct (IHA DA) as (x & EX & NX). destruct (IHB DB) as (y & EY & NY).
      rewrite EX, EY. cbn [rbind]. apply (mul_near (SConv st pd dl g) sa sb so so' ps ps'); auto. intros ws Ew. apply (DE x y ws EX EY Ew).
    - destruct HD as (DA & DB & DE). destruct (IHA DA) as (x & EX & NX). destruct (IHB DB) as (y & EY & NY).
      rewrite EX, EY. cbn [rbind]. apply (mul_near (SConvT st pd dl g) sa sb so so' ps ps'); auto. intros ws Ew. apply (DE x y ws EX EY Ew).
    - destruct HD as [DA DE]. destruct (IHA DA) as (x & EX & NX). rewrite EX. cbn [rbind].
      apply (mulpub_near SMul sa so ps); auto. intros ws Ew. apply (DE x ws EX Ew).
    - destruct HD as [DA DE]. destruct (IHA DA) as (x & EX & NX). rewrite EX. cbn [rbind].
      apply (mulpub_near SMatmul sa so ps); auto. intros ws Ew. apply (DE x ws EX Ew).
    - destruct HD as [DA DE]. destruct (IHA DA) as (x & EX & NX). rewrite EX. cbn [rbind].
      apply (rmatmul_near sa so ps); auto. intros ws Ew. apply (DE x ws EX Ew).
    - destruct HD as [DA DE]. destruct (IHA DA) as (x & EX & NX). rewrite EX. cbn [rbind].
      apply div_near; auto.
    - destruct HD as [DA DE]. destruct (IHA DA) as (x & EX & NX). rewrite EX. cbn [rbind].
      destruct (pow_near sa _ _ Hsa H1 HT HM x ra ba k NX HR (DE x EX)) as (z & -> & NZ). cbn [rbind]. exists z. split; [reflexivity|exact NZ].
    - destruct (IHA HD) as (x & EX & NX). rewrite EX. cbn [rbind]. apply (view_near m sa so ps); auto.
  Qed.

  Lemma known_near sh r b x : known s sh r b x -> is_near sh r b x.
  Proof.
    intros (v & A1 & A2 & A3 & A4 & A5 & A6 & A7). exists v. split; [split; [|split; [|split]]; auto|].
    pose proof (shared_vals R64 supR _ _ _ A4) as (VL & _ & _).
    split; [exact VL|]. split; [exact A5|]. split; [exact A6|]. intros k.
    destruct (Nat.lt_ge_cases k (numel sh)) as [Hk|Hk]; [apply (A7 k Hk)|].
    unfold rat. rewrite !nth_overflow by lia. rewrite (fixed_0 s Hb Hn). rewrite Rminus_0_r, Rabs_R0. lra.
  Qed.
  Lemma near_known sh r b x : is_near sh r b x -> known s sh r b x.
  Proof.
    intros (v & (A1 & A2 & A3 & A4) & N1 & N2 & N3 & N4). exists v. repeat (split; [assumption|]). intros e _. apply N4.
  Qed.
End Run.
