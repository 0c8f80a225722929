(** Lemmas on the values opened by a division. *)
From Coq Require Import QArith Setoid Morphisms.
From Verif Require Import Util Modular S_Ring S_Tensor S_Wraps S_Div S_Bil S_Spdz S_Priv M_Torch M_Encoder M_Float M_Tensor M_Share M_Spdz M_Store M_Fss M_Opened S_Opened
  L_Torch L_Tensor L_Encoder L_Float L_Share L_Spdz L_Div L_Bil L_Mul L_Priv L_Opened.
Local Open Scope Z_scope.

Lemma public_divide_opened s x y prim : s_n s <> 2%nat ->
  public_divide s x y prim =
  (do o <- divide_opened s x y prim;
   let theta := snd (fst o) in let xs' := snd o in
   do x0 <- get_nth xs' 0;
   do s0 <- sh_lin LSub x0 (mkT (tsh theta) (map (theta_corr (s_cfg s) y) (tdat theta)));
   do so <- shape_bin (m_shape x) (tsh theta);
   Ok (mkM (m_sid x) so (set_nth 0 s0 xs'), xs')).
Proof.
  intros H. unfold public_divide, divide_opened. destruct (Nat.eqb_spec (s_n s) 2); [congruence|].
  destruct (mpc_lin _ _ _) as [z|]; [|reflexivity]. cbn [rbind].
  destruct (rmap _ _) as [rs|]; [|reflexivity]. cbn [rbind].
  destruct (tsum _ _) as [th|]; reflexivity.
Qed.

Section Opened.
  Variables (s : sess) (x : mpc) (y : Z) (rs ths : list tensor) (sh : list nat) (n : nat).
  Hypothesis n0 : n <> 0%nat.
  Hypothesis Hnb : Z.of_nat n < 2^60.
  Hypothesis Hsid : m_sid x = s_id s.
  Hypothesis Hsh : m_shape x = sh.
  Hypothesis Lx : length (m_shares x) = n.
  Hypothesis Lr : length rs = n.
  Hypothesis Lt : length ths = n.
  Hypothesis Hy : 0 < y.
  Hypothesis FX : Forall (tensor_in R64 sh) (m_shares x).
  Hypothesis FR : Forall (tensor_in R64 sh) rs.
  Hypothesis FT : Forall (tensor_in R64 sh) ths.

  Let dt := mkT [] [].
  Let X k := nth k (m_shares x) dt.
  Let R k := nth k rs dt.
  Let TH k := nth k ths dt.
  Let Zs := map (fun k => mkT sh (vadd R64 (tdat (R k)) (tdat (X k)))) (seq 0 n).

  Let Xin k : (k < n)%nat -> tensor_in R64 sh (X k).
  Proof. intros Hk. apply Forall_nth_in; auto. lia. Qed.
  Let Rin k : (k < n)%nat -> tensor_in R64 sh (R k).
  Proof. intros Hk. apply Forall_nth_in; auto. lia. Qed.
  Let Tin k : (k < n)%nat -> tensor_in R64 sh (TH k).
  Proof. intros Hk. apply Forall_nth_in; auto. lia. Qed.
  Let Zin : Forall (tensor_in R64 sh) Zs.
  Proof.
    apply Forall_map, Forall_forall. intros k Hk. apply in_seq in Hk.
    destruct (Xin k) as (_ & A2 & A3); [lia|]. destruct (Rin k) as (_ & B2 & B3); [lia|].
    split; [reflexivity|]. cbn [tdat]. split; [apply vadd_length; auto | apply vadd_in; auto].
  Qed.

  Lemma divide_opened_eq :
    exists tv, divide_opened s x y (rs, ths) =
        Ok (Zs, mkT sh tv, map (fun t => mkT sh (map (fun v => Z.quot v y) (tdat t))) (m_shares x)) /\
      length tv = numel sh /\
      forall e, (e < numel sh)%nat -> nth e tv 0 = to_ring R64
        (zsum (map (fun k => count_wraps1 [nth e (tdat (nth k (m_shares x) (mkT [] []))) 0; nth e (tdat (nth k rs (mkT [] []))) 0]) (seq 0 n))
         - zsum (col e ths) + count_wraps1 (col e Zs)).
  Proof.
    unfold divide_opened. cbn [fst snd]. rewrite Lx.
    assert (EZ : mpc_lin LAdd (mkM (s_id s) (m_shape x) rs) x = Ok (mkM (s_id s) sh Zs)).
    { unfold mpc_lin. cbn [m_sid m_shape m_shares]. rewrite Hsid, Nat.eqb_refl. cbn [negb].
      rewrite (list_as_seq dt rs n Lr), (list_as_seq dt (m_shares x) n Lx), combine_map, rmap_map. cbn [fst snd].
      rewrite (rmap_pointwise _ (fun k => mkT sh (vadd R64 (tdat (R k)) (tdat (X k))))).
      2:{ intros k Hk. apply in_seq in Hk. fold (X k) (R k).
          destruct (Xin k) as (A1 & A2 & A3); [lia|]. destruct (Rin k) as (B1 & B2 & B3); [lia|].
          unfold sh_lin. rewrite (tbin_same _ (R k) (X k) sh) by auto. reflexivity. }
      cbn [rbind]. unfold shape_bin. rewrite Hsh, bcast_refl. reflexivity. }
    rewrite EZ. cbn [rbind m_shares].
    set (D k := mkT sh (map (fun v => Z.quot v y) (tdat (X k)))).
    assert (EC : combine (seq 0 n) (combine (combine rs ths) (m_shares x)) =
                 map (fun k => (k, ((R k, TH k), X k))) (seq 0 n)).
    { rewrite (list_as_seq dt rs n Lr) at 1. rewrite (list_as_seq dt ths n Lt) at 1.
      rewrite (list_as_seq dt (m_shares x) n Lx) at 1. rewrite !combine_map.
      rewrite <- (map_id (seq 0 n)) at 1. rewrite combine_map. reflexivity. }
    rewrite EC, rmap_map. cbn [fst snd].
    assert (LZ : length Zs = n) by (unfold Zs; rewrite map_length, seq_length; auto).
    destruct (rmap_exists (fun k => div_wraps k (R k) (TH k) (X k) Zs y)
      (fun k p => snd p = D k /\ tensor_in R64 sh (fst p) /\ forall e, (e < numel sh)%nat -> nth e (tdat (fst p)) 0 ==
         count_wraps1 [nth e (tdat (X k)) 0; nth e (tdat (R k)) 0] - nth e (tdat (TH k)) 0 +
         (if Nat.eqb k 0 then count_wraps1 (col e Zs) else 0) [mod R64]) (seq 0 n)) as (ps & EP & HF).
    { intros k Hk. apply in_seq in Hk.
      destruct (div_wraps_spec k (R k) (TH k) (X k) Zs y sh) as (T & H1 & H2 & H3); auto; try lia.
      - destruct Zs; [simpl in LZ; lia|discriminate].
      - apply Rin; lia.
      - apply Tin; lia.
      - apply Xin; lia.
      - eexists. split; [exact H1|]. auto. }
    rewrite EP. cbn [rbind].
    assert (ES : map snd ps = map D (seq 0 n)).
    { clear -HF. induction HF as [|k p ks ps (H & _) HF IH]; cbn [map]; f_equal; auto. }
    assert (LP : length ps = n) by (apply Forall2_len in HF; rewrite seq_length in HF; lia).
    assert (HFT : Forall (tensor_in R64 sh) (map fst ps)).
    { apply Forall_map. clear -HF. induction HF as [|k p ks ps (_ & H & _) HF IH]; constructor; auto. }
    assert (NE : map fst ps <> []) by (destruct ps; [simpl in LP; lia|discriminate]).
    rewrite (tsum_spec R64 supR sh) by auto.
    cbn [rbind tsh tdat]. rewrite ES.
    set (tv := s_sum R64 (numel sh) (map tdat (map fst ps))).
    assert (EXD : map (fun t => mkT sh (map (fun v => Z.quot v y) (tdat t))) (m_shares x) = map D (seq 0 n)).
    { rewrite (list_as_seq dt (m_shares x) n Lx) at 1. rewrite map_map. reflexivity. }
    rewrite EXD. exists tv. split; [reflexivity|]. split; [apply s_sum_length|].
    intros e He. unfold tv. rewrite s_sum_nth by auto. apply to_ring_eq. rewrite !map_map.
    unfold col at 1. rewrite (list_as_seq dt ths n Lt) at 1. rewrite map_map.
    rewrite (zsum_Forall2 R64 _ (fun k => count_wraps1 [nth e (tdat (X k)) 0; nth e (tdat (R k)) 0] - nth e (tdat (TH k)) 0 +
         (if Nat.eqb k 0 then count_wraps1 (col e Zs) else 0)) _ _ _ HF) by (intros k p _ (_ & _ & H); auto).
    rewrite zsum_map_add, zsum_map_sub, zsum_rank0 by auto. reflexivity.
  Qed.

  (** with good masks the opened theta is the number of wraps of the shares of x *)
  Lemma opened_theta vx : s_n s = n -> n <> 2%nat -> shared R64 sh vx (m_shares x) -> good_masks n sh vx (m_shares x) rs ths ->
    exists zs tv xs', divide_opened s x y (rs, ths) = Ok (zs, mkT sh tv, xs') /\ length tv = numel sh /\
      forall e, (e < numel sh)%nat -> zsum (col e (m_shares x)) = nth e vx 0 + nth e tv 0 * 2^64.
  Proof.
    intros Hn N2 HX (_ & _ & vr & HR & HT & Hnw & HRmin & HZmin).
    destruct divide_opened_eq as (tv & E & L & V). do 3 eexists. split; [exact E|]. split; [exact L|].
    intros e He. rewrite V by auto.
    pose proof (theta_theta' s x rs ths sh n Hn n0 N2 Hnb Hsid Lx Lr Lt FX FR FT vx vr HX HR HT HRmin HZmin Hnw e He) as T1.
    pose proof (theta'_true s x rs ths sh n Hn n0 N2 Hnb Hsid Lx Lr Lt FX FR FT vx vr HX HR HRmin HZmin Hnw e He) as T2.
    etransitivity; [exact T2|]. f_equal. f_equal. symmetry. exact T1.
  Qed.
End Opened.

(* ------------------------------------------------- what the parties see of a division *)
Lemma zsum_except (l l' : list Z) : forall j, length l = length l' ->
  (forall k, (k < length l)%nat -> k <> j -> nth k l 0 = nth k l' 0) -> (j < length l)%nat ->
  zsum l - zsum l' = nth j l 0 - nth j l' 0.
Proof.
  revert l'. induction l as [|a l IH]; intros [|b l'] j HL H Hj; try discriminate HL; [cbn in Hj; lia|].
  injection HL as HL. destruct j as [|j]; cbn [zsum nth].
  - assert (l = l') as ->.
    { apply (nth_ext_len 0); auto. intros k Hk. apply (H (S k)); cbn; lia. }
    lia.
  - assert (a = b) by (apply (H 0%nat); cbn; lia).
    specialize (IH l' j HL). cbn in Hj. rewrite <- IH; [lia| |lia].
    intros k Hk Hkj. apply (H (S k)); cbn; lia.
Qed.

Lemma wvec_in sh rs : rs <> [] -> Z.of_nat (length rs) < 2^60 -> Forall (tensor_in R64 sh) rs ->
  tensor_in R64 sh (mkT sh (map (fun e => count_wraps1 (col e rs)) (seq 0 (numel sh)))).
Proof.
  intros NE HL HF. split; [reflexivity|]. cbn [tdat]. split; [rewrite map_length, seq_length; auto|].
  apply Forall_map, Forall_forall. intros e _. apply count_wraps1_small.
  - unfold col. apply Forall_map. eapply Forall_impl; [|apply HF]. intros t (_ & _ & T3). apply nth_in_ring; auto.
  - unfold col. destruct rs; [congruence|discriminate].
  - unfold col. rewrite map_length. auto.
Qed.

Section DivView.
  Variables (s : sess) (n j : nat) (sh : list nat) (y : Z).
  Hypothesis Hn : (2 <= n)%nat.
  Hypothesis Hj : (j < n)%nat.
  Hypothesis Hnb : Z.of_nat n < 2^60.
  Hypothesis Hy : 0 < y.

  (** the number of wraps of the shares of r *)
  Definition wv (rv : list Z) (rr : list (list Z)) : list Z :=
    match generate_shares n (mkT sh rv) rr with
    | Ok rs => map (fun e => count_wraps1 (col e rs)) (seq 0 (numel sh))
    | Err _ => []
    end.
  Definition newr (v v' rv : list Z) : list Z := vsub R64 rv (vsub R64 v' v).
  Definition divF (v v' : list Z) (r : divrand) : divrand :=
    let rv' := newr v v' (dr_r r) in
    let rr' := sd j (dr_r r) rv' (dr_rr r) in
    mkDR (sd j v v' (dr_x r)) rv' rr' (sd j (wv (dr_r r) (dr_rr r)) (wv rv' rr') (dr_rt r)).

  Lemma wv_in rv rr : tensor_in R64 sh (mkT sh rv) -> draws R64 n sh rr -> tensor_in R64 sh (mkT sh (wv rv rr)).
  Proof.
    intros Hr Hd. destruct (gen_shares n sh rv rr Hn Hr Hd) as (rs & E & L & (NE & F & _)). unfold wv. rewrite E.
    apply wvec_in; auto. lia.
  Qed.
  Lemma newr_in v v' rv : tensor_in R64 sh (mkT sh v) -> tensor_in R64 sh (mkT sh v') -> tensor_in R64 sh (mkT sh rv) ->
    tensor_in R64 sh (mkT sh (newr v v' rv)).
  Proof.
    intros (_ & A & A') (_ & B & B') (_ & C & C'). cbn [tdat] in *. split; [reflexivity|]. cbn [tdat]. unfold newr.
    split; [apply vsub_length; auto; apply vsub_length; auto|apply vsub_in; auto using vsub_in].
  Qed.
  Lemma newr_inv v v' rv : tensor_in R64 sh (mkT sh v) -> tensor_in R64 sh (mkT sh v') -> tensor_in R64 sh (mkT sh rv) ->
    newr v' v (newr v v' rv) = rv.
  Proof.
    intros HA HB HC. pose proof (newr_in v v' rv HA HB HC) as (_ & D & D'). pose proof (newr_in v' v _ HB HA (newr_in v v' rv HA HB HC)) as (_ & E & E').
    destruct HA as (_ & A & A'), HB as (_ & B & B'), HC as (_ & C & C'). cbn [tdat] in *.
    assert (L1 : length (vsub R64 v' v) = numel sh) by (apply vsub_length; auto).
    assert (L2 : length (vsub R64 v v') = numel sh) by (apply vsub_length; auto).
    apply vec_eqR; auto; [lia|]. intros e _. unfold newr.
    rewrite nth_vsub by (auto using vsub_in; rewrite ?(vsub_length R64 _ _ (numel sh)); auto; lia).
    rewrite nth_vsub by (auto using vsub_in; lia). rewrite !nth_vsub by (auto; lia). apply eqmod_eq; lia.
  Qed.

  Lemma divF_ok v v' r : tensor_in R64 sh (mkT sh v) -> tensor_in R64 sh (mkT sh v') -> divrand_ok n sh r ->
    divrand_ok n sh (divF v v' r) /\ divF v' v (divF v v' r) = r.
  Proof.
    intros V V' (D1 & D2 & D3 & D4). destruct r as [rx rv rr rt]. cbn [dr_x dr_r dr_rr dr_rt] in *.
    pose proof (newr_in v v' rv V V' D2) as N1.
    pose proof (sd_ok n sh j rv (newr v v' rv) rr D2 N1 D3) as N2.
    pose proof (wv_in rv rr D2 D3) as N3. pose proof (wv_in _ _ N1 N2) as N4.
    unfold divF. cbn [dr_x dr_r dr_rr dr_rt]. split.
    - split; [apply sd_ok; auto|]. split; [exact N1|]. split; [exact N2|]. apply sd_ok; auto.
    - rewrite newr_inv by auto. rewrite !(sd_inv n sh) by auto. reflexivity.
  Qed.

  Lemma div_view_private v v' : tensor_in R64 sh (mkT sh v) -> tensor_in R64 sh (mkT sh v') ->
    exists F G : divrand -> divrand,
      (forall r, divrand_ok n sh r -> divrand_ok n sh (F r) /\ divrand_ok n sh (G r) /\ G (F r) = r /\ F (G r) = r) /\
      (forall r, divrand_ok n sh r -> exists w, div_view s n j sh v y r = Ok w /\ div_view s n j sh v' y (F r) = Ok w).
  Proof.
    intros V V'. exists (divF v v'), (divF v' v). split.
    { intros r Hr. destruct (divF_ok v v' r V V' Hr) as [A B]. destruct (divF_ok v' v r V' V Hr) as [C D]. auto. }
    intros r Hr. destruct (divF_ok v v' r V V' Hr) as [(E1 & E2 & E3 & E4) _].
    destruct Hr as (D1 & D2 & D3 & D4). destruct r as [rx rv rr rt]. cbn [dr_x dr_r dr_rr dr_rt divF] in *.
    set (rv' := newr v v' rv) in *. set (rr' := sd j rv rv' rr) in *.
    pose proof (wv_in rv rr D2 D3) as W. pose proof (wv_in rv' rr' E2 E3) as W'.
    destruct (share_shift n sh v v' j rx Hn Hj V V' D1) as (xs & xs' & Ex & Ex' & Lx & Lx' & Nx). fold (sd j v v' rx) in Ex'.
    destruct (share_shift n sh rv rv' j rr Hn Hj D2 E2 D3) as (rs & rs' & Er & Er' & Lr & Lr' & Nr). fold (sd j rv rv' rr) rr' in Er'.
    destruct (share_shift n sh _ _ j rt Hn Hj W W' D4) as (ts & ts' & Et & Et' & Lt & Lt' & Nt). fold (sd j (wv rv rr) (wv rv' rr') rt) in Et'.
    assert (SX : shared R64 sh v xs) by (destruct (gen_shares n sh v rx Hn V D1) as (q & Q & _ & S); congruence).
    assert (SX' : shared R64 sh v' xs') by (destruct (gen_shares n sh v' _ Hn V' E1) as (q & Q & _ & S); congruence).
    assert (SR : shared R64 sh rv rs) by (destruct (gen_shares n sh rv rr Hn D2 D3) as (q & Q & _ & S); congruence).
    assert (SR' : shared R64 sh rv' rs') by (destruct (gen_shares n sh rv' _ Hn E2 E3) as (q & Q & _ & S); congruence).
    assert (ST : shared R64 sh (wv rv rr) ts) by (destruct (gen_shares n sh _ rt Hn W D4) as (q & Q & _ & S); congruence).
    assert (ST' : shared R64 sh (wv rv' rr') ts') by (destruct (gen_shares n sh _ _ Hn W' E4) as (q & Q & _ & S); congruence).
    assert (C : count_wraps_rand n (mkT sh rv) rr rt = Ok (rs, ts)).
    { unfold count_wraps_rand. rewrite Er. cbn [rbind]. rewrite (count_wraps_spec sh rs (proj1 SR) (proj1 (proj2 SR))). cbn [rbind].
      unfold wv in Et. rewrite Er in Et. rewrite Et. reflexivity. }
    assert (C' : count_wraps_rand n (mkT sh rv') rr' (sd j (wv rv rr) (wv rv' rr') rt) = Ok (rs', ts')).
    { unfold count_wraps_rand. rewrite Er'. cbn [rbind]. rewrite (count_wraps_spec sh rs' (proj1 SR') (proj1 (proj2 SR'))). cbn [rbind].
      assert (EW : wv rv' rr' = map (fun e => count_wraps1 (col e rs')) (seq 0 (numel sh))) by (unfold wv; rewrite Er'; reflexivity).
      rewrite <- EW. rewrite Et'. reflexivity. }
    unfold div_view, divF. cbn [dr_x dr_r dr_rr dr_rt]. fold rv' rr'. rewrite Ex, C. cbn [rbind]. rewrite Ex', C'. cbn [rbind fst snd].
    destruct SX as (_ & FX & SX), SX' as (_ & FX' & SX'), SR as (_ & FR & SR), SR' as (_ & FR' & SR'), ST as (_ & FT & _), ST' as (_ & FT' & _).
    destruct (divide_opened_eq s (mkM (s_id s) sh xs) y rs ts sh n) as (tv & -> & _ & _); auto; [lia|].
    destruct (divide_opened_eq s (mkM (s_id s) sh xs') y rs' ts' sh n) as (tv' & -> & _ & _); auto; [lia|].
    cbn [rbind fst snd m_shares].
    rewrite (others_ext xs j xs'), (others_ext rs j rs'), (others_ext ts j ts') by (try lia; intros; try apply Nx; try apply Nr; try apply Nt; lia).
    eexists. split; [reflexivity|]. do 2 f_equal. apply map_ext_in. intros k Hk. apply in_seq in Hk. f_equal.
    assert (NN : forall (l l' : list tensor), length l = n -> length l' = n -> (forall k, (k < n)%nat -> k <> j -> nth_error l k = nth_error l' k) ->
      forall k, (k < n)%nat -> k <> j -> nth k l (mkT [] []) = nth k l' (mkT [] [])).
    { intros l l' L L' H i Hi Hij. specialize (H i Hi Hij).
      rewrite (nth_error_nth' l (mkT [] [])), (nth_error_nth' l' (mkT [] [])) in H by lia. congruence. }
    destruct (Nat.eq_dec k j) as [->|Hkj].
    2:{ rewrite (NN xs xs'), (NN rs rs') by (auto; lia). reflexivity. }
    destruct (Forall_nth_in _ xs (mkT [] []) j FX) as (_ & X1 & X2); [lia|].
    destruct (Forall_nth_in _ xs' (mkT [] []) j FX') as (_ & X1' & X2'); [lia|].
    destruct (Forall_nth_in _ rs (mkT [] []) j FR) as (_ & R1 & R2); [lia|].
    destruct (Forall_nth_in _ rs' (mkT [] []) j FR') as (_ & R1' & R2'); [lia|].
    apply vec_eqR; auto using vadd_in.
    { rewrite !(vadd_length R64 _ _ (numel sh)) by auto. reflexivity. }
    intros e He. rewrite (vadd_length R64 _ _ (numel sh)) in He by auto.
    rewrite !nth_vadd by (auto; lia).
    assert (DX : forall (l l' : list tensor), length l = n -> length l' = n -> (forall k, (k < n)%nat -> k <> j -> nth_error l k = nth_error l' k) ->
      nth e (tdat (nth j l' (mkT [] []))) 0 - nth e (tdat (nth j l (mkT [] []))) 0 = zsum (col e l') - zsum (col e l)).
    { intros l l' L L' H. rewrite (zsum_except (col e l') (col e l) j).
      - unfold col. rewrite !(nth_map_in _ (mkT [] [])) by lia. reflexivity.
      - unfold col. rewrite !map_length. lia.
      - unfold col. rewrite !map_length. intros i Hi Hij. rewrite !(nth_map_in _ (mkT [] [])) by lia.
        rewrite (NN l l') by (auto; lia). reflexivity.
      - unfold col. rewrite map_length. lia. }
    pose proof (DX xs xs' Lx Lx' Nx) as QX. pose proof (DX rs rs' Lr Lr' Nr) as QR.
    assert (VX : nth e v 0 == zsum (col e xs) [mod R64]).
    { rewrite SX. rewrite s_sum_nth by auto. rewrite to_ring_eqmod by apply posR. rewrite map_map. reflexivity. }
    assert (VX' : nth e v' 0 == zsum (col e xs') [mod R64]).
    { rewrite SX'. rewrite s_sum_nth by auto. rewrite to_ring_eqmod by apply posR. rewrite map_map. reflexivity. }
    assert (VR : nth e rv 0 == zsum (col e rs) [mod R64]).
    { rewrite SR. rewrite s_sum_nth by auto. rewrite to_ring_eqmod by apply posR. rewrite map_map. reflexivity. }
    assert (VR' : nth e rv' 0 == zsum (col e rs') [mod R64]).
    { rewrite SR'. rewrite s_sum_nth by auto. rewrite to_ring_eqmod by apply posR. rewrite map_map. reflexivity. }
    destruct V as (_ & V1 & V2), V' as (_ & V1' & V2'), D2 as (_ & W1 & W2). cbn [tdat] in *.
    assert (NR : nth e rv' 0 == nth e rv 0 - (nth e v' 0 - nth e v 0) [mod R64]).
    { unfold rv', newr. rewrite nth_vsub by (auto using vsub_in; rewrite (vsub_length R64 _ _ (numel sh)); auto; lia).
      rewrite nth_vsub by (auto; lia). reflexivity. }
    destruct VX as [a VX], VX' as [a' VX'], VR as [b VR], VR' as [b' VR'], NR as [c NR].
    exists (c - (a' - a) - (b' - b)). unfold R64 in *. change (2^64) with 18446744073709551616 in *. lia.
  Qed.
End DivView.
