(** Lemmas about the layers, the loss and the optimiser with replicated shares. *)
From Coq Require Import QArith Setoid Morphisms.
From Verif Require Import Util Modular S_Ring S_Tensor S_Bil S_Spdz S_View S_Rep S_RepView M_Torch L_Torch M_Encoder M_Tensor L_Tensor M_Share L_Share M_Spdz L_Spdz L_Bil
  L_RShare L_Mul L_Circuit L_Optim L_Module2 M_Fss M_Engine M_Approx M_Loss M_Session L_Session M_Rep S_RepT L_Rep L_Rep2 L_Rep3 L_Rep4 L_Rep5 L_Rep6
  M_RepView L_RepView M_RepEngine S_RCircuit M_RepNN S_RepNN.
Local Open Scope Z_scope.

Section Ring.
  Variable ring : Z.
  Hypothesis Hs : supported ring.
  Let Hp : 0 < ring := supported_pos ring Hs.

  Lemma holds_vals s c sh v x : holds s ring c sh v x -> length v = numel sh /\ Forall (in_ring ring) v.
  Proof. intros (_ & _ & _ & (xs & Hxs & _) & _). destruct (shared_vals ring Hs _ _ _ Hxs) as (A & B & _). auto. Qed.

  Lemma rep_add_bias s c b fout r vr mb vb : holds s ring c (b ++ [fout]) vr r -> rbias s ring fout vb mb ->
    exists z vz, match mb with None => Ok r | Some y => rm_lin LAdd r y end = Ok z /\ holds s ring c (b ++ [fout]) vz z /\
      forall e, (e < numel (b ++ [fout]))%nat -> nth e vz 0 = to_ring ring (nth e vr 0 + S_Module.bias_at vb (e mod fout)).
  Proof.
    intros HR HB. destruct (holds_vals _ _ _ _ _ HR) as (VL & VI).
    destruct mb as [y|], vb as [v|]; cbn [rbias] in HB; try contradiction.
    - destruct HB as (d & HB). destruct (holds_vals _ _ _ _ _ HB) as (BL & BI).
      destruct (rm_lin_holds ring Hs s LAdd c d _ _ _ _ _ _ _ HR HB (bshape_last b fout)) as (z & EZ & HZ).
      exists z. eexists. split; [exact EZ|]. split; [exact HZ|].
      intros e He. cbn [s_lop]. unfold s_add. rewrite (nth_map2 _ 0 0) by (rewrite !bexpand_length; auto).
      rewrite !bexpand_nth by auto. rewrite bget_last by auto. rewrite <- bexpand_nth, bexpand_self by auto. reflexivity.
    - exists r, vr. split; [reflexivity|]. split; [exact HR|]. intros e He. cbn [S_Module.bias_at]. rewrite Z.add_0_r.
      symmetry. apply (nth_in_ring ring); auto.
  Qed.

  Lemma weight_rt s d fout fin w vw : holds s ring d [fout; fin] vw w ->
    exists wt, rm_method Mt w = Ok (false, wt) /\ holds s ring d [fin; fout] (wT fout fin vw) wt.
  Proof. intros HW. apply (rm_moved ring Hs s d _ _ _ _ _ _ HW). constructor. Qed.

  Lemma rep_linear_ok s l x b fin fout c d vx vw vb f u : ring <> 2 -> ring <> 67 -> rs_n s = 3%nat -> cfg_ok c ->
    holds s ring d [fout; fin] vw (rl_w l) -> rbias s ring fout vb (rl_b l) -> holds s ring c (b ++ [fin]) vx x ->
    product_r ring SMatmul (b ++ [fin]) [fin; fout] (b ++ [fout]) f -> fit ring s (b ++ [fin]) [fin; fout] (b ++ [fout]) f u ->
    exists zs z vz, length zs = 3%nat /\ shared ring (b ++ [fout]) (f vx (wT fout fin vw)) zs /\
      (exists wt, rm_method Mt (rl_w l) = Ok (false, wt) /\ falcon_z BMatmul x wt (su_mask u) = Ok zs) /\
      rep_linear s l x u = Ok z /\ holds s ring c (b ++ [fout]) vz z /\
      forall e, (e < numel (b ++ [fout]))%nat ->
        nth e vz 0 = to_ring ring (nth e (trunc3 ring c (b ++ [fout]) zs) 0 + S_Module.bias_at vb (e mod fout)).
  Proof.
    intros N2 N67 Hn HC HW HB HX HP HU.
    destruct (weight_rt s d fout fin _ vw HW) as (wt & EW & HT).
    assert (HO : rep_op ring SMatmul) by (right; auto).
    destruct (rm_bil_ok ring Hs s SMatmul _ _ _ f c d vx _ x wt u Hn HP HO HC HX HT HU) as (r & zs & ER & EZ & LZ & SZ & HR).
    unfold trunc_value in HR. rewrite (proj2 (Z.eqb_neq _ _) N2), (proj2 (Z.eqb_neq _ _) N67) in HR. cbn [orb] in HR.
    destruct (rep_add_bias s c b fout r _ (rl_b l) vb HR HB) as (z & vz & E & HZ & HV).
    exists zs, z, vz. split; [exact LZ|]. split; [exact SZ|]. cbn [bop_of] in ER, EZ.
    split; [exists wt; auto|]. unfold rep_linear. rewrite EW. cbn [rbind snd]. rewrite ER. cbn [rbind]. auto.
  Qed.

  Lemma bshape_one sx : sx <> [] -> bshape sx [1%nat] sx.
  Proof.
    intros Hsx. split; [destruct sx; [congruence|cbn; lia]|]. intros i Hi. right. right. cbn [rev app].
    split; [destruct i as [|[|]]; reflexivity|reflexivity].
  Qed.

  Lemma mul_vr_number sh v l : length v = numel sh -> mul_vr ring sh [1%nat] sh v [l] = map (fun a => to_ring ring (a * l)) v.
  Proof.
    intros HL. unfold mul_vr, s_mul. rewrite (bexpand_self sh) by auto. apply (nth_ext _ _ 0 0).
    - rewrite map_length. rewrite (map2_length_eq _ _ _ (numel sh)); auto. apply bexpand_length.
    - intros e He. rewrite (map2_length_eq _ _ _ (numel sh)) in He by (auto; apply bexpand_length).
      rewrite (nth_map2 _ 0 0 0) by (rewrite ?bexpand_length; lia). rewrite (bexpand_nth [1%nat]) by auto. rewrite bget_one.
      rewrite (nth_map_in _ 0 0) by lia. reflexivity.
  Qed.

  (** x * number *)
  Lemma rep_times s c sh vx x l rnd : ring <> 2 -> ring <> 67 -> rs_n s = 3%nat -> cfg_ok c -> sh <> [] ->
    holds s ring c sh vx x -> tensor_in ring sh rnd ->
    let v := map (fun a => to_ring ring (a * encode1 c l)) vx in
    exists z zs, rm_bil_public s BMul x (PNum l) rnd = Ok z /\ length zs = 3%nat /\ shared ring sh v zs /\
      holds s ring c sh (trunc3 ring c sh zs) z.
  Proof.
    intros N2 N67 Hn HC Hsh HX HR v.
    assert (HW : pub_in ring c (PNum l) [to_ring ring (encode1 c l)]) by (right; right; split; [exact N2|split; [exact N67|reflexivity]]).
    destruct (rm_mul_public_ok ring Hs s c sh sh _ x (PNum l) _ rnd Hn HC HX I HW (bshape_one sh Hsh) HR) as (z & zs & ps & E & _ & _ & LZ & SZ & HZ & _).
    destruct (holds_vals _ _ _ _ _ HX) as (VL & VI).
    cbn [pub_shape] in SZ, HZ. rewrite mul_vr_number in SZ, HZ by auto.
    assert (EV : map (fun a => to_ring ring (a * to_ring ring (encode1 c l))) vx = v).
    { apply map_ext. intros a. apply to_ring_eq. rewrite to_ring_eqmod by apply Hp. reflexivity. }
    rewrite EV in SZ, HZ. unfold trunc_value in HZ. rewrite (proj2 (Z.eqb_neq _ _) N2), (proj2 (Z.eqb_neq _ _) N67) in HZ. cbn [orb] in HZ.
    exists z, zs. auto.
  Qed.

  Lemma trunc3_len c so zs : length zs = 3%nat -> length (trunc3 ring c so zs) = numel so.
  Proof. intros HL. destruct (three zs HL) as (z1 & z2 & z3 & ->). cbn [trunc3]. rewrite map_length, seq_length. reflexivity. Qed.
  Lemma trunc3_shifted c so v zs e : ring <> 2 -> ring <> 67 -> c_base c = 2 -> shared ring so v zs -> (e < numel so)%nat ->
    no_carry3 ring e zs -> shifted (c_prec c) (nth e v 0) (nth e (trunc3 ring c so zs) 0).
  Proof.
    intros N2 N67 Hb HS He HN. destruct zs as [|z1 [|z2 [|z3 [|]]]]; cbn [no_carry3] in HN; try contradiction.
    exact (trunc3_accurate ring Hs c so v z1 z2 z3 N2 N67 Hb HS e He HN).
  Qed.

  Lemma rep_one_step s lr rnd c sh v g p gr : ring <> 2 -> ring <> 67 -> rs_n s = 3%nat -> cfg_ok c -> tensor_in ring sh rnd ->
    rtrainable s ring c sh (Some p) v g -> ro_grad p = Some gr ->
    exists v', (do d <- rm_bil_public s BMul gr (PNum lr) rnd; rm_isub (ro_val p) d) = Ok v' /\
      rmoved s ring c (encode1 c lr) sh v g p (mkRO v' (ro_grad p)).
  Proof.
    intros N2 N67 Hn HC HR (p0 & gr0 & E0 & EG & Hsh & HV & HG) EG'. injection E0 as <-. rewrite EG in EG'. injection EG' as ->.
    destruct (rep_times s c sh g gr lr rnd N2 N67 Hn HC Hsh HG HR) as (z & zs & E & LZ & SZ & HZ).
    rewrite E. cbn [rbind]. unfold rm_isub.
    destruct (rm_lin_holds ring Hs s LSub c c sh sh sh v _ (ro_val p) z HV HZ (bshape_same sh)) as (r & ER & HRr).
    rewrite ER. cbn [rbind]. eexists. split; [reflexivity|].
    destruct (holds_vals _ _ _ _ _ HV) as (VL & VI). pose proof (trunc3_len c sh zs LZ) as TL.
    rewrite !bexpand_self in HRr by auto. cbn [s_lop] in HRr.
    destruct (holds_vals _ _ _ _ _ HG) as (GL & GI).
    split; [reflexivity|]. exists zs, (trunc3 ring c sh zs). split; [exact SZ|]. cbn [ro_val]. split.
    - destruct HV as (V1 & V2 & _). destruct HRr as (R1 & R2 & R3 & R4 & R5 & R6).
      split; [cbn [rm_sid]; congruence|]. split; [cbn [rm_shape]; congruence|]. cbn [rm_ps]. auto.
    - split; [exact TL|]. intros e He. split.
      + intros Hc. rewrite (trunc3_exact ring Hs c sh _ zs N2 N67 Hc SZ LZ). rewrite (nth_map_in _ 0 0) by lia. reflexivity.
      + intros Hb HN. pose proof (trunc3_shifted c sh _ zs e N2 N67 Hb SZ He HN) as T. rewrite (nth_map_in _ 0 0) in T by lia. exact T.
  Qed.

  Lemma rep_sgd_ok s lr rnd c (sh : nat -> list nat) (v g : nat -> list Z) : ring <> 2 -> ring <> 67 -> rs_n s = 3%nat -> cfg_ok c ->
    forall ids k objs, NoDup ids ->
    (forall n i, nth_error ids n = Some i -> tensor_in ring (sh i) (rnd (k + n)%nat) /\
       rtrainable s ring c (sh i) (nth_error objs i) (v i) (g i)) ->
    exists objs', rep_sgd_loop s lr rnd k ids objs = (objs', Ok tt) /\ length objs' = length objs /\
      (forall j, ~ In j ids -> nth_error objs' j = nth_error objs j) /\
      (forall j p, In j ids -> nth_error objs j = Some p ->
         exists p', nth_error objs' j = Some p' /\ rmoved s ring c (encode1 c lr) (sh j) (v j) (g j) p p').
  Proof.
    intros N2 N67 Hn HC. induction ids as [|i ids IH]; intros k objs HN HT; cbn [rep_sgd_loop].
    - exists objs. split; [reflexivity|]. split; [reflexivity|]. split; [auto|]. intros j p [].
    - destruct (HT 0%nat i eq_refl) as (TR & T0). rewrite Nat.add_0_r in TR. pose proof T0 as (p & gr & EP & EG & _).
      rewrite EP, EG. rewrite EP in T0. destruct (rep_one_step s lr (rnd k) c (sh i) (v i) (g i) p gr N2 N67 Hn HC TR T0 EG) as (v' & -> & MV).
      inversion HN as [|? ? Hi HN']; subst.
      assert (Li : (i < length objs)%nat) by (apply nth_error_Some; congruence).
      destruct (IH (S k) (set_nth i (mkRO v' (Some gr)) objs) HN') as (objs' & -> & O1 & O2 & O3).
      { intros n j Hj. rewrite nth_error_set by auto. destruct (Nat.eqb_spec j i) as [->|Hne].
        - destruct Hi. eapply nth_error_In; eauto.
        - replace (S k + n)%nat with (k + S n)%nat by lia. apply HT. exact Hj. }
      exists objs'. rewrite set_nth_length in O1. split; [reflexivity|]. split; [exact O1|]. split.
      + intros j Hj. rewrite O2 by (intros F; apply Hj; right; auto). rewrite nth_error_set by auto.
        destruct (Nat.eqb_spec j i) as [->|]; auto. destruct Hj. left; auto.
      + intros j q [->|Hj] Hq.
        * rewrite O2 by auto. rewrite nth_error_set by auto. rewrite Nat.eqb_refl. eexists. split; [reflexivity|].
          assert (q = p) as -> by congruence. rewrite EG in MV. exact MV.
        * apply O3; auto. rewrite nth_error_set by auto. destruct (Nat.eqb_spec j i) as [->|]; auto. contradiction.
  Qed.

  (** (pred - target) ** 2 *)
  Lemma rep_square_ok s c u sh va vb pred target : ring <> 2 -> ring <> 67 -> rs_n s = 3%nat -> cfg_ok c -> sh <> [] ->
    holds s ring c sh va pred -> holds s ring c sh vb target ->
    (forall k, fit ring s sh sh sh (mul_vr ring sh sh sh) (ru_mul u k)) ->
    exists d p zs ys, rm_lin LSub pred target = Ok d /\ fst (rep_pow s u 2 d None 0%nat) = Ok p /\
      length zs = 3%nat /\ shared ring sh (map2 (fun a b => to_ring ring ((a - b) * (a - b))) va vb) zs /\
      length ys = 3%nat /\ shared ring sh (map (fun a => to_ring ring (a * encode1 c (NInt 1))) (trunc3 ring c sh zs)) ys /\
      holds s ring c sh (trunc3 ring c sh ys) p.
  Proof.
    intros N2 N67 Hn HC Hsh HA HB HF.
    destruct (holds_vals _ _ _ _ _ HA) as (AL & AI). destruct (holds_vals _ _ _ _ _ HB) as (BL & BI).
    destruct (rm_lin_holds ring Hs s LSub c c sh sh sh va vb pred target HA HB (bshape_same sh)) as (d & ED & HD).
    rewrite !bexpand_self in HD by auto. cbn [s_lop] in HD. set (vd := s_sub ring va vb) in *.
    destruct (holds_vals _ _ _ _ _ HD) as (DL & DI).
    assert (HP : product_r ring SMul sh sh sh (mul_vr ring sh sh sh)) by (apply prod_mul_r, bshape_same).
    assert (HO : rep_op ring SMul) by (left; auto).
    destruct (rm_bil_ok ring Hs s SMul sh sh sh _ c c vd vd d d (ru_mul u 0%nat) Hn HP HO HC HD HD (HF 0%nat)) as (q & zs & EQ & _ & LZ & SZ & HQ).
    unfold trunc_value in HQ. rewrite (proj2 (Z.eqb_neq _ _) N2), (proj2 (Z.eqb_neq _ _) N67) in HQ. cbn [orb] in HQ. cbn [bop_of] in EQ.
    assert (HR : tensor_in ring sh (su_rand (ru_mul u 1%nat))) by apply (HF 1%nat).
    destruct (rep_times s c sh _ q (NInt 1) (su_rand (ru_mul u 1%nat)) N2 N67 Hn HC Hsh HQ HR) as (p & ys & EP & LY & SY & HPp).
    destruct (rm_bil_ok ring Hs s SMul sh sh sh _ c c _ _ q q (ru_mul u 2%nat) Hn HP HO HC HQ HQ (HF 2%nat)) as (q2 & _ & EQ2 & _). cbn [bop_of] in EQ2.
    exists d, p, zs, ys. split; [exact ED|]. split.
    { cbn [rep_pow]. unfold rep_mul, rep_mulp, cbind, rtick, rlift, cret. rewrite EQ, EP, EQ2. reflexivity. }
    split; [exact LZ|]. split; [|auto].
    assert (EV : mul_vr ring sh sh sh vd vd = map2 (fun a b => to_ring ring ((a - b) * (a - b))) va vb); [|rewrite <- EV; exact SZ].
    unfold mul_vr. rewrite !bexpand_self by auto. unfold vd, s_mul, s_sub. clear -AL BL Hp. revert AL BL. generalize (numel sh) as n. intros n AL BL. subst n.
    revert vb BL. induction va as [|a va IH]; intros [|b vb] BL; try discriminate BL; [reflexivity|]. cbn [map2]. f_equal.
    - apply to_ring_eq. rewrite to_ring_eqmod by apply Hp. reflexivity.
    - apply IH. cbn in BL. lia.
  Qed.
End Ring.
