(** Max pooling: the backward pass. *)
From Coq Require Import QArith String Setoid Morphisms.
From Verif Require Import Util Modular S_Ring S_Tensor S_Wraps S_Div S_Bil S_Spdz S_View S_Circuit S_Fss S_Sort S_Argmax
  M_Torch M_Encoder M_Tensor M_Share M_Spdz M_Store M_Fss M_Engine M_Static M_Argmax M_Pool S_Pool
  L_Torch L_Tensor L_Encoder L_Share L_Div L_Bil L_Mul L_Circuit L_View L_Fss2 L_Fss3 L_Engine L_Algo L_Grad L_Argmax L_Autograd S_Autograd S_Back L_Back L_Pool L_Pool2.
Local Open Scope Z_scope.
Local Open Scope list_scope.

Lemma zsum_prod n m (F : nat * nat -> Z) :
  zsum (map F (list_prod (seq 0 n) (seq 0 m))) = sumn n (fun i => sumn m (fun j => F (i, j))).
Proof.
  unfold sumn. generalize (seq 0 m) as l2. intros l2. generalize (seq 0 n) as l1. induction l1 as [|i l1 IH]; [reflexivity|].
  cbn [list_prod map zsum]. rewrite map_app, zsum_app, IH, map_map. reflexivity.
Qed.

Section Geo.
  Variable g : geo.
  Hypothesis HF : fits g.
  Notation bs := (g_bs g). Notation h := (g_h g). Notation w := (g_w g). Notation kh := (g_kh g). Notation kw := (g_kw g).
  Notation s0 := (g_s0 g). Notation s1 := (g_s1 g). Notation p0 := (g_p0 g). Notation p1 := (g_p1 g).
  Notation oh := (g_oh g). Notation ow := (g_ow g). Notation N := (g_n g).
  Notation H' := (h + 2 * p0)%nat. Notation W' := (w + 2 * p1)%nat.

  Definition inwin (i j r c : nat) : bool :=
    (Nat.leb (i * s0) r && Nat.ltb r (i * s0 + kh) && Nat.leb (j * s1) c && Nat.ltb c (j * s1 + kw))%bool.
  Lemma inwin_spec i j r c : inwin i j r c = true <-> (i * s0 <= r < i * s0 + kh /\ j * s1 <= c < j * s1 + kw)%nat.
  Proof. unfold inwin. rewrite !andb_true_iff, !Nat.leb_le, !Nat.ltb_lt. lia. Qed.

  (** what window (i, j) adds at (b, r, c) *)
  Definition gives (f : nat -> Z) (b r c : nat) (ij : nat * nat) : Z :=
    let '(i, j) := ij in
    if inwin i j r c then f ((((b * oh + i) * ow + j) * kh + (r - i * s0)) * kw + (c - j * s1))%nat else 0.
  Definition spread (f : nat -> Z) (b r c : nat) : Z :=
    sumn oh (fun i => sumn ow (fun j => gives f b r c (i, j))).
  Definition at3 (hh ww : nat) (F : nat -> nat -> nat -> Z) (e : nat) : Z := F (e / (hh * ww))%nat ((e / ww) mod hh)%nat (e mod ww)%nat.

  Lemma add_ok d acc i j : length d = (N * kh * kw)%nat -> vec_in R64 d -> length acc = (numel bs * H' * W')%nat -> vec_in R64 acc ->
    (i < oh)%nat -> (j < ow)%nat ->
    exists acc', add_window bs H' W' kh kw s0 s1 bs oh ow kh kw d acc (i, j) = Ok acc' /\
      length acc' = (numel bs * H' * W')%nat /\ vec_in R64 acc' /\
      forall e, (e < numel bs * H' * W')%nat -> nth e acc' 0 == nth e acc 0 + at3 H' W' (fun b r c => gives (fun q => nth q d 0) b r c (i, j)) e [mod R64].
  Proof.
    intros LD VD LA VA Hi Hj. unfold add_window.
    destruct (Nat.leb_spec oh i); [lia|]. destruct (Nat.leb_spec ow j); [lia|]. cbn [orb].
    rewrite (bcast_complete _ _ _ (bshape_same (bs ++ [kh; kw]))). unfold shape_eqb.
    destruct (list_eq_dec Nat.eq_dec (bs ++ [kh; kw]) (bs ++ [kh; kw])) as [_|]; [|congruence].
    rewrite expand_spec by lia. rewrite bexpand_self by (rewrite map_length, seq_length; auto).
    assert (NS : numel (bs ++ [kh; kw]) = (numel bs * kh * kw)%nat) by (rewrite numel_app; cbn [numel fold_right]; lia).
    match goal with |- context [map ?f (seq 0 (numel (bs ++ [kh; kw])))] => set (sel := map f (seq 0 (numel (bs ++ [kh; kw])))) end.
    assert (SV : forall b a c, (b < numel bs)%nat -> (a < kh)%nat -> (c < kw)%nat ->
      nth ((b * kh + a) * kw + c) sel 0 = nth ((((b * oh + i) * ow + j) * kh + a) * kw + c) d 0).
    { intros b a c Hb Ha Hc. unfold sel. rewrite map_seq_nth by (rewrite NS; apply lt3; auto).
      destruct (dec3 b kh kw a c Ha Hc) as (-> & -> & ->). reflexivity. }
    eexists. split; [reflexivity|]. split; [rewrite map_length, seq_length; reflexivity|]. split.
    - apply Forall_map, Forall_forall. intros e He. cbv zeta. destruct (_ && _)%bool.
      + rewrite wrap_to_ring64. apply in_to_ring, posR.
      + apply nth_in_ring; auto using supR.
    - intros e He. rewrite map_seq_nth by auto. unfold at3. cbv zeta.
      destruct (enc3 (numel bs) H' W' e He) as (B & R & C & _). set (b := (e / _)%nat) in *. set (r := (_ mod H')%nat) in *. set (c := (e mod W')%nat) in *.
      clearbody b r c. fold (inwin i j r c). unfold gives. destruct (inwin i j r c) eqn:EW.
      + apply inwin_spec in EW. rewrite wrap_to_ring64. rewrite to_ring_eqmod by apply posR.
        rewrite SV by (clear - EW B; lia). reflexivity.
      + rewrite Z.add_0_r. reflexivity.
  Qed.

  Lemma fold_ok d : length d = (N * kh * kw)%nat -> vec_in R64 d -> forall l acc,
    length acc = (numel bs * H' * W')%nat -> vec_in R64 acc -> Forall (fun ij => (fst ij < oh)%nat /\ (snd ij < ow)%nat) l ->
    exists acc', rfold (add_window bs H' W' kh kw s0 s1 bs oh ow kh kw d) l acc = Ok acc' /\
      length acc' = (numel bs * H' * W')%nat /\ vec_in R64 acc' /\
      forall e, (e < numel bs * H' * W')%nat -> nth e acc' 0 == nth e acc 0 + zsum (map (fun ij => at3 H' W' (fun b r c => gives (fun q => nth q d 0) b r c ij) e) l) [mod R64].
  Proof.
    intros LD VD. induction l as [|[i j] l IH]; intros acc LA VA FL.
    - exists acc. cbn [rfold map zsum]. repeat split; auto. intros e He. rewrite Z.add_0_r. reflexivity.
    - inversion FL as [|? ? [Hi Hj] FL']; subst. cbn [fst snd] in *.
      destruct (add_ok d acc i j LD VD LA VA Hi Hj) as (a1 & E1 & L1 & V1 & N1).
      destruct (IH a1 L1 V1 FL') as (a2 & E2 & L2 & V2 & N2).
      exists a2. cbn [rfold]. rewrite E1. cbn [rbind]. split; [exact E2|]. split; [exact L2|]. split; [exact V2|].
      intros e He. rewrite N2 by auto. rewrite N1 by auto. cbn [map zsum]. apply eqmod_eq. ring.
  Qed.

  (** the cases in which the last slice is right *)
  Definition good_slice : Prop := length bs = 1%nat \/ (length bs = 2%nat /\ p0 = 0%nat /\ p1 = 0%nat).

  Lemma crop_ok d r1 c1 : (r1 - p0 = h)%nat -> (c1 - p1 = w)%nat -> vec_in R64 d ->
    tensor_in R64 (g_in g) (crop bs H' W' p0 r1 p1 c1 d) /\
    forall e, (e < numel (g_in g))%nat -> nth e (tdat (crop bs H' W' p0 r1 p1 c1 d)) 0 =
      at3 h w (fun b u t => nth ((b * H' + (p0 + u)) * W' + (p1 + t)) d 0) e.
  Proof.
    intros ER EC VD. unfold crop. rewrite ER, EC. split.
    - split; [reflexivity|]. cbn [tdat]. split; [rewrite map_length, seq_length, numel_in; reflexivity|].
      apply Forall_map, Forall_forall. intros e He. apply nth_in_ring; auto using supR.
    - intros e He. cbn [tdat]. rewrite numel_in in He. rewrite map_seq_nth by auto. reflexivity.
  Qed.

  Lemma helper_ok t : tensor_in R64 (g_out g ++ [kh; kw]) t -> good_slice ->
    exists r, backward_helper (g_in g) t (Z.of_nat kh, Z.of_nat kw) (Z.of_nat s0, Z.of_nat s1) (Z.of_nat p0, Z.of_nat p1) = Ok r /\
      tensor_in R64 (g_in g) r /\
      forall e, (e < numel (g_in g))%nat -> nth e (tdat r) 0 == at3 h w (fun b u t' => spread (fun q => nth q (tdat t) 0) b (p0 + u) (p1 + t')) e [mod R64].
  Proof.
    destruct HF as (F1 & F2 & F3 & F4 & F5 & F6 & F7 & F8). intros (T1 & T2 & T3) HC. unfold backward_helper. unfold g_in at 1. rewrite last2_app. cbn [rbind fst snd].
    destruct (Z.ltb_spec (Z.of_nat p0) 0); [lia|]. destruct (Z.ltb_spec (Z.of_nat p1) 0); [lia|].
    destruct (Z.ltb_spec (Z.of_nat kh) 1); [lia|]. destruct (Z.ltb_spec (Z.of_nat kw) 1); [lia|]. cbn [orb]. rewrite !Nat2Z.id.
    destruct (Nat.ltb_spec H' kh); [lia|]. destruct (Nat.ltb_spec W' kw); [lia|]. cbn [orb].
    rewrite !count_ok by auto. cbn [rbind]. change ((h + 2 * p0 - kh) / s0 + 1)%nat with oh. change ((w + 2 * p1 - kw) / s1 + 1)%nat with ow.
    rewrite T1. unfold g_in, g_out. rewrite !app_length. cbn [length].
    replace (Nat.eqb (length bs + 2 + 2) (length bs + 2 + 2)) with true by (symmetry; apply Nat.eqb_refl). cbn [negb].
    rewrite last2_app. cbn [rbind]. rewrite last2_app. cbn [rbind]. rewrite !Nat2Z.id.
    assert (LD : length (tdat t) = (N * kh * kw)%nat).
    { rewrite T2, numel_app, numel_out. cbn [numel fold_right]. lia. }
    destruct (fold_ok (tdat t) LD T3 (list_prod (seq 0 oh) (seq 0 ow)) (repeat 0 (numel bs * H' * W'))) as (d & ED & DL & DV & DN).
    { apply repeat_length. }
    { apply Forall_forall. intros q Hq. apply repeat_spec in Hq. subst. reflexivity. }
    { apply Forall_forall. intros [i j] Hij. apply in_prod_iff in Hij. destruct Hij as [Hi Hj]. apply in_seq in Hi, Hj. cbn [fst snd]. lia. }
    rewrite ED. cbn [rbind].
    assert (FIN : forall r1 c1, (r1 - p0 = h)%nat -> (c1 - p1 = w)%nat -> forall e, (e < numel (g_in g))%nat ->
      nth e (tdat (crop bs H' W' p0 r1 p1 c1 d)) 0 == at3 h w (fun b u t' => spread (fun q => nth q (tdat t) 0) b (p0 + u) (p1 + t')) e [mod R64]).
    { intros r1 c1 ER EC e He. destruct (crop_ok d r1 c1 ER EC DV) as [_ ->]; [|exact He]. rewrite numel_in in He.
      unfold at3 at 1 2. destruct (enc3 (numel bs) h w e He) as (B & R & C & _).
      set (b := (e / _)%nat) in *. set (u := (_ mod h)%nat) in *. set (v := (e mod w)%nat) in *. clearbody b u v.
      assert (HU : (p0 + u < H')%nat) by (clear - R; lia). assert (HV : (p1 + v < W')%nat) by (clear - C; lia).
      rewrite DN by (apply lt3; auto).
      replace (nth ((b * H' + (p0 + u)) * W' + (p1 + v)) (repeat 0 (numel bs * H' * W')) 0) with 0.
      2:{ symmetry. apply nth_repeat. }
      rewrite Z.add_0_l. rewrite zsum_prod. unfold spread. apply eqmod_eq. apply sumn_ext. intros i Hi. apply sumn_ext. intros j Hj.
      unfold at3. destruct (dec3 b H' W' (p0 + u) (p1 + v) HU HV) as (-> & -> & ->). reflexivity. }
    destruct HC as [LB|(LB & P0 & P1)]; rewrite LB; cbn [Nat.add Nat.eqb].
    - eexists. split; [reflexivity|]. assert (A : (H' - p0 - p0 = h)%nat) by lia. assert (B : (W' - p1 - p1 = w)%nat) by lia.
      split; [apply crop_ok; auto|]. apply FIN; auto.
    - eexists. split; [reflexivity|]. assert (A : (h - p0 = h)%nat) by lia. assert (B : (w - p1 = w)%nat) by lia.
      split; [apply crop_ok; auto|]. apply FIN; auto.
  Qed.
End Geo.

Section Backward.
  Context {K : Type} (alpha : K -> Z) (ev : fop -> Z -> Z -> K -> Z)
          (gen : fop -> nat -> nat -> result (list (list K))) (s : sess) (su : tri_supply)
          (mm : nat -> list nat -> list nat -> list triple) (on : nat -> list nat -> list (list Z)).
  Hypothesis HI : int_pair s.
  Hypothesis HS' : supplies su mm on.
  Variable g : geo.
  Hypothesis HF : fits g.
  Hypothesis HC : good_slice g.
  Let Hn := proj1 HI.
  Notation bs := (g_bs g). Notation h := (g_h g). Notation w := (g_w g). Notation kh := (g_kh g). Notation kw := (g_kw g).
  Notation s0 := (g_s0 g). Notation s1 := (g_s1 g). Notation p0 := (g_p0 g). Notation p1 := (g_p1 g).
  Notation oh := (g_oh g). Notation ow := (g_ow g). Notation N := (g_n g).

  Lemma spread_eqmod f f1 f2 b r c : (b < numel bs)%nat -> (r < h + 2 * p0)%nat -> (c < w + 2 * p1)%nat ->
    (forall q, (q < N * kh * kw)%nat -> f q == f1 q + f2 q [mod R64]) ->
    spread g f b r c == spread g f1 b r c + spread g f2 b r c [mod R64].
  Proof.
    intros Hb Hr Hc HE. unfold spread.
    assert (SP : forall n (u v : nat -> Z), sumn n u + sumn n v = sumn n (fun i => u i + v i)).
    { intros n u v. unfold sumn. symmetry. apply zsum_map_add. }
    rewrite SP. apply sumn_eqmod. intros i Hi. rewrite SP. apply sumn_eqmod. intros j Hj. unfold gives.
    destruct (inwin g i j r c) eqn:EW; [|reflexivity]. apply inwin_spec in EW. apply HE.
    apply lt3; [|clear - EW; lia|clear - EW; lia]. unfold g_n. apply lt3; auto.
  Qed.

  Lemma backward_ok kernel stride padding dilation G I gr ind : given kernel stride padding dilation g ->
    rep s (g_out g) G gr -> rep s (g_out g ++ [kh; kw]) I ind ->
    runs (max_pool2d_backward alpha ev gen s su gr (g_in g) ind kernel stride padding dilation)
      (rep s (g_in g) (at3 h w (fun b u t => spread g (fun q => G (q / (kh * kw))%nat * I q) b (p0 + u) (p1 + t)))).
  Proof.
    intros HV GG GI. unfold max_pool2d_backward. rewrite (given_check _ _ _ _ g HF HV).
    eapply runs_bind; [apply runs_lift; eexists; split; [reflexivity|apply eq_refl]|]. intros ? <-.
    pose proof GG as (_ & G2 & _). pose proof GI as (_ & I2 & _). rewrite G2, I2.
    assert (LO : length (g_out g) = (length bs + 2)%nat) by (unfold g_out; rewrite app_length; reflexivity).
    rewrite app_length, LO. cbn [length]. rewrite Nat.eqb_refl. cbn [negb].
    assert (L34 : negb (Nat.eqb (length bs + 2) 4) && negb (Nat.eqb (length bs + 2) 3) = false).
    { destruct HC as [->|(-> & _)]; reflexivity. }
    rewrite L34.
    eapply runs_bind.
    { apply runs_lift. apply (rep_view s (VReshape (g_out g ++ [1; 1]%nat)) (g_out g) (g_out g ++ [1; 1]%nat) (fun v => v) G gr G); [apply vw_reshape|exact GG|].
      - rewrite numel_app. cbn [numel fold_right]. lia.
      - intros e He. rewrite numel_app in He. cbn [numel fold_right] in He. apply vals_nth_eq. lia. }
    intros g' GG'. assert (NW : numel (g_out g ++ [kh; kw]) = (N * kh * kw)%nat) by (rewrite numel_app, numel_out; cbn [numel fold_right]; lia).
    eapply runs_bind.
    { apply (rep_mul s su mm on HI HS' (g_out g ++ [1; 1]%nat) (g_out g ++ [kh; kw]) (g_out g ++ [kh; kw]) g' ind G I GG' GI).
      apply bshape_sym. apply (bshape_ones (g_out g) [kh; kw]). }
    intros m GM.
    assert (GM' : rep s (g_out g ++ [kh; kw]) (fun q => G (q / (kh * kw))%nat * I q) m).
    { eapply rep_ext; [exact GM|]. intros e He. cbv beta. rewrite (bpos_self s HI) by exact He.
      rewrite (bpos_ones (g_out g) [kh; kw]) by exact He. cbn [numel fold_right]. rewrite Nat.mul_1_r. reflexivity. }
    destruct GM' as (M1 & M2 & M3 & M4). pose proof (shared_vals R64 supR _ _ _ M4) as (VL & VI & VN). destruct M4 as (NE & F & _).
    destruct (m_shares m) as [|t0 [|t1 [|]]]; try (rewrite Hn in M3; discriminate).
    inversion F as [|? ? T0 F']; subst. inversion F' as [|? ? T1 _]; subst.
    destruct (helper_ok g HF t0 T0 HC) as (r0 & E0 & R0 & N0). destruct (helper_ok g HF t1 T1 HC) as (r1 & E1 & R1 & N1).
    cbn [rmap]. rewrite E0, E1. cbn [rbind].
    eapply runs_bind; [apply runs_lift; eexists; split; [reflexivity|apply eq_refl]|]. intros ? <-.
    apply runs_ret. unfold rep, good. cbn [m_sid m_shape m_shares length]. split; [auto|]. split; [auto|]. split; [auto|].
    apply shared_intro; auto using supR, vals_len, vals_in.
    - discriminate.
    - intros e He. rewrite vals_nth_eq by auto. cbn [map zsum]. rewrite N0, N1 by auto. rewrite Z.add_0_r.
      unfold at3. rewrite numel_in in He. destruct (enc3 (numel bs) h w e He) as (B & R & C & _).
      apply spread_eqmod; [exact B|clear - R; lia|clear - C; lia|].
      intros q Hq. rewrite <- (vals_nth_eq (g_out g ++ [kh; kw]) (fun q => G (q / (kh * kw))%nat * I q) q) by (rewrite NW; auto).
      rewrite VN. cbn [map zsum]. rewrite Z.add_0_r. reflexivity.
  Qed.

  (** with the marks of the forward pass *)
  Lemma spread_routed (G3 : nat -> nat -> nat -> Z) (row col : nat -> nat -> nat -> nat) b u t :
    (forall b i j, (b < numel bs)%nat -> (i < oh)%nat -> (j < ow)%nat -> (row b i j < kh)%nat /\ (col b i j < kw)%nat) ->
    (b < numel bs)%nat ->
    let q3 {A} (F : nat -> nat -> nat -> A) q := F (q / (oh * ow))%nat ((q / ow) mod oh)%nat (q mod ow)%nat in
    spread g (fun q => q3 G3 (q / (kh * kw))%nat * onehot g (q3 row) (q3 col) q) b (p0 + u) (p1 + t) = routed g row col G3 b u t.
  Proof.
    intros HR Hb q3. unfold spread, routed. apply sumn_ext. intros i Hi. apply sumn_ext. intros j Hj. unfold gives.
    destruct (HR b i j Hb Hi Hj) as [R1 R2].
    destruct (inwin g i j (p0 + u) (p1 + t)) eqn:EW.
    - apply inwin_spec in EW. set (a := (p0 + u - i * s0)%nat) in *. set (c := (p1 + t - j * s1)%nat) in *.
      assert (Ha : (a < kh)%nat) by (unfold a; clear - EW; lia). assert (Hc : (c < kw)%nat) by (unfold c; clear - EW; lia).
      set (Q := ((b * oh + i) * ow + j)%nat). unfold onehot. destruct (dec3 Q kh kw a c Ha Hc) as (-> & -> & ->).
      unfold q3. destruct (dec3 b oh ow i j Hi Hj) as (E1 & E2 & E3). fold Q in E1, E2, E3. rewrite E1, E2, E3.
      assert (A1 : Nat.eqb a (row b i j) = Nat.eqb (i * s0 + row b i j) (u + p0)).
      { apply Bool.eq_iff_eq_true. rewrite !Nat.eqb_eq. unfold a. clear - EW. lia. }
      assert (A2 : Nat.eqb c (col b i j) = Nat.eqb (j * s1 + col b i j) (t + p1)).
      { apply Bool.eq_iff_eq_true. rewrite !Nat.eqb_eq. unfold c. clear - EW. lia. }
      rewrite A1, A2. destruct (_ && _); cbn [b2z]; lia.
    - destruct (Nat.eqb_spec (i * s0 + row b i j) (u + p0)) as [A1|]; [|reflexivity].
      destruct (Nat.eqb_spec (j * s1 + col b i j) (t + p1)) as [A2|]; [|reflexivity]. exfalso.
      assert (inwin g i j (p0 + u) (p1 + t) = true); [|congruence]. apply inwin_spec. clear - A1 A2 R1 R2. lia.
  Qed.
End Backward.
