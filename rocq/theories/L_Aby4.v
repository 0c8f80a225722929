(** Lemmas: exclusive or with a public tensor, powers, non-zero masks, private comparison. *)
From Coq Require Import QArith Setoid Morphisms.
From Verif Require Import Util Modular S_Ring S_Bits S_Tensor S_Bil S_Spdz S_Rep M_Torch L_Torch M_Encoder M_Tensor L_Tensor M_Share L_Share M_Spdz L_Spdz L_Bil
  L_RShare L_Mul M_Session L_Session M_Rep S_RepT L_Rep L_Rep2 L_Rep3 L_Rep4 L_Rep5 L_Rep6 M_Aby3 L_Aby L_Aby2 L_Aby3.
Local Open Scope Z_scope.

Lemma at_parties_comp s (F G H : pctx -> rst -> result rst) (K : rst -> rst -> result rst) ps als ms m2s zs :
  at_parties s F ps = Ok als -> at_parties s G ps = Ok ms -> at_parties s H ms = Ok m2s ->
  rmap (fun p => K (fst p) (snd p)) (combine als m2s) = Ok zs ->
  at_parties s (fun c p => do a <- F c p; do m <- G c p; do m2 <- H c m; K a m2) ps = Ok zs.
Proof.
  unfold at_parties. generalize 0%nat as i. revert als ms m2s zs.
  induction ps as [|p ps IH]; intros als ms m2s zs i E1 E2 E3 E4.
  - cbn in *. injection E1 as <-. injection E2 as <-. cbn in E3. injection E3 as <-. exact E4.
  - cbn [length seq combine rmap fst snd] in *.
    destruct (F _ p) as [a|]; [|discriminate]. cbn [rbind] in *.
    destruct (rmap _ (combine (seq (S i) (length ps)) ps)) as [al'|] eqn:R1; [|discriminate]. cbn [rbind] in E1. injection E1 as <-.
    destruct (G _ p) as [m|]; [|discriminate]. cbn [rbind] in *.
    match type of E2 with context [rmap ?F (combine ?X ?Y)] => destruct (rmap F (combine X Y)) as [ms'|] eqn:R2; [|discriminate] end.
    cbn [rbind] in E2. injection E2 as <-. cbn [length seq combine rmap fst snd] in E3.
    destruct (H _ m) as [m2|]; [|discriminate]. cbn [rbind] in *.
    match type of E3 with context [rmap ?F (combine ?X ?Y)] => destruct (rmap F (combine X Y)) as [m2s'|] eqn:R3; [|discriminate] end.
    cbn [rbind] in E3. injection E3 as <-. cbn [combine rmap fst snd] in E4.
    destruct (K a m2) as [z|]; [|discriminate]. cbn [rbind] in *.
    match type of E4 with context [rmap ?F (combine ?X ?Y)] => destruct (rmap F (combine X Y)) as [zs'|] eqn:R4; [|discriminate] end.
    cbn [rbind] in E4. injection E4 as <-.
    rewrite (IH al' ms' m2s' zs' (S i) R1 R2 R3 R4). reflexivity.
Qed.

Section Ring.
  Variable ring : Z.
  Hypothesis Hs : supported ring.
  Let Hp : 0 < ring := supported_pos ring Hs.
  Hypothesis N2 : ring <> 2.
  Variable s : rsess.
  Hypothesis Hn : rs_n s = 3%nat.
  Variable sh : list nat.
  Hypothesis Hsh : sh <> [].
  Let hvr := hv ring s sh.

  Lemma hv_xor_public x y f g : hvr x f -> pub_int ring sh y g ->
    exists z, rm_xor_public s x y = Ok z /\ hvr z (fun e => f e + g e - 2 * (f e * g e)).
  Proof.
    intros HX HY. unfold rm_xor_public.
    destruct (hv_lin_public ring Hs s Hn sh LAdd x y f g HX HY) as (a & EA & HA). unfold rm_lin_public in EA.
    pose proof HX as (I1 & S1 & _). rewrite I1, S1 in EA |- *.
    destruct (at_parties s (fun c p => rst_lin_public c LAdd p y) (rm_ps x)) as [als|] eqn:E1; [|discriminate]. cbn [rbind] in EA.
    destruct (shape_bin sh (pub_shape y)) as [so|] eqn:ESO; [|discriminate]. cbn [rbind] in EA. injection EA as EA.
    assert (so = sh) by (subst a; destruct HA as (_ & HA & _); exact HA). subst so.
    pose proof HY as (zs & Hy & EV & HB & H2 & HG).
    destruct (mul_public_local ring Hs s cfg10 sh sh _ x y _ HX Hy (pub_int_in ring Hs y zs EV H2) HB) as (ms & E2 & HM).
    assert (HM' : hvr (mkRM (rs_id s) sh ms) (fun e => f e * g e)).
    { unfold mul_vr in HM. rewrite (bexpand_vt ring Hs sh y zs g HG) in HM; auto.
      2:{ rewrite <- (map_length NInt), <- EV. apply pub_ok_length, Hy. }
      rewrite bexpand_self in HM by apply vt_length. rewrite s_mul_vt in HM by auto. exact HM. }
    pose proof (pub_int_num ring Hs s Hn sh Hsh 2 ltac:(congruence)) as (z2 & Hy2 & EV2 & HB2 & H22 & HG2).
    destruct (mul_public_local ring Hs s cfg10 sh sh _ (mkRM (rs_id s) sh ms) (PNum (NInt 2)) _ HM' Hy2 (pub_int_in ring Hs _ z2 EV2 H22) HB2) as (m2s & E3 & HM2).
    assert (HM2' : hvr (mkRM (rs_id s) sh m2s) (fun e => f e * g e * 2)).
    { unfold mul_vr in HM2. rewrite (bexpand_vt ring Hs sh _ z2 (fun _ => 2) HG2) in HM2; auto.
      2:{ rewrite <- (map_length NInt), <- EV2. apply pub_ok_length, Hy2. }
      rewrite bexpand_self in HM2 by apply vt_length. rewrite s_mul_vt in HM2 by auto. exact HM2. }
    cbn [rm_ps] in E3. rewrite <- EA in HA.
    destruct (hv_lin ring Hs s sh LSub _ _ _ _ HA HM2') as (z & EZ & HZ).
    unfold rm_lin in EZ. cbn [rm_sid rm_ps rm_shape] in EZ. rewrite Nat.eqb_refl in EZ. cbn [negb] in EZ.
    destruct (rmap _ (combine als m2s)) as [zps|] eqn:E4; [|discriminate]. cbn [rbind] in EZ.
    unfold shape_bin in EZ. rewrite bcast_refl in EZ. cbn [rbind] in EZ. injection EZ as EZ.
    pose proof (at_parties_comp s _ _ _ _ _ _ _ _ _ E1 E2 E3 E4) as EC.
    assert (ER : forall p, In p (rm_ps x) -> r_ring p = ring).
    { intros p Hin. apply In_nth_error in Hin. destruct Hin as (k & Hk). pose proof HX as (_ & _ & _ & _ & _ & HX6). apply (HX6 _ _ Hk). }
    assert (EC' : at_parties s (fun c p => rst_xor_public c p y) (rm_ps x) = Ok zps).
    { rewrite <- EC. unfold at_parties. apply rmap_ext. intros (i & p) Hin. cbn [fst snd].
      pose proof (ER p (in_combine_r _ _ _ _ Hin)) as Hr. unfold rst_xor_public. rewrite Hr.
      destruct (Z.eqb_spec ring 2); [contradiction|]. destruct (supported_type ring Hs) as (d & ->). reflexivity. }
    rewrite EC'. cbn [rbind]. exists z. split; [subst z; reflexivity|].
    refine (hv_ext ring Hs s Hn sh z _ _ _ HZ). intros e _. cbn beta iota. apply eqmod_eq. ring.
  Qed.

  (* ------------------------------------------------------------ powers *)
  Lemma pow_pos_loop p : forall base acc u k f g, hvr base f ->
    match acc with None => forall e, (e < numel sh)%nat -> g e == 1 [mod ring] | Some a => hvr a g end -> good ring s sh u ->
    exists z, rm_pow_loop s p base acc u k = Ok z /\ hvr z (fun e => g e * f e ^ Zpos p).
  Proof.
    assert (STEP : forall base acc u k f g, hvr base f ->
      match acc with None => forall e, (e < numel sh)%nat -> g e == 1 [mod ring] | Some a => hvr a g end -> good ring s sh u ->
      exists r, match acc with
              | None => rm_bil_public s BMul base (PNum (NInt 1)) (su_rand (subsup u k []))
              | Some r => rm_bil s BMul r base (subsup u k [])
              end = Ok r /\ hvr r (fun e => g e * f e)).
    { intros base acc u k f g HB HA HU. destruct acc as [a|].
      - destruct (hv_mul ring Hs s Hn sh a base _ _ (subsup u k []) HA HB (HU _)) as (r & -> & HR). exists r. split; [reflexivity|exact HR].
      - destruct (hv_mul_public ring Hs s Hn sh base (PNum (NInt 1)) _ _ (su_rand (subsup u k [])) HB
          (pub_int_num ring Hs s Hn sh Hsh 1 (fun _ => or_intror eq_refl)) (good_rand ring s sh u _ HU)) as (r & -> & HR).
        exists r. split; [reflexivity|]. refine (hv_ext ring Hs s Hn sh r _ _ _ HR). intros e He. rewrite (HA e He). apply eqmod_eq. ring. }
    induction p as [p IH|p IH|]; intros base acc u k f g HB HA HU; cbn [rm_pow_loop].
    - destruct (STEP base acc u k f g HB HA HU) as (r & -> & HR). cbn [rbind].
      destruct (hv_mul ring Hs s Hn sh base base _ _ (subsup u (S k) []) HB HB (HU _)) as (b & -> & HBB). cbn [rbind].
      destruct (IH b (Some r) u (S (S k)) _ _ HBB HR HU) as (z & EZ & HZ). rewrite EZ. exists z. split; [reflexivity|].
      refine (hv_ext ring Hs s Hn sh z _ _ _ HZ). intros e _. cbn beta. apply eqmod_eq.
      rewrite Pos2Z.inj_xI, Z.pow_add_r, Z.pow_1_r by lia. rewrite Z.mul_comm with (n := 2), Z.pow_mul_r by lia.
      rewrite Z.pow_mul_l. rewrite <- Z.pow_mul_r by lia. rewrite (Z.mul_comm (Z.pos p)), Z.pow_mul_r by lia. rewrite Z.pow_2_r, Z.pow_mul_l. ring.
    - destruct (hv_mul ring Hs s Hn sh base base _ _ (subsup u k []) HB HB (HU _)) as (b & -> & HBB). cbn [rbind].
      destruct (IH b acc u (S k) _ _ HBB HA HU) as (z & EZ & HZ). rewrite EZ. exists z. split; [reflexivity|].
      refine (hv_ext ring Hs s Hn sh z _ _ _ HZ). intros e _. cbn beta. apply eqmod_eq.
      rewrite Pos2Z.inj_xO. rewrite Z.pow_mul_r, Z.pow_2_r by lia. reflexivity.
    - destruct (STEP base acc u k f g HB HA HU) as (r & -> & HR). cbn [rbind].
      destruct (hv_mul ring Hs s Hn sh base base _ _ (subsup u (S k) []) HB HB (HU _)) as (b & -> & HBB). cbn [rbind].
      exists r. split; [reflexivity|]. refine (hv_ext ring Hs s Hn sh r _ _ _ HR). intros e _. cbn beta. rewrite Z.pow_1_r. reflexivity.
  Qed.

  (* ------------------------------------------------------------ int or shared tensor *)
  Definition ivh (a : ival) (g : nat -> Z) : Prop :=
    match a with IV z => forall e, (e < numel sh)%nat -> g e == z [mod ring] | IM m => hvr m g end.

  Lemma ival_mul_ok a b f g u : ivh a f -> ivh b g -> good ring s sh u ->
    exists c, ival_mul s a b u = Ok c /\ ivh c (fun e => f e * g e).
  Proof.
    intros HA HB HU. destruct a as [p|m], b as [q|m']; cbn [ival_mul].
    - eexists. split; [reflexivity|]. intros e He. cbn in HA, HB. rewrite (HA e He), (HB e He). reflexivity.
    - destruct (hv_mul_public ring Hs s Hn sh m' (PNum (NInt p)) _ _ (su_rand (u [])) HB (pub_int_num ring Hs s Hn sh Hsh p ltac:(congruence)) (good_rand ring s sh u _ HU)) as (r & -> & HR).
      exists (IM r). split; [reflexivity|]. refine (hv_ext ring Hs s Hn sh r _ _ _ HR). intros e He. cbn in HA. cbn beta. rewrite (HA e He). apply eqmod_eq. ring.
    - destruct (hv_mul_public ring Hs s Hn sh m (PNum (NInt q)) _ _ (su_rand (u [])) HA (pub_int_num ring Hs s Hn sh Hsh q ltac:(congruence)) (good_rand ring s sh u _ HU)) as (r & -> & HR).
      exists (IM r). split; [reflexivity|]. refine (hv_ext ring Hs s Hn sh r _ _ _ HR). intros e He. cbn in HB. cbn beta. rewrite (HB e He). reflexivity.
    - destruct (hv_mul ring Hs s Hn sh m m' _ _ (u []) HA HB (HU _)) as (r & -> & HR). exists (IM r). split; [reflexivity|exact HR].
  Qed.
  Lemma add_ival_ok m w f g : hvr m f -> ivh w g -> exists z, add_ival s m w = Ok z /\ hvr z (fun e => f e + g e).
  Proof.
    intros HM HW. destruct w as [p|m']; cbn [add_ival].
    - destruct (hv_lin_public ring Hs s Hn sh LAdd m (PNum (NInt p)) _ _ HM (pub_int_num ring Hs s Hn sh Hsh p ltac:(congruence))) as (z & -> & HZ).
      exists z. split; [reflexivity|]. refine (hv_ext ring Hs s Hn sh z _ _ _ HZ). intros e He. cbn in HW. cbn beta iota. rewrite (HW e He). reflexivity.
    - destruct (hv_lin ring Hs s sh LAdd _ _ _ _ HM HW) as (z & -> & HZ). exists z. split; [reflexivity|exact HZ].
  Qed.
  Lemma ival_add_ok m w f g : hvr m f -> ivh w g -> exists z, ival_add s w m = Ok z /\ hvr z (fun e => g e + f e).
  Proof.
    intros HM HW. destruct w as [p|m']; cbn [ival_add].
    - destruct (hv_lin_public ring Hs s Hn sh LAdd m (PNum (NInt p)) _ _ HM (pub_int_num ring Hs s Hn sh Hsh p ltac:(congruence))) as (z & -> & HZ).
      exists z. split; [reflexivity|]. refine (hv_ext ring Hs s Hn sh z _ _ _ HZ). intros e He. cbn in HW. cbn beta iota. rewrite (HW e He). apply eqmod_eq. ring.
    - destruct (hv_lin ring Hs s sh LAdd _ _ _ _ HW HM) as (z & -> & HZ). exists z. split; [reflexivity|exact HZ].
  Qed.

  (** the product of [g j e] for [j] in [l] *)
  Definition zprod (g : nat -> nat -> Z) (l : list nat) (e : nat) : Z := fold_left (fun a j => a * g j e) l 1.
  Lemma zprod_fold g l e a : fold_left (fun a j => a * g j e) l a = a * zprod g l e.
  Proof.
    unfold zprod. revert a. induction l as [|j l IH]; intros a; cbn [fold_left]; [ring|].
    rewrite IH, (IH (1 * g j e)). ring.
  Qed.
  Lemma zprod_cons g j l e : zprod g (j :: l) e = g j e * zprod g l e.
  Proof. unfold zprod at 1. cbn [fold_left]. rewrite zprod_fold. ring. Qed.

  Lemma prod_loop_ok g u : good ring s sh u -> forall cs i acc k f,
    (forall j, (j < length cs)%nat -> ivh (nth j cs (IV 0)) (g (i + j)%nat)) -> ivh acc f ->
    exists a, prod_loop s acc cs u k = Ok a /\ ivh a (fun e => f e * zprod g (seq i (length cs)) e).
  Proof.
    intros HU. assert (EXT : forall a (h h' : nat -> Z), (forall e, h e = h' e) -> ivh a h -> ivh a h').
    { intros a h h' HE HA. destruct a as [z|m]; cbn in *.
      - intros e He. rewrite <- HE. auto.
      - refine (hv_ext ring Hs s Hn sh m _ _ _ HA). intros e _. rewrite HE. reflexivity. }
    induction cs as [|c cs IH]; intros i acc k f HC HA; cbn [prod_loop length seq].
    - exists acc. split; [reflexivity|]. refine (EXT _ _ _ _ HA). intros e. unfold zprod. cbn. ring.
    - destruct (ival_mul_ok acc c _ _ (subsup u k) HA (HC 0%nat ltac:(cbn; lia)) (good_sub ring s sh u k HU)) as (a & -> & HAC). cbn [rbind].
      assert (HC' : forall j, (j < length cs)%nat -> ivh (nth j cs (IV 0)) (g (S i + j)%nat)).
      { intros j Hj. replace (S i + j)%nat with (i + S j)%nat by lia. apply (HC (S j)). cbn [length]. lia. }
      destruct (IH (S i) a (S k) _ HC' HAC) as (b & EB & HB).
      exists b. split; [exact EB|]. refine (EXT _ _ _ _ HB). intros e. rewrite zprod_cons, Nat.add_0_r. ring.
  Qed.
End Ring.
