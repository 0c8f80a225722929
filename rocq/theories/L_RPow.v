(** Lemmas on powers of replicated tensors in unscaled sessions. *)
From Coq Require Import QArith Setoid Morphisms.
From Verif Require Import Util Modular S_Ring S_Tensor S_Bil S_Spdz S_Rep M_Torch L_Torch M_Encoder M_Tensor L_Tensor M_Share L_Share M_Spdz L_Spdz L_Bil
  L_RShare L_Mul M_Session L_Session M_Rep S_RepT L_FixProg L_Rep L_Rep2 L_Rep3 L_Rep4 L_Rep5 L_Rep6 M_Aby3 L_Aby.
Local Open Scope Z_scope.

Section Pow.
  Variable ring : Z.
  Hypothesis Hs : supported ring.
  Variable s : rsess.
  Hypothesis Hn : rs_n s = 3%nat.
  Variable c : config.
  Hypothesis Hc : cfg_ok c.
  Hypothesis Hp : c_prec c = 0%nat.
  Variable sh : list nat.
  Hypothesis Hsh : sh <> [].
  Notation vt := (vt ring sh).
  Let has (x : rmpc) (g : nat -> Z) : Prop := holds s ring c sh (vt g) x.

  Lemma pw_mul x y f g u : has x f -> has y g -> good_sup ring s sh sh sh (mul_vr ring sh sh sh) u ->
    exists z, rm_bil s BMul x y u = Ok z /\ has z (fun e => f e * g e).
  Proof.
    intros HX HY HU.
    destruct (rm_bil_exact ring Hs s SMul sh sh sh _ c c _ _ x y u Hn (prod_mul_r ring _ _ _ (bshape_same sh))
      (or_introl eq_refl) Hc (or_intror (or_intror Hp)) HX HY HU) as (z & E & HZ).
    exists z. split; [exact E|]. unfold has. unfold mul_vr in HZ. rewrite !bexpand_self in HZ by apply vt_length.
    rewrite s_mul_vt in HZ by auto. exact HZ.
  Qed.

  Lemma to_ring_1 : to_ring ring 1 = 1.
  Proof. destruct (supported_cases _ Hs) as [->|[->|[->|[->|[->| ->]]]]]; reflexivity. Qed.

  Lemma pub_one : pub_in ring c (PNum (NInt 1)) [1].
  Proof.
    unfold pub_in. destruct (Z.eq_dec ring 2) as [E2|N2]; [left; split; [auto|split; [reflexivity|constructor; [right; reflexivity|constructor]]]|].
    right. destruct (Z.eq_dec ring 67) as [E67|N67]; [left; split; auto; exists [1]; split; reflexivity|].
    right. split; [auto|]. split; [auto|]. cbn [pub_vals]; unfold encode; cbn [map]; unfold encode1, scale; rewrite Hp; cbn [Z.of_nat].
    rewrite Z.pow_0_r. change (cast TI64 (1 * 1)) with 1. rewrite to_ring_1. reflexivity.
  Qed.

  Lemma pw_one x f rnd : has x f -> tensor_in ring sh rnd ->
    exists z, rm_bil_public s BMul x (PNum (NInt 1)) rnd = Ok z /\ has z f.
  Proof.
    intros HX HR.
    destruct (pub_int_num ring Hs s Hn sh Hsh 1 (fun _ => or_intror eq_refl)) as (zs & P1 & P2 & P3 & P4 & P5).
    destruct (rm_mul_public_exact ring Hs s c sh sh _ x (PNum (NInt 1)) [1] rnd Hn Hc (or_intror (or_intror Hp)) HX P1 pub_one P3 HR)
      as (z & E & HZ).
    exists z. split; [exact E|]. unfold has. unfold mul_vr in HZ.
    replace [1] with (map (to_ring ring) zs) in HZ.
    2:{ cbn [pub_vals map] in P2. destruct zs as [|a [|]]; try discriminate P2. injection P2 as <-. cbn [map]. rewrite to_ring_1. reflexivity. }
    rewrite (bexpand_vt ring Hs sh (PNum (NInt 1)) zs (fun _ => 1) P5) in HZ; auto.
    2:{ rewrite <- (map_length NInt), <- P2. reflexivity. }
    rewrite bexpand_self in HZ by apply vt_length. rewrite s_mul_vt in HZ by auto.
    rewrite (vt_ext ring Hs s Hn sh (fun e => f e * 1) f) in HZ; [exact HZ|]. intros e _. apply eqmod_eq. ring.
  Qed.

  Lemma pw_ext x f g : (forall e, (e < numel sh)%nat -> f e == g e [mod ring]) -> has x f -> has x g.
  Proof. intros H. unfold has. rewrite (vt_ext ring Hs s Hn sh f g H). auto. Qed.

  Lemma pw_loop p : forall base acc u k f g, has base f ->
    match acc with None => forall e, (e < numel sh)%nat -> g e == 1 [mod ring] | Some a => has a g end -> good ring s sh u ->
    exists z, rm_pow_loop s p base acc u k = Ok z /\ has z (fun e => g e * f e ^ Zpos p).
  Proof.
    assert (STEP : forall base acc u k f g, has base f ->
      match acc with None => forall e, (e < numel sh)%nat -> g e == 1 [mod ring] | Some a => has a g end -> good ring s sh u ->
      exists r, match acc with
              | None => rm_bil_public s BMul base (PNum (NInt 1)) (su_rand (subsup u k []))
              | Some r => rm_bil s BMul r base (subsup u k [])
              end = Ok r /\ has r (fun e => g e * f e)).
    { intros base acc u k f g HB HA HU. destruct acc as [a|].
      - apply (pw_mul a base _ _ (subsup u k []) HA HB (HU _)).
      - destruct (pw_one base f (su_rand (subsup u k [])) HB (good_rand ring s sh u _ HU)) as (r & -> & HR).
        exists r. split; [reflexivity|]. refine (pw_ext r _ _ _ HR). intros e He. rewrite (HA e He). apply eqmod_eq. ring. }
    induction p as [p IH|p IH|]; intros base acc u k f g HB HA HU; cbn [rm_pow_loop].
    - destruct (STEP base acc u k f g HB HA HU) as (r & -> & HR). cbn [rbind].
      destruct (pw_mul base base _ _ (subsup u (S k) []) HB HB (HU _)) as (b & -> & HBB). cbn [rbind].
      destruct (IH b (Some r) u (S (S k)) _ _ HBB HR HU) as (z & EZ & HZ). rewrite EZ. exists z. split; [reflexivity|].
      refine (pw_ext z _ _ _ HZ). intros e _. cbn beta. apply eqmod_eq.
      rewrite Pos2Z.inj_xI, Z.pow_add_r, Z.pow_1_r by lia. rewrite Z.mul_comm with (n := 2), Z.pow_mul_r by lia.
      rewrite Z.pow_mul_l. rewrite <- Z.pow_mul_r by lia. rewrite (Z.mul_comm (Z.pos p)), Z.pow_mul_r by lia. rewrite Z.pow_2_r, Z.pow_mul_l. ring.
    - destruct (pw_mul base base _ _ (subsup u k []) HB HB (HU _)) as (b & -> & HBB). cbn [rbind].
      destruct (IH b acc u (S k) _ _ HBB HA HU) as (z & EZ & HZ). rewrite EZ. exists z. split; [reflexivity|].
      refine (pw_ext z _ _ _ HZ). intros e _. cbn beta. apply eqmod_eq.
      rewrite Pos2Z.inj_xO. rewrite Z.pow_mul_r, Z.pow_2_r by lia. reflexivity.
    - destruct (STEP base acc u k f g HB HA HU) as (r & -> & HR). cbn [rbind].
      destruct (pw_mul base base _ _ (subsup u (S k) []) HB HB (HU _)) as (b & -> & HBB). cbn [rbind].
      exists r. split; [reflexivity|]. refine (pw_ext r _ _ _ HR). intros e _. cbn beta. rewrite Z.pow_1_r. reflexivity.
  Qed.

  (** the power of a shared tensor *)
  Lemma pw_power p x v u : holds s ring c sh v x -> good ring s sh u ->
    exists z, rm_pow_loop s p x None u 0 = Ok z /\ holds s ring c sh (map (fun a => to_ring ring (a ^ Zpos p)) v) z.
  Proof.
    intros HX HU. destruct (holds_views _ _ _ _ _ _ HX) as (ss & cf & Hss & _). pose proof (shared_vals ring Hs _ _ _ Hss) as (VL & VI & _).
    assert (HX' : has x (fun e => nth e v 0)) by (unfold has; rewrite <- (vt_self ring Hs s Hn sh v VI VL); exact HX).
    destruct (pw_loop p x None u 0%nat _ (fun _ => 1) HX' (fun e _ => eqmod_eq _ _ _ eq_refl) HU) as (z & E & HZ).
    exists z. split; [exact E|]. unfold has in HZ.
    replace (map (fun a => to_ring ring (a ^ Zpos p)) v) with (vt (fun e => 1 * nth e v 0 ^ Zpos p)); [exact HZ|].
    transitivity (map (fun a => to_ring ring (a ^ Zpos p)) (map (fun i => nth i v 0) (seq 0 (length v)))).
    - unfold L_Aby.vt. rewrite map_map, VL. apply map_ext. intros e. rewrite Z.mul_1_l. reflexivity.
    - rewrite <- all_nth. reflexivity.
  Qed.
End Pow.
