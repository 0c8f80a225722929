(** The six relational operators. *)
From Coq Require Import QArith String Setoid Morphisms Qfield.
From Verif Require Import Util Modular S_Ring S_Tensor S_Wraps S_Div S_Bil S_Fss M_Torch M_Encoder M_Float M_Tensor M_Share M_Spdz M_Store M_Fss
  L_Torch L_Tensor L_Encoder L_Float L_Share L_Spdz L_Div L_Bil L_Mul L_Circuit L_Rsub L_View L_Store L_Fss L_Fss2.
Local Open Scope Z_scope.
Local Open Scope list_scope.

Lemma one_ulp_value c : 1 <= c_base c -> encode c (pub_vals (one_ulp c)) = [1] .
Proof.
  intros Hb. unfold one_ulp. cbn [pub_vals encode map]. f_equal.
  destruct (Nat.eqb_spec (c_prec c) 0) as [E|E].
  - cbn [encode1]. unfold scale. rewrite E. reflexivity.
  - cbn [encode1]. pose proof (scale_Q_pos c Hb) as Hs.
    assert (Hne : ~ (inject_Z (scale c) == 0)%Q) by (intros E'; rewrite E' in Hs; apply (Qlt_irrefl 0); exact Hs).
    assert (ET : Qtrunc (decode1 c 1 * inject_Z (scale c)) = 1).
    { apply Qtrunc_inject. rewrite decode1_correct by auto. field. auto. }
    rewrite flong_in_range by (rewrite ET; lia). exact ET.
Qed.

Lemma encode_ints c ws : encode c (map NInt ws) = map (fun w => to_ring R64 (w * scale c)) ws.
Proof. unfold encode. rewrite map_map. apply map_ext. intro w. cbn [encode1 cast]. apply wrap_to_ring64. Qed.

(** broadcast indices stay inside *)
Lemma ravel_lt sh : forall ix, Forall2 (fun d i => (i < d)%nat) sh ix -> (ravel sh ix < numel sh)%nat.
Proof.
  induction sh as [|d sh IH]; intros ix H; inversion H as [|? i ? jx Hi Hj]; subst; cbn [ravel]; unfold numel; cbn [fold_right]; [lia|].
  fold (numel sh). specialize (IH _ Hj). nia.
Qed.

Lemma unravel_lt so : forall e, (e < numel so)%nat -> Forall2 (fun d i => (i < d)%nat) so (unravel so e).
Proof.
  induction so as [|d so IH]; intros e He; cbn [unravel]; [constructor|].
  unfold numel in He. cbn [fold_right] in He. fold (numel so) in He.
  assert (numel so <> 0)%nat by (intro E; rewrite E in He; lia).
  constructor; [apply Nat.div_lt_upper_bound; auto; lia | apply IH, Nat.mod_upper_bound; auto].
Qed.

Lemma Forall2_skipn {A B} (P : A -> B -> Prop) k : forall l1 l2, Forall2 P l1 l2 -> Forall2 P (skipn k l1) (skipn k l2).
Proof. induction k; intros l1 l2 H; [exact H|]. destruct H; [constructor|]. cbn. auto. Qed.

Lemma Forall2_from_nth {A B} (P : A -> B -> Prop) (da : A) (db : B) : forall l1 l2, length l1 = length l2 ->
  (forall i, (i < length l1)%nat -> P (nth i l1 da) (nth i l2 db)) -> Forall2 P l1 l2.
Proof.
  induction l1 as [|a l1 IH]; intros [|b l2] L H; try discriminate; constructor.
  - apply (H 0%nat). cbn; lia.
  - apply IH; [cbn in L; lia|]. intros i Hi. apply (H (S i)). cbn; lia.
Qed.

Lemma bshape_dims a b so : bshape a b so -> Forall2 (fun d d' => d = 1%nat \/ d = d') a (skipn (length so - length a) so).
Proof.
  intros H. destruct (bshape_length _ _ _ H) as [LA _]. destruct H as [_ H].
  apply (Forall2_from_nth _ 1%nat 1%nat); [rewrite skipn_length; lia|]. intros i Hi.
  rewrite nth_skipn'. specialize (H (length a - 1 - i)%nat ltac:(lia)). cbn in H.
  rewrite (rev_nth so) in H by lia. rewrite (rev_nth a) in H by lia.
  replace (length a - S (length a - 1 - i))%nat with i in H by lia.
  replace (length so - S (length a - 1 - i))%nat with (length so - length a + i)%nat in H by lia.
  destruct H as [[_ ->]|[[-> _]|[_ ->]]]; auto.
Qed.

Lemma bindex_lt a b so e : bshape a b so -> (e < numel so)%nat ->
  (ravel a (map2 (fun d i => if Nat.eqb d 1 then 0%nat else i) a (skipn (length so - length a) (unravel so e))) < numel a)%nat.
Proof.
  intros H He. apply ravel_lt. pose proof (bshape_dims _ _ _ H) as HD.
  pose proof (Forall2_skipn _ (length so - length a) _ _ (unravel_lt so e He)) as HU.
  set (u := skipn _ (unravel so e)) in *. set (t := skipn _ so) in *. clearbody u t. clear -HD HU.
  revert u HU. induction HD as [|d d' a t Hd HD IH]; intros u HU; inversion HU as [|? i ? jx Hi Hj]; subst; cbn [map2]; constructor; auto.
  destruct (Nat.eqb_spec d 1); [lia|]. destruct Hd; lia.
Qed.

Section Rel.
  Context {K : Type} (alpha : K -> Z) (ev : fop -> Z -> Z -> K -> Z).
  Variable gen : fop -> nat -> nat -> result (list (list K)).

  (** value of a sharing of truth values *)
  Definition truth (c : config) (so : list nat) (f : nat -> bool) : list Z :=
    map (fun e => to_ring R64 (b2z (f e) * scale c)) (seq 0 (numel so)).

  Lemma op_words (P : fop -> K -> K -> Prop) s o so x1 x2 v1 v2 w : good_gen P gen -> (forall o k0 k1, P o k0 k1 -> keys_ok alpha ev o k0 k1) ->
    none_waiting w ->
    length (m_shares x1) = 2%nat -> length (m_shares x2) = 2%nat ->
    shared R64 (m_shape x1) v1 (m_shares x1) -> shared R64 (m_shape x2) v2 (m_shares x2) ->
    bshape (m_shape x1) (m_shape x2) so ->
    exists w0 w1 w', none_waiting w' /\
      fss_op alpha ev gen s o x1 x2 w =
        (Ok (mkM (s_id s) so [mkT so (encode (s_cfg s) (map NInt w0)); mkT so (encode (s_cfg s) (map NInt w1))]), w') /\
      length w0 = numel so /\ length w1 = numel so /\
      forall e, (e < numel so)%nat ->
        let t := tst o (bget (m_shape x1) so v1 e) (bget (m_shape x2) so v2 e) in
        - 2^31 <= nth e w0 0 < 2^31 /\ - 2^31 <= nth e w1 0 < 2^31 /\
        (nth e w0 0 + nth e w1 0 = t \/ nth e w0 0 + nth e w1 0 = t - 2^32) /\
        ((forall o k0 k1, P o k0 k1 -> no_carry ev o k0) -> - 2^31 + 1 < nth e w0 0 /\ nth e w0 0 + nth e w1 0 = t).
  Proof.
    intros HG HP HW L1 L2 H1 H2 Hso. unfold fss_op, shape_bin. rewrite (bcast_complete _ _ _ Hso).
    destruct (HG o (w_calls w) (numel so)) as (k0 & k1 & G & LK0 & LK1 & HK).
    destruct (take_ok gen o (numel so) w k0 k1 HW G LK0 LK1) as (w' & -> & HW').
    assert (HK' : Forall2 (keys_ok alpha ev o) k0 k1).
    { clear -HK HP. induction HK; constructor; auto. }
    destruct (core_words alpha ev s o so x1 x2 v1 v2 k0 k1) as (w0 & w1 & -> & LW0 & LW1 & HE); auto.
    exists w0, w1, w'. split; [exact HW'|]. split; [reflexivity|]. split; [auto|]. split; [auto|].
    intros e He. destruct (HE e He) as (R0 & R1 & HS & HN). repeat split; try lia; auto.
    all: intros; apply HN; clear -HK H; induction HK; constructor; eauto.
  Qed.

  Lemma words_shared c so w0 w1 (t : nat -> bool) : length w0 = numel so -> length w1 = numel so ->
    (forall e, (e < numel so)%nat -> nth e w0 0 + nth e w1 0 = b2z (t e)) ->
    shared R64 so (truth c so t) [mkT so (encode c (map NInt w0)); mkT so (encode c (map NInt w1))].
  Proof.
    intros L0 L1 H. apply shared_intro; auto using supR.
    - discriminate.
    - constructor; [|constructor; [|constructor]]; (split; [reflexivity|]; cbn [tdat]; split; [unfold encode; rewrite !map_length; auto|apply encode_in]).
    - unfold truth. rewrite map_length, seq_length. reflexivity.
    - apply map_to_ring_in; auto using supR.
    - intros e He. cbn [map zsum tdat]. rewrite !encode_ints. unfold truth. rewrite map_seq_nth by auto.
      rewrite !(nth_map_in _ 0) by lia. rewrite !to_ring_eqmod by apply posR. apply eqmod_eq.
      rewrite <- (H e He). ring.
  Qed.

  Hypothesis HG : good_gen (fun o k0 k1 => keys_ok alpha ev o k0 k1 /\ no_carry ev o k0) gen.

  Lemma op_ok s o so x1 x2 v1 v2 w : none_waiting w ->
    length (m_shares x1) = 2%nat -> length (m_shares x2) = 2%nat ->
    shared R64 (m_shape x1) v1 (m_shares x1) -> shared R64 (m_shape x2) v2 (m_shares x2) ->
    bshape (m_shape x1) (m_shape x2) so ->
    exists z w', fss_op alpha ev gen s o x1 x2 w = (Ok z, w') /\ none_waiting w' /\
      m_sid z = s_id s /\ m_shape z = so /\ length (m_shares z) = 2%nat /\
      shared R64 so (truth (s_cfg s) so (fun e => test o (signed32 (bget (m_shape x1) so v1 e - bget (m_shape x2) so v2 e)))) (m_shares z).
  Proof.
    intros HW L1 L2 H1 H2 Hso.
    destruct (op_words _ s o so x1 x2 v1 v2 w HG) as (w0 & w1 & w' & HW' & E & LW0 & LW1 & HE); auto.
    { intros ? ? ? [? _]; auto. }
    eexists _, w'. split; [exact E|]. split; [exact HW'|]. split; [reflexivity|]. split; [reflexivity|]. split; [reflexivity|].
    cbn [m_shares]. apply words_shared; auto. intros e He. destruct (HE e He) as (_ & _ & _ & HN). apply HN. intros ? ? ? [_ ?]; auto.
  Qed.

  (** x + one unit *)
  Lemma plus_one s x vx : 1 <= c_base (s_cfg s) -> m_shape x <> [] -> shared R64 (m_shape x) vx (m_shares x) ->
    exists x', mpc_lin_public s LAdd x (one_ulp (s_cfg s)) = Ok x' /\ m_shape x' = m_shape x /\
      length (m_shares x') = length (m_shares x) /\
      shared R64 (m_shape x) (map (fun v => to_ring R64 (v + 1)) vx) (m_shares x').
  Proof.
    intros Hb HS HX. pose proof (shared_vals R64 supR _ _ _ HX) as (VL & VI & _).
    destruct (mpc_lin_public_value s LAdd x (one_ulp (s_cfg s)) vx (m_shape x)) as (x' & E & _ & X2 & X3 & _ & X5); auto.
    { reflexivity. }
    { apply bshape_scalar; auto. }
    exists x'. split; [exact E|]. split; [exact X2|]. split; [exact X3|]. specialize (X5 eq_refl).
    rewrite one_ulp_value in X5 by auto. cbn [pub_shape one_ulp] in X5.
    assert (EQ : s_linop LAdd (bexpand (m_shape x) (m_shape x) vx) (bexpand [1%nat] (m_shape x) [1]) = map (fun v => to_ring R64 (v + 1)) vx); [|rewrite <- EQ; exact X5].
    rewrite bexpand_self by auto. unfold s_linop, s_add. apply vec_eqR.
    - apply map2_to_ring_in; auto.
    - apply map_to_ring_in; auto using supR.
    - rewrite map2_length, map_length, bexpand_length. lia.
    - intros e He. rewrite map2_length, bexpand_length in He. rewrite (nth_map2 _ 0 0 0) by (rewrite ?bexpand_length; lia).
      rewrite (nth_map_in _ 0) by lia. rewrite bexpand_nth by lia. rewrite bget_one by auto. reflexivity.
  Qed.

  Lemma bget_plus sh b so v e : (e < numel so)%nat -> bshape sh b so -> length v = numel sh ->
    bget sh so (map (fun a => to_ring R64 (a + 1)) v) e == bget sh so v e + 1 [mod R64].
  Proof.
    intros He HB LV. unfold bget. pose proof (bindex_lt sh b so e HB He) as Hi. rewrite <- LV in Hi.
    rewrite (nth_map_in _ 0) by auto. apply to_ring_eqmod, posR.
  Qed.

  Lemma truth_ext c so f g : (forall e, (e < numel so)%nat -> f e = g e) -> truth c so f = truth c so g.
  Proof. intros H. unfold truth. apply map_ext_in. intros e He. apply in_seq in He. rewrite H by lia. reflexivity. Qed.

  Lemma bshape_sym a b so : bshape a b so -> bshape b a so.
  Proof. intros H. apply bcast_spec. rewrite bcast_comm. apply bcast_complete. exact H. Qed.

  Lemma eqmod_signed32 a b : a == b [mod R64] -> signed32 a = signed32 b.
  Proof.
    intros [k E]. apply signed32_cong. rewrite E. replace (b + k * R64) with (b + (k * 2^32) * 2^32) by (unfold R64; lia).
    apply Z_mod_plus_full.
  Qed.

  Lemma scale16 c : c_base c = 2 -> (c_prec c <= 16)%nat -> 1 <= scale c <= 2^16.
  Proof.
    intros Hb Hp. unfold scale. rewrite Hb. split.
    - assert (0 < 2 ^ Z.of_nat (c_prec c)) by (apply Z.pow_pos_nonneg; lia). lia.
    - apply Z.pow_le_mono_r; lia.
  Qed.

  Lemma ne_ok s so w0 w1 (t : nat -> bool) prim : c_base (s_cfg s) = 2 -> (c_prec (s_cfg s) <= 16)%nat -> s_n s = 2%nat -> so <> [] ->
    length w0 = numel so -> length w1 = numel so ->
    (forall e, (e < numel so)%nat -> - 2^31 + 1 < nth e w0 0 < 2^31 /\ nth e w0 0 + nth e w1 0 = b2z (t e)) ->
    let z := mkM (s_id s) so [mkT so (encode (s_cfg s) (map NInt w0)); mkT so (encode (s_cfg s) (map NInt w1))] in
    exists z', mpc_rsub s z (PNum (NInt 1)) prim = Ok z' /\ m_sid z' = s_id s /\ m_shape z' = so /\ length (m_shares z') = 2%nat /\
      shared R64 so (truth (s_cfg s) so (fun e => negb (t e))) (m_shares z').
  Proof.
    intros Hb Hp Hn HS L0 L1 HE z. pose proof (scale16 _ Hb Hp) as Hsc. set (sc := scale (s_cfg s)) in *.
    assert (SZ : shared R64 so (truth (s_cfg s) so t) (m_shares z)) by (apply words_shared; auto; intros; apply HE; auto).
    assert (E1 : encode (s_cfg s) (pub_vals (PNum (NInt 1))) = [sc]).
    { cbn [pub_vals encode map encode1 cast]. rewrite wrap_to_ring64. change (2^64) with R64. fold sc. rewrite to_ring64_small by lia. f_equal. lia. }
    assert (NY : forall e, (e < numel so)%nat -> nth e (bexpand [1%nat] so [sc]) 0 = sc).
    { intros e He. rewrite bexpand_nth by auto. apply bget_one; auto. }
    assert (NT : forall e, (e < numel so)%nat -> nth e (truth (s_cfg s) so t) 0 = b2z (t e) * sc).
    { intros e He. unfold truth. rewrite map_seq_nth by auto. fold sc. apply to_ring64_small. destruct (t e); cbn [b2z]; lia. }
    destruct (rsub_exact s z (PNum (NInt 1)) (truth (s_cfg s) so t) prim) as (ds & UD & LD & HD); auto.
    { lia. } { exact I. } { apply bshape_scalar; auto. }
    { rewrite E1. cbn [pub_shape m_shape z]. intros e He. rewrite NY, NT by auto. fold sc.
      destruct (t e); cbn [b2z]; nia. }
    cbn [pub_shape m_shape z] in HD. rewrite E1 in HD. fold sc in HD.
    destruct HD as (z' & EZ & Z1 & Z2 & Z3 & Z4).
    { left. split; [exact Hn|]. intros e He.
      rewrite map_seq_nth by auto. rewrite NY, NT by auto.
      assert (HDS : exists d, mpc_lin_public s LSub z (PNum (NInt 1)) = Ok d /\
         m_shares d = [mkT so (s_sub R64 (encode (s_cfg s) (map NInt w0)) (bexpand [1%nat] so [sc])); mkT so (encode (s_cfg s) (map NInt w1))]).
      { unfold mpc_lin_public, z. cbn [m_shares get_nth nth_error]. unfold get_nth. cbn [nth_error rbind].
        destruct (share_init_in (s_cfg s) (PNum (NInt 1)) I) as [HI EI]. rewrite EI in *. rewrite E1 in *.
        rewrite (sh_lin_spec LSub _ _ so); cbn [tsh tdat pub_shape]; [|apply bshape_scalar; auto|apply encode_in|apply HI].
        cbn [rbind]. unfold shape_bin. cbn [m_shape pub_shape]. rewrite (bcast_complete so [1%nat] so) by (apply bshape_scalar; auto).
        cbn [rbind]. eexists. split; [reflexivity|]. cbn [m_shares set_nth]. rewrite bexpand_self; [reflexivity|]. unfold encode. rewrite !map_length. auto. }
      destruct HDS as (d & ED & HD2). rewrite <- (UD d ED), HD2.
      destruct (HE e He) as [R0 SM].
      unfold neg_scaled. cbn [map col tdat zsum]. unfold col. cbn [map zsum tdat].
      change (2^64) with R64.
      rewrite !(nth_map_in _ 0) by (rewrite ?encode_ints, ?map_length; unfold s_sub; rewrite ?map2_length, ?bexpand_length, ?map_length; lia).
      unfold s_sub. rewrite (nth_map2 _ 0 0 0) by (rewrite ?encode_ints, ?bexpand_length, ?map_length; lia).
      rewrite NY by auto. rewrite !encode_ints. rewrite !(nth_map_in _ 0) by lia. fold sc.
      set (a := nth e w0 0) in *. set (b := nth e w1 0) in *.
      assert (B : - 2^31 < b < 2^31) by (destruct (t e); cbn [b2z] in SM; lia).
      rewrite (to_ring64_small (a * sc)) by nia. rewrite (to_ring64_small (b * sc)) by nia.
      rewrite (to_ring64_small (a * sc - sc)) by nia. rewrite (to_ring64_small (- sc)) by lia.
      assert (Q : 1 <= sc * sc <= 2^32) by nia.
      rewrite (to_ring64_small ((a * sc - sc) * - sc)).
      2:{ replace ((a * sc - sc) * - sc) with ((1 - a) * (sc * sc)) by ring. assert (- 2^31 < 1 - a < 2^31) by lia. nia. }
      rewrite (to_ring64_small (b * sc * - sc)).
      2:{ replace (b * sc * - sc) with ((- b) * (sc * sc)) by ring. nia. }
      rewrite <- SM. ring. }
    exists z'. split; [exact EZ|]. split; [exact Z1|]. split; [exact Z2|]. split; [congruence|].
    assert (EQ : s_sub R64 (bexpand [1%nat] so [sc]) (truth (s_cfg s) so t) = truth (s_cfg s) so (fun e => negb (t e))); [|rewrite <- EQ; exact Z4].
    assert (LT : forall f, length (truth (s_cfg s) so f) = numel so) by (intro f; unfold truth; rewrite map_length, seq_length; auto).
    apply vec_eqR.
    - apply map2_to_ring_in; auto.
    - apply map_to_ring_in; auto using supR.
    - unfold s_sub. rewrite map2_length, bexpand_length, !LT. lia.
    - intros e He. unfold s_sub in He. rewrite map2_length, bexpand_length, LT in He. unfold s_sub. rewrite (nth_map2 _ 0 0 0) by (rewrite ?bexpand_length, ?LT; lia).
      rewrite NY, NT by lia. unfold truth. rewrite map_seq_nth by lia. fold sc. rewrite !to_ring_eqmod by apply posR. apply eqmod_eq.
      destruct (t e); cbn [b2z negb]; lia.
  Qed.

  Lemma rel_ok s r x y so vx vy prim w : s_n s = 2%nat -> none_waiting w ->
    length (m_shares x) = 2%nat -> length (m_shares y) = 2%nat ->
    shared R64 (m_shape x) vx (m_shares x) -> shared R64 (m_shape y) vy (m_shares y) ->
    bshape (m_shape x) (m_shape y) so -> rel_fits r (s_cfg s) (m_shape x) (m_shape y) ->
    exists z w', mpc_rel alpha ev gen s (rop_of r) x y prim w = (Ok z, w') /\ none_waiting w' /\
      m_sid z = s_id s /\ m_shape z = so /\ length (m_shares z) = 2%nat /\
      shared R64 so (truth (s_cfg s) so (fun e => relates32 r (bget (m_shape x) so vx e) (bget (m_shape y) so vy e))) (m_shares z).
  Proof.
    intros Hn HW LX LY HX HY Hso HF.
    pose proof (shared_vals R64 supR _ _ _ HX) as (VLx & _ & _). pose proof (shared_vals R64 supR _ _ _ HY) as (VLy & _ & _).
    destruct r; cbn [rop_of mpc_rel].
    - exact (op_ok s FComp so x y vx vy w HW LX LY HX HY Hso).
    - destruct HF as [Hb HS]. destruct (plus_one s x vx Hb HS HX) as (x' & -> & X1 & X2 & X3).
      destruct (op_ok s FComp so x' y _ vy w HW ltac:(congruence) LY ltac:(rewrite X1; exact X3) HY ltac:(rewrite X1; exact Hso)) as (z & w' & E & HW' & Z1 & Z2 & Z3 & Z4).
      exists z, w'. repeat (split; [assumption|]). erewrite truth_ext; [exact Z4|]. intros e He. cbn [relates32 test]. rewrite X1. f_equal.
      apply eqmod_signed32. rewrite (bget_plus _ _ _ _ _ He Hso VLx). reflexivity.
    - exact (op_ok s FComp so y x vy vx w HW LY LX HY HX (bshape_sym _ _ _ Hso)).
    - destruct HF as [Hb HS]. destruct (plus_one s y vy Hb HS HY) as (y' & -> & X1 & X2 & X3).
      destruct (op_ok s FComp so y' x _ vx w HW ltac:(congruence) LX ltac:(rewrite X1; exact X3) HX ltac:(rewrite X1; apply bshape_sym; exact Hso)) as (z & w' & E & HW' & Z1 & Z2 & Z3 & Z4).
      exists z, w'. repeat (split; [assumption|]). erewrite truth_ext; [exact Z4|]. intros e He. cbn [relates32 test]. rewrite X1. f_equal.
      apply eqmod_signed32. rewrite (bget_plus _ _ _ _ _ He (bshape_sym _ _ _ Hso) VLy). reflexivity.
    - exact (op_ok s FEq so x y vx vy w HW LX LY HX HY Hso).
    - destruct HF as (Hb & Hp & HS).
      destruct (op_words _ s FEq so x y vx vy w HG) as (w0 & w1 & w' & HW' & E & LW0 & LW1 & HE); auto.
      { intros ? ? ? [? _]; auto. }
      rewrite E. cbn [rbind].
      destruct (ne_ok s so w0 w1 (fun e => test FEq (signed32 (bget (m_shape x) so vx e - bget (m_shape y) so vy e))) prim) as (z & EZ & Z1 & Z2 & Z3 & Z4); auto.
      { intro E0. apply bshape_length in Hso. rewrite E0 in Hso. cbn in Hso. destruct (m_shape x), (m_shape y); cbn in Hso; try lia; destruct HS; congruence. }
      { intros e He. destruct (HE e He) as (R0 & _ & _ & HN). destruct HN as [N1 N2]; [intros ? ? ? [_ ?]; auto|]. split; [lia|exact N2]. }
      exists z, w'. rewrite EZ. repeat (split; [first [reflexivity|assumption]|]). exact Z4.
  Qed.

  Lemma relates32_small r a b : Z.abs (a - b) < 2^31 - 1 -> relates32 r a b = relates r a b.
  Proof.
    intros H. destruct r; cbn [relates32 relates]; rewrite signed32_small by lia;
      repeat match goal with |- context [?u <=? ?v] => destruct (Z.leb_spec u v) | |- context [?u <? ?v] => destruct (Z.ltb_spec u v) | |- context [?u =? ?v] => destruct (Z.eqb_spec u v) end; try reflexivity; lia.
  Qed.
End Rel.
