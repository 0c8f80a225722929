(** Public minus shared at any precision; two-party division share by share. *)
From Coq Require Import QArith Setoid Morphisms.
From Verif Require Import Util Modular S_Ring S_Tensor S_Wraps S_Div S_Bil S_Spdz M_Torch M_Encoder M_Float M_Tensor M_Share M_Spdz
  L_Torch L_Tensor L_Encoder L_Float L_Share L_Spdz L_Div L_Bil L_Mul L_Circuit.
Local Open Scope Z_scope.

Lemma neg_product sh c v : sh <> [] -> vec_in R64 v -> length v = numel sh ->
  mul_val sh [1%nat] sh v [c] = map (fun a => to_ring R64 (a * c)) v.
Proof.
  intros HS HV HL. unfold mul_vr, s_mul. rewrite bexpand_self by auto.
  apply vec_eqR.
  - apply map2_to_ring_in; auto.
  - apply map_to_ring_in; auto.
  - rewrite map2_length, map_length, bexpand_length. lia.
  - intros e He. rewrite map2_length, bexpand_length in He.
    rewrite (nth_map2 _ 0 0 0) by (rewrite ?bexpand_length; lia). rewrite (nth_map_in _ 0) by lia.
    rewrite bexpand_nth by lia. change (2^64) with R64. rewrite bget_one by auto. reflexivity.
Qed.

Lemma neg_scaled_shares c sh ts : sh <> [] -> Forall (tensor_in R64 sh) ts ->
  rmap (fun t => sh_bil BMul t (mkT [1%nat] [to_ring R64 (- scale c)])) ts = Ok (neg_scaled (scale c) sh ts) /\
  Forall (tensor_in R64 sh) (neg_scaled (scale c) sh ts).
Proof.
  intros HS HF. split.
  - apply rmap_pointwise. intros t Ht. rewrite Forall_forall in HF. destruct (HF t Ht) as (T1 & T2 & T3).
    assert (HP : product SMul sh [1%nat] sh (mul_val sh [1%nat] sh)) by (apply prod_mul, bshape_scalar; auto).
    destruct (product_index _ _ _ _ _ HP) as (ix & EI & HV).
    unfold sh_bil, tbil. rewrite T1. cbn [tsh tdat]. cbn [bop_of] in EI. rewrite EI.
    rewrite (rbil_spec R64 supR); auto.
    + change R64 with (2^64). rewrite HV. change (2^64) with R64. rewrite neg_product by auto. reflexivity.
    + constructor; [apply in_to_ring, posR|constructor].
  - unfold neg_scaled. apply Forall_map. eapply Forall_impl; [|exact HF]. intros t (T1 & T2 & T3).
    split; [reflexivity|]. cbn [tdat]. split; [rewrite map_length; auto | apply map_to_ring_in; auto].
Qed.

Lemma neg_scaled_sum sc sh v ts : shared R64 sh v ts ->
  shared R64 sh (map (fun a => to_ring R64 (- sc * a)) v) (neg_scaled sc sh ts).
Proof.
  intros S. pose proof S as (S1 & S2 & S3). pose proof (shared_vals R64 supR _ _ _ S) as (VL & VI & VN).
  apply shared_intro; auto using supR.
  - unfold neg_scaled. destruct ts; [congruence|discriminate].
  - unfold neg_scaled. apply Forall_map. eapply Forall_impl; [|exact S2]. intros t (T1 & T2 & T3).
    split; [reflexivity|]. cbn [tdat]. split; [rewrite map_length; auto | apply map_to_ring_in; auto].
  - rewrite map_length. auto.
  - apply map_to_ring_in; auto.
  - intros e He. rewrite (nth_map_in _ 0) by lia. rewrite to_ring_eqmod by apply posR. rewrite VN.
    unfold neg_scaled. rewrite map_map. clear -S2 He.
    induction S2 as [|t l (T1 & T2 & T3) S2 IH]; cbn [map zsum]; [apply eqmod_eq; lia|].
    rewrite Z.mul_add_distr_l, IH. cbn [tdat]. rewrite (nth_map_in _ 0) by lia.
    rewrite (to_ring_eqmod R64 (- sc)) by apply posR. rewrite (to_ring_eqmod R64 (_ * _)) by apply posR. apply eqmod_eq. ring.
Qed.

(** rsub = division of these shares by the scale *)
Lemma rsub_raw s x y vx prim : m_shape x <> [] -> pub_ok y -> m_sid x = s_id s ->
  shared R64 (m_shape x) vx (m_shares x) -> bshape (m_shape x) (pub_shape y) (m_shape x) ->
  exists ds, length ds = length (m_shares x) /\
    shared R64 (m_shape x) (s_sub R64 (bexpand (m_shape x) (m_shape x) vx) (bexpand (pub_shape y) (m_shape x) (encode (s_cfg s) (pub_vals y)))) ds /\
    (forall d, mpc_lin_public s LSub x y = Ok d -> m_shares d = ds) /\
    mpc_rsub s x y prim =
      (do r <- public_divide s (mkM (s_id s) (m_shape x) (neg_scaled (scale (s_cfg s)) (m_shape x) ds)) (scale (s_cfg s)) prim; Ok (fst r)).
Proof.
  intros HS HY HSID HX HB. unfold mpc_rsub.
  destruct (mpc_lin_public_value s LSub x y vx (m_shape x) HY HX HB) as (d & E & D1 & D2 & D3 & D4 & D5).
  specialize (D5 eq_refl). rewrite E. cbn [rbind]. exists (m_shares d). split; [auto|]. split; [exact D5|].
  split; [congruence|]. unfold mpc_bil_public.
  pose proof D5 as (_ & F & _).
  destruct (neg_scaled_shares (s_cfg s) (m_shape x) (m_shares d) HS F) as [EN _].
  assert (EI : share_init (s_cfg s) (PNum (NInt (-1))) = mkT [1%nat] [to_ring R64 (- scale (s_cfg s))]).
  { destruct (share_init_in (s_cfg s) (PNum (NInt (-1))) I) as [_ ->]. cbn [pub_shape pub_vals encode map encode1 cast].
    rewrite wrap_to_ring64. change (2^64) with R64. repeat f_equal. }
  rewrite EI, EN. cbn [rbind]. rewrite D2. cbn [pub_shape].
  assert (HP : product SMul (m_shape x) [1%nat] (m_shape x) (mul_val (m_shape x) [1%nat] (m_shape x))) by (apply prod_mul, bshape_scalar; auto).
  assert (ESH := shape_of_product _ _ _ _ _ HP). cbn [bop_of] in ESH. rewrite ESH. cbn [rbind].
  unfold truncate. cbn [negb orb]. rewrite D1, HSID. reflexivity.
Qed.

Lemma dvd_to_ring y v : (y | R64) -> (y | v) -> (y | to_ring R64 v).
Proof.
  intros [a Ha] [b Hb]. pose proof (to_ring_eqmod R64 v posR) as [k K]. exists (b + k * a).
  rewrite Z.mul_add_distr_r, <- Z.mul_assoc, <- Ha, <- Hb. lia.
Qed.

(** rsub is exact in base 2 as soon as the division is (good masks / no wrap) and the
    intermediate product fits *)
Lemma rsub_exact s x y vx prim : c_base (s_cfg s) = 2 -> (c_prec (s_cfg s) <= 62)%nat ->
  m_shape x <> [] -> pub_ok y -> m_sid x = s_id s -> length (m_shares x) = s_n s ->
  shared R64 (m_shape x) vx (m_shares x) -> bshape (m_shape x) (pub_shape y) (m_shape x) ->
  let vy := bexpand (pub_shape y) (m_shape x) (encode (s_cfg s) (pub_vals y)) in
  let sc := scale (s_cfg s) in
  (forall e, (e < numel (m_shape x))%nat -> - 2^63 <= sc * (nth e vy 0 - nth e vx 0) < 2^63) ->
  exists ds, (forall d, mpc_lin_public s LSub x y = Ok d -> m_shares d = ds) /\ length ds = s_n s /\
    (divisible 2 (c_prec (s_cfg s)) (s_n s) (m_shape x) (map (fun e => sc * (nth e vy 0 - nth e vx 0)) (seq 0 (numel (m_shape x))))
       (neg_scaled sc (m_shape x) ds) sc (fst prim) (snd prim) ->
     exists z, mpc_rsub s x y prim = Ok z /\ m_sid z = m_sid x /\ m_shape z = m_shape x /\ length (m_shares z) = s_n s /\
       shared R64 (m_shape x) (s_sub R64 vy vx) (m_shares z)).
Proof.
  intros Hb Hp HS HY HSID HL HX HB vy sc HR. set (sh := m_shape x) in *.
  destruct (rsub_raw s x y vx prim HS HY HSID HX HB) as (ds & LD & SD & UD & ER). fold sh in SD, ER.
  exists ds. split; [exact UD|]. split; [congruence|]. intros HD.
  pose proof (shared_vals R64 supR _ _ _ HX) as (VL & VI & VN). fold sh in VL.
  assert (LY : length vy = numel sh) by (unfold vy; apply bexpand_length).
  rewrite bexpand_self in SD by auto. fold vy in SD.
  assert (Hsc : 0 < sc) by (unfold sc, scale; rewrite Hb; apply Z.pow_pos_nonneg; lia).
  assert (D62 : (sc | 2^62)).
  { unfold sc, scale. rewrite Hb. exists (2 ^ (62 - Z.of_nat (c_prec (s_cfg s)))). rewrite <- Z.pow_add_r by lia. f_equal. lia. }
  assert (D64 : (sc | R64)) by (destruct D62 as [k K]; exists (4 * k); change R64 with (4 * 2^62); rewrite K; ring).
  pose proof (neg_scaled_sum sc sh _ _ SD) as SN.
  assert (EV : map (fun a => to_ring R64 (- sc * a)) (s_sub R64 vx vy) =
               map (fun e => sc * (nth e vy 0 - nth e vx 0)) (seq 0 (numel sh))).
  { apply (nth_ext_len 0).
    - rewrite !map_length, seq_length. unfold s_sub. rewrite map2_length. lia.
    - intros e He. rewrite map_length in He. unfold s_sub in He. rewrite map2_length in He.
      rewrite (nth_map_in _ 0) by (unfold s_sub; rewrite map2_length; lia). rewrite map_seq_nth by lia.
      unfold s_sub. rewrite (nth_map2 _ 0 0 0) by lia.
      rewrite <- (to_ring64_small (sc * (nth e vy 0 - nth e vx 0))) by (apply HR; lia).
      apply to_ring_eq. rewrite to_ring_eqmod by apply posR. apply eqmod_eq. lia. }
  rewrite EV in SN.
  destruct (divide_multiples s (mkM (s_id s) sh (neg_scaled sc sh ds)) sc prim sh
     (map (fun e => sc * (nth e vy 0 - nth e vx 0)) (seq 0 (numel sh))) Hsc D62 eq_refl eq_refl) with (2 := SN)
    as (z & xs' & vz & EZ & Z1 & Z2 & Z3 & Z4 & Z5).
  - cbn [m_shares]. unfold neg_scaled. rewrite map_length. congruence.
  - cbn [m_shares]. intros e t He Ht. unfold neg_scaled in Ht. apply in_map_iff in Ht.
    destruct Ht as (u & <- & Hu). cbn [tdat].
    pose proof SD as (_ & F & _). rewrite Forall_forall in F. destruct (F u Hu) as (U1 & U2 & U3).
    rewrite (nth_map_in _ 0) by lia. apply dvd_to_ring; auto. apply Z.divide_mul_r. apply dvd_to_ring; auto.
    apply Z.divide_opp_r. apply Z.divide_refl.
  - cbn [m_shares]. rewrite Hb. exact HD.
  - exists z. rewrite ER. unfold sc in EZ. rewrite EZ. cbn [rbind fst]. split; [reflexivity|].
    split; [cbn in Z1; congruence|]. split; [exact Z2|]. split; [exact Z3|].
    assert (E : vz = s_sub R64 vy vx); [|rewrite <- E; exact Z4].
    pose proof (shared_vals R64 supR _ _ _ Z4) as (ZL & ZI & _).
    apply vec_eqR; auto.
    + apply map2_to_ring_in; auto.
    + unfold s_sub. rewrite map2_length. lia.
    + intros e He. specialize (Z5 e ltac:(lia)). rewrite map_seq_nth in Z5 by lia.
      apply Z.mul_reg_l in Z5; [|lia]. rewrite Z5, nth_s_sub by lia. reflexivity.
Qed.

Lemma quot_half v y : 2 <= y -> - 2^63 <= v < 2^63 -> - 2^62 <= Z.quot v y < 2^62.
Proof.
  intros Hy Hv. pose proof (Z.quot_rem v y ltac:(lia)) as QR.
  pose proof (rem_sign v y ltac:(lia)) as [RP RN]. change (2^63) with (2 * 2^62) in Hv.
  set (q := Z.quot v y) in *. set (r := Z.rem v y) in *. clearbody q r. set (B := 2^62) in *.
  assert (HB : 0 < B) by reflexivity. clearbody B.
  destruct (Z.le_gt_cases 0 v) as [P|P].
  - specialize (RP P). nia.
  - specialize (RN ltac:(lia)). nia.
Qed.

(* ------------------------------------------------------ two parties *)
Lemma two_party_divide s x y prim sh vx : s_n s = 2%nat -> 0 < y -> m_shape x = sh -> length (m_shares x) = 2%nat ->
  shared R64 sh vx (m_shares x) ->
  exists z vz, public_divide s x y prim = Ok (z, m_shares x) /\ m_shape z = sh /\ shared R64 sh vz (m_shares z) /\
    forall e, (e < numel sh)%nat ->
      (zsum (col e (m_shares x)) = nth e vx 0 -> Z.abs (nth e vz 0 - Z.quot (nth e vx 0) y) <= 1) /\
      (zsum (col e (m_shares x)) <> nth e vx 0 -> 2 <= y -> exists k, (k = 1 \/ k = -1) /\
         quot_within y (nth e vx 0 + k * 2^64) (nth e vz 0) (2 * (y - 1))).
Proof.
  intros Hn Hy Hsh HL HX. destruct (public_divide_two s x y prim sh vx Hn Hy Hsh HX) as (E & vz & SV & NV).
  eexists. exists vz. split; [exact E|]. cbn [m_shape m_shares]. split; [reflexivity|]. split; [exact SV|].
  intros e He. rewrite NV by auto.
  pose proof (shared_vals R64 supR _ _ _ HX) as (VL & VI & VN). pose proof HX as (_ & X2 & _).
  assert (CI : vec_in R64 (col e (m_shares x))).
  { unfold col. apply Forall_map. eapply Forall_impl; [|exact X2]. intros t (_ & _ & T3). apply nth_in_ring; auto. }
  assert (CL : length (col e (m_shares x)) = 2%nat) by (unfold col; rewrite map_length; congruence).
  destruct (two_list _ CL) as (a & b & EC).
  assert (EVX := shared_nth sh vx (m_shares x) e HX He).
  split.
  - intros HS. rewrite (quot_sum_small _ y (nth e vx 0)) by (auto; apply in_ring64_range, nth_in_ring; auto).
    rewrite <- HS, EC. cbn [map zsum]. rewrite !Z.add_0_r. apply two_party_noerr; auto.
  - intros HS Hy2. rewrite EC in *. inversion CI as [|? ? Ca CI']; subst. inversion CI' as [|? ? Cb _]; subst.
    apply in_ring64_range in Ca, Cb. cbn [map zsum] in *. rewrite Z.add_0_r in *.
    rewrite to_ring64 in EVX.
    assert (K : exists k, (k = 1 \/ k = -1) /\ a + b = nth e vx 0 + k * 2^64).
    { pose proof (Z.div_mod (a + b + 2^63) (2^64) ltac:(lia)) as D.
      pose proof (Z.mod_pos_bound (a + b + 2^63) (2^64) ltac:(lia)) as M.
      set (q := (a + b + 2^63) / 2^64) in *. exists q. split; [|lia].
      assert (q <> 0) by (intros ->; lia).
      change (2^63) with 9223372036854775808 in *. change (2^64) with 18446744073709551616 in *. lia. }
    destruct K as (k & Hk & K). exists k. split; [exact Hk|]. unfold quot_within.
    pose proof (div_core_eq [a; b] y (a + b) 0 _ Hy ltac:(cbn [zsum]; lia) eq_refl) as D.
    pose proof (div_error_bound [a; b] y 0 Hy) as B. cbn [map zsum length] in D, B. rewrite !Z.add_0_r in D.
    assert (QB : forall v, - 2^63 <= v < 2^63 -> - 2^62 <= Z.quot v y < 2^62) by (intros; apply quot_half; auto).
    pose proof (QB a Ca). pose proof (QB b Cb).
    rewrite to_ring64_small by (change (2^63) with (2 * 2^62); lia).
    rewrite <- K. lia.
Qed.

(** the first shares that make a two-party sharing of [z] wrap *)
Lemma to_ring64_over v : 2^63 <= v < 2^64 -> to_ring R64 v = v - 2^64.
Proof.
  intros H. rewrite <- (to_ring64_small (v - 2^64)) by (change (2^64) with (2 * 2^63) in *; lia).
  apply to_ring_eq. exists 1. change R64 with (2^64). lia.
Qed.
Lemma to_ring64_under v : - 2^64 <= v < - 2^63 -> to_ring R64 v = v + 2^64.
Proof.
  intros H. rewrite <- (to_ring64_small (v + 2^64)) by (change (2^64) with (2 * 2^63) in *; lia).
  apply to_ring_eq. exists (-1). change R64 with (2^64). lia.
Qed.

Lemma wrapping_first_shares z : - 2^63 <= z < 2^63 -> exists lo, - 2^63 <= lo /\ lo + Z.abs (z + 1) <= 2^63 /\
  forall x0, - 2^63 <= x0 < 2^63 ->
    (x0 + to_ring R64 (z - x0) <> z <-> lo <= x0 < lo + Z.abs (z + 1)).
Proof.
  intros Hz. exists (if 0 <=? z then - 2^63 else z + 2^63 + 1).
  destruct (Z.leb_spec 0 z) as [P|P].
  - rewrite Z.abs_eq by lia. split; [lia|]. split; [lia|]. intros x0 Hx.
    destruct (Z.lt_ge_cases (z - x0) (2^63)) as [L|L].
    + rewrite to_ring64_small by lia. split; lia.
    + rewrite to_ring64_over by (change (2^64) with (2 * 2^63); lia). split; lia.
  - rewrite Z.abs_neq by lia. split; [lia|]. split; [lia|]. intros x0 Hx.
    destruct (Z.lt_ge_cases (z - x0) (- 2^63)) as [L|L].
    + rewrite to_ring64_under by (change (2^64) with (2 * 2^63); lia). split; lia.
    + rewrite to_ring64_small by lia. split; lia.
Qed.
