(** Lemmas: the full adder and bit decomposition of ABY3. *)
From Coq Require Import QArith Setoid Morphisms.
From Verif Require Import Util Modular S_Ring S_Bits S_Tensor S_Bil S_Spdz S_Rep M_Torch L_Torch M_Encoder M_Tensor L_Tensor M_Share L_Share M_Spdz L_Spdz L_Bil
  L_RShare L_Mul M_Session L_Session M_Rep S_RepT L_Rep L_Rep2 L_Rep3 L_Rep4 L_Rep5 L_Rep6 M_Aby3 L_Aby L_Aby2.
Local Open Scope Z_scope.

Lemma bit_01 v i : bit v i = 0 \/ bit v i = 1.
Proof. unfold bit. pose proof (Z.mod_pos_bound (v / 2 ^ Z.of_nat i) 2 ltac:(lia)). lia. Qed.

Definition carry (a b : Z) (i : nat) : Z := (a mod 2 ^ Z.of_nat i + b mod 2 ^ Z.of_nat i) / 2 ^ Z.of_nat i.

Lemma pow2_pos i : 0 < 2 ^ Z.of_nat i.
Proof. apply Z.pow_pos_nonneg; lia. Qed.

Lemma carry_0 a b : carry a b 0 = 0.
Proof. unfold carry. cbn. rewrite !Z.mod_1_r. reflexivity. Qed.

Lemma carry_01 a b i : carry a b i = 0 \/ carry a b i = 1.
Proof.
  unfold carry. pose proof (pow2_pos i) as H. set (p := 2 ^ Z.of_nat i) in *.
  pose proof (Z.mod_pos_bound a p H). pose proof (Z.mod_pos_bound b p H).
  assert (0 <= (a mod p + b mod p) / p < 2).
  { split; [apply Z.div_pos; lia|]. apply Z.div_lt_upper_bound; lia. }
  lia.
Qed.

Lemma bit_sum a b i : bit (a + b) i = (bit a i + bit b i + carry a b i) mod 2.
Proof.
  unfold bit, carry. pose proof (pow2_pos i) as H. set (p := 2 ^ Z.of_nat i) in *.
  assert (E : (a + b) / p = a / p + b / p + (a mod p + b mod p) / p).
  { rewrite (Z.div_mod a p) at 1 by lia. rewrite (Z.div_mod b p) at 1 by lia.
    replace (p * (a / p) + a mod p + (p * (b / p) + b mod p)) with ((a mod p + b mod p) + (a / p + b / p) * p) by ring.
    rewrite Z.div_add by lia. lia. }
  rewrite E. rewrite (Z.add_mod (a / p + b / p)), (Z.add_mod (a / p)) by lia.
  rewrite Zplus_mod_idemp_l, Zplus_mod_idemp_r. reflexivity.
Qed.

Lemma carry_S a b i : carry a b (S i) = (bit a i + bit b i + carry a b i) / 2.
Proof.
  unfold bit, carry. rewrite Nat2Z.inj_succ, Z.pow_succ_r by lia. pose proof (pow2_pos i) as H. set (p := 2 ^ Z.of_nat i) in *.
  rewrite (Z.mul_comm 2). rewrite <- Z.div_div by lia. f_equal.
  rewrite !Z.rem_mul_r by lia.
  replace (a mod p + p * ((a / p) mod 2) + (b mod p + p * ((b / p) mod 2))) with
    ((a mod p + b mod p) + ((a / p) mod 2 + (b / p) mod 2) * p) by ring.
  rewrite Z.div_add by lia. lia.
Qed.

Lemma mod_eqmod v n : 0 < n -> v mod n == v [mod n].
Proof. intros H. exists (- (v / n)). rewrite (Z.mod_eq v n) by lia. ring. Qed.

Lemma carry_step a b i : bit a i * bit b i + carry a b i * (bit a i + bit b i) == carry a b (S i) [mod 2].
Proof.
  rewrite carry_S. destruct (bit_01 a i) as [->| ->], (bit_01 b i) as [->| ->], (carry_01 a b i) as [->| ->];
    [exists 0|exists 0|exists 0|exists 0|exists 0|exists 0|exists 0|exists 1]; reflexivity.
Qed.

Section Add.
  Variable s : rsess.
  Hypothesis Hn : rs_n s = 3%nat.
  Variable sh : list nat.
  Hypothesis Hsh : sh <> [].
  Let Hs := supported_2.
  Let hv2 := hv 2 s sh.

  (** the sharings of the bits of the numbers [f e] *)
  Definition bits_of (n : nat) (l : list rmpc) (f : nat -> Z) : Prop :=
    length l = n /\ forall i d, (i < n)%nat -> hv2 (nth i l d) (fun e => bit (f e) i).

  Lemma bits_get n l f i : bits_of n l f -> (i < n)%nat -> exists x, get_nth l i = Ok x /\ hv2 x (fun e => bit (f e) i).
  Proof.
    intros (HL & H) Hi. exists (nth i l (mkRM 0 [] [])). split; [|apply H, Hi].
    unfold get_nth. rewrite (nth_error_nth' _ (mkRM 0 [] [])) by lia. reflexivity.
  Qed.

  Lemma adder_loop_ok n a b f g u : bits_of n a f -> bits_of n b g -> good 2 s sh u ->
    forall k i c, (i + k)%nat = n -> (match c with None => i = 0%nat | Some c => hv2 c (fun e => carry (f e) (g e) i) end) ->
    exists l, adder_loop s a b (seq i k) c u = Ok l /\ length l = k /\
      forall j d, (j < k)%nat -> hv2 (nth j l d) (fun e => bit (f e + g e) (i + j)).
  Proof.
    intros HA HB HU. induction k as [|k IH]; intros i c Hik HC.
    { exists []. split; [reflexivity|]. split; [reflexivity|]. intros j d Hj. lia. }
    cbn [seq adder_loop].
    destruct (bits_get _ _ _ i HA ltac:(lia)) as (x & -> & HX). destruct (bits_get _ _ _ i HB ltac:(lia)) as (y & -> & HY). cbn [rbind].
    destruct (hv_lin 2 Hs s sh LAdd _ _ _ _ HX HY) as (xy & -> & HXY). cbn [rbind].
    assert (ES : exists sm, match c with None => rm_lin_public s LAdd xy (PNum (NInt 0)) | Some c => rm_lin LAdd xy c end = Ok sm /\
      hv2 sm (fun e => bit (f e + g e) i)).
    { destruct c as [c|].
      - destruct (hv_lin 2 Hs s sh LAdd _ _ _ _ HXY HC) as (sm & -> & HSM). exists sm. split; [reflexivity|].
        refine (hv_ext 2 Hs s Hn sh sm _ _ _ HSM). intros e _. cbn beta iota. rewrite bit_sum, mod_eqmod by lia. reflexivity.
      - destruct (hv_lin_public 2 Hs s Hn sh LAdd xy (PNum (NInt 0)) _ _ HXY (pub_int_num 2 Hs s Hn sh Hsh 0 (fun _ => or_introl eq_refl))) as (sm & -> & HSM).
        exists sm. split; [reflexivity|]. refine (hv_ext 2 Hs s Hn sh sm _ _ _ HSM). intros e _. cbn beta iota. subst i.
        rewrite bit_sum, carry_0, mod_eqmod by lia. reflexivity. }
    destruct ES as (sm & -> & HSM). cbn [rbind].
    destruct (hv_mul 2 Hs s Hn sh x y _ _ (subsup (subsup u i) 0 []) HX HY (HU _)) as (m1 & -> & HM1). cbn [rbind].
    assert (EM : exists m2, match c with
               | None => rm_bil_public s BMul xy (PNum (NInt 0)) (su_rand (subsup (subsup u i) 1 []))
               | Some c => rm_bil s BMul c xy (subsup (subsup u i) 1 [])
               end = Ok m2 /\ hv2 m2 (fun e => carry (f e) (g e) i * (bit (f e) i + bit (g e) i))).
    { destruct c as [c|].
      - destruct (hv_mul 2 Hs s Hn sh c xy _ _ (subsup (subsup u i) 1 []) HC HXY (HU _)) as (m2 & -> & HM2). exists m2. split; [reflexivity|exact HM2].
      - destruct (hv_mul_public 2 Hs s Hn sh xy (PNum (NInt 0)) _ _ (su_rand (subsup (subsup u i) 1 [])) HXY
          (pub_int_num 2 Hs s Hn sh Hsh 0 (fun _ => or_introl eq_refl)) (good_rand 2 s sh u _ HU)) as (m2 & -> & HM2).
        exists m2. split; [reflexivity|]. refine (hv_ext 2 Hs s Hn sh m2 _ _ _ HM2). intros e _. cbn beta iota. subst i.
        rewrite carry_0. apply eqmod_eq. ring. }
    destruct EM as (m2 & -> & HM2). cbn [rbind].
    destruct (hv_lin 2 Hs s sh LAdd _ _ _ _ HM1 HM2) as (c' & -> & HC'). cbn [rbind].
    destruct (IH (S i) (Some c') ltac:(lia)) as (l & -> & HL & H).
    { refine (hv_ext 2 Hs s Hn sh c' _ _ _ HC'). intros e _. cbn beta iota. apply carry_step. }
    cbn [rbind]. exists (sm :: l). split; [reflexivity|]. split; [cbn; lia|].
    intros j d Hj. destruct j as [|j]; cbn [nth].
    - rewrite Nat.add_0_r. exact HSM.
    - replace (i + S j)%nat with (S i + j)%nat by lia. apply H. lia.
  Qed.

  Lemma full_adder_ok a b f g u : bits_of (get_nr_bits (rs_ring s)) a f -> bits_of (get_nr_bits (rs_ring s)) b g -> good 2 s sh u ->
    exists l, full_adder s a b u = Ok l /\ bits_of (get_nr_bits (rs_ring s)) l (fun e => f e + g e).
  Proof.
    intros HA HB HU. unfold full_adder.
    destruct (adder_loop_ok _ _ _ _ _ u HA HB HU (get_nr_bits (rs_ring s)) 0%nat None ltac:(lia) eq_refl) as (l & E & HL & H).
    exists l. split; [exact E|]. split; [exact HL|]. intros i d Hi. apply (H i d Hi).
  Qed.
End Add.

Lemma cast_bool_bit v i : cast TBool (Z.land v (2 ^ Z.of_nat i)) = bit v i.
Proof.
  unfold bit. rewrite <- Z.testbit_spec' by lia.
  assert (E : Z.land v (2 ^ Z.of_nat i) = Z.b2z (Z.testbit v (Z.of_nat i)) * 2 ^ Z.of_nat i).
  { apply Z.bits_inj'. intros k Hk. rewrite Z.land_spec, Z.pow2_bits_eqb by lia. rewrite Z.mul_pow2_bits by lia.
    destruct (Z.eqb_spec (Z.of_nat i) k) as [<-|N].
    - rewrite Z.sub_diag, Z.b2z_bit0, andb_true_r. reflexivity.
    - rewrite andb_false_r. symmetry. destruct (Z.lt_ge_cases k (Z.of_nat i)).
      + apply Z.testbit_neg_r. lia.
      + replace (k - Z.of_nat i) with (Z.succ (k - Z.of_nat i - 1)) by lia.
        destruct (Z.testbit v (Z.of_nat i)); cbn [Z.b2z]; [|apply Z.bits_0].
        rewrite (Z.testbit_odd_succ 0) by lia. apply Z.bits_0. }
  rewrite E. unfold cast. pose proof (pow2_pos i). destruct (Z.testbit v (Z.of_nat i)); cbn [Z.b2z].
  - destruct (Z.eqb_spec (1 * 2 ^ Z.of_nat i) 0); [lia|reflexivity].
  - reflexivity.
Qed.

Lemma bit_eqmod a b n i : a == b [mod 2 ^ Z.of_nat n] -> (i < n)%nat -> bit a i = bit b i.
Proof.
  intros (k & E) Hi. unfold bit. pose proof (pow2_pos i) as H.
  assert (EP : 2 ^ Z.of_nat n = 2 ^ Z.of_nat (n - S i) * 2 * 2 ^ Z.of_nat i).
  { rewrite <- (Z.pow_1_r 2) at 3. rewrite <- !Z.pow_add_r by lia. f_equal. lia. }
  assert (EA : a = b + k * 2 ^ Z.of_nat (n - S i) * 2 * 2 ^ Z.of_nat i) by (rewrite EP in E; lia).
  rewrite EA, Z.div_add by lia. rewrite Z.mod_add by lia. reflexivity.
Qed.

Lemma pow2_ring ring : supported ring -> ring <> 67 -> ring = 2 ^ Z.of_nat (get_nr_bits ring).
Proof. intros Hs N. destruct (supported_cases _ Hs) as [->|[->|[->|[->|[->| ->]]]]]; try congruence; reflexivity. Qed.

Section BitDec.
  Variable s : rsess.
  Hypothesis Hn : rs_n s = 3%nat.
  Hypothesis Hs : supported (rs_ring s).
  Hypothesis H67 : rs_ring s <> 67.
  Variable sh : list nat.
  Hypothesis Hsh : sh <> [].
  Let nb := get_nr_bits (rs_ring s).

  Lemma bitT_in i t r : tensor_in r sh t -> tensor_in 2 sh (castT TBool (bitT i t)).
  Proof.
    intros (H1 & H2 & _). split; [exact H1|]. split; [cbn; rewrite !map_length; exact H2|].
    apply Forall_forall. intros v Hv. unfold castT, bitT in Hv. cbn [tdat] in Hv. rewrite map_map in Hv. apply in_map_iff in Hv. destruct Hv as (w & <- & _).
    apply in_ring2. rewrite cast_bool_bit. rewrite cast_bit by apply bit_01. apply bit_01.
  Qed.
  Lemma bitT_nth i t r e : tensor_in r sh t -> (e < numel sh)%nat -> nth e (tdat (castT TBool (bitT i t))) 0 = bit (nth e (tdat t) 0) i.
  Proof.
    intros (_ & H2 & _) He. unfold castT, bitT. cbn [tdat]. rewrite map_map. rewrite (nth_map_in _ 0 0) by lia.
    rewrite cast_bool_bit. apply cast_bit, bit_01.
  Qed.

  Lemma bit_decomposition_ok x c v u : holds s (rs_ring s) c sh v x -> good 2 s sh u ->
    exists l, bit_decomposition s x u = Ok l /\ bits_of s sh nb l (fun e => nth e v 0).
  Proof.
    intros HX HU. destruct (holds_views _ _ _ _ _ _ HX) as (ss & cf & HS & HL & -> & Hcf & _).
    destruct (three ss ltac:(lia)) as (t1 & t2 & t3 & ->).
    pose proof HS as (_ & HF & _). inversion HF as [|? ? T1 HF1]; inversion HF1 as [|? ? T2 HF2]; inversion HF2 as [|? ? T3 _]; subst.
    unfold bit_decomposition.
    destruct (decompose_bits s Hn (rs_ring s) 2 TBool cf t1 t2 t3 sh eq_refl (proj1 T1) (proj1 T2) (proj1 T3) ltac:(lia))
      as (ds & -> & (d0 & dr & -> & HD0) & HD). cbn [rbind]. rewrite HD0. fold nb in HD |- *.
    set (o := fun j i => mkRM (rs_id s) sh (rviews s 2 (fun k => rst_cfg (rs_ring s) (cf k))
        (onehot [t1; t2; t3] (zeroT sh) (fun t => castT TBool (bitT i t)) j))).
    assert (EO : forall j, (j < 3)%nat -> rmap (fun i => decomposed s {| rm_sid := rs_id s; rm_shape := sh; rm_ps := rviews s (rs_ring s) cf [t1; t2; t3] |}
        (d0 :: dr) i j) (seq 0 nb) = Ok (map (o j) (seq 0 nb))).
    { intros j Hj. apply rmap_all. intros i Hi. apply in_seq in Hi. apply HD; lia. }
    rewrite (EO 0%nat), (EO 1%nat), (EO 2%nat) by lia. cbn [rbind].
    assert (HO : forall j, (j < 3)%nat -> bits_of s sh nb (map (o j) (seq 0 nb)) (fun e => nth e (tdat (nth j [t1; t2; t3] dT)) 0)).
    { intros j Hj. split; [rewrite map_length, seq_length; reflexivity|]. intros i d Hi.
      rewrite (nth_map_in _ 0%nat) by (rewrite seq_length; auto). rewrite nth_seq_lt by auto. cbn [plus].
      assert (TJ : tensor_in (rs_ring s) sh (nth j [t1; t2; t3] dT)) by (destruct j as [|[|[|j]]]; auto; lia).
      apply onehot_holds; auto using supported_2.
      - apply (bitT_in i _ _ TJ).
      - intros e He. apply (bitT_nth i _ _ e TJ He). }
    destruct (full_adder_ok s Hn sh Hsh _ _ _ _ (subsup u 0) (HO 0%nat ltac:(lia)) (HO 1%nat ltac:(lia)) (good_sub 2 s sh u 0 HU)) as (x12 & -> & H12).
    cbn [rbind].
    destruct (full_adder_ok s Hn sh Hsh _ _ _ _ (subsup u 1) H12 (HO 2%nat ltac:(lia)) (good_sub 2 s sh u 1 HU)) as (l & -> & HLB).
    exists l. split; [reflexivity|]. destruct HLB as (LL & HB). split; [exact LL|]. intros i d Hi.
    refine (hv_ext 2 supported_2 s Hn sh _ _ _ _ (HB i d Hi)). intros e He. cbn [nth]. apply eqmod_eq.
    apply (bit_eqmod _ _ nb); auto. unfold nb. rewrite <- pow2_ring by auto.
    pose proof (shared_vals (rs_ring s) Hs _ _ _ HS) as (VL & VI & VN). rewrite (VN e). cbn [map zsum]. apply eqmod_eq. lia.
  Qed.
End BitDec.
