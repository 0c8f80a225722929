(** Programs on fixed-point numbers: lemmas for P_FixProg.v. *)
From Coq Require Import QArith Reals Qreals Lra.
From Verif Require Import Util Modular S_Ring S_Tensor S_Wraps S_Div S_Bil S_Spdz S_View S_Circuit S_Fixed S_Real S_FixProg
  M_Torch M_Encoder M_Float M_Tensor M_Share M_Spdz M_Circuit
  L_Torch L_Tensor L_Encoder L_Float L_Share L_Spdz L_Div L_Bil L_Mul L_View L_Circuit.
Local Open Scope Z_scope.
Local Open Scope list_scope.

(* ------------------------------------------------------ products and methods in the ring *)
Lemma zsum_flat_map {A} (f : A -> list Z) l : zsum (flat_map f l) = zsum (map (fun a => zsum (f a)) l).
Proof. induction l as [|a l IH]; cbn; auto. rewrite zsum_app, IH. reflexivity. Qed.

Lemma map_flat_map {A B C} (f : B -> C) (g : A -> list B) l : map f (flat_map g l) = flat_map (fun a => map f (g a)) l.
Proof. induction l as [|a l IH]; cbn; auto. rewrite map_app, IH. reflexivity. Qed.

Lemma sumn_flat n (f : nat -> list Z) : zsum (flat_map f (seq 0 n)) = sumn n (fun i => zsum (f i)).
Proof. unfold sumn. apply zsum_flat_map. Qed.

Lemma sumn_ext n f g : (forall i, f i = g i) -> sumn n f = sumn n g.
Proof. intros H. unfold sumn. f_equal. apply map_ext. auto. Qed.

Lemma map2_map_same {A} (F : Z -> Z -> Z) (f g : A -> Z) l : map2 F (map f l) (map g l) = map (fun a => F (f a) (g a)) l.
Proof. induction l as [|a l IH]; cbn; auto. rewrite IH. reflexivity. Qed.

Lemma all_nth (v : list Z) : v = map (fun i => nth i v 0) (seq 0 (length v)).
Proof.
  apply (nth_ext _ _ 0 0); [rewrite map_length, seq_length; reflexivity|]. intros i Hi.
  rewrite (map_seq_nth (fun i => nth i v 0)) by auto. reflexivity.
Qed.

Lemma bpos_nil so e : bpos [] so e = 0%nat.
Proof. reflexivity. Qed.

Lemma terms_product op sx sy so ps : terms op sx sy so ps ->
  exists f, product op sx sy so f /\ forall vx vy, f vx vy = ring_dot so ps vx vy.
Proof.
  intros H. destruct H.
  - eexists. split; [apply prod_mul_r; eassumption|]. intros vx vy. unfold mul_vr, s_mul, ring_dot, bexpand.
    rewrite map2_map_same. apply map_ext. intros e. cbn [map zsum fold_right fst snd]. unfold bget, bpos. rewrite Z.add_0_r. reflexivity.
  - eexists. split; [apply prod_mm_r; eassumption|]. intros vx vy. unfold mm_vr, ring_dot.
    rewrite numel_app. cbn [numel fold_right]. replace (numel bs * (m * (n * 1)))%nat with (numel bs * (m * n))%nat by lia.
    apply map_ext. intros e. cbv zeta. rewrite map_map. cbn [fst snd]. reflexivity.
  - eexists. split; [apply prod_vm_r|]. intros vx vy. unfold mm_vr, ring_dot.
    rewrite numel_app. cbn [numel fold_right]. replace (numel b2 * (n * 1))%nat with (numel b2 * (1 * n))%nat by lia.
    apply map_ext. intros e. cbv zeta. rewrite map_map. cbn [fst snd]. unfold sumn. f_equal. f_equal. apply map_ext. intros t.
    rewrite bpos_nil, Nat.mod_1_r, Nat.mul_1_l. cbn [Nat.mul Nat.add]. reflexivity.
  - eexists. split; [apply prod_mv_r|]. intros vx vy. unfold mm_vr, ring_dot.
    rewrite numel_app. cbn [numel fold_right].
    apply map_ext. intros e. cbv zeta. rewrite map_map. cbn [fst snd]. unfold sumn. f_equal. f_equal. apply map_ext. intros t.
    rewrite bpos_nil, Nat.mod_1_r, Nat.div_1_r, Nat.mul_1_r. cbn [Nat.mul Nat.add]. rewrite !Nat.mul_1_r, Nat.add_0_r. reflexivity.
  - eexists. split; [apply prod_vv_r|]. intros vx vy. unfold mm_vr, ring_dot. cbn [numel fold_right].
    apply map_ext. intros e. cbv zeta. rewrite map_map. cbn [fst snd]. unfold sumn. f_equal. f_equal. apply map_ext. intros t.
    rewrite !bpos_nil, !Nat.mod_1_r. cbn [Nat.mul Nat.add]. rewrite !Nat.mul_1_r, Nat.add_0_r. reflexivity.
  - eexists. split; [apply prod_conv_r; eassumption|]. intros vx vy. unfold conv_vr, ring_dot, tabulate.
    apply map_ext. intros e.
    destruct (unravel [nb; (g * og)%nat; oh; ow] e) as [|n' [|f' [|y' [|x' [|? ?]]]]] eqn:E; try reflexivity.
    f_equal. rewrite map_flat_map, sumn_flat. apply sumn_ext. intros ch.
    rewrite map_flat_map, sumn_flat. apply sumn_ext. intros i. rewrite map_flat_map, sumn_flat. apply sumn_ext. intros j.
    cbv zeta. unfold at4.
    set (r := (y' * s + i * d)%nat). set (q := (x' * s + j * d)%nat).
    assert (Hb : ((0 <=? Z.of_nat r - Z.of_nat p) && (Z.of_nat r - Z.of_nat p <? Z.of_nat h) &&
                  (0 <=? Z.of_nat q - Z.of_nat p) && (Z.of_nat q - Z.of_nat p <? Z.of_nat w))%bool =
                 (Nat.leb p r && Nat.ltb r (p + h) && Nat.leb p q && Nat.ltb q (p + w))%bool).
    { f_equal; [f_equal; [f_equal|]|]; apply Bool.eq_true_iff_eq;
        rewrite ?Z.leb_le, ?Z.ltb_lt, ?Nat.leb_le, ?Nat.ltb_lt; lia. }
    rewrite Hb. destruct (Nat.leb p r && Nat.ltb r (p + h) && Nat.leb p q && Nat.ltb q (p + w))%bool eqn:EB.
    + cbn [map zsum fold_right fst snd]. rewrite Z.add_0_r.
      replace (Z.to_nat (Z.of_nat r - Z.of_nat p)) with (r - p)%nat by lia.
      replace (Z.to_nat (Z.of_nat q - Z.of_nat p)) with (q - p)%nat by lia. reflexivity.
    + reflexivity.
  - eexists. split; [apply prod_convT_r; eassumption|]. intros vx vy. unfold convT_vr, ring_dot, tabulate.
    apply map_ext. intros e.
    destruct (unravel [nb; (g * og)%nat; oh; ow] e) as [|n' [|f' [|y' [|x' [|? ?]]]]] eqn:E; try reflexivity.
    f_equal. rewrite map_flat_map, sumn_flat. apply sumn_ext. intros ch.
    do 4 (rewrite map_flat_map, sumn_flat; apply sumn_ext; intros ?).
    unfold at4. destruct (Nat.eqb _ _ && Nat.eqb _ _)%bool; cbn [map zsum fold_right fst snd]; rewrite ?Z.add_0_r; reflexivity.
Qed.

Lemma nth_concat_repeat (v : list Z) k e : (length v <> 0)%nat -> (e < k * length v)%nat -> nth e (concat (repeat v k)) 0 = nth (e mod length v) v 0.
Proof.
  intros HV. revert e. induction k as [|k IH]; intros e He; cbn [repeat concat]; [lia|].
  destruct (Nat.lt_ge_cases e (length v)) as [H|H].
  - rewrite app_nth1 by auto. rewrite Nat.mod_small by auto. reflexivity.
  - rewrite app_nth2 by auto. rewrite IH by lia. f_equal.
    replace e with ((e - length v) + 1 * length v)%nat at 2 by lia. rewrite Nat.mod_add by auto. reflexivity.
Qed.

Lemma picks_viewed m s so ps : picks m s so ps ->
  exists f, viewed m s so f /\ forall v, length v = numel s -> vec_in (2^64) v ->
    forall e, (e < numel so)%nat -> nth e (f v) 0 = to_ring (2^64) (zsum (map (fun i => nth i v 0) (ps e))).
Proof.
  assert (ONE : forall v i, vec_in (2^64) v -> nth i v 0 = to_ring (2^64) (zsum [nth i v 0])).
  { intros v i H. cbn [zsum fold_right]. rewrite Z.add_0_r. symmetry. apply (nth_in_ring R64 supR). exact H. }
  intros H. destruct H.
  - eexists. split; [apply vw_t|]. intros v HL HV e He. unfold tabulate. rewrite map_seq_nth by exact He.
    cbn [unravel]. cbn [map]. apply ONE. auto.
  - eexists. split; [apply vw_transpose; eassumption|]. intros v HL HV e He. unfold tabulate. rewrite map_seq_nth by exact He.
    cbn [map]. apply ONE; auto.
  - eexists. split; [apply vw_reshape; eassumption|]. intros v HL HV e He. cbn [map]. apply ONE; auto.
  - eexists. split; [apply vw_repeat|]. intros v HL HV e He. cbn [map]. cbn [numel fold_right] in *. change (fold_right Nat.mul 1%nat r) with (numel r) in *.
    rewrite nth_concat_repeat; [|nia|nia]. rewrite HL. apply ONE; auto.
  - eexists. split; [apply vw_narrow; eassumption|]. intros v HL HV e He. cbn [map]. cbn [numel fold_right] in *. change (fold_right Nat.mul 1%nat r) with (numel r) in *.
    rewrite nth_firstn' by auto. rewrite nth_skipn'. apply ONE; auto.
  - eexists. split; [apply vw_roll; eassumption|]. intros v HL HV e He. cbn [map]. cbn [numel fold_right] in *. change (fold_right Nat.mul 1%nat r) with (numel r) in *.
    assert (LS : length (skipn ((n - k) * numel r) v) = (k * numel r)%nat) by (rewrite skipn_length; nia).
    destruct (Nat.ltb_spec e (k * numel r)) as [H1|H1].
    + rewrite app_nth1 by lia. rewrite nth_skipn'. apply ONE; auto.
    + rewrite app_nth2 by lia. rewrite LS, nth_firstn' by nia. apply ONE; auto.
  - eexists. split; [apply vw_sum|]. intros v HL HV e He. cbn in He. replace e with 0%nat by lia. cbn [nth]. f_equal. f_equal.
    rewrite <- HL. apply all_nth.
  - eexists. split; [apply vw_sumdim; eassumption|]. intros v HL HV e He. unfold tabulate. rewrite map_seq_nth by exact He.
    rewrite map_map. reflexivity.
  - eexists. split; [apply vw_sumfirst; eassumption|]. intros v HL HV e He. unfold tabulate. rewrite map_seq_nth by exact He.
    rewrite map_map. reflexivity.
  - eexists. split; [apply vw_sumkeep; eassumption|]. intros v HL HV e He. unfold tabulate. rewrite map_seq_nth by exact He.
    cbv zeta. rewrite map_map. reflexivity.
  - eexists. split; [apply vw_clone|]. intros v HL HV e He. cbn [map]. apply ONE; auto.
Qed.

(* ------------------------------------------------------ real numbers *)
Section Fix.
  Variable s : sess.
  Hypothesis Hb : 0 < c_base (s_cfg s).
  Hypothesis Hn : (2 <= s_n s)%nat.
  Notation c := (s_cfg s).
  Notation n := (s_n s).
  Notation S_ := (IZR (scale c)).
  Local Open Scope R_scope.

  Lemma SZ_pos : (0 < scale c)%Z.
  Proof. unfold scale. apply Z.pow_pos_nonneg; lia. Qed.
  Lemma Sr_pos : 0 < S_.
  Proof. apply IZR_lt, SZ_pos. Qed.
  Lemma ulp_pos : 0 < ulp c.
  Proof. unfold ulp. apply Rinv_0_lt_compat, Sr_pos. Qed.

  Definition near (sh : list nat) (v : list Z) (r b : list R) : Prop :=
    length v = numel sh /\ length r = numel sh /\ length b = numel sh /\
    forall e, Rabs (fixed c (nth e v 0%Z) - rat r e) <= rat b e.

  Lemma build_length so f : length (build so f) = numel so.
  Proof. unfold build. rewrite map_length, seq_length. reflexivity. Qed.
  Lemma build_nth so f e : (e < numel so)%nat -> rat (build so f) e = f e.
  Proof.
    intros H. unfold rat, build. rewrite (nth_indep _ 0 (f 0%nat)) by (rewrite map_length, seq_length; auto).
    rewrite (map_nth f). rewrite seq_nth by auto. reflexivity.
  Qed.
  Lemma build_over so f e : (numel so <= e)%nat -> rat (build so f) e = 0.
  Proof. intros H. unfold rat. apply nth_overflow. rewrite build_length. auto. Qed.

  Lemma fixed_0 : fixed c 0 = 0.
  Proof. unfold fixed. pose proof Sr_pos. field. lra. Qed.

  (** enough to look at the positions inside *)
  Lemma near_intro sh v f g : length v = numel sh ->
    (forall e, (e < numel sh)%nat -> Rabs (fixed c (nth e v 0%Z) - f e) <= g e) -> near sh v (build sh f) (build sh g).
  Proof.
    intros HL H. split; [auto|]. rewrite !build_length. do 2 (split; [auto|]). intros e.
    destruct (Nat.lt_ge_cases e (numel sh)) as [He|He].
    - rewrite !build_nth by auto. auto.
    - rewrite !build_over by auto. rewrite nth_overflow by lia. rewrite fixed_0, Rminus_0_r, Rabs_R0. lra.
  Qed.

  Lemma near_mag sh v r b e : near sh v r b -> Rabs (fixed c (nth e v 0%Z)) <= mag r b e.
  Proof.
    intros (_ & _ & _ & H). unfold mag. specialize (H e).
    replace (fixed c (nth e v 0%Z)) with (rat r e + (fixed c (nth e v 0%Z) - rat r e)) by lra.
    eapply Rle_trans; [apply Rabs_triang|]. lra.
  Qed.
  Lemma near_b sh v r b e : near sh v r b -> 0 <= rat b e.
  Proof. intros (_ & _ & _ & H). eapply Rle_trans; [apply Rabs_pos|apply (H e)]. Qed.

  Lemma fixed_S z : IZR z = fixed c z * S_.
  Proof. unfold fixed. pose proof Sr_pos. field. lra. Qed.

  Lemma small z : Rabs (IZR z) < IZR (2^63) -> (- 2^63 <= z < 2^63)%Z.
  Proof.
    intros H. rewrite <- abs_IZR in H. apply lt_IZR in H. lia.
  Qed.

  Lemma fits z M : Rabs (fixed c z) <= M -> room c M -> (- 2^63 <= z < 2^63)%Z.
  Proof.
    intros H1 H2. apply small. unfold room in H2. pose proof Sr_pos.
    rewrite fixed_S, Rabs_mult, (Rabs_right S_) by lra.
    eapply Rle_lt_trans; [|exact H2]. apply Rmult_le_compat_r; lra.
  Qed.

  (* sums *)
  Lemma gather_real sh v r b l : near sh v r b ->
    Rabs (fixed c (zsum (map (fun i => nth i v 0%Z) l)) - real_sum (map (rat r) l)) <= real_sum (map (rat b) l) /\
    Rabs (fixed c (zsum (map (fun i => nth i v 0%Z) l))) <= real_sum (map (mag r b) l).
  Proof.
    intros H. induction l as [|i l [IH1 IH2]]; cbn [map zsum fold_right real_sum].
    - rewrite fixed_0, Rminus_0_r, Rabs_R0. lra.
    - change (fold_right Z.add 0%Z (map (fun i => nth i v 0%Z) l)) with (zsum (map (fun i => nth i v 0%Z) l)).
      change (fold_right Rplus 0 ?x) with (real_sum x).
      set (Z1 := zsum _) in *. pose proof (near_mag sh v r b i H) as HM. destruct H as (_ & _ & _ & H). specialize (H i).
      assert (E : fixed c (nth i v 0%Z + Z1) = fixed c (nth i v 0%Z) + fixed c Z1).
      { unfold fixed. rewrite plus_IZR. unfold Rdiv. ring. }
      rewrite E. split.
      + replace (fixed c (nth i v 0%Z) + fixed c Z1 - (rat r i + real_sum (map (rat r) l)))
          with ((fixed c (nth i v 0%Z) - rat r i) + (fixed c Z1 - real_sum (map (rat r) l))) by ring.
        eapply Rle_trans; [apply Rabs_triang|]. lra.
      + eapply Rle_trans; [apply Rabs_triang|]. lra.
  Qed.

  (* one product *)
  Lemma prod_real x y rx ry bx by_ : Rabs (x - rx) <= bx -> Rabs (y - ry) <= by_ ->
    Rabs (x * y - rx * ry) <= Rabs rx * by_ + bx * Rabs ry + bx * by_.
  Proof.
    intros H1 H2.
    replace (x * y - rx * ry) with (rx * (y - ry) + (x - rx) * ry + (x - rx) * (y - ry)) by ring.
    pose proof (Rabs_pos (x - rx)). pose proof (Rabs_pos (y - ry)). pose proof (Rabs_pos rx). pose proof (Rabs_pos ry).
    eapply Rle_trans; [apply Rabs_triang|]. apply Rplus_le_compat.
    - eapply Rle_trans; [apply Rabs_triang|]. rewrite !Rabs_mult. apply Rplus_le_compat.
      + apply Rmult_le_compat_l; auto.
      + apply Rmult_le_compat_r; auto.
    - rewrite Rabs_mult. apply Rmult_le_compat; auto.
  Qed.

  Definition fixed2 (z : Z) : R := IZR z / (S_ * S_).

  Lemma dot_real sx sy vx rx bx vy ry by_ l : near sx vx rx bx -> near sy vy ry by_ ->
    let P := zsum (map (fun p => (nth (fst p) vx 0 * nth (snd p) vy 0)%Z) l) in
    Rabs (fixed2 P - real_sum (map (fun p => rat rx (fst p) * rat ry (snd p)) l)) <=
      real_sum (map (fun p => Rabs (rat rx (fst p)) * rat by_ (snd p) + rat bx (fst p) * Rabs (rat ry (snd p)) + rat bx (fst p) * rat by_ (snd p)) l) /\
    Rabs (fixed2 P) <= real_sum (map (fun p => mag rx bx (fst p) * mag ry by_ (snd p)) l).
  Proof.
    intros H1 H2. pose proof Sr_pos as HS. cbv zeta. induction l as [|[i j] l [IH1 IH2]]; cbn [map zsum fold_right real_sum fst snd].
    - unfold fixed2, Rdiv. rewrite Rmult_0_l, Rminus_0_r, Rabs_R0. lra.
    - change (fold_right Z.add 0%Z ?x) with (zsum x). change (fold_right Rplus 0 ?x) with (real_sum x).
      set (Z1 := zsum _) in *.
      pose proof (near_mag _ _ _ _ i H1) as M1. pose proof (near_mag _ _ _ _ j H2) as M2.
      destruct H1 as (_ & _ & _ & H1), H2 as (_ & _ & _ & H2). specialize (H1 i). specialize (H2 j).
      assert (E : fixed2 (nth i vx 0 * nth j vy 0 + Z1)%Z = fixed c (nth i vx 0%Z) * fixed c (nth j vy 0%Z) + fixed2 Z1).
      { unfold fixed2, fixed. rewrite plus_IZR, mult_IZR. field. lra. }
      rewrite E. split.
      + match goal with |- Rabs (?a * ?b + ?x - (?p * ?q + ?y)) <= _ => replace (a * b + x - (p * q + y)) with ((a * b - p * q) + (x - y)) by ring end.
        eapply Rle_trans; [apply Rabs_triang|]. apply Rplus_le_compat; [|exact IH1]. apply prod_real; auto.
      + eapply Rle_trans; [apply Rabs_triang|]. apply Rplus_le_compat; [|exact IH2]. rewrite Rabs_mult.
        apply Rmult_le_compat; auto using Rabs_pos.
  Qed.

  Lemma fits2 z M : Rabs (fixed2 z) <= M -> room c (M * S_) -> (- 2^63 <= z < 2^63)%Z.
  Proof.
    intros H1 H2. apply small. unfold room in H2. pose proof Sr_pos as HS.
    replace (IZR z) with (fixed2 z * (S_ * S_)) by (unfold fixed2; field; lra).
    assert (0 < S_ * S_) by (apply Rmult_lt_0_compat; lra).
    rewrite Rabs_mult, (Rabs_right (S_ * S_)) by lra.
    eapply Rle_lt_trans; [|exact H2]. rewrite Rmult_assoc. apply Rmult_le_compat_r; lra.
  Qed.

  (** the division after a product *)
  Lemma rescale_real P z : quot_within (scale c) P z (slack n (scale c)) -> Rabs (fixed c z - fixed2 P) <= rounding c n.
  Proof.
    unfold quot_within, rounding. intros H. apply IZR_le in H. rewrite abs_IZR, minus_IZR, mult_IZR in H.
    pose proof Sr_pos as HS. pose proof ulp_pos as HU.
    replace (fixed c z - fixed2 P) with ((S_ * IZR z - IZR P) * (ulp c * ulp c)) by (unfold fixed, fixed2, ulp; field; lra).
    rewrite Rabs_mult, (Rabs_right (ulp c * ulp c)) by (apply Rle_ge, Rmult_le_pos; lra).
    rewrite Rmult_assoc. apply Rmult_le_compat_r; [apply Rmult_le_pos; lra|exact H].
  Qed.

  Lemma divide_real k v z : (0 < k)%Z -> quot_within k v z (slack n k) -> forall r b, Rabs (fixed c v - r) <= b ->
    Rabs (fixed c z - r / IZR k) <= (b + IZR (slack n k) * ulp c) / IZR k.
  Proof.
    unfold quot_within. intros Hk H r b Hr. apply IZR_le in H. rewrite abs_IZR, minus_IZR, mult_IZR in H.
    apply IZR_lt in Hk. pose proof Sr_pos as HS. pose proof ulp_pos as HU.
    replace (fixed c z - r / IZR k) with (((IZR k * IZR z - IZR v) * ulp c + (fixed c v - r)) * / IZR k) by (unfold fixed, ulp; field; lra).
    rewrite Rabs_mult. pose proof (Rinv_0_lt_compat _ Hk). rewrite (Rabs_right (/ IZR k)) by lra. unfold Rdiv.
    apply Rmult_le_compat_r; [lra|]. eapply Rle_trans; [apply Rabs_triang|]. rewrite Rplus_comm. apply Rplus_le_compat; [exact Hr|].
    rewrite Rabs_mult, (Rabs_right (ulp c)) by lra. apply Rmult_le_compat_r; lra.
  Qed.

  (** public operands *)
  Lemma Qtrunc_near q : Rabs (IZR (Qtrunc q) - Q2R q) <= 1.
  Proof.
    unfold Qtrunc, Q2R. set (a := Qnum q). set (d := Zpos (Qden q)). assert (0 < d)%Z by (unfold d; lia).
    pose proof (Z.quot_rem' a d) as E. pose proof (rem_abs a d H) as HR.
    assert (HD : 0 < IZR d) by (apply IZR_lt; auto).
    replace (IZR (Z.quot a d) - IZR a * / IZR d) with (- (IZR (Z.rem a d)) * / IZR d).
    2:{ assert (E' : IZR a = IZR d * IZR (Z.quot a d) + IZR (Z.rem a d)) by (rewrite <- mult_IZR, <- plus_IZR; f_equal; exact E).
        rewrite E'. field. lra. }
    rewrite Rabs_mult, Rabs_Ropp, <- abs_IZR, (Rabs_right (/ IZR d)) by (apply Rle_ge, Rlt_le, Rinv_0_lt_compat; lra).
    apply (Rmult_le_reg_r (IZR d)); [lra|]. rewrite Rmult_assoc, Rinv_l, Rmult_1_r, Rmult_1_l by lra.
    apply IZR_le. lia.
  Qed.

  Lemma pow63 : IZR (2 ^ 63) = 9223372036854775808.
  Proof. reflexivity. Qed.

  Lemma encode_near v : room c (Rabs (num_R v)) ->
    Rabs (fixed c (encode1 c v) - num_R v) <= match v with NInt _ => 0 | NFloat _ => ulp c end.
  Proof.
    pose proof Sr_pos as HS. pose proof ulp_pos as HU. unfold room. intros H. destruct v as [z|q]; cbn [num_R encode1] in *.
    - assert (R : (- 2^63 <= z * scale c < 2^63)%Z).
      { apply small. rewrite mult_IZR, Rabs_mult, (Rabs_right S_) by lra. exact H. }
      cbn [cast]. rewrite wrap_to_ring64, to_ring64_small by exact R. unfold fixed. rewrite mult_IZR.
      replace (IZR z * S_ / S_ - IZR z) with 0 by (field; lra). rewrite Rabs_R0. lra.
    - set (t := Qtrunc (q * inject_Z (scale c))).
      assert (EQ : Q2R (q * inject_Z (scale c)) = Q2R q * S_).
      { rewrite Q2R_mult. f_equal. unfold Q2R. cbn. field. }
      assert (T : (Z.abs t <= 2^63 - 1)%Z).
      { unfold t, Qtrunc. set (a := Qnum _). set (d := Zpos _). assert (HD : (0 < d)%Z) by (unfold d; lia).
        assert (A : (Z.abs a < 2^63 * d)%Z).
        { apply lt_IZR. rewrite abs_IZR, mult_IZR. assert (HD' : 0 < IZR d) by (apply IZR_lt; auto).
          assert (E : IZR a = Q2R (q * inject_Z (scale c)) * IZR d) by (unfold Q2R; fold a; unfold d; field; unfold d in HD'; lra).
          rewrite E, EQ, Rabs_mult, (Rabs_right (IZR d)) by lra. apply Rmult_lt_compat_r; [lra|].
          rewrite Rabs_mult, (Rabs_right S_) by lra. exact H. }
        rewrite <- Z.quot_abs by lia. rewrite (Z.abs_eq d) by lia. rewrite Z.quot_div_nonneg by lia.
        assert (Z.abs a / d < 2^63)%Z by (apply Z.div_lt_upper_bound; lia). lia. }
      assert (EF : flong (q * inject_Z (scale c)) = t).
      { unfold flong. fold t. destruct (Z.leb_spec (- 2^63) t); [|lia]. destruct (Z.ltb_spec t (2^63)); [reflexivity|lia]. }
      rewrite EF. pose proof (Qtrunc_near (q * inject_Z (scale c))) as HN. fold t in HN. rewrite EQ in HN.
      replace (fixed c t - Q2R q) with ((IZR t - Q2R q * S_) * ulp c) by (unfold fixed, ulp; field; lra).
      rewrite Rabs_mult, (Rabs_right (ulp c)) by lra. rewrite <- (Rmult_1_l (ulp c)) at 2. apply Rmult_le_compat_r; lra.
  Qed.

  Lemma pub_shape_of p : pub_shape p = shape_of p.
  Proof. destruct p; reflexivity. Qed.

  Lemma nth_map_num {B} (f : num -> B) d l e : (e < length l)%nat -> nth e (map f l) d = f (nth e l (NInt 0)).
  Proof. intros H. rewrite (nth_indep _ d (f (NInt 0))) by (rewrite map_length; auto). apply map_nth. Qed.

  Lemma pub_near p : pub_fits c p -> near (shape_of p) (encode c (pub_vals p)) (pub_real p) (pub_err c p).
  Proof.
    intros [HP HF]. assert (HL : length (pub_vals p) = numel (shape_of p)) by (destruct p; [reflexivity|exact HP]).
    unfold near, pub_real, pub_err, encode. rewrite !map_length. do 3 (split; [exact HL|]). intros e.
    unfold rat. destruct (Nat.lt_ge_cases e (length (pub_vals p))) as [He|He].
    - rewrite (nth_map_num (encode1 c)), (nth_map_num num_R), (nth_map_num (fun v => match v with NInt _ => 0 | NFloat _ => ulp c end)) by auto.
      apply encode_near. apply (proj1 (Forall_forall _ _) HF). apply nth_In. exact He.
    - rewrite !nth_overflow by (rewrite map_length; auto). rewrite fixed_0, Rminus_0_r, Rabs_R0. lra.
  Qed.
End Fix.
