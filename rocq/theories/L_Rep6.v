(** Lemmas for the replicated property theorems: triples, accuracy of the truncation,
    a decision procedure for sharings (used by the examples). *)
From Coq Require Import QArith Setoid Morphisms.
From Verif Require Import Util Modular S_Ring S_Tensor S_Bil S_Spdz S_Rep M_Torch L_Torch M_Encoder M_Tensor L_Tensor M_Share L_Share M_Spdz L_Spdz L_Bil
  L_RShare L_Mul M_Session L_Session M_Rep S_RepT L_Rep L_Rep2 L_Rep3 L_Rep4 L_Rep5.
Local Open Scope Z_scope.

(* ------------------------------------------------------------ deciding sharings *)
Definition tensor_inb (ring : Z) (sh : list nat) (t : tensor) : bool :=
  (if list_eq_dec Nat.eq_dec (tsh t) sh then true else false) && Nat.eqb (length (tdat t)) (numel sh) &&
  forallb (fun v => to_ring ring v =? v) (tdat t).
Lemma tensor_inb_ok ring sh t : tensor_inb ring sh t = true -> tensor_in ring sh t.
Proof.
  unfold tensor_inb, tensor_in. rewrite !andb_true_iff. intros ((H1 & H2) & H3).
  destruct (list_eq_dec Nat.eq_dec (tsh t) sh) as [E|]; [|discriminate]. apply Nat.eqb_eq in H2.
  split; [exact E|]. split; [exact H2|]. apply Forall_forall. intros v Hv. rewrite forallb_forall in H3.
  apply Z.eqb_eq, H3, Hv.
Qed.
Definition sharedb (ring : Z) (sh : list nat) (v : list Z) (ss : list tensor) : bool :=
  negb (Nat.eqb (length ss) 0) && forallb (tensor_inb ring sh) ss &&
  (if list_eq_dec Z.eq_dec v (s_sum ring (numel sh) (map tdat ss)) then true else false).
Lemma sharedb_ok ring sh v ss : sharedb ring sh v ss = true -> shared ring sh v ss.
Proof.
  unfold sharedb. rewrite !andb_true_iff. intros ((H1 & H2) & H3). split.
  - intros ->. discriminate.
  - split; [|destruct (list_eq_dec Z.eq_dec _ _) as [E|]; [exact E|discriminate]].
    apply Forall_forall. intros t Ht. rewrite forallb_forall in H2. apply tensor_inb_ok, H2, Ht.
Qed.

(** the parties' objects for given shares *)
Lemma example_holds s ring c sh v ss : sharedb ring sh v ss = true -> length ss = rs_n s -> unscaled ring c ->
  holds s ring c sh v (mkRM (rs_id s) sh (rviews s ring (fun _ => c) ss)).
Proof. intros H HL HU. apply views_holds; [apply sharedb_ok, H|exact HL|]. intros k _. apply unscaled_cfg, HU. Qed.

(* ------------------------------------------------------------ accuracy *)
Lemma floor_split a b m : 0 < m -> a / m + b / m = (a + b) / m \/ a / m + b / m = (a + b) / m - 1.
Proof.
  intros Hm. pose proof (Z.div_mod a m ltac:(lia)). pose proof (Z.div_mod b m ltac:(lia)). pose proof (Z.div_mod (a + b) m ltac:(lia)).
  pose proof (Z.mod_pos_bound a m Hm). pose proof (Z.mod_pos_bound b m Hm). pose proof (Z.mod_pos_bound (a + b) m Hm).
  set (qa := a / m) in *. set (qb := b / m) in *. set (q := (a + b) / m) in *.
  assert (E : m * (qa + qb - q) = (a + b) mod m - a mod m - b mod m) by nia.
  assert (- 2 < qa + qb - q < 1); [|lia].
  split; [apply (Z.mul_lt_mono_pos_l m); lia|apply (Z.mul_lt_mono_pos_l m); lia].
Qed.

Section Ring.
  Variable ring : Z.
  Hypothesis Hs : supported ring.
  Let Hp : 0 < ring := supported_pos ring Hs.

  (** the separately divided parts against the divided value *)
  Lemma trunc3_accurate c so v z1 z2 z3 : ring <> 2 -> ring <> 67 -> c_base c = 2 -> shared ring so v [z1; z2; z3] ->
    forall e, (e < numel so)%nat ->
      in_ring ring (nth e (tdat z1) 0 + to_ring ring (nth e (tdat z2) 0 + nth e (tdat z3) 0)) ->
      let q := nth e v 0 / 2 ^ Z.of_nat (c_prec c) in
      nth e (trunc3 ring c so [z1; z2; z3]) 0 = q \/ nth e (trunc3 ring c so [z1; z2; z3]) 0 = q - 1.
  Proof.
    intros N2 N67 Hb Hv e He Hw. cbn zeta. cbn [trunc3].
    rewrite (nth_map_in _ 0%nat 0) by (rewrite seq_length; auto). rewrite nth_seq_lt by auto. cbn [plus].
    pose proof (shared_vals ring Hs _ _ _ Hv) as (VL & VI & VN).
    assert (Hc : cfg_ok c) by (unfold cfg_ok; lia).
    set (a := nth e (tdat z1) 0) in *. set (b := to_ring ring (nth e (tdat z2) 0 + nth e (tdat z3) 0)) in *.
    assert (EV : nth e v 0 = a + b).
    { apply (in_ring_eq ring); auto; [apply nth_in_ring; auto|].
      rewrite (VN e). cbn [map zsum]. fold a. unfold b. rewrite to_ring_eqmod by apply Hp. apply eqmod_eq. lia. }
    rewrite EV. unfold scale_down. destruct (Z.eq_dec (c_base c) 2) as [_|]; [|congruence].
    destruct (signed_range ring Hs N2 N67) as (h & Hh & ER & HR). apply HR in Hw.
    destruct (c_prec c) as [|p] eqn:EP.
    - left. change (Z.of_nat 0) with 0. rewrite Z.pow_0_r, !Z.div_1_r. apply HR. exact Hw.
    - assert (P : 2 <= 2 ^ Z.of_nat (S p)).
      { rewrite Nat2Z.inj_succ, Z.pow_succ_r by lia. pose proof (Z.pow_pos_nonneg 2 (Z.of_nat p) ltac:(lia) ltac:(lia)). lia. }
      set (m := 2 ^ Z.of_nat (S p)) in *.
      assert (Q : - h < (a + b) / m < h).
      { assert (h >= 2) by lia. split.
        - apply (Z.lt_le_trans _ (- h / 2)).
          + pose proof (Z.div_mod (- h) 2 ltac:(lia)). pose proof (Z.mod_pos_bound (- h) 2 ltac:(lia)). nia.
          + destruct (Z_lt_le_dec (a + b) 0).
            * apply Z.div_le_lower_bound; [lia|]. pose proof (Z.div_mod (- h) 2 ltac:(lia)). pose proof (Z.mod_pos_bound (- h) 2 ltac:(lia)). nia.
            * transitivity 0; [apply Z.div_le_upper_bound; lia|]. apply Z.div_pos; lia.
        - apply Z.div_lt_upper_bound; nia. }
      destruct (floor_split a b m ltac:(lia)) as [->| ->]; [left|right]; apply HR; lia.
  Qed.

  (** no precision: the value is kept *)
  Lemma trunc3_exact c so v zs : ring <> 2 -> ring <> 67 -> c_prec c = 0%nat -> shared ring so v zs -> length zs = 3%nat ->
    trunc3 ring c so zs = v.
  Proof.
    intros N2 N67 Hc Hv HL. pose proof (shared_vals ring Hs _ _ _ Hv) as (VL & VI & VN).
    destruct (three zs HL) as (z1 & z2 & z3 & ->). cbn [trunc3].
    assert (ED : forall u, scale_down c u = u).
    { intros u. unfold scale_down. rewrite Hc. change (Z.of_nat 0) with 0. rewrite !Z.pow_0_r, Z.div_1_r, Z.quot_1_r.
      destruct (Z.eq_dec (c_base c) 2); reflexivity. }
    apply (vec_eq ring Hs); auto.
    - apply map_to_ring_in; auto.
    - rewrite map_length, seq_length; auto.
    - intros e He. rewrite map_length, seq_length in He.
      rewrite (nth_map_in _ 0%nat 0) by (rewrite seq_length; auto). rewrite nth_seq_lt by auto. cbn [plus].
      rewrite !ED. rewrite !to_ring_eqmod by apply Hp. rewrite (VN e). cbn [map zsum]. apply eqmod_eq. lia.
  Qed.

  (** a product whose result is not scaled *)
  Lemma rm_bil_exact s op sx sy so f c d vx vy x y u :
    rs_n s = 3%nat -> product_r ring op sx sy so f -> rep_op ring op -> cfg_ok c ->
    (ring = 2 \/ ring = 67 \/ c_prec c = 0%nat) ->
    holds s ring c sx vx x -> holds s ring d sy vy y -> good_sup ring s sx sy so f u ->
    exists z, rm_bil s (bop_of op) x y u = Ok z /\ holds s ring c so (f vx vy) z.
  Proof.
    intros Hn HP HO HC HE HX HY HU.
    destruct (rm_bil_ok ring Hs s op sx sy so f c d vx vy x y u Hn HP HO HC HX HY HU) as (z & zs & E & _ & LZ & SZ & HZ).
    exists z. split; [exact E|]. unfold trunc_value in HZ.
    destruct (Z.eqb_spec ring 2) as [E2|N2]; [exact HZ|]. destruct (Z.eqb_spec ring 67) as [E67|N67]; [exact HZ|].
    cbn [orb] in HZ. rewrite (trunc3_exact c so (f vx vy) zs) in HZ; auto. destruct HE as [?|[?|?]]; congruence || auto.
  Qed.

  Lemma rm_mul_public_exact s c sx so vx x y w rnd : rs_n s = 3%nat -> cfg_ok c ->
    (ring = 2 \/ ring = 67 \/ c_prec c = 0%nat) ->
    holds s ring c sx vx x -> pub_ok y -> pub_in ring c y w -> bshape sx (pub_shape y) so -> tensor_in ring so rnd ->
    exists z, rm_bil_public s BMul x y rnd = Ok z /\ holds s ring c so (mul_vr ring sx (pub_shape y) so vx w) z.
  Proof.
    intros Hn HC HE HX Hy Hw Hb HR.
    destruct (rm_mul_public_ok ring Hs s c sx so vx x y w rnd Hn HC HX Hy Hw Hb HR) as (z & zs & ps & E & _ & _ & LZ & SZ & HZ & _).
    exists z. split; [exact E|]. unfold trunc_value in HZ.
    destruct (Z.eqb_spec ring 2) as [E2|N2]; [exact HZ|]. destruct (Z.eqb_spec ring 67) as [E67|N67]; [exact HZ|].
    cbn [orb] in HZ. rewrite (trunc3_exact c so _ zs N2 N67 ltac:(destruct HE as [?|[?|?]]; congruence || auto) SZ LZ) in HZ. exact HZ.
  Qed.

  Definition minus_one : pub := PNum (NInt (-1)).
  Lemma pub_minus_one c : ring <> 2 -> c_prec c = 0%nat -> unscaled ring c -> pub_in ring c minus_one [to_ring ring (-1)].
  Proof.
    intros N2 Hc HU. unfold pub_in. destruct (Z.eq_dec ring 67) as [E|N67].
    - right. left. split; [exact E|]. exists [-1]. split; [reflexivity|]. subst ring. reflexivity.
    - right. right. split; [exact N2|]. split; [exact N67|]. unfold minus_one, pub_vals, encode, encode1, scale.
      rewrite Hc. change (Z.of_nat 0) with 0. rewrite Z.pow_0_r. reflexivity.
  Qed.

  Lemma bget_one so a e : bget [1%nat] so [a] e = a.
  Proof.
    unfold bget. set (l := skipn (length so - length [1%nat]) (unravel so e)). destruct l as [|i l]; reflexivity.
  Qed.

  Lemma rmap_same {A B} (f g : A -> result B) l : (forall a, In a l -> f a = g a) -> rmap f l = rmap g l.
  Proof. intros H. induction l as [|a l IH]; [reflexivity|]. cbn. rewrite H by now left. destruct (g a); cbn; [|reflexivity]. rewrite IH; [reflexivity|]. intros; apply H; now right. Qed.

  (** in the ring 2 minus one is one *)
  Lemma minus_one_2 s c sx v x rnd : ring = 2 -> holds s ring c sx v x ->
    rm_bil_public s BMul x minus_one rnd = rm_bil_public s BMul x (PNum (NInt 1)) rnd.
  Proof.
    intros E2 HX. destruct HX as (_ & _ & _ & _ & _ & HP). unfold rm_bil_public, at_parties, minus_one.
    rewrite (rmap_same _ (fun p => rst_mul_public (snd p) (PNum (NInt 1)))); [reflexivity|].
    intros [k p] Hkp. cbn [snd]. apply in_combine_r in Hkp. apply In_nth_error in Hkp. destruct Hkp as (j & Hj).
    destruct (HP j p Hj) as (HR & _). unfold rst_mul_public, rst_public. rewrite HR, E2. reflexivity.
  Qed.

  Lemma rm_mul_minus_one s c sx vx x rnd : rs_n s = 3%nat -> cfg_ok c -> sx <> [] -> c_prec c = 0%nat ->
    holds s ring c sx vx x -> tensor_in ring sx rnd ->
    exists z, rm_bil_public s BMul x minus_one rnd = Ok z /\ holds s ring c sx (mul_vr ring sx [1%nat] sx vx [to_ring ring (-1)]) z.
  Proof.
    intros Hn HC Hsx Hc HX HR.
    assert (Hb1 : bshape sx [1%nat] sx).
    { split; [destruct sx; [congruence|cbn; lia]|]. intros i Hi. right. right. cbn [rev app].
      split; [destruct i as [|[|]]; reflexivity|reflexivity]. }
    destruct (Z.eq_dec ring 2) as [E2|N2].
    - rewrite (minus_one_2 s c sx vx x rnd E2 HX).
      assert (HW : pub_in ring c (PNum (NInt 1)) [to_ring ring (-1)]).
      { left. split; [exact E2|]. rewrite E2. split; [reflexivity|]. constructor; [right; reflexivity|constructor]. }
      exact (rm_mul_public_exact s c sx sx _ x (PNum (NInt 1)) _ rnd Hn HC (or_introl E2) HX I HW Hb1 HR).
    - pose proof HX as (_ & _ & _ & _ & HU & _).
      exact (rm_mul_public_exact s c sx sx _ x minus_one _ rnd Hn HC (or_intror (or_intror Hc)) HX I (pub_minus_one c N2 Hc HU) Hb1 HR).
  Qed.

  (** public minus shared, through (shared - public) * -1 *)
  Lemma rm_rsub_ok s c sx vx x y w rnd : rs_n s = 3%nat -> cfg_ok c -> sx <> [] -> c_prec c = 0%nat ->
    holds s ring c sx vx x -> pub_ok y -> pub_in ring c y w -> bshape sx (pub_shape y) sx -> tensor_in ring sx rnd ->
    exists z, rm_rsub s x y rnd = Ok z /\ holds s ring c sx (s_sub ring (bexpand (pub_shape y) sx w) vx) z.
  Proof.
    intros Hn HC Hsx Hc HX Hy Hw Hb HR. unfold rm_rsub.
    destruct (rm_lin_public_holds ring Hs s LSub c sx vx x y w ltac:(lia) HX Hy Hw Hb) as (d & -> & HD). cbn [rbind].
    pose proof HX as (_ & _ & _ & (xs & Hxs & _) & HU & _). pose proof (shared_vals ring Hs _ _ _ Hxs) as (VL & VI & _).
    destruct (rm_mul_minus_one s c sx _ d rnd Hn HC Hsx Hc HD HR) as (z & E & HZ).
    change (PNum (NInt (-1))) with minus_one.
    exists z. split; [exact E|]. cbn [pub_shape minus_one s_lop] in HZ.
    set (wy := bexpand (pub_shape y) sx w) in *.
    assert (LW : length wy = numel sx) by apply bexpand_length.
    assert (LD : length (s_sub ring vx wy) = numel sx) by (apply map2_length_eq; auto).
    replace (s_sub ring wy vx) with (mul_vr ring sx [1%nat] sx (s_sub ring vx wy) [to_ring ring (-1)]); [exact HZ|].
    unfold mul_vr. rewrite (bexpand_self sx) by auto.
    apply (vec_eq ring Hs).
    - apply map2_to_ring_in; auto.
    - apply map2_to_ring_in; auto.
    - unfold s_mul, s_sub in *. rewrite !(map2_length_eq _ _ _ (numel sx)); auto. apply bexpand_length.
    - intros e He. unfold s_mul in *. rewrite (map2_length_eq _ _ _ (numel sx)) in He; auto; [|apply bexpand_length].
      rewrite (nth_map2 _ 0 0 0) by (rewrite ?bexpand_length; lia). rewrite to_ring_eqmod by apply Hp.
      rewrite (bexpand_nth [1%nat]) by auto. rewrite bget_one.
      unfold s_sub. rewrite !(nth_map2 _ 0 0 0) by lia. rewrite !to_ring_eqmod by apply Hp. apply eqmod_eq. lia.
  Qed.

  (** the encoding of minus one, as a residue *)
  Lemma encode_minus_one c : ring <> 2 -> ring <> 67 -> c_base c = 2 -> encode1 c (NInt (-1)) == - 2 ^ Z.of_nat (c_prec c) [mod ring].
  Proof.
    intros N2 N67 Hb. unfold encode1, scale. rewrite Hb. set (m := 2 ^ Z.of_nat (c_prec c)).
    replace (-1 * m) with (- m) by lia. clearbody m.
    assert (D : exists k, 2 ^ 64 = k * ring).
    { destruct (supported_cases _ Hs) as [E|[E|[E|[E|[E|E]]]]]; try congruence; subst ring.
      - exists (2 ^ 56). reflexivity.
      - exists (2 ^ 48). reflexivity.
      - exists (2 ^ 32). reflexivity.
      - exists 1. reflexivity. }
    destruct D as (k & D). change (cast TI64 (- m)) with (wrap 64 (- m)). unfold wrap.
    exists (- ((- m + 2 ^ (64 - 1)) / 2 ^ 64) * k).
    pose proof (Z.div_mod (- m + 2 ^ (64 - 1)) (2 ^ 64) ltac:(lia)) as DM.
    set (q := (- m + 2 ^ (64 - 1)) / 2 ^ 64) in *. set (r := (- m + 2 ^ (64 - 1)) mod 2 ^ 64) in *. clearbody q r.
    rewrite <- Z.mul_assoc, <- D. lia.
  Qed.

  (** a multiple of the scale stays one when reduced modulo the ring *)
  Lemma multiple_in_ring m x u : 0 < m -> (m | ring) \/ u == 0 [mod ring] -> u == - m [mod ring] -> (m | to_ring ring (x * u)).
  Proof.
    intros Hm [D|U0] (k & U).
    - pose proof (to_ring_eqmod ring (x * u) Hp) as (j & ->). destruct D as (r & ->). rewrite U.
      exists (- x + x * k * r + j * r). lia.
    - replace (to_ring ring (x * u)) with 0; [apply Z.divide_0_r|].
      apply (in_ring_eq ring); auto; [destruct (supported_cases _ Hs) as [->|[->|[->|[->|[->| ->]]]]]; reflexivity|apply in_to_ring; auto|].
      rewrite to_ring_eqmod by apply Hp. rewrite U0. apply eqmod_eq. lia.
  Qed.

  Lemma scale_divides p : ring <> 2 -> ring <> 67 -> (2 ^ Z.of_nat p | ring) \/ 2 ^ Z.of_nat p == 0 [mod ring].
  Proof.
    intros N2 N67. assert (R : exists k, 0 <= k /\ ring = 2 ^ k).
    { destruct (supported_cases _ Hs) as [E|[E|[E|[E|[E|E]]]]]; try congruence; subst ring.
      - exists 8. split; [lia|reflexivity].
      - exists 16. split; [lia|reflexivity].
      - exists 32. split; [lia|reflexivity].
      - exists 64. split; [lia|reflexivity]. }
    destruct R as (k & Hk & E). destruct (Z_le_gt_dec (Z.of_nat p) k).
    - left. exists (2 ^ (k - Z.of_nat p)). rewrite E, <- Z.pow_add_r by lia. f_equal. lia.
    - right. exists (2 ^ (Z.of_nat p - k)). rewrite E, <- Z.pow_add_r by lia. replace (Z.of_nat p - k + k) with (Z.of_nat p) by lia. lia.
  Qed.

  (** parts that are multiples of the scale: nothing is lost *)
  Lemma trunc3_multiple c so v z1 z2 z3 : ring <> 2 -> ring <> 67 -> c_base c = 2 -> shared ring so v [z1; z2; z3] ->
    forall e, (e < numel so)%nat ->
      let m := 2 ^ Z.of_nat (c_prec c) in
      let b := to_ring ring (nth e (tdat z2) 0 + nth e (tdat z3) 0) in
      (m | nth e (tdat z1) 0) -> (m | b) -> in_ring ring (nth e (tdat z1) 0 + b) ->
      nth e (trunc3 ring c so [z1; z2; z3]) 0 = nth e v 0 / m.
  Proof.
    intros N2 N67 Hb Hv e He m b Da Db Hw.
    destruct (trunc3_accurate c so v z1 z2 z3 N2 N67 Hb Hv e He Hw) as [A|A]; [exact A|]. exfalso. fold m in A.
    pose proof (shared_vals ring Hs _ _ _ Hv) as (VL & VI & VN).
    assert (M : 0 < m) by (apply Z.pow_pos_nonneg; lia).
    assert (EV : nth e v 0 = nth e (tdat z1) 0 + b).
    { apply (in_ring_eq ring); auto; [apply nth_in_ring; auto|].
      rewrite (VN e). cbn [map zsum]. unfold b. rewrite to_ring_eqmod by apply Hp. apply eqmod_eq. lia. }
    rewrite EV in A. cbn [trunc3] in A.
    rewrite (nth_map_in _ 0%nat 0) in A by (rewrite seq_length; auto). rewrite nth_seq_lt in A by auto. cbn [plus] in A. fold b in A.
    unfold scale_down in A. destruct (Z.eq_dec (c_base c) 2) as [_|]; [|congruence]. fold m in A.
    destruct Da as (qa & Ea), Db as (qb & Eb). rewrite Ea, Eb in A. rewrite <- Z.mul_add_distr_r, !Z.div_mul in A by lia.
    destruct (signed_range ring Hs N2 N67) as (h & Hh & ER & HR).
    assert (I : in_ring ring (qa + qb)).
    { rewrite Ea, Eb in Hw. apply HR in Hw. apply HR. clear -Hw M Hh.
      replace (qa * m + qb * m) with ((qa + qb) * m) in Hw by lia. nia. }
    rewrite I in A. lia.
  Qed.

  (** public minus shared of scaled values: exact where nothing wraps *)
  Lemma rm_rsub_scaled s c sx vx x y w rnd : ring <> 2 -> ring <> 67 -> rs_n s = 3%nat -> c_base c = 2 -> sx <> [] ->
    holds s ring c sx vx x -> pub_ok y -> pub_in ring c y w -> bshape sx (pub_shape y) sx -> tensor_in ring sx rnd ->
    let m := 2 ^ Z.of_nat (c_prec c) in let wy := bexpand (pub_shape y) sx w in
    exists z v z1 z2 z3, rm_rsub s x y rnd = Ok z /\ holds s ring c sx v z /\
      shared ring sx (map2 (fun p q => to_ring ring ((p - q) * m)) wy vx) [z1; z2; z3] /\
      forall e, (e < numel sx)%nat ->
        in_ring ring (nth e (tdat z1) 0 + to_ring ring (nth e (tdat z2) 0 + nth e (tdat z3) 0)) ->
        in_ring ring ((nth e wy 0 - nth e vx 0) * m) ->
        nth e v 0 = nth e wy 0 - nth e vx 0.
  Proof.
    intros N2 N67 Hn Hb2 Hsx HX Hy Hw Hb HR m wy. unfold rm_rsub.
    assert (HC : cfg_ok c) by (unfold cfg_ok; lia).
    destruct (rm_lin_public_holds ring Hs s LSub c sx vx x y w ltac:(lia) HX Hy Hw Hb) as (d & -> & HD). cbn [rbind].
    pose proof HX as (_ & _ & _ & (xs & Hxs & _) & HU & _). pose proof (shared_vals ring Hs _ _ _ Hxs) as (VL & VI & _).
    assert (Hb1 : bshape sx [1%nat] sx).
    { split; [destruct sx; [congruence|cbn; lia]|]. intros i Hi. right. right. cbn [rev app].
      split; [destruct i as [|[|]]; reflexivity|reflexivity]. }
    change (PNum (NInt (-1))) with minus_one.
    set (u := to_ring ring (encode1 c (NInt (-1)))).
    assert (EU : u == - m [mod ring]) by (unfold u; rewrite to_ring_eqmod by apply Hp; apply encode_minus_one; auto).
    assert (HW : pub_in ring c minus_one [u]) by (right; right; split; [exact N2|split; [exact N67|reflexivity]]).
    destruct (rm_mul_public_ok ring Hs s c sx sx _ d minus_one _ rnd Hn HC HD I HW Hb1 HR) as (z & zs & ps & E & _ & _ & LZ & SZ & HZ & ds & Hds & EZ).
    cbn [pub_shape minus_one s_lop] in SZ, HZ, EZ. fold wy in SZ, HZ, Hds.
    assert (LW : length wy = numel sx) by apply bexpand_length.
    assert (LD : length (s_sub ring vx wy) = numel sx) by (apply map2_length_eq; auto).
    assert (EV : mul_vr ring sx [1%nat] sx (s_sub ring vx wy) [u] = map2 (fun p q => to_ring ring ((p - q) * m)) wy vx).
    { unfold mul_vr. rewrite (bexpand_self sx) by auto. apply (vec_eq ring Hs).
      - apply map2_to_ring_in; auto.
      - apply map2_to_ring_in; auto.
      - unfold s_mul, s_sub in *. rewrite !(map2_length_eq _ _ _ (numel sx)); auto. apply bexpand_length.
      - intros e He. unfold s_mul in *. rewrite (map2_length_eq _ _ _ (numel sx)) in He; auto; [|apply bexpand_length].
        rewrite (nth_map2 _ 0 0 0) by (rewrite ?bexpand_length; lia). rewrite to_ring_eqmod by apply Hp.
        rewrite (bexpand_nth [1%nat]) by auto. rewrite bget_one.
        unfold s_sub. rewrite !(nth_map2 _ 0 0 0) by lia. rewrite !to_ring_eqmod by apply Hp.
        rewrite EU. apply eqmod_eq. lia. }
    rewrite EV in SZ, HZ. destruct (three zs LZ) as (z1 & z2 & z3 & ->).
    unfold trunc_value in HZ. rewrite (proj2 (Z.eqb_neq _ _) N2), (proj2 (Z.eqb_neq _ _) N67) in HZ. cbn [orb] in HZ.
    exists z, (trunc3 ring c sx [z1; z2; z3]), z1, z2, z3. split; [exact E|]. split; [exact HZ|]. split; [exact SZ|].
    intros e He H1 H2.
    assert (M : 0 < m) by (apply Z.pow_pos_nonneg; lia).
    assert (DM : (m | ring) \/ u == 0 [mod ring]).
    { destruct (scale_divides (c_prec c) N2 N67) as [A|A]; [left; exact A|right]. rewrite EU. fold m in A. rewrite A. apply eqmod_eq. lia. }
    (* each share of the product is a reduced multiple *)
    assert (DZ : forall t, In t [z1; z2; z3] -> exists a, nth e (tdat t) 0 = to_ring ring (a * u)).
    { intros t Ht. destruct (In_nth _ _ (mkT [] []) Ht) as (i & Hi & <-).
      pose proof (rmap_ok_length _ _ _ EZ) as LL.
      pose proof (rmap_nth _ (mkT [] []) (mkT [] []) ds [z1; z2; z3] EZ i ltac:(lia)) as B.
      assert (TI : tensor_in ring sx (nth i ds (mkT [] []))).
      { destruct Hds as (_ & F & _). rewrite Forall_forall in F. apply F, nth_In. lia. }
      destruct TI as (T1 & T2 & T3). cbn beta in B.
      rewrite (tbin_spec _ _ _ sx) in B by (cbn [tsh]; rewrite T1; exact Hb1).
      set (t := nth i [z1; z2; z3] (mkT [] [])) in *. clearbody t. injection B as <-. cbn [tdat tsh].
      rewrite (nth_map2 _ 0 0 0) by (rewrite bexpand_length; auto).
      rewrite rmul_spec; [|auto|apply nth_in_ring; auto; apply bexpand_in; auto|
        apply nth_in_ring; auto; apply bexpand_in; auto; constructor; [apply in_to_ring; auto|constructor]].
      rewrite !bexpand_nth by auto. rewrite bget_one. eexists. reflexivity. }
    destruct (DZ z1 ltac:(cbn; auto)) as (a1 & E1), (DZ z2 ltac:(cbn; auto)) as (a2 & E2), (DZ z3 ltac:(cbn; auto)) as (a3 & E3).
    rewrite (trunc3_multiple c sx _ z1 z2 z3 N2 N67 Hb2 SZ e He); auto.
    - rewrite (nth_map2 _ 0 0 0) by lia. rewrite H2. fold m. apply Z.div_mul. lia.
    - rewrite E1. fold m. apply multiple_in_ring; auto.
    - fold m. replace (to_ring ring (nth e (tdat z2) 0 + nth e (tdat z3) 0)) with (to_ring ring ((a2 + a3) * u)); [apply multiple_in_ring; auto|].
      rewrite E2, E3. apply (in_ring_eq ring); auto; try (apply in_to_ring; auto).
      rewrite !to_ring_eqmod by apply Hp. apply eqmod_eq. lia.
  Qed.

  (* ---------------------------------------------------------- triples *)
  Definition all_wrong (vm : list Z) : bool := forallb (fun v => negb (v =? 0)) vm.

  Lemma rep_triples_ok s op sx sy so f ca cb va vb vm a b masks :
    rs_n s = 3%nat -> product_r ring op sx sy so f -> rep_op ring op ->
    holds s ring ca sx va a -> holds s ring cb sy vb b -> length masks = 3%nat -> shared ring so vm masks ->
    exists c, holds s ring (rst_cfg ring (mkConfig 2 0)) so (s_add ring (f va vb) vm) c /\
      rep_triples s (bop_of op) a b ring masks =
      if all_wrong vm then Err ValueError else Ok (mkRT (rm_ps a) (rm_ps b) (rm_ps c)).
  Proof.
    intros Hn HP HO HA HB LM HM.
    destruct (holds_views _ _ _ _ _ _ HA) as (sa & fa & Hsa & La & -> & _).
    destruct (holds_views _ _ _ _ _ _ HB) as (sb & fb & Hsb & Lb & -> & _).
    destruct (falcon_z_mask ring Hs s op sx sy so f fa fb va vb vm sa sb masks HP HO ltac:(lia) ltac:(lia) LM Hsa Hsb HM
      (rs_id s) (rs_id s) sx sy) as (zs & EZ & LZ & SZ).
    unfold rep_triples. rewrite EZ. cbn [rbind rm_shape rm_ps].
    destruct (product_index_r ring _ _ _ _ _ HP) as (ix & EI & _). unfold shape_bil. rewrite EI. cbn [rbind].
    unfold falcon_reshare. rewrite rst_distribute_ok by lia. cbn [rbind received rm_ps].
    exists (mkRM (rs_id s) so (rviews s ring (fun _ => rst_cfg ring (mkConfig 2 0)) zs)). split.
    { apply views_holds; [auto|lia|]. intros k _. apply rst_cfg_idem. }
    rewrite (reconstruct_sh_views ring Hs s fa sx va sa) by (auto; lia). cbn [rbind].
    rewrite (reconstruct_sh_views ring Hs s fb sy vb sb) by (auto; lia). cbn [rbind].
    rewrite (reconstruct_sh_views ring Hs s _ so _ zs SZ) by lia. cbn [rbind].
    destruct (rep_op_get ring Hs op HO) as (o & fn & EO & EG). rewrite EO. cbn [rbind]. rewrite EG. cbn [rbind].
    pose proof (shared_vals ring Hs _ _ _ Hsa) as (VA & IA & _). pose proof (shared_vals ring Hs _ _ _ Hsb) as (VB & IB & _).
    pose proof (shared_vals ring Hs _ _ _ HM) as (VM & IM & _).
    rewrite (product_tbil ring Hs op sx sy so f) by (auto; split; auto). cbn [rbind tdat].
    destruct (product_in_r ring Hs _ _ _ _ _ va vb HP) as (_ & PL & PI). cbn [tdat] in PL, PI.
    assert (LS : length (s_add ring (f va vb) vm) = numel so) by (apply map2_length_eq; auto).
    rewrite (tbin_same _ _ _ so) by auto. cbn [rbind tdat].
    assert (EW : forallb (fun v => negb (v =? 0)) (map2 (fun u v => if u =? v then 0 else 1) (s_add ring (f va vb) vm) (f va vb)) = all_wrong vm).
    { unfold all_wrong, s_add. clear - Hs Hp PL PI VM IM. revert vm VM IM PI PL. generalize (f va vb) (numel so).
      induction l as [|u l IH]; intros n [|m vm] VM IM PI PL; cbn [map2 forallb length] in *; auto; try lia.
      inversion IM as [|? ? M1 M2]; inversion PI as [|? ? P1 P2]; clear IM PI; subst.
      rewrite (IH (length l) vm) by (auto; lia). f_equal. f_equal.
      destruct (Z.eqb_spec m 0) as [->|Nm].
      - rewrite Z.add_0_r, P1, Z.eqb_refl. reflexivity.
      - destruct (Z.eqb_spec (to_ring ring (u + m)) u) as [E|]; [|reflexivity]. exfalso. apply Nm.
        apply (in_ring_eq ring); auto.
        + destruct (supported_cases _ Hs) as [->|[->|[->|[->|[->| ->]]]]]; reflexivity.
        + apply (eqmod_add_cancel_l _ u). rewrite <- (to_ring_eqmod ring (u + m)) by apply Hp. rewrite E. apply eqmod_eq. lia. }
    rewrite EW. destruct (all_wrong vm); reflexivity.
  Qed.
End Ring.
