(** Lemmas: element-wise calculus of unscaled replicated tensors of one shape. *)
From Coq Require Import QArith Setoid Morphisms.
From Verif Require Import Util Modular S_Ring S_Tensor S_Bil S_Spdz S_Rep M_Torch L_Torch M_Encoder M_Tensor L_Tensor M_Share L_Share M_Spdz L_Spdz L_Bil
  L_RShare L_Mul M_Session L_Session M_Rep S_RepT L_Rep L_Rep2 L_Rep3 L_Rep4 L_Rep5 L_Rep6 M_Aby3.
Local Open Scope Z_scope.

Definition cfg10 : config := mkConfig 1 0.

Section Ring.
  Variable ring : Z.
  Hypothesis Hs : supported ring.
  Let Hp : 0 < ring := supported_pos ring Hs.
  Variable s : rsess.
  Hypothesis Hn : rs_n s = 3%nat.
  Variable sh : list nat.
  Hypothesis Hsh : sh <> [].

  (** the tensor with the elements [g e] *)
  Definition vt (g : nat -> Z) : list Z := map (fun e => to_ring ring (g e)) (seq 0 (numel sh)).
  Definition hv (x : rmpc) (g : nat -> Z) : Prop := holds s ring cfg10 sh (vt g) x.
  (** the supplies of products of two tensors of the shape *)
  Definition good (u : sup) : Prop := forall q, good_sup ring s sh sh sh (mul_vr ring sh sh sh) (u q).
  Lemma good_sub u k : good u -> good (subsup u k).
  Proof. intros H q. apply H. Qed.

  Lemma vt_length g : length (vt g) = numel sh.
  Proof. unfold vt. rewrite map_length, seq_length. reflexivity. Qed.
  Lemma vt_in g : vec_in ring (vt g).
  Proof. apply Forall_forall. intros v Hv. apply in_map_iff in Hv. destruct Hv as (e & <- & _). apply in_to_ring; auto. Qed.
  Lemma vt_nth g e : (e < numel sh)%nat -> nth e (vt g) 0 = to_ring ring (g e).
  Proof.
    intros He. unfold vt. rewrite (nth_map_in _ 0%nat 0) by (rewrite seq_length; auto). rewrite nth_seq_lt by auto. reflexivity.
  Qed.
  Lemma vt_ext f g : (forall e, (e < numel sh)%nat -> f e == g e [mod ring]) -> vt f = vt g.
  Proof.
    intros H. unfold vt. apply map_ext_in. intros e He. apply in_seq in He.
    apply (in_ring_eq ring); auto; try apply in_to_ring; auto.
    rewrite !to_ring_eqmod by apply Hp. apply H. lia.
  Qed.
  Lemma vt_self v : vec_in ring v -> length v = numel sh -> v = vt (fun e => nth e v 0).
  Proof.
    intros HV HL. apply (vec_eq ring Hs); auto; [apply vt_in|rewrite vt_length; auto|].
    intros e He. rewrite vt_nth by lia. rewrite to_ring_eqmod by apply Hp. reflexivity.
  Qed.
  Lemma vt_const g : (forall e, (e < numel sh)%nat -> in_ring ring (g e)) -> vt g = map g (seq 0 (numel sh)).
  Proof. intros H. unfold vt. apply map_ext_in. intros e He. apply in_seq in He. apply H. lia. Qed.

  Lemma map2_vt (op : Z -> Z -> Z) f g : (forall a b a' b', a == a' [mod ring] -> b == b' [mod ring] -> op a b == op a' b' [mod ring]) ->
    map2 (fun a b => to_ring ring (op a b)) (vt f) (vt g) = vt (fun e => op (f e) (g e)).
  Proof.
    intros HO. apply (vec_eq ring Hs).
    - apply map2_to_ring_in; auto.
    - apply vt_in.
    - rewrite (map2_length_eq _ _ _ (numel sh)) by apply vt_length. symmetry. apply vt_length.
    - intros e He. rewrite (map2_length_eq _ _ _ (numel sh)) in He by apply vt_length.
      rewrite (nth_map2 _ 0 0 0) by (rewrite vt_length; auto). rewrite !vt_nth by auto.
      etransitivity; [apply to_ring_eqmod, Hp|]. etransitivity; [|symmetry; apply to_ring_eqmod, Hp].
      apply HO; apply to_ring_eqmod, Hp.
  Qed.
  Lemma s_add_vt f g : s_add ring (vt f) (vt g) = vt (fun e => f e + g e).
  Proof. apply (map2_vt Z.add). intros a b a' b' H1 H2. rewrite H1, H2. reflexivity. Qed.
  Lemma s_sub_vt f g : s_sub ring (vt f) (vt g) = vt (fun e => f e - g e).
  Proof. apply (map2_vt Z.sub). intros a b a' b' H1 H2. rewrite H1, H2. reflexivity. Qed.
  Lemma s_mul_vt f g : s_mul ring (vt f) (vt g) = vt (fun e => f e * g e).
  Proof. apply (map2_vt Z.mul). intros a b a' b' H1 H2. rewrite H1, H2. reflexivity. Qed.

  Lemma hv_ext x f g : (forall e, (e < numel sh)%nat -> f e == g e [mod ring]) -> hv x f -> hv x g.
  Proof. intros H HX. unfold hv. rewrite <- (vt_ext f g H). exact HX. Qed.
  Lemma hv_holds v x : holds s ring cfg10 sh v x -> hv x (fun e => nth e v 0).
  Proof.
    intros HX. unfold hv. pose proof HX as (_ & _ & _ & (xs & Hxs & _) & _).
    pose proof (shared_vals ring Hs _ _ _ Hxs) as (VL & VI & _). rewrite <- vt_self; auto.
  Qed.

  Lemma cfg10_ok : cfg_ok cfg10.
  Proof. unfold cfg_ok. cbn. lia. Qed.
  Lemma hv_unscaled : unscaled ring cfg10.
  Proof. intros _. reflexivity. Qed.

  (* ------------------------------------------------------------ operations *)
  Lemma hv_lin o x y f g : hv x f -> hv y g ->
    exists z, rm_lin o x y = Ok z /\ hv z (fun e => match o with LAdd => f e + g e | LSub => f e - g e end).
  Proof.
    intros HX HY. destruct (rm_lin_holds ring Hs s o _ _ _ _ _ _ _ _ _ HX HY (bshape_same sh)) as (z & E & HZ).
    exists z. split; [exact E|]. unfold hv. rewrite !bexpand_self in HZ by apply vt_length.
    destruct o; cbn [s_lop] in HZ; [rewrite s_add_vt in HZ|rewrite s_sub_vt in HZ]; exact HZ.
  Qed.

  Lemma hv_mul x y f g u : hv x f -> hv y g -> good_sup ring s sh sh sh (mul_vr ring sh sh sh) u ->
    exists z, rm_bil s BMul x y u = Ok z /\ hv z (fun e => f e * g e).
  Proof.
    intros HX HY HU.
    destruct (rm_bil_exact ring Hs s SMul sh sh sh _ _ _ _ _ x y u Hn (prod_mul_r ring _ _ _ (bshape_same sh))
      (or_introl eq_refl) cfg10_ok (or_intror (or_intror eq_refl)) HX HY HU) as (z & E & HZ).
    exists z. split; [exact E|]. unfold hv. unfold mul_vr in HZ. rewrite !bexpand_self in HZ by apply vt_length.
    rewrite s_mul_vt in HZ. exact HZ.
  Qed.

  (** public integers: a number, or a tensor that broadcasts into the shape *)
  Definition pub_int (y : pub) (g : nat -> Z) : Prop :=
    exists zs, pub_ok y /\ pub_vals y = map NInt zs /\ bshape sh (pub_shape y) sh /\
      (ring = 2 -> Forall (fun z => z = 0 \/ z = 1) zs) /\
      forall e, (e < numel sh)%nat -> bget (pub_shape y) sh (map (to_ring ring) zs) e == g e [mod ring].

  Lemma pub_int_num k : (ring = 2 -> k = 0 \/ k = 1) -> pub_int (PNum (NInt k)) (fun _ => k).
  Proof.
    intros Hk. exists [k]. split; [exact I|]. split; [reflexivity|]. split.
    { split; [destruct sh; [congruence|cbn; lia]|]. intros i Hi. right. right. cbn [rev app].
      split; [destruct i as [|[|]]; reflexivity|reflexivity]. }
    split; [intros E; constructor; [auto|constructor]|]. intros e He. cbn [pub_shape map].
    rewrite bget_one. apply to_ring_eqmod, Hp.
  Qed.

  Lemma divides64 : ring <> 67 -> (ring | 2^64).
  Proof.
    intros N. destruct (supported_cases _ Hs) as [->|[->|[->|[->|[->| ->]]]]]; try congruence;
      [exists (2^63)|exists (2^56)|exists (2^48)|exists (2^32)|exists 1]; reflexivity.
  Qed.

  Lemma pub_int_in y zs : pub_vals y = map NInt zs -> (ring = 2 -> Forall (fun z => z = 0 \/ z = 1) zs) ->
    pub_in ring cfg10 y (map (to_ring ring) zs).
  Proof.
    intros E H2. unfold pub_in. destruct (Z.eq_dec ring 2) as [E2|N2].
    - left. specialize (H2 E2). split; [exact E2|].
      assert (EZ : map (to_ring ring) zs = zs).
      { rewrite <- (map_id zs) at 2. apply map_ext_in. intros z Hz. rewrite Forall_forall in H2.
        rewrite E2. destruct (H2 z Hz) as [->| ->]; reflexivity. }
      rewrite EZ. auto.
    - right. destruct (Z.eq_dec ring 67) as [E67|N67].
      + left. split; [exact E67|]. exists zs. split; [exact E|]. rewrite E67. reflexivity.
      + right. split; [exact N2|]. split; [exact N67|]. rewrite E. unfold encode. rewrite !map_map.
        apply map_ext. intros z. unfold encode1, scale. cbn [cfg10 c_base c_prec].
        change (1 ^ Z.of_nat 0) with 1. rewrite Z.mul_1_r. symmetry.
        apply (in_ring_eq ring); try (apply in_to_ring; auto).
        rewrite !to_ring_eqmod by apply Hp. change (cast TI64 z) with (to_ring (2^64) z).
        destruct (to_ring_eqmod (2^64) z ltac:(reflexivity)) as (k & Hk).
        destruct (divides64 N67) as (d & Hd). exists (k * d). rewrite Hk, Hd. ring.
  Qed.

  Lemma bexpand_vt y zs g : (forall e, (e < numel sh)%nat -> bget (pub_shape y) sh (map (to_ring ring) zs) e == g e [mod ring]) ->
    length zs = numel (pub_shape y) -> bshape sh (pub_shape y) sh ->
    bexpand (pub_shape y) sh (map (to_ring ring) zs) = vt g.
  Proof.
    intros H HL HB. apply (vec_eq ring Hs).
    - apply bexpand_in; auto. apply map_to_ring_in. auto.
    - apply vt_in.
    - rewrite bexpand_length, vt_length. reflexivity.
    - intros e He. rewrite bexpand_length in He. rewrite bexpand_nth, vt_nth by auto.
      rewrite (H e He). symmetry. apply to_ring_eqmod, Hp.
  Qed.

  Lemma hv_lin_public o x y f g : hv x f -> pub_int y g ->
    exists z, rm_lin_public s o x y = Ok z /\ hv z (fun e => match o with LAdd => f e + g e | LSub => f e - g e end).
  Proof.
    intros HX (zs & Hy & EV & HB & H2 & HG).
    destruct (rm_lin_public_holds ring Hs s o _ _ _ _ y _ ltac:(lia) HX Hy (pub_int_in y zs EV H2) HB) as (z & E & HZ).
    exists z. split; [exact E|]. unfold hv. rewrite (bexpand_vt y zs g HG) in HZ; auto.
    2:{ rewrite <- (map_length NInt), <- EV. apply pub_ok_length, Hy. }
    destruct o; cbn [s_lop] in HZ; [rewrite s_add_vt in HZ|rewrite s_sub_vt in HZ]; exact HZ.
  Qed.

  Lemma hv_mul_public x y f g rnd : hv x f -> pub_int y g -> tensor_in ring sh rnd ->
    exists z, rm_bil_public s BMul x y rnd = Ok z /\ hv z (fun e => f e * g e).
  Proof.
    intros HX (zs & Hy & EV & HB & H2 & HG) HR.
    destruct (rm_mul_public_exact ring Hs s cfg10 sh sh _ x y _ rnd Hn cfg10_ok (or_intror (or_intror eq_refl)) HX Hy
      (pub_int_in y zs EV H2) HB HR) as (z & E & HZ).
    exists z. split; [exact E|]. unfold hv. unfold mul_vr in HZ. rewrite (bexpand_vt y zs g HG) in HZ; auto.
    2:{ rewrite <- (map_length NInt), <- EV. apply pub_ok_length, Hy. }
    rewrite bexpand_self in HZ by apply vt_length. rewrite s_mul_vt in HZ. exact HZ.
  Qed.

  Lemma hv_rsub x y f g rnd : hv x f -> pub_int y g -> tensor_in ring sh rnd ->
    exists z, rm_rsub s x y rnd = Ok z /\ hv z (fun e => g e - f e).
  Proof.
    intros HX (zs & Hy & EV & HB & H2 & HG) HR.
    destruct (rm_rsub_ok ring Hs s cfg10 sh _ x y _ rnd Hn cfg10_ok Hsh eq_refl HX Hy (pub_int_in y zs EV H2) HB HR) as (z & E & HZ).
    exists z. split; [exact E|]. unfold hv. rewrite (bexpand_vt y zs g HG) in HZ; auto.
    2:{ rewrite <- (map_length NInt), <- EV. apply pub_ok_length, Hy. }
    rewrite s_sub_vt in HZ. exact HZ.
  Qed.

  Lemma good_rand u q : good u -> tensor_in ring sh (su_rand (u q)).
  Proof. intros H. apply (H q). Qed.

  Lemma hv_first x f : hv x f -> exists c, first_ring x = Ok (ring, c).
  Proof.
    intros HX. destruct (holds_views _ _ _ _ _ _ HX) as (xs & cf & _ & HL & -> & _).
    exists (cf 0%nat). unfold first_ring. cbn [rm_ps]. rewrite rviews_get by lia. reflexivity.
  Qed.
  Lemma hv_attrs x f : hv x f -> rm_sid x = rs_id s /\ rm_shape x = sh.
  Proof. intros (H1 & H2 & _). auto. Qed.
  Lemma hv_reshape z f : hv z f -> mkRM (rm_sid z) sh (rm_ps z) = z.
  Proof. intros H. destruct (hv_attrs z f H) as (_ & E). destruct z as [i h p]. cbn in *. congruence. Qed.

  Lemma hv_xor x y f g u : hv x f -> hv y g -> good u ->
    exists z, rm_xor s x y u = Ok z /\ hv z (fun e => f e + g e - 2 * (f e * g e)).
  Proof.
    intros HX HY HU. unfold rm_xor. destruct (hv_attrs _ _ HX) as (I1 & S1). destruct (hv_attrs _ _ HY) as (I2 & S2).
    rewrite I1, I2, Nat.eqb_refl, S1, S2. cbn [negb].
    destruct (hv_first _ _ HX) as (c & ->). cbn [rbind fst].
    assert (EB : shape_bin sh sh = Ok sh). { unfold shape_bin. rewrite bcast_refl. reflexivity. }
    destruct (hv_lin LAdd _ _ _ _ HX HY) as (a & EA & HA). rewrite EA.
    destruct (Z.eqb_spec ring 2) as [E2|N2].
    - cbn [rbind]. rewrite EB. cbn [rbind]. rewrite (hv_reshape a _ HA). exists a. split; [reflexivity|].
      apply (hv_ext a (fun e => f e + g e)); auto. intros e He. exists (f e * g e). rewrite E2. ring.
    - cbn [rbind]. destruct (hv_mul _ _ _ _ (subsup u 0 []) HX HY (HU _)) as (m & -> & HM). cbn [rbind].
      destruct (hv_mul_public m (PNum (NInt 2)) _ _ (su_rand (subsup u 1 [])) HM (pub_int_num 2 ltac:(congruence)) (good_rand _ _ HU)) as (m2 & -> & HM2).
      cbn [rbind]. destruct (hv_lin LSub _ _ _ _ HA HM2) as (z & EZ & HZ). rewrite EZ. cbn [rbind]. rewrite EB. cbn [rbind].
      rewrite (hv_reshape z _ HZ). exists z. split; [reflexivity|].
      refine (hv_ext z _ _ _ HZ). intros e He. cbn beta. apply eqmod_eq. ring.
  Qed.

  Lemma hv_reconstruct x f : hv x f -> rm_reconstruct s x = Ok (mkT sh (vt f)).
  Proof. intros H. apply (holds_reconstruct ring Hs s _ _ _ _ H). lia. Qed.
End Ring.
