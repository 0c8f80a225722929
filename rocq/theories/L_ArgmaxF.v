(** argmax and max of fixed-point secrets. *)
From Coq Require Import QArith Reals String Setoid Morphisms.
From Verif Require Import Util Modular S_Ring S_Tensor S_Wraps S_Div S_Bil S_Spdz S_Circuit S_Fss S_Sort S_View S_Argmax S_Fixed
  M_Torch M_Encoder M_Tensor M_Share M_Spdz M_Store M_Fss M_Engine M_Static M_Argmax
  L_Torch L_Tensor L_Encoder L_Share L_Div L_Bil L_Mul L_Circuit L_Fss2 L_Fss3 L_Engine L_View L_Grad L_Algo L_Argmax L_Fixed L_Fixed2.
Local Open Scope Z_scope.
Local Open Scope list_scope.

Lemma pairwise_fix s sh d f x : (d < length sh)%nat -> rep s sh f x ->
  exists shs, rmap (argmax_pairwise d) (m_shares x) = Ok shs /\
    rep s (wide sh d) (fun e => f (e mod numel sh)%nat - f (gb sh d e)) (mkM (s_id s) (wide sh d) shs).
Proof.
  intros Hd GX.
  set (A := mkM (s_id s) (wide sh d) (map (gather (wide sh d) (fun e => (e mod numel sh)%nat)) (m_shares x))).
  set (B := mkM (s_id s) (wide sh d) (map (gather (wide sh d) (gb sh d)) (m_shares x))).
  assert (GA : rep s (wide sh d) (fun e => f (e mod numel sh)%nat) A).
  { apply (rep_gather s sh (wide sh d) f x _ GX). intros e He. apply wide_split in He. tauto. }
  assert (GB : rep s (wide sh d) (fun e => f (gb sh d e)) B).
  { apply (rep_gather s sh (wide sh d) f x _ GX). intros e He. apply wide_split in He. unfold gb. apply roll_lt; tauto. }
  destruct (r_lin' s (wide sh d) LSub A B _ _ GA GB) as (z & E & GZ).
  assert (EM : rmap (argmax_pairwise d) (m_shares x) =
    rmap (fun p => sh_lin LSub (fst p) (snd p)) (combine (m_shares A) (m_shares B))).
  { unfold A, B. cbn [m_shares]. rewrite combine_map, rmap_map. cbn [fst snd]. apply rmap_ext. intros t Ht.
    apply pairwise_share; auto. destruct GX as (_ & _ & _ & (_ & F & _)). rewrite Forall_forall in F. auto. }
  unfold mpc_lin in E. replace (m_sid A) with (s_id s) in E by reflexivity. replace (m_sid B) with (s_id s) in E by reflexivity.
  rewrite Nat.eqb_refl in E. cbn [negb] in E.
  rewrite EM. destruct (rmap _ _) as [shs|]; cbn [rbind] in E; [|discriminate].
  exists shs. split; [reflexivity|].
  destruct (shape_bin _ _) as [so|]; cbn [rbind] in E; [|discriminate]. injection E as <-.
  destruct GZ as (Z1 & Z2 & Z3 & Z4). cbn [m_shape m_sid m_shares] in *. subst so. repeat split; auto; apply Z4.
Qed.

Lemma sumn_scale n f c : sumn n (fun k => f k * c) = sumn n f * c.
Proof. unfold sumn. induction (seq 0 n) as [|a l IH]; [reflexivity|]. cbn [map zsum]. rewrite IH. lia. Qed.
Lemma sumn_near n f g : (forall k, (k < n)%nat -> Z.abs (f k - g k) <= 1) -> Z.abs (sumn n f - sumn n g) <= Z.of_nat n.
Proof.
  unfold sumn. induction n as [|n IH]; intros H; [cbn; lia|]. rewrite seq_S, !map_app, !zsum_app. cbn [map zsum Nat.add].
  pose proof (H n ltac:(lia)). assert (Z.abs (zsum (map f (seq 0 n)) - zsum (map g (seq 0 n))) <= Z.of_nat n) by (apply IH; intros; apply H; lia). lia.
Qed.
Lemma sumn_bound n f B : 0 <= B -> (forall k, (k < n)%nat -> Z.abs (f k) <= B) -> Z.abs (sumn n f) <= Z.of_nat n * B.
Proof.
  intros HB. unfold sumn. induction n as [|n IH]; intros H; [cbn; lia|]. rewrite seq_S, !map_app, !zsum_app. cbn [map zsum Nat.add].
  pose proof (H n ltac:(lia)). assert (Z.abs (zsum (map f (seq 0 n))) <= Z.of_nat n * B) by (apply IH; intros; apply H; lia). nia.
Qed.

Section ArgmaxF.
  Context {K : Type} (alpha : K -> Z) (ev : fop -> Z -> Z -> K -> Z)
          (gen : fop -> nat -> nat -> result (list (list K))) (s : sess) (su : tri_supply).
  Hypothesis HG : backend_ok alpha ev gen.
  Hypothesis Hn : s_n s = 2%nat.
  Hypothesis Hb : 1 <= c_base (s_cfg s).
  Hypothesis HR : forall k, draws (2^64) 2 [1%nat] (su_rnd su k).
  Let E := mpc_engine alpha ev gen s su.
  Notation SC := (scale (s_cfg s)).

  Lemma r_gep sh x f c : sh <> [] -> rep s sh f x ->
    runs (e_relp E RGe x (NInt c)) (rep s sh (fun e => b2z (relates32 Rge (f e) (c * SC)) * SC)).
  Proof.
    intros NS (X1 & X2 & X3 & X4). unfold E. cbn [e_relp mpc_engine].
    eapply runs_bind; [apply (runs_tick (fun _ => True)); auto|]. intros k _. unfold check_or_convert.
    eapply runs_bind; [apply runs_lift|].
    { destruct (mpc_secret_reconstruct s (PNum (NInt c)) (su_rnd su k)) as (y & EY & Y1 & Y2 & Y3 & Y4 & _); [lia|exact I|rewrite Hn; apply HR|].
      exists y. split; [exact EY|]. exact (conj Y1 (conj Y2 (conj Y3 Y4))). }
    intros y (Y1 & Y2 & Y3 & Y4) [w j] Hw. cbn [fst] in Hw. unfold m_rel. cbn [fst snd].
    cbn [pub_shape pub_vals] in Y2, Y4. change (encode (s_cfg s) [NInt c]) with [to_ring R64 (c * SC)] in Y4.
    destruct (rel_ok alpha ev gen HG s Rge x y sh (vals sh f) [to_ring R64 (c * SC)] ([], []) w) as (z & w' & EZ & W' & Z1 & Z2 & Z3 & Z4);
      rewrite ?X2, ?Y2; auto using bshape_scalar; try congruence.
    { exact I. }
    change (rop_of Rge) with RGe in EZ. rewrite EZ. exists z, (w', j). split; [reflexivity|]. split; [exact W'|].
    repeat split; try congruence; try apply Z4.
    unfold truth in Z4. unfold vals. erewrite map_ext_in; [apply Z4|]. intros e He. apply in_seq in He.
    rewrite X2, Y2, bget_vals, bget_one, sum_small_words by (auto; lia). reflexivity.
  Qed.

  Lemma tail_fix sh d f prep xs d' : (d < length sh)%nat -> (d' < length xs)%nat -> rl xs d' = rl sh d -> rep s sh f prep ->
    (forall a b, (a < numel sh)%nat -> (b < numel sh)%nat -> Z.abs (f a - f b) < 2^31 - 1) ->
    Z.of_nat (rl sh d) * SC < 2^31 ->
    runs (let! shs := lift (rmap (argmax_pairwise d) (m_shares prep)) in
          let! sh0 := lift (do t <- get_nth shs 0; Ok (tsh t)) in
          let! c := e_relp E RGe (mkM (s_id s) sh0 shs) (NInt 0) in
          let! d' := lift (Ok d') in
          let! l := lift (row_length xs d') in
          let! r := lift (mpc_view (VSumDim 0) c) in
          e_relp E RGe r (NInt (Z.of_nat l - 1)))
      (rep s sh (fun e => b2z (hot sh d f e) * SC)).
  Proof.
    intros Hd Hd' EL GX HC HB. pose proof (scale_ge1 s Hb) as S1.
    assert (NS : sh <> []) by (intro A; subst sh; cbn in Hd; lia).
    destruct (pairwise_fix s sh d f prep Hd GX) as (shs & ES & GS).
    eapply runs_bind; [apply runs_lift; exists shs; split; [exact ES|]; apply eq_refl|]. intros ? <-.
    pose proof GS as (_ & _ & L & (NE & F & _)). cbn [m_shares] in *.
    destruct shs as [|t0 shs]; [congruence|].
    eapply runs_bind; [apply runs_lift; cbn [get_nth nth_error rbind]; eexists; split; [reflexivity|]; apply eq_refl|]. intros ? <-.
    assert (ET : tsh t0 = wide sh d) by (inversion F as [|? ? (T1 & _) _]; auto). rewrite ET.
    eapply runs_bind; [apply (r_gep (wide sh d) _ _ 0 ltac:(discriminate) GS)|].
    intros c GC. eapply runs_bind; [apply runs_lift; eexists; split; [reflexivity|]; apply eq_refl|]. intros ? <-.
    eapply runs_bind; [apply runs_lift; eexists; split; [apply row_length_ok; auto|]; apply eq_refl|]. intros ? <-.
    rewrite EL.
    eapply runs_bind.
    { apply runs_lift. apply (rep_view s (VSumDim 0) (wide sh d) sh _ _ c
        (fun e => sumn (rl sh d - 1) (fun i => b2z (f (roll_src sh d (S i) e) <=? f e) * SC))
        (vw_sumdim 0 (wide sh d) ltac:(cbn; lia)) GC).
      intros e He. unfold remove_at, wide. cbn [firstn skipn app]. rewrite tabulate_nth by auto.
      rewrite to_ring_eqmod by apply posR. cbn [nth]. apply sumn_eqmod. intros i Hi.
      unfold elt, insert_at. cbn [firstn skipn app ravel]. rewrite ravel_unravel_id by auto.
      assert (HW : (i * numel sh + e < numel (wide sh d))%nat) by (rewrite wide_numel; nia).
      change ((rl sh d - 1)%nat :: sh) with (wide sh d). rewrite vals_nth_eq by auto. apply eqmod_eq.
      unfold gb. rewrite Nat.div_add_l, Nat.div_small, Nat.add_0_r by lia.
      rewrite (Nat.add_comm (i * numel sh) e), Nat.mod_add, Nat.mod_small by lia.
      assert (HRL : (roll_src sh d (S i) e < numel sh)%nat) by (apply roll_lt; unfold rl in Hi; lia).
      specialize (HC e _ He HRL). rewrite Z.mul_0_l. rewrite relates32_small by lia. cbn [relates]. do 2 f_equal.
      apply Bool.eq_iff_eq_true. rewrite !Z.leb_le. lia. }
    intros r GR. eapply runs_weaken; [apply (r_gep sh _ _ (Z.of_nat (rl sh d) - 1) NS GR)|].
    intros z GZ. eapply rep_ext; [exact GZ|]. intros e He. apply eqmod_eq. cbn beta.
    destruct (sumn_b2z (rl sh d - 1) (fun i => f (roll_src sh d (S i) e) <=? f e)) as [SB SI].
    assert (R2 : (2 <= rl sh d)%nat) by (unfold rl; lia).
    rewrite sumn_scale. set (cnt := sumn (rl sh d - 1) (fun i => b2z (f (roll_src sh d (S i) e) <=? f e))) in *.
    rewrite relates32_small by nia. do 2 f_equal. apply Bool.eq_iff_eq_true. cbn [relates].
    rewrite Z.leb_le, hot_spec. replace (Z.of_nat (rl sh d) - 1) with (Z.of_nat (rl sh d - 1)) by lia.
    assert (EQ : Z.of_nat (rl sh d - 1) * SC <= cnt * SC <-> Z.of_nat (rl sh d - 1) <= cnt) by (split; intros; nia). rewrite EQ, SI.
    rewrite <- (others sh d Hd e (fun q => f q <= f e) He (Z.le_refl _)). split.
    - intros H i Hi. apply Z.leb_le, H. unfold rl. lia.
    - intros H i Hi. apply Z.leb_le, H. unfold rl in Hi. lia.
  Qed.

  Lemma one_hot_dim_fix sh d f x : (d < length sh)%nat -> rep s sh f x ->
    (forall a b, (a < numel sh)%nat -> (b < numel sh)%nat -> Z.abs (f a - f b) < 2^31 - 1) ->
    Z.of_nat (rl sh d) * SC < 2^31 ->
    runs (argmax_one_hot alpha ev gen s su x (Some d)) (rep s sh (fun e => b2z (hot sh d f e) * SC)).
  Proof.
    intros Hd GX HC HB. unfold argmax_one_hot.
    eapply runs_bind; [apply runs_lift; eexists; split; [reflexivity|]; apply eq_refl|]. intros ? <-.
    eapply runs_bind; [apply runs_lift; eexists; split; [reflexivity|]; apply eq_refl|]. intros ? <-.
    pose proof GX as (_ & X2 & _). rewrite X2. apply tail_fix; auto.
  Qed.

  Lemma one_hot_flat_fix n f x : rep s [n] f x ->
    (forall a b, (a < n)%nat -> (b < n)%nat -> Z.abs (f a - f b) < 2^31 - 1) ->
    Z.of_nat (rl [n] 0) * SC < 2^31 ->
    runs (argmax_one_hot alpha ev gen s su x None) (rep s [n] (fun e => b2z (hot [n] 0 f e) * SC)).
  Proof.
    intros GX HC HB. unfold argmax_one_hot. pose proof GX as (_ & X2 & _). rewrite X2.
    assert (EN : numel [n] = n) by (cbn; lia).
    eapply runs_bind.
    { apply runs_lift. apply (rep_view s (VReshape [numel [n]]) [n] [numel [n]] _ _ x f (vw_reshape [n] [numel [n]] ltac:(cbn; lia)) GX).
      intros e He. apply vals_nth_eq. rewrite EN in He. exact He. }
    rewrite EN. intros prep GP. pose proof GP as (_ & P2 & _). rewrite P2.
    eapply runs_bind; [apply runs_lift; eexists; split; [reflexivity|]; apply eq_refl|]. intros ? <-.
    apply tail_fix; cbn [length]; auto; rewrite EN; auto.
  Qed.

  (** the product with the one-hot tensor *)
  Lemma masked sh r x b f : (0 < numel sh)%nat -> (forall k, valid_triples sh sh sh (mul_val sh sh sh) 2 (su_tri su k sh sh)) ->
    rep s sh (fun e => b2z (b e) * SC) r -> rep s sh f x -> SC < 2^63 -> (forall e, (e < numel sh)%nat -> - 2^63 <= f e < 2^63 /\ - 2^63 <= f e * SC < 2^63) ->
    forall w, none_waiting (fst w) -> exists z w' noted, e_mul E r x w = (Ok z, w') /\
      e_mul (noted_engine alpha ev gen s su) r x (w, false) = (Ok z, (w', noted)) /\ none_waiting (fst w') /\
      exists g, rep s sh g z /\ (noted = false -> forall e, (e < numel sh)%nat -> Z.abs (g e - b2z (b e) * f e) <= 1).
  Proof.
    intros HN HT GR GX HSC HF w Hw. pose proof (scale_ge1 s Hb) as S1.
    assert (SR : sharing s sh r) by (eapply rep_sharing; exact GR). assert (SX : sharing s sh x) by (eapply rep_sharing; exact GX).
    destruct (z_mul alpha ev gen s su sh 0 Hn Hb HT HN r x SR SX w false Hw) as (z & w' & b' & E0 & E1 & N & _ & SZ & _).
    exists z, w', b'. split; [exact E0|]. split; [exact E1|]. split; [exact N|].
    destruct SZ as (vz & GZ). pose proof GZ as (_ & _ & _ & Z4). pose proof (shared_vals R64 supR _ _ _ Z4) as (LZ & IZ & _).
    exists (fun e => nth e vz 0). split.
    { unfold rep. replace (vals sh (fun e => nth e vz 0)) with vz; [exact GZ|]. apply vals_eq; auto. intros. apply eqmod_eq. reflexivity. }
    intros HB e He. destruct (z_mul alpha ev gen s su sh e Hn Hb HT He r x SR SX w false Hw) as (z' & w'' & b'' & F0 & F1 & _ & _ & _ & Q).
    rewrite E0 in F0. injection F0 as <- <-. rewrite E1 in F1. injection F1 as <-. specialize (Q HB).
    rewrite (good_at s sh e He _ _ GZ), (rep_at s sh e He _ _ GR), (rep_at s sh e He _ _ GX) in Q.
    destruct (HF e He) as [F1 F2]. rewrite (small64 (f e)) in Q by exact F1.
    rewrite (small64 (b2z (b e) * SC)) in Q by (destruct (b e); cbn [b2z]; lia).
    replace (b2z (b e) * SC * f e) with ((b2z (b e) * f e) * SC) in Q by ring. rewrite Z.quot_mul in Q by lia. apply Q.
    destruct (b e); cbn [b2z]; lia.
  Qed.

  (** the product with the index vector; [ws] are the shares before they are divided *)
  Lemma indexed sh d r b : (d < length sh)%nat -> (0 < numel sh)%nat -> Z.of_nat (rl sh d) * SC < 2^31 ->
    rep s sh (fun e => b2z (b e) * SC) r ->
    exists z ws, mpc_bil_public s BMul r (index_vector sh d) ([], []) = Ok z /\
      rmap (fun t => sh_bil BMul t (share_init (s_cfg s) (index_vector sh d))) (m_shares r) = Ok ws /\
      exists g, rep s sh g z /\
        (carries ws = false -> forall e, (e < numel sh)%nat -> Z.abs (g e - b2z (b e) * Z.of_nat (coord sh d e) * SC) <= 1).
  Proof.
    intros Hd HN HB GR. pose proof (scale_ge1 s Hb) as S1. pose proof GR as (X1 & X2 & X3 & X4).
    assert (HP : product SMul sh (ivs sh d) sh (mul_val sh (ivs sh d) sh)) by (apply prod_mul, iv_bshape; auto).
    assert (PO : pub_ok (index_vector sh d)).
    { cbn [index_vector pub_ok]. unfold float_range. rewrite map_length, seq_length. fold (ivs sh d). unfold ivs. rewrite iv_numel; auto. }
    assert (R2 : (2 <= rl sh d)%nat /\ (nth d sh 0 <= rl sh d)%nat) by (unfold rl; lia). destruct R2 as [R2 R3].
    assert (EV : encode (s_cfg s) (pub_vals (index_vector sh d)) = map (fun i => Z.of_nat i * SC) (seq 0 (nth d sh 0%nat))).
    { cbn [index_vector pub_vals]. unfold encode, float_range. rewrite map_map. apply map_ext_in. intros i Hi. apply in_seq in Hi.
      cbn [encode1]. assert (ET : Qtrunc (inject_Z (Z.of_nat i) * inject_Z SC) = Z.of_nat i * SC) by (apply Qtrunc_inject; rewrite <- inject_Z_mult; reflexivity).
      rewrite flong_in_range; rewrite ET; [reflexivity|nia]. }
    destruct (share_init_in (s_cfg s) (index_vector sh d) PO) as [HI EI]. rewrite EV in HI, EI.
    change (pub_shape (index_vector sh d)) with (ivs sh d) in HI, EI.
    set (iv := map (fun i => Z.of_nat i * SC) (seq 0 (nth d sh 0%nat))) in *.
    destruct (bil_shares_l SMul sh (ivs sh d) sh _ (m_shares r) _ _ HP X4 HI) as (ws & EW & LW & SW). cbn [tdat bop_of] in *.
    assert (GW : L_Circuit.good s sh (mul_val sh (ivs sh d) sh (vals sh (fun e => b2z (b e) * SC)) iv) (mkM (s_id s) sh ws)).
    { repeat (split; [try reflexivity; cbn [m_shares]; congruence|]). exact SW. }
    destruct (divided s sh 0 Hn HN (mkM (s_id s) sh ws) SC _ ([], []) ltac:(lia) GW) as (z & D & SZ & _).
    exists z, ws. split.
    { unfold mpc_bil_public. rewrite EI, EW. cbn [rbind]. rewrite X2. change (pub_shape (index_vector sh d)) with (ivs sh d).
      pose proof (shape_of_product _ _ _ _ _ HP) as ESH. cbn [bop_of] in ESH. rewrite ESH. cbn [rbind]. unfold truncate. cbn [negb orb]. rewrite X1, D. reflexivity. }
    split; [rewrite EI; exact EW|]. destruct SZ as (vz & GZ). pose proof GZ as (_ & _ & _ & Z4). pose proof (shared_vals R64 supR _ _ _ Z4) as (LZ & IZ & _).
    exists (fun e => nth e vz 0). split.
    { unfold rep. replace (vals sh (fun e => nth e vz 0)) with vz; [exact GZ|]. apply vals_eq; auto. intros. apply eqmod_eq. reflexivity. }
    intros HC e He. destruct (divided s sh e Hn He (mkM (s_id s) sh ws) SC _ ([], []) ltac:(lia) GW) as (z' & D' & _ & Q).
    rewrite D in D'. injection D' as <-. cbn [m_shares] in Q. specialize (Q HC).
    rewrite (good_at s sh e He _ _ GZ), (good_at s sh e He _ _ GW) in Q.
    pose proof (coord_lt sh d Hd e He) as C. unfold mul_vr in Q. rewrite bexpand_self in Q by apply vals_len. unfold s_mul in Q.
    rewrite (nth_map2 _ 0 0 0) in Q by (rewrite ?vals_len, ?bexpand_length; auto). rewrite vals_nth, bexpand_nth in Q by auto.
    assert (BG : bget (ivs sh d) sh iv e = Z.of_nat (coord sh d e) * SC).
    { unfold bget. unfold ivs at 1 2 3. rewrite set_nth_length, repeat_length, Nat.sub_diag. cbn [skipn].
      rewrite iv_ravel; auto; [|apply unravel_length]. unfold iv. fold (coord sh d e). rewrite map_seq_nth by auto. reflexivity. }
    rewrite BG in Q. set (c := Z.of_nat (coord sh d e)) in *. assert (HC2 : 0 <= c < Z.of_nat (rl sh d)) by (unfold c; lia).
    rewrite (to_ring64_small (b2z (b e) * SC)) in Q by (destruct (b e); cbn [b2z]; nia).
    rewrite to_ring64_small in Q by (destruct (b e); cbn [b2z]; nia).
    replace (b2z (b e) * SC * (c * SC)) with ((b2z (b e) * c * SC) * SC) in Q by ring. rewrite Z.quot_mul in Q by lia. exact Q.
  Qed.

  (** a tensor without dimensions compared with a number: the result has shape [1] *)
  Lemma r_gep0 f c x : rep s [] f x ->
    runs (e_relp E RGe x (NInt c)) (rep s [1%nat] (fun _ => b2z (relates32 Rge (f 0%nat) (c * SC)) * SC)).
  Proof.
    intros (X1 & X2 & X3 & X4). unfold E. cbn [e_relp mpc_engine].
    eapply runs_bind; [apply (runs_tick (fun _ => True)); auto|]. intros k _. unfold check_or_convert.
    eapply runs_bind; [apply runs_lift|].
    { destruct (mpc_secret_reconstruct s (PNum (NInt c)) (su_rnd su k)) as (y & EY & Y1 & Y2 & Y3 & Y4 & _); [lia|exact I|rewrite Hn; apply HR|].
      exists y. split; [exact EY|]. exact (conj Y1 (conj Y2 (conj Y3 Y4))). }
    intros y (Y1 & Y2 & Y3 & Y4) [w j] Hw. cbn [fst] in Hw. unfold m_rel. cbn [fst snd].
    cbn [pub_shape pub_vals] in Y2, Y4. change (encode (s_cfg s) [NInt c]) with [to_ring R64 (c * SC)] in Y4.
    destruct (rel_ok alpha ev gen HG s Rge x y [1%nat] (vals [] f) [to_ring R64 (c * SC)] ([], []) w) as (z & w' & EZ & W' & Z1 & Z2 & Z3 & Z4);
      rewrite ?X2, ?Y2; auto; try congruence.
    { split; [reflexivity|]. intros i Hi. cbn in Hi. assert (i = 0%nat) by lia. subst i. left. cbn. auto. }
    { exact I. }
    change (rop_of Rge) with RGe in EZ. rewrite EZ. exists z, (w', j). split; [reflexivity|]. split; [exact W'|].
    unfold rep, good. split; [auto|]. split; [auto|]. split; [congruence|].
    replace (vals [1%nat] (fun _ => b2z (relates32 Rge (f 0%nat) (c * SC)) * SC)) with
      (truth (s_cfg s) [1%nat] (fun e => relates32 Rge (bget (m_shape x) [1%nat] (vals [] f) e) (bget (m_shape y) [1%nat] [to_ring R64 (c * SC)] e))); [exact Z4|].
    unfold truth, vals. apply map_ext_in. intros e He. apply in_seq in He. change (numel [1%nat]) with 1%nat in He. assert (e = 0%nat) by lia. subst e.
    rewrite X2, Y2.
    change (bget [] [1%nat] (map (fun e0 => to_ring R64 (f e0)) (seq 0 (numel []))) 0) with (to_ring R64 (f 0%nat)).
    change (bget [1%nat] [1%nat] [to_ring R64 (c * SC)] 0) with (to_ring R64 (c * SC)). rewrite sum_small_words by lia. reflexivity.
  Qed.
End ArgmaxF.
