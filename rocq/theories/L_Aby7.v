(** Lemmas: selection, decomposition by the orchestrator. *)
From Coq Require Import QArith Setoid Morphisms.
From Verif Require Import Util Modular S_Ring S_Bits S_Tensor S_Bil S_Spdz S_Rep M_Torch L_Torch M_Encoder M_Tensor L_Tensor M_Share L_Share M_Spdz L_Spdz L_Bil
  L_RShare L_Mul M_Session L_Session M_Rep S_RepT L_Rep L_Rep2 L_Rep3 L_Rep4 L_Rep5 L_Rep6 M_Aby3 L_Aby L_Aby2 L_Aby3 L_Aby4 L_Aby5 L_Aby6.
Local Open Scope Z_scope.

Lemma holds_bit s sh v x e : holds s 2 cfg10 sh v x -> (e < numel sh)%nat -> nth e v 0 = 0 \/ nth e v 0 = 1.
Proof.
  intros H He. destruct (holds_views _ _ _ _ _ _ H) as (ss & cf & HS & _). pose proof (shared_vals 2 supported_2 _ _ _ HS) as (VL & VI & _).
  apply in_ring2. apply (nth_in_ring 2); auto using supported_2.
Qed.
Lemma holds_len s ring c sh v x : supported ring -> holds s ring c sh v x -> length v = numel sh /\ vec_in ring v.
Proof. intros Hs H. destruct (holds_views _ _ _ _ _ _ H) as (ss & cf & HS & _). pose proof (shared_vals ring Hs _ _ _ HS) as (VL & VI & _). auto. Qed.

Section Select.
  Variable s : rsess.
  Hypothesis Hn : rs_n s = 3%nat.
  Let ring := rs_ring s.
  Hypothesis Hs : supported ring.
  Let Hp : 0 < ring := supported_pos ring Hs.
  Variables sb sx : list nat.
  Hypothesis Hsb : sb <> [].
  Hypothesis Hb : bshape sb sx sx.

  Lemma bit_pub l (g : nat -> Z) : Forall (fun z => z = 0 \/ z = 1) l -> length l = numel sb -> (forall e, (e < numel sb)%nat -> nth e l 0 = g e) ->
    pub_int ring sb (PTensor sb (map NInt l)) g.
  Proof.
    intros H01 HL HG. exists l. split; [unfold pub_ok; rewrite map_length; exact HL|]. split; [reflexivity|]. split; [apply bshape_same|].
    split; [intros _; exact H01|]. intros e He. cbn [pub_shape]. rewrite bget_same by (rewrite ?map_length; auto).
    rewrite (nth_map_in _ 0) by lia. rewrite HG by auto. apply to_ring_eqmod, Hp.
  Qed.

  Lemma bits_map (h : Z -> Z) (f : nat -> Z) : (forall b, b = 0 \/ b = 1 -> h b = 0 \/ h b = 1) ->
    Forall (fun z => z = 0 \/ z = 1) (map h (vt 2 sb f)).
  Proof.
    intros H. apply Forall_forall. intros z Hz. apply in_map_iff in Hz. destruct Hz as (b & <- & Hb'). apply H.
    apply in_map_iff in Hb'. destruct Hb' as (e & <- & _). apply in_ring2. apply in_to_ring; lia.
  Qed.

  Lemma select_ok c d vx vy vb vc x y b cp u : cfg_ok c ->
    holds s ring c sx vx x -> holds s ring d sx vy y -> holds s 2 cfg10 sb vb b -> holds s 2 cfg10 sb vc (mkRM (rs_id s) sb cp) ->
    good ring s sb (subsup u 0) -> (forall k, (2 <= k <= 4)%nat -> tensor_in ring sb (su_rand (subsup u k []))) ->
    good_sup ring s sb sx sx (mul_vr ring sb sx sx) (subsup u 5 []) ->
    exists z, select_shares s x y b cp u = Ok z /\
      holds s ring c sx (map (fun e => if bget sb sx vb e =? 0 then nth e vx 0 else nth e vy 0) (seq 0 (numel sx))) z.
  Proof.
    intros HC HX HY HB HCP HU HR HU5. unfold select_shares.
    pose proof (hv_holds 2 supported_2 s Hn sb _ _ HB) as HB'. pose proof (hv_holds 2 supported_2 s Hn sb _ _ HCP) as HC'.
    destruct (hv_first 2 s Hn sb _ _ HB') as (cc & ->). cbn [rbind fst]. change (negb (2 =? 2)) with false. cbn iota.
    destruct (hv_attrs _ _ _ _ _ HB') as (_ & ->).
    destruct (bit_injection_ok ring Hs s Hn sb Hsb _ vc (subsup u 0) HCP HU) as (c_r & EI & HCR). fold ring. rewrite EI. cbn [rbind].
    destruct (supported_type ring Hs) as (dt & ->). cbn [rbind].
    assert (EXOR : exists bc, rm_xor s b (mkRM (rs_id s) sb cp) (subsup u 1) = Ok bc /\ hv 2 s sb bc (fun e => nth e vb 0 + nth e vc 0)).
    { unfold rm_xor. destruct (hv_attrs _ _ _ _ _ HB') as (I1 & S1). rewrite I1, S1. cbn [rm_sid rm_shape]. rewrite Nat.eqb_refl. cbn [negb].
      destruct (hv_first 2 s Hn sb _ _ HB') as (c2 & ->). cbn [rbind fst]. change (2 =? 2) with true. cbn iota.
      destruct (hv_lin 2 supported_2 s sb LAdd _ _ _ _ HB' HC') as (a & -> & HA). cbn [rbind].
      unfold shape_bin. rewrite bcast_refl. cbn [rbind]. rewrite (hv_reshape 2 s sb a _ HA). exists a. split; [reflexivity|exact HA]. }
    destruct EXOR as (bc & -> & HBC). cbn [rbind]. rewrite (hv_reconstruct 2 supported_2 s Hn sb _ _ HBC). cbn [rbind tsh tdat].
    set (mv := fun e => (nth e vb 0 + nth e vc 0) mod 2).
    assert (M01 : forall e, mv e = 0 \/ mv e = 1).
    { intros e. unfold mv. pose proof (Z.mod_pos_bound (nth e vb 0 + nth e vc 0) 2 ltac:(lia)). lia. }
    assert (PM : pub_int ring sb (PTensor sb (map NInt (map (cast dt) (vt 2 sb (fun e => nth e vb 0 + nth e vc 0))))) mv).
    { apply bit_pub; [apply bits_map; intros b' Hb'; rewrite cast_bit by exact Hb'; exact Hb'|rewrite map_length; apply vt_length|]. intros e He. rewrite (nth_map_in _ 0) by (rewrite vt_length; auto).
      rewrite vt_nth by auto. change (to_ring 2 (nth e vb 0 + nth e vc 0)) with (mv e). apply cast_bit, M01. }
    assert (PN : pub_int ring sb (PTensor sb (map NInt (map (fun v => Z.lxor (cast dt v) 1) (vt 2 sb (fun e => nth e vb 0 + nth e vc 0))))) (fun e => 1 - mv e)).
    { apply bit_pub; [apply bits_map; intros b' Hb'; rewrite cast_bit by exact Hb'; destruct Hb' as [->| ->]; cbn; auto|rewrite map_length; apply vt_length|]. intros e He. rewrite (nth_map_in _ 0) by (rewrite vt_length; auto).
      rewrite vt_nth by auto. change (to_ring 2 (nth e vb 0 + nth e vc 0)) with (mv e). rewrite cast_bit by apply M01.
      destruct (M01 e) as [->| ->]; reflexivity. }
    destruct (hv_mul_public ring Hs s Hn sb c_r _ _ _ (su_rand (subsup u 2 [])) HCR PM (HR 2%nat ltac:(lia))) as (cm & -> & HCM). cbn [rbind].
    destruct (hv_rsub ring Hs s Hn sb Hsb cm _ _ _ (su_rand (subsup u 3 [])) HCM PM (HR 3%nat ltac:(lia))) as (d1 & -> & HD1). cbn [rbind].
    destruct (hv_mul_public ring Hs s Hn sb c_r _ _ _ (su_rand (subsup u 4 [])) HCR PN (HR 4%nat ltac:(lia))) as (d2 & -> & HD2). cbn [rbind].
    destruct (hv_lin ring Hs s sb LAdd _ _ _ _ HD1 HD2) as (dd & -> & HDD). cbn [rbind].
    assert (HDB : holds s ring cfg10 sb vb dd).
    { destruct (holds_len _ _ _ _ _ _ supported_2 HB) as (LB & _).
      assert (EB : vb = vt ring sb (fun e => nth e vb 0)).
      { apply (vt_self ring Hs s Hn); auto. apply Forall_forall. intros w Hw. apply In_nth with (d := 0) in Hw. destruct Hw as (e & He & <-).
        apply bits_in_ring; auto. apply (holds_bit s sb vb b); auto. lia. }
      rewrite EB. refine (hv_ext ring Hs s Hn sb dd _ _ _ HDD). intros e He. cbn beta iota. apply eqmod_eq.
      unfold mv. destruct (holds_bit _ _ _ _ e HB He) as [->| ->], (holds_bit _ _ _ _ e HCP He) as [->| ->]; reflexivity. }
    destruct (rm_lin_holds ring Hs s LSub _ _ _ _ _ _ _ _ _ HY HX (bshape_same sx)) as (yx & -> & HYX). cbn [rbind].
    destruct (rm_bil_exact ring Hs s SMul sb sx sx _ cfg10 d vb _ dd yx (subsup u 5 []) Hn (prod_mul_r ring _ _ _ Hb)
      (or_introl eq_refl) (cfg10_ok s Hn) (or_intror (or_intror eq_refl)) HDB HYX HU5) as (dyx & E & HDYX).
    change (bop_of SMul) with BMul in E. rewrite E. cbn [rbind].
    destruct (rm_lin_holds ring Hs s LAdd _ _ _ _ _ _ _ _ _ HX HDYX (bshape_same sx)) as (z & -> & HZ).
    exists z. split; [reflexivity|].
    destruct (holds_len _ _ _ _ _ _ Hs HX) as (LX & IX). destruct (holds_len _ _ _ _ _ _ Hs HY) as (LY & IY).
    destruct (holds_len _ _ _ _ _ _ Hs HDYX) as (LD & ID). destruct (holds_len _ _ _ _ _ _ Hs HZ) as (LZ & IZ).
    refine (eq_rect _ (fun w => holds s ring c sx w z) HZ _ _).
    apply (vec_eq ring Hs); [exact IZ| |rewrite map_length, seq_length; exact LZ|].
    { apply Forall_forall. intros w Hw. apply in_map_iff in Hw. destruct Hw as (e & <- & He). apply in_seq in He.
      destruct (bget sb sx vb e =? 0); apply (nth_in_ring ring); auto. }
    intros e He. rewrite LZ in He. rewrite (nth_map_in _ 0%nat) by (rewrite seq_length; auto). rewrite nth_seq_lt by auto. cbn [plus].
    set (D := mul_vr ring sb sx sx vb (s_lop ring LSub (bexpand sx sx vy) (bexpand sx sx vx))) in *.
    cbn [s_lop]. rewrite (bexpand_self sx vx LX), (bexpand_self sx D LD).
    unfold s_add. rewrite (nth_map2 _ 0 0 0) by lia. etransitivity; [apply to_ring_eqmod, Hp|].
    assert (ED : nth e D 0 == bget sb sx vb e * (nth e vy 0 - nth e vx 0) [mod ring]).
    { unfold D, mul_vr, s_mul. cbn [s_lop]. rewrite (bexpand_self sx vy LY), (bexpand_self sx vx LX), (bexpand_self sx (s_sub ring vy vx)).
      2:{ unfold s_sub. rewrite (map2_length_eq _ _ _ (numel sx)) by auto. reflexivity. }
      rewrite (nth_map2 _ 0 0 0).
      2:{ rewrite bexpand_length. exact He. }
      2:{ unfold s_sub. rewrite (map2_length_eq _ _ _ (numel sx)) by auto. exact He. }
      rewrite bexpand_nth by auto. etransitivity; [apply to_ring_eqmod, Hp|].
      unfold s_sub. rewrite (nth_map2 _ 0 0 0) by lia. rewrite to_ring_eqmod by apply Hp. reflexivity. }
    rewrite ED.
    assert (HBG : bget sb sx vb e = 0 \/ bget sb sx vb e = 1).
    { assert (HI : in_ring 2 (bget sb sx vb e)).
      { rewrite <- bexpand_nth by auto. destruct (holds_len _ _ _ _ _ _ supported_2 HB) as (LB & IB).
        apply (nth_in_ring 2); [exact supported_2|]. apply bexpand_in; auto using supported_2. }
      apply in_ring2. exact HI. }
    destruct HBG as [->| ->]; cbn [Z.eqb]; apply eqmod_eq; ring.
  Qed.
End Select.

Section Ttp.
  Variable s : rsess.
  Hypothesis Hn : rs_n s = 3%nat.
  Variable sh : list nat.

  Lemma ttp_ok ring c v x rnd : supported ring -> holds s ring c sh v x ->
    (forall i, (i < get_nr_bits (rs_ring s))%nat -> tensor_in 2 sh (mkT sh (fst (rnd i))) /\ tensor_in 2 sh (mkT sh (snd (rnd i)))) ->
    exists l, bit_decomposition_ttp s x rnd = Ok l /\ bits_of s sh (get_nr_bits (rs_ring s)) l (fun e => nth e v 0).
  Proof.
    intros Hs HX HR. unfold bit_decomposition_ttp. rewrite (holds_reconstruct ring Hs s _ _ _ _ HX) by lia. cbn [rbind tsh tdat].
    destruct (holds_len _ _ _ _ _ _ Hs HX) as (LV & _).
    set (sec := fun i => mkT sh (map (fun w => bit w i) v)).
    assert (HSEC : forall i, tensor_in 2 sh (sec i)).
    { intros i. split; [reflexivity|]. split; [cbn; rewrite map_length; exact LV|]. apply Forall_forall. intros w Hw. cbn in Hw.
      apply in_map_iff in Hw. destruct Hw as (w0 & <- & _). apply in_ring2, bit_01. }
    set (r3 := fun i => mkT sh (s_sum 2 (numel sh) (map tdat [sec i; mkT sh (fst (rnd i)); mkT sh (snd (rnd i))]))).
    set (q := fun i => mkRM (rs_id s) sh (rviews s 2 (fun _ => cfg10) [mkT sh (fst (rnd i)); mkT sh (snd (rnd i)); r3 i])).
    assert (E : forall i, (i < get_nr_bits (rs_ring s))%nat ->
      (do r3 <- shares_sum 2 [mkT sh (map (fun v => cast TBool (Z.land v (2 ^ Z.of_nat i))) v); mkT sh (fst (rnd i)); mkT sh (snd (rnd i))];
       do d <- rst_distribute s [mkT sh (fst (rnd i)); mkT sh (snd (rnd i)); r3] (Some 2) (Some (mkConfig 1 0));
       do ps <- received d; Ok (mkRM (rs_id s) sh ps)) = Ok (q i)).
    { intros i Hi. destruct (HR i Hi) as (H1 & H2). rewrite (map_ext _ (fun w => bit w i)) by (intros w; apply cast_bool_bit).
      fold (sec i). unfold shares_sum. rewrite (tsum_spec 2 supported_2 sh) by (try discriminate; auto). fold (r3 i). cbn [rbind].
      rewrite rst_distribute_ok by (cbn; lia). reflexivity. }
    rewrite (rmap_all _ q).
    2:{ intros i Hi. apply in_seq in Hi. apply E. lia. }
    exists (map q (seq 0 (get_nr_bits (rs_ring s)))). split; [reflexivity|]. split; [rewrite map_length, seq_length; reflexivity|].
    intros i d Hi. rewrite (nth_map_in _ 0%nat) by (rewrite seq_length; auto). rewrite nth_seq_lt by auto. cbn [plus].
    destruct (HR i Hi) as (H1 & H2). unfold hv. apply views_holds; [|cbn; lia|reflexivity].
    split; [discriminate|]. split.
    - constructor; [exact H1|]. constructor; [exact H2|]. constructor; [|constructor].
      split; [reflexivity|]. split; [cbn; unfold s_sum; rewrite map_length, seq_length; reflexivity|].
      cbn [r3 tdat]. unfold s_sum. apply Forall_forall. intros w Hw. apply in_map_iff in Hw. destruct Hw as (e & <- & _). apply in_to_ring. lia.
    - unfold vt, s_sum. apply map_ext_in. intros e He. apply in_seq in He. cbn [map zsum r3 tdat].
      unfold s_sum. rewrite (nth_map_in _ 0%nat) by (rewrite seq_length; lia). rewrite nth_seq_lt by lia. cbn [map zsum plus sec tdat].
      rewrite (nth_map_in _ 0) by lia.
      apply (in_ring_eq 2); try (apply in_to_ring; lia).
      assert (P2 : 0 < 2) by lia.
      etransitivity; [apply to_ring_eqmod, P2|]. etransitivity; [|symmetry; apply to_ring_eqmod, P2].
      set (a := nth e (fst (rnd i)) 0). set (b := nth e (snd (rnd i)) 0).
      destruct (to_ring_eqmod 2 (bit (nth e v 0) i + (a + (b + 0))) P2) as (k & Hk). rewrite Hk.
      exists (- (a + b + k)). ring.
  Qed.
End Ttp.
