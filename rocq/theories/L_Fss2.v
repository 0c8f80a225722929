(** Lemmas on the comparison protocol. *)
From Coq Require Import QArith String Setoid Morphisms.
From Verif Require Import Util Modular S_Ring S_Tensor S_Wraps S_Div S_Bil S_Fss M_Torch M_Encoder M_Float M_Tensor M_Share M_Spdz M_Store M_Fss
  L_Torch L_Tensor L_Encoder L_Float L_Share L_Spdz L_Div L_Bil L_Mul L_Circuit L_Rsub L_Store L_Fss.
Local Open Scope Z_scope.
Local Open Scope list_scope.

Ltac Zify.zify_post_hook ::= Z.div_mod_to_equations.
Lemma cast32 z : cast TI32 z = signed32 z.
Proof. reflexivity. Qed.

Lemma signed32_range z : - 2^31 <= signed32 z < 2^31.
Proof. unfold signed32. lia. Qed.

Lemma signed32_mod z : signed32 z mod 2^32 = z mod 2^32.
Proof. unfold signed32. lia. Qed.

Lemma signed32_cong a b : a mod 2^32 = b mod 2^32 -> signed32 a = signed32 b.
Proof. unfold signed32. lia. Qed.

Lemma signed32_small z : - 2^31 <= z < 2^31 -> signed32 z = z.
Proof. unfold signed32. lia. Qed.

(** the widened words add up exactly *)
Lemma words_exact a b t : 0 <= t <= 1 -> - 2^31 + 1 < signed32 a -> (a + b) mod 2^32 = t mod 2^32 ->
  signed32 a + signed32 b = t.
Proof.
  intros Ht Ha H. pose proof (signed32_range a). pose proof (signed32_range b).
  pose proof (signed32_mod a). pose proof (signed32_mod b). lia.
Qed.

(** ... and up to 2^32 in any case *)
Lemma words_any a b t : 0 <= t <= 1 -> (a + b) mod 2^32 = t mod 2^32 ->
  signed32 a + signed32 b = t \/ signed32 a + signed32 b = t - 2^32.
Proof.
  intros Ht H. pose proof (signed32_range a). pose proof (signed32_range b).
  pose proof (signed32_mod a). pose proof (signed32_mod b). lia.
Qed.
Ltac Zify.zify_post_hook ::= idtac.

Lemma b2z_range b : 0 <= b2z b <= 1.
Proof. destruct b; cbn; lia. Qed.

Lemma stack_fresh {K} (st : fstore K) o :
  dget st (fkey o) = None \/ dget st (fkey o) = Some [] \/ dget st (fkey o) = Some [[]] ->
  stack o st = [] \/ stack o st = [[]].
Proof. unfold stack. intros [->|[->| ->]]; auto. Qed.

Lemma fresh_stack {K} (st : fstore K) o : stack o st = [] \/ stack o st = [[]] ->
  dget st (fkey o) = None \/ dget st (fkey o) = Some [] \/ dget st (fkey o) = Some [[]].
Proof. unfold stack. destruct (dget st (fkey o)) as [s|]; auto. intros [->| ->]; auto. Qed.

Section Take.
  Context {K : Type}.
  Implicit Type w : fworld K.

  Lemma get_fresh (st : fstore K) o nr ks r : stack o st = [] \/ stack o st = [[]] -> length ks = nr ->
    fst (fss_get o (fss_add o st ks tt) nr r) = Ok ks.
  Proof.
    intros H L. rewrite fss_get_eq, stack_add. destruct (fop_dec o o) as [_|N]; [|congruence].
    destruct H as [->| ->]; rewrite (proj2 (Nat.leb_le nr (length ks))) by lia; rewrite firstn_all2 by lia; reflexivity.
  Qed.

  Lemma take_ok gen o nr w k0 k1 : none_waiting w -> gen o (w_calls w) nr = Ok [k0; k1] ->
    length k0 = nr -> length k1 = nr ->
    exists w', fss_take gen o nr w = (Ok ([k0; k1], [k0; k1]), w') /\ none_waiting w'.
  Proof.
    intros (s0 & s1 & EW & F) G L0 L1.
    assert (F0 : forall o, stack o s0 = [] \/ stack o s0 = [[]]) by (intro o'; apply stack_fresh, F; auto).
    assert (F1 : forall o, stack o s1 = [] \/ stack o s1 = [[]]) by (intro o'; apply stack_fresh, F; auto).
    unfold fss_take, generate_primitives.
    assert (EG : dget (fss_gens gen) (fkey o) = Some (gen o)) by (destruct o; reflexivity).
    rewrite EG, G, EW.
    assert (EA : dget (@fss_adders K) (fkey o) = Some (fss_add o)) by (destruct o; reflexivity).
    unfold transfer. cbn [List.length Nat.eqb negb]. rewrite EA.
    cbn [map2 combine map fst snd w_stores].
    unfold fss_get_all. cbn [map fst snd firstn skipn w_stores w_logging w_log w_calls app].
    set (a0 := fss_add o s0 k0 tt). set (a1 := fss_add o s1 k1 tt).
    assert (S0 : stack o a0 = [k0]).
    { unfold a0. rewrite stack_add. destruct (fop_dec o o); [|congruence]. destruct (F0 o) as [->| ->]; reflexivity. }
    assert (S1 : stack o a1 = [k1]).
    { unfold a1. rewrite stack_add. destruct (fop_dec o o); [|congruence]. destruct (F1 o) as [->| ->]; reflexivity. }
    unfold a0, a1. rewrite !get_fresh by auto. fold a0 a1. cbn [rseq rbind].
    set (b0 := snd (fss_get o a0 nr false)). set (b1 := snd (fss_get o a1 nr false)).
    assert (B0 : forall o', stack o' b0 = stack o' a0) by (intro o'; apply fss_peek_stack).
    assert (B1 : forall o', stack o' b1 = stack o' a1) by (intro o'; apply fss_peek_stack).
    rewrite !fss_get_eq, !B0, !B1, S0, S1.
    rewrite (proj2 (Nat.leb_le nr (length k0))), (proj2 (Nat.leb_le nr (length k1))) by lia.
    rewrite !firstn_all2 by lia. cbn [rseq rbind].
    eexists. split; [reflexivity|]. cbn [w_stores].
    eexists _, _. split; [reflexivity|]. intros o' st Hst. apply fresh_stack.
    destruct Hst as [->| ->].
    - rewrite (fss_get_stack b0 o' o nr true k0 []) by (rewrite ?B0; auto; apply Nat.leb_le; lia).
      destruct (fop_dec o' o) as [E|N]; auto. rewrite B0. unfold a0. rewrite stack_add.
      destruct (fop_dec o' o); [congruence|]. auto.
    - rewrite (fss_get_stack b1 o' o nr true k1 []) by (rewrite ?B1; auto; apply Nat.leb_le; lia).
      destruct (fop_dec o' o) as [E|N]; auto. rewrite B1. unfold a1. rewrite stack_add.
      destruct (fop_dec o' o); [congruence|]. auto.
  Qed.
End Take.

Section Core.
  Context {K : Type} (alpha : K -> Z) (ev : fop -> Z -> Z -> K -> Z).

  (** the test of one element *)
  Definition tst (o : fop) (a b : Z) : Z := b2z (test o (signed32 (a - b))).

  Lemma Forall2_nth {A B} (P : A -> B -> Prop) (da : A) (db : B) l1 l2 : Forall2 P l1 l2 -> forall e, (e < length l1)%nat -> P (nth e l1 da) (nth e l2 db).
  Proof. induction 1; intros [|e] He; cbn in *; try lia; auto. apply IHForall2. lia. Qed.

  Lemma core_words s o so x1 x2 v1 v2 k0 k1 :
    length (m_shares x1) = 2%nat -> length (m_shares x2) = 2%nat ->
    shared R64 (m_shape x1) v1 (m_shares x1) -> shared R64 (m_shape x2) v2 (m_shares x2) ->
    bshape (m_shape x1) (m_shape x2) so -> length k0 = numel so -> length k1 = numel so ->
    Forall2 (keys_ok alpha ev o) k0 k1 ->
    exists w0 w1,
      fss_core alpha ev s o so x1 x2 [k0; k1] [k0; k1] =
        Ok (mkM (s_id s) so [mkT so (encode (s_cfg s) (map NInt w0)); mkT so (encode (s_cfg s) (map NInt w1))]) /\
      length w0 = numel so /\ length w1 = numel so /\
      forall e, (e < numel so)%nat ->
        let t := tst o (bget (m_shape x1) so v1 e) (bget (m_shape x2) so v2 e) in
        - 2^31 <= nth e w0 0 < 2^31 /\ - 2^31 <= nth e w1 0 < 2^31 /\
        (nth e w0 0 + nth e w1 0 = t \/ nth e w0 0 + nth e w1 0 = t - 2^32) /\
        (Forall (no_carry ev o) k0 -> - 2^31 + 1 < nth e w0 0 /\ nth e w0 0 + nth e w1 0 = t).
  Proof.
    intros L1 L2 H1 H2 Hso LK0 LK1 HK.
    destruct (mpc_lin_shared LSub (mkM 0 (m_shape x1) (m_shares x1)) (mkM 0 (m_shape x2) (m_shares x2)) so v1 v2) as (d & ED & _ & _ & LD & SD);
      cbn [m_sid m_shape m_shares] in *; auto; [congruence|].
    unfold mpc_lin in ED. cbn [m_sid m_shape m_shares Nat.eqb negb] in ED.
    destruct (m_shares x1) as [|a0 [|a1 [|]]] eqn:E1; try discriminate.
    destruct (m_shares x2) as [|b0 [|b1 [|]]] eqn:E2; try discriminate.
    cbn [combine rmap fst snd] in ED.
    destruct (sh_lin LSub a0 b0) as [d0|] eqn:D0; [|discriminate]. cbn [rbind] in ED.
    destruct (sh_lin LSub a1 b1) as [d1|] eqn:D1; [|discriminate]. cbn [rbind] in ED.
    destruct (shape_bin _ _) as [so'|] eqn:ES; [|discriminate]. cbn [rbind] in ED. injection ED as <-.
    cbn [m_shares] in SD, LD.
    pose proof (shared_vals R64 supR _ _ _ SD) as (VL & VI & VN).
    destruct SD as (_ & FD & _). inversion FD as [|? ? (T0 & N0 & I0) FD']; subst. inversion FD' as [|? ? (T1 & N1 & I1) _]; subst. clear FD FD'.
    unfold fss_core. rewrite E1, E2. cbn [combine rmap fst snd]. unfold mask_builder. rewrite D0, D1. cbn [rbind].
    rewrite N0, N1, LK0, LK1, Nat.eqb_refl. cbn [rbind]. rewrite T1.
    set (so := tsh d0) in *. set (f := fun v k => cast TI64 (v + alpha k)).
    assert (TI : forall x k, vec_in R64 (map2 f x k)).
    { intros x k. revert k. induction x as [|x xs IH]; intros [|k ks]; try (constructor; fail). constructor; [apply (in_to_ring R64 (x + alpha k) posR)|apply IH]. }
    rewrite (tsum_spec R64 supR so).
    2:{ discriminate. }
    2:{ constructor; [|constructor; [|constructor]]; (split; [reflexivity|]; split; [cbn [tdat]; rewrite map2_length; lia|apply TI]). }
    cbn [rbind tsh tdat map get_nth nth_error].
    set (m := s_sum R64 (numel so) [map2 f (tdat d0) k0; map2 f (tdat d1) k1]).
    set (xm := map (fun v => v mod W32) m).
    assert (LM : length xm = numel so) by (unfold xm, m; rewrite map_length, s_sum_length; reflexivity).
    exists (map2 (fun x k => signed32 (ev o 0 x k)) xm k0), (map2 (fun x k => signed32 (ev o 1 x k)) xm k1).
    split. { unfold evaluate, get_nth. cbn [nth_error rbind]. rewrite !map_map2. reflexivity. }
    split; [rewrite map2_length; lia|]. split; [rewrite map2_length; lia|].
    intros e He. cbn zeta.
    destruct k0 as [|dk k0']; [cbn in LK0; lia|]. set (k0 := dk :: k0') in *.
    rewrite !(nth_map2 _ 0 dk 0) by lia.
    assert (X : 0 <= nth e xm 0 < 2^32).
    { unfold xm. rewrite (nth_map_in _ 0) by (unfold m; rewrite s_sum_length; auto). apply Z.mod_pos_bound. reflexivity. }
    pose proof (Forall2_nth _ dk dk _ _ HK e ltac:(lia)) as (A0 & A1 & HE). specialize (HE _ X).
    set (k0e := nth e k0 dk) in *. set (k1e := nth e k1 dk) in *.
    assert (TT : test o (signed32 (nth e xm 0 - alpha k0e - alpha k1e)) = test o (signed32 (bget (m_shape x1) so v1 e - bget (m_shape x2) so v2 e))).
    { f_equal. apply signed32_cong. unfold xm. rewrite (nth_map_in _ 0) by (unfold m; rewrite s_sum_length; auto).
      unfold W32.
      replace (nth e m 0 mod 2^32 - alpha k0e - alpha k1e) with (nth e m 0 - alpha k0e - alpha k1e + - (nth e m 0 / 2^32) * 2^32)
        by (rewrite (Z.mod_eq (nth e m 0) (2^32)) by discriminate; ring).
      rewrite Z_mod_plus_full.
      assert (Q : nth e m 0 == nth e (tdat d0) 0 + alpha k0e + (nth e (tdat d1) 0 + alpha k1e) [mod R64]).
      { unfold m. rewrite s_sum_nth by auto. rewrite to_ring_eqmod by apply posR. cbn [map zsum].
        rewrite !(nth_map2 _ 0 dk 0) by lia. unfold f.
        change (cast TI64) with (to_ring R64). rewrite !to_ring_eqmod by apply posR. apply eqmod_eq. fold k0e k1e. ring. }
      assert (Q2 : bget (m_shape x1) so v1 e - bget (m_shape x2) so v2 e == nth e (tdat d0) 0 + nth e (tdat d1) 0 [mod R64]).
      { specialize (VN e). cbn [map zsum] in VN. cbn [s_linop] in VN. unfold s_sub in VN.
        rewrite (nth_map2 _ 0 0 0) in VN by (rewrite !bexpand_length; auto). rewrite !bexpand_nth in VN by auto.
        rewrite to_ring_eqmod in VN by apply posR. etransitivity; [exact VN|]. apply eqmod_eq. ring. }
      assert (Q3 : nth e m 0 - alpha k0e - alpha k1e == bget (m_shape x1) so v1 e - bget (m_shape x2) so v2 e [mod R64]).
      { rewrite Q, Q2. apply eqmod_eq. ring. }
      unfold eqmod in Q3. destruct Q3 as [c Q3]. unfold R64 in Q3.
      replace (nth e m 0 - alpha k0e - alpha k1e) with (bget (m_shape x1) so v1 e - bget (m_shape x2) so v2 e + (c * 2^32) * 2^32) by lia.
      apply Z_mod_plus_full. }
    rewrite TT in HE. fold (tst o (bget (m_shape x1) so v1 e) (bget (m_shape x2) so v2 e)) in HE.
    split; [apply signed32_range|]. split; [apply signed32_range|]. split.
    - apply words_any; auto. apply b2z_range.
    - intros NC. rewrite Forall_forall in NC. assert (C : - 2^31 + 1 < signed32 (ev o 0 (nth e xm 0) k0e)) by (apply NC; [apply nth_In; lia|auto]).
      split; [exact C|]. apply words_exact; auto. apply b2z_range.
  Qed.
End Core.
