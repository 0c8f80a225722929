(** Lemmas: non-zero masks, private comparison, selection, decomposition by the orchestrator. *)
From Coq Require Import QArith Setoid Morphisms Zpow_facts.
From Verif Require Import Util Modular S_Ring S_Bits S_Tensor S_Bil S_Spdz S_Rep M_Torch L_Torch M_Encoder M_Tensor L_Tensor M_Share L_Share M_Spdz L_Spdz L_Bil
  L_RShare L_Mul M_Session L_Session M_Rep S_RepT L_Rep L_Rep2 L_Rep3 L_Rep4 L_Rep5 L_Rep6 M_Aby3 L_Aby L_Aby2 L_Aby3 L_Aby4 L_Aby5.
Local Open Scope Z_scope.

Lemma hv_self ring s sh x g : rs_n s = 3%nat -> (forall e, (e < numel sh)%nat -> in_ring ring (g e)) -> hv ring s sh x g ->
  holds s ring cfg10 sh (map g (seq 0 (numel sh))) x.
Proof. intros Hn H HX. unfold hv in HX. rewrite (vt_const ring s Hn sh g H) in HX. exact HX. Qed.

Lemma bget_same sh v e : length v = numel sh -> (e < numel sh)%nat -> bget sh sh v e = nth e v 0.
Proof. intros HL He. rewrite <- bexpand_nth by auto. rewrite bexpand_self by auto. reflexivity. Qed.

Lemma euler67 v : v ^ 66 == if v mod 67 =? 0 then 0 else 1 [mod 67].
Proof.
  assert (C : forallb (fun i => (Z.of_nat i ^ 66) mod 67 =? (if Nat.eqb i 0 then 0 else 1)) (seq 0 67) = true) by (vm_compute; reflexivity).
  pose proof (Z.mod_pos_bound v 67 ltac:(lia)) as B.
  rewrite forallb_forall in C. specialize (C (Z.to_nat (v mod 67)) ltac:(apply in_seq; lia)). apply Z.eqb_eq in C.
  rewrite Z2Nat.id in C by lia. rewrite <- Zpower_mod in C by lia.
  assert (E : v ^ 66 == (v ^ 66) mod 67 [mod 67]) by (symmetry; apply mod_eqmod; lia).
  rewrite E, C. destruct (Z.eqb_spec (v mod 67) 0) as [E0|N0], (Nat.eqb_spec (Z.to_nat (v mod 67)) 0); try lia; reflexivity.
Qed.

Section Prime.
  Let Hs := supported_67.
  Variable s : rsess.
  Hypothesis Hn : rs_n s = 3%nat.
  Variable sh : list nat.
  Hypothesis Hsh : sh <> [].
  Let hvp := hv 67 s sh.
  Let N2 : 67 <> 2. Proof. discriminate. Qed.

  (** a random sharing of one number *)
  Definition draw_of (ps : list rst) (v : Z) : Prop := holds s 67 cfg10 [] [v] (mkRM (rs_id s) [] ps).

  Lemma repeat0_ok ps v : draw_of ps v -> hvp (mkRM (rs_id s) sh (map (rst_repeat0 sh) ps)) (fun _ => v).
  Proof.
    intros HX. destruct (holds_views _ _ _ _ _ _ HX) as (ss & cf & HS & HL & EX & Hcf & _). injection EX as ->.
    set (rep := fun t : tensor => mkT sh (repeat (nth 0 (tdat t) 0) (numel sh))).
    assert (E : map (rst_repeat0 sh) (rviews s 67 cf ss) = rviews s 67 (fun k => rst_cfg 67 (cf k)) (map rep ss)).
    { unfold rviews. rewrite map_length, map_map. apply map_ext. intros k. unfold rst_repeat0, rst_like, rst_make. cbn [r_shares r_ring r_cfg r_uuid].
      f_equal. destruct (rep_view_map rep ss k) as [->| ->]; reflexivity. }
    rewrite E. unfold hvp, hv. apply views_holds.
    - pose proof HS as (NE & HF & EV). split; [destruct ss; [contradiction|discriminate]|]. split.
      + apply Forall_forall. intros t Ht. apply in_map_iff in Ht. destruct Ht as (t0 & <- & Hin). rewrite Forall_forall in HF.
        destruct (HF _ Hin) as (_ & L0 & I0). split; [reflexivity|]. split; [cbn; apply repeat_length|]. cbn.
        apply Forall_forall. intros w Hw. apply repeat_spec in Hw. subst w. unfold vec_in in I0. rewrite Forall_forall in I0. apply I0, nth_In.
        rewrite L0. cbn. lia.
      + unfold vt, s_sum. apply map_ext_in. intros e He. apply in_seq in He. rewrite !map_map.
        assert (EE : map (fun x => nth e (tdat (rep x)) 0) ss = map (fun t => nth 0 (tdat t) 0) ss).
        { apply map_ext. intros t. unfold rep. cbn [tdat]. rewrite nth_repeat_lt by lia. reflexivity. }
        rewrite EE. unfold s_sum in EV. cbn [numel fold_right seq map] in EV. injection EV as EV. rewrite EV.
        change (to_ring 67) with (fun v => v mod 67). cbn beta. rewrite Z.mod_mod by lia. rewrite map_map. reflexivity.
    - rewrite map_length. exact HL.
    - intros k Hk. rewrite map_length in Hk. rewrite rst_cfg_idem. apply Hcf. exact Hk.
  Qed.

  Lemma prime_round ps v u : draw_of ps v -> good 67 s sh u ->
    exists t, (do e <- rm_pow_loop s 66 (mkRM (rs_id s) sh (map (rst_repeat0 sh) ps)) None u 0; rm_reconstruct s e) = Ok t /\
      forallb (fun v => v =? 1) (tdat t) = (Nat.eqb (numel sh) 0 || negb (v mod 67 =? 0))%bool.
  Proof.
    intros HD HU. pose proof (repeat0_ok ps v HD) as HM.
    destruct (pow_pos_loop 67 Hs s Hn sh Hsh 66 _ None u 0%nat _ (fun _ => 1) HM (fun e _ => eqmod_eq 67 1 1 eq_refl) HU) as (z & -> & HZ). cbn [rbind].
    rewrite (hv_reconstruct 67 Hs s Hn sh _ _ HZ). eexists. split; [reflexivity|]. cbn [tdat].
    assert (EV : vt 67 sh (fun _ => 1 * v ^ 66) = repeat (if v mod 67 =? 0 then 0 else 1) (numel sh)).
    { rewrite (vt_ext 67 Hs s Hn sh _ (fun _ => if v mod 67 =? 0 then 0 else 1)).
      - unfold vt. destruct (v mod 67 =? 0); (rewrite (map_ext _ (fun _ => to_ring 67 _)) by reflexivity).
        + change (to_ring 67 0) with 0. clear. generalize 0%nat as i. induction (numel sh); intros; cbn; [reflexivity|f_equal; auto].
        + change (to_ring 67 1) with 1. clear. generalize 0%nat as i. induction (numel sh); intros; cbn; [reflexivity|f_equal; auto].
      - intros e _. rewrite Z.mul_1_l. apply euler67. }
    rewrite EV. destruct (numel sh) as [|k]; [reflexivity|]. cbn [repeat forallb Nat.eqb orb].
    destruct (v mod 67 =? 0); [reflexivity|]. cbn [negb]. change (1 =? 1) with true. cbn [andb]. clear. induction k as [|k IH]; [reflexivity|]. cbn [repeat forallb]. rewrite IH. reflexivity.
  Qed.

  (** the first acceptable draw is used *)
  Lemma prime_group_ok u : good 67 s sh u -> forall dr vs k, Forall2 draw_of dr vs ->
    (exists m v, In v vs /\ (v mod 67 <> 0 \/ numel sh = 0%nat) /\ random_prime_group s sh dr u k = Done (Ok m) /\ hvp m (fun _ => v)) \/
    (random_prime_group s sh dr u k = Running /\ (0 < numel sh \/ dr = [])%nat /\ forall v, In v vs -> v mod 67 = 0).
  Proof.
    intros HU. induction dr as [|ps dr IH]; intros vs k HF; inversion HF as [|? v ? vs' HD HF']; subst.
    { right. split; [reflexivity|]. split; [auto|]. intros v []. }
    cbn [random_prime_group]. destruct (prime_round ps v (subsup u k) HD (good_sub 67 s sh _ _ HU)) as (t & -> & ->).
    destruct (Nat.eqb_spec (numel sh) 0) as [E|N]; cbn [orb].
    { left. exists (mkRM (rs_id s) sh (map (rst_repeat0 sh) ps)), v. split; [left; reflexivity|]. split; [auto|]. split; [reflexivity|apply repeat0_ok; auto]. }
    destruct (Z.eqb_spec (v mod 67) 0) as [E0|N0]; cbn [negb].
    - destruct (IH vs' (S k) HF') as [(m & w & Hin & H)|(E1 & _ & E2)].
      + left. exists m, w. split; [right; auto|exact H].
      + right. split; [exact E1|]. split; [left; lia|]. intros w [<-|Hin]; auto.
    - left. exists (mkRM (rs_id s) sh (map (rst_repeat0 sh) ps)), v. split; [left; reflexivity|]. split; [auto|]. split; [reflexivity|apply repeat0_ok; auto].
  Qed.
End Prime.

Section Compare.
  Variable s : rsess.
  Hypothesis Hn : rs_n s = 3%nat.
  Variable sh : list nat.
  Hypothesis Hsh : sh <> [].

  Lemma private_compare_ok n xs xv rsh r beta bv dr vs u :
    (1 <= n <= 65)%nat -> length xs = n -> (forall i d, (i < n)%nat -> hv 67 s sh (nth i xs d) (fun e => bit (xv e) i)) ->
    length r = numel rsh -> bshape sh rsh sh ->
    holds s 2 cfg10 sh bv (mkRM (rs_id s) sh beta) ->
    Forall2 (draw_of s) dr vs -> (exists v, In v vs /\ v mod 67 <> 0) ->
    good 67 s sh u ->
    exists z, private_compare s xs rsh r beta dr u = Done (Ok z) /\
      hv 2 s sh z (fun e => match digits (bit (xv e)) n ?= digits (bit (bget rsh sh r e)) n with
                            | Lt => 0 | Gt => 1 | Eq => 1 - nth e bv 0 end).
  Proof.
    intros Hk Lx Hx Hr Hb HB HF (v0 & Hv0 & Nv0) HU.
    unfold private_compare. destruct xs as [|x0 xr] eqn:EXS; [cbn in Lx; lia|]. cbn [get_nth nth_error].
    pose proof (Hx 0%nat x0 ltac:(lia)) as H0. cbn [nth] in H0. destruct (hv_attrs _ _ _ _ _ H0) as (_ & S0). rewrite S0. rewrite <- EXS in *. change PRIME with 67.
    destruct (bit_injection_ok 67 supported_67 s Hn sh Hsh _ bv (subsup u 0) HB (good_sub 67 s sh _ _ HU)) as (bp & -> & HBP).
    destruct (prime_group_ok s Hn sh Hsh (subsup u 1) (good_sub 67 s sh _ _ HU) dr vs 0%nat HF) as [(m & v & Hin & HV & -> & HM)|(_ & _ & HN)].
    2:{ exfalso. apply Nv0, HN, Hv0. }
    pose proof (compare_loop_ok s Hn sh Hsh n xs xv Lx Hx rsh r Hr Hb bp m _ _ HBP HM (subsup u 2) (good_sub 67 s sh _ _ HU)
      n (repeat (IV 0) n) (IV 0) (IV 0) ltac:(lia) (repeat_length _ _)) as (d' & E & z & -> & HZ).
    { exists (fun j e => if Nat.leb n j then cval (nth e bv 0) (xv e) (bget rsh sh r e) n j else 0). split.
      - intros j Hj. rewrite nth_repeat. intros e _. destruct (Nat.leb_spec n j); [lia|reflexivity].
      - intros j e Hj. destruct (Nat.leb_spec n j); [reflexivity|lia]. }
    { intros e _. unfold diffs. rewrite Nat.sub_diag. reflexivity. }
    { lia. }
    rewrite Lx. rewrite E. cbn [rbind]. rewrite (hv_reconstruct 67 supported_67 s Hn sh _ _ HZ). cbn [rbind tsh tdat].
    set (g := fun e => v * zprod (fun j e => cval (nth e bv 0) (xv e) (bget rsh sh r e) n j) (seq 0 n) e) in *.
    assert (HB' := hv_holds 2 supported_2 s Hn sh bv _ HB).
    assert (HP : pub_int 2 sh (PTensor sh (map (fun w => NInt (if w =? 0 then 0 else 1)) (vt 67 sh g))) (fun e => if to_ring 67 (g e) =? 0 then 0 else 1)).
    { exists (map (fun w => if w =? 0 then 0 else 1) (vt 67 sh g)). split; [unfold pub_ok; rewrite map_length; apply vt_length|].
      split; [cbn [pub_vals]; rewrite map_map; reflexivity|]. split; [apply bshape_same|]. split.
      - intros _. apply Forall_forall. intros w Hw. apply in_map_iff in Hw. destruct Hw as (w0 & <- & _). destruct (w0 =? 0); auto.
      - intros e He. cbn [pub_shape]. rewrite bget_map0 by reflexivity. etransitivity; [apply to_ring_eqmod; reflexivity|].
        rewrite bget_map0 by reflexivity. rewrite bget_same by (auto using vt_length). rewrite vt_nth by auto. reflexivity. }
    destruct (hv_lin_public 2 supported_2 s Hn sh LAdd _ _ _ _ HB' HP) as (q & -> & HQ).
    exists q. split; [reflexivity|]. refine (hv_ext 2 supported_2 s Hn sh q _ _ _ HQ). intros e He. cbn beta iota.
    destruct HV as [HV|HV]; [|lia].
    assert (Bb : nth e bv 0 = 0 \/ nth e bv 0 = 1).
    { destruct (holds_views _ _ _ _ _ _ HB) as (ss & cf & HS & _). pose proof (shared_vals 2 supported_2 _ _ _ HS) as (VL & VI & _).
      apply in_ring2. apply (nth_in_ring 2); auto using supported_2. }
    assert (Nm : ~ v == 0 [mod 67]).
    { intros (k & Ek). apply HV. replace v with (0 + k * 67) by lia. rewrite Z.mod_add by lia. reflexivity. }
    pose proof (cmp_zero (nth e bv 0) (xv e) (bget rsh sh r e) v n Bb ltac:(lia) Nm) as CZ.
    assert (Eg : to_ring 67 (g e) = 0 <-> v * zprod (fun j (_ : nat) => cval (nth e bv 0) (xv e) (bget rsh sh r e) n j) (seq 0 n) 0 == 0 [mod 67]).
    { unfold g. assert (EP : zprod (fun j e => cval (nth e bv 0) (xv e) (bget rsh sh r e) n j) (seq 0 n) e =
        zprod (fun j (_ : nat) => cval (nth e bv 0) (xv e) (bget rsh sh r e) n j) (seq 0 n) 0) by reflexivity.
      rewrite EP. set (p := v * _). clearbody p. change (to_ring 67 p) with (p mod 67). split.
      - intros H. rewrite <- (mod_eqmod p 67) by lia. rewrite H. reflexivity.
      - intros (k & Ek). replace p with (0 + k * 67) by lia. rewrite Z.mod_add by lia. reflexivity. }
    rewrite CZ in Eg.
    set (X := digits (bit (xv e)) n) in *. set (R := digits (bit (bget rsh sh r e)) n) in *.
    destruct Bb as [B|B]; rewrite B in *; cbn [Z.eqb] in Eg.
    - destruct (Z.compare_spec X R), (Z.eqb_spec (to_ring 67 (g e)) 0); try (exfalso; lia); apply eqmod_eq; lia.
    - destruct (Z.compare_spec X R), (Z.eqb_spec (to_ring 67 (g e)) 0); try (exfalso; lia); try (apply eqmod_eq; lia); exists 1; lia.
  Qed.
End Compare.
