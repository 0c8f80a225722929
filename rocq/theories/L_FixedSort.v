(** Powers, comparisons of shared values and sort in fixed point, one position at a time. *)
From Coq Require Import QArith Reals Qreals Lra String Sorted Permutation.
From Verif Require Import Util Modular S_Ring S_Tensor S_Wraps S_Div S_Bil S_Spdz S_Circuit S_Fss S_Sort S_Real S_Fixed
  M_Torch M_Encoder M_Tensor M_Share M_Spdz M_Store M_Fss M_Engine M_Approx
  L_Torch L_Tensor L_Encoder L_Share L_Div L_Bil L_Mul L_Rsub L_Circuit L_Fss2 L_Fss3 L_Engine L_Algo L_Fixed L_Fixed2.
Local Open Scope Z_scope.
Local Open Scope list_scope.

Lemma f_weak {K A} (m0 : comp (mpcw (K:=K)) A) (m : comp _ A) (W W' P : A -> Prop) :
  (forall a, W a -> W' a) -> frun m0 m W P -> frun m0 m W' P.
Proof.
  intros HW H w b Hw. destruct (H w b Hw) as (a & w1 & b1 & E0 & E & N1 & M1 & WA & PA).
  exists a, w1, b1. repeat (split; [solve [auto]|]). auto.
Qed.

Section More.
  Context {K : Type} (alpha : K -> Z) (ev : fop -> Z -> Z -> K -> Z)
          (gen : fop -> nat -> nat -> result (list (list K))) (s : sess) (su : tri_supply) (sh : list nat) (e : nat).
  Hypothesis HG : good_gen (fun o k0 k1 => keys_ok alpha ev o k0 k1 /\ no_carry ev o k0) gen.
  Hypothesis Hn : s_n s = 2%nat.
  Hypothesis Hb : 1 <= c_base (s_cfg s).
  Hypothesis Hsh : sh <> [].
  Hypothesis HT : forall k, valid_triples sh sh sh (mul_val sh sh sh) 2 (su_tri su k sh sh).
  Hypothesis HR : forall k, draws (2^64) 2 [1%nat] (su_rnd su k).
  Hypothesis He : (e < numel sh)%nat.
  Notation ME := (mpc_engine alpha ev gen s su).
  Notation NE := (noted_engine alpha ev gen s su).
  Notation SC := (scale (s_cfg s)).
  Notation S_ := (IZR (scale (s_cfg s))).
  Notation u := (ulp (s_cfg s)).
  Notation dec := (dec s e).
  Notation at_ := (at_ e).
  Notation enc := (enc s).
  Notation sharing := (sharing s sh).

  (** x <= y, x < y, ... *)
  Lemma z_rel r x y : r <> Rne -> sharing x -> sharing y ->
    frun (e_rel ME (rop_of r) x y) (e_rel NE (rop_of r) x y) sharing
      (fun z => Z.abs (at_ x - at_ y) < 2^31 - 1 -> at_ z = to_ring R64 (b2z (relates r (at_ x) (at_ y)) * SC)).
  Proof.
    clear HT HR. intros Hr SX SY. destruct (sharing_rep s sh e He x SX) as (f & (X1 & X2 & X3 & X4) & EF & RF).
    destruct (sharing_rep s sh e He y SY) as (g & (Y1 & Y2 & Y3 & Y4) & EG & RG).
    cbn [e_rel noted_engine].
    assert (H : runs (e_rel ME (rop_of r) x y) (fun z => sharing z /\ (Z.abs (at_ x - at_ y) < 2^31 - 1 -> at_ z = to_ring R64 (b2z (relates r (at_ x) (at_ y)) * SC)))).
    { cbn [e_rel mpc_engine]. intros [w j] Hw. cbn [fst] in Hw. unfold m_rel. cbn [fst snd].
      destruct (rel_ok alpha ev gen HG s r x y sh (vals sh f) (vals sh g) ([], []) w) as (z & w' & E & W' & Z1 & Z2 & Z3 & Z4);
        rewrite ?X2, ?Y2; auto using bshape_same; try congruence.
      { destruct r; cbn; auto; try congruence; split; auto; discriminate. }
      rewrite E. exists z, (w', j). split; [reflexivity|]. split; [exact W'|].
      assert (GZ : L_Circuit.good s sh (truth (s_cfg s) sh (fun e0 => relates32 r (bget (m_shape x) sh (vals sh f) e0) (bget (m_shape y) sh (vals sh g) e0))) z)
        by (repeat (split; [congruence|]); exact Z4).
      split; [eexists; exact GZ|]. intros HD. rewrite (good_at s sh e He _ _ GZ). unfold truth. rewrite map_seq_nth by auto.
      rewrite X2, Y2, !bget_vals by auto. rewrite (small64 (f e)) by apply RF. rewrite (small64 (g e)) by apply RG. rewrite <- EF, <- EG.
      rewrite relates32_small by exact HD. reflexivity. }
    eapply f_weaken with (P := fun z => sharing z /\ (Z.abs (at_ x - at_ y) < 2^31 - 1 -> at_ z = to_ring R64 (b2z (relates r (at_ x) (at_ y)) * SC)));
      [|intros z _ [_ P]; exact P].
    intros w b Hw. destruct (f_quiet _ _ H w b Hw) as (a & w' & b' & E0 & E & N & M & WA & PA). exists a, w', b'.
    repeat (split; [assumption|]). split; [apply WA|exact PA].
  Qed.

  Open Scope R_scope.
  Notation BD := 9223372036854775808%R.

  Lemma f_gt x y : S_ < BD -> sharing x -> sharing y ->
    frun (e_rel ME RGt x y) (e_rel NE RGt x y) sharing
      (fun z => Rabs (dec x - dec y) * S_ < 2147483647 -> dec z = if Rlt_dec (dec y) (dec x) then 1 else 0).
  Proof.
    clear HT HR. intros HS SX SY. eapply f_weaken; [apply (z_rel Rgt x y); [discriminate|auto|auto]|]. intros z _ E HB. pose proof (S_pos s Hb) as SP.
    pose proof (at_dec s e Hb x) as AX. pose proof (at_dec s e Hb y) as AY.
    assert (B1 : (Z.abs (at_ x - at_ y) < 2^31 - 1)%Z).
    { apply lt_IZR. rewrite abs_IZR, minus_IZR, AX, AY. rewrite (abs_S s Hb) in HB. replace (dec x * S_ - dec y * S_) with ((dec x - dec y) * S_) by ring. exact HB. }
    specialize (E B1). cbn [relates] in E.
    assert (EZ : at_ z = (b2z (at_ y <? at_ x) * SC)%Z).
    { rewrite E. apply small64. apply int64_R. rewrite mult_IZR. destruct (_ <? _)%Z; cbn [b2z]; rewrite ?Rmult_1_l, ?Rmult_0_l, ?Rabs_R0; [rewrite Rabs_right; lra|lra]. }
    assert (DZ : dec z = if (at_ y <? at_ x)%Z then 1 else 0).
    { unfold L_Fixed.dec. rewrite EZ. unfold fixed. rewrite mult_IZR. destruct (_ <? _)%Z; cbn [b2z]; field; lra. }
    rewrite DZ. destruct (Z.ltb_spec (at_ y) (at_ x)) as [L|L]; destruct (Rlt_dec (dec y) (dec x)) as [M|M]; auto; exfalso.
    - apply IZR_lt in L. rewrite AX, AY in L. apply Rmult_lt_reg_r in L; lra.
    - apply IZR_le in L. rewrite AX, AY in L. apply Rmult_le_reg_r in L; lra.
  Qed.

  (** a product of two powers *)
  Lemma near_powers ca cb cz X M v a b z i j : 1 <= X -> X + 3 * u <= M -> Rabs v <= X -> (1 <= i)%nat -> (1 <= j)%nat ->
    0 <= ca <= 3 -> 0 <= cb <= 3 -> cz + 2 <= ca + cb ->
    Rabs (a - v ^ i) <= M ^ i - X ^ i - ca * u -> Rabs (b - v ^ j) <= M ^ j - X ^ j - cb * u ->
    Rabs (a * b) <= M ^ (i + j) /\
    (Rabs (z - a * b) <= 2 * u -> Rabs (z - v ^ (i + j)) <= M ^ (i + j) - X ^ (i + j) - cz * u).
  Proof.
    clear - Hb. intros HX HM HV Hi Hj Hca Hcb Hcz HA HB. pose proof (u_pos s Hb) as UP.
    assert (M1 : 1 + 3 * u <= M) by lra.
    assert (MI : forall k, (1 <= k)%nat -> 1 + 3 * u <= M ^ k).
    { intros k Hk. apply Rle_trans with (M ^ 1); [rewrite pow_1; exact M1|]. apply Rle_pow; [lra|exact Hk]. }
    pose proof (MI i Hi) as Mi. pose proof (MI j Hj) as Mj.
    assert (VA : forall k, Rabs (v ^ k) <= X ^ k).
    { intros k. rewrite <- RPow_abs. apply pow_incr. split; [apply Rabs_pos|exact HV]. }
    assert (XP : forall k, 0 < X ^ k) by (intros k; apply pow_lt; lra).
    pose proof (VA i) as Vi. pose proof (VA j) as Vj. pose proof (XP i) as Xi. pose proof (XP j) as Xj. rewrite !pow_add.
    set (A := X ^ i) in *. set (B := X ^ j) in *. set (P := M ^ i) in *. set (Q := M ^ j) in *. set (vi := v ^ i) in *. set (vj := v ^ j) in *.
    set (ea := Rabs (a - vi)) in *. set (eb := Rabs (b - vj)) in *.
    assert (E1 : 0 <= ea) by apply Rabs_pos. assert (E2 : 0 <= eb) by apply Rabs_pos.
    pose proof (Rabs_pos vi) as V1. pose proof (Rabs_pos vj) as V2.
    assert (CA : 0 <= ca * u <= 3 * u) by (split; [apply Rmult_le_pos; lra|apply Rmult_le_compat_r; lra]).
    assert (CB : 0 <= cb * u <= 3 * u) by (split; [apply Rmult_le_pos; lra|apply Rmult_le_compat_r; lra]).
    assert (TA : Rabs a <= A + ea). { replace a with ((a - vi) + vi) by ring. eapply Rle_trans; [apply Rabs_triang|]. unfold ea. lra. }
    assert (TB : Rabs b <= B + eb). { replace b with ((b - vj) + vj) by ring. eapply Rle_trans; [apply Rabs_triang|]. unfold eb. lra. }
    assert (TP : (A + ea) * (B + eb) <= (P - ca * u) * (Q - cb * u)) by (apply Rmult_le_compat; lra).
    split.
    - rewrite Rabs_mult. apply Rle_trans with ((A + ea) * (B + eb)).
      + apply Rmult_le_compat; auto using Rabs_pos.
      + eapply Rle_trans; [exact TP|]. apply Rmult_le_compat; lra.
    - intros HZ. replace (z - vi * vj) with ((z - a * b) + ((a - vi) * (b - vj) + (vi * (b - vj) + (a - vi) * vj))) by ring.
      eapply Rle_trans; [apply Rabs_triang|].
      assert (D : Rabs ((a - vi) * (b - vj) + (vi * (b - vj) + (a - vi) * vj)) <= ea * eb + (A * eb + ea * B)).
      { eapply Rle_trans; [apply Rabs_triang|]. rewrite Rabs_mult. fold ea eb. apply Rplus_le_compat_l.
        eapply Rle_trans; [apply Rabs_triang|]. rewrite !Rabs_mult. fold ea eb. apply Rplus_le_compat.
        - apply Rmult_le_compat_r; auto.
        - apply Rmult_le_compat_l; auto. }
      assert (F : (P - ca * u) * (Q - cb * u) <= P * Q - (cz + 2) * u).
      { replace ((P - ca * u) * (Q - cb * u)) with (P * Q - u * (cb * P + ca * (Q - cb * u))) by ring.
        assert (F1 : cb * 1 <= cb * P) by (apply Rmult_le_compat_l; lra).
        assert (F2 : ca * 1 <= ca * (Q - cb * u)) by (apply Rmult_le_compat_l; lra).
        assert (u * (cz + 2) <= u * (cb * P + ca * (Q - cb * u))); [|lra]. apply Rmult_le_compat_l; lra. }
      assert (G : (A + ea) * (B + eb) = A * B + (ea * eb + (A * eb + ea * B))) by ring. lra.
  Qed.

  (** a power as a sequence of products *)
  Lemma f_pow p : forall x acc, S_ < BD -> sharing x -> (forall r, acc = Some r -> sharing r) ->
    frun (K:=K) (m_pow s su p x acc) (n_pow s su p x acc) sharing
      (fun z => forall X M i j v, 1 <= X -> X + 3 * u <= M -> Rabs v <= X -> (1 <= i)%nat ->
         M ^ (j + i * Pos.to_nat p) * (S_ * S_) < BD ->
         Rabs (dec x - v ^ i) <= M ^ i - X ^ i - 3 * u ->
         match acc with None => j = 0%nat | Some r => (1 <= j)%nat /\ Rabs (dec r - v ^ j) <= M ^ j - X ^ j - 2 * u end ->
         Rabs (dec z - v ^ (j + i * Pos.to_nat p)) <= M ^ (j + i * Pos.to_nat p) - X ^ (j + i * Pos.to_nat p) - 2 * u).
  Proof.
    clear HR HG. pose proof (S_pos s Hb) as SP. pose proof (u_pos s Hb) as UP.
    assert (MUL : forall ca cb cz X M v a b z i j t, 1 <= X -> X + 3 * u <= M -> Rabs v <= X -> (1 <= i)%nat -> (1 <= j)%nat -> (i + j <= t)%nat ->
      M ^ t * (S_ * S_) < BD -> 0 <= ca <= 3 -> 0 <= cb <= 3 -> cz + 2 <= ca + cb ->
      Rabs (a - v ^ i) <= M ^ i - X ^ i - ca * u -> Rabs (b - v ^ j) <= M ^ j - X ^ j - cb * u ->
      (Rabs (a * b) * (S_ * S_) < BD -> Rabs (z - a * b) <= 2 * u /\ (forall k, a = IZR k \/ b = IZR k -> Rabs (z - a * b) <= u)) ->
      Rabs (z - v ^ (i + j)) <= M ^ (i + j) - X ^ (i + j) - cz * u).
    { intros ca cb cz X M v a b z i j t HX HM HV Hi Hj Ht HB Hca Hcb Hcz HA HBB HZ.
      destruct (near_powers ca cb cz X M v a b z i j) as [N1 N2]; auto. apply N2. apply HZ.
      eapply Rle_lt_trans; [|exact HB]. apply Rmult_le_compat_r; [nra|]. eapply Rle_trans; [exact N1|]. apply Rle_pow; [lra|exact Ht]. }
    induction p as [p IH|p IH|]; intros x acc HS SX SA; cbn [m_pow n_pow].
    - eapply f_bind with (W := sharing)
        (P := fun r => match acc with None => Rabs (dec x * 1) * (S_ * S_) < BD -> Rabs (dec r - dec x * 1) <= u
                       | Some a => Rabs (dec a * dec x) * (S_ * S_) < BD -> Rabs (dec r - dec a * dec x) <= 2 * u /\
                         (forall k, dec a = IZR k \/ dec x = IZR k -> Rabs (dec r - dec a * dec x) <= u) end).
      { destruct acc as [a|]; [apply (f_mul alpha ev gen s su sh e Hn Hb HT He a x); auto|].
        apply (f_mulp_int alpha ev gen s su sh e Hn Hb Hsh He x 1); auto. rewrite Rabs_right; lra. }
      intros r SR. eapply f_bind; [apply (f_mul alpha ev gen s su sh e Hn Hb HT He x x); auto|]. intros b SB.
      eapply f_weaken; [apply (IH b (Some r)); auto; intros r' Hr'; injection Hr' as <-; exact SR|].
      intros z _ EZ EB ER X M i j v HX HM HV Hi HB HA HJ. rewrite Pos2Nat.inj_xI in *.
      set (q := Pos.to_nat p) in *. pose proof (Pos2Nat.is_pos p) as Hq. fold q in Hq.
      replace (j + i * S (2 * q))%nat with ((j + i) + (i + i) * q)%nat in * by lia.
      apply EZ; auto; try lia.
      + apply (MUL 3 3 3 X M v (dec x) (dec x) (dec b) i i ((j + i) + (i + i) * q)%nat); auto; try lra; nia.
      + split; [lia|]. destruct acc as [a|].
        * destruct HJ as [Hj HJ]. apply (MUL 2 3 2 X M v (dec a) (dec x) (dec r) j i ((j + i) + (i + i) * q)%nat); auto; try lra; nia.
        * subst j. cbn [Nat.add]. rewrite Rmult_1_r in ER.
          replace (dec r - v ^ i) with ((dec r - dec x) + (dec x - v ^ i)) by ring. eapply Rle_trans; [apply Rabs_triang|].
          assert (Rabs (dec r - dec x) <= u); [|lra]. apply ER. eapply Rle_lt_trans; [|exact HB]. apply Rmult_le_compat_r; [nra|].
          assert (VA : Rabs (v ^ i) <= X ^ i). { rewrite <- RPow_abs. apply pow_incr. split; [apply Rabs_pos|exact HV]. }
          apply Rle_trans with (M ^ i); [|apply Rle_pow; [lra|nia]].
          replace (dec x) with ((dec x - v ^ i) + v ^ i) by ring. eapply Rle_trans; [apply Rabs_triang|]. lra.
    - eapply f_bind; [apply (f_mul alpha ev gen s su sh e Hn Hb HT He x x); auto|]. intros b SB.
      eapply f_weaken; [apply (IH b acc); auto|].
      intros z _ EZ EB X M i j v HX HM HV Hi HB HA HJ. rewrite Pos2Nat.inj_xO in *.
      set (q := Pos.to_nat p) in *. pose proof (Pos2Nat.is_pos p) as Hq. fold q in Hq.
      replace (j + i * (2 * q))%nat with (j + (i + i) * q)%nat in * by lia.
      apply EZ; auto; try lia.
      apply (MUL 3 3 3 X M v (dec x) (dec x) (dec b) i i (j + (i + i) * q)%nat); auto; try lra; nia.
    - eapply f_bind with (W := sharing)
        (P := fun r => match acc with None => Rabs (dec x * 1) * (S_ * S_) < BD -> Rabs (dec r - dec x * 1) <= u
                       | Some a => Rabs (dec a * dec x) * (S_ * S_) < BD -> Rabs (dec r - dec a * dec x) <= 2 * u /\
                         (forall k, dec a = IZR k \/ dec x = IZR k -> Rabs (dec r - dec a * dec x) <= u) end).
      { destruct acc as [a|]; [apply (f_mul alpha ev gen s su sh e Hn Hb HT He a x); auto|].
        apply (f_mulp_int alpha ev gen s su sh e Hn Hb Hsh He x 1); auto. rewrite Rabs_right; lra. }
      intros r SR. eapply f_bind; [apply (z_dropped alpha ev gen s su sh e Hn Hb HT He x SX)|]. intros d SD. apply f_ret; auto.
      intros _ ER X M i j v HX HM HV Hi HB HA HJ. change (Pos.to_nat 1) with 1%nat in *. rewrite Nat.mul_1_r in *.
      destruct acc as [a|].
      + destruct HJ as [Hj HJ]. apply (MUL 2 3 2 X M v (dec a) (dec x) (dec r) j i (j + i)%nat); auto; try lra; lia.
      + subst j. cbn [Nat.add] in *. rewrite Rmult_1_r in ER.
        replace (dec r - v ^ i) with ((dec r - dec x) + (dec x - v ^ i)) by ring. eapply Rle_trans; [apply Rabs_triang|].
        assert (Rabs (dec r - dec x) <= u); [|lra]. apply ER. eapply Rle_lt_trans; [|exact HB]. apply Rmult_le_compat_r; [nra|].
        assert (VA : Rabs (v ^ i) <= X ^ i). { rewrite <- RPow_abs. apply pow_incr. split; [apply Rabs_pos|exact HV]. }
        replace (dec x) with ((dec x - v ^ i) + v ^ i) by ring. eapply Rle_trans; [apply Rabs_triang|]. lra.
  Qed.

  (** x ^ k *)
  Lemma f_power p x : S_ < BD -> sharing x ->
    frun (e_pow ME x p) (e_pow NE x p) sharing
      (fun z => forall B, 1 <= B -> Rabs (dec x) <= B -> (B + 3 * u) ^ Pos.to_nat p * (S_ * S_) < BD ->
        Rabs (dec z - dec x ^ Pos.to_nat p) <= (B + 3 * u) ^ Pos.to_nat p - B ^ Pos.to_nat p - 2 * u).
  Proof.
    clear HR HG. intros HS SX. cbn [e_pow mpc_engine noted_engine]. eapply f_weaken; [apply (f_pow p x None); auto; discriminate|].
    intros z _ EZ B HB HX HBD. pose proof (u_pos s Hb) as UP.
    specialize (EZ B (B + 3 * u) 1%nat 0%nat (dec x) HB). cbn [Nat.add] in EZ. rewrite Nat.mul_1_l in EZ. apply EZ; auto; try lra.
    rewrite !pow_1. replace (dec x - dec x) with 0 by ring. rewrite Rabs_R0. lra.
  Qed.

  (** exchanging two values *)
  Lemma exchange_f B x y : 0 <= B -> (B + 1) * S_ <= 1073741823 -> sharing x -> sharing y ->
    frun (exchange ME x y) (exchange NE x y) (fun p => sharing (fst p) /\ sharing (snd p))
      (fun p => Rabs (dec x) <= B + 1 -> Rabs (dec y) <= B + 1 ->
         Rabs (dec (fst p) - Rmin (dec x) (dec y)) <= (4 + B) * u /\ Rabs (dec (snd p) - Rmax (dec x) (dec y)) <= (4 + B) * u).
  Proof.
    intros HB HS SX SY. pose proof (S_pos s Hb) as SP. pose proof (u_pos s Hb) as UP. pose proof (u01 s Hb) as U1.
    assert (HS2 : S_ <= 1073741823) by (clear - HB HS SP; nra). assert (HS1 : S_ <= 2147483648) by lra.
    unfold exchange.
    eapply f_bind; [apply (f_gt x y); auto; lra|]. intros c SC_.
    eapply f_bind; [apply (f_rsub alpha ev gen s su sh e Hn Hb Hsh He (NInt 1) c); auto; lra|]. intros n SN.
    eapply f_bind; [apply (f_mul alpha ev gen s su sh e Hn Hb HT He n x); auto|]. intros p1 S1_.
    eapply f_bind; [apply (f_mul alpha ev gen s su sh e Hn Hb HT He c y); auto|]. intros q1 S2_.
    eapply f_bind; [apply (f_lin alpha ev gen s su sh e Hb He LAdd p1 q1); auto|]. intros a SA.
    eapply f_bind; [apply (f_mul alpha ev gen s su sh e Hn Hb HT He n y); auto|]. intros p2 S3_.
    eapply f_bind; [apply (f_mul alpha ev gen s su sh e Hn Hb HT He c x); auto|]. intros q2 S4_.
    eapply f_bind; [apply (f_lin alpha ev gen s su sh e Hb He LAdd p2 q2); auto|]. intros b SB.
    apply f_ret; [split; auto|]. cbn [fst snd lin_R]. intros Eb Eq2 Ep2 Ea Eq1 Ep1 En Ec HX HY.
    rewrite (enc1 s Hb HS1) in En.
    assert (DC : dec c = if Rlt_dec (dec y) (dec x) then 1 else 0).
    { apply Ec. assert (Rabs (dec x - dec y) <= 2 * (B + 1)) by (eapply Rle_trans; [apply Rabs_triang|]; rewrite Rabs_Ropp; lra). eapply Rle_lt_trans; [apply Rmult_le_compat_r; [lra|eassumption]|]. lra. }
    clear Ec. assert (C01 : dec c = 0 \/ dec c = 1) by (rewrite DC; destruct (Rlt_dec _ _); auto).
    assert (DN : Rabs (dec n - (1 - dec c)) <= u).
    { apply En. assert (Rabs (dec c - 1) <= 1) by (apply Rabs_le; destruct C01 as [->| ->]; lra).
      apply Rle_lt_trans with (1 * (1073741823 * 1073741823)); [|lra]. apply Rmult_le_compat; auto using Rabs_pos; nra. }
    assert (AN : Rabs (dec n) <= 2). { apply Rabs_le. unfold Rabs in DN. destruct C01 as [E|E]; rewrite E in DN; destruct (Rcase_abs _); lra. }
    assert (AC : Rabs (dec c) <= 2). { apply Rabs_le. destruct C01 as [->| ->]; lra. }
    assert (FX : fits s (dec x)) by (unfold fits; eapply Rle_lt_trans; [apply Rmult_le_compat_r; [lra|exact HX]|lra]).
    assert (FY : fits s (dec y)) by (unfold fits; eapply Rle_lt_trans; [apply Rmult_le_compat_r; [lra|exact HY]|lra]).
    assert (IC : exists k, dec c = IZR k) by (destruct C01 as [->| ->]; [exists 0%Z|exists 1%Z]; reflexivity). destruct IC as [kc IC].
    assert (D1 : forall t, Rabs t <= B + 1 -> forall p, Rabs (p - dec n * t) <= 2 * u -> Rabs (p - (1 - dec c) * t) <= (3 + B) * u).
    { intros t Ht p Hp. replace (p - (1 - dec c) * t) with ((p - dec n * t) + (dec n - (1 - dec c)) * t) by ring.
      eapply Rle_trans; [apply Rabs_triang|]. rewrite Rabs_mult.
      assert (Rabs (dec n - (1 - dec c)) * Rabs t <= u * (B + 1)) by (apply Rmult_le_compat; auto using Rabs_pos). lra. }
    assert (P1 : Rabs (dec p1 - (1 - dec c) * dec x) <= (3 + B) * u).
    { apply D1; auto. apply Ep1. rewrite (Rmult_comm (dec n)). apply (fits_prod s Hb); auto. }
    assert (P2 : Rabs (dec p2 - (1 - dec c) * dec y) <= (3 + B) * u).
    { apply D1; auto. apply Ep2. rewrite (Rmult_comm (dec n)). apply (fits_prod s Hb); auto. }
    assert (Q1 : Rabs (dec q1 - dec c * dec y) <= u).
    { apply (proj2 (Eq1 ltac:(rewrite (Rmult_comm (dec c)); apply (fits_prod s Hb); auto)) kc). auto. }
    assert (Q2 : Rabs (dec q2 - dec c * dec x) <= u).
    { apply (proj2 (Eq2 ltac:(rewrite (Rmult_comm (dec c)); apply (fits_prod s Hb); auto)) kc). auto. }
    assert (SM : forall p q m, Rabs (p + q - m) <= (4 + B) * u -> Rabs m <= B + 1 -> Rabs (p + q) * S_ < BD).
    { intros p q m H1 H2. assert (Rabs (p + q) <= (4 + B) * u + (B + 1)).
      { replace (p + q) with ((p + q - m) + m) by ring. eapply Rle_trans; [apply Rabs_triang|]. lra. }
      pose proof (u_S s Hb). apply Rle_lt_trans with (((4 + B) * u + (B + 1)) * S_); [apply Rmult_le_compat_r; lra|].
      replace (((4 + B) * u + (B + 1)) * S_) with ((4 + B) * (u * S_) + (B + 1) * S_) by ring. rewrite H0.
      assert (B + 1 <= (B + 1) * S_) by (rewrite <- (Rmult_1_r (B + 1)) at 1; apply Rmult_le_compat_l; lra). lra. }
    assert (T1 : Rabs (dec p1 + dec q1 - Rmin (dec x) (dec y)) <= (4 + B) * u).
    { replace (Rmin (dec x) (dec y)) with ((1 - dec c) * dec x + dec c * dec y).
      - replace (dec p1 + dec q1 - ((1 - dec c) * dec x + dec c * dec y)) with ((dec p1 - (1 - dec c) * dec x) + (dec q1 - dec c * dec y)) by ring.
        eapply Rle_trans; [apply Rabs_triang|]. lra.
      - rewrite DC. unfold Rmin. destruct (Rlt_dec _ _), (Rle_dec _ _); lra. }
    assert (T2 : Rabs (dec p2 + dec q2 - Rmax (dec x) (dec y)) <= (4 + B) * u).
    { replace (Rmax (dec x) (dec y)) with ((1 - dec c) * dec y + dec c * dec x).
      - replace (dec p2 + dec q2 - ((1 - dec c) * dec y + dec c * dec x)) with ((dec p2 - (1 - dec c) * dec y) + (dec q2 - dec c * dec x)) by ring.
        eapply Rle_trans; [apply Rabs_triang|]. lra.
      - rewrite DC. unfold Rmax. destruct (Rlt_dec _ _), (Rle_dec _ _); lra. }
    rewrite Ea, Eb; auto.
    - apply (SM _ _ (Rmax (dec x) (dec y)) T2). unfold Rmax. destruct (Rle_dec _ _); auto.
    - apply (SM _ _ (Rmin (dec x) (dec y)) T1). unfold Rmin. destruct (Rle_dec _ _); auto.
  Qed.

  Notation fx := (fixed (s_cfg s)).
  Lemma fixed_le a b : (a <= b)%Z -> fx a <= fx b.
  Proof. clear - Hb. intros H. apply IZR_le in H. pose proof (S_pos s Hb). unfold fixed. apply Rmult_le_compat_r; [left; apply Rinv_0_lt_compat; lra|auto]. Qed.
  Lemma fixed_min a b : fx (Z.min a b) = Rmin (fx a) (fx b).
  Proof.
    clear - Hb. destruct (Z.le_ge_cases a b) as [H|H]; [rewrite Z.min_l|rewrite Z.min_r]; auto; apply fixed_le in H;
      [rewrite Rmin_left|rewrite Rmin_right]; auto.
  Qed.
  Lemma fixed_max a b : fx (Z.max a b) = Rmax (fx a) (fx b).
  Proof.
    clear - Hb. destruct (Z.le_ge_cases a b) as [H|H]; [rewrite Z.max_r|rewrite Z.max_l]; auto; apply fixed_le in H;
      [rewrite Rmax_right|rewrite Rmax_left]; auto.
  Qed.
  Lemma min_near a b c d t : Rabs (a - c) <= t -> Rabs (b - d) <= t -> Rabs (Rmin a b - Rmin c d) <= t.
  Proof. clear. intros H1 H2. apply Rabs_le. unfold Rmin, Rabs in *. destruct (Rle_dec a b), (Rle_dec c d), (Rcase_abs (a - c)), (Rcase_abs (b - d)); lra. Qed.
  Lemma max_near a b c d t : Rabs (a - c) <= t -> Rabs (b - d) <= t -> Rabs (Rmax a b - Rmax c d) <= t.
  Proof. clear. intros H1 H2. apply Rabs_le. unfold Rmax, Rabs in *. destruct (Rle_dec a b), (Rle_dec c d), (Rcase_abs (a - c)), (Rcase_abs (b - d)); lra. Qed.

  (** position [j] is at most [c + j] errors of an exchange off *)
  Fixpoint near (B : R) (c : nat) (v : list Z) (l : list mpc) : Prop :=
    match v, l with
    | [], [] => True
    | a :: v, x :: l => Rabs (dec x - fx a) <= INR c * ((4 + B) * u) /\ near B (S c) v l
    | _, _ => False
    end.
  Lemma near_mono B : 0 <= B -> forall v c c' l, (c <= c')%nat -> near B c v l -> near B c' v l.
  Proof.
    clear - Hb. intros HB v. pose proof (u_pos s Hb). induction v as [|a v IH]; intros c c' [|x l] Hc; cbn [near]; auto.
    intros [H1 H2]. split; [|apply (IH (S c)); auto; lia]. eapply Rle_trans; [exact H1|]. apply Rmult_le_compat_r; [nra|]. apply le_INR, Hc.
  Qed.

  Section Lists.
    Variables (B : R) (T : nat).
    Hypothesis HB : 0 <= B.
    Hypothesis HS : (B + 1) * S_ <= 1073741823.
    Hypothesis HTT : INR T * ((4 + B) * u) <= 1.
    Let small (v : list Z) : Prop := Forall (fun a => Rabs (fx a) <= B) v.

    Lemma within a x c : Rabs (fx a) <= B -> (c <= T)%nat -> Rabs (dec x - fx a) <= INR c * ((4 + B) * u) -> Rabs (dec x) <= B + 1.
    Proof.
      clear - HB HTT Hb. intros H1 H2 H3. pose proof (u_pos s Hb). apply le_INR in H2.
      assert (INR c * ((4 + B) * u) <= INR T * ((4 + B) * u)) by (apply Rmult_le_compat_r; nra).
      replace (dec x) with ((dec x - fx a) + fx a) by ring. eapply Rle_trans; [apply Rabs_triang|]. lra.
    Qed.

    Lemma bubble_f m : forall l, Forall sharing l ->
      frun (bubble ME m l) (bubble NE m l) (fun l' => Forall sharing l' /\ length l' = length l)
        (fun l' => forall k a v x r, l = x :: r -> small (a :: v) -> (k + 1 + length v <= T)%nat ->
           Rabs (dec x - fx a) <= INR (k + 1) * ((4 + B) * u) -> near B (k + 1) v r -> near B (k + 2) (bub m (a :: v)) l').
    Proof.
      pose proof (u_pos s Hb) as UP. assert (DP : 0 <= (4 + B) * u) by nra.
      assert (BASE : forall k a v x r, Rabs (dec x - fx a) <= INR (k + 1) * ((4 + B) * u) -> near B (k + 1) v r -> near B (k + 2) (a :: v) (x :: r)).
      { intros k a v x r H1 H2. split; [|eapply near_mono; [auto| |exact H2]; lia]. eapply Rle_trans; [exact H1|]. apply Rmult_le_compat_r; auto. apply le_INR. lia. }
      induction m as [|m IH]; intros l HL.
      - cbn [bubble bub]. apply f_ret; [auto|]. intros k a v x r -> _ _. destruct v; apply BASE.
      - destruct l as [|x [|y l]].
        + cbn [bubble]. apply f_ret; [auto|]. discriminate.
        + cbn [bubble]. apply f_ret; [auto|]. intros k a v x' r Hr _ _ H1 H2. injection Hr as <- <-. destruct v; [|destruct H2]. apply BASE; auto.
        + cbn [bubble]. pose proof (Forall_inv HL) as SX. pose proof (Forall_inv (Forall_inv_tail HL)) as SY. pose proof (Forall_inv_tail (Forall_inv_tail HL)) as SL.
          eapply f_bind; [apply (exchange_f B x y); auto|]. intros [x' y'] [SX' SY']. cbn [fst snd] in *.
          eapply f_bind; [apply (IH (y' :: l)); auto|]. intros l' [SL' LL']. apply f_ret; [split; [auto|cbn [length] in *; lia]|].
          intros HL' EX k a v x0 r Hr HV HK H1 H2. injection Hr as <- <-.
          destruct v as [|b v]; [destruct H2|]. destruct H2 as [H2 H3]. cbn [length] in HK.
          pose proof (Forall_inv HV) as BA. pose proof (Forall_inv (Forall_inv_tail HV)) as BB. pose proof (Forall_inv_tail (Forall_inv_tail HV)) as BV. cbv beta in BA, BB.
          destruct EX as [E1 E2]; [apply (within a x (k + 1)); auto; lia|apply (within b y (k + 1)); auto; lia|].
          assert (N2 : INR (k + 2) = INR (k + 1) + 1) by (replace (k + 2)%nat with (S (k + 1)) by lia; apply S_INR).
          assert (N1 : Rabs (dec x' - fx (Z.min a b)) <= INR (k + 2) * ((4 + B) * u)).
          { rewrite fixed_min. replace (dec x' - Rmin (fx a) (fx b)) with ((dec x' - Rmin (dec x) (dec y)) + (Rmin (dec x) (dec y) - Rmin (fx a) (fx b))) by ring.
            eapply Rle_trans; [apply Rabs_triang|]. pose proof (min_near _ _ _ _ _ H1 H2). rewrite N2. lra. }
          assert (N3 : Rabs (dec y' - fx (Z.max a b)) <= INR (k + 2) * ((4 + B) * u)).
          { rewrite fixed_max. replace (dec y' - Rmax (fx a) (fx b)) with ((dec y' - Rmax (dec x) (dec y)) + (Rmax (dec x) (dec y) - Rmax (fx a) (fx b))) by ring.
            eapply Rle_trans; [apply Rabs_triang|]. pose proof (max_near _ _ _ _ _ H1 H2). rewrite N2. lra. }
          cbn [bub near]. split; [exact N1|]. replace (S (k + 2)) with (k + 1 + 2)%nat by lia.
          apply (HL' (k + 1)%nat (Z.max a b) v y' l); auto; try lia.
          * constructor; [|exact BV]. destruct (Z.max_spec a b) as [[_ ->]|[_ ->]]; auto.
          * replace (k + 1 + 1)%nat with (k + 2)%nat by lia. exact N3.
          * replace (k + 1 + 1)%nat with (S (k + 1)) by lia. exact H3.
    Qed.

    Lemma bubbles_f m : forall l, Forall sharing l ->
      frun (bubbles ME m l) (bubbles NE m l) (fun l' => Forall sharing l' /\ length l' = length l)
        (fun l' => forall k v, small v -> length v = length l -> (k + 2 * m + length v <= T + 2)%nat -> near B k v l -> near B (k + 2 * m) (bubs m v) l').
    Proof.
      pose proof (u_pos s Hb) as UP. assert (DP : 0 <= (4 + B) * u) by nra.
      induction m as [|m IH]; intros l HL.
      - cbn [bubbles bubs]. apply f_ret; [auto|]. intros k v _ _ _ H. rewrite Nat.mul_0_r, Nat.add_0_r. exact H.
      - cbn [bubbles bubs]. eapply f_bind; [apply (bubble_f (S m) l HL)|]. intros l1 [SL1 LL1].
        eapply f_weak; [|eapply f_weaken; [apply (IH l1 SL1)|]].
        + intros l' [H1 H2]. split; [exact H1|congruence].
        + intros l' _ HL' HL1 k v HV LV HK HN. destruct v as [|a v].
          * destruct l as [|x l]; [|discriminate]. destruct l1; [|discriminate]. cbn [bub] in *.
            eapply near_mono with (c := (k + 2 * m)%nat); [auto|lia|]. apply HL'; auto. cbn [length] in *. lia.
          * destruct l as [|x l]; [discriminate|]. destruct HN as [N1 N2]. cbn [length] in LV, HK.
            replace (k + 2 * S m)%nat with (k + 2 + 2 * m)%nat by lia.
            assert (PB : Permutation (a :: v) (bub (S m) (a :: v))) by apply bub_perm.
            apply HL'.
            -- apply Forall_forall. intros c Hc. refine (proj1 (Forall_forall _ _) HV c _). apply (Permutation_in _ (Permutation_sym PB)), Hc.
            -- rewrite <- (Permutation_length PB). cbn [length] in *. lia.
            -- rewrite <- (Permutation_length PB). cbn [length]. lia.
            -- apply (HL1 k a v x l); auto; [lia| |eapply near_mono; [auto| |exact N2]; lia].
               eapply Rle_trans; [exact N1|]. apply Rmult_le_compat_r; auto. apply le_INR. lia.
    Qed.
  End Lists.

  Lemma near_at B : 0 <= B -> forall v c l, near B c v l -> Forall2 (fun a x => Rabs (dec x - fx a) <= INR (c + length v - 1) * ((4 + B) * u)) v l.
  Proof.
    clear - Hb. intros HB v. pose proof (u_pos s Hb) as UP. induction v as [|a v IH]; intros c [|x l]; cbn [near]; try contradiction; [constructor|].
    intros [H1 H2]. constructor.
    - eapply Rle_trans; [exact H1|]. apply Rmult_le_compat_r; [nra|]. apply le_INR. cbn [length]. lia.
    - specialize (IH (S c) l H2). cbn [length]. replace (c + S (length v) - 1)%nat with (S c + length v - 1)%nat by lia. exact IH.
  Qed.
  Lemma near_exact B : 0 <= B -> forall v l, Forall2 (fun a x => dec x = fx a) v l -> forall c, near B c v l.
  Proof.
    clear - Hb. intros HB v l H. pose proof (u_pos s Hb) as UP. induction H as [|a x v l H1 H2 IH]; intros c; cbn [near]; auto. split; [|apply IH].
    rewrite H1. replace (fx a - fx a) with 0 by ring. rewrite Rabs_R0. apply Rmult_le_pos; [apply pos_INR|nra].
  Qed.
  Close Scope R_scope.
End More.
