(** Exactness of the modelled float32 operations on numbers with at most 24 significant bits. *)
From Coq Require Import QArith Qabs Qfield.
From Verif Require Import Util M_Encoder M_Float.
Local Open Scope Z_scope.

Lemma rhe_exact m d : 0 < d -> 0 <= m -> rhe (m * d) d = m.
Proof.
  intros Hd Hm. unfold rhe. rewrite Z.div_mul, Z.mod_mul by lia.
  destruct (Z.compare_spec (2 * 0) d); lia.
Qed.

(** the exponent chosen by [f32_pos] puts the mantissa in [2^23, 2^24) *)
Lemma f32_pos_exp a d : 0 < a -> 0 < d ->
  let u := snd (f32_pos a d) in
  (0 <= u -> 2^23 * (d * 2^u) <= a < 2^24 * (d * 2^u)) /\
  (u < 0 -> 2^23 * d <= a * 2^(-u) < 2^24 * d).
Proof.
  intros Ha Hd. unfold f32_pos. cbn zeta. cbn [snd].
  pose proof (Z.log2_spec a Ha) as [A1 A2]. pose proof (Z.log2_spec d Hd) as [D1 D2].
  set (la := Z.log2 a) in *. set (ld := Z.log2 d) in *.
  assert (0 <= la) by apply Z.log2_nonneg. assert (0 <= ld) by apply Z.log2_nonneg.
  assert (X : exists e1, (if (if 0 <=? la - ld then a <? d * 2^(la-ld) else a * 2^(-(la-ld)) <? d)
                  then la - ld - 1 else la - ld) = e1 /\
             (forall k, 0 <= k -> 0 <= e1 + k -> d * 2^(e1+k) <= a * 2^k < d * 2^(e1+k+1))).
  { rewrite Z.pow_succ_r in A2, D2 by lia.
    assert (U : forall k, 0 <= k -> 0 <= la - ld + k -> a * 2^k < d * 2^(la - ld + k + 1)).
    { intros k Hk He.
      assert (E : 2^ld * 2^(la - ld + k + 1) = 2 * 2^la * 2^k).
      { rewrite <- Z.pow_add_r by lia. replace (ld + (la - ld + k + 1)) with (1 + la + k) by lia.
        rewrite !Z.pow_add_r by lia. reflexivity. }
      assert (0 < 2^k) by (apply Z.pow_pos_nonneg; lia).
      assert (0 < 2^(la - ld + k + 1)) by (apply Z.pow_pos_nonneg; lia). nia. }
    assert (L : forall k, 0 <= k -> 0 <= la - ld - 1 + k -> d * 2^(la - ld - 1 + k) <= a * 2^k).
    { intros k Hk He.
      assert (E : (2 * 2^ld) * 2^(la - ld - 1 + k) = 2^la * 2^k).
      { rewrite <- (Z.pow_succ_r 2 ld) by lia. rewrite <- !Z.pow_add_r by lia. f_equal. lia. }
      assert (0 < 2^k) by (apply Z.pow_pos_nonneg; lia).
      assert (0 < 2^(la - ld - 1 + k)) by (apply Z.pow_pos_nonneg; lia). nia. }
    (* the test compares a with d * 2^(la-ld) *)
    set (b := if 0 <=? la - ld then _ else _).
    assert (B : forall k, 0 <= k -> 0 <= la - ld + k -> b = true <-> a * 2^k < d * 2^(la - ld + k)).
    { intros k Hk He. unfold b. destruct (Z.leb_spec 0 (la - ld)) as [G|G].
      - rewrite Z.ltb_lt, Z.pow_add_r by lia. assert (0 < 2^k) by (apply Z.pow_pos_nonneg; lia). nia.
      - rewrite Z.ltb_lt. replace (2^k) with (2^(-(la-ld)) * 2^(la - ld + k))
          by (rewrite <- Z.pow_add_r by lia; f_equal; lia).
        assert (0 < 2^(la - ld + k)) by (apply Z.pow_pos_nonneg; lia). nia. }
    destruct b; eexists; (split; [reflexivity|]); intros k Hk He.
    - split; [apply L; lia|]. replace (la - ld - 1 + k + 1) with (la - ld + k) by lia.
      apply B; auto. lia.
    - split; [|apply U; lia]. destruct (Z.lt_ge_cases (a * 2^k) (d * 2^(la - ld + k))) as [G|G]; auto.
      apply B in G; auto. discriminate. }
  destruct X as (e1 & -> & X). split; intros Hu.
  - specialize (X 0 ltac:(lia) ltac:(lia)). rewrite Z.mul_1_r in X.
    replace (e1 + 0) with (23 + (e1 - 23)) in X by lia.
    replace (23 + (e1 - 23) + 1) with (24 + (e1 - 23)) in X by lia.
    rewrite !Z.pow_add_r in X by lia. lia.
  - specialize (X (-(e1 - 23)) ltac:(lia) ltac:(lia)).
    replace (e1 + - (e1 - 23)) with 23 in X by lia. change (23 + 1) with 24 in X. lia.
Qed.

(** [q] has at most 24 significant bits *)
Definition rep24 (q : Q) : Prop :=
  exists m e, Z.abs m < 2^24 /\ 0 <= e /\
    ((q == inject_Z (m * 2^e))%Q \/ (q * inject_Z (2^e) == inject_Z m)%Q).

Lemma f32_pos_exact a d m e : 0 < a -> 0 < d -> 0 <= m < 2^24 -> 0 <= e ->
  (a = d * (m * 2^e) \/ a * 2^e = d * m) ->
  let (v, u) := f32_pos a d in
  (0 <= u -> d * (v * 2^u) = a) /\ (u < 0 -> d * v = a * 2^(-u)).
Proof.
  intros Ha Hd Hm He H. pose proof (f32_pos_exp a d Ha Hd) as X.
  destruct (f32_pos a d) as [v u] eqn:E. cbn zeta in X. cbn [snd] in X.
  assert (Ev : v = if 0 <=? u then rhe a (d * 2^u) else rhe (a * 2^(-u)) d).
  { unfold f32_pos in E. injection E as E1 E2. rewrite <- E2. symmetry. exact E1. }
  clear E. destruct X as [X1 X2]. destruct (Z.leb_spec 0 u) as [Hu|Hu].
  - split; [|lia]. intros _. specialize (X1 Hu).
    assert (P2 : 0 < 2^u) by (apply Z.pow_pos_nonneg; lia).
    assert (G : exists w, 0 <= w /\ a = w * (d * 2^u)).
    { destruct H as [H|H].
      - assert (u <= e).
        { destruct (Z.lt_ge_cases e u) as [C|C]; [|lia]. exfalso.
          replace u with (e + 1 + (u - e - 1)) in X1 by lia. rewrite !Z.pow_add_r in X1 by lia.
          assert (0 < 2^e) by (apply Z.pow_pos_nonneg; lia).
          assert (0 < 2^(u - e - 1)) by (apply Z.pow_pos_nonneg; lia).
          assert (0 < d * 2^e) by nia.
          assert (2^23 * (2 * 2^(u-e-1)) <= m) by nia.
          nia. }
        exists (m * 2^(e-u)). split; [apply Z.mul_nonneg_nonneg; [lia|apply Z.pow_nonneg; lia]|].
        rewrite H. replace e with (e - u + u) at 1 by lia. rewrite Z.pow_add_r by lia. ring.
      - assert (u = 0 /\ e = 0) as [-> ->].
        { assert (0 < 2^e) by (apply Z.pow_pos_nonneg; lia).
          assert (2^23 * (2^u * 2^e) <= m) by nia.
          rewrite <- Z.pow_add_r in * by lia.
          destruct (Z.eq_dec (u + e) 0); [lia|].
          assert (2^1 <= 2^(u+e)) by (apply Z.pow_le_mono_r; lia). lia. }
        exists m. split; [lia|]. rewrite Z.pow_0_r in *. lia. }
    destruct G as (w & W0 & W). rewrite W at 1. rewrite Ev. rewrite W at 1.
    rewrite rhe_exact by nia. lia.
  - split; [lia|]. intros _. specialize (X2 Hu).
    assert (P2 : 0 < 2^(-u)) by (apply Z.pow_pos_nonneg; lia).
    assert (G : exists w, 0 <= w /\ a * 2^(-u) = w * d).
    { destruct H as [H|H].
      - exists (m * 2^e * 2^(-u)). split; [|rewrite H; ring].
        apply Z.mul_nonneg_nonneg; [apply Z.mul_nonneg_nonneg; [lia|apply Z.pow_nonneg; lia]|lia].
      - assert (e <= -u).
        { destruct (Z.lt_ge_cases (-u) e) as [C|C]; [|lia]. exfalso.
          replace e with (-u + 1 + (e + u - 1)) in H by lia. rewrite !Z.pow_add_r in H by lia.
          assert (0 < 2^(e + u - 1)) by (apply Z.pow_pos_nonneg; lia).
          assert (2^23 * 2 * 2^(e+u-1) <= m) by nia. nia. }
        exists (m * 2^(-u-e)). split; [apply Z.mul_nonneg_nonneg; [lia|apply Z.pow_nonneg; lia]|].
        replace (-u) with (e + (-u-e)) at 1 by lia. rewrite Z.pow_add_r by lia.
        rewrite Z.mul_assoc, H. ring. }
    destruct G as (w & W0 & W). rewrite W, Ev, W. rewrite rhe_exact by lia. lia.
Qed.

Lemma f32_exact q : rep24 q -> (f32 q == q)%Q.
Proof.
  intros (m & e & Hm & He & H). unfold f32. destruct q as [a d]. cbn [Qnum Qden].
  assert (Pe : 0 < 2^e) by (apply Z.pow_pos_nonneg; lia).
  destruct (Z.eqb_spec a 0) as [->|Ha].
  - unfold Qeq; cbn. lia.
  - assert (K : Z.abs a = Zpos d * (Z.abs m * 2^e) \/ Z.abs a * 2^e = Zpos d * Z.abs m).
    { destruct H as [H|H]; unfold Qeq, inject_Z in H; cbn in H; [left|right].
      - rewrite Z.mul_1_r in H. rewrite H. rewrite !Z.abs_mul. rewrite (Z.abs_eq (2^e)) by lia. lia.
      - rewrite !Z.mul_1_r in H. rewrite Pos.mul_1_r in H. 
        apply (f_equal Z.abs) in H. rewrite !Z.abs_mul in H. rewrite (Z.abs_eq (2^e)) in H by lia. lia. }
    pose proof (f32_pos_exact (Z.abs a) (Zpos d) (Z.abs m) e ltac:(lia) ltac:(lia) ltac:(lia) He K) as X.
    destruct (f32_pos (Z.abs a) (Z.pos d)) as [v u]. destruct X as [X1 X2].
    destruct (Z.leb_spec 0 u) as [Hu|Hu].
    + specialize (X1 Hu). unfold Qeq, inject_Z; cbn. rewrite Z.mul_1_r.
      transitivity (Z.sgn a * (Zpos d * (v * 2^u))); [ring|]. rewrite X1. rewrite Z.mul_comm. apply Z.abs_sgn.
    + specialize (X2 Hu). unfold Qeq; cbn [Qnum Qden].
      rewrite Z2Pos.id by (apply Z.pow_pos_nonneg; lia).
      transitivity (Z.sgn a * (Zpos d * v)); [ring|]. rewrite X2.
      rewrite Z.mul_assoc. rewrite (Z.mul_comm (Z.sgn a)), Z.abs_sgn. reflexivity.
Qed.

Lemma rep24_comp q q' : (q == q')%Q -> rep24 q -> rep24 q'.
Proof. intros E (m & e & H1 & H2 & H3). exists m, e. rewrite <- E. auto. Qed.
Lemma rep24_int m : Z.abs m < 2^24 -> rep24 (inject_Z m).
Proof. intros H. exists m, 0. split; [auto|]. split; [lia|]. left. rewrite Z.mul_1_r. reflexivity. Qed.
Lemma rep24_shift m e : Z.abs m < 2^24 -> 0 <= e -> rep24 (inject_Z (m * 2^e)).
Proof. intros H He. exists m, e. split; [auto|]. split; [auto|]. left. reflexivity. Qed.
Lemma rep24_pow e : 0 <= e -> rep24 (inject_Z (2^e)).
Proof. intros He. rewrite <- (Z.mul_1_l (2^e)). apply rep24_shift; auto. reflexivity. Qed.
Lemma rep24_frac m e : Z.abs m < 2^24 -> 0 <= e -> rep24 (inject_Z m / inject_Z (2^e)).
Proof.
  intros H He. exists m, e. split; [auto|]. split; [auto|]. right.
  assert (P : 0 < 2^e) by (apply Z.pow_pos_nonneg; lia). field. intros E.
  unfold Qeq, inject_Z in E; cbn in E. lia.
Qed.

Lemma ffloat_exact z : rep24 (inject_Z z) -> (ffloat z == inject_Z z)%Q.
Proof. apply f32_exact. Qed.
Lemma fmul_exact x y z : (x * y == z)%Q -> rep24 z -> (fmul x y == z)%Q.
Proof. intros E H. unfold fmul. rewrite f32_exact; auto. apply (rep24_comp z); auto. symmetry; auto. Qed.
Lemma fdiv_exact x y z : (x / y == z)%Q -> rep24 z -> (fdiv x y == z)%Q.
Proof. intros E H. unfold fdiv. rewrite f32_exact; auto. apply (rep24_comp z); auto. symmetry; auto. Qed.
Lemma fadd_exact x y z : (x + y == z)%Q -> rep24 z -> (fadd x y == z)%Q.
Proof. intros E H. unfold fadd. rewrite f32_exact; auto. apply (rep24_comp z); auto. symmetry; auto. Qed.

Lemma flong_int q z : (q == inject_Z z)%Q -> - 2^63 <= z < 2^63 -> flong q = z.
Proof.
  intros E Hz. unfold flong, Qtrunc. destruct q as [a d]. unfold Qeq, inject_Z in E. cbn in *.
  assert (Ea : a = z * Zpos d) by lia. rewrite Ea, Z.quot_mul by lia.
  replace ((-2^63 <=? z) && (z <? 2^63))%bool with true by (symmetry; apply andb_true_iff; lia).
  reflexivity.
Qed.

(** decoding of a small number with a power-of-two scale is exact *)
Lemma decode1_f32_exact p t : (p <= 24)%nat -> Z.abs t < 2^24 - 1 ->
  (decode1_f32 (mkConfig 2 p) t == inject_Z t / inject_Z (2 ^ Z.of_nat p))%Q.
Proof.
  intros Hp Ht. unfold decode1_f32, scale. cbn [c_base c_prec].
  set (s := 2 ^ Z.of_nat p).
  assert (Hs : 0 < s <= 2^24).
  { split; [apply Z.pow_pos_nonneg; lia | apply Z.pow_le_mono_r; lia]. }
  set (cor := if t <? 0 then 1 else 0).
  set (rem := t mod s + _).
  assert (Hrem : (Z.quot t s - cor) * s + rem = t /\ 0 <= rem <= s /\ Z.abs (Z.quot t s - cor) < 2^24).
  { unfold rem, cor. pose proof (Z.quot_rem t s ltac:(lia)) as Q1.
    pose proof (Z.mod_pos_bound t s ltac:(lia)) as M1.
    pose proof (Z.rem_mod t s ltac:(lia)) as R1.
    rewrite (Z.abs_eq s) in R1 by lia.
    destruct (Z.ltb_spec t 0) as [T|T].
    - assert (Q2 : Z.quot t s = - (-t / s)).
      { replace t with (- - t) at 1 by lia. rewrite Z.quot_opp_l by lia. rewrite Z.quot_div_nonneg by lia. reflexivity. }
      rewrite Z.abs_neq, Z.sgn_neg in R1 by lia.
      assert (B : 0 <= -t / s <= -t) by (split; [apply Z.div_pos; lia | apply Z.div_le_upper_bound; nia]).
      destruct (Z.eqb_spec (t mod s) 0) as [E|E].
      + assert (E2 : Z.rem t s = 0).
        { rewrite R1. apply Z.mod_divide in E; [|lia]. rewrite (proj2 (Z.mod_divide (-t) s ltac:(lia))); [lia|].
          apply Z.divide_opp_r. exact E. }
        split; [|split]; nia.
      + assert (E2 : Z.rem t s = t mod s - s).
        { rewrite R1, (Z.mod_opp_l_nz t s) by lia. lia. }
        split; [|split]; nia.
    - rewrite Z.quot_div_nonneg in * by lia. rewrite Z.rem_mod_nonneg in Q1 by lia.
      assert (B : 0 <= t / s <= t) by (split; [apply Z.div_pos; lia | apply Z.div_le_upper_bound; nia]).
      rewrite Z.mul_0_r. split; [|split]; lia. }
  destruct Hrem as (R1 & R2 & R3). clearbody rem.
  assert (Sn : ~ (inject_Z s == 0)%Q) by (unfold Qeq, inject_Z; cbn; lia).
  assert (F1 : (ffloat s == inject_Z s)%Q) by (apply ffloat_exact, rep24_pow; lia).
  assert (RR : rep24 (inject_Z rem)).
  { destruct (Z.eq_dec rem (2^24)) as [->|].
    - apply rep24_pow; lia.
    - apply rep24_int. lia. }
  assert (F2 : (ffloat rem == inject_Z rem)%Q) by (apply ffloat_exact, RR).
  assert (RF : rep24 (inject_Z rem / inject_Z s)).
  { destruct (Z.eq_dec rem (2^24)) as [E|].
    - assert (s = 2^24) by lia. rewrite E, H. apply (rep24_comp 1%Q); [|apply (rep24_int 1); reflexivity].
      reflexivity.
    - apply rep24_frac; lia. }
  apply fadd_exact.
  - rewrite (ffloat_exact (Z.quot t s - cor)) by (apply rep24_int; lia).
    rewrite (fdiv_exact _ _ (inject_Z rem / inject_Z s)); auto.
    2:{ rewrite F1, F2. reflexivity. }
    rewrite <- R1 at 2. rewrite inject_Z_plus, inject_Z_mult. field. exact Sn.
  - apply rep24_frac; lia.
Qed.
