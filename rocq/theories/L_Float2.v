(** Rounding error of the modelled float32 operations; encoding and decoding with them. *)
From Coq Require Import QArith Qabs Qpower Qfield Lqa.
From Verif Require Import Util M_Encoder M_Float S_Float L_Float L_Encoder.
Local Open Scope Z_scope.

Lemma rhe_err n d : 0 < d -> 2 * Z.abs (rhe n d * d - n) <= d.
Proof.
  intros Hd. unfold rhe. pose proof (Z.div_mod n d ltac:(lia)). pose proof (Z.mod_pos_bound n d Hd).
  set (q := n / d) in *. set (r := n mod d) in *. clearbody q r.
  destruct (Z.compare_spec (2 * r) d); [destruct (Z.even q)| |]; nia.
Qed.

Lemma rhe_range n d k : 0 < d -> 0 <= n -> n <= k * d -> 0 <= rhe n d <= k.
Proof.
  intros Hd Hn Hk. unfold rhe. pose proof (Z.div_mod n d ltac:(lia)). pose proof (Z.mod_pos_bound n d Hd).
  pose proof (Z.div_pos n d Hn Hd).
  set (q := n / d) in *. set (r := n mod d) in *. clearbody q r.
  destruct (Z.compare_spec (2 * r) d); [destruct (Z.even q)| |]; split; nia.
Qed.

Lemma frac_err M D a d : 2^24 * Z.abs (M * Zpos d - a * Zpos D) <= Z.abs a * Zpos D ->
  (Qabs ((M # D) - (a # d)) <= (1 # 2^24) * Qabs (a # d))%Q.
Proof.
  intros H. unfold Qle, Qminus, Qplus, Qopp, Qmult, Qabs. cbn [Qnum Qden].
  rewrite Z.mul_1_l. rewrite !Pos2Z.inj_mul. change (Z.pos (2^24)) with (2^24).
  replace (M * Z.pos d + - a * Z.pos D) with (M * Zpos d - a * Zpos D) by ring.
  set (X := Z.abs (M * Zpos d - a * Zpos D)) in *. clearbody X.
  assert (0 < Zpos d) by lia. nia.
Qed.

(** half a unit in the last of 24 places *)
Lemma f32_err q : (Qabs (f32 q - q) <= (1 # 2^24) * Qabs q)%Q.
Proof.
  unfold f32. destruct q as [a d]. cbn [Qnum Qden].
  destruct (Z.eqb_spec a 0) as [->|Ha]; [unfold Qle; cbn; lia|].
  pose proof (f32_pos_exp (Z.abs a) (Zpos d) ltac:(lia) ltac:(lia)) as X.
  destruct (f32_pos (Z.abs a) (Z.pos d)) as [v u] eqn:E. cbn zeta in X. cbn [snd] in X.
  assert (Ev : v = if 0 <=? u then rhe (Z.abs a) (Zpos d * 2^u) else rhe (Z.abs a * 2^(-u)) (Zpos d)).
  { unfold f32_pos in E. injection E as E1 E2. rewrite <- E2. symmetry. exact E1. }
  clear E. destruct X as [X1 X2].
  assert (Sg : forall p q, Z.abs (Z.sgn a * p - a * q) = Z.abs (p - Z.abs a * q)).
  { intros p q. rewrite <- (Z.abs_sgn a) at 2. replace (Z.sgn a * p - Z.abs a * Z.sgn a * q)
      with (Z.sgn a * (p - Z.abs a * q)) by ring. rewrite Z.abs_mul.
    replace (Z.abs (Z.sgn a)) with 1 by lia. lia. }
  destruct (Z.leb_spec 0 u) as [Hu|Hu]; apply frac_err.
  - specialize (X1 Hu). assert (P2 : 0 < 2^u) by (apply Z.pow_pos_nonneg; lia).
    pose proof (rhe_err (Z.abs a) (Zpos d * 2^u) ltac:(nia)) as R. rewrite <- Ev in R.
    rewrite <- !Z.mul_assoc, Sg.
    replace (v * (2^u * Zpos d) - Z.abs a * 1) with (v * (Zpos d * 2^u) - Z.abs a) by ring. lia.
  - specialize (X2 Hu). assert (P2 : 0 < 2^(-u)) by (apply Z.pow_pos_nonneg; lia).
    pose proof (rhe_err (Z.abs a * 2^(-u)) (Zpos d) ltac:(lia)) as R. rewrite <- Ev in R.
    rewrite Z2Pos.id by auto. rewrite <- Z.mul_assoc, Sg. lia.
Qed.

Lemma Qpow2_pos e : 0 <= e -> (2 ^ e == inject_Z (2 ^ e))%Q.
Proof. intros H. rewrite Zpower_Qpower by auto. reflexivity. Qed.

Lemma Qpow2_neg e : 0 <= e -> (2 ^ (- e) * inject_Z (2 ^ e) == 1)%Q.
Proof.
  intros H. rewrite <- Qpow2_pos by auto. rewrite <- Qpower_plus by (unfold Qeq; cbn; lia).
  rewrite Z.add_opp_diag_l. reflexivity.
Qed.

Lemma single_rep24 q : single q <-> rep24 q.
Proof.
  split.
  - intros (m & e & Hm & H). destruct (Z.le_gt_cases 0 e).
    + exists m, e. split; [auto|]. split; [auto|]. left. rewrite H, inject_Z_mult, Qpow2_pos by auto. reflexivity.
    + exists m, (- e). split; [auto|]. split; [lia|]. right. rewrite H.
      rewrite <- Qmult_assoc. replace e with (- - e) at 1 by lia. rewrite Qpow2_neg by lia. ring.
  - intros (m & e & Hm & He & [H|H]).
    + exists m, e. split; [auto|]. rewrite H, inject_Z_mult, Qpow2_pos by auto. reflexivity.
    + exists m, (- e). split; [auto|]. rewrite <- H. rewrite <- Qmult_assoc.
      rewrite (Qmult_comm (inject_Z (2^e))), Qpow2_neg by auto. ring.
Qed.

Lemma f32_single q : single (f32 q).
Proof.
  apply single_rep24. unfold f32. destruct q as [a d]. cbn [Qnum Qden].
  destruct (Z.eqb_spec a 0) as [->|Ha]; [apply (rep24_int 0); reflexivity|].
  pose proof (f32_pos_exp (Z.abs a) (Zpos d) ltac:(lia) ltac:(lia)) as X.
  destruct (f32_pos (Z.abs a) (Z.pos d)) as [v u] eqn:E. cbn zeta in X. cbn [snd] in X.
  assert (Ev : v = if 0 <=? u then rhe (Z.abs a) (Zpos d * 2^u) else rhe (Z.abs a * 2^(-u)) (Zpos d)).
  { unfold f32_pos in E. injection E as E1 E2. rewrite <- E2. symmetry. exact E1. }
  clear E. destruct X as [X1 X2].
  assert (B : 0 <= v <= 2^24).
  { destruct (Z.leb_spec 0 u) as [Hu|Hu]; rewrite Ev.
    - specialize (X1 Hu). assert (P2 : 0 < 2^u) by (apply Z.pow_pos_nonneg; lia). apply rhe_range; nia.
    - specialize (X2 Hu). assert (P2 : 0 < 2^(-u)) by (apply Z.pow_pos_nonneg; lia). apply rhe_range; nia. }
  clear Ev X1 X2. apply single_rep24.
  assert (G : forall m : Z, (Z.abs m <= 2^24) -> forall e, single (inject_Z m * 2 ^ e)%Q).
  { intros m Hm e. destruct (Z.eq_dec (Z.abs m) (2^24)) as [C|C].
    - exists (Z.sgn m), (24 + e). split; [lia|].
      rewrite Qpower_plus by (unfold Qeq; cbn; lia).
      assert (m = Z.sgn m * 2^24) as ->  by lia. rewrite inject_Z_mult.
      replace (Z.sgn (Z.sgn m * 2^24)) with (Z.sgn m) by lia. change (2^24)%Q with (inject_Z (2^24)). ring.
    - exists m, e. split; [lia|reflexivity]. }
  destruct (Z.leb_spec 0 u) as [Hu|Hu].
  - destruct (G (Z.sgn a * v) ltac:(lia) u) as (m & e & H1 & H2). exists m, e. split; auto.
    rewrite <- H2. rewrite inject_Z_mult, Qpow2_pos by auto. reflexivity.
  - destruct (G (Z.sgn a * v) ltac:(lia) u) as (m & e & H1 & H2). exists m, e. split; auto.
    rewrite <- H2. rewrite Qmake_Qdiv. rewrite Z2Pos.id by (apply Z.pow_pos_nonneg; lia).
    unfold Qdiv. apply Qmult_comp; [reflexivity|].
    pose proof (Qpow2_neg (-u) ltac:(lia)) as N. rewrite Z.opp_involutive in N.
    assert (0 < 2^(-u)) by (apply Z.pow_pos_nonneg; lia).
    assert (NZ : ~ (inject_Z (2^(-u)) == 0)%Q) by (unfold Qeq, inject_Z; cbn [Qnum Qden]; lia).
    rewrite <- (Qmult_1_l (/ inject_Z (2^(-u)))), <- N. field. exact NZ.
Qed.

Lemma single_scale v p : single v -> rep24 (v * inject_Z (2 ^ Z.of_nat p)).
Proof.
  intros (m & e & Hm & H). apply single_rep24. exists m, (e + Z.of_nat p). split; auto.
  rewrite H, Qpower_plus by (unfold Qeq; cbn; lia). rewrite (Qpow2_pos (Z.of_nat p)) by lia. ring.
Qed.

Lemma Qtrunc_comp q q' : (q == q')%Q -> Qtrunc q = Qtrunc q'.
Proof.
  destruct q as [a d], q' as [b e]. unfold Qeq, Qtrunc. cbn [Qnum Qden]. intros H.
  rewrite <- (Z.quot_mul_cancel_r a (Zpos d) (Zpos e)) by lia.
  rewrite H. rewrite (Z.mul_comm (Zpos d)). apply Z.quot_mul_cancel_r; lia.
Qed.

Lemma Qtrunc_cut q : cut_toward_zero q (Qtrunc q).
Proof.
  destruct q as [n d]. unfold cut_toward_zero, Qtrunc, Qabs, Qle, Qlt, inject_Z, Qplus, Qmult.
  cbn [Qnum Qden]. rewrite ?Z.mul_1_r, ?Pos.mul_1_r, ?Z.mul_1_l.
  pose proof (Z.quot_rem n (Zpos d) ltac:(lia)) as Q.
  pose proof (Z.rem_bound_abs n (Zpos d) ltac:(lia)) as R.
  pose proof (Z.rem_sign_mul n (Zpos d) ltac:(lia)) as S.
  rewrite (Z.abs_eq (Zpos d)) in R by lia.
  set (k := Z.quot n (Zpos d)) in *. set (r := Z.rem n (Zpos d)) in *. clearbody k r.
  assert (0 < Zpos d) by lia. set (D := Zpos d) in *. clearbody D.
  assert (S' : (n < 0 -> r <= 0) /\ (0 < n -> 0 <= r)) by (split; intros; nia).
  assert (Ks : (n < 0 -> k <= 0) /\ (0 <= n -> 0 <= k)).
  { split; intros N; [destruct (Z.lt_ge_cases 0 k) | destruct (Z.lt_ge_cases k 0)]; try lia; exfalso.
    - assert (D <= D * k) by nia. lia.
    - assert (D * k <= - D) by nia. lia. }
  assert (Hk : 0 <= k * n) by (destruct (Z.lt_ge_cases n 0); nia).
  assert (E : Z.abs n = Z.abs k * D + Z.abs r).
  { destruct (Z.lt_trichotomy n 0) as [|[|]].
    - assert (k <= 0) by lia. assert (r <= 0) by lia. rewrite !Z.abs_neq by lia. lia.
    - assert (0 <= k) by lia. assert (k = 0) by (destruct (Z.eq_dec k 0); [auto|nia]). subst k. lia.
    - assert (0 <= k) by lia. assert (0 <= r) by lia. rewrite !Z.abs_eq by lia. lia. }
  repeat split; nia.
Qed.

Lemma encode1_f32_single p v : single v ->
  (- inject_Z (2^63) <= v * inject_Z (2 ^ Z.of_nat p))%Q -> (v * inject_Z (2 ^ Z.of_nat p) < inject_Z (2^63))%Q ->
  cut_toward_zero (v * inject_Z (2 ^ Z.of_nat p)) (encode1_f32 (mkConfig 2 p) v).
Proof.
  intros Hv L U. set (x := (v * inject_Z (2 ^ Z.of_nat p))%Q) in *.
  assert (E : (fmul v (ffloat (scale (mkConfig 2 p))) == x)%Q).
  { apply fmul_exact; [|apply single_scale; auto].
    unfold scale; cbn [c_base c_prec]. rewrite ffloat_exact by (apply rep24_pow; lia). reflexivity. }
  unfold encode1_f32. rewrite flong_in_range; rewrite (Qtrunc_comp _ _ E).
  - apply Qtrunc_cut.
  - clear E. clearbody x. destruct x as [n d]. unfold Qtrunc, Qle, Qlt, inject_Z, Qopp in *. cbn [Qnum Qden] in *.
    rewrite Z.mul_1_r in L, U. split.
    + change (- 2^63) with (Z.quot (- 2^63) 1). rewrite <- (Z.quot_mul_cancel_r (-2^63) 1 (Zpos d)) by lia.
      rewrite Z.mul_1_l. apply Z.quot_le_mono; lia.
    + destruct (Z.lt_ge_cases n 0).
      * assert (Z.quot n (Zpos d) <= 0); [|lia].
        rewrite <- (Z.quot_0_l (Zpos d)) by lia. apply Z.quot_le_mono; lia.
      * apply Z.quot_lt_upper_bound; lia.
Qed.

(** decoding, whatever the size of the number *)
Lemma decode1_f32_err p t : (p <= 24)%nat ->
  within (1 # 2^22) (inject_Z t / inject_Z (2 ^ Z.of_nat p)) (decode1_f32 (mkConfig 2 p) t).
Proof.
  intros Hp. unfold within.
  destruct (Z.lt_ge_cases (Z.abs t) (2^24 - 1)) as [Small|Big].
  { rewrite decode1_f32_exact by auto. set (x := (inject_Z t / _)%Q).
    setoid_replace (x - x)%Q with 0%Q by ring. apply Qmult_le_0_compat; [discriminate|apply Qabs_nonneg]. }
  unfold decode1_f32, scale. cbn [c_base c_prec].
  set (s := 2 ^ Z.of_nat p).
  assert (Hs : 0 < s <= 2^24).
  { split; [apply Z.pow_pos_nonneg; lia | apply Z.pow_le_mono_r; lia]. }
  set (cor := if t <? 0 then 1 else 0).
  set (rem := t mod s + _).
  assert (Hrem : (Z.quot t s - cor) * s + rem = t /\ 0 <= rem <= s).
  { unfold rem, cor. pose proof (Z.quot_rem t s ltac:(lia)) as Q1.
    pose proof (Z.mod_pos_bound t s ltac:(lia)) as M1.
    pose proof (Z.rem_mod t s ltac:(lia)) as R1.
    rewrite (Z.abs_eq s) in R1 by lia.
    destruct (Z.ltb_spec t 0) as [T|T].
    - rewrite Z.abs_neq, Z.sgn_neg in R1 by lia.
      destruct (Z.eqb_spec (t mod s) 0) as [E|E].
      + assert (E2 : Z.rem t s = 0).
        { rewrite R1. apply Z.mod_divide in E; [|lia]. rewrite (proj2 (Z.mod_divide (-t) s ltac:(lia))); [lia|].
          apply Z.divide_opp_r. exact E. }
        split; nia.
      + assert (E2 : Z.rem t s = t mod s - s).
        { rewrite R1, (Z.mod_opp_l_nz t s) by lia. lia. }
        split; nia.
    - rewrite Z.quot_div_nonneg in * by lia. rewrite Z.rem_mod_nonneg in Q1 by lia.
      rewrite Z.mul_0_r. split; lia. }
  destruct Hrem as (R1 & R2). clearbody rem. set (D := Z.quot t s - cor) in *. clearbody D.
  assert (Sn : ~ (inject_Z s == 0)%Q) by (unfold Qeq, inject_Z; cbn; lia).
  assert (F1 : (ffloat s == inject_Z s)%Q) by (apply ffloat_exact, rep24_pow; lia).
  assert (RR : rep24 (inject_Z rem)).
  { destruct (Z.eq_dec rem (2^24)) as [->|]; [apply rep24_pow; lia | apply rep24_int; lia]. }
  assert (F2 : (ffloat rem == inject_Z rem)%Q) by (apply ffloat_exact, RR).
  assert (RF : rep24 (inject_Z rem / inject_Z s)).
  { destruct (Z.eq_dec rem (2^24)) as [E|].
    - assert (s = 2^24) by lia. rewrite E, H. apply (rep24_comp 1%Q); [|apply (rep24_int 1); reflexivity].
      reflexivity.
    - apply rep24_frac; lia. }
  assert (FD : (fdiv (ffloat rem) (ffloat s) == inject_Z rem / inject_Z s)%Q).
  { apply fdiv_exact; auto. rewrite F1, F2. reflexivity. }
  set (x := (inject_Z t / inject_Z s)%Q).
  set (r := (inject_Z rem / inject_Z s)%Q) in *.
  assert (Ex : (inject_Z D + r == x)%Q).
  { unfold x, r. rewrite <- R1, inject_Z_plus, inject_Z_mult. field. exact Sn. }
  assert (Sp : (0 < inject_Z s)%Q) by (unfold Qlt, inject_Z; cbn; lia).
  assert (Hr : (0 <= r <= 1)%Q).
  { unfold r. split; [apply Qle_shift_div_l | apply Qle_shift_div_r]; auto; rewrite ?Qmult_0_l, ?Qmult_1_l; rewrite <- Zle_Qle || change 0%Q with (inject_Z 0); try rewrite <- Zle_Qle; lia. }
  unfold fadd. set (y := (ffloat D + fdiv (ffloat rem) (ffloat s))%Q).
  assert (Ey : (y == ffloat D + r)%Q) by (unfold y; rewrite FD; reflexivity).
  pose proof (f32_err y) as E1. clearbody y.
  assert (E2 : (Qabs (ffloat D - inject_Z D) <= (1 # 2^24) * Qabs x)%Q \/
               (Qabs (ffloat D - inject_Z D) <= (1 # 2^24) * (Qabs x + 1))%Q /\ (2 <= Qabs x)%Q).
  { destruct (Z.lt_ge_cases (Z.abs D) (2^24)) as [C|C].
    - left. rewrite (ffloat_exact D) by (apply rep24_int; auto).
      setoid_replace (inject_Z D - inject_Z D)%Q with 0%Q by ring.
      apply Qmult_le_0_compat; [discriminate|apply Qabs_nonneg].
    - right. assert (DA : (Qabs (inject_Z D) <= Qabs x + 1)%Q).
      { setoid_replace (inject_Z D) with (x + - r)%Q by (rewrite <- Ex; ring).
        eapply Qle_trans; [apply Qabs_triangle|]. rewrite Qabs_opp, (Qabs_pos r) by apply Hr. lra. }
      split.
      + eapply Qle_trans; [apply f32_err|]. apply Qmult_le_l; [reflexivity|exact DA].
      + assert (inject_Z (2^24) <= Qabs (inject_Z D))%Q.
        { unfold Qabs, inject_Z, Qle. cbn [Qnum Qden]. lia. }
        change (inject_Z (2^24)) with 16777216%Q in H. lra. }
  set (fD := ffloat D) in *. clearbody fD.
  assert (Y : (Qabs (y - x) <= Qabs (fD - inject_Z D))%Q).
  { rewrite Ey, <- Ex. setoid_replace (fD + r - (inject_Z D + r))%Q with (fD - inject_Z D)%Q by ring. apply Qle_refl. }
  assert (Y2 : (Qabs y <= Qabs x + Qabs (y - x))%Q).
  { setoid_replace y with (x + (y - x))%Q at 1 by ring. apply Qabs_triangle. }
  setoid_replace (f32 y - x)%Q with ((f32 y - y) + (y - x))%Q by ring.
  eapply Qle_trans; [apply Qabs_triangle|].
  set (A := Qabs (f32 y - y)) in *. set (B := Qabs (y - x)) in *. set (C := Qabs y) in *. set (X := Qabs x) in *.
  assert (0 <= X)%Q by apply Qabs_nonneg.
  set (F := Qabs (fD - inject_Z D)) in *. clearbody A B C X F. clear - E1 E2 Y Y2 H.
  change (1 # 2^24)%Q with (1 # 16777216)%Q in *. change (1 # 2^22)%Q with (1 # 4194304)%Q.
  destruct E2 as [E2|[E2 E3]]; lra.
Qed.

Lemma round_trip_f32 p t : (p <= 24)%nat -> Z.abs t < 2^24 - 1 ->
  encode1_f32 (mkConfig 2 p) (decode1_f32 (mkConfig 2 p) t) = t.
Proof.
  intros Hp Ht.
  assert (Hs : 0 < 2 ^ Z.of_nat p) by (apply Z.pow_pos_nonneg; lia).
  assert (Sn : ~ (inject_Z (2 ^ Z.of_nat p) == 0)%Q) by (unfold Qeq, inject_Z; cbn [Qnum Qden]; lia).
  unfold encode1_f32. apply flong_int; [|lia].
  apply fmul_exact; [|apply rep24_int; lia].
  unfold scale at 1; cbn [c_base c_prec]. rewrite ffloat_exact by (apply rep24_pow; lia).
  rewrite decode1_f32_exact by auto. field. exact Sn.
Qed.

(** round to nearest even *)
Lemma rhe_even n d : 0 < d -> 0 <= n -> 2 * Z.abs (n - rhe n d * d) <= d /\ (2 * Z.abs (n - rhe n d * d) = d -> Z.even (rhe n d) = true).
Proof.
  intros Hd Hn. unfold rhe. pose proof (Z.div_mod n d ltac:(lia)) as E. pose proof (Z.mod_pos_bound n d Hd) as B.
  set (q := n / d) in *. set (r := n mod d) in *. clearbody q r.
  destruct (Z.compare_spec (2 * r) d) as [C|C|C].
  - destruct (Z.even q) eqn:Q; [split; [|auto]; nia|]. split; [nia|]. intros _. rewrite Z.even_add, Q. reflexivity.
  - split; [nia|]. intros H. nia.
  - split; [nia|]. intros H. nia.
Qed.

Lemma f32_nearest q : nearest_even q (f32 q).
Proof.
  split.
  { intros E. unfold f32. destruct q as [a d]. cbn [Qnum Qden]. unfold Qeq in E. cbn in E. assert (a = 0) by lia. subst a. reflexivity. }
  intros NZ. unfold f32. destruct q as [a d]. cbn [Qnum Qden].
  destruct (Z.eqb_spec a 0) as [->|Ha]; [exfalso; apply NZ; reflexivity|].
  pose proof (f32_pos_exp (Z.abs a) (Zpos d) ltac:(lia) ltac:(lia)) as X.
  destruct (f32_pos (Z.abs a) (Z.pos d)) as [v u] eqn:E. cbn zeta in X. cbn [snd] in X.
  assert (Ev : v = if 0 <=? u then rhe (Z.abs a) (Zpos d * 2^u) else rhe (Z.abs a * 2^(-u)) (Zpos d)).
  { unfold f32_pos in E. injection E as E1 E2. rewrite <- E2. symmetry. exact E1. }
  clear E. destruct X as [X1 X2].
  assert (SV : Z.even (Z.sgn a * v) = Z.even v) by (destruct a; cbn [Z.sgn]; [lia| |]; rewrite Z.even_mul; reflexivity).
  assert (Sg : forall p k, Z.abs (a * k - Z.sgn a * p) = Z.abs (Z.abs a * k - p)).
  { intros p k. rewrite <- (Z.abs_sgn a) at 1. replace (Z.abs a * Z.sgn a * k - Z.sgn a * p)
      with (Z.sgn a * (Z.abs a * k - p)) by ring. rewrite Z.abs_mul.
    replace (Z.abs (Z.sgn a)) with 1 by lia. lia. }
  destruct (Z.leb_spec 0 u) as [Hu|Hu].
  - specialize (X1 Hu). assert (P2 : 0 < 2^u) by (apply Z.pow_pos_nonneg; lia).
    destruct (rhe_even (Z.abs a) (Zpos d * 2^u) ltac:(nia) ltac:(lia)) as [R1 R2]. rewrite <- Ev in R1, R2.
    set (k := 2^u) in *. specialize (Sg (v * (Zpos d * k)) 1).
    exists (inject_Z k), u, (Z.sgn a * v). split; [symmetry; apply Qpow2_pos; auto|].
    unfold Qle, Qlt, Qeq, Qabs, Qminus, Qplus, Qopp, Qmult, inject_Z. cbn [Qnum Qden]. rewrite SV.
    replace (a * 1 + - (Z.sgn a * v * k) * Z.pos d) with (a * 1 - Z.sgn a * (v * (Z.pos d * k))) by ring.
    rewrite Sg, !Z.mul_1_r, ?Pos.mul_1_r, ?Pos.mul_1_l. rewrite ?Pos2Z.inj_mul. split; [lia|]. split; [lia|]. split; [ring|].
    split; [lia|]. intros H. apply R2. lia.
  - specialize (X2 Hu). assert (P2 : 0 < 2^(-u)) by (apply Z.pow_pos_nonneg; lia).
    destruct (rhe_even (Z.abs a * 2^(-u)) (Zpos d) ltac:(lia) ltac:(nia)) as [R1 R2]. rewrite <- Ev in R1, R2.
    set (k := 2^(-u)) in *. assert (EK : Zpos (Z.to_pos k) = k) by (apply Z2Pos.id; auto).
    specialize (Sg (v * Zpos d) k).
    exists (1 # Z.to_pos k), u, (Z.sgn a * v). split.
    { pose proof (Qpow2_neg (- u) ltac:(lia)) as N. rewrite Z.opp_involutive in N. fold k in N.
      assert (NK : ~ inject_Z k == 0) by (unfold Qeq, inject_Z; cbn [Qnum Qden]; lia).
      apply (Qmult_inj_r _ _ (inject_Z k) NK). rewrite N. unfold Qeq, Qmult, inject_Z. cbn [Qnum Qden]. rewrite Pos.mul_1_r. lia. }
    unfold Qle, Qlt, Qeq, Qabs, Qminus, Qplus, Qopp, Qmult, inject_Z. cbn [Qnum Qden]. rewrite SV, ?Pos2Z.inj_mul, EK.
    replace (a * k + - (Z.sgn a * v) * Z.pos d) with (a * k - Z.sgn a * (v * Z.pos d)) by ring.
    rewrite Sg. split; [lia|]. split; [lia|]. split; [ring|].
    split.
    + set (w := Z.abs (Z.abs a * k - v * Z.pos d)) in *. nia.
    + intros H. apply R2. set (w := Z.abs (Z.abs a * k - v * Z.pos d)) in *. nia.
Qed.
