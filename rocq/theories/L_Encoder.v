(** Proofs about the fixed-point encoder. *)
From Coq Require Import QArith Qabs Qfield.
From Verif Require Import Util M_Torch M_Encoder Modular S_Ring L_Torch.
Local Open Scope Z_scope.

Lemma scale_pos c : 1 <= c_base c -> 1 <= scale c.
Proof. intros H. unfold scale. assert (0 < c_base c ^ Z.of_nat (c_prec c)) by (apply Z.pow_pos_nonneg; lia). lia. Qed.

Lemma rem_bound_neg n d : n <= 0 -> 0 < d -> - d < Z.rem n d <= 0.
Proof.
  intros Hn Hd. pose proof (Z.rem_bound_pos (-n) d ltac:(lia) Hd) as H.
  rewrite Z.rem_opp_l in H by lia. lia.
Qed.

(** the integer identity behind decode *)
Lemma decode_int s t : 1 <= s ->
  let corr := if t <? 0 then 1 else 0 in
  let rem := t mod s in
  s * (Z.quot t s - corr) + (rem + (if rem =? 0 then 1 else 0) * s * corr) = t.
Proof.
  intros Hs corr rem. subst corr rem.
  pose proof (Z.div_mod t s ltac:(lia)) as Hd.
  pose proof (Z.mod_pos_bound t s ltac:(lia)) as Hb.
  pose proof (Z.quot_rem t s ltac:(lia)) as Hq.
  destruct (Z.ltb_spec t 0) as [Hneg|Hpos].
  - destruct (Z.eqb_spec (t mod s) 0) as [E|E].
    + assert (Z.quot t s = t / s) as -> ; [|nia].
      assert (t = s * (t / s)) as Ht by lia. rewrite Ht at 1.
      rewrite Z.mul_comm, Z.quot_mul by lia. reflexivity.
    + pose proof (rem_bound_neg t s ltac:(lia) ltac:(lia)) as Hr.
      assert (Z.quot t s = t / s + 1) as ->; nia.
  - rewrite Z.quot_div_nonneg by lia. destruct (t mod s =? 0); lia.
Qed.

Lemma decode1_correct c t : 1 <= c_base c ->
  (decode1 c t == inject_Z t / inject_Z (scale c))%Q.
Proof.
  intros Hb. pose proof (scale_pos c Hb) as Hs. unfold decode1.
  pose proof (decode_int (scale c) t Hs) as H. cbv zeta in H |- *.
  set (d := Z.quot t (scale c) - _) in *. set (r := t mod scale c + _) in *.
  rewrite <- H. rewrite inject_Z_plus, inject_Z_mult. field.
  intros E. unfold Qeq in E; simpl in E. clear - E Hs. lia.
Qed.

Lemma Qtrunc_bound q : (Qabs (inject_Z (Qtrunc q) - q) < 1)%Q.
Proof.
  destruct q as [n d]. unfold Qtrunc; simpl.
  pose proof (Z.quot_rem n (Zpos d) ltac:(lia)) as H.
  pose proof (Z.rem_bound_abs n (Zpos d) ltac:(lia)) as Hr.
  unfold Qminus, Qplus, Qopp, inject_Z, Qabs, Qlt; simpl. lia.
Qed.

Lemma Qtrunc_toward_zero q : (0 <= q -> 0 <= inject_Z (Qtrunc q) <= q)%Q /\
                             (q <= 0 -> q <= inject_Z (Qtrunc q) <= 0)%Q.
Proof.
  destruct q as [n d]. unfold Qtrunc, Qle, inject_Z; simpl.
  pose proof (Z.quot_rem n (Zpos d) ltac:(lia)) as H.
  split; intros Hn.
  - pose proof (Z.rem_bound_pos n (Zpos d) ltac:(lia) ltac:(lia)) as Hr.
    pose proof (Z.quot_pos n (Zpos d) ltac:(lia) ltac:(lia)). lia.
  - pose proof (rem_bound_neg n (Zpos d) ltac:(lia) ltac:(lia)) as Hr.
    rewrite Z.mul_1_r in *. split; nia.
Qed.

Lemma Qtrunc_inject q k : (q == inject_Z k)%Q -> Qtrunc q = k.
Proof.
  destruct q as [n d]. unfold Qeq, Qtrunc; simpl. intros H.
  rewrite Z.mul_1_r in H. subst. apply Z.quot_mul. lia.
Qed.

Lemma flong_in_range q : - 2^63 <= Qtrunc q < 2^63 -> flong q = Qtrunc q.
Proof. intros H. unfold flong. cbv zeta. destruct (_ && _) eqn:E; auto. lia. Qed.

Lemma scale_Q_pos c : 1 <= c_base c -> (0 < inject_Z (scale c))%Q.
Proof. intros H. pose proof (scale_pos c H). change 0%Q with (inject_Z 0). rewrite <- Zlt_Qlt. lia. Qed.

Lemma encode_float_bound c q :
  1 <= c_base c -> - 2^63 <= Qtrunc (q * inject_Z (scale c)) < 2^63 ->
  let v := decode1 c (encode1 c (NFloat q)) in
  (Qabs (v - q) < 1 / inject_Z (scale c))%Q /\
  (0 <= q -> 0 <= v <= q)%Q /\ (q <= 0 -> q <= v <= 0)%Q.
Proof.
  intros Hb Hr v. pose proof (scale_Q_pos c Hb) as Hs.
  assert (Hv : (v == inject_Z (Qtrunc (q * inject_Z (scale c))) / inject_Z (scale c))%Q).
  { unfold v. rewrite decode1_correct by auto. cbn [encode1]. rewrite flong_in_range by auto. reflexivity. }
  set (S := inject_Z (scale c)) in *. set (T := inject_Z (Qtrunc (q * S))) in *.
  assert (Hne : ~ (S == 0)%Q) by (intros E; rewrite E in Hs; apply (Qlt_irrefl 0); exact Hs).
  split; [|split].
  - rewrite Hv. setoid_replace (T / S - q)%Q with ((T - q * S) / S)%Q by (field; auto).
    unfold Qdiv. rewrite Qabs_Qmult, (Qabs_pos (/ S)) by (apply Qlt_le_weak, Qinv_lt_0_compat; auto).
    apply Qmult_lt_compat_r; [apply Qinv_lt_0_compat; auto|].
    apply Qtrunc_bound.
  - intros Hq. assert (H0 : (0 <= q * S)%Q) by (apply Qmult_le_0_compat; auto; apply Qlt_le_weak; auto).
    destruct (proj1 (Qtrunc_toward_zero (q * S)) H0) as [H1 H2]. fold T in H1, H2. rewrite Hv. split.
    + apply Qle_shift_div_l; try (rewrite Qmult_0_l); auto.
    + apply Qle_shift_div_r; try (rewrite Qmult_0_l); auto.
  - intros Hq. assert (H0 : (q * S <= 0)%Q).
    { rewrite <- (Qmult_0_l S). apply Qmult_le_compat_r; auto. apply Qlt_le_weak; auto. }
    destruct (proj2 (Qtrunc_toward_zero (q * S)) H0) as [H1 H2]. fold T in H1, H2. rewrite Hv. split.
    + apply Qle_shift_div_l; try (rewrite Qmult_0_l); auto.
    + apply Qle_shift_div_r; try (rewrite Qmult_0_l); auto.
Qed.

Lemma encode_exact c k q : 1 <= c_base c -> - 2^63 <= k < 2^63 ->
  (q == inject_Z k / inject_Z (scale c))%Q -> (decode1 c (encode1 c (NFloat q)) == q)%Q.
Proof.
  intros Hb Hk Hq. pose proof (scale_Q_pos c Hb) as Hs.
  assert (Hne : ~ (inject_Z (scale c) == 0)%Q) by (intros E; rewrite E in Hs; apply (Qlt_irrefl 0); exact Hs).
  assert (E : Qtrunc (q * inject_Z (scale c)) = k).
  { apply Qtrunc_inject. rewrite Hq. field. auto. }
  rewrite decode1_correct by auto. cbn [encode1]. rewrite flong_in_range by lia. rewrite E, Hq. reflexivity.
Qed.

Lemma encode_int_exact c z : 1 <= c_base c -> - 2^63 <= z * scale c < 2^63 ->
  (decode1 c (encode1 c (NInt z)) == inject_Z z)%Q.
Proof.
  intros Hb Hz. pose proof (scale_Q_pos c Hb) as Hs.
  assert (Hne : ~ (inject_Z (scale c) == 0)%Q) by (intros E; rewrite E in Hs; apply (Qlt_irrefl 0); exact Hs).
  rewrite decode1_correct by auto. cbn [encode1 cast]. rewrite wrap_to_ring64.
  rewrite (in_ring64 _ Hz). rewrite inject_Z_mult. field. auto.
Qed.

(** lifted to tensors *)
Lemma Forall2_map_self {A B} (f : A -> B) (R : B -> A -> Prop) l :
  (forall a, In a l -> R (f a) a) -> Forall2 R (map f l) l.
Proof. induction l as [|a l IH]; intros H; simpl; constructor; [apply H; simpl; auto | apply IH; intros; apply H; simpl; auto]. Qed.

Lemma decode_is_division c : 1 <= c_base c ->
  (forall ts, c_prec c = 0%nat -> decode c (TLong ts) = Ok (TLong ts)) /\
  (forall ts, c_prec c <> 0%nat -> exists qs, decode c (TLong ts) = Ok (TFloat qs) /\
     Forall2 (fun q t => q == inject_Z t / inject_Z (c_base c ^ Z.of_nat (c_prec c)))%Q qs ts) /\
  (forall fs, decode c (TFloat fs) = Err ValueError).
Proof.
  intros Hb. repeat split.
  - intros ts Hp. simpl. rewrite Hp. reflexivity.
  - intros ts Hp. simpl. destruct (Nat.eqb_spec (c_prec c) 0); [congruence|].
    eexists; split; [reflexivity|]. apply Forall2_map_self. intros t _. apply decode1_correct, Hb.
Qed.

Lemma encode_decode_bound c vs : 1 <= c_base c -> c_prec c <> 0%nat ->
  Forall (fun v => inject_Z (- 2^63) <= v * inject_Z (c_base c ^ Z.of_nat (c_prec c)) /\
                   v * inject_Z (c_base c ^ Z.of_nat (c_prec c)) < inject_Z (2^63))%Q vs ->
  exists qs, decode c (TLong (encode c (map NFloat vs))) = Ok (TFloat qs) /\
  Forall2 (fun q v => (Qabs (q - v) < 1 / inject_Z (c_base c ^ Z.of_nat (c_prec c)))%Q /\
     (0 <= v -> 0 <= q <= v)%Q /\ (v <= 0 -> v <= q <= 0)%Q /\
     (forall k, v == inject_Z k / inject_Z (c_base c ^ Z.of_nat (c_prec c)) -> q == v)%Q) qs vs.
Proof.
  intros Hb Hp Hv. unfold encode. cbn [decode]. destruct (Nat.eqb_spec (c_prec c) 0); [congruence|].
  eexists; split; [reflexivity|]. rewrite !map_map.
  apply (Forall2_map_self (fun v => decode1 c (encode1 c (NFloat v)))).
  intros v Hin. rewrite Forall_forall in Hv. specialize (Hv v Hin). destruct Hv as [Hlo Hhi].
  fold (scale c) in *. set (P := (v * inject_Z (scale c))%Q) in *.
  assert (Hr : - 2^63 <= Qtrunc P < 2^63).
  { destruct (Qlt_le_dec P 0) as [Hn|Hn].
    - destruct (proj2 (Qtrunc_toward_zero P) (Qlt_le_weak _ _ Hn)) as [H1 H2].
      split; [|change 0%Q with (inject_Z 0) in H2; rewrite <- Zle_Qle in H2; lia].
      rewrite Zle_Qle. eapply Qle_trans; [apply Hlo|exact H1].
    - destruct (proj1 (Qtrunc_toward_zero P) Hn) as [H1 H2].
      split; [change 0%Q with (inject_Z 0) in H1; rewrite <- Zle_Qle in H1; lia|].
      rewrite Zlt_Qlt. eapply Qle_lt_trans; [exact H2|exact Hhi]. }
  destruct (encode_float_bound c v Hb Hr) as (H1 & H2 & H3). repeat split; auto.
  all: try (apply H2; auto); try (apply H3; auto).
  intros k Hk. apply (encode_exact c k); auto.
  assert (E : Qtrunc P = k).
  { apply Qtrunc_inject. unfold P. rewrite Hk. field.
    intros E. unfold Qeq in E; simpl in E. pose proof (scale_pos c Hb). lia. }
  rewrite <- E. exact Hr.
Qed.

Lemma encode_int_overflow :
  exists z, decode default_config (TLong (encode default_config [NInt z])) <>
            Ok (TFloat [inject_Z z]) /\ encode default_config [NInt z] = [0] /\ 0 < z.
Proof. exists (2^48). split; [|split; [vm_compute; reflexivity | reflexivity]]. vm_compute. discriminate. Qed.
