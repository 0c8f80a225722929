(** Lemmas about the binary decomposition of mpc_utils.py. *)
From Coq Require Import QArith.
From Verif Require Import Util S_Ring S_Tensor S_Bits M_Torch M_Encoder M_Float M_Bits L_Encoder L_Float L_Torch.
Local Open Scope Z_scope.

Lemma inj_nz p : 0 < p -> ~ (inject_Z p == 0)%Q.
Proof. intros H E. unfold Qeq, inject_Z in E. cbn in E. lia. Qed.

Lemma trunc_frac q n p : 0 < p -> (q == inject_Z n / inject_Z p)%Q -> Qtrunc q = Z.quot n p.
Proof.
  intros Hp E. assert (E' : (q * inject_Z p == inject_Z n)%Q) by (rewrite E; field; apply inj_nz; auto).
  destruct q as [a d]. unfold Qeq, inject_Z in E'. cbn in E'. unfold Qtrunc. cbn [Qnum Qden].
  rewrite <- (Z.quot_mul_cancel_r a (Zpos d) p) by lia. rewrite <- (Z.quot_mul_cancel_r n p (Zpos d)) by lia.
  f_equal; lia.
Qed.

Lemma fmod2_trunc q n p : 0 < p -> (q == inject_Z n / inject_Z p)%Q -> Qtrunc (fmod q 2) = Z.quot (Z.rem n (2 * p)) p.
Proof.
  intros Hp E. apply trunc_frac; auto. unfold fmod.
  rewrite (trunc_frac (q / 2) n (2 * p)); [|lia|].
  - rewrite E. rewrite (Z.rem_eq n (2 * p)) by lia. unfold Z.sub.
    rewrite inject_Z_plus, inject_Z_opp, !inject_Z_mult. field. apply inj_nz; auto.
  - rewrite E, inject_Z_mult. change (inject_Z 2) with 2%Q. field. apply inj_nz; auto.
Qed.

Lemma small_quot n p : 0 < p -> Z.quot (Z.rem n (2 * p)) p = Z.sgn n * ((Z.abs n / p) mod 2).
Proof.
  intros Hp. assert (P : forall a, 0 <= a -> Z.quot (Z.rem a (2 * p)) p = (a / p) mod 2).
  { intros a Ha. rewrite Z.rem_mod_nonneg, Z.quot_div_nonneg by (try lia; apply Z.rem_nonneg || apply Z.mod_pos_bound; lia).
    rewrite (Z.mul_comm 2), Z.rem_mul_r by lia. rewrite Z.mul_comm, Z.div_add by lia.
    rewrite Z.div_small by (apply Z.mod_pos_bound; lia). reflexivity. }
  destruct (Z.le_gt_cases 0 n) as [H|H].
  - rewrite P by auto. rewrite (Z.abs_eq n) by auto. destruct (Z.eq_dec n 0) as [->|]; [reflexivity|].
    rewrite Z.sgn_pos by lia. lia.
  - rewrite <- (Z.opp_involutive n) at 1. rewrite Z.rem_opp_l, Z.quot_opp_l by lia. rewrite P by lia.
    rewrite (Z.abs_neq n), Z.sgn_neg by lia. lia.
Qed.

Lemma rep_int_frac x k : rep_int x -> 0 <= k -> rep24 (inject_Z x / inject_Z (2^k)).
Proof.
  intros (m & e & Hm & He & ->) Hk. destruct (Z.le_gt_cases k e) as [H|H].
  - apply (rep24_comp (inject_Z (m * 2^(e - k)))); [|apply rep24_shift; auto; lia].
    replace e with (e - k + k) at 2 by lia. rewrite Z.pow_add_r by lia. rewrite !inject_Z_mult. field.
    apply inj_nz, Z.pow_pos_nonneg; lia.
  - apply (rep24_comp (inject_Z m / inject_Z (2^(k - e)))); [|apply rep24_frac; auto; lia].
    replace k with (k - e + e) at 2 by lia. rewrite Z.pow_add_r by lia. rewrite !inject_Z_mult. field.
    split; apply inj_nz, Z.pow_pos_nonneg; lia.
Qed.
Lemma rep_int_opp x : rep_int x -> rep_int (- x).
Proof. intros (m & e & Hm & He & ->). exists (- m), e. split; [lia|]. split; [auto|]. ring. Qed.

Lemma decompose1_value d x k s : rep_int x -> cast d (2 ^ Z.of_nat k) = s * 2 ^ Z.of_nat k -> s = 1 \/ s = -1 ->
  decompose1 d x k = cast d (Z.sgn (s * x) * bit (Z.abs x) k).
Proof.
  intros Hx EM Hs. unfold decompose1. rewrite EM.
  set (p := 2 ^ Z.of_nat k). assert (Hp : 0 < p) by (apply Z.pow_pos_nonneg; lia).
  assert (R1 : rep24 (inject_Z x)).
  { destruct Hx as (m & e & H1 & H2 & ->). apply rep24_shift; auto. }
  assert (R2 : rep24 (inject_Z (s * p))).
  { destruct Hs as [->| ->]; [rewrite Z.mul_1_l; apply rep24_pow; lia|]. apply rep24_shift; [reflexivity|lia]. }
  assert (EQ : (fdiv (ffloat x) (ffloat (s * p)) == inject_Z (s * x) / inject_Z p)%Q).
  { apply fdiv_exact.
    - rewrite (ffloat_exact x R1), (ffloat_exact _ R2), !inject_Z_mult.
      destruct Hs as [->| ->]; change (inject_Z (-1)) with (-1)%Q; change (inject_Z 1) with 1%Q; field; apply inj_nz; auto.
    - apply rep_int_frac; [|lia]. destruct Hs as [->| ->]; [rewrite Z.mul_1_l; auto|].
      replace (-1 * x) with (- x) by lia. apply rep_int_opp; auto. }
  pose proof (fmod2_trunc _ _ _ Hp EQ) as ET. rewrite small_quot in ET by auto.
  assert (EA : Z.abs (s * x) = Z.abs x) by (destruct Hs as [->| ->]; lia). rewrite EA in ET.
  rewrite flong_in_range.
  - rewrite ET. unfold bit. reflexivity.
  - rewrite ET. pose proof (Z.mod_pos_bound (Z.abs x / p) 2 ltac:(lia)). pose proof (Z.sgn_spec (s * x)). nia.
Qed.

Lemma nr_bits_spec ring : 1 < ring -> 2 ^ (get_nr_bits ring - 1) < ring <= 2 ^ get_nr_bits ring.
Proof.
  intros H. unfold get_nr_bits. destruct (Z.eqb_spec (ring - 1) 0); [lia|]. rewrite Z.abs_eq by lia.
  pose proof (Z.log2_spec (ring - 1) ltac:(lia)) as [A B]. replace (Z.log2 (ring - 1) + 1 - 1) with (Z.log2 (ring - 1)) by lia.
  rewrite <- Z.add_1_r in B. lia.
Qed.

(** element (e, k) of the result *)
Lemma nth_flat_map_const {A} (f : A -> list Z) nb l e k d : (forall a, length (f a) = nb) -> (e < length l)%nat -> (k < nb)%nat ->
  nth (e * nb + k) (flat_map f l) 0 = nth k (f (nth e l d)) 0.
Proof.
  intros HL. revert e. induction l as [|a l IH]; intros e He Hk; cbn [length] in He; [lia|]. cbn [flat_map].
  destruct e as [|e].
  - rewrite app_nth1 by (rewrite HL; lia). reflexivity.
  - rewrite app_nth2 by (rewrite HL; nia). rewrite HL. replace (S e * nb + k - nb)%nat with (e * nb + k)%nat by nia.
    apply IH; lia.
Qed.
Lemma flat_map_length_const {A} (f : A -> list Z) nb l : (forall a, length (f a) = nb) -> length (flat_map f l) = (length l * nb)%nat.
Proof. intros HL. induction l; cbn; auto. rewrite app_length, HL, IHl. reflexivity. Qed.
