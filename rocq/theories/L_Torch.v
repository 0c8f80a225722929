(** Lemmas: the modelled torch/ring operations compute in the ring of [S_Ring]. *)
From Coq Require Import Setoid Morphisms.
From Verif Require Import Util Modular S_Ring M_Torch.
Local Open Scope Z_scope.

Ltac Zify.zify_post_hook ::= Z.div_mod_to_equations.

Lemma supported_cases ring : supported ring ->
  ring = 2 \/ ring = 2^8 \/ ring = 67 \/ ring = 2^16 \/ ring = 2^32 \/ ring = 2^64.
Proof. unfold supported, ring_sizes; simpl; intuition. Qed.

Lemma supported_pos ring : supported ring -> 0 < ring.
Proof. intros H. destruct (supported_cases _ H) as [->|[->|[->|[->|[->| ->]]]]]; reflexivity. Qed.

Lemma sup64 : supported (2^64). Proof. unfold supported, ring_sizes; simpl; tauto. Qed.
Lemma sup67 : supported 67. Proof. unfold supported, ring_sizes; simpl; tauto. Qed.
Lemma sup2 : supported 2. Proof. unfold supported, ring_sizes; simpl; tauto. Qed.
#[global] Hint Resolve sup64 sup67 sup2 : core.

Lemma to_ring_eqmod ring v : 0 < ring -> to_ring ring v == v [mod ring].
Proof.
  intros Hr. unfold to_ring. destruct ((ring =? 2) || (ring =? 67)).
  - apply mod_eqmod; lia.
  - rewrite mod_eqmod by lia. apply eqmod_eq; lia.
Qed.

Lemma to_ring_eq ring a b : a == b [mod ring] -> to_ring ring a = to_ring ring b.
Proof.
  unfold to_ring; intros [k ->]. destruct (Z.eq_dec ring 0) as [->|Hr].
  { rewrite Z.mul_0_r, Z.add_0_r. reflexivity. }
  destruct ((ring =? 2) || (ring =? 67)).
  - apply Z.mod_add; auto.
  - replace (b + k * ring + ring / 2) with ((b + ring/2) + k * ring) by lia.
    rewrite Z.mod_add by auto. reflexivity.
Qed.

#[global] Instance to_ring_proper ring : Proper (eqmod ring ==> eqmod ring) (to_ring ring).
Proof. intros a b H. rewrite (to_ring_eq ring a b H). reflexivity. Qed.

Lemma to_ring_inv ring a b : 0 < ring -> to_ring ring a = to_ring ring b -> a == b [mod ring].
Proof.
  intros Hr H. transitivity (to_ring ring a).
  - symmetry; apply to_ring_eqmod; auto.
  - rewrite H; apply to_ring_eqmod; auto.
Qed.

Lemma to_ring_idem ring v : 0 < ring -> to_ring ring (to_ring ring v) = to_ring ring v.
Proof. intros Hr. apply to_ring_eq, to_ring_eqmod, Hr. Qed.

Lemma in_to_ring ring v : 0 < ring -> in_ring ring (to_ring ring v).
Proof. intros; apply to_ring_idem; auto. Qed.

Lemma in_ring_eq ring a b : in_ring ring a -> in_ring ring b -> a == b [mod ring] -> a = b.
Proof. unfold in_ring; intros Ha Hb H. rewrite <- Ha, <- Hb. apply to_ring_eq, H. Qed.

Lemma in_ring_0 ring : supported ring -> in_ring ring 0.
Proof. intros H. destruct (supported_cases _ H) as [->|[->|[->|[->|[->| ->]]]]]; reflexivity. Qed.

Lemma in_ring_1 ring : supported ring -> in_ring ring 1.
Proof. intros H. destruct (supported_cases _ H) as [->|[->|[->|[->|[->| ->]]]]]; reflexivity. Qed.

Lemma wrap_to_ring64 z : wrap 64 z = to_ring (2^64) z.
Proof. reflexivity. Qed.

(** ranges of representatives *)
Lemma in_ring_range ring v : supported ring -> in_ring ring v ->
  (ring = 2 \/ ring = 67 -> 0 <= v < ring) /\
  (ring <> 2 -> ring <> 67 -> - (ring/2) <= v < ring/2).
Proof.
  intros Hs Hv. unfold in_ring, to_ring in Hv.
  destruct (supported_cases _ Hs) as [->|[->|[->|[->|[->| ->]]]]]; simpl in Hv; split; lia.
Qed.

Lemma in_ring64 v : - 2^63 <= v < 2^63 -> in_ring (2^64) v.
Proof. unfold in_ring, to_ring; cbn [Z.eqb orb Pos.eqb]. change (2^64) with 18446744073709551616.
  change (2^63) with 9223372036854775808. simpl. lia. Qed.

Lemma in_ring64_range v : in_ring (2^64) v -> - 2^63 <= v < 2^63.
Proof. intros H. apply in_ring_range in H; [|auto]. destruct H as [_ H].
  change (2^64/2) with (2^63) in H. apply H; discriminate. Qed.

Lemma plain_spec ring f x y : supported ring -> ring <> 2 -> ring <> 67 ->
  plain_op ring f x y = to_ring ring (f x y).
Proof.
  intros Hs H2 H67. unfold plain_op.
  destruct (supported_cases _ Hs) as [->|[->|[->|[->|[->| ->]]]]]; try congruence; reflexivity.
Qed.

Lemma bit_cases x : in_ring 2 x -> x = 0 \/ x = 1.
Proof. unfold in_ring, to_ring; simpl. lia. Qed.

Lemma res67 x : in_ring 67 x -> 0 <= x < 67.
Proof. unfold in_ring, to_ring; simpl. lia. Qed.

Lemma addmodprime_spec x y : 0 <= x < 67 -> 0 <= y < 67 -> addmodprime x y = (x + y) mod 67.
Proof. intros Hx Hy. unfold addmodprime, cast, PRIME. change (2^8) with 256.
  rewrite (Z.mod_small (x+y) 256) by lia. reflexivity. Qed.

Lemma submodprime_spec x y : 0 <= x < 67 -> 0 <= y < 67 -> submodprime x y = (x - y) mod 67.
Proof.
  intros Hx Hy. unfold submodprime, cast, PRIME, wrap.
  change (2^(8-1)) with 128. change (2^8) with 256. lia.
Qed.

Lemma mulmodprime_spec x y : 0 <= x < 67 -> 0 <= y < 67 -> mulmodprime x y = (x * y) mod 67.
Proof.
  intros Hx Hy. unfold mulmodprime, cast, PRIME, wrap.
  change (2^(16-1)) with 32768. change (2^16) with 65536. change (2^8) with 256.
  assert (E : forall z, 0 <= z < 67 -> (z + 32768) mod 65536 - 32768 = z) by (intros; lia).
  rewrite (E x), (E y) by lia.
  assert (0 <= x * y <= 66 * 66) by nia.
  assert (E2 : (x * y + 32768) mod 65536 - 32768 = x * y) by lia.
  rewrite E2. pose proof (Z.mod_pos_bound (x*y) 67). rewrite Z.mod_small; lia.
Qed.

Lemma radd_spec ring x y : supported ring -> in_ring ring x -> in_ring ring y ->
  radd ring x y = to_ring ring (x + y).
Proof.
  intros Hs Hx Hy. unfold radd, PRIME.
  destruct (Z.eqb_spec ring 2) as [->|H2].
  - destruct (bit_cases _ Hx) as [->| ->], (bit_cases _ Hy) as [->| ->]; reflexivity.
  - destruct (Z.eqb_spec ring 67) as [->|H67].
    + apply addmodprime_spec; apply res67; auto.
    + apply plain_spec; auto.
Qed.

Lemma rsub_spec ring x y : supported ring -> in_ring ring x -> in_ring ring y ->
  rsub ring x y = to_ring ring (x - y).
Proof.
  intros Hs Hx Hy. unfold rsub, PRIME.
  destruct (Z.eqb_spec ring 2) as [->|H2].
  - destruct (bit_cases _ Hx) as [->| ->], (bit_cases _ Hy) as [->| ->]; reflexivity.
  - destruct (Z.eqb_spec ring 67) as [->|H67].
    + apply submodprime_spec; apply res67; auto.
    + apply plain_spec; auto.
Qed.

Lemma rmul_spec ring x y : supported ring -> in_ring ring x -> in_ring ring y ->
  rmul ring x y = to_ring ring (x * y).
Proof.
  intros Hs Hx Hy. unfold rmul, PRIME.
  destruct (Z.eqb_spec ring 2) as [->|H2].
  - destruct (bit_cases _ Hx) as [->| ->], (bit_cases _ Hy) as [->| ->]; reflexivity.
  - destruct (Z.eqb_spec ring 67) as [->|H67].
    + apply mulmodprime_spec; apply res67; auto.
    + apply plain_spec; auto.
Qed.

Lemma radd_in ring x y : supported ring -> in_ring ring x -> in_ring ring y -> in_ring ring (radd ring x y).
Proof. intros. rewrite radd_spec by auto. apply in_to_ring, supported_pos; auto. Qed.
Lemma rsub_in ring x y : supported ring -> in_ring ring x -> in_ring ring y -> in_ring ring (rsub ring x y).
Proof. intros. rewrite rsub_spec by auto. apply in_to_ring, supported_pos; auto. Qed.
Lemma rmul_in ring x y : supported ring -> in_ring ring x -> in_ring ring y -> in_ring ring (rmul ring x y).
Proof. intros. rewrite rmul_spec by auto. apply in_to_ring, supported_pos; auto. Qed.

(** rewriting under congruences *)
Section Cong.
  Variable ring : Z.
  Hypothesis Hs : supported ring.
  Let Hp := supported_pos ring Hs.

  Lemma radd_eqmod x y : in_ring ring x -> in_ring ring y -> radd ring x y == x + y [mod ring].
  Proof. intros. rewrite radd_spec by auto. apply to_ring_eqmod, Hp. Qed.
  Lemma rsub_eqmod x y : in_ring ring x -> in_ring ring y -> rsub ring x y == x - y [mod ring].
  Proof. intros. rewrite rsub_spec by auto. apply to_ring_eqmod, Hp. Qed.
  Lemma rmul_eqmod x y : in_ring ring x -> in_ring ring y -> rmul ring x y == x * y [mod ring].
  Proof. intros. rewrite rmul_spec by auto. apply to_ring_eqmod, Hp. Qed.

  Lemma fold_radd_eqmodod l : forall a, in_ring ring a -> Forall (in_ring ring) l ->
    in_ring ring (fold_left (radd ring) l a) /\
    fold_left (radd ring) l a == a + zsum l [mod ring].
  Proof.
    induction l as [|x l IH]; intros a Ha Hl; cbn [fold_left zsum].
    - split; auto. apply eqmod_eq; lia.
    - inversion Hl as [|? ? Hx Hl']; subst.
      destruct (IH (radd ring a x)) as [H1 H2]; auto using radd_in.
      split; auto. rewrite H2, radd_eqmod by auto. apply eqmod_eq; lia.
  Qed.

  Lemma rsum_spec l : Forall (in_ring ring) l -> rsum ring l = to_ring ring (zsum l).
  Proof.
    destruct l as [|x l]; intros Hl; unfold rsum; cbn [zsum].
    - symmetry; apply in_ring_0; auto.
    - inversion Hl as [|? ? Hx Hl']; subst.
      destruct (fold_radd_eqmodod l x Hx Hl') as [H1 H2].
      apply (in_ring_eq ring); auto. { apply in_to_ring, Hp. }
      rewrite H2, to_ring_eqmod; [reflexivity|apply Hp].
  Qed.

  Lemma nth_in_ring v i : vec_in ring v -> in_ring ring (nth i v 0).
  Proof.
    intros Hv. destruct (Nat.lt_ge_cases i (length v)) as [H|H].
    - apply Forall_nth_in; auto.
    - rewrite nth_overflow by auto. apply in_ring_0; auto.
  Qed.

  Lemma vadd_spec x y : vec_in ring x -> vec_in ring y -> vadd ring x y = s_add ring x y.
  Proof.
    unfold vadd, s_add; revert y; induction x as [|a x IH]; intros [|b y] Hx Hy; simpl; auto.
    inversion Hx; inversion Hy; subst. f_equal; [apply radd_spec | apply IH]; auto.
  Qed.
  Lemma vsub_spec x y : vec_in ring x -> vec_in ring y -> vsub ring x y = s_sub ring x y.
  Proof.
    unfold vsub, s_sub; revert y; induction x as [|a x IH]; intros [|b y] Hx Hy; simpl; auto.
    inversion Hx; inversion Hy; subst. f_equal; [apply rsub_spec | apply IH]; auto.
  Qed.
  Lemma vmul_spec x y : vec_in ring x -> vec_in ring y -> vmul ring x y = s_mul ring x y.
  Proof.
    unfold vmul, s_mul; revert y; induction x as [|a x IH]; intros [|b y] Hx Hy; simpl; auto.
    inversion Hx; inversion Hy; subst. f_equal; [apply rmul_spec | apply IH]; auto.
  Qed.

  Lemma map2_to_ring_in (f : Z -> Z -> Z) x y : vec_in ring (map2 (fun a b => to_ring ring (f a b)) x y).
  Proof.
    revert y; induction x as [|a x IH]; intros [|b y]; simpl; constructor; auto.
    - apply in_to_ring, Hp.
    - apply IH.
  Qed.
  Lemma map_to_ring_in {A} (f : A -> Z) l : vec_in ring (map (fun a => to_ring ring (f a)) l).
  Proof. induction l as [|a l IH]; simpl; constructor; auto. apply in_to_ring, Hp. Qed.

  Lemma vadd_in x y : vec_in ring x -> vec_in ring y -> vec_in ring (vadd ring x y).
  Proof. intros. rewrite vadd_spec by auto. apply map2_to_ring_in. Qed.
  Lemma vsub_in x y : vec_in ring x -> vec_in ring y -> vec_in ring (vsub ring x y).
  Proof. intros. rewrite vsub_spec by auto. apply map2_to_ring_in. Qed.
  Lemma vmul_in x y : vec_in ring x -> vec_in ring y -> vec_in ring (vmul ring x y).
  Proof. intros. rewrite vmul_spec by auto. apply map2_to_ring_in. Qed.

  Lemma rlin_spec ix x : vec_in ring x -> rlin ring ix x = s_lin ring ix x.
  Proof.
    intros Hx. unfold rlin, s_lin. apply map_ext. intros is. apply rsum_spec.
    apply Forall_map, Forall_forall. intros i _. apply nth_in_ring, Hx.
  Qed.

  Lemma rbil_spec ix x y : vec_in ring x -> vec_in ring y -> rbil ring ix x y = s_bil ring ix x y.
  Proof.
    intros Hx Hy. unfold rbil, s_bil. apply map_ext. intros ps.
    rewrite rsum_spec.
    - apply to_ring_eq.
      induction ps as [|p ps IH]; cbn [map zsum]; [reflexivity|].
      rewrite rmul_eqmod by (apply nth_in_ring; auto). rewrite IH. reflexivity.
    - apply Forall_map, Forall_forall. intros p _. apply rmul_in; auto; apply nth_in_ring; auto.
  Qed.

  Lemma rlin_in ix x : vec_in ring x -> vec_in ring (rlin ring ix x).
  Proof. intros. rewrite rlin_spec by auto. apply map_to_ring_in. Qed.
  Lemma rbil_in ix x y : vec_in ring x -> vec_in ring y -> vec_in ring (rbil ring ix x y).
  Proof. intros. rewrite rbil_spec by auto. apply map_to_ring_in. Qed.

  (** two tensors of representatives are equal iff congruent element-wise *)
  Lemma vec_eq x y : vec_in ring x -> vec_in ring y -> length x = length y ->
    (forall e, (e < length x)%nat -> nth e x 0 == nth e y 0 [mod ring]) -> x = y.
  Proof.
    intros Hx Hy HL H. apply (nth_ext_len 0); auto. intros e He.
    apply (in_ring_eq ring); auto using nth_in_ring.
  Qed.

  Lemma fold_vadd_props m ts : forall a, vec_in ring a -> length a = m ->
    Forall (fun t => vec_in ring t /\ length t = m) ts ->
    vec_in ring (fold_left (vadd ring) ts a) /\ length (fold_left (vadd ring) ts a) = m /\
    forall e, (e < m)%nat ->
      nth e (fold_left (vadd ring) ts a) 0 == nth e a 0 + zsum (map (fun t => nth e t 0) ts) [mod ring].
  Proof.
    induction ts as [|t ts IH]; intros a Ha HL Hts; cbn [fold_left map zsum].
    - repeat split; auto. intros; apply eqmod_eq; lia.
    - inversion Hts as [|? ? [Ht Hm] Hts']; subst.
      assert (HL' : length (vadd ring a t) = length a) by (apply map2_length_eq; auto).
      destruct (IH (vadd ring a t)) as (H1 & H2 & H3); auto using vadd_in.
      repeat split; auto. intros e He. rewrite H3 by auto.
      unfold vadd. rewrite (nth_map2 _ 0 0 0) by lia.
      rewrite radd_eqmod by (apply nth_in_ring; auto). apply eqmod_eq; lia.
  Qed.

  Lemma s_sum_length m ts : length (s_sum ring m ts) = m.
  Proof. unfold s_sum. rewrite map_length, seq_length. reflexivity. Qed.

  Lemma s_sum_nth m ts e : (e < m)%nat ->
    nth e (s_sum ring m ts) 0 = to_ring ring (zsum (map (fun t => nth e t 0) ts)).
  Proof.
    intros He. unfold s_sum. rewrite (nth_map_in _ 0%nat) by (rewrite seq_length; auto).
    rewrite seq_nth by auto. reflexivity.
  Qed.

  Lemma s_sum_in m ts : vec_in ring (s_sum ring m ts).
  Proof. apply map_to_ring_in. Qed.

  Lemma vsum_spec m ts : ts <> [] -> Forall (fun t => vec_in ring t /\ length t = m) ts ->
    vsum ring ts = s_sum ring m ts.
  Proof.
    destruct ts as [|t ts]; intros Hne Hts; [congruence|]. unfold vsum.
    inversion Hts as [|? ? [Ht Hm] Hts']; subst.
    destruct (fold_vadd_props (length t) ts t) as (H1 & H2 & H3); auto.
    apply vec_eq; auto.
    - apply s_sum_in.
    - rewrite s_sum_length; auto.
    - intros e He. rewrite H2 in He. rewrite H3, s_sum_nth by auto. cbn [map zsum].
      rewrite to_ring_eqmod by apply Hp. reflexivity.
  Qed.
End Cong.

Lemma s_add_length ring x y m : length x = m -> length y = m -> length (s_add ring x y) = m.
Proof. apply map2_length_eq. Qed.
Lemma s_sub_length ring x y m : length x = m -> length y = m -> length (s_sub ring x y) = m.
Proof. apply map2_length_eq. Qed.
Lemma vadd_length ring x y m : length x = m -> length y = m -> length (vadd ring x y) = m.
Proof. apply map2_length_eq. Qed.
Lemma vsub_length ring x y m : length x = m -> length y = m -> length (vsub ring x y) = m.
Proof. apply map2_length_eq. Qed.
Lemma rlin_length ring ix x : length (rlin ring ix x) = length ix.
Proof. apply map_length. Qed.
Lemma rbil_length ring ix x y : length (rbil ring ix x y) = length ix.
Proof. apply map_length. Qed.
Lemma s_lin_length ring ix x : length (s_lin ring ix x) = length ix.
Proof. apply map_length. Qed.
Lemma s_bil_length ring ix x y : length (s_bil ring ix x y) = length ix.
Proof. apply map_length. Qed.

Lemma s_bil_nth ring ix x y o : (o < length ix)%nat ->
  nth o (s_bil ring ix x y) 0 =
  to_ring ring (zsum (map (fun p => nth (fst p) x 0 * nth (snd p) y 0) (nth o ix []))).
Proof. intros H. unfold s_bil. rewrite (nth_map_in _ []); auto. Qed.
Lemma s_lin_nth ring ix x o : (o < length ix)%nat ->
  nth o (s_lin ring ix x) 0 = to_ring ring (zsum (map (fun i => nth i x 0) (nth o ix []))).
Proof. intros H. unfold s_lin. rewrite (nth_map_in _ []); auto. Qed.

