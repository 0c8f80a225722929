(** Lemmas: private comparison. *)
From Coq Require Import QArith Setoid Morphisms.
From Verif Require Import Util Modular S_Ring S_Bits S_Tensor S_Bil S_Spdz S_Rep M_Torch L_Torch M_Encoder M_Tensor L_Tensor M_Share L_Share M_Spdz L_Spdz L_Bil
  L_RShare L_Mul M_Session L_Session M_Rep S_RepT L_Rep L_Rep2 L_Rep3 L_Rep4 L_Rep5 L_Rep6 M_Aby3 L_Aby L_Aby2 L_Aby3 L_Aby4.
Local Open Scope Z_scope.

Lemma bget_map0 (h : Z -> Z) sy so l e : h 0 = 0 -> bget sy so (map h l) e = h (bget sy so l e).
Proof. intros H. unfold bget. rewrite <- (map_nth h). rewrite H. reflexivity. Qed.

Lemma land_bit v i : Z.land (Z.shiftr v (Z.of_nat i)) 1 = bit v i.
Proof. unfold bit. rewrite <- Z.shiftr_div_pow2 by lia. change 1 with (Z.ones 1) at 1. rewrite Z.land_ones by lia. reflexivity. Qed.
Lemma bit_0 i : bit 0 i = 0.
Proof. reflexivity. Qed.

Lemma nth_set_nth {A} i j (v d : A) l : (j < length l)%nat -> nth j (set_nth i v l) d = if Nat.eqb i j then v else nth j l d.
Proof.
  revert i j. induction l as [|a l IH]; intros i j Hj; [cbn in Hj; lia|].
  destruct i, j; cbn; auto. apply IH. cbn in Hj. lia.
Qed.
Lemma length_set_nth {A} i (v : A) l : length (set_nth i v l) = length l.
Proof. revert i. induction l as [|a l IH]; intros [|i]; cbn; auto. Qed.
Lemma rev_seq_S i : rev (seq 0 (S i)) = i :: rev (seq 0 i).
Proof. rewrite seq_S, rev_app_distr. reflexivity. Qed.

(** the number of differing bits above position [i], of numbers with [n] bits *)
Definition diffs (x r : Z) (i n : nat) : Z := zsum (map (fun k => bit x k + bit r k - 2 * (bit x k * bit r k)) (seq i (n - i))).
Lemma diffs_step x r i n : (i < n)%nat -> diffs x r i n = bit x i + bit r i - 2 * (bit x i * bit r i) + diffs x r (S i) n.
Proof. intros H. unfold diffs. replace (n - i)%nat with (S (n - S i)) by lia. cbn [seq map zsum]. reflexivity. Qed.
(** the value c[i] of private_compare *)
Definition cval (b x r : Z) (n i : nat) : Z := (1 - 2 * b) * (bit x i - bit r i) + 1 + diffs x r (S i) n.

Section Cmp.
  Let Hs := supported_67.
  Variable s : rsess.
  Hypothesis Hn : rs_n s = 3%nat.
  Variable sh : list nat.
  Hypothesis Hsh : sh <> [].
  Let hvp := hv 67 s sh.
  Let N2 : 67 <> 2. Proof. discriminate. Qed.

  Variables (n : nat) (xs : list rmpc) (xv : nat -> Z).
  Hypothesis Lx : length xs = n.
  Hypothesis Hx : forall i d, (i < n)%nat -> hvp (nth i xs d) (fun e => bit (xv e) i).
  Variables (rsh : list nat) (r : list Z).
  Hypothesis Hr : length r = numel rsh.
  Hypothesis Hb : bshape sh rsh sh.
  Let rv e := bget rsh sh r e.
  Variables (beta m : rmpc) (bv mv : nat -> Z).
  Hypothesis Hbeta : hvp beta bv.
  Hypothesis Hm : hvp m mv.

  Lemma pub_bit i : pub_int 67 sh (PTensor rsh (map (fun v => NInt (Z.land (Z.shiftr v (Z.of_nat i)) 1)) r)) (fun e => bit (rv e) i).
  Proof.
    exists (map (fun v => bit v i) r). split; [|split; [|split; [exact Hb|split; [discriminate|]]]].
    - unfold pub_ok. rewrite map_length. exact Hr.
    - cbn [pub_vals]. rewrite map_map. apply map_ext. intros v. rewrite land_bit. reflexivity.
    - intros e He. cbn [pub_shape]. rewrite bget_map0 by reflexivity. etransitivity; [apply to_ring_eqmod; reflexivity|].
      rewrite bget_map0 by apply bit_0. reflexivity.
  Qed.

  Let cv j e := cval (bv e) (xv e) (rv e) n j.
  Let goal d := exists z, d = IM z /\ hvp z (fun e => mv e * zprod cv (seq 0 n) e).

  Lemma compare_loop_ok u : good 67 s sh u -> forall i cs w d, (i <= n)%nat -> length cs = n ->
    (exists C, (forall j, (j < n)%nat -> ivh 67 s sh (nth j cs (IV 0)) (C j)) /\ (forall j e, (i <= j)%nat -> C j e = cv j e)) ->
    ivh 67 s sh w (fun e => diffs (xv e) (rv e) i n) -> (i = 0%nat -> goal d) ->
    exists d', compare_loop s beta m xs rsh r (rev (seq 0 i)) cs w d u = Ok d' /\ goal d'.
  Proof.
    intros HU. induction i as [|i IH]; intros cs w d Hi LC (C & HC & EC) HW HD.
    { exists d. split; [reflexivity|auto]. }
    rewrite rev_seq_S. cbn [compare_loop].
    assert (EX : get_nth xs i = Ok (nth i xs (mkRM 0 [] []))).
    { unfold get_nth. rewrite (nth_error_nth' _ (mkRM 0 [] [])) by lia. reflexivity. }
    rewrite EX. cbn [rbind]. pose proof (Hx i (mkRM 0 [] []) ltac:(lia)) as HXI. set (x_i := nth i xs _) in *.
    destruct (hv_mul_public 67 Hs s Hn sh beta (PNum (NInt 2)) _ _ (su_rand (subsup (subsup u i) 0 [])) Hbeta
      (pub_int_num 67 Hs s Hn sh Hsh 2 ltac:(discriminate)) (good_rand 67 s sh u _ HU)) as (b2 & -> & HB2). cbn [rbind].
    destruct (hv_rsub 67 Hs s Hn sh Hsh b2 (PNum (NInt 1)) _ _ (su_rand (subsup (subsup u i) 1 [])) HB2
      (pub_int_num 67 Hs s Hn sh Hsh 1 ltac:(discriminate)) (good_rand 67 s sh u _ HU)) as (b1 & -> & HB1). cbn [rbind].
    destruct (hv_lin_public 67 Hs s Hn sh LSub x_i _ _ _ HXI (pub_bit i)) as (dx & -> & HDX). cbn [rbind].
    destruct (hv_mul 67 Hs s Hn sh b1 dx _ _ (subsup (subsup u i) 2 []) HB1 HDX (HU _)) as (u_i & -> & HUI). cbn [rbind].
    destruct (hv_lin_public 67 Hs s Hn sh LAdd u_i (PNum (NInt 1)) _ _ HUI (pub_int_num 67 Hs s Hn sh Hsh 1 ltac:(discriminate))) as (u1 & -> & HU1). cbn [rbind].
    destruct (add_ival_ok 67 Hs N2 s Hn sh Hsh u1 w _ _ HU1 HW) as (c_i & -> & HCI). cbn [rbind].
    destruct (hv_xor_public 67 Hs N2 s Hn sh Hsh x_i _ _ _ HXI (pub_bit i)) as (x_r & -> & HXR). cbn [rbind].
    destruct (ival_add_ok 67 Hs N2 s Hn sh Hsh x_r w _ _ HXR HW) as (w' & -> & HW'). cbn [rbind].
    set (C' := fun j e => if Nat.eqb i j then cv j e else C j e).
    assert (HC' : forall j, (j < n)%nat -> ivh 67 s sh (nth j (set_nth i (IM c_i) cs) (IV 0)) (C' j)).
    { intros j Hj. rewrite nth_set_nth by lia. unfold C'. destruct (Nat.eqb_spec i j) as [<-|NE]; [|apply HC; auto].
      cbn [ivh]. refine (hv_ext 67 Hs s Hn sh c_i _ _ _ HCI). intros e _. cbn beta iota. apply eqmod_eq. unfold cv, cval. ring. }
    destruct (prod_loop_ok 67 Hs N2 s Hn sh Hsh C' (subsup (subsup u i) 3) (good_sub 67 s sh _ _ (good_sub 67 s sh _ _ HU))
      (set_nth i (IM c_i) cs) 0%nat (IV 1) 0%nat (fun _ => 1)) as (p & -> & HP).
    { intros j Hj. rewrite length_set_nth in Hj. apply HC'. lia. }
    { intros e _. reflexivity. }
    cbn [rbind]. rewrite length_set_nth, LC in HP.
    destruct (ival_mul_ok 67 Hs N2 s Hn sh Hsh (IM m) p _ _ (subsup (subsup u i) 4) Hm HP (good_sub 67 s sh _ _ (good_sub 67 s sh _ _ HU))) as (d' & ED & HD').
    rewrite ED. cbn [rbind]. apply IH; try lia.
    - rewrite length_set_nth. exact LC.
    - exists C'. split; [exact HC'|]. intros j e Hj. unfold C'. destruct (Nat.eqb_spec i j) as [<-|NE]; [reflexivity|]. apply EC. lia.
    - cbn [ivh]. refine (hv_ext 67 Hs s Hn sh w' _ _ _ HW'). intros e _. cbn beta. apply eqmod_eq. rewrite (diffs_step _ _ i) by lia. ring.
    - intros ->. destruct d' as [q|z]; [cbn [ival_mul] in ED; destruct p; [destruct (rm_bil_public _ _ _ _ _)|destruct (rm_bil _ _ _ _ _)]; discriminate|].
      exists z. split; [reflexivity|]. cbn [ivh] in HD'. refine (hv_ext 67 Hs s Hn sh z _ _ _ HD'). intros e _. cbn beta. apply eqmod_eq.
      assert (EZ : zprod C' (seq 0 n) e = zprod cv (seq 0 n) e).
      { unfold zprod. assert (G : forall l a, fold_left (fun a j => a * C' j e) l a = fold_left (fun a j => a * cv j e) l a).
        { induction l as [|j l IHl]; intros a; cbn [fold_left]; [reflexivity|]. rewrite IHl. f_equal. f_equal. unfold C'.
          destruct (Nat.eqb_spec 0 j); [reflexivity|apply EC; lia]. }
        apply G. }
      rewrite EZ. ring.
  Qed.
End Cmp.

(* ------------------------------------------------------------------ arithmetic of the comparison *)
Lemma prime67 a b : a * b == 0 [mod 67] -> a == 0 [mod 67] \/ b == 0 [mod 67].
Proof.
  intros H.
  assert (C : forallb (fun i => forallb (fun j => negb ((Z.of_nat i * Z.of_nat j) mod 67 =? 0) || (Nat.eqb i 0) || (Nat.eqb j 0)) (seq 0 67)) (seq 0 67) = true)
    by (vm_compute; reflexivity).
  pose proof (Z.mod_pos_bound a 67 ltac:(lia)) as Ba. pose proof (Z.mod_pos_bound b 67 ltac:(lia)) as Bb.
  rewrite forallb_forall in C. specialize (C (Z.to_nat (a mod 67)) ltac:(apply in_seq; lia)).
  rewrite forallb_forall in C. specialize (C (Z.to_nat (b mod 67)) ltac:(apply in_seq; lia)).
  rewrite !Z2Nat.id in C by lia. rewrite <- Zmult_mod in C.
  destruct H as (k & Hk). replace (a * b) with (0 + k * 67) in C by lia. rewrite Z.mod_add, Z.mod_0_l in C by lia.
  change (0 =? 0) with true in C. cbn [negb orb] in C. apply orb_prop in C.
  destruct C as [C|C]; apply Nat.eqb_eq in C; [left; exists (a / 67)|right; exists (b / 67)].
  - pose proof (Z.div_mod a 67). lia.
  - pose proof (Z.div_mod b 67). lia.
Qed.

Lemma zprod_zero g l e : zprod g l e == 0 [mod 67] <-> exists j, In j l /\ g j e == 0 [mod 67].
Proof.
  induction l as [|j l IH].
  - split; [intros (k & H); unfold zprod in H; cbn in H; lia|intros (j & [] & _)].
  - rewrite zprod_cons. split.
    + intros H. apply prime67 in H. destruct H as [H|H]; [exists j; split; [left; auto|auto]|].
      apply IH in H. destruct H as (i & Hi & E). exists i. split; [right; auto|auto].
    + intros (i & [<-|Hi] & E).
      * rewrite E. reflexivity.
      * assert (H : zprod g l e == 0 [mod 67]) by (apply IH; eauto). rewrite H. apply eqmod_eq. ring.
Qed.

Lemma eq01 p q : p = 0 \/ p = 1 -> q = 0 \/ q = 1 -> 0 <= p + q - 2 * (p * q) <= 1 /\ (p + q - 2 * (p * q) = 0 <-> p = q).
Proof. intros [->| ->] [->| ->]; cbn; lia. Qed.

Lemma diffs_bound x r i n : 0 <= diffs x r i n <= Z.of_nat (n - i).
Proof.
  unfold diffs. generalize (n - i)%nat as k. intros k. revert i. induction k as [|k IH]; intros i; cbn [seq map zsum]; [lia|].
  specialize (IH (S i)). pose proof (eq01 _ _ (bit_01 x i) (bit_01 r i)). lia.
Qed.
Lemma diffs_zero x r i n : diffs x r i n = 0 <-> forall k, (i <= k < n)%nat -> bit x k = bit r k.
Proof.
  unfold diffs. remember (n - i)%nat as q eqn:Eq. revert i Eq. induction q as [|q IH]; intros i Eq; cbn [seq map zsum].
  - split; [intros _ k Hk; lia|reflexivity].
  - pose proof (eq01 _ _ (bit_01 x i) (bit_01 r i)) as (B & Z0). specialize (IH (S i) ltac:(lia)).
    pose proof (diffs_bound x r (S i) n) as DB. unfold diffs in DB. replace (n - S i)%nat with q in DB by lia. split.
    + intros H k Hk. assert (H1 : bit x i + bit r i - 2 * (bit x i * bit r i) = 0) by lia.
      destruct (Nat.eq_dec k i) as [->|]; [apply Z0; auto|]. apply IH; lia.
    + intros H. assert (E1 : bit x i = bit r i) by (apply H; lia). apply Z0 in E1.
      assert (E2 : zsum (map (fun k => bit x k + bit r k - 2 * (bit x k * bit r k)) (seq (S i) q)) = 0) by (apply IH; intros k Hk; apply H; lia).
      lia.
Qed.

Lemma cval_bound b x r n i : b = 0 \/ b = 1 -> (i < n)%nat -> 0 <= cval b x r n i <= Z.of_nat n + 1.
Proof.
  intros Hb Hi. unfold cval. pose proof (diffs_bound x r (S i) n).
  destruct Hb as [->| ->], (bit_01 x i) as [->| ->], (bit_01 r i) as [->| ->]; cbn; lia.
Qed.
Lemma cval_zero b x r n i : b = 0 \/ b = 1 ->
  (cval b x r n i = 0 <-> (forall k, (S i <= k < n)%nat -> bit x k = bit r k) /\ bit x i = b /\ bit r i = 1 - b).
Proof.
  intros Hb. unfold cval. pose proof (diffs_bound x r (S i) n) as B. rewrite <- diffs_zero.
  destruct Hb as [->| ->], (bit_01 x i) as [->| ->], (bit_01 r i) as [->| ->]; cbn; lia.
Qed.

Lemma digits_bound x n : 0 <= digits (bit x) n < 2 ^ Z.of_nat n.
Proof. rewrite digits_bit. apply Z.mod_pos_bound, pow2_pos. Qed.
Lemma digits_S f n : digits f (S n) = digits f n + f n * 2 ^ Z.of_nat n.
Proof. reflexivity. Qed.

(** the highest differing bit decides *)
Lemma highest x r n : digits (bit x) n < digits (bit r) n <->
  exists i, (i < n)%nat /\ (forall k, (S i <= k < n)%nat -> bit x k = bit r k) /\ bit x i = 0 /\ bit r i = 1.
Proof.
  induction n as [|n IH].
  - cbn. split; [lia|intros (i & H & _); lia].
  - rewrite !digits_S. pose proof (digits_bound x n) as Bx. pose proof (digits_bound r n) as Br.
    split.
    + intros H. destruct (Z.eq_dec (bit x n) (bit r n)) as [E|NE].
      * rewrite E in H. destruct (proj1 IH ltac:(lia)) as (i & Hi & HK & H0 & H1). exists i. split; [lia|]. split; [|auto].
        intros k Hk. destruct (Nat.eq_dec k n) as [->|]; [exact E|]. apply HK. lia.
      * exists n. split; [lia|]. split; [intros k Hk; lia|].
        destruct (bit_01 x n) as [E1|E1], (bit_01 r n) as [E2|E2]; rewrite E1, E2 in *; try lia.
    + intros (i & Hi & HK & H0 & H1). destruct (Nat.eq_dec i n) as [->|NE].
      * rewrite H0, H1. lia.
      * rewrite (HK n) by lia. assert (digits (bit x) n < digits (bit r) n).
        { apply IH. exists i. split; [lia|]. split; [|auto]. intros k Hk. apply HK. lia. }
        lia.
Qed.

Lemma small_zero v : 0 <= v < 67 -> (v == 0 [mod 67] <-> v = 0).
Proof. intros H. split; [intros (k & E); lia|intros ->; reflexivity]. Qed.

(** the masked product is zero iff [x < r] (random bit 0) or [r < x] (random bit 1) *)
Lemma cmp_zero b x r m n : b = 0 \/ b = 1 -> (n <= 65)%nat -> ~ m == 0 [mod 67] ->
  (m * zprod (fun j (_ : nat) => cval b x r n j) (seq 0 n) 0 == 0 [mod 67] <->
   if b =? 0 then digits (bit x) n < digits (bit r) n else digits (bit r) n < digits (bit x) n).
Proof.
  intros Hb Hn Hm.
  assert (E : (m * zprod (fun j (_ : nat) => cval b x r n j) (seq 0 n) 0 == 0 [mod 67]) <->
    exists i, (i < n)%nat /\ (forall k, (S i <= k < n)%nat -> bit x k = bit r k) /\ bit x i = b /\ bit r i = 1 - b).
  { split.
    - intros H. apply prime67 in H. destruct H as [H|H]; [contradiction|]. apply zprod_zero in H. destruct H as (j & Hj & H).
      apply in_seq in Hj. exists j. split; [lia|]. apply cval_zero; auto. apply small_zero; auto.
      pose proof (cval_bound b x r n j Hb ltac:(lia)). lia.
    - intros (i & Hi & H). apply cval_zero in H; auto.
      assert (HZ : zprod (fun j (_ : nat) => cval b x r n j) (seq 0 n) 0 == 0 [mod 67]).
      { apply zprod_zero. exists i. split; [apply in_seq; lia|]. rewrite H. reflexivity. }
      rewrite HZ. apply eqmod_eq. ring. }
  rewrite E. destruct Hb as [->| ->]; cbn [Z.eqb].
  - change (1 - 0) with 1. symmetry. apply highest.
  - rewrite (highest r x n). change (1 - 1) with 0.
    split; intros (i & Hi & HK & H1 & H2); exists i; (split; [exact Hi|]; split; [|auto]); intros k Hk; symmetry; apply HK; exact Hk.
Qed.
