(** Softmax over the real numbers. *)
From Coq Require Import QArith Reals Qreals Lra Lia.
From Verif Require Import Util M_Encoder M_Share M_Fss M_Engine M_Approx M_Softmax S_Real S_Softmax L_Real.
Local Open Scope R_scope.

Lemma gives_cmap {A B} (f : A -> comp unit B) (g : A -> B) l : (forall a, In a l -> gives (f a) (g a)) -> gives (cmap f l) (map g l).
Proof.
  induction l as [|a l IH]; intros H; [reflexivity|]. cbn [cmap map].
  eapply gives_bind; [apply H; now left|]. eapply gives_bind; [apply IH; intros; apply H; now right|]. reflexivity.
Qed.

Lemma gives_csum l : l <> [] -> gives (csum RE l) (rsum l).
Proof.
  induction l as [|a l IH]; intros H; [congruence|]. destruct l as [|b l].
  - cbn [csum rsum fold_right]. unfold gives, cret. do 2 f_equal. lra.
  - change (csum RE (a :: b :: l)) with (let! t := csum RE (b :: l) in e_lin RE LAdd a t).
    eapply gives_bind; [apply IH; discriminate|]. run. reflexivity.
Qed.

Lemma rsum_app l k : rsum (l ++ k) = rsum l + rsum k.
Proof. unfold rsum. induction l as [|a l IH]; cbn [app fold_right]; [lra|]. rewrite IH. lra. Qed.
Lemma rsum_scale c l : rsum (map (fun x => x * c) l) = rsum l * c.
Proof. unfold rsum. induction l as [|a l IH]; cbn [map fold_right]; [lra|]. rewrite IH. lra. Qed.
Lemma rsum_le {A} (f g : A -> R) l : (forall a, In a l -> f a <= g a) -> rsum (map f l) <= rsum (map g l).
Proof.
  induction l as [|a l IH]; intros H; cbn [map rsum fold_right]; [lra|]. apply Rplus_le_compat; [apply H; now left|].
  apply IH. intros; apply H; now right.
Qed.
Lemma rsum_const {A} (c : R) (l : list A) : rsum (map (fun _ => c) l) = INR (length l) * c.
Proof. induction l as [|a l IH]; cbn [map rsum fold_right length]; [cbn; lra|]. rewrite S_INR. fold (rsum (map (fun _ => c) l)). rewrite IH. lra. Qed.
Lemma rsum_ge l x : (forall y, In y l -> 0 <= y) -> In x l -> x <= rsum l.
Proof.
  induction l as [|a l IH]; intros H HI; [destruct HI|]. cbn [rsum fold_right]. fold (rsum l).
  assert (0 <= rsum l).
  { clear -H. assert (K : forall y, In y l -> 0 <= y) by (intros; apply H; now right). clear H. induction l as [|b l IH]; cbn; [lra|].
    pose proof (K b (or_introl eq_refl)). assert (0 <= rsum l) by (apply IH; intros; apply K; now right). unfold rsum in *. lra. }
  assert (0 <= a) by (apply H; now left).
  destruct HI as [<-|HI]; [lra|]. assert (x <= rsum l) by (apply IH; auto; intros; apply H; now right). lra.
Qed.

Lemma largest_dec l x : {largest l x} + {~ largest l x}.
Proof.
  induction l as [|a l [H|H]].
  - left. intros y [].
  - destruct (Rle_dec a x) as [Ha|Ha]; [left; intros y [<-|Hy]; auto|right; intros K; apply Ha, K; now left].
  - right. intros K. apply H. intros y Hy. apply K. now right.
Qed.

Lemma count_rel {A} (f : A -> R) (l : list A) : (forall a, In a l -> f a = 0 \/ f a = 1) ->
  rsum (map f l) <= INR (length l) /\ (INR (length l) <= rsum (map f l) <-> forall a, In a l -> f a = 1).
Proof.
  induction l as [|a l IH]; intros H; cbn [map rsum fold_right length].
  - cbn. split; [lra|]. split; [intros _ y []|lra].
  - rewrite S_INR. fold (rsum (map f l)). destruct IH as [H1 H2]; [intros; apply H; now right|].
    destruct (H a (or_introl eq_refl)) as [E|E]; rewrite E.
    + split; [lra|]. split; [lra|]. intros K. rewrite K in E by now left. lra.
    + split; [lra|]. split.
      * intros K y [<-|Hy]; auto. apply H2; auto. lra.
      * intros K. assert (INR (length l) <= rsum (map f l)) by (apply H2; intros; apply K; now right). lra.
Qed.

Lemma one_hot_R xs d i : (2 <= length xs)%nat -> (i < length xs)%nat ->
  gives (one_hot_at RE xs d i) (if largest_dec xs (nth i xs d) then 1 else 0).
Proof.
  intros Hn Hi. unfold one_hot_at.
  set (f := fun k => rel_R RGe (nth i xs d - nth ((i + length xs - k) mod length xs) xs d) 0).
  eapply gives_bind; [apply (gives_cmap _ f); intros k _; run; reflexivity|].
  assert (NE : map f (seq 1 (length xs - 1)) <> []).
  { destruct (length xs) as [|[|n]]; try lia. discriminate. }
  eapply gives_bind; [apply gives_csum; auto|]. run. do 2 f_equal. unfold rel_R.
  destruct (count_rel f (seq 1 (length xs - 1))) as [_ C].
  { intros k _. unfold f, rel_R. destruct (Rle_dec _ _); auto. }
  rewrite seq_length in C.
  replace (IZR (Z.of_nat (length xs) - 1)) with (INR (length xs - 1)) by (rewrite minus_IZR, <- INR_IZR_INZ, minus_INR by lia; reflexivity).
  assert (EQ : (forall k, In k (seq 1 (length xs - 1)) -> f k = 1) <-> largest xs (nth i xs d)).
  { split.
    - intros K y Hy. destruct (In_nth _ _ d Hy) as (j & Hj & <-).
      destruct (Nat.eq_dec j i) as [->|NJ]; [lra|].
      assert (exists k, In k (seq 1 (length xs - 1)) /\ ((i + length xs - k) mod length xs = j)%nat) as (k & Hk & Ek).
      { destruct (Nat.lt_ge_cases j i) as [L|L].
        - exists (i - j)%nat. split; [apply in_seq; lia|]. replace (i + length xs - (i - j))%nat with (j + 1 * length xs)%nat by lia.
          rewrite Nat.mod_add by lia. apply Nat.mod_small. auto.
        - exists (i + length xs - j)%nat. split; [apply in_seq; lia|]. replace (i + length xs - (i + length xs - j))%nat with j by lia.
          apply Nat.mod_small. auto. }
      specialize (K k Hk). unfold f in K. rewrite Ek in K. unfold rel_R in K. destruct (Rle_dec 0 (nth i xs d - nth j xs d)); lra.
    - intros K k Hk. unfold f, rel_R. set (j := ((i + length xs - k) mod length xs)%nat).
      assert (Hj : (j < length xs)%nat) by (apply Nat.mod_upper_bound; lia).
      specialize (K _ (nth_In xs d Hj)). destruct (Rle_dec _ _); auto. lra. }
  destruct (Rle_dec (INR (length xs - 1)) _) as [L|L], (largest_dec xs (nth i xs d)) as [M|M]; auto; exfalso.
  - apply M, EQ, C. exact L.
  - apply L, C, EQ. exact M.
Qed.

(** the value of the maximum: the sum of all largest entries *)
Definition sum_largest (xs : list R) : R := rsum (map (fun x => if largest_dec xs x then x else 0) xs).

Lemma map_nth_seq {A B} (g : A -> B) (l : list A) d : map (fun i => g (nth i l d)) (seq 0 (length l)) = map g l.
Proof.
  induction l as [|a l IH]; [reflexivity|]. cbn [length seq map]. f_equal. rewrite <- seq_shift, map_map. apply IH.
Qed.
Lemma combine_map_self {A B} (g : A -> B) l : combine (map g l) l = map (fun a => (g a, a)) l.
Proof. induction l as [|a l IH]; [reflexivity|]. cbn. now rewrite IH. Qed.

Lemma line_max_R xs d : (2 <= length xs)%nat -> gives (line_max RE xs d) (sum_largest xs).
Proof.
  intros Hn. unfold line_max.
  eapply gives_bind; [apply (gives_cmap _ (fun i => if largest_dec xs (nth i xs d) then 1 else 0)); intros i Hi; apply in_seq in Hi; apply one_hot_R; lia|].
  rewrite (map_nth_seq (fun x => if largest_dec xs x then 1 else 0)), combine_map_self.
  eapply gives_bind; [apply (gives_cmap _ (fun p => fst p * snd p)); intros; run; reflexivity|].
  rewrite map_map. cbn [fst snd]. eapply gives_eq; [apply gives_csum|].
  - destruct xs; [cbn in Hn; lia|discriminate].
  - unfold sum_largest. f_equal. apply map_ext. intros x. destruct (largest_dec xs x); lra.
Qed.

Lemma sum_largest_count xs m : In m xs -> largest xs m -> sum_largest xs = INR (count_occ Req_EM_T xs m) * m.
Proof.
  intros HI HL. unfold sum_largest.
  assert (G : forall l, incl l xs -> rsum (map (fun x => if largest_dec xs x then x else 0) l) = INR (count_occ Req_EM_T l m) * m).
  { induction l as [|a l IH]; intros Hl; [cbn; lra|]. cbn [map rsum fold_right count_occ].
    fold (rsum (map (fun x => if largest_dec xs x then x else 0) l)). rewrite IH by (intros y Hy; apply Hl; now right).
    assert (Ha : In a xs) by (apply Hl; now left).
    destruct (Req_EM_T a m) as [->|N].
    - rewrite S_INR. destruct (largest_dec xs m); [lra|contradiction].
    - destruct (largest_dec xs a) as [L|L]; [exfalso; apply N, Rle_antisym; auto|lra]. }
  apply G. apply incl_refl.
Qed.

(** monotonicity of limexp *)
Lemma limexp_mono k x y : - 2 ^ k <= x <= y -> limexp k x <= limexp k y.
Proof.
  intros [H1 H2]. unfold limexp. pose proof (two_pow_R_pos k) as P. apply pow_incr.
  assert (-1 <= x / 2 ^ k) by (apply (Rmult_le_reg_r (2 ^ k)); auto; unfold Rdiv; rewrite Rmult_assoc, Rinv_l by lra; lra).
  assert (x / 2 ^ k <= y / 2 ^ k) by (apply Rmult_le_compat_r; auto; left; apply Rinv_0_lt_compat; auto). lra.
Qed.

Lemma sqpow x k : x ^ (2 ^ S k) = (x * x) ^ (2 ^ k).
Proof. rewrite Nat.pow_succ_r', pow_mult. f_equal. ring. Qed.
Lemma chain_lb x q k : 0 <= q <= x * x -> q ^ (2 ^ k) <= x ^ (2 ^ S k).
Proof. intros H. rewrite sqpow. apply pow_incr. exact H. Qed.
Lemma chain_ub x q k : x * x <= q -> x ^ (2 ^ S k) <= q ^ (2 ^ k).
Proof. intros H. rewrite sqpow. apply pow_incr. split; auto. nra. Qed.

Ltac lbs q k := apply Rle_trans with (q ^ (2 ^ k)); [|apply chain_lb; lra].
Ltac ubs q k := apply Rle_trans with (q ^ (2 ^ k)); [apply chain_ub; lra|].
Lemma limexp_at_4 : 294763 / 10000000 <= limexp 8 (1 / 2 - 4).
Proof.
  unfold limexp. replace (1 + (1 / 2 - 4) / 2 ^ 8) with (505 / 512) by lra.
  lbs (9728431 / 10000000) 7%nat.
  lbs (2366059 / 2500000) 6%nat.
  lbs (1119647 / 1250000) 5%nat.
  lbs (80231 / 100000) 4%nat.
  lbs (6437013 / 10000000) 3%nat.
  lbs (4143513 / 10000000) 2%nat.
  lbs (1716869 / 10000000) 1%nat.
  lbs (294763 / 10000000) 0%nat.
  cbn [Nat.pow pow]. lra.
Qed.
Lemma limexp_at_6 : 38489 / 10000000 <= limexp 8 (1 / 2 - 6).
Proof.
  unfold limexp. replace (1 + (1 / 2 - 6) / 2 ^ 8) with (501 / 512) by lra.
  lbs (598433 / 625000) 7%nat.
  lbs (2291981 / 2500000) 6%nat.
  lbs (8405083 / 10000000) 5%nat.
  lbs (3532271 / 5000000) 4%nat.
  lbs (199631 / 400000) 3%nat.
  lbs (2490783 / 10000000) 2%nat.
  lbs (620399 / 10000000) 1%nat.
  lbs (38489 / 10000000) 0%nat.
  cbn [Nat.pow pow]. lra.
Qed.
Lemma limexp_at_7 : 13823 / 10000000 <= limexp 8 (1 / 2 - 7).
Proof.
  unfold limexp. replace (1 + (1 / 2 - 7) / 2 ^ 8) with (499 / 512) by lra.
  lbs (4749317 / 5000000) 7%nat.
  lbs (2255601 / 2500000) 6%nat.
  lbs (8140377 / 10000000) 5%nat.
  lbs (6626573 / 10000000) 4%nat.
  lbs (2195573 / 5000000) 3%nat.
  lbs (241027 / 1250000) 2%nat.
  lbs (371801 / 10000000) 1%nat.
  lbs (13823 / 10000000) 0%nat.
  cbn [Nat.pow pow]. lra.
Qed.
Lemma limexp_at_8 : 309 / 625000 <= limexp 8 (1 / 2 - 8).
Proof.
  unfold limexp. replace (1 + (1 / 2 - 8) / 2 ^ 8) with (497 / 512) by lra.
  lbs (1884529 / 2000000) 7%nat.
  lbs (8878623 / 10000000) 6%nat.
  lbs (3941497 / 5000000) 5%nat.
  lbs (6214159 / 10000000) 4%nat.
  lbs (3861577 / 10000000) 3%nat.
  lbs (1491177 / 10000000) 2%nat.
  lbs (5559 / 250000) 1%nat.
  lbs (309 / 625000) 0%nat.
  cbn [Nat.pow pow]. lra.
Qed.
Lemma limexp_at_9 : 1761 / 10000000 <= limexp 8 (1 / 2 - 9).
Proof.
  unfold limexp. replace (1 + (1 / 2 - 9) / 2 ^ 8) with (495 / 512) by lra.
  lbs (9346961 / 10000000) 7%nat.
  lbs (8736567 / 10000000) 6%nat.
  lbs (190819 / 250000) 5%nat.
  lbs (2912951 / 5000000) 4%nat.
  lbs (3394113 / 10000000) 3%nat.
  lbs (72 / 625) 2%nat.
  lbs (13271 / 1000000) 1%nat.
  lbs (1761 / 10000000) 0%nat.
  cbn [Nat.pow pow]. lra.
Qed.
Lemma pow973 : (973 / 1000) ^ (2 ^ 10) <= / 10 ^ 12.
Proof.
  ubs (946729 / 1000000) 9%nat.
  ubs (896295799441 / 1000000000000) 8%nat.
  ubs (401673080047791 / 500000000000000) 7%nat.
  ubs (645365052940317 / 1000000000000000) 6%nat.
  ubs (416496051556659 / 1000000000000000) 5%nat.
  ubs (10841810060143 / 62500000000000) 4%nat.
  ubs (3761435052167 / 125000000000000) 3%nat.
  ubs (905497193707 / 1000000000000000) 2%nat.
  ubs (51245323 / 62500000000000) 1%nat.
  ubs (673 / 1000000000000000) 0%nat.
  cbn [Nat.pow pow]. lra.
Qed.

Lemma guess_bound a : 1 <= a <= 50 -> Rabs (1 - a * guess a) <= 973 / 1000.
Proof.
  intros Ha.
  assert (U : a * guess a <= 1973 / 1000).
  { assert (P := exp_below 8 (1 / 2 - a)).
    destruct P as [P0 P1]; [replace (2 ^ 8) with 256 by lra; lra|]. unfold guess. set (p := limexp 8 (1 / 2 - a)) in *. clearbody p.
    assert (E1 : a * exp (1 / 2 - a) <= exp (- (1 / 2))).
    { replace (- (1 / 2)) with ((a - 1) + (1 / 2 - a)) by lra. rewrite exp_plus. apply Rmult_le_compat_r; [left; apply exp_pos|].
      pose proof (exp_ineq1_le (a - 1)). lra. }
    assert (E2 : exp (- (1 / 2)) < 607 / 1000).
    { rewrite exp_Ropp. apply (Rmult_lt_reg_r (exp (1 / 2))); [apply exp_pos|]. rewrite Rinv_l by (apply Rgt_not_eq, exp_pos).
      pose proof (exp_below 8 (1 / 2)) as [_ Q]; [replace (2 ^ 8) with 256 by lra; lra|]. unfold limexp in Q.
      assert (K : 16478 / 10000 <= (1 + 1 / 2 / 2 ^ 8) ^ 2 ^ 8); [|lra].
      replace (1 + 1 / 2 / 2 ^ 8) with (513 / 512) by lra.
      lbs (100391 / 100000) 7%nat.
      lbs (629897 / 625000) 6%nat.
      lbs (10157317 / 10000000) 5%nat.
      lbs (2579277 / 2500000) 4%nat.
      lbs (10644271 / 10000000) 3%nat.
      lbs (226601 / 200000) 2%nat.
      lbs (12837003 / 10000000) 1%nat.
      lbs (1029929 / 625000) 0%nat.
      cbn [Nat.pow pow]. lra. }
    assert (E3 : a * p <= a * exp (1 / 2 - a)) by (apply Rmult_le_compat_l; lra).
    lra. }
  assert (L : 27 / 1000 <= a * guess a).
  { assert (M : forall b c, a <= b <= 9 -> c <= limexp 8 (1 / 2 - b) -> a * (3 * c + 3 / 1000) <= a * guess a).
    { intros b c Hb Hc. apply Rmult_le_compat_l; [lra|]. unfold guess.
      assert (limexp 8 (1 / 2 - b) <= limexp 8 (1 / 2 - a)) by (apply limexp_mono; replace (2 ^ 8) with 256 by lra; lra). lra. }
    destruct (Rle_dec a 4) as [H4|H4]; [assert (K : a <= 4 <= 9) by lra; specialize (M 4 _ K limexp_at_4); lra|].
    destruct (Rle_dec a 6) as [H6|H6]; [assert (K : a <= 6 <= 9) by lra; specialize (M 6 _ K limexp_at_6); lra|].
    destruct (Rle_dec a 7) as [H7|H7]; [assert (K : a <= 7 <= 9) by lra; specialize (M 7 _ K limexp_at_7); lra|].
    destruct (Rle_dec a 8) as [H8|H8]; [assert (K : a <= 8 <= 9) by lra; specialize (M 8 _ K limexp_at_8); lra|].
    destruct (Rle_dec a 9) as [H9|H9]; [assert (K : a <= 9 <= 9) by lra; specialize (M 9 _ K limexp_at_9); lra|].
    unfold guess. destruct (exp_below 8 (1 / 2 - a)) as [P0 _]; [replace (2 ^ 8) with 256 by lra; lra|]. nra. }
  apply Rabs_le. lra.
Qed.

(** the last step of the tails: (487/512)^256 is small *)
Lemma pow487 : (487 / 512) ^ (2 ^ 8) <= 1 / 10000.
Proof.
  ubs (9048 / 10000) 7%nat.
  ubs (8187 / 10000) 6%nat.
  ubs (6703 / 10000) 5%nat.
  ubs (4494 / 10000) 4%nat.
  ubs (2020 / 10000) 3%nat.
  ubs (409 / 10000) 2%nat.
  ubs (17 / 10000) 1%nat.
  ubs (1 / 10000) 0%nat.
  cbn [Nat.pow pow]. lra.
Qed.

Lemma guess_wide a : 1 / 50 <= a <= 500 -> Rabs (1 - a * guess a) <= 973 / 1000.
Proof.
  intros Ha. destruct (Rle_dec a 50) as [H50|H50]; [destruct (Rle_dec 1 a) as [H1|H1]|].
  - apply guess_bound. lra.
  - (* 1/50 <= a < 1 *)
    unfold guess. destruct (exp_below 8 (1 / 2 - a)) as [P0 P1]; [replace (2 ^ 8) with 256 by lra; lra|].
    assert (L : 1 / 2 <= limexp 8 (1 / 2 - a)).
    { apply Rle_trans with (limexp 8 (- (1 / 2))); [|apply limexp_mono; replace (2 ^ 8) with 256 by lra; lra].
      unfold limexp. pose proof (bernoulli (2 ^ 8) (- (1 / 2) / 2 ^ 8)) as B.
      replace (INR (2 ^ 8)) with 256 in B by (rewrite pow_INR; cbn [INR]; lra). lra. }
    set (p := limexp 8 (1 / 2 - a)) in *. clearbody p.
    assert (E1 : a * exp (1 / 2 - a) <= exp (- (1 / 2))).
    { replace (- (1 / 2)) with ((a - 1) + (1 / 2 - a)) by lra. rewrite exp_plus. apply Rmult_le_compat_r; [left; apply exp_pos|].
      pose proof (exp_ineq1_le (a - 1)). lra. }
    assert (E2 : exp (- (1 / 2)) < 616 / 1000).
    { rewrite exp_Ropp. apply (Rmult_lt_reg_r (exp (1 / 2))); [apply exp_pos|]. rewrite Rinv_l by (apply Rgt_not_eq, exp_pos).
      pose proof (exp_below 3 (1 / 2)) as [_ Q]; [lra|]. unfold limexp in Q. cbn [Nat.pow Nat.mul Nat.add] in Q.
      assert (1624 / 1000 < (1 + 1 / 2 / 2 ^ 3) ^ 8) by lra. lra. }
    assert (E3 : a * p <= a * exp (1 / 2 - a)) by (apply Rmult_le_compat_l; lra).
    assert (E4 : a / 2 <= a * p) by nra.
    apply Rabs_le. lra.
  - (* 50 < a *)
    assert (T : 0 <= a * limexp 8 (1 / 2 - a) <= 1 / 10 /\ True).
    { split; [|exact I]. destruct (Rle_dec a 256) as [H|H].
      - destruct (exp_below 8 (1 / 2 - a)) as [P0 P1]; [replace (2 ^ 8) with 256 by lra; lra|].
        split; [apply Rmult_le_pos; lra|].
        apply Rle_trans with (a * exp (1 / 2 - a)); [apply Rmult_le_compat_l; lra|].
        replace (1 / 2 - a) with (- (a / 2 - 1 / 4) + - (a / 2 - 1 / 4)) by lra. rewrite exp_plus, exp_Ropp.
        pose proof (exp_ineq1_le (a / 2 - 1 / 4)) as Q. set (e := exp (a / 2 - 1 / 4)) in *. clearbody e.
        assert (Ie : / e <= / (a / 2)) by (apply Rinv_le_contravar; lra).
        assert (0 < / e) by (apply Rinv_0_lt_compat; lra).
        assert (a * / e <= 2).
        { apply Rle_trans with (a * / (a / 2)); [apply Rmult_le_compat_l; lra|]. right. field. lra. }
        assert (/ e <= 1 / 25).
        { apply Rle_trans with (/ (a / 2)); [lra|]. replace (1 / 25) with (/ 25) by lra. apply Rinv_le_contravar; lra. }
        nra.
      - unfold limexp. replace (1 + (1 / 2 - a) / 2 ^ 8) with (- ((a - 513 / 2) / 256)) by lra.
        assert (Ev : forall t, (- t) ^ (2 ^ 8) = t ^ (2 ^ 8)).
        { intros t. rewrite !sqpow. f_equal. ring. }
        rewrite Ev. destruct (Rle_dec (513 / 2) a) as [G|G].
        + assert (B : 0 <= ((a - 513 / 2) / 256) ^ 2 ^ 8 <= (487 / 512) ^ 2 ^ 8).
          { split; [apply pow_le; lra|apply pow_incr; lra]. }
          pose proof pow487. set (q := ((a - 513 / 2) / 256) ^ 2 ^ 8) in *. clearbody q. nra.
        + rewrite <- Ev.
          assert (B : 0 <= (- ((a - 513 / 2) / 256)) ^ 2 ^ 8 <= (487 / 512) ^ 2 ^ 8).
          { split; [apply pow_le; lra|apply pow_incr; lra]. }
          pose proof pow487. set (q := (- ((a - 513 / 2) / 256)) ^ 2 ^ 8) in *. clearbody q. nra. }
    destruct T as [T _]. unfold guess. apply Rabs_le.
    replace (a * (3 * limexp 8 (1 / 2 - a) + 3 / 1000)) with (3 * (a * limexp 8 (1 / 2 - a)) + 3 / 1000 * a) by ring.
    set (t := a * limexp 8 (1 / 2 - a)) in *. clearbody t. lra.
Qed.

Lemma recip_10 a : 1 / 50 <= a <= 500 -> exists y, gives (reciprocal RE RNewton 10 a) y /\ 0 <= 1 - a * y <= / 10 ^ 12.
Proof.
  intros Ha. destruct (recip_R 10 a) as (y & r & G & E & H). exists y. split; [exact G|].
  assert (A : Rabs a = a) by (apply Rabs_right; lra). rewrite A in H.
  assert (S : sgn_R a = 1) by (unfold sgn_R; destruct (Rlt_dec 0 a); lra). rewrite S, Rmult_1_r in E. subst r. rewrite H.
  pose proof (guess_wide a Ha) as B. rewrite sqpow. split; [apply pow_le, Rle_0_sqr|]. rewrite <- sqpow.
  apply Rle_trans with ((973 / 1000) ^ (2 ^ 10)); [|apply pow973].
  rewrite (sqpow (1 - _)), (sqpow (973 / 1000)). apply pow_incr.
  revert B. generalize (1 - a * guess a). intros h B. unfold Rabs in B. destruct (Rcase_abs h); nra.
Qed.

Lemma softmax_R z xs : (2 <= length xs)%nat -> exists r,
  gives (reciprocal RE RNewton 10 (rsum (map (fun x => limexp 8 (x - sum_largest xs)) xs))) r /\
  gives (softmax RE z xs) (map (fun x => limexp 8 (x - sum_largest xs) * r) xs).
Proof.
  intros Hn. set (d := rsum _). destruct (recip_R 10 d) as (r & _ & G & _). exists r. split; [exact G|].
  assert (NE : xs <> []) by (intros ->; cbn in Hn; lia).
  assert (E : softmax RE z xs = (let! m := line_max RE xs z in let! ls := cmap (fun x => e_lin RE LSub x m) xs in
        let! ys := cmap (exp_a RE 8) ls in let! d := csum RE ys in
        let! r := reciprocal RE RNewton 10 d in cmap (fun y => e_mul RE y r) ys)).
  { destruct xs as [|a [|b l]]; cbn in Hn; try lia. reflexivity. }
  rewrite E. clear E.
  eapply gives_bind; [apply line_max_R; auto|].
  eapply gives_bind; [apply (gives_cmap _ (fun x => x - sum_largest xs)); intros; run; reflexivity|].
  eapply gives_bind; [apply (gives_cmap _ (limexp 8)); intros; apply exp_R|]. rewrite map_map.
  eapply gives_bind; [apply gives_csum; intros H; apply map_eq_nil in H; auto|].
  eapply gives_bind; [exact G|].
  eapply gives_eq; [apply (gives_cmap _ (fun y => y * r)); intros; run; reflexivity|]. rewrite map_map. reflexivity.
Qed.

Lemma log_softmax_R z xs g : (2 <= length xs)%nat ->
  gives (log_a RE 2 8 (rsum (map (fun x => limexp 8 (x - sum_largest xs)) xs))) g ->
  gives (log_softmax RE z xs) (map (fun x => x - sum_largest xs - g) xs).
Proof.
  intros Hn G.
  assert (NE : xs <> []) by (intros ->; cbn in Hn; lia).
  assert (E : log_softmax RE z xs = (let! m := line_max RE xs z in let! ls := cmap (fun x => e_lin RE LSub x m) xs in
        let! ys := cmap (exp_a RE 8) ls in let! d := csum RE ys in
        let! g := log_a RE 2 8 d in cmap (fun l => e_lin RE LSub l g) ls)).
  { destruct xs as [|a [|b l]]; cbn in Hn; try lia. reflexivity. }
  rewrite E. clear E.
  eapply gives_bind; [apply line_max_R; auto|].
  eapply gives_bind; [apply (gives_cmap _ (fun x => x - sum_largest xs)); intros; run; reflexivity|].
  eapply gives_bind; [apply (gives_cmap _ (limexp 8)); intros; apply exp_R|]. rewrite map_map.
  eapply gives_bind; [apply gives_csum; intros H; apply map_eq_nil in H; auto|].
  eapply gives_bind; [exact G|].
  eapply gives_eq; [apply (gives_cmap _ (fun y => y - g)); intros; run; reflexivity|]. rewrite map_map. reflexivity.
Qed.

(* the reciprocal of a large number: negative *)
Lemma recip_large d r : 600 <= d -> gives (reciprocal RE RNewton 10 d) r -> r < 0.
Proof.
  intros Hd G. destruct (recip_R 10 d) as (y & r' & G' & E & H). unfold gives in G, G'. rewrite G in G'. injection G' as <-.
  rewrite (Rabs_right d) in H by lra.
  assert (S : sgn_R d = 1) by (unfold sgn_R; destruct (Rlt_dec 0 d); lra). rewrite S, Rmult_1_r in E. subst r'.
  assert (L : 1 <= limexp 8 (1 / 2 - d)).
  { unfold limexp. set (t := 1 + (1 / 2 - d) / 2 ^ 8). assert (t <= -1) by (unfold t; replace (2 ^ 8) with 256 by lra; lra). rewrite sqpow. apply pow_R1_Rle. nra. }
  assert (K0 : 1800 <= d * guess d) by (unfold guess; nra). set (gd := d * guess d) in *. clearbody gd.
  assert (K : 2 <= (1 - gd) * (1 - gd)) by nra.
  rewrite sqpow in H.
  assert (1 < (1 - gd) * (1 - gd)) by lra.
  assert (1 < ((1 - gd) * (1 - gd)) ^ (2 ^ 9)) by (apply Rlt_pow_R1; [lra|apply Nat.neq_0_lt_0, Nat.pow_nonzero; lia]).
  nra.
Qed.
