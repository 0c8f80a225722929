(** Lemmas about wrap counting, local division and public division. *)
From Coq Require Import QArith Setoid Morphisms.
From Verif Require Import Util Modular S_Ring S_Tensor S_Wraps M_Torch M_Encoder M_Float M_Tensor M_Share M_Spdz
  S_Div L_Torch L_Tensor L_Encoder L_Float L_Share L_Spdz.
Local Open Scope Z_scope.

Lemma radd64 x y : radd R64 x y = to_ring R64 (x + y).
Proof. unfold radd. cbn [Z.eqb]. change (R64 =? 2) with false. change (R64 =? PRIME) with false. cbn iota.
  apply plain_spec; auto; discriminate. Qed.
Lemma rsub64 x y : rsub R64 x y = to_ring R64 (x - y).
Proof. unfold rsub. change (R64 =? 2) with false. change (R64 =? PRIME) with false. cbn iota.
  apply plain_spec; auto; discriminate. Qed.

Lemma to_ring64 v : to_ring R64 v = (v + 2^63) mod 2^64 - 2^63.
Proof. reflexivity. Qed.
Lemma to_ring64_range v : - 2^63 <= to_ring R64 v < 2^63.
Proof. apply in_ring64_range. apply in_to_ring; auto. Qed.
Lemma to_ring64_small v : - 2^63 <= v < 2^63 -> to_ring R64 v = v.
Proof. intros H. apply in_ring64; auto. Qed.

(* -------------------------------------------------------- counting wraps *)
Definition carry (a b : Z) : Z := (a + b - to_ring R64 (a + b)) / 2^64.

Lemma wrap_step_spec a b res : - 2^63 <= a < 2^63 -> - 2^63 <= b < 2^63 ->
  exists c, wrap_step (a, res) b = (to_ring R64 (a + b), c) /\
    a + b = to_ring R64 (a + b) + 2^64 * (c - res - (if (a =? - 2^63) && (b =? - 2^63) then 1 else 0)).
Proof.
  intros Ha Hb. unfold wrap_step. rewrite radd64. rewrite (Z.add_comm b a).
  eexists. split; [reflexivity|]. rewrite to_ring64.
  change (2^63) with 9223372036854775808 in *. change (2^64) with 18446744073709551616 in *.
  set (t := (a + b + 9223372036854775808) mod 18446744073709551616 - 9223372036854775808).
  assert (T : (a + b < -9223372036854775808 /\ t = a + b + 18446744073709551616) \/
              (-9223372036854775808 <= a + b < 9223372036854775808 /\ t = a + b) \/
              (9223372036854775808 <= a + b /\ t = a + b - 18446744073709551616)).
  { unfold t. destruct (Z.lt_ge_cases (a + b) (-9223372036854775808)).
    - left. split; auto. rewrite <- (Z.mod_add _ 1) by discriminate. rewrite Z.mod_small; lia.
    - destruct (Z.lt_ge_cases (a + b) 9223372036854775808).
      + right; left. split; [lia|]. rewrite Z.mod_small; lia.
      + right; right. split; auto. rewrite <- (Z.mod_add _ (-1)) by discriminate. rewrite Z.mod_small; lia. }
  clearbody t.
  destruct (Z.ltb_spec a 0), (Z.ltb_spec b 0), (Z.ltb_spec 0 t), (Z.ltb_spec 0 a), (Z.ltb_spec 0 b), (Z.ltb_spec t 0),
    (Z.eqb_spec a (- (9223372036854775808))), (Z.eqb_spec b (- (9223372036854775808))); cbn [andb]; lia.
Qed.

Lemma count_fold l : forall a acc res, Forall (in_ring R64) l -> a = to_ring R64 acc ->
  exists c, fold_left wrap_step l (a, res) = (to_ring R64 (acc + zsum l), c) /\
    acc - to_ring R64 acc + 2^64 * (c - res - min_steps acc l) = acc + zsum l - to_ring R64 (acc + zsum l).
Proof.
  induction l as [|b l IH]; intros a acc res Hl ->; cbn [fold_left zsum min_steps].
  - exists res. rewrite Z.add_0_r. split; auto. lia.
  - inversion Hl as [|? ? Hb Hl']; subst. apply in_ring64_range in Hb.
    destruct (wrap_step_spec (to_ring R64 acc) b res (to_ring64_range acc) Hb) as (c & -> & Hc).
    assert (E : to_ring R64 (to_ring R64 acc + b) = to_ring R64 (acc + b)).
    { apply to_ring_eq. rewrite to_ring_eqmod by auto. reflexivity. }
    rewrite E in *. destruct (IH (to_ring R64 (acc + b)) (acc + b) c Hl' eq_refl) as (d & -> & Hd).
    exists d. rewrite Z.add_assoc. split; auto. change (2^64) with R64 in *. lia.
Qed.

Lemma count_wraps1_spec l : l <> [] -> vec_in R64 l ->
  zsum l = to_ring R64 (zsum l) + 2^64 * (count_wraps1 l - min_steps (hd 0 l) (tl l)).
Proof.
  destruct l as [|x l]; [congruence|]. intros _ H. inversion H as [|? ? Hx Hl]; subst.
  unfold count_wraps1. cbn [hd tl zsum].
  destruct (count_fold l x x 0 Hl (eq_sym Hx)) as (c & -> & Hc). cbn [snd].
  assert (E : to_ring R64 x = x) by exact Hx. rewrite E in Hc. lia.
Qed.

Lemma min_steps_zero l : forall acc, Forall (fun v => v <> - 2^63) l -> min_steps acc l = 0.
Proof.
  induction l as [|b l IH]; intros acc H; cbn [min_steps]; auto. inversion H; subst.
  rewrite IH by auto. destruct (Z.eqb_spec b (-2^63)); [contradiction|]. rewrite andb_false_r. reflexivity.
Qed.

Lemma count_wraps1_exact l : l <> [] -> vec_in R64 l -> Forall (fun v => v <> - 2^63) (tl l) ->
  zsum l = to_ring R64 (zsum l) + 2^64 * count_wraps1 l.
Proof.
  intros H1 H2 H3. rewrite (count_wraps1_spec l) at 1 by auto. rewrite min_steps_zero by auto. lia.
Qed.

Lemma count_wraps_spec sh ts : ts <> [] -> Forall (tensor_in R64 sh) ts ->
  count_wraps ts = Ok (mkT sh (map (fun e => count_wraps1 (col e ts)) (seq 0 (numel sh)))).
Proof.
  intros Hne H. destruct ts as [|t ts]; [congruence|]. unfold count_wraps.
  inversion H as [|? ? (T1 & T2 & T3) Hts]; subst.
  replace (forallb _ ts) with true; [reflexivity|]. symmetry. apply forallb_forall. intros u Hu.
  rewrite Forall_forall in Hts. destruct (Hts u Hu) as (U1 & _). rewrite U1.
  destruct (list_eq_dec Nat.eq_dec (tsh t) (tsh t)); congruence.
Qed.

(* ------------------------------------------------------ sums over ranks *)
Lemma list_as_seq {A} (d : A) l n : length l = n -> l = map (fun k => nth k l d) (seq 0 n).
Proof. intros <-. symmetry. apply map_nth_seq. Qed.

Lemma combine_map {A B C} (f : A -> B) (g : A -> C) l : combine (map f l) (map g l) = map (fun a => (f a, g a)) l.
Proof. induction l; simpl; f_equal; auto. Qed.

Lemma rmap_map {A B C} (f : B -> result C) (g : A -> B) l : rmap f (map g l) = rmap (fun a => f (g a)) l.
Proof. induction l as [|a l IH]; simpl; auto. rewrite IH. reflexivity. Qed.

Lemma zsum_bound {A} (f : A -> Z) b l : (forall a, In a l -> Z.abs (f a) <= b) ->
  Z.abs (zsum (map f l)) <= Z.of_nat (length l) * b.
Proof.
  induction l as [|a l IH]; intros H; cbn [map zsum length]; [lia|].
  specialize (IH (fun a Ha => H a (or_intror Ha))). pose proof (H a (or_introl eq_refl)). lia.
Qed.

Lemma quot_in v y : 0 < y -> - 2^63 <= v < 2^63 -> cast TI64 (Z.quot v y) = Z.quot v y.
Proof.
  intros Hy Hv. cbn [cast]. rewrite wrap_to_ring64. apply to_ring64_small.
  pose proof (Z.quot_rem v y ltac:(lia)) as E.
  destruct (Z.lt_ge_cases v 0).
  - pose proof (Z.rem_nonpos v y ltac:(lia) ltac:(lia)). assert (Z.quot v y <= 0) by nia.
    assert (v <= Z.quot v y) by nia. lia.
  - pose proof (Z.rem_nonneg v y ltac:(lia) ltac:(lia)). pose proof (Z.quot_pos v y ltac:(lia) ltac:(lia)). nia.
Qed.

Lemma rem_abs v y : 0 < y -> Z.abs (Z.rem v y) <= y - 1.
Proof. intros Hy. pose proof (Z.rem_bound_abs v y ltac:(lia)). lia. Qed.

(** the error of dividing every share: the remainders, and what 4 does not carry of 2^64/y *)
Definition div_error (xs : list Z) (y th : Z) : Z :=
  th * (4 * (2^62 mod y)) - zsum (map (fun x => Z.rem x y) xs).

Lemma div_core_eq xs y v th k : 0 < y -> zsum xs = v + th * 2^64 -> k = (2^64 / 4) / y ->
  y * (zsum (map (fun x => Z.quot x y) xs) - th * (4 * k)) = v + div_error xs y th.
Proof.
  intros Hy Hx ->. change (2^64 / 4) with (2^62). unfold div_error.
  assert (E : y * zsum (map (fun x => Z.quot x y) xs) = zsum xs - zsum (map (fun x => Z.rem x y) xs)).
  { clear Hx. induction xs as [|x xs IH]; cbn [map zsum]; [lia|].
    pose proof (Z.quot_rem x y ltac:(lia)). lia. }
  pose proof (Z.div_mod (2^62) y ltac:(lia)) as D.
  rewrite Z.mul_sub_distr_l, E, Hx. change (2^64) with (4 * 2^62).
  transitivity (v + th * (4 * 2^62) - zsum (map (fun x => Z.rem x y) xs) - 4 * th * (y * (2^62 / y))); [ring|].
  replace (y * (2^62/y)) with (2^62 - 2^62 mod y) by lia. ring.
Qed.

Lemma div_error_bound xs y th : 0 < y ->
  Z.abs (div_error xs y th) <= Z.of_nat (length xs) * (y - 1) + Z.abs th * 4 * (2^62 mod y).
Proof.
  intros Hy. unfold div_error.
  assert (B : Z.abs (zsum (map (fun x => Z.rem x y) xs)) <= Z.of_nat (length xs) * (y - 1)).
  { apply zsum_bound. intros. apply rem_abs; auto. }
  pose proof (Z.mod_pos_bound (2^62) y Hy) as M.
  assert (Z.abs (th * (4 * (2^62 mod y))) = Z.abs th * 4 * (2^62 mod y)) by (rewrite !Z.abs_mul; lia).
  lia.
Qed.

Lemma div_core xs y v th k : 0 < y -> zsum xs = v + th * 2^64 -> k = (2^64 / 4) / y ->
  Z.abs (y * (zsum (map (fun x => Z.quot x y) xs) - th * (4 * k)) - v) <=
  Z.of_nat (length xs) * (y - 1) + Z.abs th * 4 * (2^62 mod y).
Proof.
  intros Hy Hx Hk. rewrite (div_core_eq xs y v th k) by auto.
  pose proof (div_error_bound xs y th Hy). lia.
Qed.

(* ------------------------------------------------------ public division *)
Lemma map_seq_nth {A} (f : nat -> A) d n e : (e < n)%nat -> nth e (map f (seq 0 n)) d = f e.
Proof. intros H. rewrite (nth_map_in _ 0%nat) by (rewrite seq_length; auto). rewrite seq_nth by auto. reflexivity. Qed.

Lemma count_wraps1_small l : vec_in R64 l -> l <> [] -> Z.of_nat (length l) < 2^60 -> in_ring R64 (count_wraps1 l).
Proof.
  intros H1 H2 H3. apply in_ring64. pose proof (count_wraps1_spec l H2 H1) as E.
  assert (B : Z.abs (zsum l) <= Z.of_nat (length l) * 2^63).
  { rewrite <- (map_id l) at 1. apply zsum_bound. intros v Hv. unfold vec_in in H1. rewrite Forall_forall in H1.
    specialize (H1 v Hv). apply in_ring64_range in H1. lia. }
  pose proof (to_ring64_range (zsum l)) as T.
  assert (M : forall l acc, 0 <= min_steps acc l <= Z.of_nat (length l)).
  { clear. induction l as [|b l IH]; intros acc; cbn [min_steps length]; [lia|].
    specialize (IH (acc + b)). destruct (_ && _); lia. }
  specialize (M (tl l) (hd 0 l)).
  assert (length (tl l) <= length l)%nat by (destruct l; simpl; lia).
  change (2^63) with 9223372036854775808 in *. change (2^64) with 18446744073709551616 in *.
  change (2^60) with 1152921504606846976 in *. lia.
Qed.

Lemma tbin_rsub_in sh a b : tensor_in R64 sh a -> tensor_in R64 sh b ->
  tbin (rsub R64) a b = Ok (mkT sh (vsub R64 (tdat a) (tdat b))) /\
  tensor_in R64 sh (mkT sh (vsub R64 (tdat a) (tdat b))).
Proof.
  intros (A1 & A2 & A3) (B1 & B2 & B3). split.
  - apply tbin_same; auto.
  - split; [reflexivity|]. cbn [tdat]. split; [apply vsub_length; auto | apply vsub_in; auto].
Qed.

Lemma sh_div_spec sh t y : 0 < y -> tensor_in R64 sh t ->
  sh_div t y = Ok (mkT sh (map (fun v => Z.quot v y) (tdat t))) /\
  tensor_in R64 sh (mkT sh (map (fun v => Z.quot v y) (tdat t))).
Proof.
  intros Hy (T1 & T2 & T3). unfold sh_div. destruct (Z.eqb_spec y 0); [lia|].
  assert (E : map (fun v => cast TI64 (Z.quot v y)) (tdat t) = map (fun v => Z.quot v y) (tdat t)).
  { apply map_ext_in. intros v Hv. apply quot_in; auto. unfold vec_in in T3. rewrite Forall_forall in T3.
    apply in_ring64_range; auto. }
  rewrite E, T1. split; [reflexivity|]. split; [reflexivity|]. cbn [tdat].
  split; [rewrite map_length; auto|]. rewrite <- E. apply Forall_map, Forall_forall. intros v Hv.
  cbn [cast]. rewrite wrap_to_ring64. apply in_to_ring; auto.
Qed.

Lemma div_wraps_spec rank r th x zs y sh : 0 < y -> zs <> [] -> Z.of_nat (length zs) < 2^60 ->
  tensor_in R64 sh r -> tensor_in R64 sh th -> tensor_in R64 sh x -> Forall (tensor_in R64 sh) zs ->
  exists T, div_wraps rank r th x zs y = Ok (T, mkT sh (map (fun v => Z.quot v y) (tdat x))) /\
    tensor_in R64 sh T /\
    forall e, (e < numel sh)%nat -> nth e (tdat T) 0 ==
      count_wraps1 [nth e (tdat x) 0; nth e (tdat r) 0] - nth e (tdat th) 0 +
      (if Nat.eqb rank 0 then count_wraps1 (col e zs) else 0) [mod R64].
Proof.
  intros Hy Hz Hzl Hr Hth Hx Hzs. unfold div_wraps.
  assert (CW : forall ts, ts <> [] -> Z.of_nat (length ts) < 2^60 -> Forall (tensor_in R64 sh) ts ->
     tensor_in R64 sh (mkT sh (map (fun e => count_wraps1 (col e ts)) (seq 0 (numel sh))))).
  { intros ts H1 H2 H3. split; [reflexivity|]. cbn [tdat]. split; [rewrite map_length, seq_length; auto|].
    apply Forall_map, Forall_forall. intros e _. apply count_wraps1_small.
    - unfold col. apply Forall_map. eapply Forall_impl; [|apply H3]. intros t (_ & _ & T3). apply nth_in_ring; auto.
    - destruct ts; [congruence|discriminate].
    - unfold col. rewrite map_length. auto. }
  rewrite (count_wraps_spec sh) by (auto; discriminate). cbn [rbind].
  pose proof (CW [x; r] ltac:(discriminate) ltac:(cbn; lia) ltac:(auto)) as T1.
  destruct (tbin_rsub_in sh _ _ T1 Hth) as [-> T2]. cbn [rbind].
  destruct (sh_div_spec sh x y Hy Hx) as [ED TD].
  pose proof (count_wraps_spec sh zs Hz Hzs) as EZ.
  pose proof (CW zs Hz Hzl Hzs) as T3.
  assert (N2 : forall e, (e < numel sh)%nat ->
    nth e (vsub R64 (tdat (mkT sh (map (fun e => count_wraps1 (col e [x; r])) (seq 0 (numel sh))))) (tdat th)) 0 ==
      count_wraps1 [nth e (tdat x) 0; nth e (tdat r) 0] - nth e (tdat th) 0 [mod R64]).
  { intros e He. destruct T1 as (_ & L1 & I1), Hth as (_ & L2 & I2). rewrite nth_vsub by (auto; congruence).
    cbn [tdat]. rewrite map_seq_nth by auto. reflexivity. }
  destruct (Nat.eqb rank 0).
  - rewrite EZ. cbn [rbind]. unfold tiadd. destruct (tbin_radd_in sh _ _ T2 T3) as [-> T4]. cbn [rbind tsh].
    destruct (list_eq_dec Nat.eq_dec sh sh) as [_|]; [|congruence]. cbn [rbind]. rewrite ED. cbn [rbind].
    eexists. split; [reflexivity|]. split; [exact T4|]. intros e He. cbn [tdat].
    destruct T2 as (_ & L2 & I2), T3 as (_ & L3 & I3).
    rewrite (nth_vadd R64 supR _ _ e I2 I3) by congruence. cbn [tdat] in *. rewrite N2 by auto.
    rewrite (map_seq_nth (fun e => count_wraps1 (col e zs))) by auto. reflexivity.
  - cbn [rbind]. rewrite ED. cbn [rbind]. eexists. split; [reflexivity|]. split; [exact T2|].
    intros e He. cbn [tdat] in *. rewrite N2 by auto. apply eqmod_eq. lia.
Qed.

Lemma flong_in q : in_ring R64 (flong q).
Proof.
  unfold flong. apply in_ring64. destruct (_ && _)%bool eqn:E; [|lia].
  apply andb_true_iff in E. lia.
Qed.
Lemma theta_corr_in c y th : in_ring R64 (theta_corr c y th).
Proof.
  unfold theta_corr. destruct (Nat.eqb (c_prec c) 0).
  - pose proof (encode_in c [NInt (cast TI64 (cast TI64 (th * 4) * (R64 / 4 / y)))]) as H.
    inversion H; auto.
  - apply flong_in.
Qed.

Section PublicDivide.
  Variables (s : sess) (x : mpc) (y : Z) (rs ths : list tensor) (sh : list nat) (n : nat).
  Hypothesis Hn : s_n s = n.
  Hypothesis n0 : n <> 0%nat.
  Hypothesis Hn2 : n <> 2%nat.
  Hypothesis Hnb : Z.of_nat n < 2^60.
  Hypothesis Hsid : m_sid x = s_id s.
  Hypothesis Hsh : m_shape x = sh.
  Hypothesis Lx : length (m_shares x) = n.
  Hypothesis Lr : length rs = n.
  Hypothesis Lt : length ths = n.
  Hypothesis Hy : 0 < y.
  Hypothesis FX : Forall (tensor_in R64 sh) (m_shares x).
  Hypothesis FR : Forall (tensor_in R64 sh) rs.
  Hypothesis FT : Forall (tensor_in R64 sh) ths.

  Let dt := mkT [] [].
  Let X k := nth k (m_shares x) dt.
  Let R k := nth k rs dt.
  Let TH k := nth k ths dt.
  Let Zs := map (fun k => mkT sh (vadd R64 (tdat (R k)) (tdat (X k)))) (seq 0 n).

  Let Xin k : (k < n)%nat -> tensor_in R64 sh (X k).
  Proof. intros Hk. apply Forall_nth_in; auto. lia. Qed.
  Let Rin k : (k < n)%nat -> tensor_in R64 sh (R k).
  Proof. intros Hk. apply Forall_nth_in; auto. lia. Qed.
  Let Tin k : (k < n)%nat -> tensor_in R64 sh (TH k).
  Proof. intros Hk. apply Forall_nth_in; auto. lia. Qed.
  Let Zin : Forall (tensor_in R64 sh) Zs.
  Proof.
    apply Forall_map, Forall_forall. intros k Hk. apply in_seq in Hk.
    destruct (Xin k) as (_ & A2 & A3); [lia|]. destruct (Rin k) as (_ & B2 & B3); [lia|].
    split; [reflexivity|]. cbn [tdat]. split; [apply vadd_length; auto | apply vadd_in; auto].
  Qed.

  (** what the parties compute as the number of wraps of element [e] *)
  Let theta e : Z := zsum (map (fun k => count_wraps1 [nth e (tdat (X k)) 0; nth e (tdat (R k)) 0]) (seq 0 n))
    - zsum (col e ths) + count_wraps1 (col e Zs).

  Lemma public_divide_gen :
    exists z, public_divide s x y (rs, ths) =
        Ok (z, map (fun t => mkT sh (map (fun v => Z.quot v y) (tdat t))) (m_shares x)) /\
      m_sid z = m_sid x /\ m_shape z = sh /\ length (m_shares z) = n /\
      Forall (tensor_in R64 sh) (m_shares z) /\
      forall e, (e < numel sh)%nat ->
        zsum (col e (m_shares z)) ==
          zsum (map (fun v => Z.quot v y) (col e (m_shares x))) - theta_corr (s_cfg s) y (to_ring R64 (theta e)) [mod R64].
  Proof.
    unfold public_divide. rewrite Hn. destruct (Nat.eqb_spec n 2) as [|_]; [congruence|].
    cbn [fst snd]. rewrite Lx.
    (* z = r + x *)
    assert (EZ : mpc_lin LAdd (mkM (s_id s) (m_shape x) rs) x = Ok (mkM (s_id s) sh Zs)).
    { unfold mpc_lin. cbn [m_sid m_shape m_shares]. rewrite Hsid, Nat.eqb_refl. cbn [negb].
      rewrite (list_as_seq dt rs n Lr), (list_as_seq dt (m_shares x) n Lx), combine_map, rmap_map. cbn [fst snd].
      rewrite (rmap_pointwise _ (fun k => mkT sh (vadd R64 (tdat (R k)) (tdat (X k))))).
      2:{ intros k Hk. apply in_seq in Hk. fold (X k) (R k).
          destruct (Xin k) as (A1 & A2 & A3); [lia|]. destruct (Rin k) as (B1 & B2 & B3); [lia|].
          unfold sh_lin. rewrite (tbin_same _ (R k) (X k) sh) by auto. reflexivity. }
      cbn [rbind]. unfold shape_bin. rewrite Hsh, bcast_refl. reflexivity. }
    rewrite EZ. cbn [rbind m_shares].
    set (D k := mkT sh (map (fun v => Z.quot v y) (tdat (X k)))).
    assert (EC : combine (seq 0 n) (combine (combine rs ths) (m_shares x)) =
                 map (fun k => (k, ((R k, TH k), X k))) (seq 0 n)).
    { rewrite (list_as_seq dt rs n Lr) at 1. rewrite (list_as_seq dt ths n Lt) at 1.
      rewrite (list_as_seq dt (m_shares x) n Lx) at 1. rewrite !combine_map.
      rewrite <- (map_id (seq 0 n)) at 1. rewrite combine_map. reflexivity. }
    rewrite EC, rmap_map. cbn [fst snd].
    assert (LZ : length Zs = n) by (unfold Zs; rewrite map_length, seq_length; auto).
    destruct (rmap_exists (fun k => div_wraps k (R k) (TH k) (X k) Zs y)
      (fun k p => snd p = D k /\ tensor_in R64 sh (fst p) /\ forall e, (e < numel sh)%nat -> nth e (tdat (fst p)) 0 ==
         count_wraps1 [nth e (tdat (X k)) 0; nth e (tdat (R k)) 0] - nth e (tdat (TH k)) 0 +
         (if Nat.eqb k 0 then count_wraps1 (col e Zs) else 0) [mod R64]) (seq 0 n)) as (ps & EP & HF).
    { intros k Hk. apply in_seq in Hk.
      destruct (div_wraps_spec k (R k) (TH k) (X k) Zs y sh) as (T & H1 & H2 & H3); auto; try lia.
      - destruct Zs; [simpl in LZ; lia|discriminate].
      - apply Rin; lia.
      - apply Tin; lia.
      - apply Xin; lia.
      - eexists. split; [exact H1|]. auto. }
    rewrite EP. cbn [rbind].
    assert (ES : map snd ps = map D (seq 0 n)).
    { clear -HF. induction HF as [|k p ks ps (H & _) HF IH]; cbn [map]; f_equal; auto. }
    assert (LP : length ps = n) by (apply Forall2_len in HF; rewrite seq_length in HF; lia).
    assert (HFT : Forall (tensor_in R64 sh) (map fst ps)).
    { apply Forall_map. clear -HF. induction HF as [|k p ks ps (_ & H & _) HF IH]; constructor; auto. }
    assert (NE : map fst ps <> []) by (destruct ps; [simpl in LP; lia|discriminate]).
    rewrite (tsum_spec R64 supR sh) by auto.
    cbn [rbind tsh tdat]. rewrite ES.
    set (tv := s_sum R64 (numel sh) (map tdat (map fst ps))).
    assert (ETV : forall e, (e < numel sh)%nat -> nth e tv 0 = to_ring R64 (theta e)).
    { intros e He. unfold tv. rewrite s_sum_nth by auto. apply to_ring_eq. rewrite !map_map. unfold theta.
      unfold col at 1. rewrite (list_as_seq dt ths n Lt) at 1. rewrite map_map. 
      rewrite (zsum_Forall2 R64 _ (fun k => count_wraps1 [nth e (tdat (X k)) 0; nth e (tdat (R k)) 0] - nth e (tdat (TH k)) 0 +
         (if Nat.eqb k 0 then count_wraps1 (col e Zs) else 0)) _ _ _ HF) by (intros k p _ (_ & _ & H); auto).
      rewrite zsum_map_add, zsum_map_sub, zsum_rank0 by auto. reflexivity. }
    assert (Dn : get_nth (map D (seq 0 n)) 0 = Ok (D 0%nat)).
    { destruct n as [|m]; [congruence|]. reflexivity. }
    rewrite Dn. cbn [rbind].
    assert (Din : forall k, (k < n)%nat -> tensor_in R64 sh (D k)).
    { intros k Hk. apply sh_div_spec; auto. }
    set (cv := map (theta_corr (s_cfg s) y) tv).
    assert (TC : tensor_in R64 sh (mkT sh cv)).
    { split; [reflexivity|]. cbn [tdat]. split.
      - unfold cv, tv. rewrite map_length, s_sum_length. auto.
      - apply Forall_map, Forall_forall. intros v _. apply theta_corr_in. }
    unfold sh_lin. cbn [lin_elt].
    destruct (tbin_rsub_in sh (D 0%nat) (mkT sh cv) (Din 0%nat ltac:(lia)) TC) as [-> T0].
    cbn [rbind]. unfold shape_bin. rewrite Hsh, bcast_refl. cbn [rbind].
    assert (EXD : map (fun t => mkT sh (map (fun v => Z.quot v y) (tdat t))) (m_shares x) = map D (seq 0 n)).
    { rewrite (list_as_seq dt (m_shares x) n Lx) at 1. rewrite map_map. reflexivity. }
    rewrite EXD. eexists. split; [reflexivity|]. cbn [m_sid m_shape m_shares].
    split; [reflexivity|]. split; [reflexivity|].
    split; [rewrite set_nth_length, map_length, seq_length; reflexivity|].
    assert (En : exists m, n = S m) by (destruct n as [|m]; [congruence|eauto]). destruct En as [m En].
    split.
    { rewrite En. cbn [seq map set_nth]. constructor; [exact T0|]. apply Forall_map, Forall_forall.
      intros k Hk. apply in_seq in Hk. apply Din. lia. }
    intros e He.
    unfold col. rewrite (list_as_seq dt (m_shares x) n Lx) at 1.
    rewrite En. cbn [seq map set_nth zsum tdat].
    destruct T0 as (_ & L0 & I0). destruct TC as (_ & LC & IC). cbn [tdat] in LC, IC.
    destruct (Din 0%nat ltac:(lia)) as (_ & LD & ID).
    rewrite nth_vsub by (auto; congruence).
    replace (nth e cv 0) with (theta_corr (s_cfg s) y (to_ring R64 (theta e))).
    2:{ unfold cv. rewrite (nth_map_in _ 0) by (unfold tv; rewrite s_sum_length; auto). rewrite ETV by auto. reflexivity. }
    rewrite !map_map. cbn [tdat].
    assert (ND : forall k, (k < n)%nat -> nth e (tdat (D k)) 0 = Z.quot (nth e (tdat (X k)) 0) y).
    { intros k Hk. unfold D. cbn [tdat]. rewrite (nth_map_in _ 0); auto. destruct (Xin k Hk) as (_ & A2 & _). lia. }
    rewrite ND by lia. fold (X 0%nat).
    rewrite (zsum_ext _ (fun k => Z.quot (nth e (tdat (X k)) 0) y)).
    2:{ intros k Hk. apply in_seq in Hk. apply ND. lia. }
    apply eqmod_eq. unfold X. lia.
  Qed.

  Variables (vx vr : list Z).
  Hypothesis HX : shared R64 sh vx (m_shares x).
  Hypothesis HR : shared R64 sh vr rs.
  Hypothesis HT : shared R64 sh (map (fun e => wraps (col e rs)) (seq 0 (numel sh))) ths.
  Hypothesis HRmin : forall t, In t rs -> Forall (fun v => v <> - 2^63) (tdat t).
  Hypothesis HZmin : forall k e, (k < n)%nat -> (e < numel sh)%nat ->
    to_ring R64 (nth e (tdat (nth k rs (mkT [] []))) 0 + nth e (tdat (nth k (m_shares x) (mkT [] []))) 0) <> - 2^63.
  Hypothesis Hnw : forall e, (e < numel sh)%nat -> - 2^63 <= nth e vx 0 + nth e vr 0 < 2^63.

  (** the number of wraps is computed correctly *)
  Let theta' e : Z := zsum (map (fun k => count_wraps1 [nth e (tdat (X k)) 0; nth e (tdat (R k)) 0]) (seq 0 n))
    - count_wraps1 (col e rs) + count_wraps1 (col e Zs).

  Lemma theta'_true e : (e < numel sh)%nat -> zsum (col e (m_shares x)) = nth e vx 0 + theta' e * 2^64.
  Proof.
    intros He.
    pose proof (shared_vals R64 supR _ _ _ HX) as (VL & VI & VN).
    pose proof (shared_vals R64 supR _ _ _ HR) as (WL & WI & WN).
    assert (EX : col e (m_shares x) = map (fun k => nth e (tdat (X k)) 0) (seq 0 n)).
    { unfold col. rewrite (list_as_seq dt (m_shares x) n) at 1 by auto. rewrite map_map. reflexivity. }
    assert (ER : col e rs = map (fun k => nth e (tdat (R k)) 0) (seq 0 n)).
    { unfold col. rewrite (list_as_seq dt rs n) at 1 by auto. rewrite map_map. reflexivity. }
    assert (EZ : col e Zs = map (fun k => to_ring R64 (nth e (tdat (R k)) 0 + nth e (tdat (X k)) 0)) (seq 0 n)).
    { unfold col, Zs. rewrite map_map. apply map_ext_in. intros k Hk. apply in_seq in Hk. cbn [tdat].
      destruct (Xin k) as (_ & A2 & A3); [lia|]. destruct (Rin k) as (_ & B2 & B3); [lia|].
      unfold vadd. rewrite (nth_map2 _ 0 0 0) by lia. apply radd64. }
    assert (SR : zsum (col e rs) = nth e vr 0 + 2^64 * count_wraps1 (col e rs)).
    { rewrite count_wraps1_exact at 1.
      - f_equal. transitivity (to_ring R64 (nth e vr 0)).
        + apply to_ring_eq. symmetry. apply WN.
        + apply nth_in_ring; auto.
      - rewrite ER. destruct n; [congruence|discriminate].
      - rewrite ER. apply Forall_map, Forall_forall. intros k Hk. apply in_seq in Hk.
        apply nth_in_ring; auto. apply Rin; lia.
      - rewrite Forall_forall. intros v Hv. assert (In v (col e rs)) by (destruct (col e rs); [contradiction|right; auto]).
        unfold col in H. apply in_map_iff in H. destruct H as (t & <- & Ht).
        specialize (HRmin t Ht). rewrite Forall_forall in HRmin. apply HRmin, nth_In.
        destruct HR as (_ & H & _). rewrite Forall_forall in H. destruct (H t Ht) as (_ & H2 & _). lia. }
    assert (SX : forall k, (k < n)%nat -> nth e (tdat (X k)) 0 + nth e (tdat (R k)) 0 =
        to_ring R64 (nth e (tdat (R k)) 0 + nth e (tdat (X k)) 0) +
        2^64 * count_wraps1 [nth e (tdat (X k)) 0; nth e (tdat (R k)) 0]).
    { intros k Hk. pose proof (count_wraps1_exact [nth e (tdat (X k)) 0; nth e (tdat (R k)) 0]) as C.
      cbn [zsum tl] in C. rewrite Z.add_0_r in C. rewrite C at 1.
      - f_equal. f_equal. lia.
      - discriminate.
      - constructor; [|constructor; [|constructor]]; apply nth_in_ring; auto; [apply Xin; auto | apply Rin; auto].
      - constructor; [|constructor].
        assert (In (R k) rs) by (apply nth_In; lia). specialize (HRmin _ H). rewrite Forall_forall in HRmin.
        apply HRmin, nth_In. destruct (Rin k Hk) as (_ & H2 & _). lia. }
    assert (SZ : zsum (col e Zs) = nth e vx 0 + nth e vr 0 + 2^64 * count_wraps1 (col e Zs)).
    { rewrite count_wraps1_exact at 1.
      - f_equal. transitivity (to_ring R64 (nth e vx 0 + nth e vr 0)).
        + apply to_ring_eq. rewrite (VN e), (WN e). fold (col e (m_shares x)) (col e rs).
          rewrite EX, ER, EZ. rewrite <- zsum_map_add. apply zsum_eqmod. intros k _.
          rewrite to_ring_eqmod by auto. apply eqmod_eq; lia.
        + apply to_ring64_small. auto.
      - rewrite EZ. destruct n; [congruence|discriminate].
      - rewrite EZ. apply map_to_ring_in; auto.
      - rewrite Forall_forall. intros v Hv. assert (In v (col e Zs)) by (destruct (col e Zs); [contradiction|right; auto]).
        rewrite EZ in H. apply in_map_iff in H. destruct H as (k & <- & Hk). apply in_seq in Hk.
        apply HZmin; auto. lia. }
    assert (S3 : zsum (col e (m_shares x)) + zsum (col e rs) = zsum (col e Zs) +
       2^64 * zsum (map (fun k => count_wraps1 [nth e (tdat (X k)) 0; nth e (tdat (R k)) 0]) (seq 0 n))).
    { rewrite EX, ER, EZ, <- zsum_map_add, <- zsum_map_mul_l, <- zsum_map_add. apply zsum_ext.
      intros k Hk. apply in_seq in Hk. apply SX. lia. }
    unfold theta'. lia.
  Qed.

  Lemma theta'_bound e : (e < numel sh)%nat -> 2 * Z.abs (theta' e) <= Z.of_nat n + 1.
  Proof.
    intros He. pose proof (theta'_true e He) as E.
    pose proof (shared_vals R64 supR _ _ _ HX) as (VL & VI & VN).
    assert (B : Z.abs (zsum (col e (m_shares x))) <= Z.of_nat n * 2^63).
    { unfold col. rewrite <- Lx. apply zsum_bound. intros t Ht. destruct HX as (_ & H & _).
      rewrite Forall_forall in H. destruct (H t Ht) as (_ & _ & T3).
      pose proof (in_ring64_range _ (nth_in_ring R64 supR _ e T3)). lia. }
    pose proof (in_ring64_range _ (nth_in_ring R64 supR _ e VI)) as V.
    change (2^64) with (2 * 2^63) in E. change (2^63) with 9223372036854775808 in *. lia.
  Qed.

  Lemma theta_theta' e : (e < numel sh)%nat -> to_ring R64 (theta e) = theta' e.
  Proof.
    intros He. transitivity (to_ring R64 (theta' e)).
    - apply to_ring_eq. unfold theta, theta'.
      pose proof (shared_vals R64 supR _ _ _ HT) as (UL & UI & UN).
      specialize (UN e). rewrite map_seq_nth in UN by auto. unfold col at 1. rewrite <- UN.
      pose proof (shared_vals R64 supR _ _ _ HR) as (WL & WI & WN).
      assert (EW : wraps (col e rs) = count_wraps1 (col e rs)).
      { unfold wraps. rewrite (count_wraps1_exact (col e rs)) at 1.
        - replace (to_ring R64 (zsum (col e rs)) + 2 ^ 64 * count_wraps1 (col e rs) - to_ring (2^64) (zsum (col e rs)))
            with (count_wraps1 (col e rs) * 2^64) by (change (2^64) with R64; lia).
          apply Z.div_mul. discriminate.
        - unfold col. destruct rs; [cbn in Lr; lia|discriminate].
        - unfold col. apply Forall_map. eapply Forall_impl; [|apply FR]. intros t (_ & _ & T3). apply nth_in_ring; auto.
        - rewrite Forall_forall. intros v Hv. assert (In v (col e rs)) by (destruct (col e rs); [contradiction|right; auto]).
          unfold col in H. apply in_map_iff in H. destruct H as (t & <- & Ht).
          specialize (HRmin t Ht). rewrite Forall_forall in HRmin. apply HRmin, nth_In.
          rewrite Forall_forall in FR. destruct (FR t Ht) as (_ & H2 & _). lia. }
      rewrite EW. reflexivity.
    - apply to_ring64_small. pose proof (theta'_bound e He).
      change (2^63) with 9223372036854775808. change (2^60) with 1152921504606846976 in Hnb. lia.
  Qed.

  Lemma public_divide_spec :
    exists z, public_divide s x y (rs, ths) =
        Ok (z, map (fun t => mkT sh (map (fun v => Z.quot v y) (tdat t))) (m_shares x)) /\
      m_sid z = m_sid x /\ m_shape z = sh /\ length (m_shares z) = n /\
      Forall (tensor_in R64 sh) (m_shares z) /\
      forall e, (e < numel sh)%nat -> exists th, zsum (col e (m_shares x)) = nth e vx 0 + th * 2^64 /\
        2 * Z.abs th <= Z.of_nat n + 1 /\
        zsum (col e (m_shares z)) ==
          zsum (map (fun v => Z.quot v y) (col e (m_shares x))) - theta_corr (s_cfg s) y th [mod R64].
  Proof.
    destruct public_divide_gen as (z & H1 & H2 & H3 & H4 & H5 & H6). exists z.
    do 5 (split; [assumption|]). intros e He. exists (theta' e). split; [apply theta'_true; auto|].
    split; [apply theta'_bound; auto|]. rewrite (H6 e He), theta_theta' by auto. reflexivity.
  Qed.
End PublicDivide.

Lemma theta_corr_prec0 c y th : c_prec c = 0%nat ->
  theta_corr c y th == th * (4 * (R64 / 4 / y)) [mod R64].
Proof.
  intros H. unfold theta_corr. rewrite H. cbn [Nat.eqb encode1]. unfold scale. rewrite H.
  change (c_base c ^ Z.of_nat 0) with 1. rewrite Z.mul_1_r. cbn [cast]. rewrite !wrap_to_ring64.
  rewrite !to_ring_eqmod by auto. apply eqmod_eq. ring.
Qed.

Lemma theta_corr_pow q p th : (q <= 24)%nat -> 0 <= p <= 62 -> Z.abs th < 2^24 - 1 ->
  Z.abs th * 2 < 2^p -> theta_corr (mkConfig 2 q) (2^p) th = th * (4 * (R64 / 4 / 2^p)) \/ q = 0%nat.
Proof.
  intros Hq Hp Ht Hb. destruct (Nat.eq_dec q 0) as [|Hq0]; [auto|]. left.
  unfold theta_corr. cbn [c_prec]. destruct (Nat.eqb_spec q 0); [congruence|].
  assert (Ek : R64 / 4 / 2^p = 2^(62 - p)).
  { change (R64 / 4) with (2^62). rewrite <- Z.pow_sub_r by lia. reflexivity. }
  rewrite Ek. pose proof (decode1_f32_exact q th Hq Ht) as D.
  set (d := decode1_f32 (mkConfig 2 q) th) in *.
  assert (Pq : 0 < 2 ^ Z.of_nat q) by (apply Z.pow_pos_nonneg; lia).
  assert (Pk : 0 < 2^(62 - p)) by (apply Z.pow_pos_nonneg; lia).
  assert (Nq : ~ (inject_Z (2 ^ Z.of_nat q) == 0)%Q).
  { intros E. unfold Qeq, inject_Z in E. cbn in E. lia. }
  assert (E1 : (fmul d 4 == inject_Z (th * 2^2) / inject_Z (2 ^ Z.of_nat q))%Q).
  { apply fmul_exact.
    - rewrite D. rewrite inject_Z_mult. change (inject_Z (2^2)) with 4%Q. field. auto.
    - destruct (Nat.eq_dec q 1) as [->|].
      + apply (rep24_comp (inject_Z (th * 2^1))); [|apply rep24_shift; lia].
        rewrite !inject_Z_mult. change (inject_Z (2^1)) with 2%Q. change (inject_Z (2^2)) with 4%Q.
        change (inject_Z (2 ^ Z.of_nat 1)) with 2%Q. field.
      + apply (rep24_comp (inject_Z th / inject_Z (2 ^ (Z.of_nat q - 2)))); [|apply rep24_frac; lia].
        assert (P2 : 0 < 2 ^ (Z.of_nat q - 2)) by (apply Z.pow_pos_nonneg; lia).
        replace (2 ^ Z.of_nat q) with (2 ^ (Z.of_nat q - 2) * 2^2).
        2:{ rewrite <- Z.pow_add_r by lia. f_equal. lia. }
        rewrite !inject_Z_mult. change (inject_Z (2^2)) with 4%Q. field.
        intros E. unfold Qeq, inject_Z in E. cbn in E. lia. }
  assert (R2 : rep24 (inject_Z (th * 2^2 * 2^(62-p)) / inject_Z (2 ^ Z.of_nat q))).
  { replace (th * 2^2 * 2^(62-p)) with (th * 2^(64 - p)).
    2:{ rewrite <- Z.mul_assoc, <- Z.pow_add_r by lia. do 2 f_equal. lia. }
    destruct (Z.le_gt_cases (Z.of_nat q) (64 - p)) as [L|L].
    - apply (rep24_comp (inject_Z (th * 2^(64 - p - Z.of_nat q)))); [|apply rep24_shift; lia].
      replace (2^(64 - p)) with (2^(64 - p - Z.of_nat q) * 2 ^ Z.of_nat q).
      2:{ rewrite <- Z.pow_add_r by lia. f_equal. lia. }
      rewrite !inject_Z_mult. field. auto.
    - apply (rep24_comp (inject_Z th / inject_Z (2 ^ (Z.of_nat q - (64 - p))))); [|apply rep24_frac; lia].
      assert (P2 : 0 < 2 ^ (Z.of_nat q - (64 - p))) by (apply Z.pow_pos_nonneg; lia).
      assert (P3 : 0 < 2 ^ (64 - p)) by (apply Z.pow_pos_nonneg; lia).
      replace (2 ^ Z.of_nat q) with (2 ^ (Z.of_nat q - (64 - p)) * 2^(64 - p)).
      2:{ rewrite <- Z.pow_add_r by lia. f_equal. lia. }
      rewrite !inject_Z_mult. field. split; intros E; unfold Qeq, inject_Z in E; cbn in E; lia. }
  assert (E2 : (fmul (fmul d 4) (ffloat (2^(62-p))) == inject_Z (th * 2^2 * 2^(62-p)) / inject_Z (2 ^ Z.of_nat q))%Q).
  { apply fmul_exact; auto. rewrite E1, ffloat_exact by (apply rep24_pow; lia).
    rewrite !inject_Z_mult. field. auto. }
  unfold encode1_f32. replace (th * (4 * 2^(62-p))) with (th * 2^2 * 2^(62-p)) by ring.
  apply flong_int.
  - apply fmul_exact.
    + rewrite E2. unfold scale. cbn [c_base c_prec]. rewrite ffloat_exact by (apply rep24_pow; lia). field. auto.
    + replace (th * 2^2 * 2^(62-p)) with (th * 2^(64 - p)).
      2:{ rewrite <- Z.mul_assoc, <- Z.pow_add_r by lia. do 2 f_equal. lia. }
      apply rep24_shift; lia.
  - assert (E64 : 2^p * 2^(62-p) = 2^62) by (rewrite <- Z.pow_add_r by lia; f_equal; lia).
    assert (Z.abs th * 2 * 2^(62-p) < 2^p * 2^(62-p)) by nia.
    change (2^63) with (2 * 2^62). change (2^2) with 4.
    assert (Z.abs (th * 4 * 2^(62-p)) < 2 * 2^62) by (rewrite !Z.abs_mul; lia). lia.
Qed.

Lemma theta_corr_exact c n y th : 0 < y -> exact_correction (c_base c) (c_prec c) n y ->
  2 * Z.abs th <= Z.of_nat n + 1 -> (2 <= n)%nat ->
  theta_corr c y th == th * (4 * (R64 / 4 / y)) [mod R64].
Proof.
  intros Hy [H|(Hb & Hq & Hn & p & Hp & -> & Hnp)] Ht Hn2; [apply theta_corr_prec0; auto|].
  destruct c as [b q]. cbn [c_base c_prec] in *. subst b.
  change (2^24) with 16777216 in *.
  destruct (theta_corr_pow q p th) as [E|E]; auto; try (change (2^24) with 16777216; lia); try lia.
  - apply eqmod_eq. exact E.
  - apply theta_corr_prec0. auto.
Qed.

Section PublicDivideValue.
  Variables (s : sess) (x : mpc) (y : Z) (rs ths : list tensor) (sh : list nat) (vx : list Z).
  Hypothesis Hn2 : (3 <= s_n s)%nat.
  Hypothesis Hnb : Z.of_nat (s_n s) < 2^60.
  Hypothesis Hsid : m_sid x = s_id s.
  Hypothesis Hsh : m_shape x = sh.
  Hypothesis Lx : length (m_shares x) = s_n s.
  Hypothesis Hy : 0 < y.
  Hypothesis HX : shared R64 sh vx (m_shares x).
  Hypothesis HG : good_masks (s_n s) sh vx (m_shares x) rs ths.
  Hypothesis HE : exact_correction (c_base (s_cfg s)) (c_prec (s_cfg s)) (s_n s) y.

  Lemma public_divide_value : exists z xs' vz,
    public_divide s x y (rs, ths) = Ok (z, xs') /\
    m_sid z = m_sid x /\ m_shape z = sh /\ length (m_shares z) = s_n s /\
    shared R64 sh vz (m_shares z) /\
    forall e, (e < numel sh)%nat -> exists th, 2 * Z.abs th <= Z.of_nat (s_n s) + 1 /\
      zsum (col e (m_shares x)) = nth e vx 0 + th * 2^64 /\
      y * nth e vz 0 = nth e vx 0 + div_error (col e (m_shares x)) y th.
  Proof.
    destruct HG as (Lr & Lt & vr & HR & HT & Hnw & HRmin & HZmin).
    pose proof HX as (_ & FX & _). pose proof HR as (_ & FR & _). pose proof HT as (_ & FT & _).
    destruct (public_divide_spec s x y rs ths sh (s_n s)) with (vx := vx) (vr := vr) as (z & E & Z1 & Z2 & Z3 & Z4 & Z5); auto; try lia.
    exists z. eexists. exists (s_sum R64 (numel sh) (map tdat (m_shares z))).
    split; [exact E|]. do 3 (split; [assumption|]).
    assert (NZ : m_shares z <> []) by (intros N; rewrite N in Z3; cbn in Z3; lia).
    split; [split; [exact NZ|]; split; [exact Z4|reflexivity]|].
    intros e He. destruct (Z5 e He) as (th & T1 & T2 & T3). exists th. split; [exact T2|]. split; [exact T1|].
    rewrite s_sum_nth by auto. rewrite map_map. fold (col e (m_shares z)).
    set (Q := zsum (map (fun v => Z.quot v y) (col e (m_shares x))) - th * (4 * (R64 / 4 / y))).
    assert (EQ : to_ring R64 (zsum (col e (m_shares z))) = to_ring R64 Q).
    { apply to_ring_eq. rewrite T3. unfold Q. rewrite (theta_corr_exact _ (s_n s)) by (auto; lia). reflexivity. }
    rewrite EQ.
    pose proof (div_core (col e (m_shares x)) y (nth e vx 0) th _ Hy T1 eq_refl) as B.
    assert (EL : length (col e (m_shares x)) = s_n s) by (unfold col; rewrite map_length; auto).
    rewrite EL in B. change (2^64) with R64 in B. fold Q in B.
    pose proof (shared_vals R64 supR _ _ _ HX) as (VL & VI & VN).
    pose proof (in_ring64_range _ (nth_in_ring R64 supR _ e VI)) as V.
    pose proof (Z.mod_pos_bound (2^62) y Hy) as M.
    set (m := 2^62 mod y) in *. set (N := Z.of_nat (s_n s)) in *.
    assert (B2 : Z.abs th * 4 * m <= 2 * (N + 1) * m) by nia.
    pose proof (div_core_eq (col e (m_shares x)) y (nth e vx 0) th _ Hy T1 eq_refl) as BE.
    change (2^64) with R64 in BE. fold Q in BE.
    rewrite to_ring64_small; [exact BE|].
    destruct (Z.eq_dec y 1) as [Y1|Y1].
    { assert (m = 0) by lia. rewrite Y1, H in B. lia. }
    assert (A : y * Z.abs Q <= 2^63 + N * (y - 1) + 2 * (N + 1) * (y - 1)).
    { assert (2 * (N + 1) * m <= 2 * (N + 1) * (y - 1)) by nia.
      assert (Z.abs (y * Q) = y * Z.abs Q) by (rewrite Z.abs_mul; f_equal; lia). lia. }
    assert (A2 : Z.abs Q < 2^63).
    { apply (Z.mul_lt_mono_pos_l y); [lia|].
      assert ((3 * N + 2) * (y - 1) <= 2^62 * (y - 1)).
      { apply Z.mul_le_mono_nonneg_r; [lia|]. change (2^62) with 4611686018427387904.
        change (2^60) with 1152921504606846976 in *. lia. }
      change (2^63) with 9223372036854775808 in *. change (2^62) with 4611686018427387904 in *. lia. }
    lia.
  Qed.
End PublicDivideValue.
