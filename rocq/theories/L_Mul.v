(** Products, quotients and powers of shared tensors, as seen by the user. *)
From Coq Require Import QArith Setoid Morphisms.
From Verif Require Import Util Modular S_Ring S_Tensor S_Wraps S_Div S_Bil S_Spdz M_Torch M_Encoder M_Float M_Tensor M_Share M_Spdz
  L_Torch L_Tensor L_Encoder L_Float L_Share L_Spdz L_Div L_Bil.
Local Open Scope Z_scope.

Lemma mul_product op sx sy so f n x y ts vx vy : product op sx sy so f -> valid_triples sx sy so f n ts ->
  length (m_shares x) = n -> length (m_shares y) = n ->
  shared (2^64) sx vx (m_shares x) -> shared (2^64) sy vy (m_shares y) ->
  exists zs, run_mul (mul_parties_raw (bop_of op)) x y ts = Ok zs /\ length zs = n /\
    shared (2^64) so (f vx vy) zs.
Proof.
  intros HP (LT & va & vb & HA & HB & HC) LX LY HX HY.
  destruct (product_index _ _ _ _ _ HP) as (ix & EI & HV).
  destruct (mul_raw_exact (bop_of op) x y ts sx sy so ix vx vy va vb (s_bil R64 ix va vb)) as (zs & E & L & S);
    auto; try congruence.
  - change R64 with (2^64). rewrite HV. exact HC.
  - exists zs. split; [exact E|]. split; [congruence|]. change R64 with (2^64) in S. rewrite HV in S. exact S.
Qed.

Lemma map_fst_combine {A B} (l : list A) : forall (m : list B), length l = length m -> map fst (combine l m) = l.
Proof. induction l as [|a l IH]; intros [|b m] H; try discriminate H; simpl; f_equal; auto. Qed.
Lemma map_snd_combine {A B} (l : list A) : forall (m : list B), length l = length m -> map snd (combine l m) = m.
Proof. induction l as [|a l IH]; intros [|b m] H; try discriminate H; simpl; f_equal; auto. Qed.

Lemma gen_shares n sh v rnd : (2 <= n)%nat -> tensor_in R64 sh (mkT sh v) -> draws R64 n sh rnd ->
  exists ss, generate_shares n (mkT sh v) rnd = Ok ss /\ length ss = n /\ shared R64 sh v ss.
Proof.
  intros Hn Hv Hr. eexists. split; [apply generate_shares_eq; auto|].
  split; [rewrite map_length, seq_length; auto | apply generate_shares_shared; auto].
Qed.

Lemma product_in op sx sy so f va vb : product op sx sy so f ->
  tensor_in (2^64) so (mkT so (f va vb)).
Proof.
  intros HP. destruct (product_index _ _ _ _ _ HP) as (ix & EI & HV). rewrite <- HV.
  split; [reflexivity|]. cbn [tdat]. split; [rewrite s_bil_length; apply (bil_length _ _ _ _ _ EI)|].
  unfold s_bil. apply map_to_ring_in; auto.
Qed.

Lemma get_triples_valid op sx sy so f n a b ra rb rc : product op sx sy so f -> (2 <= n)%nat ->
  tensor_in (2^64) sx a -> tensor_in (2^64) sy b ->
  draws (2^64) n sx ra -> draws (2^64) n sy rb -> draws (2^64) n so rc ->
  exists ts, get_triples (bop_of op) n a b ra rb rc = Ok ts /\ valid_triples sx sy so f n ts /\
    shared (2^64) sx (tdat a) (map tr_a ts) /\ shared (2^64) sy (tdat b) (map tr_b ts).
Proof.
  intros HP Hn HA HB Da Db Dc. unfold get_triples.
  destruct a as [sa va], b as [sb vb]. pose proof HA as (A1 & A2 & A3). pose proof HB as (B1 & B2 & B3).
  cbn [tsh tdat] in *. subst sa sb.
  destruct (gen_shares n sx va ra Hn HA Da) as (ssa & -> & La & Sa).
  destruct (gen_shares n sy vb rb Hn HB Db) as (ssb & -> & Lb & Sb). cbn [rbind].
  destruct (product_index _ _ _ _ _ HP) as (ix & EI & HV).
  unfold tbil. cbn [tsh tdat]. rewrite EI. cbn [rbind].
  rewrite (rbil_spec R64 supR) by auto. change R64 with (2^64) at 1. rewrite HV.
  destruct (gen_shares n so (f va vb) rc Hn (product_in _ _ _ _ _ va vb HP) Dc) as (ssc & -> & Lc & Sc). cbn [rbind].
  eexists. split; [reflexivity|]. unfold zip3.
  assert (L2 : length (combine ssa ssb) = length ssc) by (rewrite combine_length; lia).
  assert (Ea : map tr_a (combine (combine ssa ssb) ssc) = ssa).
  { transitivity (map fst (map fst (combine (combine ssa ssb) ssc))); [rewrite map_map; reflexivity|].
    rewrite map_fst_combine by auto. apply map_fst_combine. congruence. }
  assert (Eb : map tr_b (combine (combine ssa ssb) ssc) = ssb).
  { transitivity (map snd (map fst (combine (combine ssa ssb) ssc))); [rewrite map_map; reflexivity|].
    rewrite map_fst_combine by auto. apply map_snd_combine. congruence. }
  assert (Ec : map tr_c (combine (combine ssa ssb) ssc) = ssc).
  { transitivity (map snd (combine (combine ssa ssb) ssc)); [reflexivity|]. apply map_snd_combine. auto. }
  split; [|rewrite Ea, Eb; auto]. split; [etransitivity; [apply combine_length|lia]|].
  exists va, vb. rewrite Ea, Eb, Ec. auto.
Qed.

(* ------------------------------------------------------ C11: the opened masks *)
Lemma s_sub_add x a : vec_in R64 x -> vec_in R64 a -> length x = length a -> s_add R64 (s_sub R64 x a) a = x.
Proof.
  intros Hx Ha HL. pose proof (vsub_vadd x a Hx Ha HL) as E.
  rewrite vadd_spec, vsub_spec in E by (auto using supR; apply vsub_in; auto using supR). exact E.
Qed.

(* ------------------------------------------------------ two parties *)
Lemma rem_sign v s : 0 < s -> (0 <= v -> 0 <= Z.rem v s < s) /\ (v <= 0 -> - s < Z.rem v s <= 0).
Proof.
  intros Hs. split; intros Hv; [pose proof (Z.rem_bound_pos v s Hv Hs); lia|].
  replace v with (- (- v)) by lia. rewrite Z.rem_opp_l by lia.
  pose proof (Z.rem_bound_pos (- v) s ltac:(lia) Hs). lia.
Qed.

Lemma small_mult s d k : 0 < s -> - (k * s) < s * d < k * s -> - k < d < k.
Proof. intros Hs H. split; apply (Z.mul_lt_mono_pos_l s); lia. Qed.

Lemma two_party_noerr x0 x1 s : 0 < s -> Z.abs (Z.quot x0 s + Z.quot x1 s - Z.quot (x0 + x1) s) <= 1.
Proof.
  intros Hs. pose proof (Z.quot_rem x0 s ltac:(lia)). pose proof (Z.quot_rem x1 s ltac:(lia)).
  pose proof (Z.quot_rem (x0 + x1) s ltac:(lia)).
  pose proof (rem_sign x0 s Hs) as [A1 A2]. pose proof (rem_sign x1 s Hs) as [B1 B2].
  pose proof (rem_sign (x0 + x1) s Hs) as [C1 C2].
  set (r0 := Z.rem x0 s) in *. set (r1 := Z.rem x1 s) in *. set (r := Z.rem (x0 + x1) s) in *.
  set (q0 := Z.quot x0 s) in *. set (q1 := Z.quot x1 s) in *. set (q := Z.quot (x0 + x1) s) in *.
  assert (E : s * (q0 + q1 - q) = r - r0 - r1) by lia.
  pose proof (small_mult s (q0 + q1 - q) 2 Hs) as S. rewrite E in S. lia.
Qed.

Lemma rmap_bind {A B C} (f : A -> result B) (g : B -> result C) l bs : rmap f l = Ok bs ->
  rmap (fun a => do b <- f a; g b) l = rmap g bs.
Proof.
  revert bs. induction l as [|a l IH]; intros bs H; cbn [rmap] in *; [injection H as <-; reflexivity|].
  destruct (f a) as [b|]; cbn [rbind] in *; [|discriminate].
  destruct (rmap f l) as [bs'|]; cbn [rbind] in *; [|discriminate]. injection H as <-. cbn [rmap].
  destruct (g b); cbn [rbind]; auto. rewrite (IH bs'); auto.
Qed.

Lemma rmap_ext {A B} (f g : A -> result B) l : (forall a, In a l -> f a = g a) -> rmap f l = rmap g l.
Proof. induction l as [|a l IH]; intros H; cbn [rmap]; auto.
  rewrite (H a) by (simpl; auto). rewrite IH by (intros; apply H; simpl; auto). reflexivity. Qed.

(** dividing every share *)
Lemma rmap_div sh y ts : 0 < y -> Forall (tensor_in R64 sh) ts ->
  rmap (fun t => sh_div t y) ts = Ok (map (fun t => mkT sh (map (fun v => Z.quot v y) (tdat t))) ts) /\
  Forall (tensor_in R64 sh) (map (fun t => mkT sh (map (fun v => Z.quot v y) (tdat t))) ts).
Proof.
  intros Hy H. split.
  - apply rmap_pointwise. intros t Ht. rewrite Forall_forall in H. apply sh_div_spec; auto.
  - apply Forall_map. eapply Forall_impl; [|exact H]. intros t Ht. apply sh_div_spec; auto.
Qed.

Definition div_shares (sh : list nat) (y : Z) (ts : list tensor) : list tensor :=
  map (fun t => mkT sh (map (fun v => Z.quot v y) (tdat t))) ts.

Lemma col_div sh y ts e : Forall (tensor_in R64 sh) ts -> (e < numel sh)%nat ->
  col e (div_shares sh y ts) = map (fun v => Z.quot v y) (col e ts).
Proof.
  intros H He. unfold col, div_shares. rewrite !map_map. apply map_ext_in. intros t Ht. cbn [tdat].
  rewrite Forall_forall in H. destruct (H t Ht) as (_ & L & _).
  apply (nth_map_in (fun v => Z.quot v y) 0 0). lia.
Qed.

Lemma shared_self sh ts : ts <> [] -> Forall (tensor_in R64 sh) ts ->
  shared R64 sh (s_sum R64 (numel sh) (map tdat ts)) ts.
Proof. intros H1 H2. split; [auto|]. split; auto. Qed.

Lemma shared_nth sh v ts e : shared R64 sh v ts -> (e < numel sh)%nat -> nth e v 0 = to_ring R64 (zsum (col e ts)).
Proof. intros (_ & _ & ->) He. rewrite s_sum_nth by auto. rewrite map_map. reflexivity. Qed.

(* two parties divide locally *)
Lemma public_divide_two s x y prim sh vx : s_n s = 2%nat -> 0 < y -> m_shape x = sh ->
  shared R64 sh vx (m_shares x) ->
  public_divide s x y prim = Ok (mkM (m_sid x) sh (div_shares sh y (m_shares x)), m_shares x) /\
  exists vz, shared R64 sh vz (div_shares sh y (m_shares x)) /\
    forall e, (e < numel sh)%nat -> nth e vz 0 = to_ring R64 (zsum (map (fun v => Z.quot v y) (col e (m_shares x)))).
Proof.
  intros Hn Hy Hsh HX. pose proof HX as (X1 & X2 & X3). unfold public_divide. rewrite Hn. cbn [Nat.eqb].
  destruct (rmap_div sh y _ Hy X2) as [-> F]. cbn [rbind]. rewrite Hsh. split; [reflexivity|].
  fold (div_shares sh y (m_shares x)) in *.
  assert (NE : div_shares sh y (m_shares x) <> []) by (unfold div_shares; destruct (m_shares x); [congruence|discriminate]).
  pose proof (shared_self sh _ NE F) as S. eexists. split; [exact S|]. intros e He.
  rewrite (shared_nth _ _ _ _ S He). rewrite col_div; auto.
Qed.

Lemma two_list {A} (l : list A) : length l = 2%nat -> exists a b, l = [a; b].
Proof. destruct l as [|a [|b [|]]]; try discriminate. eauto. Qed.

Lemma quot_sum_small xs y v : 0 < y -> length xs = 2%nat -> vec_in R64 xs -> zsum xs = v ->
  - 2^63 <= v < 2^63 ->
  to_ring R64 (zsum (map (fun v => Z.quot v y) xs)) = zsum (map (fun v => Z.quot v y) xs).
Proof.
  intros Hy HL Hin E Hv. destruct (two_list _ HL) as (a & b & ->). cbn [map zsum] in *. rewrite Z.add_0_r in *.
  inversion Hin as [|? ? Ha Hb']; subst. inversion Hb' as [|? ? Hb _]; subst.
  apply in_ring64_range in Ha, Hb. apply to_ring64_small.
  destruct (Z.eq_dec y 1) as [->|]; [rewrite !Z.quot_1_r; lia|].
  assert (B : forall v, - 2^63 <= v < 2^63 -> - 2^62 <= Z.quot v y < 2^62).
  { intros w Hw. pose proof (Z.quot_rem w y ltac:(lia)) as Q. pose proof (rem_sign w y Hy) as [R1 R2].
    change (2^63) with (2 * 2^62) in Hw.
    destruct (Z.le_gt_cases 0 w) as [W|W].
    - pose proof (Z.quot_pos w y W Hy). nia.
    - assert (Z.quot w y <= 0) by nia. nia. }
  pose proof (B a Ha). pose proof (B b Hb). change (2^63) with (2 * 2^62). lia.
Qed.

(** the value of a quotient, all numbers of parties *)
Lemma divide_value_eq s x y prim sh vx : 0 < y -> m_sid x = s_id s -> m_shape x = sh ->
  length (m_shares x) = s_n s -> shared R64 sh vx (m_shares x) ->
  divisible (c_base (s_cfg s)) (c_prec (s_cfg s)) (s_n s) sh vx (m_shares x) y (fst prim) (snd prim) ->
  exists z xs' vz, public_divide s x y prim = Ok (z, xs') /\
    m_sid z = m_sid x /\ m_shape z = sh /\ length (m_shares z) = s_n s /\
    shared R64 sh vz (m_shares z) /\
    forall e, (e < numel sh)%nat -> exists th, 2 * Z.abs th <= Z.of_nat (s_n s) + 1 /\
      zsum (col e (m_shares x)) = nth e vx 0 + th * 2^64 /\
      y * nth e vz 0 = nth e vx 0 + div_error (col e (m_shares x)) y th.
Proof.
  intros Hy Hsid Hsh HL HX [(Hn & HS)|(Hn & Hb & HE & HG)].
  - destruct (public_divide_two s x y prim sh vx Hn Hy Hsh HX) as (E & vz & SV & NV).
    eexists. exists (m_shares x), vz. split; [exact E|]. cbn [m_sid m_shape m_shares].
    split; [reflexivity|]. split; [reflexivity|]. split; [unfold div_shares; rewrite map_length; auto|].
    split; [exact SV|]. intros e He. exists 0. split; [lia|]. split; [rewrite HS by auto; lia|]. rewrite NV by auto.
    pose proof (shared_vals R64 supR _ _ _ HX) as (VL & VI & VN).
    pose proof HX as (_ & X2 & _).
    assert (CI : vec_in R64 (col e (m_shares x))).
    { unfold col. apply Forall_map. eapply Forall_impl; [|exact X2]. intros t (_ & _ & T3). apply nth_in_ring; auto. }
    assert (CL : length (col e (m_shares x)) = 2%nat) by (unfold col; rewrite map_length; congruence).
    rewrite (quot_sum_small _ y (nth e vx 0)) by (auto; apply in_ring64_range, nth_in_ring; auto).
    pose proof (div_core_eq (col e (m_shares x)) y (nth e vx 0) 0 _ Hy ltac:(rewrite HS by auto; lia) eq_refl) as D.
    rewrite <- D. f_equal. lia.
  - destruct prim as [rs ths]. apply public_divide_value; auto.
Qed.

Lemma divide_value s x y prim sh vx : 0 < y -> m_sid x = s_id s -> m_shape x = sh ->
  length (m_shares x) = s_n s -> shared R64 sh vx (m_shares x) ->
  divisible (c_base (s_cfg s)) (c_prec (s_cfg s)) (s_n s) sh vx (m_shares x) y (fst prim) (snd prim) ->
  exists z xs' vz, public_divide s x y prim = Ok (z, xs') /\
    m_sid z = m_sid x /\ m_shape z = sh /\ length (m_shares z) = s_n s /\
    shared R64 sh vz (m_shares z) /\
    forall e, (e < numel sh)%nat ->
      quot_within y (nth e vx 0) (nth e vz 0)
        (Z.of_nat (s_n s) * (y - 1) + 2 * (Z.of_nat (s_n s) + 1) * (2^62 mod y)).
Proof.
  intros Hy Hsid Hsh HL HX HD.
  destruct (divide_value_eq s x y prim sh vx Hy Hsid Hsh HL HX HD) as (z & xs' & vz & E & Z1 & Z2 & Z3 & Z4 & Z5).
  exists z, xs', vz. do 5 (split; [assumption|]). intros e He. destruct (Z5 e He) as (th & T1 & _ & T2).
  unfold quot_within. rewrite T2. pose proof (div_error_bound (col e (m_shares x)) y th Hy) as B.
  assert (EL : length (col e (m_shares x)) = s_n s) by (unfold col; rewrite map_length; auto). rewrite EL in B.
  pose proof (Z.mod_pos_bound (2^62) y Hy). nia.
Qed.

(** exact when every share is a multiple of the divisor *)
Lemma divide_multiples s x y prim sh vx : 0 < y -> (y | 2^62) -> m_sid x = s_id s -> m_shape x = sh ->
  length (m_shares x) = s_n s -> shared R64 sh vx (m_shares x) ->
  (forall e t, (e < numel sh)%nat -> In t (m_shares x) -> (y | nth e (tdat t) 0)) ->
  divisible (c_base (s_cfg s)) (c_prec (s_cfg s)) (s_n s) sh vx (m_shares x) y (fst prim) (snd prim) ->
  exists z xs' vz, public_divide s x y prim = Ok (z, xs') /\
    m_sid z = m_sid x /\ m_shape z = sh /\ length (m_shares z) = s_n s /\
    shared R64 sh vz (m_shares z) /\
    forall e, (e < numel sh)%nat -> y * nth e vz 0 = nth e vx 0.
Proof.
  intros Hy Hd Hsid Hsh HL HX HM HD.
  destruct (divide_value_eq s x y prim sh vx Hy Hsid Hsh HL HX HD) as (z & xs' & vz & E & Z1 & Z2 & Z3 & Z4 & Z5).
  exists z, xs', vz. do 5 (split; [assumption|]). intros e He. destruct (Z5 e He) as (th & _ & _ & T2).
  rewrite T2. unfold div_error. rewrite (proj2 (Z.mod_divide (2^62) y ltac:(lia)) Hd).
  assert (ZR : zsum (map (fun v => Z.rem v y) (col e (m_shares x))) = 0).
  { unfold col. rewrite map_map. assert (HM' : forall t, In t (m_shares x) -> (y | nth e (tdat t) 0)) by auto.
    clear -HM' Hy. induction (m_shares x) as [|t l IH]; cbn [map zsum]; auto. rewrite IH by (intros; apply HM'; right; auto).
    rewrite (proj2 (Z.rem_divide (nth e (tdat t) 0) y ltac:(lia))); [lia|]. apply HM'. left. auto. }
  rewrite ZR. lia.
Qed.

(** precision 0: nothing to divide, whatever the masks *)
Lemma divide_one s x prim sh vx : c_prec (s_cfg s) = 0%nat -> m_sid x = s_id s -> m_shape x = sh ->
  length (m_shares x) = s_n s -> shared R64 sh vx (m_shares x) ->
  any_masks (s_n s) sh (fst prim) (snd prim) ->
  exists z xs', public_divide s x (scale (s_cfg s)) prim = Ok (z, xs') /\
    m_sid z = m_sid x /\ m_shape z = sh /\ length (m_shares z) = s_n s /\
    shared R64 sh vx (m_shares z).
Proof.
  intros Hp Hsid Hsh HL HX HM. assert (ES : scale (s_cfg s) = 1) by (unfold scale; rewrite Hp; reflexivity).
  rewrite ES. pose proof (shared_vals R64 supR _ _ _ HX) as (VL & VI & VN). pose proof HX as (X1 & X2 & _).
  assert (Q1 : forall l : list Z, map (fun v => Z.quot v 1) l = l).
  { intros l. rewrite <- (map_id l) at 2. apply map_ext. intros v. apply Z.quot_1_r. }
  destruct HM as [Hn|(Hn & Hb & Lr & Lt & FR & FT)].
  - destruct (public_divide_two s x 1 prim sh vx Hn ltac:(lia) Hsh HX) as (E & vz & SV & NV).
    eexists. exists (m_shares x). split; [exact E|]. cbn [m_sid m_shape m_shares].
    split; [reflexivity|]. split; [reflexivity|]. split; [unfold div_shares; rewrite map_length; auto|].
    destruct SV as (S1 & S2 & S3). apply shared_intro; auto using supR.
    intros e He. rewrite VN. fold (col e (div_shares sh 1 (m_shares x))). rewrite col_div, Q1 by auto. reflexivity.
  - destruct prim as [rs ths]. cbn [fst snd] in *.
    destruct (public_divide_gen s x 1 rs ths sh (s_n s)) as (z & E & Z1 & Z2 & Z3 & Z4 & Z5); auto; try lia.
    exists z. eexists. split; [exact E|]. do 3 (split; [assumption|]).
    apply shared_intro; auto using supR.
    + intros N. rewrite N in Z3. cbn in Z3. lia.
    + intros e He. rewrite VN. fold (col e (m_shares x)) (col e (m_shares z)).
      rewrite (Z5 e He), Q1, theta_corr_prec0 by auto.
      assert (K : 4 * (R64 / 4 / 1) == 0 [mod R64]) by (exists 1; reflexivity).
      rewrite K. apply eqmod_eq. lia.
Qed.

(* ------------------------------------------------------ raw products with a public operand *)
Lemma bil_shares_l op sx sy so f ts vx t : product op sx sy so f -> shared R64 sx vx ts -> tensor_in R64 sy t ->
  exists ws, rmap (fun u => sh_bil (bop_of op) u t) ts = Ok ws /\ length ws = length ts /\
    shared R64 so (f vx (tdat t)) ws.
Proof.
  intros HP HX (T1 & T2 & T3). destruct (product_index _ _ _ _ _ HP) as (ix & EI & HV).
  pose proof (bil_length _ _ _ _ _ EI) as LI.
  pose proof (shared_vals R64 supR _ _ _ HX) as (VL & VI & VN). destruct HX as (X1 & X2 & _).
  rewrite Forall_forall in X2.
  rewrite (rmap_pointwise _ (fun u => mkT so (rbil R64 ix (tdat u) (tdat t)))).
  2:{ intros u Hu. destruct (X2 u Hu) as (U1 & _). apply tbil_ok. rewrite U1, T1. exact EI. }
  eexists. split; [reflexivity|]. split; [apply map_length|].
  pose proof (product_in _ _ _ _ _ vx (tdat t) HP) as (_ & P2 & P3). cbn [tdat] in P2, P3.
  apply shared_intro; auto using supR.
  - destruct ts; [congruence|discriminate].
  - apply Forall_map, Forall_forall. intros u Hu. destruct (X2 u Hu) as (U1 & U2 & U3).
    apply rbil_tensor_in; auto using supR.
  - intros o Ho. rewrite map_map. cbn [tdat]. rewrite <- HV. change (2^64) with R64.
    rewrite s_bil_nth by lia. rewrite to_ring_eqmod by apply posR.
    fold (Bf (nth o ix []) (fun i => nth i vx 0) (fun i => nth i (tdat t) 0)).
    rewrite (zsum_eqmod R64 _ (fun u => Bf (nth o ix []) (fun i => nth i (tdat u) 0) (fun i => nth i (tdat t) 0)) ts).
    + rewrite (Bf_sum_l _ (fun u i => nth i (tdat u) 0)). apply Bf_cong; [|reflexivity]. intros i. apply VN.
    + intros u Hu. destruct (X2 u Hu) as (U1 & U2 & U3). rewrite (rbil_nth R64 supR) by (auto; lia). reflexivity.
Qed.

Lemma bil_shares_r op sx sy so f ts vy t : product op sx sy so f -> shared R64 sy vy ts -> tensor_in R64 sx t ->
  exists ws, rmap (fun u => sh_bil (bop_of op) t u) ts = Ok ws /\ length ws = length ts /\
    shared R64 so (f (tdat t) vy) ws.
Proof.
  intros HP HX (T1 & T2 & T3). destruct (product_index _ _ _ _ _ HP) as (ix & EI & HV).
  pose proof (bil_length _ _ _ _ _ EI) as LI.
  pose proof (shared_vals R64 supR _ _ _ HX) as (VL & VI & VN). destruct HX as (X1 & X2 & _).
  rewrite Forall_forall in X2.
  rewrite (rmap_pointwise _ (fun u => mkT so (rbil R64 ix (tdat t) (tdat u)))).
  2:{ intros u Hu. destruct (X2 u Hu) as (U1 & _). apply tbil_ok. rewrite U1, T1. exact EI. }
  eexists. split; [reflexivity|]. split; [apply map_length|].
  pose proof (product_in _ _ _ _ _ (tdat t) vy HP) as (_ & P2 & P3). cbn [tdat] in P2, P3.
  apply shared_intro; auto using supR.
  - destruct ts; [congruence|discriminate].
  - apply Forall_map, Forall_forall. intros u Hu. destruct (X2 u Hu) as (U1 & U2 & U3).
    apply rbil_tensor_in; auto using supR.
  - intros o Ho. rewrite map_map. cbn [tdat]. rewrite <- HV. change (2^64) with R64.
    rewrite s_bil_nth by lia. rewrite to_ring_eqmod by apply posR.
    fold (Bf (nth o ix []) (fun i => nth i (tdat t) 0) (fun i => nth i vy 0)).
    rewrite (zsum_eqmod R64 _ (fun u => Bf (nth o ix []) (fun i => nth i (tdat t) 0) (fun i => nth i (tdat u) 0)) ts).
    + rewrite (Bf_sum_r _ _ (fun u i => nth i (tdat u) 0)). apply Bf_cong; [reflexivity|]. intros i. apply VN.
    + intros u Hu. destruct (X2 u Hu) as (U1 & U2 & U3). rewrite (rbil_nth R64 supR) by (auto; lia). reflexivity.
Qed.

(* ------------------------------------------------------ products as the user calls them *)
Lemma scale_pos_2 c : 0 < c_base c -> 0 < scale c.
Proof. intros H. unfold scale. apply Z.pow_pos_nonneg; lia. Qed.

Lemma run_mul_div op y x yy ts ws : 0 < y -> run_mul (mul_parties_raw op) x yy ts = Ok ws ->
  run_mul (fun rank e d t => do r <- mul_parties_raw op rank e d t; sh_div r y) x yy ts =
  rmap (fun t => sh_div t y) ws.
Proof.
  intros Hy H. unfold run_mul in *. destruct (open_masks x yy ts) as [[e d]|]; cbn [rbind fst snd] in *; [|discriminate].
  rewrite (rmap_bind (fun p => mul_parties_raw op (fst p) e d (snd p)) (fun t => sh_div t y) _ ws H). reflexivity.
Qed.

Lemma mpc_bil_as s op x y ts prim ws so so' sh : 0 < c_base (s_cfg s) -> (2 <= s_n s)%nat -> m_sid x = m_sid y ->
  run_mul (mul_parties_raw op) x y ts = Ok ws -> Forall (tensor_in R64 sh) ws ->
  shape_bil (no_kwargs op) (m_shape x) (m_shape y) = Ok so' ->
  shape_bil op (m_shape x) (m_shape y) = Ok so -> so = sh ->
  mpc_bil s op x y ts prim =
    (do r <- public_divide s (mkM (m_sid x) so ws) (scale (s_cfg s)) prim; Ok (fst r)).
Proof.
  intros Hc Hn Hsid HR HF H1 H2 ->. unfold mpc_bil. rewrite <- Hsid, Nat.eqb_refl. cbn [negb].
  pose proof (scale_pos_2 _ Hc) as Hsc.
  unfold mul_master, truncate. destruct (Nat.eq_dec (s_n s) 2) as [E|E].
  - assert (EM : run_mul (mul_parties s op) x y ts = rmap (fun t => sh_div t (scale (s_cfg s))) ws).
    { rewrite <- (run_mul_div op _ x y ts ws Hsc HR). unfold run_mul, mul_parties. rewrite E. reflexivity. }
    rewrite EM. destruct (rmap_div sh _ ws Hsc HF) as [EW FW]. rewrite EW. cbn [rbind]. rewrite H1, H2. cbn [rbind].
    rewrite E. cbn [negb orb Nat.ltb Nat.leb]. unfold public_divide. rewrite E. cbn [Nat.eqb m_shares m_sid m_shape].
    rewrite EW. reflexivity.
  - assert (EM : run_mul (mul_parties s op) x y ts = Ok ws).
    { rewrite <- HR. unfold run_mul, mul_parties. destruct (open_masks x y ts) as [[e d]|]; cbn [rbind]; auto.
      apply rmap_ext. intros p _. destruct (Nat.eqb_spec (s_n s) 2); [congruence|].
      destruct (mul_parties_raw _ _ _ _ _); reflexivity. }
    rewrite EM. cbn [rbind]. rewrite H1, H2. cbn [rbind negb orb].
    destruct (Nat.ltb_spec 2 (s_n s)); [reflexivity|lia].
Qed.

Lemma shape_of_product op sx sy so f : product op sx sy so f -> shape_bil (bop_of op) sx sy = Ok so.
Proof. intros H. destruct (product_index _ _ _ _ _ H) as (ix & E & _). unfold shape_bil. rewrite E. reflexivity. Qed.
Lemma shape_of_plain op sx sy so f : product (bare_op op) sx sy so f ->
  shape_bil (no_kwargs (bop_of op)) sx sy = Ok so.
Proof. intros H. destruct op; exact (shape_of_product _ _ _ _ _ H). Qed.

Section Products.
  Variables (s : sess) (op : bspec) (sx sy so so' : list nat) (f f' : list Z -> list Z -> list Z).
  Hypothesis Hc : 0 < c_base (s_cfg s).
  Hypothesis Hn : (2 <= s_n s)%nat.
  Hypothesis HP : product op sx sy so f.
  Hypothesis HP' : product (bare_op op) sx sy so' f'.
  Variables (x y : mpc) (vx vy : list Z) (ts : list triple) (prim : list tensor * list tensor).
  Hypothesis SX : m_sid x = s_id s.
  Hypothesis SY : m_sid y = s_id s.
  Hypothesis PX : m_shape x = sx.
  Hypothesis PY : m_shape y = sy.
  Hypothesis LX : length (m_shares x) = s_n s.
  Hypothesis LY : length (m_shares y) = s_n s.
  Hypothesis HX : shared R64 sx vx (m_shares x).
  Hypothesis HY : shared R64 sy vy (m_shares y).
  Hypothesis HT : valid_triples sx sy so f (s_n s) ts.

  Lemma mpc_bil_raw : exists ws, length ws = s_n s /\ shared R64 so (f vx vy) ws /\
    run_mul (mul_parties_raw (bop_of op)) x y ts = Ok ws /\
    mpc_bil s (bop_of op) x y ts prim =
      (do r <- public_divide s (mkM (s_id s) so ws) (scale (s_cfg s)) prim; Ok (fst r)).
  Proof.
    destruct (mul_product op sx sy so f (s_n s) x y ts vx vy HP HT LX LY HX HY) as (ws & E & L & S).
    exists ws. split; [auto|]. split; [auto|]. split; [auto|]. rewrite <- SX.
    apply (mpc_bil_as s (bop_of op) x y ts prim ws so so' so); auto; try congruence.
    - apply S.
    - rewrite PX, PY. apply (shape_of_plain op sx sy so' f'); auto.
    - rewrite PX, PY. apply (shape_of_product op sx sy so f); auto.
  Qed.
End Products.

Lemma mpc_bil_public_raw s op sx sy so f x y vx prim : op = SMul \/ op = SMatmul -> product op sx sy so f ->
  m_sid x = s_id s -> m_shape x = sx -> length (m_shares x) = s_n s -> shared R64 sx vx (m_shares x) ->
  pub_ok y -> pub_shape y = sy ->
  exists ws, length ws = s_n s /\ shared R64 so (f vx (encode (s_cfg s) (pub_vals y))) ws /\
    mpc_bil_public s (bop_of op) x y prim =
      (do r <- public_divide s (mkM (s_id s) so ws) (scale (s_cfg s)) prim; Ok (fst r)).
Proof.
  intros Hop HP SX PX LX HX Hy PY. destruct (share_init_in (s_cfg s) y Hy) as [HI EI].
  rewrite PY in HI, EI.
  destruct (bil_shares_l op sx sy so f (m_shares x) vx _ HP HX HI) as (ws & E & L & S). cbn [tdat] in S.
  exists ws. split; [congruence|]. split; [exact S|].
  assert (ESH := shape_of_product _ _ _ _ _ HP).
  unfold mpc_bil_public. destruct Hop as [->| ->]; cbn [bop_of] in *; rewrite EI, E; cbn [rbind];
    rewrite PX, PY, ESH, SX; reflexivity.
Qed.

Lemma mpc_rmatmul_raw s sx sy so f x y vx prim : product SMatmul sy sx so f ->
  m_sid x = s_id s -> m_shape x = sx -> length (m_shares x) = s_n s -> shared R64 sx vx (m_shares x) ->
  pub_ok y -> pub_shape y = sy ->
  exists ws, length ws = s_n s /\ shared R64 so (f (encode (s_cfg s) (pub_vals y)) vx) ws /\
    mpc_rmatmul s x y prim =
      (do r <- public_divide s (mkM (s_id s) so ws) (scale (s_cfg s)) prim; Ok (fst r)).
Proof.
  intros HP SX PX LX HX Hy PY. destruct (share_init_in (s_cfg s) y Hy) as [HI EI].
  rewrite PY in HI, EI.
  destruct (bil_shares_r SMatmul sy sx so f (m_shares x) vx _ HP HX HI) as (ws & E & L & S). cbn [tdat] in S.
  exists ws. split; [congruence|]. split; [exact S|].
  assert (ESH := shape_of_product _ _ _ _ _ HP).
  unfold mpc_rmatmul. cbn [bop_of] in *; rewrite EI, E; cbn [rbind];
    rewrite PX, PY, ESH, SX; reflexivity.
Qed.
