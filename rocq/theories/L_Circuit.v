(** Programs without rescaling (precision 0) compute in the ring. *)
From Coq Require Import QArith Setoid Morphisms.
From Verif Require Import Util Modular S_Ring S_Tensor S_Wraps S_Div S_Bil S_Spdz S_View S_Circuit
  M_Torch M_Encoder M_Float M_Tensor M_Share M_Spdz M_Circuit
  L_Torch L_Tensor L_Encoder L_Float L_Share L_Spdz L_Div L_Bil L_Mul L_View.
Local Open Scope Z_scope.

Definition good (s : sess) (sh : list nat) (v : list Z) (x : mpc) : Prop :=
  m_sid x = s_id s /\ m_shape x = sh /\ length (m_shares x) = s_n s /\ shared R64 sh v (m_shares x).

Lemma divide_one' s so v ws prim : c_prec (s_cfg s) = 0%nat -> length ws = s_n s -> shared R64 so v ws ->
  any_masks (s_n s) so (fst prim) (snd prim) ->
  exists z, (do r <- public_divide s (mkM (s_id s) so ws) (scale (s_cfg s)) prim; Ok (fst r)) = Ok z /\ good s so v z.
Proof.
  intros Hp L S HM.
  destruct (divide_one s (mkM (s_id s) so ws) prim so v) as (z & xs' & E & Z1 & Z2 & Z3 & Z4); auto.
  rewrite E. cbn [rbind fst]. exists z. split; [reflexivity|]. repeat split; auto; apply Z4.
Qed.

Lemma prec0_base s : c_prec (s_cfg s) = 0%nat -> scale (s_cfg s) = 1.
Proof. intros H. unfold scale. rewrite H. reflexivity. Qed.

Lemma prec0_bil2 s op sx sy so so' f f' x y vx vy ts prim : c_prec (s_cfg s) = 0%nat -> 0 < c_base (s_cfg s) -> (2 <= s_n s)%nat ->
  product op sx sy so f -> product (bare_op op) sx sy so' f' -> good s sx vx x -> good s sy vy y ->
  valid_triples sx sy so f (s_n s) ts -> any_masks (s_n s) so (fst prim) (snd prim) ->
  exists z, mpc_bil s (bop_of op) x y ts prim = Ok z /\ good s so (f vx vy) z.
Proof.
  intros Hp Hc Hn HP HP' (X1 & X2 & X3 & X4) (Y1 & Y2 & Y3 & Y4) HT HM.
  destruct (mpc_bil_raw s op sx sy so so' f f' Hc Hn HP HP') with (x := x) (y := y) (vx := vx) (vy := vy) (ts := ts) (prim := prim)
    as (ws & L & S & _ & ->); auto.
  apply divide_one'; auto.
Qed.

Lemma prec0_bil s op sx sy so f x y vx vy ts prim : c_prec (s_cfg s) = 0%nat -> 0 < c_base (s_cfg s) -> (2 <= s_n s)%nat ->
  bare_op op = op -> product op sx sy so f -> good s sx vx x -> good s sy vy y ->
  valid_triples sx sy so f (s_n s) ts -> any_masks (s_n s) so (fst prim) (snd prim) ->
  exists z, mpc_bil s (bop_of op) x y ts prim = Ok z /\ good s so (f vx vy) z.
Proof.
  intros Hp Hc Hn Hb HP (X1 & X2 & X3 & X4) (Y1 & Y2 & Y3 & Y4) HT HM.
  destruct (mpc_bil_raw s op sx sy so so f f Hc Hn HP) with (x := x) (y := y) (vx := vx) (vy := vy) (ts := ts) (prim := prim)
    as (ws & L & S & _ & ->); auto; [rewrite Hb; auto|].
  apply divide_one'; auto.
Qed.

Lemma prec0_bil_public s op sx so f x y vx prim : c_prec (s_cfg s) = 0%nat ->
  op = SMul \/ op = SMatmul -> product op sx (pub_shape y) so f -> good s sx vx x -> pub_ok y ->
  any_masks (s_n s) so (fst prim) (snd prim) ->
  exists z, mpc_bil_public s (bop_of op) x y prim = Ok z /\ good s so (f vx (encode (s_cfg s) (pub_vals y))) z.
Proof.
  intros Hp Hop HP (X1 & X2 & X3 & X4) Hy HM.
  destruct (mpc_bil_public_raw s op sx (pub_shape y) so f x y vx prim) as (ws & L & S & ->); auto.
  apply divide_one'; auto.
Qed.

Lemma prec0_rmatmul s sx so f x y vx prim : c_prec (s_cfg s) = 0%nat ->
  product SMatmul (pub_shape y) sx so f -> good s sx vx x -> pub_ok y ->
  any_masks (s_n s) so (fst prim) (snd prim) ->
  exists z, mpc_rmatmul s x y prim = Ok z /\ good s so (f (encode (s_cfg s) (pub_vals y)) vx) z.
Proof.
  intros Hp HP (X1 & X2 & X3 & X4) Hy HM.
  destruct (mpc_rmatmul_raw s sx (pub_shape y) so f x y vx prim) as (ws & L & S & ->); auto.
  apply divide_one'; auto.
Qed.

(** integers are encoded as themselves *)
Lemma int_pub_spec c p vs : c_prec c = 0%nat -> int_pub p vs ->
  pub_ok p /\ encode c (pub_vals p) = vs /\ pub_shape p = shape_of p.
Proof.
  intros Hp H. assert (ES : scale c = 1) by (unfold scale; rewrite Hp; reflexivity).
  assert (E1 : forall z, encode1 c (NInt z) = to_ring (2^64) z).
  { intros z. cbn [encode1 cast]. rewrite ES, Z.mul_1_r. apply wrap_to_ring64. }
  destruct p as [v|sh l]; cbn [int_pub pub_ok pub_vals shape_of pub_shape] in *.
  - destruct H as (z & -> & ->). split; [auto|]. split; [|reflexivity]. cbn [encode map]. rewrite E1. reflexivity.
  - destruct H as (HL & zs & -> & ->). split; [auto|]. split; [|reflexivity]. unfold encode. rewrite map_map.
    apply map_ext. auto.
Qed.

Lemma bshape_scalar s : s <> [] -> bshape s [1%nat] s.
Proof.
  intros H. split; [destruct s; [congruence|cbn; lia]|]. intros i Hi. right. right. split; auto.
  destruct i as [|[|]]; reflexivity.
Qed.

Lemma nth_map2_to_ring (f : Z -> Z -> Z) x y i : length x = length y -> f 0 0 = 0 ->
  nth i (map2 (fun a b => to_ring R64 (f a b)) x y) 0 == f (nth i x 0) (nth i y 0) [mod R64].
Proof.
  intros HL H0. destruct (Nat.lt_ge_cases i (length x)) as [H|H].
  - rewrite (nth_map2 _ 0 0 0) by lia. apply to_ring_eqmod. apply posR.
  - rewrite !nth_overflow; try rewrite map2_length; try lia. rewrite H0. reflexivity.
Qed.

Lemma bget_one so c e : so <> [] -> bget [1%nat] so [c] e = c.
Proof.
  intros H. unfold bget. cbn [length].
  destruct (skipn (length so - 1) (unravel so e)) as [|i r] eqn:E; reflexivity.
Qed.

(** rsub: (x - p) * (-1) *)
Lemma neg_one_mul so v : so <> [] -> vec_in R64 v -> length v = numel so ->
  mul_val so [1%nat] so v [to_ring R64 (-1)] = map (fun a => to_ring R64 (- a)) v.
Proof.
  intros HS HV HL. unfold mul_vr, s_mul. rewrite bexpand_self by auto.
  apply vec_eqR.
  - apply map2_to_ring_in; auto.
  - apply map_to_ring_in; auto.
  - rewrite map2_length, map_length, bexpand_length. lia.
  - intros e He. rewrite map2_length, bexpand_length in He.
    rewrite (nth_map2 _ 0 0 0) by (rewrite ?bexpand_length; lia). rewrite (nth_map_in _ 0) by lia.
    rewrite bexpand_nth by lia. change (2^64) with R64. rewrite bget_one by auto.
    rewrite !to_ring_eqmod by apply posR. apply eqmod_eq. lia.
Qed.

Lemma prec0_rsub s sa va x p vp prim : c_prec (s_cfg s) = 0%nat -> sa <> [] -> good s sa va x -> int_pub p vp ->
  bshape sa (shape_of p) sa -> any_masks (s_n s) sa (fst prim) (snd prim) ->
  exists z, mpc_rsub s x p prim = Ok z /\ good s sa (lin_val LSub (shape_of p) sa sa vp va) z.
Proof.
  intros Hp Hsa (X1 & X2 & X3 & X4) HI HB HM.
  destruct (int_pub_spec (s_cfg s) p vp Hp HI) as (P1 & P2 & P3).
  unfold mpc_rsub.
  destruct (mpc_lin_public_value s LSub x p va sa) as (d & -> & D1 & D2 & D3 & D4 & D5); try (rewrite X2, ?P3; assumption); auto.
  cbn [rbind]. specialize (D5 (eq_sym X2)). rewrite X2, P2, P3 in D5.
  set (vd := s_linop LSub (bexpand sa sa va) (bexpand (shape_of p) sa vp)) in *.
  assert (P1' : pub_ok (PNum (NInt (-1)))) by exact I.
  assert (HPr : product SMul sa (pub_shape (PNum (NInt (-1)))) sa (mul_val sa [1%nat] sa)) by (apply prod_mul; apply bshape_scalar; auto).
  assert (GD : good s sa vd d) by (repeat split; auto; try congruence; apply D5).
  destruct (prec0_bil_public s SMul sa sa _ d (PNum (NInt (-1))) vd prim Hp (or_introl eq_refl) HPr GD P1' HM)
    as (z & EZ & GZ).
  cbn [bop_of] in EZ. exists z. split; [exact EZ|].
  assert (EV : encode (s_cfg s) (pub_vals (PNum (NInt (-1)))) = [to_ring R64 (-1)]).
  { cbn [pub_vals encode map encode1 cast]. rewrite (prec0_base s Hp). reflexivity. }
  rewrite EV in GZ.
  pose proof (shared_vals R64 supR _ _ _ D5) as (VL & VI & _).
  pose proof (shared_vals R64 supR _ _ _ X4) as (AL & AI & _).
  rewrite (neg_one_mul sa vd Hsa VI VL) in GZ.
  assert (EQ : map (fun a => to_ring R64 (- a)) vd = lin_val LSub (shape_of p) sa sa vp va); [|rewrite <- EQ; exact GZ].
  unfold lin_val, vd, s_linop, s_sub. change (2^64) with R64. rewrite bexpand_self by auto.
  apply vec_eqR.
  - apply map_to_ring_in; auto.
  - apply map2_to_ring_in; auto.
  - rewrite map_length, !map2_length, bexpand_length. lia.
  - intros e He. rewrite map_length, map2_length, bexpand_length in He.
    rewrite (nth_map_in _ 0) by (rewrite map2_length, bexpand_length; lia).
    rewrite !(nth_map2 _ 0 0 0) by (rewrite ?bexpand_length; lia).
    rewrite !to_ring_eqmod by apply posR. apply eqmod_eq. lia.
Qed.

(* ------------------------------------------------------ powers *)
Definition pow_vec (v : list Z) (p : positive) : list Z := map (fun a => to_ring (2^64) (a ^ Zpos p)) v.

Lemma mul_val_self sh x y : length x = numel sh -> length y = numel sh -> mul_val sh sh sh x y = s_mul R64 x y.
Proof. intros H1 H2. unfold mul_vr. rewrite !bexpand_self by auto. reflexivity. Qed.

Lemma bshape_same s : bshape s s s.
Proof. split; [lia|]. intros i Hi. left. auto. Qed.

Section Pow.
  Variables (s : sess) (sh : list nat) (tri : nat -> list triple) (msk : nat -> list tensor * list tensor).
  Hypothesis Hp : c_prec (s_cfg s) = 0%nat.
  Hypothesis Hc : 0 < c_base (s_cfg s).
  Hypothesis Hn : (2 <= s_n s)%nat.
  Hypothesis Hsh : sh <> [].
  Hypothesis HT : forall k, valid_triples sh sh sh (mul_val sh sh sh) (s_n s) (tri k).
  Hypothesis HM : forall k, any_masks (s_n s) sh (fst (msk k)) (snd (msk k)).

  (** element-wise: acc * base^p *)
  Let expo (acc : option (list Z)) (vb : list Z) (p : positive) : list Z :=
    match acc with
    | None => map (fun b => to_ring R64 (b ^ Zpos p)) vb
    | Some va => map2 (fun a b => to_ring R64 (a * b ^ Zpos p)) va vb
    end.

  Lemma to_ring_pow a e : to_ring R64 a ^ e == a ^ e [mod R64].
  Proof.
    destruct (Z.le_gt_cases 0 e) as [He|He].
    - pattern e. apply natlike_ind; auto.
      + reflexivity.
      + intros x Hx IH. rewrite !Z.pow_succ_r by auto. rewrite IH, to_ring_eqmod by apply posR. reflexivity.
    - rewrite !Z.pow_neg_r by auto. reflexivity.
  Qed.

  Lemma mul_good x y vx vy k : good s sh vx x -> good s sh vy y ->
    exists z, mpc_bil s BMul x y (tri k) (msk k) = Ok z /\ good s sh (s_mul R64 vx vy) z.
  Proof.
    intros GX GY. pose proof GX as (_ & _ & _ & SX). pose proof GY as (_ & _ & _ & SY).
    pose proof (shared_vals R64 supR _ _ _ SX) as (LX & _ & _). pose proof (shared_vals R64 supR _ _ _ SY) as (LY & _ & _).
    destruct (prec0_bil s SMul sh sh sh (mul_val sh sh sh) x y vx vy (tri k) (msk k)) as (z & E & G); auto.
    - apply prod_mul. apply bshape_same.
    - exists z. split; [exact E|]. rewrite mul_val_self in G; auto.
  Qed.

  Lemma one_good x vx k : good s sh vx x ->
    exists z, mpc_bil_public s BMul x (PNum (NInt 1)) (msk k) = Ok z /\ good s sh vx z.
  Proof.
    intros GX. pose proof GX as (_ & _ & _ & SX). pose proof (shared_vals R64 supR _ _ _ SX) as (LX & VX & _).
    destruct (prec0_bil_public s SMul sh sh (mul_val sh [1%nat] sh) x (PNum (NInt 1)) vx (msk k)) as (z & E & G); auto.
    - apply prod_mul. apply bshape_scalar. auto.
    - exact I.
    - exists z. split; [exact E|].
      assert (EV : encode (s_cfg s) (pub_vals (PNum (NInt 1))) = [1]).
      { cbn [pub_vals encode map encode1 cast]. rewrite (prec0_base s Hp). reflexivity. }
      rewrite EV in G.
      assert (EQ : mul_val sh [1%nat] sh vx [1] = vx); [|rewrite EQ in G; exact G].
      unfold mul_vr, s_mul. rewrite bexpand_self by auto. change (2^64) with R64. apply vec_eqR; auto.
      + apply map2_to_ring_in; auto.
      + rewrite map2_length, bexpand_length. lia.
      + intros e He. rewrite map2_length, bexpand_length in He.
        rewrite (nth_map2 _ 0 0 0) by (rewrite ?bexpand_length; lia). rewrite bexpand_nth by lia.
        rewrite to_ring_eqmod by apply posR. rewrite bget_one by auto. apply eqmod_eq. lia.
  Qed.

  Lemma pow_step base acc vb va k :
    good s sh vb base ->
    (match acc, va with None, None => True | Some r, Some v => good s sh v r | _, _ => False end) ->
    exists z, match acc with
              | None => mpc_bil_public s BMul base (PNum (NInt 1)) (msk k)
              | Some r => mpc_bil s BMul r base (tri k) (msk k)
              end = Ok z /\ good s sh (match va with None => vb | Some v => s_mul R64 v vb end) z.
  Proof.
    intros GB GA. destruct acc as [r|], va as [v|]; try contradiction.
    - apply mul_good; auto.
    - apply one_good; auto.
  Qed.

  Lemma pow_loop_spec p : forall base acc vb va k,
    good s sh vb base ->
    (match acc, va with None, None => True | Some r, Some v => good s sh v r | _, _ => False end) ->
    exists z, pow_loop s p base acc k tri msk = Ok z /\ good s sh (expo va vb p) z.
  Proof.
    assert (LEN : forall v x, good s sh v x -> length v = numel sh /\ vec_in R64 v).
    { intros v x (_ & _ & _ & S). pose proof (shared_vals R64 supR _ _ _ S) as (A & B & _). auto. }
    assert (SQ : forall b q, Z.pos (q~0) = 2 * Z.pos q /\ (b * b) ^ Z.pos q = b ^ Z.pos (q~0)).
    { intros b q. split; [lia|]. rewrite <- Z.pow_2_r, <- Z.pow_mul_r by lia. f_equal. }
    assert (SQ1 : forall b q, b * (b * b) ^ Z.pos q = b ^ Z.pos (q~1)).
    { intros b q. rewrite <- Z.pow_2_r, <- Z.pow_mul_r by lia.
      replace (Z.pos q~1) with (Z.succ (2 * Z.pos q)) by lia. rewrite Z.pow_succ_r by lia. reflexivity. }
    induction p as [p IH|p IH|]; intros base acc vb va k GB GA; cbn [pow_loop].
    - destruct (pow_step base acc vb va k GB GA) as (r & -> & GR). cbn [rbind].
      destruct (mul_good base base vb vb (S k) GB GB) as (b & -> & GBB). cbn [rbind].
      destruct (IH b (Some r) (s_mul R64 vb vb) (Some (match va with None => vb | Some v => s_mul R64 v vb end)) (S (S k)) GBB GR)
        as (z & E & GZ).
      exists z. split; [exact E|].
      destruct (LEN _ _ GB) as [LB IB], (LEN _ _ GZ) as [LZ IZ], (LEN _ _ GBB) as [LBB IBB], (LEN _ _ GR) as [LR IR].
      assert (EQ : expo (Some (match va with None => vb | Some v => s_mul R64 v vb end)) (s_mul R64 vb vb) p = expo va vb (xI p)); [|rewrite <- EQ; exact GZ].
      destruct va as [v|]; cbn [expo] in *.
      + assert (LV : length v = numel sh) by (destruct acc; [|contradiction]; apply (LEN _ _ GA)).
        apply vec_eqR; auto.
        * apply map2_to_ring_in; auto.
        * rewrite !map2_length. unfold s_mul. rewrite !map2_length. lia.
        * intros e He. rewrite LZ in He. unfold s_mul.
          rewrite !(nth_map2 _ 0 0 0) by (rewrite ?map2_length; lia).
          etransitivity; [apply to_ring_eqmod, posR|]. etransitivity; [|symmetry; apply to_ring_eqmod, posR].
          rewrite to_ring_pow. rewrite ?to_ring_eqmod by apply posR. rewrite <- SQ1. rewrite Z.mul_assoc. reflexivity.
      + apply vec_eqR; auto.
        * apply map_to_ring_in; auto.
        * rewrite map_length, map2_length. unfold s_mul. rewrite map2_length. lia.
        * intros e He. rewrite LZ in He. unfold s_mul.
          rewrite (nth_map_in _ 0) by lia.
          rewrite !(nth_map2 _ 0 0 0) by (rewrite ?map2_length; lia).
          etransitivity; [apply to_ring_eqmod, posR|]. etransitivity; [|symmetry; apply to_ring_eqmod, posR].
          rewrite to_ring_pow. rewrite ?to_ring_eqmod by apply posR. rewrite <- SQ1. reflexivity.
    - destruct (mul_good base base vb vb k GB GB) as (b & -> & GBB). cbn [rbind].
      destruct (IH b acc (s_mul R64 vb vb) va (S k) GBB GA) as (z & E & GZ).
      exists z. split; [exact E|].
      destruct (LEN _ _ GB) as [LB IB], (LEN _ _ GZ) as [LZ IZ].
      assert (EQ : expo va (s_mul R64 vb vb) p = expo va vb (xO p)); [|rewrite <- EQ; exact GZ].
      destruct va as [v|]; cbn [expo] in *.
      + assert (LV : length v = numel sh) by (destruct acc; [|contradiction]; apply (LEN _ _ GA)).
        apply vec_eqR; auto.
        * apply map2_to_ring_in; auto.
        * rewrite !map2_length. unfold s_mul. rewrite map2_length. lia.
        * intros e He. rewrite LZ in He. unfold s_mul.
          rewrite !(nth_map2 _ 0 0 0) by (rewrite ?map2_length; lia).
          etransitivity; [apply to_ring_eqmod, posR|]. etransitivity; [|symmetry; apply to_ring_eqmod, posR].
          rewrite to_ring_pow. rewrite ?to_ring_eqmod by apply posR. destruct (SQ (nth e vb 0) p) as [_ <-]. reflexivity.
      + apply vec_eqR; auto.
        * apply map_to_ring_in; auto.
        * rewrite !map_length. unfold s_mul. rewrite map2_length. lia.
        * intros e He. rewrite LZ in He. unfold s_mul.
          rewrite !(nth_map_in _ 0) by (rewrite ?map2_length; lia).
          rewrite !(nth_map2 _ 0 0 0) by (rewrite ?map2_length; lia).
          etransitivity; [apply to_ring_eqmod, posR|]. etransitivity; [|symmetry; apply to_ring_eqmod, posR].
          rewrite to_ring_pow. rewrite ?to_ring_eqmod by apply posR. destruct (SQ (nth e vb 0) p) as [_ <-]. reflexivity.
    - destruct (pow_step base acc vb va k GB GA) as (r & -> & GR). cbn [rbind].
      destruct (mul_good base base vb vb (S k) GB GB) as (b & -> & GBB). cbn [rbind].
      exists r. split; [reflexivity|]. destruct (LEN _ _ GB) as [LB IB].
      destruct va as [v|]; cbn [expo].
      + assert (EQ : map2 (fun a b0 => to_ring R64 (a * b0 ^ 1)) v vb = s_mul R64 v vb); [|rewrite EQ; exact GR].
        unfold s_mul. apply map2_ext_in. intros. rewrite Z.pow_1_r. reflexivity.
      + assert (EQ : map (fun b0 => to_ring R64 (b0 ^ 1)) vb = vb); [|rewrite EQ; exact GR].
        rewrite <- (map_id vb) at 2. apply map_ext_in. intros a Ha. rewrite Z.pow_1_r.
        unfold vec_in in IB. rewrite Forall_forall in IB. apply (IB a Ha).
  Qed.

  Lemma pow_correct x vx p : good s sh vx x ->
    exists z, mpc_pow s x (Zpos p) tri msk = Ok (inl z) /\ good s sh (pow_vec vx p) z.
  Proof.
    intros GX. destruct (pow_loop_spec p x None vx None 0%nat GX I) as (z & E & GZ).
    exists z. unfold mpc_pow. rewrite E. split; [reflexivity | exact GZ].
  Qed.
End Pow.

(* ------------------------------------------------------ whole programs *)
Theorem eval_correct s env senv sup : c_prec (s_cfg s) = 0%nat -> 0 < c_base (s_cfg s) -> (2 <= s_n s)%nat ->
  (forall i, good s (fst (senv i)) (snd (senv i)) (env i)) ->
  forall path e sh v, means senv sup (s_n s) path e sh v ->
  exists z, eval s env sup path e = Ok z /\ good s sh v z.
Proof.
  intros Hp Hc Hn Henv path e sh v H.
  induction H as [path i|path o a b sa sb so va vb H1 IH1 H2 IH2 HB|path o a p sa va vp H1 IH1 HI HB
    |path a p sa va vp H1 IH1 Hsa HI HB HM
    |path a b sa sb so va vb f H1 IH1 H2 IH2 HP HT HM|path a b sa sb so va vb f H1 IH1 H2 IH2 HP HT HM
    |path a p sa so va vp f H1 IH1 HI HP HM|path a p sa so va vp f H1 IH1 HI HP HM
    |path a p sa so va vp f H1 IH1 HI HP HM
    |path st pd dl g a b sa sb so so' va vb f f' H1 IH1 H2 IH2 HP HP' HT HM
    |path st pd dl g a b sa sb so so' va vb f f' H1 IH1 H2 IH2 HP HP' HT HM
    |path a k sa va H1 IH1 Hsa HT HM|path m a sa so va f H1 IH1 HV]; cbn [eval].
  - exists (env i). split; auto.
  - destruct IH1 as (x & -> & X1 & X2 & X3 & X4), IH2 as (y & -> & Y1 & Y2 & Y3 & Y4). cbn [rbind].
    destruct (mpc_lin_shared o x y so va vb) as (z & E & Z1 & Z2 & Z3 & Z4);
      try (rewrite ?X2, ?Y2; assumption); try congruence.
    exists z. split; [exact E|]. rewrite X2, Y2 in Z4. repeat split; try congruence; try apply Z4.
      destruct o; apply Z4.
  - destruct IH1 as (x & -> & X1 & X2 & X3 & X4). cbn [rbind].
    destruct (int_pub_spec (s_cfg s) p vp Hp HI) as (P1 & P2 & P3).
    destruct (mpc_lin_public_value s o x p va sa) as (z & E & Z1 & Z2 & Z3 & Z4 & Z5); try (rewrite X2, ?P3; assumption); auto.
    exists z. split; [exact E|]. specialize (Z5 (eq_sym X2)). rewrite X2, P2, P3 in Z5.
    repeat split; try congruence; try apply Z5. destruct o; apply Z5.
  - destruct IH1 as (x & -> & GX). cbn [rbind]. apply prec0_rsub; auto.
  - destruct IH1 as (x & -> & GX), IH2 as (y & -> & GY). cbn [rbind].
    apply (prec0_bil s SMul sa sb so f); auto.
  - destruct IH1 as (x & -> & GX), IH2 as (y & -> & GY). cbn [rbind].
    apply (prec0_bil s SMatmul sa sb so f); auto.
  - destruct IH1 as (x & -> & GX). cbn [rbind].
    destruct (int_pub_spec (s_cfg s) p vp Hp HI) as (P1 & P2 & P3). rewrite <- P2.
    apply (prec0_bil_public s SMul sa so f); auto; try (rewrite P3; auto).
  - destruct IH1 as (x & -> & GX). cbn [rbind].
    destruct (int_pub_spec (s_cfg s) p vp Hp HI) as (P1 & P2 & P3). rewrite <- P2.
    apply (prec0_bil_public s SMatmul sa so f); auto; try (rewrite P3; auto).
  - destruct IH1 as (x & -> & GX). cbn [rbind].
    destruct (int_pub_spec (s_cfg s) p vp Hp HI) as (P1 & P2 & P3). rewrite <- P2.
    apply (prec0_rmatmul s sa so f); auto; try (rewrite P3; auto).
  - destruct IH1 as (x & -> & GX), IH2 as (y & -> & GY). cbn [rbind].
    apply (prec0_bil2 s (SConv st pd dl g) sa sb so so' f f'); auto.
  - destruct IH1 as (x & -> & GX), IH2 as (y & -> & GY). cbn [rbind].
    apply (prec0_bil2 s (SConvT st pd dl g) sa sb so so' f f'); auto.
  - destruct IH1 as (x & -> & GX). cbn [rbind].
    destruct (pow_correct s sa _ _ Hp Hc Hn Hsa HT HM x va k GX) as (z & -> & GZ). cbn [rbind]. exists z. split; [reflexivity|exact GZ].
  - destruct IH1 as (x & -> & X1 & X2 & X3 & X4). cbn [rbind].
    pose proof (shared_vals R64 supR _ _ _ X4) as (VL & VI & _).
    destruct (mpc_view_commutes m x va (mkT so (f va))) as (y & E & Y1 & Y2 & Y3 & Y4 & Y5).
    + rewrite X2. exact X4.
    + rewrite X2. apply view_spec; auto.
    + exists y. split; [exact E|]. cbn [tsh tdat] in *. repeat split; try congruence; apply Y4.
Qed.

