(** Privacy of the multiplication. *)
From Coq Require Import Setoid Morphisms.
From Verif Require Import Util Modular S_Ring S_Tensor S_Bil S_Spdz S_Priv M_Torch M_Encoder M_Tensor M_Share M_Spdz
  L_Torch L_Tensor L_Share L_Spdz L_Div L_Bil L_Mul.
Local Open Scope Z_scope.

Lemma others_ext {A} (l : list A) : forall j l', length l = length l' ->
  (forall k, (k < length l)%nat -> k <> j -> nth_error l k = nth_error l' k) -> others j l = others j l'.
Proof.
  unfold others. induction l as [|a l IH]; intros j [|b l'] HL H; try discriminate HL; auto.
  injection HL as HL.
  assert (R : forall i, (forall k, (k < length l)%nat -> k <> i -> nth_error l k = nth_error l' k) ->
     firstn i l ++ skipn (S i) l = firstn i l' ++ skipn (S i) l') by (intros; apply IH; auto).
  destruct j as [|j].
  - cbn [firstn skipn app].
    destruct (list_eq_dec Nat.eq_dec [] []) as [_|]; [|congruence].
    clear IH R. revert l' HL H. induction l as [|c l IH]; intros [|d l'] HL H; try discriminate HL; auto.
    f_equal.
    + assert (X := H 1%nat ltac:(cbn; lia) ltac:(lia)). cbn in X. congruence.
    + apply (IH l'); [injection HL; auto|]. intros k Hk Hk0. destruct k; [congruence|].
      apply (H (S (S k))); cbn in *; lia.
  - cbn [firstn skipn app]. f_equal.
    + assert (X := H 0%nat ltac:(cbn; lia) ltac:(lia)). cbn in X. congruence.
    + apply R. intros k Hk Hkj. apply (H (S k)); cbn; lia.
Qed.

Lemma nth_error_combine {A B} (l : list A) : forall (m : list B) k,
  nth_error (combine l m) k =
  match nth_error l k, nth_error m k with Some a, Some b => Some (a, b) | _, _ => None end.
Proof.
  induction l as [|a l IH]; intros [|b m] [|k]; cbn [combine nth_error]; auto.
  - destruct (nth_error l k); reflexivity.
Qed.

Lemma vsub_s x y : vec_in R64 x -> vec_in R64 y -> vsub R64 x y = s_sub R64 x y.
Proof. apply vsub_spec, supR. Qed.

(** the two generated triples agree outside party j *)
Lemma triple_shift op sx sy so f n j a b a' b' ra rb rc : product op sx sy so f -> (2 <= n)%nat -> (j < n)%nat ->
  tensor_in R64 sx (mkT sx a) -> tensor_in R64 sy (mkT sy b) ->
  tensor_in R64 sx (mkT sx a') -> tensor_in R64 sy (mkT sy b') ->
  draws R64 n sx ra -> draws R64 n sy rb -> draws R64 n so rc ->
  exists ts ts', get_triples (bop_of op) n (mkT sx a) (mkT sy b) ra rb rc = Ok ts /\
    get_triples (bop_of op) n (mkT sx a') (mkT sy b') (shift_draws j (vsub R64 a' a) true ra)
      (shift_draws j (vsub R64 b' b) true rb) (shift_draws j (vsub R64 (f a' b') (f a b)) true rc) = Ok ts' /\
    others j ts = others j ts'.
Proof.
  intros HP Hn Hj A B A' B' Da Db Dc.
  pose proof A as (_ & A2 & A3). pose proof B as (_ & B2 & B3).
  pose proof A' as (_ & A2' & A3'). pose proof B' as (_ & B2' & B3'). cbn [tdat] in *.
  destruct (product_index _ _ _ _ _ HP) as (ix & EI & HV).
  destruct (share_shift n sx a a' j ra Hn Hj A A' Da) as (sa & sa' & Ea & Ea' & La & La' & Na).
  destruct (share_shift n sy b b' j rb Hn Hj B B' Db) as (sb & sb' & Eb & Eb' & Lb & Lb' & Nb).
  destruct (share_shift n so (f a b) (f a' b') j rc Hn Hj (product_in _ _ _ _ _ a b HP) (product_in _ _ _ _ _ a' b' HP) Dc)
    as (sc & sc' & Ec & Ec' & Lc & Lc' & Nc).
  unfold get_triples. rewrite Ea, Ea', Eb, Eb'. cbn [rbind].
  unfold tbil. cbn [tsh tdat]. rewrite EI. cbn [rbind].
  rewrite !(rbil_spec R64 supR) by auto. change R64 with (2^64). rewrite !HV.
  change (2^64) with R64. rewrite Ec, Ec'. cbn [rbind].
  eexists. eexists. split; [reflexivity|]. split; [reflexivity|]. unfold zip3, triple.
  apply others_ext.
  - rewrite !combine_length. lia.
  - intros k Hk Hkj. rewrite !combine_length in Hk. rewrite !nth_error_combine.
    rewrite Na, Nb, Nc by lia. reflexivity.
Qed.

Lemma shift_open v a v' : vec_in R64 v -> vec_in R64 a -> vec_in R64 v' -> length v = length a -> length v' = length a ->
  s_sub R64 v' (vadd R64 a (vsub R64 v' v)) = s_sub R64 v a.
Proof.
  intros Hv Ha Hv' L1 L2.
  assert (L3 : length (vsub R64 v' v) = length a) by (apply vsub_length; auto; lia).
  assert (L4 : length (vadd R64 a (vsub R64 v' v)) = length a) by (apply vadd_length; auto).
  rewrite <- !vsub_s by (auto using vadd_in, vsub_in).
  apply vec_eqR; auto using vadd_in, vsub_in.
  - unfold vsub at 1 3. rewrite !map2_length. lia.
  - intros e _. rewrite !nth_vsub, !nth_vadd, ?nth_vsub by (auto using vadd_in, vsub_in; lia). apply eqmod_eq; lia.
Qed.

Lemma vsub_of_vadd a d : vec_in R64 a -> vec_in R64 d -> length a = length d -> vsub R64 (vadd R64 a d) a = d.
Proof.
  intros Ha Hd L. assert (L4 : length (vadd R64 a d) = length a) by (apply vadd_length; auto).
  apply vec_eqR; auto using vadd_in, vsub_in.
  - unfold vsub. rewrite map2_length. lia.
  - intros e _. rewrite nth_vsub, nth_vadd by (auto using vadd_in; lia). apply eqmod_eq; lia.
Qed.

Section JointView.
  Variables (op : bspec) (sx sy so : list nat) (f : list Z -> list Z -> list Z) (n j : nat).
  Hypothesis HP : product op sx sy so f.
  Hypothesis Hn : (2 <= n)%nat.
  Hypothesis Hj : (j < n)%nat.
  Variables (vx vy vx' vy' : list Z).
  Hypothesis VX : tensor_in R64 sx (mkT sx vx).
  Hypothesis VY : tensor_in R64 sy (mkT sy vy).
  Hypothesis VX' : tensor_in R64 sx (mkT sx vx').
  Hypothesis VY' : tensor_in R64 sy (mkT sy vy').

  Let dx := vsub R64 vx' vx.
  Let dy := vsub R64 vy' vy.
  Let F (r : mulrand) : mulrand :=
    let a' := vadd R64 (mr_a r) dx in let b' := vadd R64 (mr_b r) dy in
    mkMR (shift_draws j dx true (mr_x r)) (shift_draws j dy true (mr_y r)) a' b'
      (shift_draws j dx true (mr_ra r)) (shift_draws j dy true (mr_rb r))
      (shift_draws j (vsub R64 (f a' b') (f (mr_a r) (mr_b r))) true (mr_rc r)).
  Let G (r : mulrand) : mulrand :=
    let a := vsub R64 (mr_a r) dx in let b := vsub R64 (mr_b r) dy in
    mkMR (shift_draws j dx false (mr_x r)) (shift_draws j dy false (mr_y r)) a b
      (shift_draws j dx false (mr_ra r)) (shift_draws j dy false (mr_rb r))
      (shift_draws j (vsub R64 (f (mr_a r) (mr_b r)) (f a b)) false (mr_rc r)).

  Lemma d_in sh v v' : tensor_in R64 sh (mkT sh v) -> tensor_in R64 sh (mkT sh v') ->
    length (vsub R64 v' v) = numel sh /\ vec_in R64 (vsub R64 v' v).
  Proof. intros (_ & A & B) (_ & C & D). cbn in *. split; [apply vsub_length; auto|apply vsub_in; auto]. Qed.
  Lemma c_in a b a' b' : length (vsub R64 (f a' b') (f a b)) = numel so /\ vec_in R64 (vsub R64 (f a' b') (f a b)).
  Proof. apply d_in; apply (product_in _ _ _ _ _ _ _ HP). Qed.

  Lemma F_ok r : mulrand_ok n sx sy so r -> mulrand_ok n sx sy so (F r).
  Proof.
    intros (R1 & R2 & R3 & R4 & R5 & R6 & R7). destruct (d_in sx vx vx' VX VX') as [DX1 DX2], (d_in sy vy vy' VY VY') as [DY1 DY2].
    pose proof R3 as (_ & A2 & A3). pose proof R4 as (_ & B2 & B3). cbn [tdat] in *.
    unfold mulrand_ok, F. cbn [mr_x mr_y mr_a mr_b mr_ra mr_rb mr_rc].
    repeat (split; [first [apply shift_draws_ok; auto | split; [reflexivity|]; cbn [tdat]; split; [apply vadd_length; auto | apply vadd_in; auto]]|]).
    apply shift_draws_ok; auto; apply c_in.
  Qed.
  Lemma G_ok r : mulrand_ok n sx sy so r -> mulrand_ok n sx sy so (G r).
  Proof.
    intros (R1 & R2 & R3 & R4 & R5 & R6 & R7). destruct (d_in sx vx vx' VX VX') as [DX1 DX2], (d_in sy vy vy' VY VY') as [DY1 DY2].
    pose proof R3 as (_ & A2 & A3). pose proof R4 as (_ & B2 & B3). cbn [tdat] in *.
    unfold mulrand_ok, G. cbn [mr_x mr_y mr_a mr_b mr_ra mr_rb mr_rc].
    repeat (split; [first [apply shift_draws_ok; auto | split; [reflexivity|]; cbn [tdat]; split; [apply vsub_length; auto | apply vsub_in; auto]]|]).
    apply shift_draws_ok; auto; apply c_in.
  Qed.

  Lemma GF r : mulrand_ok n sx sy so r -> G (F r) = r.
  Proof.
    intros (R1 & R2 & R3 & R4 & R5 & R6 & R7). destruct (d_in sx vx vx' VX VX') as [DX1 DX2], (d_in sy vy vy' VY VY') as [DY1 DY2].
    pose proof R3 as (_ & A2 & A3). pose proof R4 as (_ & B2 & B3). cbn [tdat] in *.
    destruct r as [rx ry a b ra rb rc]. cbn [mr_x mr_y mr_a mr_b mr_ra mr_rb mr_rc] in *.
    unfold G, F. cbn [mr_x mr_y mr_a mr_b mr_ra mr_rb mr_rc].
    rewrite !(vadd_vsub _ dx), !(vadd_vsub _ dy) by (unfold dx, dy; auto; lia).
    rewrite (shift_draws_inv n sx j dx true rx R1 DX1 DX2 : shift_draws j dx false _ = rx).
    rewrite (shift_draws_inv n sy j dy true ry R2 DY1 DY2 : shift_draws j dy false _ = ry).
    rewrite (shift_draws_inv n sx j dx true ra R5 DX1 DX2 : shift_draws j dx false _ = ra).
    rewrite (shift_draws_inv n sy j dy true rb R6 DY1 DY2 : shift_draws j dy false _ = rb).
    f_equal. apply (shift_draws_inv n so j _ true rc R7); apply c_in.
  Qed.
  Lemma FG r : mulrand_ok n sx sy so r -> F (G r) = r.
  Proof.
    intros (R1 & R2 & R3 & R4 & R5 & R6 & R7). destruct (d_in sx vx vx' VX VX') as [DX1 DX2], (d_in sy vy vy' VY VY') as [DY1 DY2].
    pose proof R3 as (_ & A2 & A3). pose proof R4 as (_ & B2 & B3). cbn [tdat] in *.
    destruct r as [rx ry a b ra rb rc]. cbn [mr_x mr_y mr_a mr_b mr_ra mr_rb mr_rc] in *.
    unfold G, F. cbn [mr_x mr_y mr_a mr_b mr_ra mr_rb mr_rc].
    rewrite !(vsub_vadd _ dx), !(vsub_vadd _ dy) by (unfold dx, dy; auto; lia).
    rewrite (shift_draws_inv n sx j dx false rx R1 DX1 DX2 : shift_draws j dx true _ = rx).
    rewrite (shift_draws_inv n sy j dy false ry R2 DY1 DY2 : shift_draws j dy true _ = ry).
    rewrite (shift_draws_inv n sx j dx false ra R5 DX1 DX2 : shift_draws j dx true _ = ra).
    rewrite (shift_draws_inv n sy j dy false rb R6 DY1 DY2 : shift_draws j dy true _ = rb).
    f_equal. apply (shift_draws_inv n so j _ false rc R7); apply c_in.
  Qed.

  Lemma gen_of_shift sh v rnd ss : tensor_in R64 sh (mkT sh v) -> draws R64 n sh rnd ->
    generate_shares n (mkT sh v) rnd = Ok ss -> shared R64 sh v ss.
  Proof.
    intros Hv Hr E. destruct (gen_shares n sh v rnd Hn Hv Hr) as (ss' & E' & _ & S). congruence.
  Qed.

  Theorem mul_view_private : exists F G : mulrand -> mulrand,
    (forall r, mulrand_ok n sx sy so r -> mulrand_ok n sx sy so (F r) /\ mulrand_ok n sx sy so (G r) /\
       G (F r) = r /\ F (G r) = r) /\
    (forall r, mulrand_ok n sx sy so r -> exists v,
       mul_view (bop_of op) n j sx sy vx vy r = Ok v /\ mul_view (bop_of op) n j sx sy vx' vy' (F r) = Ok v).
  Proof.
    exists F, G. split.
    { intros r Hr. auto using F_ok, G_ok, GF, FG. }
    intros r Hr. pose proof (F_ok r Hr) as (S1 & S2 & S3 & S4 & S5 & S6 & S7).
    destruct Hr as (R1 & R2 & R3 & R4 & R5 & R6 & R7).
    destruct (d_in sx vx vx' VX VX') as [DX1 DX2], (d_in sy vy vy' VY VY') as [DY1 DY2].
    pose proof R3 as (_ & A2 & A3). pose proof R4 as (_ & B2 & B3).
    pose proof VX as (_ & VX2 & VX3). pose proof VY as (_ & VY2 & VY3).
    pose proof VX' as (_ & VX2' & VX3'). pose proof VY' as (_ & VY2' & VY3'). cbn [tdat] in *.
    unfold mul_view.
    destruct (share_shift n sx vx vx' j _ Hn Hj VX VX' R1) as (xs & xs' & Ex & Ex' & Lx & Lx' & Nx).
    destruct (share_shift n sy vy vy' j _ Hn Hj VY VY' R2) as (ys & ys' & Ey & Ey' & Ly & Ly' & Ny).
    destruct (triple_shift op sx sy so f n j (mr_a r) (mr_b r) (mr_a (F r)) (mr_b (F r)) _ _ _ HP Hn Hj R3 R4 S3 S4 R5 R6 R7)
      as (ts & ts' & Et & Et' & Ot).
    assert (EDX : vsub R64 (mr_a (F r)) (mr_a r) = dx) by (unfold F, dx; cbn [mr_a]; apply vsub_of_vadd; auto; lia).
    assert (EDY : vsub R64 (mr_b (F r)) (mr_b r) = dy) by (unfold F, dy; cbn [mr_b]; apply vsub_of_vadd; auto; lia).
    rewrite EDX, EDY in Et'.
    rewrite Ex, Ey, Et. cbn [rbind].
    change (mr_x (F r)) with (shift_draws j (vsub R64 vx' vx) true (mr_x r)).
    change (mr_y (F r)) with (shift_draws j (vsub R64 vy' vy) true (mr_y r)).
    rewrite Ex', Ey'. cbn [rbind].
    change (get_triples (bop_of op) n (mkT sx (mr_a (F r))) (mkT sy (mr_b (F r))) (mr_ra (F r)) (mr_rb (F r)) (mr_rc (F r)))
      with (get_triples (bop_of op) n (mkT sx (mr_a (F r))) (mkT sy (mr_b (F r))) (shift_draws j dx true (mr_ra r))
        (shift_draws j dy true (mr_rb r)) (shift_draws j (vsub R64 (f (mr_a (F r)) (mr_b (F r))) (f (mr_a r) (mr_b r))) true (mr_rc r))).
    rewrite Et'. cbn [rbind].
    destruct (get_triples_valid op sx sy so f n (mkT sx (mr_a r)) (mkT sy (mr_b r)) _ _ _ HP Hn R3 R4 R5 R6 R7)
      as (ts1 & Et1 & (L1 & _) & T1 & T2).
    assert (ts1 = ts) by congruence. subst ts1. cbn [tdat] in T1, T2.
    destruct (get_triples_valid op sx sy so f n (mkT sx (mr_a (F r))) (mkT sy (mr_b (F r))) _ _ _ HP Hn S3 S4 S5 S6 S7)
      as (ts1 & Et1' & (L1' & _) & T1' & T2').
    assert (ts1 = ts').
    { enough (Ok ts1 = Ok ts') as EE by (injection EE; auto). rewrite <- Et1', <- Et'. reflexivity. }
    subst ts1. cbn [tdat] in T1', T2'.
    pose proof (gen_of_shift sx vx _ xs VX R1 Ex) as SX. pose proof (gen_of_shift sy vy _ ys VY R2 Ey) as SY.
    pose proof (gen_of_shift sx vx' _ xs' VX' S1 Ex') as SX'. pose proof (gen_of_shift sy vy' _ ys' VY' S2 Ey') as SY'.
    rewrite (open_masks_spec (mkM 0 sx xs) (mkM 0 sy ys) ts (mr_a r) (mr_b r) sx sy vx vy) by (cbn [m_shares]; auto; lia).
    rewrite (open_masks_spec (mkM 0 sx xs') (mkM 0 sy ys') ts' (mr_a (F r)) (mr_b (F r)) sx sy vx' vy') by (cbn [m_shares]; auto; lia).
    cbn [rbind]. eexists. split; [reflexivity|].
    rewrite (others_ext xs j xs'), (others_ext ys j ys'), Ot by (try lia; intros; try apply Nx; try apply Ny; lia).
    unfold F. cbn [mr_a mr_b]. unfold dx, dy. rewrite !shift_open by (auto; lia). reflexivity.
  Qed.
End JointView.

(** the opened values determine the random tensors of the triple *)
Lemma open_masks_inj x y ts ts' sx sy vx vy va vb va' vb' :
  shared R64 sx vx (m_shares x) -> shared R64 sy vy (m_shares y) ->
  shared R64 sx va (map tr_a ts) -> shared R64 sy vb (map tr_b ts) ->
  shared R64 sx va' (map tr_a ts') -> shared R64 sy vb' (map tr_b ts') ->
  length (m_shares x) = length ts -> length (m_shares y) = length ts ->
  length (m_shares x) = length ts' -> length (m_shares y) = length ts' ->
  open_masks x y ts = open_masks x y ts' -> va = va' /\ vb = vb'.
Proof.
  intros X Y A B A' B' L1 L2 L1' L2'.
  rewrite (open_masks_spec x y ts va vb sx sy vx vy), (open_masks_spec x y ts' va' vb' sx sy vx vy) by auto.
  intros E. injection E as E1 E2.
  pose proof (shared_vals R64 supR _ _ _ X) as (X1 & X2 & _). pose proof (shared_vals R64 supR _ _ _ Y) as (Y1 & Y2 & _).
  pose proof (shared_vals R64 supR _ _ _ A) as (A1 & A2 & _). pose proof (shared_vals R64 supR _ _ _ B) as (B1 & B2 & _).
  pose proof (shared_vals R64 supR _ _ _ A') as (A1' & A2' & _). pose proof (shared_vals R64 supR _ _ _ B') as (B1' & B2' & _).
  assert (I : forall v a a', length v = length a -> length v = length a' -> vec_in R64 a -> vec_in R64 a' ->
     s_sub R64 v a = s_sub R64 v a' -> a = a').
  { intros v a a' H1 H2 H3 H4 H5. apply vec_eqR; auto; [lia|]. intros e He.
    assert (N : nth e v 0 - nth e a 0 == nth e v 0 - nth e a' 0 [mod R64]) by (rewrite <- !nth_s_sub, H5 by auto; reflexivity).
    apply (eqmod_sub R64 (nth e v 0) (nth e v 0) ltac:(reflexivity)) in N.
    replace (nth e v 0 - (nth e v 0 - nth e a 0)) with (nth e a 0) in N by lia.
    replace (nth e v 0 - (nth e v 0 - nth e a' 0)) with (nth e a' 0) in N by lia. exact N. }
  split; [apply (I vx)|apply (I vy)]; auto; lia.
Qed.
