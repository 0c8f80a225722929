(** C62: back-propagation through a convolution (grad_functions.py:496-607, GradConv2d).
    Specification: S_GradConv ([gradient], [conv1]), S_Bil ([product]), S_Spdz, S_Div. *)
From Coq Require Import QArith.
From Verif Require Import Util Modular S_Ring S_Tensor S_Wraps S_Div S_Bil S_Spdz S_View S_Module S_GradConv
  M_Torch M_Encoder M_Tensor M_Share M_Spdz M_Conv M_GradConv
  L_Torch L_Tensor L_Share L_Spdz L_Div L_Bil L_Mul L_View L_Circuit L_Rep6 L_Conv L_Module2 L_GradConv P_Mul.
Local Open Scope Z_scope.

(** C62.  The full statement: for every convolution that can be computed, the two results of
    backward are the gradients with respect to the input and to the weight.
    Proved here: one image, one channel, any number of square kernels, any stride and dilation, no
    padding, and an image of which the convolution uses every row and column; integer sessions (at
    other precisions C62_fixed_partial).  Missing: several images or channels, groups, padding,
    kernels that are not square, images with unused rows: for all of these it is false (below). *)
Theorem C62_gradient_partial : forall s st d o k oh ow x w g vx vw vg ts1 ts2 prim1 prim2 other,
  let h := ((oh - 1) * st + d * (k - 1) + 1)%nat in
  let wd := ((ow - 1) * st + d * (k - 1) + 1)%nat in
  c_prec (s_cfg s) = 0%nat -> 0 < c_base (s_cfg s) -> (2 <= s_n s)%nat ->
  (0 < st)%nat -> (0 < d)%nat -> (0 < oh)%nat -> (0 < ow)%nat -> (0 < k)%nat ->
  sharing_of s [1; 1; h; wd]%nat vx x -> sharing_of s [o; 1; k; k]%nat vw w -> sharing_of s [1; o; oh; ow]%nat vg g ->
  valid_triples [1; o; oh; ow]%nat [o; 1; k; k]%nat [1; 1; h; wd]%nat (convT_val st 0 d 1 1 o oh ow 1 k k h wd) (s_n s) ts1 ->
  valid_triples [1; 1; h; wd]%nat [o; 1; oh; ow]%nat [1; o; k; k]%nat (conv_val d 0 st 1 1 1 h wd o 1 oh ow k k) (s_n s) ts2 ->
  any_masks (s_n s) [1; 1; h; wd]%nat (fst prim1) (snd prim1) -> any_masks (s_n s) [1; o; k; k]%nat (fst prim2) (snd prim2) ->
  exists gx gw vgx vgw, conv_backward s x w st 0 d 1 ts1 ts2 prim1 prim2 other g = Ok (gx, gw) /\
    sharing_of s [1; 1; h; wd]%nat vgx gx /\ sharing_of s [o; 1; k; k]%nat vgw gw /\
    gradient [1; 1; h; wd]%nat (fun dx => conv1 st d o k k oh ow dx vw) vg vgx /\
    gradient [o; 1; k; k]%nat (fun dw => conv1 st d o k k oh ow vx dw) vg vgw.
Proof.
  intros s st d o k oh ow x w g vx vw vg ts1 ts2 prim1 prim2 other h wd Hp Hc Hn Hst Hd Hoh How Hk GX GW GG T1 T2 M1 M2.
  destruct (prod1' st d o k k oh ow Hst Hd Hoh How Hk Hk) as (so1 & f1 & P1).
  destruct (prod2' st d o k k oh ow Hst Hoh How) as (so2 & f2 & P2).
  pose proof (prod1 st d o k k oh ow Hst Hd Hoh How Hk Hk) as Q1. pose proof (prod2 st d o k k oh ow Hst Hd Hoh How Hk Hk) as Q2.
  fold h wd in Q1, Q2, P2.
  destruct (backward_steps s st d o k k oh ow x w g vx vw vg Hst Hd Hoh How Hk Hk GX GW GG) as (x' & g' & GX' & GG' & HB).
  fold h wd in GX', HB.
  destruct (prec0_bil' s _ _ _ _ _ _ f1 g w vg vw ts1 prim1 Hp Hc Hn Q1 P1 GG GW T1 M1) as (gx & E1 & R1).
  destruct (prec0_bil' s _ _ _ _ _ _ f2 x' g' vx vg ts2 prim2 Hp Hc Hn Q2 P2 GX' GG' T2 M2) as (r & E2 & R2).
  destruct (HB ts1 ts2 prim1 prim2 other gx r _ E1 E2 R2) as (r' & R' & ->).
  destruct (narrow_all s 2 k _ _ _ _ _ _ (or_introl (conj eq_refl eq_refl)) R') as (r2 & EN2 & RN2).
  destruct (narrow_all s 3 k _ _ _ _ _ _ (or_intror (conj eq_refl eq_refl)) RN2) as (r3 & EN3 & RN3).
  destruct (good_vals _ _ _ _ GG) as (LG & _).
  exists gx, r3. eexists. eexists. split.
  { rewrite views_app, EN2. cbn [rbind]. rewrite EN3. reflexivity. }
  split; [exact R1|]. split; [exact RN3|]. split; [apply gx_gradient; auto|apply gw_gradient; auto].
Qed.
Print Assumptions C62_gradient_partial.

(* stride 2, two 2x2 kernels, a 4x4 image, two parties *)
Definition C62_s : sess := mkS 3 2 (mkConfig 2 0).
Definition C62_x : mpc := mkM 3 [1;1;4;4]%nat [mkT [1;1;4;4]%nat (map Z.of_nat (seq 0 16)); mkT [1;1;4;4]%nat (repeat (-5) 16)].
Definition C62_w : mpc := mkM 3 [2;1;2;2]%nat [mkT [2;1;2;2]%nat [1; 0; 7; 1; 2; 2; 2; 2]; mkT [2;1;2;2]%nat [0; 1; -9; 2^62; 3; 1; 4; 1]].
Definition C62_g : mpc := mkM 3 [1;2;2;2]%nat [mkT [1;2;2;2]%nat [1; 2; 3; 4; 5; 6; 7; 8]; mkT [1;2;2;2]%nat [0; -3; 1; 0; 0; 0; 1; -9]].
Definition C62_cT : bspec := SConvT 2 0 1 1.
Definition C62_cv : bspec := SConv 1 0 2 1.
Definition C62_ts1 : list triple :=
  match get_triples (bop_of C62_cT) 2 (mkT [1;2;2;2]%nat (repeat 3 8)) (mkT [2;1;2;2]%nat [1;2;3;4;5;6;7;8])
          [repeat 9 8] [repeat 4 8] [repeat 1 16] with Ok ts => ts | Err _ => [] end.
Definition C62_ts2 : list triple :=
  match get_triples (bop_of C62_cv) 2 (mkT [1;1;4;4]%nat (repeat 3 16)) (mkT [2;1;2;2]%nat [1;2;3;4;5;6;7;8])
          [repeat 9 16] [repeat 4 8] [repeat 1 8] with Ok ts => ts | Err _ => [] end.
Example C62_witness :
  sharing_of C62_s [1;1;4;4]%nat (map (fun i => Z.of_nat i - 5) (seq 0 16)) C62_x /\
  sharing_of C62_s [2;1;2;2]%nat [1; 1; -2; 2^62 + 1; 5; 3; 6; 3] C62_w /\
  sharing_of C62_s [1;2;2;2]%nat [1; -1; 4; 4; 5; 6; 8; -1] C62_g /\
  valid_triples [1;2;2;2]%nat [2;1;2;2]%nat [1;1;4;4]%nat (convT_val 2 0 1 1 1 2 2 2 1 2 2 4 4) 2 C62_ts1 /\
  valid_triples [1;1;4;4]%nat [2;1;2;2]%nat [1;2;2;2]%nat (conv_val 1 0 2 1 1 1 4 4 2 1 2 2 2 2) 2 C62_ts2 /\
  (do r <- conv_backward C62_s C62_x C62_w 2 0 1 1 C62_ts1 C62_ts2 ([], []) ([], []) (fun _ => Err ValueError) C62_g;
   do gx <- reconstruct (fst r); do gw <- reconstruct (snd r); Ok (firstn 4 (tdat gx), gw)) =
  (* the first kernel: 1*x00 - x02 + 4*x20 + 4*x22 and so on *)
  Ok ([1 + 25; 1 + 15; -1 + 30; -1 + 18], mkT [2;1;2;2]%nat
    [-5 + 3 + 4 * 3 + 4 * 5; -4 + 2 + 4 * 4 + 4 * 6; -1 - 1 + 4 * 7 + 4 * 9; 0 - 2 + 4 * 8 + 4 * 10;
     5 * -5 + 6 * -3 + 8 * 3 - 5; 5 * -4 + 6 * -2 + 8 * 4 - 6; 5 * -1 + 6 * 1 + 8 * 7 - 9; 0 + 6 * 2 + 8 * 8 - 10]).
Proof.
  split; [do 3 (split; [reflexivity|]); apply sharedb_ok; vm_compute; reflexivity|].
  split; [do 3 (split; [reflexivity|]); apply sharedb_ok; vm_compute; reflexivity|].
  split; [do 3 (split; [reflexivity|]); apply sharedb_ok; vm_compute; reflexivity|].
  split.
  { pose proof (prod1 2 1 2 2 2 2 2 ltac:(lia) ltac:(lia) ltac:(lia) ltac:(lia) ltac:(lia) ltac:(lia)) as HP.
    destruct (get_triples_valid C62_cT _ _ _ _ 2 (mkT [1;2;2;2]%nat (repeat 3 8)) (mkT [2;1;2;2]%nat [1;2;3;4;5;6;7;8])
      [repeat 9 8] [repeat 4 8] [repeat 1 16] HP) as (ts & E & V & _); try (repeat constructor; fail).
    unfold C62_ts1. rewrite E. exact V. }
  split.
  { pose proof (prod2 2 1 2 2 2 2 2 ltac:(lia) ltac:(lia) ltac:(lia) ltac:(lia) ltac:(lia) ltac:(lia)) as HP.
    destruct (get_triples_valid C62_cv _ _ _ _ 2 (mkT [1;1;4;4]%nat (repeat 3 16)) (mkT [2;1;2;2]%nat [1;2;3;4;5;6;7;8])
      [repeat 9 16] [repeat 4 8] [repeat 1 8] HP) as (ts & E & V & _); try (repeat constructor; fail).
    unfold C62_ts2. rewrite E. exact V. }
  vm_compute. reflexivity.
Qed.

(** C62 at any precision: the same values, each divided by the scale (once, as the products are),
    when the two divisions are accurate ([divisible], see C10). *)
Theorem C62_fixed_partial : forall s st d o k oh ow x w g vx vw vg ts1 ts2 prim1 prim2 other,
  let h := ((oh - 1) * st + d * (k - 1) + 1)%nat in
  let wd := ((ow - 1) * st + d * (k - 1) + 1)%nat in
  let sc := scale (s_cfg s) in
  let err := Z.of_nat (s_n s) * (sc - 1) + 2 * (Z.of_nat (s_n s) + 1) * (2^62 mod sc) in
  0 < c_base (s_cfg s) -> (2 <= s_n s)%nat ->
  (0 < st)%nat -> (0 < d)%nat -> (0 < oh)%nat -> (0 < ow)%nat -> (0 < k)%nat ->
  sharing_of s [1; 1; h; wd]%nat vx x -> sharing_of s [o; 1; k; k]%nat vw w -> sharing_of s [1; o; oh; ow]%nat vg g ->
  valid_triples [1; o; oh; ow]%nat [o; 1; k; k]%nat [1; 1; h; wd]%nat (convT_val st 0 d 1 1 o oh ow 1 k k h wd) (s_n s) ts1 ->
  valid_triples [1; 1; h; wd]%nat [o; 1; oh; ow]%nat [1; o; k; k]%nat (conv_val d 0 st 1 1 1 h wd o 1 oh ow k k) (s_n s) ts2 ->
  exists x' g' ws1 ws2 vgx vgw,
    sharing_of s [1; 1; h; wd]%nat vx x' /\ sharing_of s [o; 1; oh; ow]%nat vg g' /\
    run_mul (mul_parties_raw (BConvT (mkConv st 0 d 1))) g w ts1 = Ok ws1 /\
    run_mul (mul_parties_raw (BConv2d (mkConv d 0 st 1))) x' g' ts2 = Ok ws2 /\
    gradient [1; 1; h; wd]%nat (fun dx => conv1 st d o k k oh ow dx vw) vg vgx /\
    gradient [o; 1; k; k]%nat (fun dw => conv1 st d o k k oh ow vx dw) vg vgw /\
    (divisible (c_base (s_cfg s)) (c_prec (s_cfg s)) (s_n s) [1; 1; h; wd]%nat vgx ws1 sc (fst prim1) (snd prim1) ->
     divisible (c_base (s_cfg s)) (c_prec (s_cfg s)) (s_n s) [1; o; k; k]%nat vgw ws2 sc (fst prim2) (snd prim2) ->
     exists gx gw vx' vw', conv_backward s x w st 0 d 1 ts1 ts2 prim1 prim2 other g = Ok (gx, gw) /\
       sharing_of s [1; 1; h; wd]%nat vx' gx /\ sharing_of s [o; 1; k; k]%nat vw' gw /\
       (forall e, (e < numel [1; 1; h; wd])%nat -> quot_within sc (nth e vgx 0) (nth e vx' 0) err) /\
       (forall e, (e < numel [o; 1; k; k])%nat -> quot_within sc (nth e vgw 0) (nth e vw' 0) err)).
Proof.
  intros s st d o k oh ow x w g vx vw vg ts1 ts2 prim1 prim2 other h wd sc err Hc Hn Hst Hd Hoh How Hk GX GW GG T1 T2.
  destruct (prod1' st d o k k oh ow Hst Hd Hoh How Hk Hk) as (so1 & f1 & P1).
  destruct (prod2' st d o k k oh ow Hst Hoh How) as (so2 & f2 & P2).
  pose proof (prod1 st d o k k oh ow Hst Hd Hoh How Hk Hk) as Q1. pose proof (prod2 st d o k k oh ow Hst Hd Hoh How Hk Hk) as Q2.
  fold h wd in Q1, Q2, P2.
  destruct (backward_steps s st d o k k oh ow x w g vx vw vg Hst Hd Hoh How Hk Hk GX GW GG) as (x' & g' & GX' & GG' & HB).
  fold h wd in GX', HB. destruct (good_vals _ _ _ _ GG) as (LG & _).
  pose proof GG as (G1 & G2 & G3 & G4). pose proof GW as (W1 & W2 & W3 & W4).
  pose proof GX' as (X1 & X2 & X3 & X4). pose proof GG' as (H1 & H2 & H3 & H4).
  destruct (C10_rescaled_product s _ _ _ _ _ _ _ g w vg vw ts1 prim1 Hc Hn Q1 P1 G1 W1 G2 W2 G3 W3 G4 W4 T1)
    as (ws1 & E1 & _ & _ & D1).
  destruct (C10_rescaled_product s _ _ _ _ _ _ _ x' g' vx vg ts2 prim2 Hc Hn Q2 P2 X1 H1 X2 H2 X3 H3 X4 H4 T2)
    as (ws2 & E2 & _ & _ & D2).
  exists x', g', ws1, ws2. eexists. eexists. split; [exact GX'|]. split; [exact GG'|]. split; [exact E1|]. split; [exact E2|].
  split; [apply gx_gradient; auto|]. split; [apply gw_gradient; auto|]. intros V1 V2.
  destruct (D1 V1) as (gx & v1 & F1 & A1 & A2 & A3 & A4 & A5).
  destruct (D2 V2) as (r & v2 & F2 & B1 & B2 & B3 & B4 & B5).
  destruct (HB ts1 ts2 prim1 prim2 other gx r v2 F1 F2) as (r' & R' & ->); [split; [exact B1|split; [exact B2|split; [exact B3|exact B4]]]|].
  destruct (narrow_all s 2 k _ _ _ _ _ _ (or_introl (conj eq_refl eq_refl)) R') as (r2 & EN2 & RN2).
  destruct (narrow_all s 3 k _ _ _ _ _ _ (or_intror (conj eq_refl eq_refl)) RN2) as (r3 & EN3 & RN3).
  exists gx, r3, v1, v2. split.
  { rewrite views_app, EN2. cbn [rbind]. rewrite EN3. reflexivity. }
  split; [split; [exact A1|split; [exact A2|split; [exact A3|exact A4]]]|]. split; [exact RN3|].
  split; [exact A5|]. intros e He. apply B5. cbn [numel fold_right] in *. lia.
Qed.
Print Assumptions C62_fixed_partial.

(* x = [[1, 2], [3, 4]], one kernel [[0.5]] with 1 bit after the point, gradient [[1, 1], [1, 1]]; one
   element loses a unit in the division *)
Example C62_fixed_witness :
  let s := mkS 3 2 (mkConfig 2 1) in
  let x := mkM 3 [1;1;2;2]%nat [mkT [1;1;2;2]%nat [1; 2; 3; 4]; mkT [1;1;2;2]%nat [1; 2; 3; 4]] in
  let w := mkM 3 [1;1;1;1]%nat [mkT [1;1;1;1]%nat [3]; mkT [1;1;1;1]%nat [-2]] in
  let g := mkM 3 [1;1;2;2]%nat [mkT [1;1;2;2]%nat [1; 1; 1; 1]; mkT [1;1;2;2]%nat [1; 1; 1; 1]] in
  let ts1 := match get_triples (BConvT (mkConv 1 0 1 1)) 2 (mkT [1;1;2;2]%nat [1;2;3;4]) (mkT [1;1;1;1]%nat [5])
               [[1;1;1;1]] [[2]] [[3;3;3;3]] with Ok t => t | Err _ => [] end in
  let ts2 := match get_triples (BConv2d (mkConv 1 0 1 1)) 2 (mkT [1;1;2;2]%nat [1;2;3;4]) (mkT [1;1;2;2]%nat [5;6;7;8])
               [[1;1;1;1]] [[2;2;2;2]] [[3]] with Ok t => t | Err _ => [] end in
  sharing_of s [1;1;2;2]%nat [2; 4; 6; 8] x /\ sharing_of s [1;1;1;1]%nat [1] w /\ sharing_of s [1;1;2;2]%nat [2; 2; 2; 2] g /\
  valid_triples [1;1;2;2]%nat [1;1;1;1]%nat [1;1;2;2]%nat (convT_val 1 0 1 1 1 1 2 2 1 1 1 2 2) 2 ts1 /\
  valid_triples [1;1;2;2]%nat [1;1;2;2]%nat [1;1;1;1]%nat (conv_val 1 0 1 1 1 1 2 2 1 1 2 2 1 1) 2 ts2 /\
  (do ws1 <- run_mul (mul_parties_raw (BConvT (mkConv 1 0 1 1))) g w ts1; Ok (map (fun e => zsum (col e ws1)) (seq 0 4))) = Ok [2; 2; 2; 2] /\
  (do ws2 <- run_mul (mul_parties_raw (BConv2d (mkConv 1 0 1 1))) x g ts2; Ok (zsum (col 0 ws2))) = Ok 40 /\
  (do r <- conv_backward s x w 1 0 1 1 ts1 ts2 ([], []) ([], []) (fun _ => Err ValueError) g;
   do gx <- reconstruct (fst r); do gw <- reconstruct (snd r); Ok (tdat gx, tdat gw)) = Ok ([1; 1; 0; 1], [20]).
Proof.
  cbn zeta.
  split; [do 3 (split; [reflexivity|]); apply sharedb_ok; vm_compute; reflexivity|].
  split; [do 3 (split; [reflexivity|]); apply sharedb_ok; vm_compute; reflexivity|].
  split; [do 3 (split; [reflexivity|]); apply sharedb_ok; vm_compute; reflexivity|].
  split.
  { split; [reflexivity|]. exists [1; 2; 3; 4], [5]. split; [apply sharedb_ok; vm_compute; reflexivity|].
    split; [apply sharedb_ok; vm_compute; reflexivity|]. apply sharedb_ok; vm_compute; reflexivity. }
  split.
  { split; [reflexivity|]. exists [1; 2; 3; 4], [5; 6; 7; 8]. split; [apply sharedb_ok; vm_compute; reflexivity|].
    split; [apply sharedb_ok; vm_compute; reflexivity|]. apply sharedb_ok; vm_compute; reflexivity. }
  split; [vm_compute; reflexivity|]. split; [vm_compute; reflexivity|]. vm_compute. reflexivity.
Qed.

(** Several images or several channels: backward always fails (the product for the weight uses one
    group for each of them, and the shape is computed without that argument). *)
Theorem C62_batch_fails : forall s x w g nb c h wd sw sg st p d groups ts1 ts2 prim1 prim2 other,
  m_shape x = [nb; c; h; wd] -> m_shape w = sw -> m_shape g = sg -> (nb * c <> 1)%nat ->
  exists e, conv_backward s x w st p d groups ts1 ts2 prim1 prim2 other g = Err e.
Proof.
  intros s x w g nb c h wd sw sg st p d groups ts1 ts2 prim1 prim2 other HX HW HG H. unfold conv_backward. rewrite HX, HW, HG.
  destruct sw as [|? [|? [|kh [|kw [|]]]]]; eauto. destruct sg as [|gn [|o [|oh [|ow [|]]]]]; eauto.
  destruct (grad_pad h oh kh st p d) as [q1|]; cbn [rbind]; eauto. destruct (grad_pad wd ow kw st p d) as [q2|]; cbn [rbind]; eauto.
  match goal with |- context [rbind ?b _] => destruct b as [gx|]; cbn [rbind]; eauto end.
  destruct (Nat.eqb groups 0); eauto. destruct (mpc_views _ g) as [g1|]; cbn [rbind]; eauto.
  destruct (m_shape g1) as [|a [|b [|e [|f [|]]]]]; cbn [rbind]; eauto.
  unfold mpc_view at 1. destruct (rmap _ (m_shares g1)) as [gs|]; cbn [rbind]; eauto.
  destruct (view_index _ (m_shape g1)) as [[sg2 ig]|] eqn:EV; cbn [rbind]; eauto.
  unfold mpc_view at 1. destruct (rmap _ (m_shares x)) as [xs|]; cbn [rbind]; eauto.
  destruct (view_index _ (m_shape x)) as [[sx2 ixx]|] eqn:EX; cbn [rbind]; eauto.
  assert (sg2 = [(a * b)%nat; 1%nat; e; f]).
  { cbn [view_index] in EV. destruct (Nat.eqb _ _); [injection EV as <- _; reflexivity|discriminate]. }
  assert (sx2 = [1%nat; (nb * c)%nat; h; wd]).
  { cbn [view_index] in EX. destruct (Nat.eqb _ _); [injection EX as <- _; reflexivity|discriminate]. }
  subst. cbn [fst]. unfold mpc_conv, mpc_bil. destruct (negb _); cbn [rbind]; eauto.
  destruct (mul_master _ _ _ _ _); cbn [rbind]; eauto. cbn [no_kwargs m_shape].
  replace (shape_bil (BConv2d conv_default) [1; nb * c; h; wd] [a * b; 1; e; f])%nat with (@Err (list nat) RuntimeError); [cbn [rbind]; eauto|].
  unfold shape_bil. cbn [bil_index]. unfold conv2d_index. cbn [conv_default cv_groups cv_stride cv_pad cv_dil].
  destruct (Nat.eqb_spec (nb * c) (1 * 1)) as [E|E]; [exfalso; apply H; rewrite E; reflexivity|].
  rewrite ?andb_false_r. cbn [andb]. rewrite ?andb_false_r. cbn [andb]. reflexivity.
Qed.
Print Assumptions C62_batch_fails.

(* two images, one channel, one 1x1 kernel: the forward pass works *)
Theorem C62_batch_refuted : exists s x w g ts ts1 ts2,
  s_n s = 2%nat /\ sharing_of s [2;1;1;1]%nat [7; 8] x /\ sharing_of s [1;1;1;1]%nat [3] w /\ sharing_of s [2;1;1;1]%nat [1; 1] g /\
  (do z <- gconv_forward s x w NoBias 1 0 1 1 ts ([], []); reconstruct z) = Ok (mkT [2;1;1;1]%nat [21; 24]) /\
  valid_triples [2;1;1;1]%nat [1;1;1;1]%nat [2;1;1;1]%nat (convT_val 1 0 1 1 2 1 1 1 1 1 1 1 1) 2 ts1 /\
  valid_triples [1;2;1;1]%nat [2;1;1;1]%nat [1;2;1;1]%nat (conv_val 1 0 1 2 1 2 1 1 2 1 1 1 1 1) 2 ts2 /\
  forall other, conv_backward s x w 1 0 1 1 ts1 ts2 ([], []) ([], []) other g = Err RuntimeError.
Proof.
  exists C62_s, (mkM 3 [2;1;1;1]%nat [mkT [2;1;1;1]%nat [1; 2]; mkT [2;1;1;1]%nat [6; 6]]),
    (mkM 3 [1;1;1;1]%nat [mkT [1;1;1;1]%nat [1]; mkT [1;1;1;1]%nat [2]]),
    (mkM 3 [2;1;1;1]%nat [mkT [2;1;1;1]%nat [0; 0]; mkT [2;1;1;1]%nat [1; 1]]),
    [(mkT [2;1;1;1]%nat [3; 4], mkT [1;1;1;1]%nat [5], mkT [2;1;1;1]%nat [20; 21]);
     (mkT [2;1;1;1]%nat [1; 2], mkT [1;1;1;1]%nat [2], mkT [2;1;1;1]%nat [8; 21])],
    [(mkT [2;1;1;1]%nat [3; 4], mkT [1;1;1;1]%nat [5], mkT [2;1;1;1]%nat [20; 21]);
     (mkT [2;1;1;1]%nat [1; 2], mkT [1;1;1;1]%nat [2], mkT [2;1;1;1]%nat [8; 21])],
    [(mkT [1;2;1;1]%nat [3; 4], mkT [2;1;1;1]%nat [5; 6], mkT [1;2;1;1]%nat [20; 21]);
     (mkT [1;2;1;1]%nat [1; 2], mkT [2;1;1;1]%nat [2; 3], mkT [1;2;1;1]%nat [8; 33])].
  split; [reflexivity|].
  split; [do 3 (split; [reflexivity|]); apply sharedb_ok; vm_compute; reflexivity|].
  split; [do 3 (split; [reflexivity|]); apply sharedb_ok; vm_compute; reflexivity|].
  split; [do 3 (split; [reflexivity|]); apply sharedb_ok; vm_compute; reflexivity|].
  split; [vm_compute; reflexivity|]. split.
  { split; [reflexivity|]. exists [4; 6], [7]. split; [apply sharedb_ok; vm_compute; reflexivity|].
    split; [apply sharedb_ok; vm_compute; reflexivity|]. apply sharedb_ok; vm_compute; reflexivity. }
  split.
  { split; [reflexivity|]. exists [4; 6], [7; 9]. split; [apply sharedb_ok; vm_compute; reflexivity|].
    split; [apply sharedb_ok; vm_compute; reflexivity|]. apply sharedb_ok; vm_compute; reflexivity. }
  intros other. vm_compute. reflexivity.
Qed.
Print Assumptions C62_batch_refuted.

(** Kernels that are not square: backward always fails (the height and the width of the kernel are
    exchanged in the final narrowing). *)
Lemma view_fails s m sh v x e : (0 < s_n s)%nat -> good s sh v x -> view_index m sh = Err e -> exists e, mpc_view m x = Err e.
Proof.
  intros Hn (X1 & X2 & X3 & X4 & X5 & X6) HV. unfold mpc_view. destruct (m_shares x) as [|t r]; [cbn in X3; lia|].
  cbn [rmap]. inversion X5 as [|? ? (T1 & _) _]; subst. unfold tview at 1. rewrite T1, HV. cbn [rbind]. eauto.
Qed.
Theorem C62_kernel_fails : forall s st d o kh kw oh ow x w g vx vw vg ts1 ts2 prim1 prim2 other,
  let h := ((oh - 1) * st + d * (kh - 1) + 1)%nat in
  let wd := ((ow - 1) * st + d * (kw - 1) + 1)%nat in
  0 < c_base (s_cfg s) -> (2 <= s_n s)%nat -> kh <> kw ->
  (0 < st)%nat -> (0 < d)%nat -> (0 < oh)%nat -> (0 < ow)%nat -> (0 < kh)%nat -> (0 < kw)%nat ->
  sharing_of s [1; 1; h; wd]%nat vx x -> sharing_of s [o; 1; kh; kw]%nat vw w -> sharing_of s [1; o; oh; ow]%nat vg g ->
  valid_triples [1; o; oh; ow]%nat [o; 1; kh; kw]%nat [1; 1; h; wd]%nat (convT_val st 0 d 1 1 o oh ow 1 kh kw h wd) (s_n s) ts1 ->
  valid_triples [1; 1; h; wd]%nat [o; 1; oh; ow]%nat [1; o; kh; kw]%nat (conv_val d 0 st 1 1 1 h wd o 1 oh ow kh kw) (s_n s) ts2 ->
  any_masks (s_n s) [1; 1; h; wd]%nat (fst prim1) (snd prim1) -> any_masks (s_n s) [1; o; kh; kw]%nat (fst prim2) (snd prim2) ->
  exists e, conv_backward s x w st 0 d 1 ts1 ts2 prim1 prim2 other g = Err e.
Proof.
  intros s st d o kh kw oh ow x w g vx vw vg ts1 ts2 prim1 prim2 other h wd Hc Hn HK Hst Hd Hoh How Hkh Hkw GX GW GG T1 T2 M1 M2.
  destruct (prod1' st d o kh kw oh ow Hst Hd Hoh How Hkh Hkw) as (so1 & f1 & P1).
  destruct (prod2' st d o kh kw oh ow Hst Hoh How) as (so2 & f2 & P2).
  pose proof (prod1 st d o kh kw oh ow Hst Hd Hoh How Hkh Hkw) as Q1. pose proof (prod2 st d o kh kw oh ow Hst Hd Hoh How Hkh Hkw) as Q2.
  fold h wd in Q1, Q2, P2.
  destruct (backward_steps s st d o kh kw oh ow x w g vx vw vg Hst Hd Hoh How Hkh Hkw GX GW GG) as (x' & g' & GX' & GG' & HB).
  fold h wd in GX', HB.
  pose proof GG as (G1 & G2 & G3 & G4). pose proof GW as (W1 & W2 & W3 & W4).
  pose proof GX' as (X1 & X2 & X3 & X4). pose proof GG' as (H1 & H2 & H3 & H4).
  destruct (bil_returns s _ _ _ _ _ _ _ g w vg vw ts1 prim1 Hc Hn Q1 P1 G1 W1 G2 W2 G3 W3 G4 W4 T1 M1) as (gx & v1 & F1 & _).
  destruct (bil_returns s _ _ _ _ _ _ _ x' g' vx vg ts2 prim2 Hc Hn Q2 P2 X1 H1 X2 H2 X3 H3 X4 H4 T2 M2) as (r & v2 & F2 & B1 & B2 & B3 & B4).
  destruct (HB ts1 ts2 prim1 prim2 other gx r v2 F1 F2) as (r' & R' & ->); [split; [exact B1|split; [exact B2|split; [exact B3|exact B4]]]|].
  destruct (good_view s (VTranspose 0 2) _ _ _ _ _ (vw_transpose 0 2 [o; 1; kh; kw]%nat ltac:(cbn; lia) ltac:(cbn; lia)) R') as (r1 & E1 & R1).
  change (exchange 0 2 [o; 1; kh; kw]%nat) with [kh; 1; o; kw]%nat in R1.
  rewrite views_app. unfold narrow at 1. cbn [mpc_views]. rewrite E1. cbn [rbind].
  destruct (Nat.leb_spec kw kh) as [L|L].
  - destruct (good_view s (VNarrow0 0 kw) _ _ _ _ _ (vw_narrow 0 kw kh [1; o; kw]%nat L) R1) as (r2 & E2 & R2).
    rewrite E2. cbn [rbind].
    destruct (good_view s (VTranspose 0 2) _ _ _ _ _ (vw_transpose 0 2 [kw; 1; o; kw]%nat ltac:(cbn; lia) ltac:(cbn; lia)) R2) as (r3 & E3 & R3).
    rewrite E3. cbn [rbind]. change (exchange 0 2 [kw; 1; o; kw]%nat) with [o; 1; kw; kw]%nat in R3.
    destruct (good_view s (VTranspose 0 3) _ _ _ _ _ (vw_transpose 0 3 [o; 1; kw; kw]%nat ltac:(cbn; lia) ltac:(cbn; lia)) R3) as (r4 & E4 & R4).
    unfold narrow. cbn [mpc_views]. rewrite E4. cbn [rbind]. change (exchange 0 3 [o; 1; kw; kw]%nat) with [kw; 1; kw; o]%nat in R4.
    destruct (view_fails s (VNarrow0 0 kh) _ _ r4 RuntimeError ltac:(lia) R4) as (e & ->).
    + cbn [view_index]. destruct (Nat.leb_spec (0 + kh) kw); [lia|reflexivity].
    + cbn [rbind]. eauto.
  - destruct (view_fails s (VNarrow0 0 kw) _ _ r1 RuntimeError ltac:(lia) R1) as (e & ->).
    + cbn [view_index]. destruct (Nat.leb_spec (0 + kw) kh); [lia|reflexivity].
    + cbn [rbind]. eauto.
Qed.
Print Assumptions C62_kernel_fails.

(* a 1x2 image and a 1x2 kernel *)
Theorem C62_kernel_refuted : exists s x w g ts ts1 ts2,
  s_n s = 2%nat /\ sharing_of s [1;1;1;2]%nat [7; 8] x /\ sharing_of s [1;1;1;2]%nat [3; 4] w /\ sharing_of s [1;1;1;1]%nat [1] g /\
  (do z <- gconv_forward s x w NoBias 1 0 1 1 ts ([], []); reconstruct z) = Ok (mkT [1;1;1;1]%nat [7 * 3 + 8 * 4]) /\
  valid_triples [1;1;1;1]%nat [1;1;1;2]%nat [1;1;1;2]%nat (convT_val 1 0 1 1 1 1 1 1 1 1 2 1 2) 2 ts1 /\
  valid_triples [1;1;1;2]%nat [1;1;1;1]%nat [1;1;1;2]%nat (conv_val 1 0 1 1 1 1 1 2 1 1 1 1 1 2) 2 ts2 /\
  forall other, conv_backward s x w 1 0 1 1 ts1 ts2 ([], []) ([], []) other g = Err RuntimeError.
Proof.
  exists C62_s, (mkM 3 [1;1;1;2]%nat [mkT [1;1;1;2]%nat [1; 2]; mkT [1;1;1;2]%nat [6; 6]]),
    (mkM 3 [1;1;1;2]%nat [mkT [1;1;1;2]%nat [1; 2]; mkT [1;1;1;2]%nat [2; 2]]),
    (mkM 3 [1;1;1;1]%nat [mkT [1;1;1;1]%nat [0]; mkT [1;1;1;1]%nat [1]]),
    [(mkT [1;1;1;2]%nat [1; 2], mkT [1;1;1;2]%nat [5; 6], mkT [1;1;1;1]%nat [10]);
     (mkT [1;1;1;2]%nat [3; 4], mkT [1;1;1;2]%nat [1; 1], mkT [1;1;1;1]%nat [56])],
    [(mkT [1;1;1;1]%nat [1], mkT [1;1;1;2]%nat [5; 6], mkT [1;1;1;2]%nat [10; 10]);
     (mkT [1;1;1;1]%nat [3], mkT [1;1;1;2]%nat [1; 1], mkT [1;1;1;2]%nat [14; 18])],
    [(mkT [1;1;1;2]%nat [5; 6], mkT [1;1;1;1]%nat [1], mkT [1;1;1;2]%nat [10; 10]);
     (mkT [1;1;1;2]%nat [1; 1], mkT [1;1;1;1]%nat [3], mkT [1;1;1;2]%nat [14; 18])].
  split; [reflexivity|].
  split; [do 3 (split; [reflexivity|]); apply sharedb_ok; vm_compute; reflexivity|].
  split; [do 3 (split; [reflexivity|]); apply sharedb_ok; vm_compute; reflexivity|].
  split; [do 3 (split; [reflexivity|]); apply sharedb_ok; vm_compute; reflexivity|].
  split; [vm_compute; reflexivity|]. split.
  { split; [reflexivity|]. exists [4], [6; 7]. split; [apply sharedb_ok; vm_compute; reflexivity|].
    split; [apply sharedb_ok; vm_compute; reflexivity|]. apply sharedb_ok; vm_compute; reflexivity. }
  split.
  { split; [reflexivity|]. exists [6; 7], [4]. split; [apply sharedb_ok; vm_compute; reflexivity|].
    split; [apply sharedb_ok; vm_compute; reflexivity|]. apply sharedb_ok; vm_compute; reflexivity. }
  intros other. vm_compute. reflexivity.
Qed.
Print Assumptions C62_kernel_refuted.

(** Padding: the gradient of the input has the shape of the padded input (padding is not passed to the
    transposed convolution).  With unused rows the shape is wrong as well: see C62_rows_refuted. *)
Theorem C62_padding_shape : forall s x w g sx sw sg so f c kh kw h wd oh ow nb o st p d groups vg vw ts1 ts2 prim1 prim2 other gx gw,
  0 < c_base (s_cfg s) -> (2 <= s_n s)%nat ->
  sx = [nb; c; h; wd] -> sw = [o; (c / groups)%nat; kh; kw] -> sg = [nb; o; oh; ow] -> (0 < kh)%nat -> (0 < kw)%nat -> (0 < oh)%nat -> (0 < ow)%nat ->
  (h + 2 * p = (oh - 1) * st + d * (kh - 1) + 1)%nat -> (wd + 2 * p = (ow - 1) * st + d * (kw - 1) + 1)%nat ->
  m_shape x = sx -> sharing_of s sw vw w -> sharing_of s sg vg g ->
  product (SConvT st 0 d groups) sg sw so f -> valid_triples sg sw so f (s_n s) ts1 -> any_masks (s_n s) so (fst prim1) (snd prim1) ->
  conv_backward s x w st p d groups ts1 ts2 prim1 prim2 other g = Ok (gx, gw) ->
  nth 2 (m_shape gx) 0%nat = (h + 2 * p)%nat /\ nth 3 (m_shape gx) 0%nat = (wd + 2 * p)%nat.
Proof.
  intros s x w g sx sw sg so f c kh kw h wd oh ow nb o st p d groups vg vw ts1 ts2 prim1 prim2 other gx gw
    Hc Hn -> -> -> Hkh Hkw Hoh How H1 H2 PX GW GG HP HT HM E.
  assert (ST : (0 < st)%nat) by (inversion HP; auto).
  pose proof GG as (G1 & G2 & G3 & G4). pose proof GW as (W1 & W2 & W3 & W4).
  assert (GP : forall a n k, (0 < n)%nat -> (0 < k)%nat -> (a + 2 * p = (n - 1) * st + d * (k - 1) + 1)%nat -> grad_pad a n k st p d = Ok 0%nat).
  { intros a n k Hn' Hk' HA. unfold grad_pad. cbv zeta.
    replace ((Z.of_nat n - 1) * Z.of_nat st - 2 * Z.of_nat p + 1 + Z.of_nat d * (Z.of_nat k - 1)) with (Z.of_nat a).
    2:{ apply (f_equal Z.of_nat) in HA. rewrite !Nat2Z.inj_add, !Nat2Z.inj_mul, !Nat2Z.inj_sub in HA by lia. lia. }
    replace ((Z.of_nat a <? Z.of_nat a) || (Z.of_nat a + Z.of_nat st - 1 <? Z.of_nat a))%bool with false.
    2:{ symmetry. rewrite orb_false_iff, !Z.ltb_ge. lia. }
    rewrite Z.sub_diag. reflexivity. }
  unfold conv_backward in E. rewrite PX, W2, G2 in E. rewrite (GP h oh kh), (GP wd ow kw) in E by auto. cbn [rbind Nat.eqb] in E.
  unfold mpc_conv at 1 in E. destruct (mpc_bil s (BConvT (mkConv st 0 d groups)) g w ts1 prim1) as [gx'|] eqn:EB; [|discriminate].
  cbn [rbind bias_true negb] in E.
  assert (gx' = gx).
  { destruct (Nat.eqb groups 0); [discriminate|].
    repeat match type of E with
    | rbind ?b _ = _ => destruct b; cbn [rbind] in E; [|discriminate]
    | match ?b with _ => _ end = _ => destruct b; try discriminate
    | (if ?b then _ else _) = _ => destruct b; try discriminate
    end. injection E as -> _. reflexivity. }
  subst gx'.
  destruct (returned_bare s (SConvT st 0 d groups) _ _ so f g w ts1 prim1 gx HP G2 W2 EB) as (so' & f' & HP').
  destruct (bil_returns s _ _ _ _ _ _ _ g w vg vw ts1 prim1 Hc Hn HP HP' G1 W1 G2 W2 G3 W3 G4 W4 HT HM) as (z & v1 & F1 & _ & Z2 & _).
  cbn [bop_of] in F1. rewrite EB in F1. injection F1 as <-. rewrite Z2.
  inversion HP as [| | | | | |? ? ? ? ? ? ? og cg ? ? oh' ow' K1 K2 K3 K4 K5 K6 K7 K8 K9 K10 K11]; subst. cbn [nth]. lia.
Qed.
Print Assumptions C62_padding_shape.

(* a 3x3 image, a 3x3 kernel and padding 1: the "gradient" of the image is a 5x5 image *)
Definition C62_pts (op : bop) (n m : nat) : list triple :=
  match get_triples op 2 (mkT [1;1;n;n]%nat (repeat 3 (n * n))) (mkT [1;1;m;m]%nat (repeat 2 (m * m)))
    [repeat 1 (n * n)] [repeat 5 (m * m)] [repeat 7 25] with Ok ts => ts | Err _ => [] end.
Theorem C62_padding_refuted : exists s x w g ts ts1 ts2,
  s_n s = 2%nat /\ sharing_of s [1;1;3;3]%nat [0; 1; 0; 2; 7; 3; 0; 0; 4] x /\
  sharing_of s [1;1;3;3]%nat [1; 2; 3; 4; 5; 6; 7; 8; 9] w /\ sharing_of s [1;1;3;3]%nat [0; 0; 0; 0; 1; 0; 0; 0; 0] g /\
  (do z <- gconv_forward s x w NoBias 1 1 1 1 ts ([], []); do t <- reconstruct z; Ok (tsh t, nth 4 (tdat t) 0)) =
    Ok ([1;1;3;3]%nat, 1 * 2 + 2 * 4 + 7 * 5 + 3 * 6 + 4 * 9) /\
  valid_triples [1;1;3;3]%nat [1;1;3;3]%nat [1;1;5;5]%nat (convT_val 1 0 1 1 1 1 3 3 1 3 3 5 5) 2 ts1 /\
  valid_triples [1;1;3;3]%nat [1;1;3;3]%nat [1;1;3;3]%nat (conv_val 1 1 1 1 1 1 3 3 1 1 3 3 3 3) 2 ts2 /\
  forall other, (do r <- conv_backward s x w 1 1 1 1 ts1 ts2 ([], []) ([], []) other g;
                 do gx <- reconstruct (fst r); do gw <- reconstruct (snd r); Ok (gx, gw)) =
    Ok (mkT [1;1;5;5]%nat [0; 0; 0; 0; 0; 0; 1; 2; 3; 0; 0; 4; 5; 6; 0; 0; 7; 8; 9; 0; 0; 0; 0; 0; 0],
        mkT [1;1;3;3]%nat [0; 1; 0; 2; 7; 3; 0; 0; 4]).
Proof.
  exists C62_s, (mkM 3 [1;1;3;3]%nat [mkT [1;1;3;3]%nat [1; 1; 1; 1; 1; 1; 1; 1; 1]; mkT [1;1;3;3]%nat [-1; 0; -1; 1; 6; 2; -1; -1; 3]]),
    (mkM 3 [1;1;3;3]%nat [mkT [1;1;3;3]%nat [1; 2; 3; 4; 5; 6; 7; 8; 9]; mkT [1;1;3;3]%nat (repeat 0 9)]),
    (mkM 3 [1;1;3;3]%nat [mkT [1;1;3;3]%nat (repeat 4 9); mkT [1;1;3;3]%nat [-4; -4; -4; -4; -3; -4; -4; -4; -4]]),
    (let t := mkT [1;1;3;3]%nat (repeat 0 9) in [(t, t, t); (t, t, t)]),
    (C62_pts (BConvT (mkConv 1 0 1 1)) 3 3),
    (match get_triples (BConv2d (mkConv 1 1 1 1)) 2 (mkT [1;1;3;3]%nat (repeat 3 9)) (mkT [1;1;3;3]%nat (repeat 2 9))
       [repeat 1 9] [repeat 5 9] [repeat 7 9] with Ok ts => ts | Err _ => [] end).
  split; [reflexivity|].
  split; [do 3 (split; [reflexivity|]); apply sharedb_ok; vm_compute; reflexivity|].
  split; [do 3 (split; [reflexivity|]); apply sharedb_ok; vm_compute; reflexivity|].
  split; [do 3 (split; [reflexivity|]); apply sharedb_ok; vm_compute; reflexivity|].
  split; [vm_compute; reflexivity|]. split.
  { split; [reflexivity|]. exists (repeat 3 9), (repeat 2 9). split; [apply sharedb_ok; vm_compute; reflexivity|].
    split; [apply sharedb_ok; vm_compute; reflexivity|]. apply sharedb_ok; vm_compute; reflexivity. }
  split.
  { split; [reflexivity|]. exists (repeat 3 9), (repeat 2 9). split; [apply sharedb_ok; vm_compute; reflexivity|].
    split; [apply sharedb_ok; vm_compute; reflexivity|]. apply sharedb_ok; vm_compute; reflexivity. }
  intros other. vm_compute. reflexivity.
Qed.
Print Assumptions C62_padding_refuted.

(* a 4x4 image, a 3x3 kernel and stride 2, which leaves the last row and column unused: the
   "gradient" of the image is a 1x1 image *)
Theorem C62_rows_refuted : exists s x w g ts1 ts2,
  s_n s = 2%nat /\ sharing_of s [1;1;4;4]%nat (repeat 7 16) x /\ sharing_of s [1;1;3;3]%nat [1; 2; 3; 4; 5; 6; 7; 8; 9] w /\ sharing_of s [1;1;1;1]%nat [1] g /\
  product (SConv 2 0 1 1) [1;1;4;4]%nat [1;1;3;3]%nat [1;1;1;1]%nat (conv_val 2 0 1 1 1 1 4 4 1 1 3 3 1 1) /\
  valid_triples [1;1;1;1]%nat [1;1;3;3]%nat [1;1;1;1]%nat (convT_val 2 1 1 1 1 1 1 1 1 3 3 1 1) 2 ts1 /\
  valid_triples [1;1;4;4]%nat [1;1;1;1]%nat [1;1;4;4]%nat (conv_val 1 0 2 1 1 1 4 4 1 1 1 1 4 4) 2 ts2 /\
  forall other, (do r <- conv_backward s x w 2 0 1 1 ts1 ts2 ([], []) ([], []) other g;
                 do gx <- reconstruct (fst r); do gw <- reconstruct (snd r); Ok (gx, gw)) =
    Ok (mkT [1;1;1;1]%nat [5], mkT [1;1;3;3]%nat (repeat 7 9)).
Proof.
  exists C62_s, (mkM 3 [1;1;4;4]%nat [mkT [1;1;4;4]%nat (repeat 3 16); mkT [1;1;4;4]%nat (repeat 4 16)]),
    (mkM 3 [1;1;3;3]%nat [mkT [1;1;3;3]%nat [1; 2; 3; 4; 5; 6; 7; 8; 9]; mkT [1;1;3;3]%nat (repeat 0 9)]),
    (mkM 3 [1;1;1;1]%nat [mkT [1;1;1;1]%nat [0]; mkT [1;1;1;1]%nat [1]]),
    [(mkT [1;1;1;1]%nat [1], mkT [1;1;3;3]%nat (repeat 2 9), mkT [1;1;1;1]%nat [10]);
     (mkT [1;1;1;1]%nat [3], mkT [1;1;3;3]%nat (repeat 1 9), mkT [1;1;1;1]%nat [2])],
    [(mkT [1;1;4;4]%nat (repeat 5 16), mkT [1;1;1;1]%nat [1], mkT [1;1;4;4]%nat (repeat 10 16));
     (mkT [1;1;4;4]%nat (repeat 1 16), mkT [1;1;1;1]%nat [3], mkT [1;1;4;4]%nat (repeat 14 16))].
  split; [reflexivity|].
  split; [do 3 (split; [reflexivity|]); apply sharedb_ok; vm_compute; reflexivity|].
  split; [do 3 (split; [reflexivity|]); apply sharedb_ok; vm_compute; reflexivity|].
  split; [do 3 (split; [reflexivity|]); apply sharedb_ok; vm_compute; reflexivity|].
  split; [apply (prod_conv 2 0 1 1 1 4 4 1 1 3 3 1 1); cbn; lia|]. split.
  { split; [reflexivity|]. exists [4], (repeat 3 9). split; [apply sharedb_ok; vm_compute; reflexivity|].
    split; [apply sharedb_ok; vm_compute; reflexivity|]. apply sharedb_ok; vm_compute; reflexivity. }
  split.
  { split; [reflexivity|]. exists (repeat 6 16), [4]. split; [apply sharedb_ok; vm_compute; reflexivity|].
    split; [apply sharedb_ok; vm_compute; reflexivity|]. apply sharedb_ok; vm_compute; reflexivity. }
  intros other. vm_compute. reflexivity.
Qed.
Print Assumptions C62_rows_refuted.
