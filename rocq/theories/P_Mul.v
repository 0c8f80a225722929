(** Properties C10 and C11: multiplication with triples.
    Specifications: S_Bil ([product]: the operations element by element), S_Spdz
    ([valid_triples]), S_Div ([divisible], [quot_within]) and S_Priv ([mul_view]). *)
From Verif Require Import Util S_Ring S_Tensor S_Wraps S_Div S_Bil S_Spdz S_Priv
  M_Torch M_Encoder M_Tensor M_Share M_Spdz L_Torch L_Tensor L_Share L_Spdz L_Div L_Bil L_Mul L_Priv.
Local Open Scope Z_scope.

(** C10: with valid triples the protocol gives, before rescaling, shares of the product:
    element-wise with broadcasting, matrix products (stacked too), convolutions and
    transposed convolutions with any stride, padding, dilation, groups. *)
Theorem C10_product_exact : forall op sx sy so f n x y ts vx vy,
  product op sx sy so f -> valid_triples sx sy so f n ts ->
  length (m_shares x) = n -> length (m_shares y) = n ->
  shared (2^64) sx vx (m_shares x) -> shared (2^64) sy vy (m_shares y) ->
  exists zs, run_mul (mul_parties_raw (bop_of op)) x y ts = Ok zs /\ length zs = n /\
    shared (2^64) so (f vx vy) zs.
Proof. exact mul_product. Qed.
Print Assumptions C10_product_exact.

Definition C10_ts : list triple := (* a = [5;-2], b = [7], c = [35;-14], three parties *)
  [(mkT [2%nat] [1; 2], mkT [1%nat] [3], mkT [2%nat] [30; -20]);
   (mkT [2%nat] [2^63 - 1; 0], mkT [1%nat] [3], mkT [2%nat] [5; 5]);
   (mkT [2%nat] [-2^63 + 5; -4], mkT [1%nat] [1], mkT [2%nat] [0; 1])].
Example C10_witness :
  let x := mkM 0 [2%nat] [mkT [2%nat] [10; 20]; mkT [2%nat] [1; 2]; mkT [2%nat] [0; -25]] in
  let y := mkM 0 [1%nat] [mkT [1%nat] [2^63 - 1]; mkT [1%nat] [1]; mkT [1%nat] [4]] in
  product SMul [2%nat] [1%nat] [2%nat] (mul_val [2%nat] [1%nat] [2%nat]) /\
  valid_triples [2%nat] [1%nat] [2%nat] (mul_val [2%nat] [1%nat] [2%nat]) 3 C10_ts /\
  shared (2^64) [2%nat] [11; -3] (m_shares x) /\ shared (2^64) [1%nat] [-2^63 + 4] (m_shares y) /\
  mul_val [2%nat] [1%nat] [2%nat] [11; -3] [-2^63 + 4] = [-2^63 + 44; -2^63 - 12 + 2^64] /\
  (do zs <- run_mul (mul_parties_raw BMul) x y C10_ts; tsum (2^64) zs) =
    Ok (mkT [2%nat] [-2^63 + 44; 2^63 - 12]).
Proof.
  cbn zeta. split; [apply prod_mul; apply bcast_spec; reflexivity|]. split.
  { split; [reflexivity|]. exists [5; -2], [7].
    repeat split; try discriminate; repeat constructor. }
  split; [split; [discriminate|]; split; [repeat constructor|reflexivity]|].
  split; [split; [discriminate|]; split; [repeat constructor|reflexivity]|].
  split; vm_compute; reflexivity.
Qed.

(** C10: the triples the provider generates are valid. *)
Theorem C10_generated_triples : forall op sx sy so f n a b ra rb rc,
  product op sx sy so f -> (2 <= n)%nat ->
  tensor_in (2^64) sx a -> tensor_in (2^64) sy b ->
  draws (2^64) n sx ra -> draws (2^64) n sy rb -> draws (2^64) n so rc ->
  exists ts, get_triples (bop_of op) n a b ra rb rc = Ok ts /\ valid_triples sx sy so f n ts /\
    shared (2^64) sx (tdat a) (map tr_a ts) /\ shared (2^64) sy (tdat b) (map tr_b ts).
Proof. exact get_triples_valid. Qed.
Print Assumptions C10_generated_triples.

Example C10_generated_witness : (* a 1x2 by a 2x1 matrix, two parties *)
  product SMatmul [1;2]%nat [2;1]%nat [1;1]%nat (mm_val [] [] [] 1 2 1) /\
  get_triples BMatmul 2 (mkT [1;2]%nat [3; 4]) (mkT [2;1]%nat [5; 6]) [[100; 200]] [[7; 8]] [[-1]] =
  Ok [(mkT [1;2]%nat [100; 200], mkT [2;1]%nat [7; 8], mkT [1;1]%nat [-1]);
      (mkT [1;2]%nat [-97; -196], mkT [2;1]%nat [-2; -2], mkT [1;1]%nat [40])].
Proof.
  split; [|vm_compute; reflexivity].
  apply (prod_mm [] [] [] 1 2 1). apply bcast_spec. reflexivity.
Qed.

(** C10, as the user sees it: x * y, x @ y, conv2d, conv_transpose2d are the product
    divided by the scale, up to n units in the last place for the usual scales 2^p
    ([2^62 mod scale] is then 0), when the division is accurate ([divisible]). *)
Theorem C10_rescaled_product : forall s op sx sy so so' f f' x y vx vy ts prim,
  0 < c_base (s_cfg s) -> (2 <= s_n s)%nat ->
  product op sx sy so f -> product (bare_op op) sx sy so' f' ->
  m_sid x = s_id s -> m_sid y = s_id s -> m_shape x = sx -> m_shape y = sy ->
  length (m_shares x) = s_n s -> length (m_shares y) = s_n s ->
  shared (2^64) sx vx (m_shares x) -> shared (2^64) sy vy (m_shares y) ->
  valid_triples sx sy so f (s_n s) ts ->
  exists ws, run_mul (mul_parties_raw (bop_of op)) x y ts = Ok ws /\ length ws = s_n s /\
    shared (2^64) so (f vx vy) ws /\
    (divisible (c_base (s_cfg s)) (c_prec (s_cfg s)) (s_n s) so (f vx vy) ws (scale (s_cfg s)) (fst prim) (snd prim) ->
     exists z vz, mpc_bil s (bop_of op) x y ts prim = Ok z /\
       m_sid z = s_id s /\ m_shape z = so /\ length (m_shares z) = s_n s /\
       shared (2^64) so vz (m_shares z) /\
       forall e, (e < numel so)%nat ->
         quot_within (scale (s_cfg s)) (nth e (f vx vy) 0) (nth e vz 0)
           (Z.of_nat (s_n s) * (scale (s_cfg s) - 1) + 2 * (Z.of_nat (s_n s) + 1) * (2^62 mod scale (s_cfg s)))).
Proof.
  intros s op sx sy so so' f f' x y vx vy ts prim Hc Hn HP HP' SX SY PX PY LX LY HX HY HT.
  destruct (mpc_bil_raw s op sx sy so so' f f' Hc Hn HP HP' x y vx vy ts prim SX SY PX PY LX LY HX HY HT)
    as (ws & L & S & R & E).
  exists ws. split; [exact R|]. split; [exact L|]. split; [exact S|]. intros HD.
  destruct (divide_value s (mkM (s_id s) so ws) (scale (s_cfg s)) prim so (f vx vy)) as (z & xs' & vz & EZ & Z1 & Z2 & Z3 & Z4 & Z5);
    auto using scale_pos_2.
  exists z, vz. rewrite E, EZ. cbn [rbind fst]. split; [reflexivity|]. split; [exact Z1|]. split; [exact Z2|].
  split; [exact Z3|]. split; [exact Z4|exact Z5].
Qed.
Print Assumptions C10_rescaled_product.

Example C10_rescaled_witness : (* 1.5 * -2 with 16 bits after the point, two parties *)
  let s := mkS 0 2 default_config in
  let x := mkM 0 [1%nat] [mkT [1%nat] [100000]; mkT [1%nat] [-1696]] in
  let y := mkM 0 [1%nat] [mkT [1%nat] [-131000]; mkT [1%nat] [-72]] in
  let ts := [(mkT [1%nat] [1], mkT [1%nat] [3], mkT [1%nat] [30]);
             (mkT [1%nat] [2], mkT [1%nat] [4], mkT [1%nat] [-9])] in
  valid_triples [1%nat] [1%nat] [1%nat] (mul_val [1%nat] [1%nat] [1%nat]) 2 ts /\
  (do ws <- run_mul (mul_parties_raw BMul) x y ts; Ok (map tdat ws)) = Ok [[-12885032925]; [131037]] /\
  -12885032925 + 131037 = 98304 * -131072 /\
  (do z <- mpc_bil s BMul x y ts ([], []); reconstruct z) = Ok (mkT [1%nat] [-3 * 65536]).
Proof.
  cbn zeta. split.
  { split; [reflexivity|]. exists [3], [7]. repeat split; try discriminate; repeat constructor. }
  split; [vm_compute; reflexivity|]. split; vm_compute; reflexivity.
Qed.

(** C11: the opened values determine the random tensors of the triple, and conversely. *)
Theorem C11_openings_one_to_one : forall x y ts ts' sx sy vx vy va vb va' vb',
  shared (2^64) sx vx (m_shares x) -> shared (2^64) sy vy (m_shares y) ->
  shared (2^64) sx va (map tr_a ts) -> shared (2^64) sy vb (map tr_b ts) ->
  shared (2^64) sx va' (map tr_a ts') -> shared (2^64) sy vb' (map tr_b ts') ->
  length (m_shares x) = length ts -> length (m_shares y) = length ts ->
  length (m_shares x) = length ts' -> length (m_shares y) = length ts' ->
  (open_masks x y ts = open_masks x y ts' <-> va = va' /\ vb = vb').
Proof.
  intros x y ts ts' sx sy vx vy va vb va' vb' X Y A B A' B' L1 L2 L1' L2'. split.
  - apply (open_masks_inj x y ts ts' sx sy vx vy); auto.
  - intros [-> ->].
    rewrite (open_masks_spec x y ts va' vb' sx sy vx vy), (open_masks_spec x y ts' va' vb' sx sy vx vy) by auto.
    reflexivity.
Qed.
Print Assumptions C11_openings_one_to_one.

(** C11: for any two operand pairs and any party j, a one-to-one correspondence of everything
    drawn at random under which all other parties see the same: their shares of the
    operands and of the triple, and both opened tensors. *)
Theorem C11_joint_view : forall op sx sy so f n j, product op sx sy so f -> (2 <= n)%nat -> (j < n)%nat ->
  forall vx vy vx' vy',
  tensor_in (2^64) sx (mkT sx vx) -> tensor_in (2^64) sy (mkT sy vy) ->
  tensor_in (2^64) sx (mkT sx vx') -> tensor_in (2^64) sy (mkT sy vy') ->
  exists F G : mulrand -> mulrand,
    (forall r, mulrand_ok n sx sy so r -> mulrand_ok n sx sy so (F r) /\ mulrand_ok n sx sy so (G r) /\
       G (F r) = r /\ F (G r) = r) /\
    (forall r, mulrand_ok n sx sy so r -> exists v,
       mul_view (bop_of op) n j sx sy vx vy r = Ok v /\ mul_view (bop_of op) n j sx sy vx' vy' (F r) = Ok v).
Proof. exact mul_view_private. Qed.
Print Assumptions C11_joint_view.

Example C11_witness : (* 3 * 4 and 10 * -1 look the same to party 1 *)
  let s := [1%nat] in
  mulrand_ok 2 s s s (mkMR [[50]] [[60]] [5] [6] [[7]] [[8]] [[9]]) /\
  mul_view BMul 2 0 s s [3] [4] (mkMR [[50]] [[60]] [5] [6] [[7]] [[8]] [[9]]) =
  mul_view BMul 2 0 s s [10] [-1] (mkMR [[57]] [[55]] [12] [1] [[14]] [[3]] [[-9]]) /\
  mul_view BMul 2 0 s s [3] [4] (mkMR [[50]] [[60]] [5] [6] [[7]] [[8]] [[9]]) =
  Ok ([mkT s [-47]], [mkT s [-56]], [(mkT s [-2], mkT s [-2], mkT s [21])], (mkT s [-2], mkT s [-2])).
Proof. cbn zeta. split; [repeat split; repeat constructor|]. split; vm_compute; reflexivity. Qed.
