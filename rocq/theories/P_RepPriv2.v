(** Property theorems C84: what the truncation and the malicious verification of a product of
    replicated secrets reveal.  Specification: S_RepPriv2 ([semi_view], [mal_run], [mal_view],
    [mal_fetched]).  As in C04, C11 and C77 the numbers drawn at random range over the whole
    ring. *)
From Coq Require Import QArith.
From Verif Require Import Util Modular S_Ring S_Tensor S_Bil S_Spdz S_Rep S_RepT S_Priv S_RepPriv S_RepPriv2 M_Torch M_Encoder M_Tensor M_Share M_Spdz M_Rep
  L_Torch L_Tensor L_Share L_RShare L_Mul L_Rep L_Rep2 L_Rep3 L_Rep4 L_RepPriv L_RepPriv2.
Local Open Scope Z_scope.

(** C84, semi-honest sessions: for any two pairs of operands in fixed point and any of three
    parties, a one-to-one correspondence of everything drawn at random under which the party
    sees the same: its shares of the operands, the numbers of its generators, its shares of
    the truncated product. *)
Theorem C84_truncated_private : forall s c op sx sy so f k, rs_n s = 3%nat -> product_r (2^64) op sx sy so f ->
  rep_op (2^64) op -> cfg_ok c -> (k < 3)%nat -> forall vx vy vx' vy',
  tensor_in (2^64) sx (mkT sx vx) -> tensor_in (2^64) sy (mkT sy vy) ->
  tensor_in (2^64) sx (mkT sx vx') -> tensor_in (2^64) sy (mkT sy vy') ->
  let ok := fun q : rmulrand * list Z => rmulrand_ok sx sy so (fst q) /\ tensor_in (2^64) so (mkT so (snd q)) in
  exists F G : rmulrand * list Z -> rmulrand * list Z,
    (forall q, ok q -> ok (F q) /\ ok (G q) /\ G (F q) = q /\ F (G q) = q) /\
    (forall q, ok q -> exists w,
       semi_view s c (bop_of op) k sx sy so vx vy (fst q) (snd q) = Ok w /\
       semi_view s c (bop_of op) k sx sy so vx' vy' (fst (F q)) (snd (F q)) = Ok w).
Proof. intros s c op sx sy so f k Hn HP HO Hc Hk. exact (semi_private s c op sx sy so f k Hn HP HO Hc Hk). Qed.
Print Assumptions C84_truncated_private.

(** C84, malicious sessions: the same for the whole multiplication with its verification; the
    party sees besides its shares of the product and of the triple, the numbers of its
    generators used for the triple, and the opened differences. *)
Theorem C84_verified_private : forall s c op sx sy so f k, rs_n s = 3%nat -> product_r (2^64) op sx sy so f ->
  rep_op (2^64) op -> cfg_ok c -> (k < 3)%nat -> forall vx vy vx' vy', (0 < numel so)%nat ->
  tensor_in (2^64) sx (mkT sx vx) -> tensor_in (2^64) sy (mkT sy vy) ->
  tensor_in (2^64) sx (mkT sx vx') -> tensor_in (2^64) sy (mkT sy vy') ->
  exists F G : verand -> verand,
    (forall r, verand_ok sx sy so r -> verand_ok sx sy so (F r) /\ verand_ok sx sy so (G r) /\
       G (F r) = r /\ F (G r) = r) /\
    (forall r, verand_ok sx sy so r -> exists w,
       mal_view s c (bop_of op) k sx sy so vx vy r = Ok w /\ mal_view s c (bop_of op) k sx sy so vx' vy' (F r) = Ok w).
Proof. intros s c op sx sy so f k Hn HP HO Hc Hk. exact (mal_private s c op sx sy so f k Hn HP HO Hc Hk). Qed.
Print Assumptions C84_verified_private.

(** C84: the runs spoken of are the multiplications of falcon.py, and they succeed. *)
Theorem C84_run_is_product : forall s c op sx sy so f vx vy r, rs_n s = 3%nat -> rs_mal s = true ->
  product_r (2^64) op sx sy so f -> rep_op (2^64) op -> cfg_ok c -> (0 < numel so)%nat ->
  tensor_in (2^64) sx (mkT sx vx) -> tensor_in (2^64) sy (mkT sy vy) -> verand_ok sx sy so r ->
  exists v, mal_run s c (bop_of op) sx sy so vx vy r = Ok v /\
    rm_bil s (bop_of op) (v_x v) (v_y v) (mkSup (zero_masks so (rm_c (ve_m r))) (mkT so (ve_r r)) (v_t v)) = Ok (v_w v).
Proof. exact run_is_product. Qed.
Print Assumptions C84_run_is_product.

(** C84: the orchestrator of a malicious session computes the operands of every product from
    what it fetches. *)
Theorem C84_orchestrator_learns_operands : exists learn : list rst * list rst * tensor * tensor -> result (list Z * list Z),
  forall s c op sx sy so f vx vy r, rs_n s = 3%nat -> product_r (2^64) op sx sy so f ->
  rep_op (2^64) op -> cfg_ok c -> (0 < numel so)%nat ->
  tensor_in (2^64) sx (mkT sx vx) -> tensor_in (2^64) sy (mkT sy vy) -> verand_ok sx sy so r ->
  exists q, mal_fetched s c (bop_of op) sx sy so vx vy r = Ok q /\ learn q = Ok (vx, vy).
Proof. exists recover. exact recovers. Qed.
Print Assumptions C84_orchestrator_learns_operands.

Definition C84_s : rsess := mkRS 0 3 (2^64) (mkConfig 2 4) true (fun k => (10 + k)%nat).
Definition C84_c : config := mkConfig 2 4.
Definition C84_r (g t w : Z) (a b : list (list Z)) : verand :=
  mkVR (mkRMR [[50]; [70]] [[60]; [65]] [[7]; [8]; [g]]) a b [[1]; [2]; [t]] [w].
Example C84_witness : (* party 0 sees the same of 3 * 4 and of 10 * -1, in units of 1/16 *)
  let s := [1%nat] in
  exists r' w, verand_ok s s s (C84_r 9 3 1000 [[5]; [6]; [7]] [[8]; [9]; [10]]) /\ verand_ok s s s r' /\
    mal_view C84_s C84_c BMul 0 s s s [48] [64] (C84_r 9 3 1000 [[5]; [6]; [7]] [[8]; [9]; [10]]) = Ok w /\
    mal_view C84_s C84_c BMul 0 s s s [160] [-16] r' = Ok w.
Proof.
  cbn zeta.
  assert (P : product_r (2^64) SMul [1%nat] [1%nat] [1%nat] (mul_vr (2^64) [1%nat] [1%nat] [1%nat])).
  { apply prod_mul_r. split; [reflexivity|]. intros i Hi. cbn in Hi. destruct i; [|lia]. cbn. auto. }
  assert (I : forall v, in_ring (2^64) v -> tensor_in (2^64) [1%nat] (mkT [1%nat] [v])) by (intros v Hv; repeat split; constructor; auto).
  destruct (C84_verified_private C84_s C84_c SMul [1%nat] [1%nat] [1%nat] _ 0 eq_refl P (or_introl eq_refl)
    ltac:(unfold cfg_ok; cbn; lia) ltac:(lia) [48] [64] [160] [-16] ltac:(cbn; lia) (I 48 eq_refl) (I 64 eq_refl) (I 160 eq_refl) (I (-16) eq_refl))
    as (F & G & B & E).
  assert (K : verand_ok [1%nat] [1%nat] [1%nat] (C84_r 9 3 1000 [[5]; [6]; [7]] [[8]; [9]; [10]])) by (repeat split; repeat constructor).
  destruct (E _ K) as (w & E1 & E2). exists (F (C84_r 9 3 1000 [[5]; [6]; [7]] [[8]; [9]; [10]])), w.
  split; [exact K|]. split; [apply (B _ K)|]. split; assumption.
Qed.
Example C84_witness_view :
  let s := [1%nat] in
  mal_view C84_s C84_c BMul 0 s s s [48] [64] (C84_r 9 3 1000 [[5]; [6]; [7]] [[8]; [9]; [10]]) =
    Ok (mkPV [mkT s [50]; mkT s [20]] [mkT s [60]; mkT s [5]] [mkT s [4449]; mkT s [-31]]
         [mkT s [5]; mkT s [6]] [mkT s [8]; mkT s [9]] [mkT s [132]; mkT s [176]] [mkT s [278]; mkT s [-1087]]
         [[7]; [8]] [[1]; [2]] (mkT s [30]) (mkT s [37])).
Proof. vm_compute. reflexivity. Qed.
Example C84_witness_semi : (* party 1 *)
  let s := [1%nat] in
  semi_view C84_s C84_c BMul 1 s s s [48] [64] (mkRMR [[50]; [70]] [[60]; [65]] [[7]; [8]; [9]]) [1000] =
    Ok ([mkT s [20]; mkT s [-22]], [mkT s [5]; mkT s [-1]], [[8]; [9]], [mkT s [-1087]; mkT s [1000]]).
Proof. vm_compute. reflexivity. Qed.
Example C84_witness_fetched : (* the shares of a are 5, 6, 7 and 30 is 48 - 18 *)
  let s := [1%nat] in
  (do q <- mal_fetched C84_s C84_c BMul s s s [48] [64] (C84_r 9 3 1000 [[5]; [6]; [7]] [[8]; [9]; [10]]); recover q) = Ok ([48], [64]).
Proof. vm_compute. reflexivity. Qed.

(** C84 refuted for the orchestrator: no correspondence of the draws makes what it fetches the
    same for two different operands. *)
Theorem C84_orchestrator_refuted : exists s c sh vx vy vx' vy',
  rs_n s = 3%nat /\ tensor_in (2^64) sh (mkT sh vx) /\ tensor_in (2^64) sh (mkT sh vy) /\
  tensor_in (2^64) sh (mkT sh vx') /\ tensor_in (2^64) sh (mkT sh vy') /\
  (exists r q, verand_ok sh sh sh r /\ mal_fetched s c BMul sh sh sh vx vy r = Ok q) /\
  forall r r', verand_ok sh sh sh r -> verand_ok sh sh sh r' ->
    mal_fetched s c BMul sh sh sh vx vy r <> mal_fetched s c BMul sh sh sh vx' vy' r'.
Proof.
  exists C84_s, C84_c, [1%nat], [16], [16], [32], [16].
  assert (I : forall v, in_ring (2^64) v -> tensor_in (2^64) [1%nat] (mkT [1%nat] [v])) by (intros v Hv; repeat split; constructor; auto).
  split; [reflexivity|]. do 4 (split; [apply I; reflexivity|]).
  assert (P : product_r (2^64) SMul [1%nat] [1%nat] [1%nat] (mul_vr (2^64) [1%nat] [1%nat] [1%nat])).
  { apply prod_mul_r. split; [reflexivity|]. intros i Hi. cbn in Hi. destruct i; [|lia]. cbn. auto. }
  assert (K : cfg_ok C84_c) by (unfold cfg_ok; cbn; lia).
  assert (N : (0 < numel [1%nat])%nat) by (cbn; lia).
  split.
  { exists (C84_r 9 3 1000 [[5]; [6]; [7]] [[8]; [9]; [10]]).
    assert (V : verand_ok [1%nat] [1%nat] [1%nat] (C84_r 9 3 1000 [[5]; [6]; [7]] [[8]; [9]; [10]])) by (repeat split; repeat constructor).
    destruct (recovers C84_s C84_c SMul _ _ _ _ [16] [16] _ eq_refl P (or_introl eq_refl) K N (I 16 eq_refl) (I 16 eq_refl) V) as (q & E & _).
    exists q. split; [exact V|exact E]. }
  intros r r' Hr Hr' E.
  destruct (recovers C84_s C84_c SMul _ _ _ _ [16] [16] r eq_refl P (or_introl eq_refl) K N (I 16 eq_refl) (I 16 eq_refl) Hr) as (q & E1 & L1).
  destruct (recovers C84_s C84_c SMul _ _ _ _ [32] [16] r' eq_refl P (or_introl eq_refl) K N (I 32 eq_refl) (I 16 eq_refl) Hr') as (q' & E2 & L2).
  cbn [bop_of] in E1, E2. rewrite E1, E2 in E. injection E as <-. rewrite L1 in L2. discriminate L2.
Qed.
Print Assumptions C84_orchestrator_refuted.
