(** Lemmas about optimiser steps. *)
From Coq Require Import QArith.
From Verif Require Import Util Modular S_Ring S_Tensor S_Wraps S_Div S_Bil S_Spdz S_Optim M_Torch M_Encoder M_Tensor M_Share M_Spdz M_Optim
  L_Torch L_Tensor L_Share L_Spdz L_Div L_Bil L_Mul L_Circuit L_Rsub.
Local Open Scope Z_scope.

(* ------------------------------------------------------ grad * lr *)
Lemma times_shares_ok l sh ts : sh <> [] -> in_ring R64 l -> Forall (tensor_in R64 sh) ts ->
  rmap (fun t => sh_bil BMul t (mkT [1%nat] [l])) ts = Ok (times_shares l sh ts).
Proof.
  intros HS Hl HF. apply rmap_pointwise. intros t Ht. rewrite Forall_forall in HF. destruct (HF t Ht) as (T1 & T2 & T3).
  assert (HP : product SMul sh [1%nat] sh (mul_val sh [1%nat] sh)) by (apply prod_mul, bshape_scalar; auto).
  destruct (product_index _ _ _ _ _ HP) as (ix & EI & HV).
  unfold sh_bil, tbil. rewrite T1. cbn [tsh tdat]. cbn [bop_of] in EI. rewrite EI.
  rewrite (rbil_spec R64 supR); auto; [|constructor; auto; constructor].
  change R64 with (2^64). rewrite HV. change (2^64) with R64. rewrite neg_product by auto. reflexivity.
Qed.

Lemma mul_number s x l vx prim : m_shape x <> [] -> m_sid x = s_id s -> length (m_shares x) = s_n s ->
  shared R64 (m_shape x) vx (m_shares x) -> 0 < c_base (s_cfg s) ->
  divisible (c_base (s_cfg s)) (c_prec (s_cfg s)) (s_n s) (m_shape x) (times (encode1 (s_cfg s) l) vx)
    (times_shares (encode1 (s_cfg s) l) (m_shape x) (m_shares x)) (scale (s_cfg s)) (fst prim) (snd prim) ->
  exists z vz, mpc_bil_public s BMul x (PNum l) prim = Ok z /\
    m_sid z = s_id s /\ m_shape z = m_shape x /\ length (m_shares z) = s_n s /\
    shared R64 (m_shape x) vz (m_shares z) /\
    forall e, (e < numel (m_shape x))%nat ->
      quot_within (scale (s_cfg s)) (nth e (times (encode1 (s_cfg s) l) vx) 0) (nth e vz 0)
        (Z.of_nat (s_n s) * (scale (s_cfg s) - 1) + 2 * (Z.of_nat (s_n s) + 1) * (2^62 mod scale (s_cfg s))).
Proof.
  intros HS HSID HL HX Hb HD. set (sh := m_shape x) in *.
  assert (HP : product SMul sh [1%nat] sh (mul_val sh [1%nat] sh)) by (apply prod_mul, bshape_scalar; auto).
  assert (EI : in_ring R64 (encode1 (s_cfg s) l)).
  { pose proof (encode_in (s_cfg s) [l]) as F. inversion F; auto. }
  destruct (bil_shares_l SMul sh [1%nat] sh _ (m_shares x) vx (mkT [1%nat] [encode1 (s_cfg s) l]) HP HX) as (ws & E & L & S).
  { repeat split; auto. constructor; auto. }
  cbn [bop_of] in E. rewrite (times_shares_ok _ sh) in E by (auto; apply HX). injection E as EW.
  pose proof (shared_vals R64 supR _ _ _ HX) as (VL & VI & _).
  cbn [tdat] in S. change (2^64) with R64 in S. rewrite neg_product in S by auto.
  fold (times (encode1 (s_cfg s) l) vx) in S. rewrite EW in HD.
  assert (EM : mpc_bil_public s BMul x (PNum l) prim =
    (do r <- public_divide s (mkM (s_id s) sh ws) (scale (s_cfg s)) prim; Ok (fst r))).
  { unfold mpc_bil_public. cbn [share_init]. rewrite (times_shares_ok _ sh) by (auto; apply HX). cbn [rbind].
    assert (ESH := shape_of_product _ _ _ _ _ HP). cbn [bop_of] in ESH. cbn [pub_shape]. fold sh. rewrite ESH, HSID, EW. reflexivity. }
  destruct (divide_value s (mkM (s_id s) sh ws) (scale (s_cfg s)) prim sh (times (encode1 (s_cfg s) l) vx))
    as (z & xs' & vz & EZ & Z1 & Z2 & Z3 & Z4 & Z5); auto using scale_pos_2.
  { cbn [m_shares]. congruence. }
  exists z, vz. rewrite EM, EZ. cbn [rbind fst]. auto 10.
Qed.

(* ------------------------------------------------------ one step *)
(** (not code) the object [o] is a parameter with value [v] and gradient [g] (as integers)
    whose product with [lr] is divided accurately *)
Definition trainable (s : sess) (lr : num) (prim : list tensor * list tensor) (o : option pobj) (v g : list Z) : Prop :=
  exists p gr, o = Some p /\ p_grad p = Some gr /\ m_sid (p_val p) = s_id s /\ m_sid gr = s_id s /\
    m_shape gr = m_shape (p_val p) /\ m_shape gr <> [] /\
    length (m_shares (p_val p)) = s_n s /\ length (m_shares gr) = s_n s /\
    shared (2^64) (m_shape gr) v (m_shares (p_val p)) /\ shared (2^64) (m_shape gr) g (m_shares gr) /\
    divisible (c_base (s_cfg s)) (c_prec (s_cfg s)) (s_n s) (m_shape gr) (times (encode1 (s_cfg s) lr) g)
      (times_shares (encode1 (s_cfg s) lr) (m_shape gr) (m_shares gr)) (scale (s_cfg s)) (fst prim) (snd prim).

(** (not code) the object [p'] is [p] with its value moved from [v] to [v - q], where [q] is
    [g] times the learning rate up to the rounding of the division *)
Definition moved (s : sess) (lr : num) (v g : list Z) (p p' : pobj) : Prop :=
  p_grad p' = p_grad p /\ m_sid (p_val p') = m_sid (p_val p) /\ m_shape (p_val p') = m_shape (p_val p) /\
  length (m_shares (p_val p')) = s_n s /\
  exists q, shared (2^64) (m_shape (p_val p)) (s_sub (2^64) v q) (m_shares (p_val p')) /\
    forall e, (e < numel (m_shape (p_val p)))%nat ->
      quot_within (scale (s_cfg s)) (nth e (times (encode1 (s_cfg s) lr) g) 0) (nth e q 0)
        (Z.of_nat (s_n s) * (scale (s_cfg s) - 1) + 2 * (Z.of_nat (s_n s) + 1) * (2^62 mod scale (s_cfg s))).

Lemma nth_error_set {A} i j (x : A) l : (i < length l)%nat ->
  nth_error (set_nth i x l) j = if Nat.eqb j i then Some x else nth_error l j.
Proof.
  revert i j. induction l as [|a l IH]; intros i j H; cbn in H; [lia|].
  destruct i, j; cbn; auto. apply IH. lia.
Qed.

Lemma bshape_same s : bshape s s s.
Proof. split; [lia|]. intros i Hi. auto. Qed.

Lemma one_step s lr prim p v g gr : 0 < c_base (s_cfg s) -> trainable s lr prim (Some p) v g -> p_grad p = Some gr ->
  exists v', (do d <- mpc_bil_public s BMul gr (PNum lr) prim; mpc_isub (p_val p) d) = Ok v' /\
    moved s lr v g p (mkPO v' (p_grad p)).
Proof.
  intros Hb (p0 & gr0 & E0 & EG & S1 & S2 & S3 & S4 & L1 & L2 & H1 & H2 & HD) EG'. injection E0 as <-.
  rewrite EG in EG'. injection EG' as ->.
  destruct (mul_number s gr lr g prim) as (z & q & E & Z1 & Z2 & Z3 & Z4 & Z5); auto.
  rewrite E. cbn [rbind]. unfold mpc_isub.
  assert (HS : bshape (m_shape (p_val p)) (m_shape z) (m_shape (p_val p))) by (rewrite Z2, S3; apply bshape_same).
  destruct (mpc_lin_shared LSub (p_val p) z (m_shape (p_val p)) v q) as (r & ER & R1 & R2 & R3 & R4); auto; try congruence.
  { rewrite <- S3. exact H1. }
  rewrite ER. cbn [rbind]. eexists. split; [reflexivity|].
  unfold moved. cbn [p_grad p_val m_sid m_shape m_shares].
  split; [reflexivity|]. split; [congruence|]. split; [congruence|]. split; [congruence|].
  exists q. rewrite Z2, S3 in R4. pose proof (shared_vals R64 supR _ _ _ H1) as (VL & _ & _).
  pose proof (shared_vals R64 supR _ _ _ Z4) as (QL & _ & _).
  rewrite !bexpand_self in R4 by congruence. split; [exact R4|]. rewrite <- S3. exact Z5.
Qed.

Lemma sgd_loop_ok s lr msk (v g : nat -> list Z) : 0 < c_base (s_cfg s) -> forall ids k objs, NoDup ids ->
  (forall n i, nth_error ids n = Some i -> trainable s lr (msk (k + n)%nat) (nth_error objs i) (v i) (g i)) ->
  exists objs', sgd_loop s lr msk k ids objs = (objs', Ok tt) /\ length objs' = length objs /\
    (forall j, ~ In j ids -> nth_error objs' j = nth_error objs j) /\
    (forall j p, In j ids -> nth_error objs j = Some p ->
       exists p', nth_error objs' j = Some p' /\ moved s lr (v j) (g j) p p').
Proof.
  intros Hb. induction ids as [|i ids IH]; intros k objs HN HT; cbn [sgd_loop].
  - exists objs. split; [reflexivity|]. split; [reflexivity|]. split; [auto|]. intros j p [].
  - pose proof (HT 0%nat i eq_refl) as T0. rewrite Nat.add_0_r in T0. pose proof T0 as (p & gr & EP & EG & _).
    rewrite EP, EG. rewrite EP in T0. destruct (one_step s lr (msk k) p (v i) (g i) gr Hb T0 EG) as (v' & -> & MV).
    inversion HN as [|? ? Hi HN']; subst.
    assert (Li : (i < length objs)%nat) by (apply nth_error_Some; congruence).
    destruct (IH (S k) (set_nth i (mkPO v' (Some gr)) objs) HN') as (objs' & -> & O1 & O2 & O3).
    { intros n j Hj. rewrite nth_error_set by auto. destruct (Nat.eqb_spec j i) as [->|Hne].
      - destruct Hi. eapply nth_error_In; eauto.
      - replace (S k + n)%nat with (k + S n)%nat by lia. apply HT. exact Hj. }
    exists objs'. rewrite set_nth_length in O1. split; [reflexivity|]. split; [exact O1|]. split.
    + intros j Hj. rewrite O2 by (intros F; apply Hj; right; auto). rewrite nth_error_set by auto.
      destruct (Nat.eqb_spec j i) as [->|]; auto. destruct Hj. left; auto.
    + intros j q [->|Hj] Hq.
      * rewrite O2 by auto. rewrite nth_error_set by auto. rewrite Nat.eqb_refl. eexists. split; [reflexivity|].
        assert (q = p) as -> by congruence. rewrite EG in MV. exact MV.
      * apply O3; auto. rewrite nth_error_set by auto. destruct (Nat.eqb_spec j i) as [->|]; auto. contradiction.
Qed.

Lemma zero_grad_ok ids : forall objs on,
  let objs' := w_objs (sgd_zero_grad ids (mkW objs on)) in
  length objs' = length objs /\
  forall j, nth_error objs' j =
    match nth_error objs j with
    | Some p => Some (if in_dec Nat.eq_dec j ids then mkPO (p_val p) None else p)
    | None => None
    end.
Proof.
  cbn zeta. unfold sgd_zero_grad. cbn [w_objs]. intros objs _. revert objs.
  induction ids as [|i ids IH]; intros objs; cbn [fold_left].
  - split; [reflexivity|]. intros j. destruct (in_dec Nat.eq_dec j []) as [[]|]. destruct (nth_error objs j); auto.
  - destruct (nth_error objs i) as [p|] eqn:EP.
    + assert (Li : (i < length objs)%nat) by (apply nth_error_Some; congruence).
      destruct (IH (set_nth i (mkPO (p_val p) None) objs)) as [I1 I2]. rewrite set_nth_length in I1. split; [auto|].
      intros j. rewrite I2, nth_error_set by auto. destruct (Nat.eqb_spec j i) as [->|Hne].
      * rewrite EP. destruct (in_dec Nat.eq_dec i ids), (in_dec Nat.eq_dec i (i :: ids)) as [|F]; cbn [p_val]; auto;
          destruct F; left; auto.
      * destruct (nth_error objs j); auto.
        destruct (in_dec Nat.eq_dec j ids) as [A|A], (in_dec Nat.eq_dec j (i :: ids)) as [B|B]; auto.
        -- destruct B. right; auto.
        -- destruct B; [congruence|contradiction].
    + destruct (IH objs) as [I1 I2]. split; [auto|]. intros j. rewrite I2. destruct (nth_error objs j) eqn:EJ; auto.
      destruct (in_dec Nat.eq_dec j ids) as [A|A], (in_dec Nat.eq_dec j (i :: ids)) as [B|B]; auto.
      * destruct B. right; auto.
      * destruct B; [congruence|contradiction].
Qed.
