(** Property theorems C77: what replicated sharings and products reveal to a single party.
    Specification: S_RepPriv ([rep_share_view], [rmul_view]).  As in C04 and C11 the numbers
    drawn at random range over the whole ring. *)
From Coq Require Import QArith.
From Verif Require Import Util Modular S_Ring S_Tensor S_Bil S_Spdz S_Rep S_RepT S_Priv S_RepPriv M_Torch M_Encoder M_Tensor M_Share M_Spdz M_Rep
  L_Torch L_Tensor L_Share L_RShare L_Mul L_Rep L_Rep2 L_Rep3 L_RepPriv.
Local Open Scope Z_scope.

(** C77: for any two secrets and any party, a one-to-one correspondence of the random draws
    under which the party receives the same shares. *)
Theorem C77_sharing_private : forall s c k sh v v', (2 <= rs_n s)%nat -> (k < rs_n s)%nat ->
  tensor_in (2^64) sh (mkT sh v) -> tensor_in (2^64) sh (mkT sh v') ->
  exists f g,
    (forall rnd, draws (2^64) (rs_n s) sh rnd ->
       draws (2^64) (rs_n s) sh (f rnd) /\ draws (2^64) (rs_n s) sh (g rnd) /\ g (f rnd) = rnd /\ f (g rnd) = rnd) /\
    (forall rnd, draws (2^64) (rs_n s) sh rnd -> exists w,
       rep_share_view s c k sh v rnd = Ok w /\ rep_share_view s c k sh v' (f rnd) = Ok w).
Proof. exact rep_share_private. Qed.
Print Assumptions C77_sharing_private.

(** C77: for any two pairs of operands and any of three parties, a one-to-one correspondence
    of everything drawn at random under which the party sees the same of the multiplication:
    its shares of the operands, the numbers of its generators, its shares of the product. *)
Theorem C77_product_private : forall s c op sx sy so f k, rs_n s = 3%nat -> product_r (2^64) op sx sy so f ->
  rep_op (2^64) op -> (k < 3)%nat -> forall vx vy vx' vy',
  tensor_in (2^64) sx (mkT sx vx) -> tensor_in (2^64) sy (mkT sy vy) ->
  tensor_in (2^64) sx (mkT sx vx') -> tensor_in (2^64) sy (mkT sy vy') ->
  exists F G : rmulrand -> rmulrand,
    (forall r, rmulrand_ok sx sy so r -> rmulrand_ok sx sy so (F r) /\ rmulrand_ok sx sy so (G r) /\
       G (F r) = r /\ F (G r) = r) /\
    (forall r, rmulrand_ok sx sy so r -> exists w,
       rmul_view s c (bop_of op) k sx sy so vx vy r = Ok w /\ rmul_view s c (bop_of op) k sx sy so vx' vy' (F r) = Ok w).
Proof. intros s c op sx sy so f k Hn HP HO Hk. exact (rmul_private s c op sx sy so f k Hn HP HO Hk). Qed.
Print Assumptions C77_product_private.

Definition C77_s : rsess := mkRS 0 3 (2^64) (mkConfig 2 0) true (fun k => (10 + k)%nat).
Example C77_witness : (* party 0 sees the same of 3 * 4 and of 10 * -1 *)
  let s := [1%nat] in
  rmulrand_ok s s s (mkRMR [[50]; [70]] [[60]; [65]] [[7]; [8]; [9]]) /\
  rmul_view C77_s (mkConfig 2 0) BMul 0 s s s [3] [4] (mkRMR [[50]; [70]] [[60]; [65]] [[7]; [8]; [9]]) =
    Ok ([mkT s [50]; mkT s [20]], [mkT s [60]; mkT s [5]], [[7]; [8]], [mkT s [4449]; mkT s [-1456]]) /\
  rmul_view C77_s (mkConfig 2 0) BMul 0 s s s [10] [-1] (mkRMR [[50]; [70]] [[60]; [65]] [[7]; [8]; [-56]]) =
    Ok ([mkT s [50]; mkT s [20]], [mkT s [60]; mkT s [5]], [[7]; [8]], [mkT s [4449]; mkT s [-1456]]).
Proof. cbn zeta. split; [repeat split; repeat constructor|]. split; vm_compute; reflexivity. Qed.


(** C77 refuted for the orchestrator: the masked local products are fetched by it before they
    are distributed again, and they add up to the product. *)
Theorem C77_orchestrator_refuted : exists s c sh vx vy vx' vy',
  rs_n s = 3%nat /\ tensor_in (2^64) sh (mkT sh vx) /\ tensor_in (2^64) sh (mkT sh vy) /\
  tensor_in (2^64) sh (mkT sh vx') /\ tensor_in (2^64) sh (mkT sh vy') /\
  (exists r zs, rmulrand_ok sh sh sh r /\ rmul_fetched s c BMul sh sh sh vx vy r = Ok zs) /\
  forall r r', rmulrand_ok sh sh sh r -> rmulrand_ok sh sh sh r' ->
    rmul_fetched s c BMul sh sh sh vx vy r <> rmul_fetched s c BMul sh sh sh vx' vy' r'.
Proof.
  exists C77_s, (mkConfig 2 0), [1%nat], [1], [1], [0], [1].
  assert (I : forall v, in_ring (2^64) v -> tensor_in (2^64) [1%nat] (mkT [1%nat] [v])) by (intros v Hv; repeat split; constructor; auto).
  split; [reflexivity|]. do 4 (split; [apply I; reflexivity|]).
  assert (P : product_r (2^64) SMul [1%nat] [1%nat] [1%nat] (mul_vr (2^64) [1%nat] [1%nat] [1%nat])).
  { apply prod_mul_r. split; [reflexivity|]. intros i Hi. cbn in Hi. destruct i; [|lia]. cbn. auto. }
  split. { exists (mkRMR [[0]; [0]] [[0]; [0]] [[0]; [0]; [0]]). eexists. split; [repeat split; repeat constructor|]. vm_compute. reflexivity. }
  intros r r' Hr Hr' E.
  destruct (fetched_shared C77_s (mkConfig 2 0) SMul _ _ _ _ [1] [1] r eq_refl P (or_introl eq_refl) (I 1 eq_refl) (I 1 eq_refl) Hr) as (zs & E1 & S1).
  destruct (fetched_shared C77_s (mkConfig 2 0) SMul _ _ _ _ [0] [1] r' eq_refl P (or_introl eq_refl) (I 0 eq_refl) (I 1 eq_refl) Hr') as (zs' & E2 & S2).
  cbn [bop_of] in E1, E2. rewrite E1, E2 in E. injection E as <-.
  destruct S1 as (_ & _ & S1), S2 as (_ & _ & S2). rewrite <- S1 in S2. vm_compute in S2. discriminate S2.
Qed.
Print Assumptions C77_orchestrator_refuted.
