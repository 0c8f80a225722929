(** Property theorems C78: sharings and products with the random numbers of the code, which are
    drawn from half of the ring.  Specification: S_Draw ([code_draws], [code_mulrand]). *)
From Verif Require Import Util Modular S_Ring S_Tensor S_Bil S_Spdz S_Priv S_Draw M_Torch M_Encoder M_Tensor M_Share M_Spdz L_Torch L_Tensor L_Share L_Draw.
Local Open Scope Z_scope.

(** C78: whoever lacks the last share only holds shares that do not depend on the secret. *)
Theorem C78_last_party : forall n sh v v' rnd, (2 <= n)%nat ->
  tensor_in (2^64) sh (mkT sh v) -> tensor_in (2^64) sh (mkT sh v') -> code_draws n sh rnd ->
  exists ss ss', generate_shares n (mkT sh v) rnd = Ok ss /\ generate_shares n (mkT sh v') rnd = Ok ss' /\
    length ss = n /\ length ss' = n /\ forall k, (k < n - 1)%nat -> nth_error ss k = nth_error ss' k.
Proof.
  intros n sh v v' rnd Hn V V' HC.
  destruct (half_shift n sh v v' (n - 1) Hn ltac:(lia) V V' rnd HC) as (rnd' & ss & ss' & HC' & N & E & E' & L & L' & H); [intros; lia|].
  assert (rnd' = rnd).
  { destruct HC as [A1 A2], HC' as [B1 B2]. apply (nth_ext_len []); [lia|]. intros i Hi. rewrite B1 in Hi.
    destruct (Forall_nth_in _ rnd [] i A2) as [C1 _]; [lia|]. destruct (Forall_nth_in _ rnd' [] i B2) as [D1 _]; [lia|].
    apply (nth_ext_len 0); [lia|]. intros e He. rewrite N by lia. destruct (Nat.ltb_spec i (n - 1)); [reflexivity|lia]. }
  subst rnd'. exists ss, ss'. split; [auto|]. split; [auto|]. split; [auto|]. split; [auto|]. intros k Hk. apply H; lia.
Qed.
Print Assumptions C78_last_party.

Example C78_last_party_witness : (* the first two of three parties, secrets -7 and 1000 *)
  code_draws 3 [1%nat] [[42]; [77]] /\
  generate_shares 3 (mkT [1%nat] [-7]) [[42]; [77]] = Ok [mkT [1%nat] [42]; mkT [1%nat] [35]; mkT [1%nat] [-84]] /\
  generate_shares 3 (mkT [1%nat] [1000]) [[42]; [77]] = Ok [mkT [1%nat] [42]; mkT [1%nat] [35]; mkT [1%nat] [923]].
Proof. split; [repeat split; repeat constructor; discriminate|]. split; reflexivity. Qed.

(** C78, what is left of C04: a draw for [v] that can be moved by [v' - v] without leaving the
    range of the draws corresponds to a draw for [v'] under which all parties but [j] hold the
    same shares.  For a difference d at most |d| of the 2^63 values of a draw cannot be moved.
    Missing: the same for draws at the edges, which is false ([C78_sharing_refuted]). *)
Theorem C78_sharing_partial : forall n sh v v' j, (2 <= n)%nat -> (j < n)%nat ->
  tensor_in (2^64) sh (mkT sh v) -> tensor_in (2^64) sh (mkT sh v') -> forall rnd, code_draws n sh rnd ->
  (forall i e, (j <= i < n - 1)%nat -> (e < numel sh)%nat ->
     0 <= nth e (nth i rnd []) 0 + (nth e v' 0 - nth e v 0) < 2^63) ->
  exists rnd' ss ss', code_draws n sh rnd' /\
    (forall i e, (i < n - 1)%nat -> (e < numel sh)%nat ->
       nth e (nth i rnd' []) 0 =
       if (i <? j)%nat then nth e (nth i rnd []) 0 else nth e (nth i rnd []) 0 + (nth e v' 0 - nth e v 0)) /\
    generate_shares n (mkT sh v) rnd = Ok ss /\ generate_shares n (mkT sh v') rnd' = Ok ss' /\
    length ss = n /\ length ss' = n /\ forall k, (k < n)%nat -> k <> j -> nth_error ss k = nth_error ss' k.
Proof. exact half_shift. Qed.
Print Assumptions C78_sharing_partial.

Example C78_sharing_partial_witness : (* party 1 of 2 cannot tell the secret 5 with the draw 42 from -30 with 7 *)
  code_draws 2 [1%nat] [[42]] /\ code_draws 2 [1%nat] [[7]] /\
  generate_shares 2 (mkT [1%nat] [5]) [[42]] = Ok [mkT [1%nat] [42]; mkT [1%nat] [-37]] /\
  generate_shares 2 (mkT [1%nat] [-30]) [[7]] = Ok [mkT [1%nat] [7]; mkT [1%nat] [-37]].
Proof. do 2 (split; [repeat split; repeat constructor; discriminate|]). split; reflexivity. Qed.

(** C78 refuted: the second of two parties can receive a share of 0 for the secret 0, but never
    for the secret -1. *)
Theorem C78_sharing_refuted : exists sh v v', tensor_in (2^64) sh (mkT sh v) /\ tensor_in (2^64) sh (mkT sh v') /\
  exists rnd ss, code_draws 2 sh rnd /\ generate_shares 2 (mkT sh v) rnd = Ok ss /\
    forall rnd' ss', code_draws 2 sh rnd' -> generate_shares 2 (mkT sh v') rnd' = Ok ss' -> nth_error ss' 1 <> nth_error ss 1.
Proof.
  exists [1%nat], [0], [-1]. do 2 (split; [repeat split; repeat constructor|]).
  exists [[0]], [mkT [1%nat] [0]; mkT [1%nat] [0]]. split; [repeat split; repeat constructor; discriminate|]. split; [reflexivity|].
  intros rnd' ss' HC E. destruct (code_draws2 _ HC) as (r & -> & Hr). rewrite gen2 in E. injection E as <-. cbn [nth_error].
  intros E. injection E as E.
  assert (M : rsub R64 (-1) r == -1 - r [mod R64]) by (apply rsub_eqmod; auto using half_in; reflexivity).
  rewrite E in M. destruct M as [k K]. unfold R64 in K. change (2^64) with 18446744073709551616 in K.
  change (2^63) with 9223372036854775808 in Hr. nia.
Qed.
Print Assumptions C78_sharing_refuted.

(** C78, products: in every run of a multiplication in which the number drawn to split c is
    smaller than the number b of the triple (nearly half of all runs), what the second of two
    parties sees of the product x * y cannot come from (x - 1) * y. *)
Theorem C78_product_reveals : forall x y r, in_ring (2^64) x -> in_ring (2^64) (x - 1) -> in_ring (2^64) y ->
  code_mulrand 2 [1%nat] [1%nat] [1%nat] r -> nth 0 (nth 0 (mr_rc r) []) 0 < nth 0 (mr_b r) 0 ->
  forall r', code_mulrand 2 [1%nat] [1%nat] [1%nat] r' ->
  mul_view BMul 2 0 [1%nat] [1%nat] [x] [y] r <> mul_view BMul 2 0 [1%nat] [1%nat] [x - 1] [y] r'.
Proof. exact product_leak. Qed.
Print Assumptions C78_product_reveals.

Definition C78_r := mkMR [[1000]] [[2000]] [3] [4] [[5]] [[6]] [[1]].
Example C78_product_witness : code_mulrand 2 [1%nat] [1%nat] [1%nat] C78_r /\
  mul_view BMul 2 0 [1%nat] [1%nat] [1] [7] C78_r =
    Ok ([mkT [1%nat] [-999]], [mkT [1%nat] [-1993]],
        [(mkT [1%nat] [-2], mkT [1%nat] [-2], mkT [1%nat] [11])], (mkT [1%nat] [-2], mkT [1%nat] [3])).
Proof. split; [repeat split; repeat constructor; discriminate|]. vm_compute. reflexivity. Qed.

(** C78 refuted for products: x = 1 and x = 0 can be told apart. *)
Theorem C78_product_refuted : exists x x' y r, in_ring (2^64) x /\ in_ring (2^64) x' /\ in_ring (2^64) y /\
  code_mulrand 2 [1%nat] [1%nat] [1%nat] r /\
  (exists w, mul_view BMul 2 0 [1%nat] [1%nat] [x] [y] r = Ok w) /\
  forall r', code_mulrand 2 [1%nat] [1%nat] [1%nat] r' ->
    mul_view BMul 2 0 [1%nat] [1%nat] [x] [y] r <> mul_view BMul 2 0 [1%nat] [1%nat] [x'] [y] r'.
Proof.
  exists 1, 0, 7, C78_r. do 3 (split; [reflexivity|]). split; [exact (proj1 C78_product_witness)|].
  split; [eexists; exact (proj2 C78_product_witness)|].
  apply (product_leak 1 7 C78_r); try reflexivity. exact (proj1 C78_product_witness).
Qed.
Print Assumptions C78_product_refuted.
