(** Property theorems C75 and C76: what comparisons and divisions of secrets reveal.
    Specifications: S_Opened ([cmp_view], [div_view]), S_Div ([good_masks]). *)
From Coq Require Import QArith.
From Verif Require Import Util Modular S_Ring S_Tensor S_Wraps S_Div S_Priv M_Torch M_Encoder M_Float M_Tensor M_Share M_Spdz M_Store M_Fss M_Opened S_Opened
  L_Torch L_Tensor L_Share L_Div L_Opened L_OpenedDiv.
Local Open Scope Z_scope.

(** C75: for any two pairs of secrets and either party, a one-to-one correspondence of
    everything drawn at random under which the party sees the same: its shares of the secrets
    and of the masks, and the masked differences sent to it. *)
Theorem C75_comparison_private : forall s1 s2 so j, (j < 2)%nat -> bshape s1 s2 so ->
  forall v1 v2 v1' v2',
  tensor_in (2^64) s1 (mkT s1 v1) -> tensor_in (2^64) s2 (mkT s2 v2) ->
  tensor_in (2^64) s1 (mkT s1 v1') -> tensor_in (2^64) s2 (mkT s2 v2') ->
  exists F G : cmprand -> cmprand,
    (forall r, cmprand_ok s1 s2 so r -> cmprand_ok s1 s2 so (F r) /\ cmprand_ok s1 s2 so (G r) /\
       G (F r) = r /\ F (G r) = r) /\
    (forall r, cmprand_ok s1 s2 so r -> exists w,
       cmp_view j s1 s2 v1 v2 r = Ok w /\ cmp_view j s1 s2 v1' v2' (F r) = Ok w).
Proof. intros. apply cmp_view_private; auto. Qed.
Print Assumptions C75_comparison_private.

(** C75: the result is computed from the keys and the sent values alone. *)
Theorem C75_nothing_else : forall (K : Type) (alpha : K -> Z) ev s o so x1 x2 x1' x2' masks masks' keys m m',
  fss_masked alpha (m_shares x1) (m_shares x2) masks = Ok m ->
  fss_masked alpha (m_shares x1') (m_shares x2') masks' = Ok m' ->
  tsh m = tsh m' -> fss_sent m = fss_sent m' ->
  fss_core alpha ev s o so x1 x2 masks keys = fss_core alpha ev s o so x1' x2' masks' keys.
Proof. intros. rewrite !fss_core_opened, H, H0. cbn [rbind]. rewrite H1, H2. reflexivity. Qed.
Print Assumptions C75_nothing_else.

Example C75_witness : (* comparing 3 with 10 and comparing 2^40 with -1 look the same to party 1 *)
  let s := [1%nat] in
  cmprand_ok s s s (mkCR [[50]] [[60]] [[5]; [2^31]]) /\
  cmp_view 0 s s [3] [10] (mkCR [[50]] [[60]] [[5]; [2^31]]) =
    Ok ([mkT s [-47]], [mkT s [-50]], [[2^31]], [2^31 - 2]) /\
  cmp_view 0 s s [2^40] [-1] (mkCR [[2^40 + 47]] [[49]] [[2^32 - 3]; [2^31]]) =
    Ok ([mkT s [-47]], [mkT s [-50]], [[2^31]], [2^31 - 2]).
Proof.
  cbn zeta. split.
  - split; [repeat constructor; lia|]. split; [repeat constructor; lia|]. split; [reflexivity|].
    repeat constructor; lia.
  - split; vm_compute; reflexivity.
Qed.

(** C75 refuted for the orchestrator: it reconstructs all 64 bits while the masks have 32
    bits, so the upper bits of the difference are visible: no masks make it see the same for
    the differences 0 and 2^40. *)
Theorem C75_orchestrator_refuted : exists s v1 v2 v1' v2',
  tensor_in (2^64) s (mkT s v1) /\ tensor_in (2^64) s (mkT s v2) /\
  tensor_in (2^64) s (mkT s v1') /\ tensor_in (2^64) s (mkT s v2') /\
  (exists r, cmprand_ok s s s r) /\
  forall r r', cmprand_ok s s s r -> cmprand_ok s s s r' -> cmp_opened s s v1 v2 r <> cmp_opened s s v1' v2' r'.
Proof.
  exists [1%nat], [0], [0], [2^40], [0].
  assert (I : forall v, in_ring (2^64) v -> tensor_in (2^64) [1%nat] (mkT [1%nat] [v])) by (intros v Hv; repeat split; constructor; auto).
  split; [apply I; reflexivity|]. split; [apply I; reflexivity|]. split; [apply I; reflexivity|]. split; [apply I; reflexivity|].
  split. { exists (mkCR [[0]] [[0]] [[0]; [0]]). split; [repeat constructor; lia|]. split; [repeat constructor; lia|].
    split; [reflexivity|]. repeat constructor; lia. }
  assert (B : bshape [1%nat] [1%nat] [1%nat]).
  { split; [reflexivity|]. intros i Hi. cbn in Hi. destruct i; [|lia]. cbn. auto. }
  intros r r' Hr Hr' E.
  destruct (cmp_opened_value [1%nat] [1%nat] [1%nat] [0] [0] r) as (m & a & b & E1 & M1 & I1 & L1 & V1); try (apply I; reflexivity); auto.
  destruct (cmp_opened_value [1%nat] [1%nat] [1%nat] [2^40] [0] r') as (m' & a' & b' & E2 & M2 & I2 & L2 & V2); try (apply I; reflexivity); auto.
  rewrite E1, E2 in E. injection E as ->.
  specialize (V1 0%nat ltac:(cbn; lia)). specialize (V2 0%nat ltac:(cbn; lia)).
  change (bget [1%nat] [1%nat] [0] 0) with 0 in *. change (bget [1%nat] [1%nat] [2^40] 0) with (2^40) in *.
  assert (W : forall r a b, cmprand_ok [1%nat] [1%nat] [1%nat] r -> cr_m r = [a; b] -> 0 <= nth 0 a 0 < 2^32 /\ 0 <= nth 0 b 0 < 2^32).
  { intros q c d (_ & _ & _ & F) Q. rewrite Q in F. inversion F as [|? ? [La Fa] F']. inversion F' as [|? ? [Lb Fb] _]. subst.
    destruct c as [|c [|]]; try discriminate La. destruct d as [|d [|]]; try discriminate Lb.
    inversion Fa; inversion Fb; auto. }
  destruct (W r a b Hr M1) as [A1 B1]. destruct (W r' a' b' Hr' M2) as [A2 B2].
  destruct V1 as [c V1], V2 as [d V2]. unfold R64 in *.
  change (2^64) with 18446744073709551616 in *. change (2^40) with 1099511627776 in *. change (2^32) with 4294967296 in *. lia.
Qed.
Print Assumptions C75_orchestrator_refuted.

(** C76: for any two secrets and any party j, a one-to-one correspondence of everything drawn
    at random under which the other parties see the same: their shares of the secret, of the
    mask and of its number of wraps, and all the shares of the masked secret. *)
Theorem C76_division_private : forall s n j sh y v v', (2 <= n)%nat -> (j < n)%nat -> Z.of_nat n < 2^60 -> 0 < y ->
  tensor_in (2^64) sh (mkT sh v) -> tensor_in (2^64) sh (mkT sh v') ->
  exists F G : divrand -> divrand,
    (forall r, divrand_ok n sh r -> divrand_ok n sh (F r) /\ divrand_ok n sh (G r) /\ G (F r) = r /\ F (G r) = r) /\
    (forall r, divrand_ok n sh r -> exists w, div_view s n j sh v y r = Ok w /\ div_view s n j sh v' y (F r) = Ok w).
Proof. intros. apply div_view_private; auto. Qed.
Print Assumptions C76_division_private.

(** C76: the result is computed from the opened number of wraps and the divided shares alone. *)
Theorem C76_nothing_else : forall s x y prim prim' zs zs' theta xs', s_n s <> 2%nat ->
  divide_opened s x y prim = Ok (zs, theta, xs') -> divide_opened s x y prim' = Ok (zs', theta, xs') ->
  public_divide s x y prim = public_divide s x y prim'.
Proof. intros s x y prim prim' zs zs' theta xs' H E E'. rewrite !public_divide_opened, E, E' by auto. reflexivity. Qed.
Print Assumptions C76_nothing_else.

Example C76_witness : (* parties 0 and 1 of 3 see the same for 5 and for 1000 *)
  let s := mkS 0 3 default_config in let sh := [1%nat] in
  divrand_ok 3 sh (mkDR [[42]; [77]] [9] [[4]; [6]] [[1]; [2]]) /\
  div_view s 3 2 sh [5] 16 (mkDR [[42]; [77]] [9] [[4]; [6]] [[1]; [2]]) =
    Ok ([mkT sh [42]; mkT sh [35]], [mkT sh [4]; mkT sh [2]], [mkT sh [1]; mkT sh [1]], [mkT sh [46]; mkT sh [37]; mkT sh [-69]]) /\
  div_view s 3 2 sh [1000] 16 (mkDR [[42]; [77]] [-986] [[4]; [6]] [[1]; [2]]) =
    Ok ([mkT sh [42]; mkT sh [35]], [mkT sh [4]; mkT sh [2]], [mkT sh [1]; mkT sh [1]], [mkT sh [46]; mkT sh [37]; mkT sh [-69]]).
Proof. cbn zeta. split; [repeat split; repeat constructor|]. split; vm_compute; reflexivity. Qed.

(** what the opened number of wraps is *)
Theorem C76_theta_wraps : forall s x y sh vx rs ths, (3 <= s_n s)%nat -> Z.of_nat (s_n s) < 2^60 -> 0 < y ->
  m_sid x = s_id s -> m_shape x = sh -> length (m_shares x) = s_n s -> shared (2^64) sh vx (m_shares x) ->
  good_masks (s_n s) sh vx (m_shares x) rs ths ->
  exists zs tv xs', divide_opened s x y (rs, ths) = Ok (zs, mkT sh tv, xs') /\ length tv = numel sh /\
    forall e, (e < numel sh)%nat -> zsum (col e (m_shares x)) = nth e vx 0 + nth e tv 0 * 2^64.
Proof.
  intros s x y sh vx rs ths Hn Hb Hy Hsid Hsh HL HX HG. pose proof HG as (Lr & Lt & vr & HR & HT & _).
  apply (opened_theta s x y rs ths sh (s_n s)); auto; try lia.
  - apply HX.
  - apply HR.
  - apply HT.
Qed.
Print Assumptions C76_theta_wraps.

(** C76 refuted: the opened number of wraps shows the sign of the secret to the other parties:
    two sharings that differ in the share of party 2 only, of 1 and of -1; whatever the (good)
    masks are, 0 is opened for the first and 1 for the second. *)
Theorem C76_sign_refuted : exists s xs xs' rs ths,
  s_n s = 3%nat /\ others 2 xs = others 2 xs' /\
  shared (2^64) [1%nat] [1] xs /\ shared (2^64) [1%nat] [-1] xs' /\
  good_masks 3 [1%nat] [1] xs rs ths /\ good_masks 3 [1%nat] [-1] xs' rs ths /\
  (forall y rs ths, 0 < y -> good_masks 3 [1%nat] [1] xs rs ths ->
     exists zs d, divide_opened s (mkM (s_id s) [1%nat] xs) y (rs, ths) = Ok (zs, mkT [1%nat] [0], d)) /\
  (forall y rs ths, 0 < y -> good_masks 3 [1%nat] [-1] xs' rs ths ->
     exists zs d, divide_opened s (mkM (s_id s) [1%nat] xs') y (rs, ths) = Ok (zs, mkT [1%nat] [1], d)).
Proof.
  exists (mkS 0 3 default_config), [mkT [1%nat] [2^62]; mkT [1%nat] [2^62]; mkT [1%nat] [1 - 2^63]],
    [mkT [1%nat] [2^62]; mkT [1%nat] [2^62]; mkT [1%nat] [2^63 - 1]],
    [mkT [1%nat] [-1]; mkT [1%nat] [-2]; mkT [1%nat] [6]], [mkT [1%nat] [4]; mkT [1%nat] [5]; mkT [1%nat] [-9]].
  assert (S1 : shared (2^64) [1%nat] [1] [mkT [1%nat] [2^62]; mkT [1%nat] [2^62]; mkT [1%nat] [1 - 2^63]])
    by (split; [discriminate|]; split; [repeat constructor|reflexivity]).
  assert (S2 : shared (2^64) [1%nat] [-1] [mkT [1%nat] [2^62]; mkT [1%nat] [2^62]; mkT [1%nat] [2^63 - 1]])
    by (split; [discriminate|]; split; [repeat constructor|reflexivity]).
  split; [reflexivity|]. split; [reflexivity|]. split; [exact S1|]. split; [exact S2|].
  assert (GM : forall v xs, (v = 1 \/ v = -1) -> (forall k, (k < 3)%nat -> 
      to_ring (2^64) (nth 0 (tdat (nth k [mkT [1%nat] [-1]; mkT [1%nat] [-2]; mkT [1%nat] [6]] (mkT [] []))) 0 + nth 0 (tdat (nth k xs (mkT [] []))) 0) <> - 2^63) ->
      good_masks 3 [1%nat] [v] xs [mkT [1%nat] [-1]; mkT [1%nat] [-2]; mkT [1%nat] [6]] [mkT [1%nat] [4]; mkT [1%nat] [5]; mkT [1%nat] [-9]]).
  { intros v xs Hv HK. split; [reflexivity|]. split; [reflexivity|]. exists [3].
    split; [split; [discriminate|]; split; [repeat constructor|reflexivity]|].
    split; [split; [discriminate|]; split; [repeat constructor|reflexivity]|].
    split; [intros e He; destruct e as [|e]; [|cbn in He; lia]; cbn; lia|].
    split.
    - intros t [<-|[<-|[<-|[]]]]; repeat constructor; discriminate.
    - intros k e Hk He. destruct e as [|e]; [|cbn in He; lia]. apply HK; auto. }
  split. { apply GM; auto. intros k Hk. destruct k as [|[|[|k]]]; [..|lia]; vm_compute; discriminate. }
  split. { apply GM; auto. intros k Hk. destruct k as [|[|[|k]]]; [..|lia]; vm_compute; discriminate. }
  split.
  - intros y rs ths Hy HG.
    destruct (C76_theta_wraps (mkS 0 3 default_config) (mkM 0 [1%nat] [mkT [1%nat] [2^62]; mkT [1%nat] [2^62]; mkT [1%nat] [1 - 2^63]]) y [1%nat] [1] rs ths)
      as (zs & tv & d & E & L & V); auto; try (cbn; lia).
    exists zs, d. cbn [s_id]. rewrite E. do 3 f_equal. destruct tv as [|t [|]]; try discriminate L.
    specialize (V 0%nat ltac:(cbn; lia)). cbn [nth] in V.
    change (zsum (col 0 (m_shares (mkM 0 [1%nat] [mkT [1%nat] [2^62]; mkT [1%nat] [2^62]; mkT [1%nat] [1 - 2^63]])))) with 1 in V.
    f_equal. f_equal. change (2^64) with 18446744073709551616 in V. lia.
  - intros y rs ths Hy HG.
    destruct (C76_theta_wraps (mkS 0 3 default_config) (mkM 0 [1%nat] [mkT [1%nat] [2^62]; mkT [1%nat] [2^62]; mkT [1%nat] [2^63 - 1]]) y [1%nat] [-1] rs ths)
      as (zs & tv & d & E & L & V); auto; try (cbn; lia).
    exists zs, d. cbn [s_id]. rewrite E. do 3 f_equal. destruct tv as [|t [|]]; try discriminate L.
    specialize (V 0%nat ltac:(cbn; lia)). cbn [nth] in V.
    change (zsum (col 0 (m_shares (mkM 0 [1%nat] [mkT [1%nat] [2^62]; mkT [1%nat] [2^62]; mkT [1%nat] [2^63 - 1]])))) with 18446744073709551615 in V.
    f_equal. f_equal. change (2^64) with 18446744073709551616 in V. lia.
Qed.
Print Assumptions C76_sign_refuted.
