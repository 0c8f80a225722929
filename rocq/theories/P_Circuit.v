(** Properties C08 (public minus shared), C09 (shape methods, element by element), C38 (powers)
    and C49 (whole programs).  Specifications: S_View, S_Circuit, S_Div. *)
From Verif Require Import Util S_Ring S_Tensor S_Wraps S_Div S_Bil S_View S_Spdz S_Circuit
  M_Torch M_Encoder M_Tensor M_Share M_Spdz M_Circuit
  L_Torch L_Tensor L_Share L_Spdz L_Div L_Bil L_View L_Mul L_Circuit L_Rsub.
Local Open Scope Z_scope.

(** C08: public minus shared, integer sessions: exact. *)
Theorem C08_rsub_integer : forall s x p vx vp prim, c_prec (s_cfg s) = 0%nat -> m_shape x <> [] ->
  m_sid x = s_id s -> length (m_shares x) = s_n s -> shared (2^64) (m_shape x) vx (m_shares x) ->
  int_pub p vp -> bshape (m_shape x) (shape_of p) (m_shape x) ->
  any_masks (s_n s) (m_shape x) (fst prim) (snd prim) ->
  exists z, mpc_rsub s x p prim = Ok z /\ m_sid z = s_id s /\ m_shape z = m_shape x /\
    length (m_shares z) = s_n s /\
    shared (2^64) (m_shape x) (s_sub (2^64) (bexpand (shape_of p) (m_shape x) vp) (bexpand (m_shape x) (m_shape x) vx))
      (m_shares z).
Proof.
  intros s x p vx vp prim Hp HS H1 H2 H3 HI HB HM.
  destruct (prec0_rsub s (m_shape x) vx x p vp prim Hp HS) as (z & E & G1 & G2 & G3 & G4); auto.
  { repeat split; auto; apply H3. }
  exists z. auto.
Qed.
Print Assumptions C08_rsub_integer.

Example C08_rsub_integer_witness :
  let s := mkS 0 2 (mkConfig 2 0) in
  let x := mkM 0 [2%nat] [mkT [2%nat] [10; 2^63 - 1]; mkT [2%nat] [-3; 5]] in
  shared (2^64) [2%nat] [7; -2^63 + 4] (m_shares x) /\ int_pub (PNum (NInt 100)) [100] /\
  bshape [2%nat] [1%nat] [2%nat] /\ any_masks 2 [2%nat] [] [] /\
  (do z <- mpc_rsub s x (PNum (NInt 100)) ([], []); reconstruct z) = Ok (mkT [2%nat] [93; -2^63 + 96]).
Proof.
  cbn zeta. split; [split; [discriminate|]; split; [repeat constructor|reflexivity]|].
  split; [exists 100; split; reflexivity|]. split; [apply bcast_spec; reflexivity|]. split; [left; reflexivity|].
  vm_compute. reflexivity.
Qed.

(** C08: public minus shared at any precision, base 2: exact again (the intermediate product
    by -1.0 leaves multiples of the scale in every share), provided it fits 64 bits and the
    division by the scale does not wrap ([divisible]). *)
Theorem C08_rsub_fixed_point : forall s x y vx prim,
  c_base (s_cfg s) = 2 -> (c_prec (s_cfg s) <= 62)%nat ->
  m_shape x <> [] -> pub_ok y -> m_sid x = s_id s -> length (m_shares x) = s_n s ->
  shared (2^64) (m_shape x) vx (m_shares x) -> bshape (m_shape x) (pub_shape y) (m_shape x) ->
  let vy := bexpand (pub_shape y) (m_shape x) (encode (s_cfg s) (pub_vals y)) in
  let sc := scale (s_cfg s) in
  (forall e, (e < numel (m_shape x))%nat -> - 2^63 <= sc * (nth e vy 0 - nth e vx 0) < 2^63) ->
  exists ds, (forall d, mpc_lin_public s LSub x y = Ok d -> m_shares d = ds) /\ length ds = s_n s /\
    (divisible 2 (c_prec (s_cfg s)) (s_n s) (m_shape x) (map (fun e => sc * (nth e vy 0 - nth e vx 0)) (seq 0 (numel (m_shape x))))
       (neg_scaled sc (m_shape x) ds) sc (fst prim) (snd prim) ->
     exists z, mpc_rsub s x y prim = Ok z /\ m_sid z = m_sid x /\ m_shape z = m_shape x /\ length (m_shares z) = s_n s /\
       shared (2^64) (m_shape x) (s_sub (2^64) vy vx) (m_shares z)).
Proof. exact rsub_exact. Qed.
Print Assumptions C08_rsub_fixed_point.

Example C08_rsub_witness : (* 1 - 2.5 *)
  let s := mkS 0 2 default_config in
  let x := mkM 0 [1%nat] [mkT [1%nat] [1000000]; mkT [1%nat] [-836160]] in
  shared (2^64) [1%nat] [163840] (m_shares x) /\
  divisible 2 16 2 [1%nat] [65536 * (65536 - 163840)]
    (neg_scaled 65536 [1%nat] [mkT [1%nat] [1000000 - 65536]; mkT [1%nat] [-836160]]) 65536 [] [] /\
  (do z <- mpc_rsub s x (PNum (NInt 1)) ([], []); reconstruct z) = Ok (mkT [1%nat] [-98304]).
Proof.
  cbn zeta. split; [split; [discriminate|]; split; [repeat constructor|reflexivity]|].
  split; [|vm_compute; reflexivity].
  left. split; [reflexivity|]. intros e He. destruct e as [|e]; [vm_compute; reflexivity|cbn in He; lia].
Qed.

(** C08 refuted when the intermediate product wraps: 0 - (-2^-16) with shares 2^47 and
    -2^47 - 1 is off by 2^48 units. *)
Theorem C08_rsub_wrap_refuted : exists s x y z q,
  s_cfg s = default_config /\ s_n s = 2%nat /\ shared (2^64) [1%nat] [-1] (m_shares x) /\
  m_shape x = [1%nat] /\ pub_ok y /\ encode (s_cfg s) (pub_vals y) = [0] /\
  mpc_rsub s x y ([], []) = Ok z /\ reconstruct z = Ok (mkT [1%nat] [q]) /\ q <> 0 - -1.
Proof.
  exists (mkS 0 2 default_config), (mkM 0 [1%nat] [mkT [1%nat] [2^47]; mkT [1%nat] [-2^47 - 1]]), (PNum (NInt 0)).
  do 2 eexists. split; [reflexivity|]. split; [reflexivity|].
  split; [split; [discriminate|]; split; [repeat constructor|reflexivity]|].
  split; [reflexivity|]. split; [exact I|]. split; [reflexivity|]. split; [vm_compute; reflexivity|].
  split; [vm_compute; reflexivity|]. vm_compute. discriminate.
Qed.
Print Assumptions C08_rsub_wrap_refuted.

(** C09: what the shape methods compute, element by element. *)
Theorem C09_shape_elements : forall m s so f x vx, viewed m s so f -> m_shape x = s ->
  shared (2^64) s vx (m_shares x) ->
  exists y, mpc_view m x = Ok y /\ m_sid y = m_sid x /\ m_shape y = so /\
    length (m_shares y) = length (m_shares x) /\ shared (2^64) so (f vx) (m_shares y) /\
    reconstruct y = Ok (mkT so (f vx)).
Proof.
  intros m s so f x vx HV HS HX. subst s.
  pose proof (shared_vals R64 supR _ _ _ HX) as (VL & VI & _).
  destruct (mpc_view_commutes m x vx (mkT so (f vx)) HX) as (y & E & Y); [apply view_spec; auto|].
  exists y. split; [exact E|]. exact Y.
Qed.
Print Assumptions C09_shape_elements.

Example C09_elements_witness :
  let x := mkM 0 [2;3]%nat [mkT [2;3]%nat [1;2;3;4;5;6]; mkT [2;3]%nat [10;0;0;0;0;-6]] in
  viewed (VRoll0 1) [2;3]%nat [2;3]%nat (fun v => skipn 3 v ++ firstn 3 v) /\
  (do y <- mpc_view (VRoll0 1) x; reconstruct y) = Ok (mkT [2;3]%nat [4;5;0;11;2;3]).
Proof. cbn zeta. split; [apply (vw_roll 1 2 [3%nat]); lia | vm_compute; reflexivity]. Qed.

(** C38: powers in integer sessions are exact; each product uses its own valid triple.
    Missing from the full statement: tensors without dimensions (see C38_zero_dim_refuted),
    fixed-point sessions. *)
Theorem C38_power_partial : forall s sh tri msk, c_prec (s_cfg s) = 0%nat -> 0 < c_base (s_cfg s) ->
  (2 <= s_n s)%nat -> sh <> [] ->
  (forall k, valid_triples sh sh sh (mul_val sh sh sh) (s_n s) (tri k)) ->
  (forall k, any_masks (s_n s) sh (fst (msk k)) (snd (msk k))) ->
  forall x vx p, m_sid x = s_id s -> m_shape x = sh -> length (m_shares x) = s_n s ->
  shared (2^64) sh vx (m_shares x) ->
  exists z, mpc_pow s x (Zpos p) tri msk = Ok (inl z) /\ m_sid z = s_id s /\ m_shape z = sh /\
    length (m_shares z) = s_n s /\
    shared (2^64) sh (map (fun a => to_ring (2^64) (a ^ Zpos p)) vx) (m_shares z).
Proof.
  intros s sh tri msk Hp Hc Hn HS HT HM x vx p X1 X2 X3 X4.
  destruct (pow_correct s sh tri msk Hp Hc Hn HS HT HM x vx p) as (z & E & G1 & G2 & G3 & G4).
  { repeat split; auto; apply X4. }
  exists z. auto.
Qed.
Print Assumptions C38_power_partial.

Example C38_witness :
  let s := mkS 0 2 (mkConfig 2 0) in
  let ts : list triple := [(mkT [1%nat] [1], mkT [1%nat] [3], mkT [1%nat] [30]);
             (mkT [1%nat] [2], mkT [1%nat] [4], mkT [1%nat] [-9])] in
  let x := mkM 0 [1%nat] [mkT [1%nat] [10]; mkT [1%nat] [-13]] in
  valid_triples [1%nat] [1%nat] [1%nat] (mul_val [1%nat] [1%nat] [1%nat]) 2 ts /\
  any_masks 2 [1%nat] [] [] /\
  match mpc_pow s x 5 (fun _ => ts) (fun _ => ([], [])) with Ok (inl z) => reconstruct z | _ => Err ValueError end =
    Ok (mkT [1%nat] [-243]).
Proof.
  cbn zeta. split.
  { split; [reflexivity|]. exists [3], [7]. repeat split; try discriminate; repeat constructor. }
  split; [left; reflexivity | vm_compute; reflexivity].
Qed.

(** C38: a secret without dimensions gets the shape [1] of the public 1 it is multiplied by; the
    value is right *)
Theorem C38_zero_dim_refuted : exists s x tri msk z, c_prec (s_cfg s) = 0%nat /\ c_base (s_cfg s) = 2 /\ s_n s = 2%nat /\
  m_sid x = s_id s /\ m_shape x = [] /\ length (m_shares x) = 2%nat /\ shared (2^64) [] [-3] (m_shares x) /\
  (forall k, valid_triples [] [] [] (mul_val [] [] []) 2 (tri k)) /\ (forall k, any_masks 2 [] (fst (msk k)) (snd (msk k))) /\
  mpc_pow s x 5 tri msk = Ok (inl z) /\ reconstruct x = Ok (mkT [] [-3]) /\ reconstruct z = Ok (mkT [1%nat] [-243]).
Proof.
  exists (mkS 0 2 (mkConfig 2 0)), (mkM 0 [] [mkT [] [10]; mkT [] [-13]]),
    (fun _ => [(mkT [] [1], mkT [] [3], mkT [] [30]); (mkT [] [2], mkT [] [4], mkT [] [-9])]), (fun _ => ([], [])).
  eexists. split; [reflexivity|]. split; [reflexivity|]. split; [reflexivity|]. split; [reflexivity|]. split; [reflexivity|]. split; [reflexivity|].
  split; [repeat split; try discriminate; repeat constructor|].
  split; [intros k; split; [reflexivity|]; exists [3], [7]; repeat split; try discriminate; repeat constructor|].
  split; [intros k; left; reflexivity|]. split; [vm_compute; reflexivity|]. split; vm_compute; reflexivity.
Qed.
Print Assumptions C38_zero_dim_refuted.

(** C38: negative exponents are refused, exponent 0 gives the plain integer 1. *)
Theorem C38_other_exponents : forall s x e tri msk,
  (e < 0 -> mpc_pow s x e tri msk = Err RuntimeError) /\ mpc_pow s x 0 tri msk = Ok (inr 1).
Proof. intros s x e tri msk. split; [destruct e; intros H; try lia; reflexivity | reflexivity]. Qed.
Print Assumptions C38_other_exponents.

Example C38_negative_witness : mpc_pow (mkS 0 2 default_config) (mkM 0 [] []) (-3) (fun _ => []) (fun _ => ([], [])) = Err RuntimeError.
Proof. reflexivity. Qed.

(** C49: any program in an integer session with additive shares (replicated sessions are in
    P_RCircuit).  Missing from the full statement: public minus shared for tensors without
    dimensions, and public operands that enlarge the shape of a sum. *)
Theorem C49_programs_partial : forall s env senv sup,
  c_prec (s_cfg s) = 0%nat -> 0 < c_base (s_cfg s) -> (2 <= s_n s)%nat ->
  (forall i, m_sid (env i) = s_id s /\ m_shape (env i) = fst (senv i) /\ length (m_shares (env i)) = s_n s /\
     shared (2^64) (fst (senv i)) (snd (senv i)) (m_shares (env i))) ->
  forall e sh v, means senv sup (s_n s) [] e sh v ->
  exists z, eval s env sup [] e = Ok z /\ m_shape z = sh /\ shared (2^64) sh v (m_shares z) /\
    reconstruct z = Ok (mkT sh v).
Proof.
  intros s env senv sup Hp Hc Hn HE e sh v HM.
  destruct (eval_correct s env senv sup Hp Hc Hn HE [] e sh v HM) as (z & E & G1 & G2 & G3 & G4).
  exists z. split; [exact E|]. split; [exact G2|]. split; [exact G4|]. unfold reconstruct. apply shared_tsum; auto using supR.
Qed.
Print Assumptions C49_programs_partial.

Example C49_witness : (* (x * x - 2) + y  with x = -3, y = 40, two parties *)
  let s := mkS 0 2 (mkConfig 2 0) in
  let ts : list triple := [(mkT [1%nat] [1], mkT [1%nat] [3], mkT [1%nat] [30]);
             (mkT [1%nat] [2], mkT [1%nat] [4], mkT [1%nat] [-9])] in
  let env i := match i with O => mkM 0 [1%nat] [mkT [1%nat] [10]; mkT [1%nat] [-13]]
                          | _ => mkM 0 [1%nat] [mkT [1%nat] [2^63 - 1]; mkT [1%nat] [-2^63 + 41]] end in
  let senv (i : nat) := match i with O => ([1%nat], [-3]) | _ => ([1%nat], [40]) end in
  let sup (path : list bool) := (ts, (([], []) : list tensor * list tensor)) in
  let e := ELin LAdd (ELinPub LSub (EMul (EInput 0) (EInput 0)) (PNum (NInt 2))) (EInput 1) in
  (forall i, m_sid (env i) = s_id s /\ m_shape (env i) = fst (senv i) /\ length (m_shares (env i)) = s_n s /\
     shared (2^64) (fst (senv i)) (snd (senv i)) (m_shares (env i))) /\
  (exists v, means senv sup 2 [] e [1%nat] v /\ v = [47]) /\
  (do z <- eval s env sup [] e; reconstruct z) = Ok (mkT [1%nat] [47]).
Proof.
  cbn zeta. split; [|split; [|vm_compute; reflexivity]].
  { intros [|i]; repeat split; try discriminate; repeat constructor. }
  assert (B : bshape [1%nat] [1%nat] [1%nat]) by (apply bcast_spec; reflexivity).
  eexists. split.
  - eapply mn_lin; [eapply mn_linpub; [eapply mn_mul|..]|..].
    + apply mn_in.
    + apply mn_in.
    + apply prod_mul. exact B.
    + split; [reflexivity|]. exists [3], [7]. repeat split; try discriminate; repeat constructor.
    + left. reflexivity.
    + exists 2. split; reflexivity.
    + exact B.
    + apply (mn_in _ _ _ _ 1%nat).
    + exact B.
  - vm_compute. reflexivity.
Qed.

Example C49_conv_witness : (* conv2d(x, k, stride 2) - 1 with x = (1, 2, 3, 4), k = (5, -6), two parties *)
  let s := mkS 0 2 (mkConfig 2 0) in
  let ts : list triple :=
    [(mkT [1;1;1;4]%nat [1;0;0;2], mkT [1;1;1;2]%nat [3;0], mkT [1;1;1;2]%nat [30;9]);
     (mkT [1;1;1;4]%nat [2;1;0;0], mkT [1;1;1;2]%nat [4;1], mkT [1;1;1;2]%nat [-8;-7])] in
  let env i := match i with O => mkM 0 [1;1;1;4]%nat [mkT [1;1;1;4]%nat [10;-7;0;4]; mkT [1;1;1;4]%nat [-9;9;3;0]]
                          | _ => mkM 0 [1;1;1;2]%nat [mkT [1;1;1;2]%nat [6;-6]; mkT [1;1;1;2]%nat [-1;0]] end in
  let senv (i : nat) := match i with O => ([1;1;1;4]%nat, [1;2;3;4]) | _ => ([1;1;1;2]%nat, [5;-6]) end in
  let sup (path : list bool) := (ts, (([], []) : list tensor * list tensor)) in
  let e := ELinPub LSub (EConv (mkConv 2 0 1 1) (EInput 0) (EInput 1)) (PNum (NInt 1)) in
  (forall i, m_sid (env i) = s_id s /\ m_shape (env i) = fst (senv i) /\ length (m_shares (env i)) = s_n s /\
     shared (2^64) (fst (senv i)) (snd (senv i)) (m_shares (env i))) /\
  (exists v, means senv sup 2 [] e [1;1;1;2]%nat v /\ v = [-8; -10]) /\
  (do z <- eval s env sup [] e; reconstruct z) = Ok (mkT [1;1;1;2]%nat [-8; -10]).
Proof.
  cbn zeta. split; [|split; [|vm_compute; reflexivity]].
  { intros [|i]; repeat split; try discriminate; repeat constructor. }
  eexists. split.
  - eapply mn_linpub; [eapply mn_conv|..].
    + apply mn_in.
    + apply (mn_in _ _ _ _ 1%nat).
    + apply (prod_conv 2 0 1 1 1 1 4 1 1 1 2 1 2); cbn; lia.
    + apply (prod_conv 1 0 1 1 1 1 4 1 1 1 2 1 3); cbn; lia.
    + split; [reflexivity|]. exists [3;1;0;2], [7;1].
      split; [split; [discriminate|]; split; [repeat constructor|reflexivity]|].
      split; [split; [discriminate|]; split; [repeat constructor|reflexivity]|].
      split; [discriminate|]; split; [repeat constructor|vm_compute; reflexivity].
    + left. reflexivity.
    + exists 1. split; reflexivity.
    + apply bcast_spec. reflexivity.
  - vm_compute. reflexivity.
Qed.

Example C49_pow_witness : (* x**5 - 1 with x = (2, -3), two parties *)
  let s := mkS 0 2 (mkConfig 2 0) in
  let ts : list triple :=
    [(mkT [2]%nat [1; 1], mkT [2]%nat [3; 4], mkT [2]%nat [30; 5]); (mkT [2]%nat [2; 0], mkT [2]%nat [4; - 2], mkT [2]%nat [- 9; - 3])] in
  let env (i : nat) := mkM 0 [2]%nat [mkT [2]%nat [10; -7]; mkT [2]%nat [-8; 4]] in
  let senv (i : nat) := ([2]%nat, [2; -3]) in
  let sup (path : list bool) := (ts, (([], []) : list tensor * list tensor)) in
  let e := ELinPub LSub (EPow (EInput 0) 5) (PNum (NInt 1)) in
  (forall i, m_sid (env i) = s_id s /\ m_shape (env i) = fst (senv i) /\ length (m_shares (env i)) = s_n s /\
     shared (2^64) (fst (senv i)) (snd (senv i)) (m_shares (env i))) /\
  (exists v, means senv sup 2 [] e [2]%nat v /\ v = [31; -244]) /\
  (do z <- eval s env sup [] e; reconstruct z) = Ok (mkT [2]%nat [31; -244]).
Proof.
  cbn zeta. split; [|split; [|vm_compute; reflexivity]].
  { intros i; repeat split; try discriminate; repeat constructor. }
  eexists. split.
  - eapply mn_linpub; [eapply mn_pow|..].
    + apply mn_in.
    + discriminate.
    + intros i. split; [reflexivity|]. exists [3; 1], [7; 2]. repeat split; try discriminate; repeat constructor.
    + intros i. left. reflexivity.
    + exists 1. split; reflexivity.
    + apply bcast_spec. reflexivity.
  - vm_compute. reflexivity.
Qed.
