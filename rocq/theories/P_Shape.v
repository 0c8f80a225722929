(** C88: the shape attribute of a shared tensor.  Specification: S_Shape. *)
From Verif Require Import Util Modular S_Ring S_Tensor S_Bil S_View S_Shape S_Spdz S_Div
  M_Torch M_Encoder M_Float M_Tensor M_Share M_Spdz M_Shape
  L_Torch L_Tensor L_Encoder L_Share L_View L_Circuit L_Module2.
Local Open Scope Z_scope.
Local Open Scope list_scope.

Lemma size_nat sh : map Z.to_nat (map Z.of_nat sh) = sh.
Proof. rewrite map_map. erewrite map_ext by apply Nat2Z.id. apply map_id. Qed.
Lemma size_ok sh : forallb (fun z => 0 <=? z) (map Z.of_nat sh) = true.
Proof. apply forallb_forall. intros z Hz. apply in_map_iff in Hz as (n & <- & _). lia. Qed.
Lemma get_shape_tuples f sx sy : get_shape f (as_size sx) (as_size sy) = f sx sy.
Proof. unfold get_shape, as_size, torch_size. rewrite !size_ok, !size_nat. reflexivity. Qed.

(** C88: an operation on tensors with attributes given as tuples or torch.Size does what the
    other files have it do; the attribute of the result is again one. *)
Definition plain (sh : list nat) (x : obj) : mpc := mkM (o_sid x) sh (o_shares x).
Definition back (m : mpc) : obj := mkO (m_sid m) (as_size (m_shape m)) (m_shares m).
Lemma obj_bil_plain s op x y sx sy ts prim : o_shape x = as_size sx -> o_shape y = as_size sy ->
  obj_bil s op x y ts prim = (do z <- mpc_bil s op (plain sx x) (plain sy y) ts prim; Ok (back z)).
Proof.
  intros EX EY. unfold obj_bil, mpc_bil. cbn [plain m_sid m_shape]. rewrite EX, EY.
  destruct (negb _); [reflexivity|]. unfold as_size at 1 2. cbv iota.
  change (mul_master s op (bare x) (bare y) ts) with (mul_master s op (plain sx x) (plain sy y) ts).
  destruct (mul_master _ _ _ _ _) as [shs|]; [cbn [rbind]|reflexivity]. rewrite !get_shape_tuples.
  destruct (shape_bil (no_kwargs op) sx sy); [cbn [rbind]|reflexivity].
  destruct (shape_bil op sx sy); cbn [rbind]; reflexivity.
Qed.
Lemma obj_lin_plain o x y sx sy : o_shape x = as_size sx -> o_shape y = as_size sy ->
  obj_lin o x y = (do z <- mpc_lin o (plain sx x) (plain sy y); Ok (back z)).
Proof.
  intros EX EY. unfold obj_lin, mpc_lin. cbn [plain m_sid m_shape m_shares]. rewrite EX, EY.
  destruct (negb _); [reflexivity|]. destruct (rmap _ _); [cbn [rbind]|reflexivity]. rewrite get_shape_tuples.
  destruct (shape_bin sx sy); reflexivity.
Qed.
Lemma obj_view_plain v x sx : (o_shape x = as_size sx \/ o_shape x = ShList (map Z.of_nat sx)) ->
  obj_view v x = (do z <- mpc_view v (plain sx x); Ok (back z)).
Proof.
  intros EX. unfold obj_view, mpc_view. cbn [plain m_sid m_shape m_shares].
  assert (E : torch_size (o_shape x) = Ok sx) by (destruct EX as [-> | ->]; cbn [torch_size as_size]; rewrite size_ok, size_nat; reflexivity).
  rewrite E. destruct (rmap _ _); [cbn [rbind]|reflexivity]. destruct (view_index v sx); reflexivity.
Qed.

(** sums, differences, shape methods (also those of a tensor created with a list, whose result
    has a torch.Size) and, in integer sessions, products: the value and the attribute *)
Theorem C88_operators_partial : forall s x sx vx, truthful s sx vx x ->
  (forall o y sy vy so, truthful s sy vy y -> bshape sx sy so ->
     exists z, obj_lin o x y = Ok z /\ truthful s so (s_linop o (bexpand sx so vx) (bexpand sy so vy)) z) /\
  (forall v so f, viewed v sx so f -> exists z, obj_view v x = Ok z /\ truthful s so (f vx) z) /\
  (forall op y sy vy so so' f f' ts prim, c_prec (s_cfg s) = 0%nat -> 0 < c_base (s_cfg s) -> (2 <= s_n s)%nat ->
     truthful s sy vy y -> product op sx sy so f -> product (bare_op op) sx sy so' f' ->
     valid_triples sx sy so f (s_n s) ts -> any_masks (s_n s) so (fst prim) (snd prim) ->
     exists z, obj_bil s (bop_of op) x y ts prim = Ok z /\ truthful s so (f vx vy) z) /\
  (forall n r, sx = n :: r -> obj_len x = Ok (Z.of_nat n)).
Proof.
  intros s x sx vx (X1 & X2 & X3 & X4). split; [|split; [|split]].
  - intros o y sy vy so (Y1 & Y2 & Y3 & Y4) HB. rewrite (obj_lin_plain o x y sx sy X2 Y2).
    destruct (mpc_lin_shared o (plain sx x) (plain sy y) so vx vy) as (z & -> & Z1 & Z2 & Z3 & Z4); cbn [plain m_sid m_shape m_shares] in *; auto; try congruence.
    cbn [rbind]. eexists. split; [reflexivity|]. cbn [back truthful o_sid o_shape o_shares]. unfold truthful; cbn [back o_sid o_shape o_shares].
    rewrite Z2. split; [congruence|]. split; [reflexivity|]. split; [congruence|exact Z4].
  - intros v so f HV. rewrite (obj_view_plain v x sx (or_introl X2)).
    pose proof (shared_vals R64 supR _ _ _ X4) as (VL & VI & _).
    destruct (mpc_view_commutes v (plain sx x) vx (mkT so (f vx))) as (z & -> & Z1 & Z2 & Z3 & Z4 & _); [exact X4|apply view_spec; auto|].
    cbn [rbind plain m_sid m_shares tsh tdat] in *. eexists. split; [reflexivity|]. unfold truthful; cbn [back o_sid o_shape o_shares].
    rewrite Z2. split; [congruence|]. split; [reflexivity|]. split; [congruence|exact Z4].
  - intros op y sy vy so so' f f' ts prim Hp Hc Hn (Y1 & Y2 & Y3 & Y4) HP HP' HT HM. rewrite (obj_bil_plain s _ x y sx sy ts prim X2 Y2).
    destruct (prec0_bil' s op sx sy so so' f f' (plain sx x) (plain sy y) vx vy ts prim) as (z & -> & Z1 & Z2 & Z3 & Z4); auto;
      try (repeat split; cbn [plain m_sid m_shape m_shares]; auto; first [apply X4|apply Y4]; fail).
    cbn [rbind]. eexists. split; [reflexivity|]. unfold truthful; cbn [back o_sid o_shape o_shares].
    rewrite Z2. split; [congruence|]. split; [reflexivity|]. split; [congruence|exact Z4].
  - intros n r ->. unfold obj_len. rewrite X2. reflexivity.
Qed.
Print Assumptions C88_operators_partial.

Example C88_operators_witness :
  let s := mkS 0 2 (mkConfig 2 0) in
  let x := mkO 0 (as_size [2]%nat) [mkT [2]%nat [10; -7]; mkT [2]%nat [-8; 4]] in
  let ts : list triple :=
    [(mkT [2]%nat [1; 1], mkT [2]%nat [3; 4], mkT [2]%nat [30; 5]); (mkT [2]%nat [2; 0], mkT [2]%nat [4; - 2], mkT [2]%nat [- 9; - 3])] in
  truthful s [2]%nat [2; -3] x /\
  (exists f, product SMul [2]%nat [2]%nat [2]%nat f /\ valid_triples [2]%nat [2]%nat [2]%nat f 2 ts) /\
  (do z <- obj_bil s BMul x x ts ([], []); do w <- obj_lin LAdd z x; do t <- obj_reconstruct w; Ok (o_shape w, t)) =
    Ok (ShTuple [2], mkT [2]%nat [6; 6]).
Proof.
  cbn zeta. split; [do 3 (split; [reflexivity|]); split; [discriminate|split; [repeat constructor|reflexivity]]|]. split.
  - eexists. split; [apply prod_mul; apply bshape_same|].
    split; [reflexivity|]. exists [3; 1], [7; 2]. repeat split; try discriminate; repeat constructor.
  - vm_compute. reflexivity.
Qed.

(** C88: creating tensors from a secret of the orchestrator, without the parameter or with a
    tuple equal to the shape of the secret; from a secret of a party (przs: the zero shares), with
    the shape of the secret as a tuple or as a list. *)
Theorem C88_create : forall s p,
  (forall shape rnd, (2 <= s_n s)%nat -> pub_ok p -> draws (2^64) (s_n s) (pub_shape p) rnd ->
     (shape = ShNone \/ shape = ShTuple (map Z.of_nat (pub_shape p))) ->
     exists x, obj_secret s p shape rnd = Ok x /\ truthful s (pub_shape p) (encode (s_cfg s) (pub_vals p)) x) /\
  (forall parties owner przs, s_n s <> 0%nat -> pub_ok p -> In owner parties -> NoDup parties -> length parties = s_n s ->
     length przs = s_n s -> shared (2^64) (pub_shape p) (repeat 0 (numel (pub_shape p))) (map (mkT (pub_shape p)) przs) ->
     (exists x, obj_remote s parties owner (ShTuple (map Z.of_nat (pub_shape p))) p przs = Ok x /\
        truthful s (pub_shape p) (encode (s_cfg s) (pub_vals p)) x) /\
     (exists x, obj_remote s parties owner (ShList (map Z.of_nat (pub_shape p))) p przs = Ok x /\
        listed s (pub_shape p) (encode (s_cfg s) (pub_vals p)) x) /\
     obj_remote s parties owner ShNone p przs = Err ValueError).
Proof.
  intros s p. split.
  - intros shape rnd Hn HP HD HS. destruct (mpc_secret_reconstruct s p rnd Hn HP HD) as (x & E & X1 & X2 & X3 & X4 & _).
    exists (mkO (m_sid x) (as_size (pub_shape p)) (m_shares x)). unfold obj_secret. rewrite E. cbn [rbind].
    split; [destruct HS as [-> | ->]; cbv iota; rewrite ?X2; reflexivity|]. split; [exact X1|]. split; [reflexivity|]. split; [exact X3|exact X4].
  - intros parties owner przs H0 HP HI HN HL HL' HZ.
    destruct (mpc_remote_value s parties owner p (map (mkT (pub_shape p)) przs) H0 HP HI HN) as (x & j & E & X0 & X1 & _ & X4 & X5);
      [rewrite map_length; congruence|exact HZ|].
    assert (H1 : Nat.eqb (s_n s) 0 = false) by (apply Nat.eqb_neq; exact H0).
    unfold mpc_remote in E. unfold obj_remote. rewrite H1 in E |- *. cbn [torch_size]. rewrite size_ok, size_nat. cbn [rbind].
    assert (LS : length (m_shares x) = s_n s).
    { destruct (add_at_owner _ _ _ _) as [shs|] eqn:EA; [|discriminate]. cbn [rbind] in E. injection E as <-. cbn [m_shares].
      assert (AL : forall ps xs ys o sec, add_at_owner ps o sec xs = Ok ys -> length ys = length xs).
      { induction ps as [|q ps IH]; intros [|u xs] ys o sec EQ; cbn [add_at_owner] in EQ; try (injection EQ as <-; reflexivity).
        destruct (Nat.eqb q o).
        - destruct (sh_lin _ _ _); [|discriminate]. injection EQ as <-. reflexivity.
        - destruct (add_at_owner ps o sec xs) as [w|] eqn:EW; [|discriminate]. injection EQ as <-. cbn [length]. f_equal. exact (IH _ _ _ _ EW). }
      rewrite (AL _ _ _ _ _ EA), map_length. exact HL'. }
    destruct (add_at_owner _ _ _ _) as [shs|]; [|discriminate]. cbn [rbind] in E |- *. injection E as <-. cbn [m_shares m_shape] in *.
    split; [|split; [|reflexivity]]; eexists; (split; [reflexivity|]); (split; [reflexivity|]); (split; [reflexivity|]); (split; [exact LS|exact X4]).
Qed.
Print Assumptions C88_create.

Example C88_create_witness :
  let s := mkS 7 3 default_config in let p := PTensor [2%nat] [NInt 5; NInt (-7)] in
  pub_ok p /\ draws (2^64) 3 [2%nat] [[2^63 - 1; -4]; [9; 11]] /\
  shared (2^64) [2%nat] (repeat 0 2) (map (mkT [2%nat]) [[4; 5]; [-1; 2^62]; [-3; -2^62 - 5]]) /\
  (do x <- obj_secret s p ShNone [[2^63 - 1; -4]; [9; 11]]; obj_len x) = Ok 2 /\
  (do x <- obj_remote s [4; 5; 6]%nat 5 (ShList [2]) p [[4; 5]; [-1; 2^62]; [-3; -2^62 - 5]]; do t <- obj_reconstruct x; Ok (o_shape x, t)) =
    Ok (ShList [2], mkT [2%nat] [5 * 65536; -7 * 65536]).
Proof.
  cbn zeta. split; [reflexivity|]. split; [split; [reflexivity|repeat constructor]|].
  split; [split; [discriminate|split; [repeat constructor|vm_compute; reflexivity]]|]. split; vm_compute; reflexivity.
Qed.

(** A tensor created with a list: no operator ever returns, methods do, and their results are
    like any other tensor. *)
Theorem C88_list_operators : forall x y l, o_shape x = ShList l \/ o_shape y = ShList l ->
  (forall o z, obj_lin o x y <> Ok z) /\
  (forall s op ts prim z, obj_bil s op x y ts prim <> Ok z) /\
  (o_shape x = ShList l -> forall s o p z, obj_lin_public s o x p <> Ok z).
Proof.
  intros x y l H.
  assert (G : forall f, exists e, get_shape f (o_shape x) (o_shape y) = Err e).
  { intros f. destruct H as [-> | ->]; [exists TypeError; reflexivity|]. destruct (o_shape x); exists TypeError; reflexivity. }
  split; [|split].
  - intros o z. unfold obj_lin. destruct (negb _); [discriminate|]. destruct (rmap _ _); [cbn [rbind]|discriminate].
    destruct (G shape_bin) as (e & ->). discriminate.
  - intros s op ts prim z. unfold obj_bil. destruct (negb _); [discriminate|].
    destruct (G (shape_bil (no_kwargs op))) as (e & E).
    destruct (o_shape x); [discriminate| |]; destruct (o_shape y); try discriminate; (destruct (mul_master _ _ _ _ _); [cbn [rbind]; rewrite E|]; discriminate).
  - intros E s o p z. unfold obj_lin_public. rewrite E. destruct (get_nth _ _); [cbn [rbind]|discriminate].
    destruct (sh_lin _ _ _); [cbn [rbind get_shape]|]; discriminate.
Qed.
Print Assumptions C88_list_operators.
Example C88_list_operators_witness :
  let x := mkO 0 (ShList [2]) [mkT [2]%nat [10; -7]; mkT [2]%nat [-8; 4]] in
  listed (mkS 0 2 default_config) [2]%nat [2; -3] x /\ obj_lin LAdd x x = Err TypeError /\
  (do y <- obj_view (VReshape [2]%nat) x; do z <- obj_lin LAdd y y; obj_reconstruct z) = Ok (mkT [2]%nat [4; -6]).
Proof.
  cbn zeta. split; [do 3 (split; [reflexivity|]); split; [discriminate|split; [repeat constructor|reflexivity]]|]. split; vm_compute; reflexivity.
Qed.

Theorem C88_list_methods : forall s sh v x m so f, listed s sh v x -> viewed m sh so f ->
  exists z, obj_view m x = Ok z /\ truthful s so (f v) z.
Proof.
  intros s sh v x m so f (X1 & X2 & X3 & X4) HV.
  assert (T : truthful s sh v (mkO (o_sid x) (as_size sh) (o_shares x))) by (repeat split; cbn [o_sid o_shape o_shares]; auto; apply X4).
  destruct (C88_operators_partial _ _ _ _ T) as (_ & V & _). destruct (V m so f HV) as (z & E & G). exists z. split; [|exact G].
  rewrite (obj_view_plain m x sh (or_intror X2)). rewrite (obj_view_plain m (mkO _ _ _) sh (or_introl eq_refl)) in E. exact E.
Qed.
Print Assumptions C88_list_methods.

(** C88 refuted: the documentation allows a list (mpc_tensor.py:135, 149), with which the
    tensor cannot even be added to itself *)
Theorem C88_list_refuted : exists s parties owner p przs x,
  s_n s = 2%nat /\ pub_ok p /\ shared (2^64) (pub_shape p) (repeat 0 (numel (pub_shape p))) (map (mkT (pub_shape p)) przs) /\
  obj_remote s parties owner (ShList (map Z.of_nat (pub_shape p))) p przs = Ok x /\
  obj_reconstruct x = Ok (mkT (pub_shape p) (encode (s_cfg s) (pub_vals p))) /\
  obj_lin LAdd x x = Err TypeError.
Proof.
  exists (mkS 0 2 default_config), [3; 4]%nat, 4%nat, (PTensor [2%nat] [NInt 5; NInt (-7)]), [[8; -1]; [-8; 1]]. eexists.
  split; [reflexivity|]. split; [reflexivity|]. split; [split; [discriminate|split; [repeat constructor|reflexivity]]|].
  split; [vm_compute; reflexivity|]. split; vm_compute; reflexivity.
Qed.
Print Assumptions C88_list_refuted.

(** C88 refuted: the parameter is believed even if the secret has another shape; the sum then
    claims this shape, and len is wrong *)
Theorem C88_override_refuted : exists s p rnd x z t,
  s_n s = 2%nat /\ pub_ok p /\ draws (2^64) 2 (pub_shape p) rnd /\
  obj_secret s p (ShTuple [3]) rnd = Ok x /\ obj_lin LAdd x x = Ok z /\ obj_reconstruct z = Ok t /\
  tsh t = [2%nat] /\ o_shape z = ShTuple [3] /\ obj_len z = Ok 3.
Proof.
  exists (mkS 0 2 default_config), (PTensor [2%nat] [NInt 5; NInt (-7)]), [[8; -1]]. do 3 eexists.
  split; [reflexivity|]. split; [reflexivity|]. split; [split; [reflexivity|repeat constructor]|].
  split; [vm_compute; reflexivity|]. split; [vm_compute; reflexivity|]. split; [vm_compute; reflexivity|]. split; [reflexivity|]. split; reflexivity.
Qed.
Print Assumptions C88_override_refuted.

(** without a shape attribute (shares given without a shape): sums raise ValueError or what the
    shares raise, products and len TypeError *)
Theorem C88_no_shape : forall x y, o_shape x = ShNone -> (forall l, o_shape y <> ShList l) -> o_sid x = o_sid y ->
  (forall o shs, rmap (fun p => sh_lin o (fst p) (snd p)) (combine (o_shares x) (o_shares y)) = Ok shs -> obj_lin o x y = Err ValueError) /\
  (forall s op ts prim, obj_bil s op x y ts prim = Err TypeError) /\ obj_len x = Err TypeError.
Proof.
  intros x y E N S. split; [|split].
  - intros o shs R. unfold obj_lin. rewrite S, Nat.eqb_refl. cbn [negb]. rewrite R, E. cbn [rbind].
    destruct (o_shape y) as [| |l] eqn:EY; [reflexivity|reflexivity|]. exfalso. apply (N l). reflexivity.
  - intros s op ts prim. unfold obj_bil. rewrite S, Nat.eqb_refl, E. reflexivity.
  - unfold obj_len. rewrite E. reflexivity.
Qed.
Print Assumptions C88_no_shape.
Example C88_no_shape_witness :
  let x := mkO 0 ShNone [mkT [2]%nat [10; -7]; mkT [2]%nat [-8; 4]] in
  (exists shs, rmap (fun p => sh_lin LAdd (fst p) (snd p)) (combine (o_shares x) (o_shares x)) = Ok shs) /\ obj_lin LAdd x x = Err ValueError.
Proof. cbn zeta. split; [eexists|]; reflexivity. Qed.
