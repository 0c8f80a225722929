(** C72: computations with share objects that belong to no session. *)
From Coq Require Import QArith Qabs.
From Verif Require Import Util Modular S_Ring S_Tensor M_Torch L_Torch M_Encoder L_Encoder M_Tensor L_Tensor M_Share L_Share M_Dtype M_ShareObj L_ShareObj.
Local Open Scope Z_scope.

(** element [e] of a tensor enlarged to the shape [so], and the number it stands for *)
Definition at_ (c : config) (t : tensor) (so : list nat) (e : nat) : Q := decode1 c (bget (tsh t) so (tdat t) e).
Definition entry (t : tensor) (so : list nat) (e : nat) : Z := bget (tsh t) so (tdat t) e.
Definition number (c : config) (z : share) (e : nat) : Q := decode1 c (nth e (tdat (so_ten z)) 0).
Definition value_at (c : config) (l : list Z) (i : nat) : Q := decode1 c (nth i l 0).
(** the integer is a representative of the ring *)
Definition fits (ring v : Z) : Prop := - (ring / 2) <= v < ring / 2.

Lemma s_op_nth o ring a b so e ta tb : (e < numel so)%nat ->
  nth e (s_op o ring (bexpand a so ta) (bexpand b so tb)) 0 = to_ring ring (sop_elt o (bget a so ta e) (bget b so tb e)).
Proof. intros H. unfold s_op. rewrite (nth_map2 _ 0 0) by (rewrite bexpand_length; auto). rewrite !bexpand_nth by auto. reflexivity. Qed.
Lemma to_ring_fits ring v : signed ring -> fits ring v -> to_ring ring v = v.
Proof. intros S H. apply signed_range; auto. Qed.

(** C72: sums and differences (of two objects, with a public value on either side) are objects of the
    same ring and configuration whose elements are the sums and differences in the ring; where these
    fit the ring the numbers they stand for are exact. *)
Theorem C72_sums : forall env c ring x y so, signed ring -> 1 <= c_base c -> stored c ring x -> operand_ok c ring y ->
  bshape (tsh (so_ten x)) (tsh (operand_tensor c ring y)) so ->
  let t := so_ten x in let u := operand_tensor c ring y in
  (exists z, so_add env x y = Ok z /\ stored c ring z /\ tsh (so_ten z) = so /\ forall e, (e < numel so)%nat ->
     nth e (tdat (so_ten z)) 0 == entry t so e + entry u so e [mod ring] /\
     (fits ring (entry t so e + entry u so e) -> (number c z e == at_ c t so e + at_ c u so e)%Q)) /\
  (exists z, so_sub env x y = Ok z /\ stored c ring z /\ tsh (so_ten z) = so /\ forall e, (e < numel so)%nat ->
     nth e (tdat (so_ten z)) 0 == entry t so e - entry u so e [mod ring] /\
     (fits ring (entry t so e - entry u so e) -> (number c z e == at_ c t so e - at_ c u so e)%Q)) /\
  (exists z, so_rsub env x y = Ok z /\ stored c ring z /\ tsh (so_ten z) = so /\ forall e, (e < numel so)%nat ->
     nth e (tdat (so_ten z)) 0 == entry u so e - entry t so e [mod ring] /\
     (fits ring (entry u so e - entry t so e) -> (number c z e == at_ c u so e - at_ c t so e)%Q)).
Proof.
  intros env c ring x y so S Hb X Y H t u. pose proof (signed_pos ring S) as Pos.
  destruct (sanity_ok env c ring x y S X Y) as (b & E & B & Eb). fold u in Eb.
  unfold so_add, so_sub, so_rsub. rewrite E. cbn [rbind].
  assert (H' : bshape (tsh (so_ten b)) (tsh (so_ten x)) so).
  { rewrite Eb. apply bcast_spec. rewrite bcast_comm. apply bcast_complete. exact H. }
  fold u in H. rewrite <- Eb in H.
  destruct (apply_ok env c ring x b so SAdd S X B ltac:(discriminate) H) as (z1 & R1 & S1 & T1).
  destruct (apply_ok env c ring x b so SSub S X B ltac:(discriminate) H) as (z2 & R2 & S2 & T2).
  destruct (apply_ok env c ring b x so SSub S B X ltac:(discriminate) H') as (z3 & R3 & S3 & T3).
  split; [exists z1|split; [exists z2|exists z3]]; (split; [assumption|]); (split; [assumption|]).
  - rewrite T1. cbn [tsh tdat]. split; [reflexivity|]. intros e He. unfold number. rewrite T1. cbn [tdat]. rewrite s_op_nth by auto. rewrite Eb.
    cbn [sop_elt]. fold t. change (bget (tsh t) so (tdat t) e) with (entry t so e). change (bget (tsh u) so (tdat u) e) with (entry u so e).
    split; [apply to_ring_eqmod; auto|]. intros F. rewrite to_ring_fits by auto. apply decode_add; auto.
  - rewrite T2. cbn [tsh tdat]. split; [reflexivity|]. intros e He. unfold number. rewrite T2. cbn [tdat]. rewrite s_op_nth by auto. rewrite Eb.
    cbn [sop_elt]. fold t. change (bget (tsh t) so (tdat t) e) with (entry t so e). change (bget (tsh u) so (tdat u) e) with (entry u so e).
    split; [apply to_ring_eqmod; auto|]. intros F. rewrite to_ring_fits by auto. apply decode_sub; auto.
  - rewrite T3. cbn [tsh tdat]. split; [reflexivity|]. intros e He. unfold number. rewrite T3. cbn [tdat]. rewrite s_op_nth by auto. rewrite Eb.
    cbn [sop_elt]. fold t. change (bget (tsh t) so (tdat t) e) with (entry t so e). change (bget (tsh u) so (tdat u) e) with (entry u so e).
    split; [apply to_ring_eqmod; auto|]. intros F. rewrite to_ring_fits by auto. apply decode_sub; auto.
Qed.
Print Assumptions C72_sums.
Example C72_sums_witness : let c := mkConfig 2 4 in let x := mkShare None c (2^16) TI16 (mkT [2;1]%nat [40; -7]) in
  signed (2^16) /\ stored c (2^16) x /\ operand_ok c (2^16) (inr (PTensor [2]%nat [NInt 3; NFloat (1#2)])) /\
  bshape [2;1]%nat [2]%nat [2;2]%nat /\
  (do z <- so_rsub (fun _ => None) x (inr (PTensor [2]%nat [NInt 3; NFloat (1#2)])); Ok (so_ten z)) = Ok (mkT [2;2]%nat [8; -32; 55; 15]).
Proof.
  cbn zeta. split; [right; left; reflexivity|]. split; [repeat constructor|]. split; [reflexivity|]. split; [apply bcast_spec; reflexivity|].
  vm_compute. reflexivity.
Qed.

(** C72: a product is divided by the scale once: where the product of the stored integers fits the
    ring the number is within one unit of the exact product. *)
Theorem C72_products : forall env c ring x y so, signed ring -> 1 <= c_base c -> scale c < ring / 2 -> stored c ring x -> operand_ok c ring y ->
  bshape (tsh (so_ten x)) (tsh (operand_tensor c ring y)) so ->
  let t := so_ten x in let u := operand_tensor c ring y in
  exists z, so_mul env x y = Ok z /\ stored c ring z /\ tsh (so_ten z) = so /\ forall e, (e < numel so)%nat ->
    fits ring (entry t so e * entry u so e) ->
    (Qabs (number c z e - at_ c t so e * at_ c u so e) < / inject_Z (scale c))%Q.
Proof.
  intros env c ring x y so S Hb Hs X Y H t u. pose proof (scale_pos c Hb) as Sp.
  destruct (sanity_ok env c ring x y S X Y) as (b & E & B & Eb). fold u in Eb, H. rewrite <- Eb in H.
  destruct (apply_ok env c ring x b so SMul S X B ltac:(discriminate) H) as (z1 & R1 & S1 & T1).
  destruct (rescale_ok c ring x b z1 S X B S1 ltac:(lia)) as (z & R & Sz & T).
  exists z. unfold so_mul. rewrite E. cbn [rbind]. rewrite R1. cbn [rbind]. rewrite R. split; [reflexivity|]. split; [exact Sz|].
  rewrite T. cbn [tsh]. rewrite T1. cbn [tsh tdat]. split; [reflexivity|]. intros e He F. unfold number. rewrite T, T1. cbn [tdat].
  rewrite (nth_map_in _ 0) by (unfold s_op; rewrite (map2_length_eq _ _ _ (numel so)); auto using bexpand_length).
  rewrite s_op_nth by auto. rewrite Eb. cbn [sop_elt]. change (bget (tsh t) so (tdat t) e) with (entry t so e).
  change (bget (tsh u) so (tdat u) e) with (entry u so e). rewrite to_ring_fits by auto.
  assert (Q : (at_ c t so e * at_ c u so e == inject_Z (entry t so e * entry u so e) / (inject_Z (scale c) * inject_Z (scale c)))%Q).
  { unfold at_. rewrite !decode1_correct by auto. fold (entry t so e) (entry u so e). rewrite inject_Z_mult. field. apply Qscale_nz, Hb. }
  rewrite Q. apply decode_quot. exact Hb.
Qed.
Print Assumptions C72_products.
Example C72_products_witness : let c := default_config in let x := mkShare None c (2^64) TI64 (mkT [2]%nat [98304; -65537]) in
  signed (2^64) /\ stored c (2^64) x /\ bshape [2]%nat [2]%nat [2]%nat /\ fits (2^64) (entry (so_ten x) [2]%nat 1 * entry (so_ten x) [2]%nat 1) /\
  (do z <- so_mul (fun _ => None) x (inl x); Ok (so_ten z)) = Ok (mkT [2]%nat [147456; 65538]).
Proof.
  cbn zeta. split; [do 3 right; left; reflexivity|]. split; [repeat constructor|]. split; [apply bcast_spec; reflexivity|].
  split; [vm_compute; split; congruence|]. vm_compute. reflexivity.
Qed.

(** C72: the matrix product of an (m,k) and a (k,n) object, and of a public matrix with an object. *)
Theorem C72_matrices : forall env c ring x y m k n, signed ring -> 1 <= c_base c -> scale c < ring / 2 -> stored c ring x -> operand_ok c ring y ->
  let t := tdat (so_ten x) in let u := tdat (operand_tensor c ring y) in
  (tsh (so_ten x) = [m; k] -> tsh (operand_tensor c ring y) = [k; n] ->
   exists z, so_matmul env x y = Ok z /\ stored c ring z /\ tsh (so_ten z) = [m; n] /\ forall r q, (r < m)%nat -> (q < n)%nat ->
    fits ring (zsum (map (fun i => nth (r * k + i) t 0 * nth (i * n + q) u 0) (seq 0 k))) ->
    (Qabs (number c z (r * n + q)%nat - qsum (map (fun i => value_at c t (r * k + i)%nat * value_at c u (i * n + q)%nat) (seq 0 k))) < / inject_Z (scale c))%Q) /\
  (tsh (so_ten x) = [k; n] -> tsh (operand_tensor c ring y) = [m; k] ->
   exists z, so_rmatmul env x y = Ok z /\ stored c ring z /\ tsh (so_ten z) = [m; n] /\ forall r q, (r < m)%nat -> (q < n)%nat ->
    fits ring (zsum (map (fun i => nth (r * k + i) u 0 * nth (i * n + q) t 0) (seq 0 k))) ->
    (Qabs (number c z (r * n + q)%nat - qsum (map (fun i => value_at c u (r * k + i)%nat * value_at c t (i * n + q)%nat) (seq 0 k))) < / inject_Z (scale c))%Q).
Proof.
  intros env c ring x y m k n S Hb Hs X Y t u. pose proof (scale_pos c Hb) as Sp.
  destruct (sanity_ok env c ring x y S X Y) as (b & E & B & Eb).
  assert (Main : forall v w, stored c ring v -> stored c ring w -> tsh (so_ten v) = [m; k] -> tsh (so_ten w) = [k; n] ->
    exists z, (do r <- apply_function env v w SMatmul; rescale v w r) = Ok z /\ stored c ring z /\ tsh (so_ten z) = [m; n] /\
    forall r q, (r < m)%nat -> (q < n)%nat ->
    fits ring (zsum (map (fun i => nth (r * k + i) (tdat (so_ten v)) 0 * nth (i * n + q) (tdat (so_ten w)) 0) (seq 0 k))) ->
    (Qabs (number c z (r * n + q)%nat - qsum (map (fun i => value_at c (tdat (so_ten v)) (r * k + i)%nat * value_at c (tdat (so_ten w)) (i * n + q)%nat) (seq 0 k))) < / inject_Z (scale c))%Q).
  { intros v w V W Hv Hw. destruct (torch_matmul env c ring v w m k n S V W Hv Hw) as (z1 & R1 & S1 & T1 & N1).
    destruct (rescale_ok c ring v w z1 S V W S1 ltac:(lia)) as (z & R & Sz & T). exists z. rewrite R1. cbn [rbind].
    split; [exact R|]. split; [exact Sz|]. rewrite T. cbn [tsh]. split; [exact T1|]. intros r q Hr Hq F. unfold number. rewrite T. cbn [tdat].
    destruct S1 as (_ & _ & _ & _ & (_ & L1 & _)). rewrite T1 in L1. cbn [numel fold_right] in L1.
    rewrite (nth_map_in _ 0) by nia. rewrite N1 by auto. rewrite to_ring_fits by auto.
    unfold value_at. rewrite (qsum_products c (fun i => nth (r * k + i) (tdat (so_ten v)) 0) (fun i => nth (i * n + q) (tdat (so_ten w)) 0)) by auto.
    apply decode_quot. exact Hb. }
  split; intros H1 H2.
  - unfold so_matmul. rewrite E. cbn [rbind]. unfold u, t. rewrite <- Eb in *. apply Main; auto.
  - unfold so_rmatmul. rewrite E. cbn [rbind]. unfold so_matmul. cbn [sanity].
    destruct X as (Ux & X). rewrite Ux. cbn [rbind]. unfold u, t. rewrite <- Eb in *. apply Main; auto. split; auto.
Qed.
Print Assumptions C72_matrices.
Example C72_matrices_witness : let c := mkConfig 10 1 in let x := mkShare None c (2^32) TI32 (mkT [2;2]%nat [10; 25; -30; 1]) in
  let y := inr (PTensor [1;2]%nat [NInt 2; NFloat (1#2)]) in
  signed (2^32) /\ stored c (2^32) x /\ operand_ok c (2^32) y /\ tsh (operand_tensor c (2^32) y) = [1;2]%nat /\
  (do z <- so_rmatmul (fun _ => None) x y; Ok (so_ten z)) = Ok (mkT [1;2]%nat [5; 50]).
Proof. cbn zeta. split; [do 2 right; left; reflexivity|]. split; [repeat constructor|]. repeat split. Qed.

(** C72: > and < compare the numbers element by element. *)
Theorem C72_order : forall env c ring x y so, signed ring -> 1 <= c_base c -> stored c ring x -> operand_ok c ring y ->
  bshape (tsh (so_ten x)) (tsh (operand_tensor c ring y)) so ->
  let t := so_ten x in let u := operand_tensor c ring y in
  (exists z, so_gt env x y = Ok (mkT so z) /\ length z = numel so /\ forall e, (e < numel so)%nat ->
     (nth e z 0 = 1 /\ (at_ c u so e < at_ c t so e)%Q) \/ (nth e z 0 = 0 /\ (at_ c t so e <= at_ c u so e)%Q)) /\
  (exists z, so_lt env x y = Ok (mkT so z) /\ length z = numel so /\ forall e, (e < numel so)%nat ->
     (nth e z 0 = 1 /\ (at_ c t so e < at_ c u so e)%Q) \/ (nth e z 0 = 0 /\ (at_ c u so e <= at_ c t so e)%Q)).
Proof.
  intros env c ring x y so S Hb X Y H t u.
  destruct (sanity_ok env c ring x y S X Y) as (b & E & B & Eb). fold u in Eb, H. rewrite <- Eb in H.
  pose proof (result_type_same _ _ _ _ X B) as RT. destruct (signed_supported ring S) as (Sup & _).
  assert (Main : forall f, compare_s f x b = Ok (mkT so (map2 (fun a b => Z.b2z (f a b)) (bexpand (tsh (so_ten x)) so (tdat (so_ten x))) (bexpand (tsh (so_ten b)) so (tdat (so_ten b)))))).
  { intros f. unfold compare_s. rewrite RT. destruct X as (_ & _ & _ & T & I), B as (_ & _ & _ & _ & I').
    rewrite (tbin_spec _ _ _ so H). do 2 f_equal. apply map2_ext_in. intros v w Hin. rewrite !(signed_cast ring) by auto.
    pose proof (bexpand_in ring (tsh (so_ten x)) so _ Sup (proj2 (proj2 I))) as Ia.
    pose proof (bexpand_in ring (tsh (so_ten b)) so _ Sup (proj2 (proj2 I'))) as Ib.
    rewrite (proj1 (Forall_forall _ _) Ia v (in_combine_l _ _ _ _ Hin)), (proj1 (Forall_forall _ _) Ib w (in_combine_r _ _ _ _ Hin)). reflexivity. }
  unfold so_gt, so_lt. rewrite E. cbn [rbind]. rewrite !Main, Eb. fold t.
  split; (eexists; split; [reflexivity|]; split; [apply map2_length_eq; apply bexpand_length|]); intros e He;
    rewrite (nth_map2 _ 0 0) by (rewrite bexpand_length; auto); rewrite !bexpand_nth by auto; unfold at_;
    set (v := bget (tsh t) so (tdat t) e); set (w := bget (tsh u) so (tdat u) e).
  - destruct (Z.gtb_spec v w) as [G|G]; [left|right]; (split; [reflexivity|]).
    + apply decode_mono; auto.
    + apply Qnot_lt_le. intros Q. apply decode_mono in Q; auto. lia.
  - destruct (Z.ltb_spec v w) as [G|G]; [left|right]; (split; [reflexivity|]).
    + apply decode_mono; auto.
    + apply Qnot_lt_le. intros Q. apply decode_mono in Q; auto. lia.
Qed.
Print Assumptions C72_order.
Example C72_order_witness : let c := default_config in let x := mkShare None c (2^64) TI64 (mkT [2]%nat [65536; -1]) in
  stored c (2^64) x /\ so_gt (fun _ => None) x (inr (PNum (NInt 0))) = Ok (mkT [2]%nat [1; 0]).
Proof. cbn zeta. split; [repeat constructor|reflexivity]. Qed.

(** C72: objects of different sessions are refused by every operator but xor; an object of a
    session that is not known to the process cannot be combined with a public value. *)
Theorem C72_foreign : forall env x y u v, so_uuid x = Some u -> so_uuid y = Some v -> u <> v ->
  so_add env x (inl y) = Err ValueError /\ so_sub env x (inl y) = Err ValueError /\ so_rsub env x (inl y) = Err ValueError /\
  so_mul env x (inl y) = Err ValueError /\ so_matmul env x (inl y) = Err ValueError /\ so_rmatmul env x (inl y) = Err ValueError /\
  so_gt env x (inl y) = Err ValueError /\ so_lt env x (inl y) = Err ValueError.
Proof.
  intros env x y u v Hx Hy N. assert (E : sanity env x (inl y) = Err ValueError).
  { cbn [sanity]. rewrite Hx, Hy. destruct (Nat.eqb_spec v u); [congruence|reflexivity]. }
  unfold so_add, so_sub, so_rsub, so_mul, so_matmul, so_rmatmul, so_gt, so_lt. rewrite E. cbn [rbind]. repeat split.
Qed.
Print Assumptions C72_foreign.
Example C72_foreign_witness : let x := mkShare (Some 1%nat) default_config (2^64) TI64 (mkT [1]%nat [4]) in
  let y := mkShare (Some 2%nat) default_config (2^64) TI64 (mkT [1]%nat [4]) in
  so_uuid x <> so_uuid y /\ so_add (fun _ => Some (2^64, default_config)) x (inl x) <> Err ValueError.
Proof. cbn zeta. split; discriminate. Qed.

(** C72 refuted: objects of different configurations are combined without rescaling: 1 + 1 is
    stored as 65537 (precision 16 and precision 0). *)
Theorem C72_config_refuted : exists x y z, stored (mkConfig 2 16) (2^64) x /\ stored (mkConfig 2 0) (2^64) y /\
  so_new (mkConfig 2 16) None (2^64) (PNum (NInt 1)) = Ok x /\ so_new (mkConfig 2 0) None (2^64) (PNum (NInt 1)) = Ok y /\
  so_add (fun _ => None) x (inl y) = Ok z /\ ~ (number (so_cfg z) z 0 == 2)%Q.
Proof.
  exists (mkShare None (mkConfig 2 16) (2^64) TI64 (mkT [1]%nat [65536])), (mkShare None (mkConfig 2 0) (2^64) TI64 (mkT [1]%nat [1])).
  eexists. split; [repeat constructor|]. split; [repeat constructor|]. split; [reflexivity|]. split; [reflexivity|].
  split; [reflexivity|]. vm_compute. discriminate.
Qed.
Print Assumptions C72_config_refuted.

(** C72 refuted: forwarded methods and the division forget the ring: in the ring 2^8 adding 1 to 127
    gives -128, adding 1 to a clone of 127 (or to 127 divided by 1) gives 128. *)
Theorem C72_ring_refuted : exists x y d z z' z'', stored (mkConfig 2 0) (2^8) x /\ so_view VClone x = Ok y /\ so_div x 1 = Ok d /\
  so_ring y <> so_ring x /\ so_ring d <> so_ring x /\
  so_add (fun _ => None) x (inr (PNum (NInt 1))) = Ok z /\ tdat (so_ten z) = [-128] /\
  so_add (fun _ => None) y (inr (PNum (NInt 1))) = Ok z' /\ tdat (so_ten z') = [128] /\
  so_add (fun _ => None) d (inr (PNum (NInt 1))) = Ok z'' /\ tdat (so_ten z'') = [128].
Proof.
  exists (mkShare None (mkConfig 2 0) (2^8) TI8 (mkT [1]%nat [127])). do 5 eexists.
  split; [repeat constructor|]. split; [reflexivity|]. split; [reflexivity|]. split; [discriminate|]. split; [discriminate|].
  split; [reflexivity|]. split; [reflexivity|]. split; [reflexivity|]. split; [reflexivity|]. split; reflexivity.
Qed.
Print Assumptions C72_ring_refuted.

(** C72 refuted: xor with a public value fails for an object without session, and objects of
    different sessions are not refused. *)
Theorem C72_xor_refuted : exists x env a b z, stored (mkConfig 2 0) (2^64) x /\
  so_xor env x (inr (PNum (NInt 1))) = Err AttributeError /\
  so_uuid a <> so_uuid b /\ so_uuid a <> None /\ so_uuid b <> None /\ so_xor env a (inl b) = Ok z.
Proof.
  exists (mkShare None (mkConfig 2 0) (2^64) TI64 (mkT [1]%nat [5])), (fun _ => Some (2^64, mkConfig 2 0)).
  exists (mkShare (Some 1%nat) (mkConfig 2 0) (2^64) TI64 (mkT [1]%nat [5])), (mkShare (Some 2%nat) (mkConfig 2 0) (2^64) TI64 (mkT [1]%nat [3])).
  eexists. split; [repeat constructor|]. split; [reflexivity|]. do 3 (split; [discriminate|]). reflexivity.
Qed.
Print Assumptions C72_xor_refuted.
