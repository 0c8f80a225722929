(** Lemmas about single share objects (M_ShareObj.v). *)
From Coq Require Import QArith Qabs.
From Verif Require Import Util S_Ring S_Tensor M_Torch L_Torch M_Encoder L_Encoder M_Tensor L_Tensor M_Share L_Share M_Dtype M_ShareObj.
Local Open Scope Z_scope.

(** the rings whose representatives are the signed integers of 8, 16, 32 or 64 bits *)
Definition signed (ring : Z) : Prop := In ring [2^8; 2^16; 2^32; 2^64].

Lemma signed_supported ring : signed ring -> supported ring /\ ring <> 2 /\ ring <> 67.
Proof. unfold signed, supported, ring_sizes. cbn [In]. intros [<-|[<-|[<-|[<-|[]]]]]; (split; [tauto|split; discriminate]). Qed.
Lemma signed_pos ring : signed ring -> 0 < ring.
Proof. intros H. apply supported_pos, signed_supported, H. Qed.
Lemma signed_cast ring d v : signed ring -> get_type_from_ring ring = Ok d -> cast d v = to_ring ring v.
Proof.
  intros [<-|[<-|[<-|[<-|[]]]]] H; injection H as <-; cbn [cast]; reflexivity.
Qed.
Lemma signed_type ring : signed ring -> exists d, get_type_from_ring ring = Ok d /\ d <> TBool.
Proof. intros [<-|[<-|[<-|[<-|[]]]]]; eexists; (split; [reflexivity|discriminate]). Qed.
Lemma signed_even ring : signed ring -> ring = 2 * (ring / 2).
Proof. intros [<-|[<-|[<-|[<-|[]]]]]; reflexivity. Qed.
Lemma signed_range ring v : signed ring -> (in_ring ring v <-> - (ring / 2) <= v < ring / 2).
Proof.
  intros S. pose proof (signed_even ring S) as E. pose proof (signed_pos ring S) as P. destruct (signed_supported ring S) as (_ & N2 & N67).
  unfold in_ring, to_ring. assert (F : ((ring =? 2) || (ring =? 67))%bool = false) by (apply orb_false_iff; split; apply Z.eqb_neq; auto).
  rewrite F. set (h := ring / 2) in *. clearbody h. subst ring. split; intros H.
  - pose proof (Z.mod_pos_bound (v + h) (2 * h) P). lia.
  - rewrite Z.mod_small by lia. lia.
Qed.

(** an object without session, of a signed ring *)
Definition stored (c : config) (ring : Z) (x : share) : Prop :=
  so_uuid x = None /\ so_cfg x = c /\ so_ring x = ring /\ get_type_from_ring ring = Ok (so_type x) /\
  tensor_in ring (tsh (so_ten x)) (so_ten x).
(** the tensor an operand stands for *)
Definition operand_ok (c : config) (ring : Z) (y : operand_s) : Prop :=
  match y with inl b => stored c ring b | inr p => pub_ok p end.
Definition operand_tensor (c : config) (ring : Z) (y : operand_s) : tensor :=
  match y with inl b => so_ten b | inr p => mkT (pub_shape p) (map (to_ring ring) (encode c (pub_vals p))) end.

Lemma so_new_stored c ring p : signed ring -> pub_ok p ->
  exists b, so_new c None ring p = Ok b /\ stored c ring b /\ so_ten b = mkT (pub_shape p) (map (to_ring ring) (encode c (pub_vals p))).
Proof.
  intros S P. destruct (signed_type ring S) as (d & T & _). unfold so_new. rewrite T. cbn [rbind].
  destruct (share_init_in c p P) as [I E]. rewrite E. cbn [tsh tdat].
  assert (M : map (cast d) (encode c (pub_vals p)) = map (to_ring ring) (encode c (pub_vals p))).
  { apply map_ext. intros v. apply signed_cast; auto. }
  rewrite M. eexists; split; [reflexivity|]. split; [|reflexivity]. unfold stored; cbn [so_uuid so_cfg so_ring so_type so_ten tsh].
  do 4 (split; [auto|]). split; [reflexivity|]. cbn [tdat]. destruct I as (_ & L & _). cbn [tdat] in L. rewrite map_length. split; [auto|].
  apply Forall_map, Forall_forall. intros v _. apply in_to_ring, signed_pos, S.
Qed.

Lemma sanity_ok env c ring x y : signed ring -> stored c ring x -> operand_ok c ring y ->
  exists b, sanity env x y = Ok b /\ stored c ring b /\ so_ten b = operand_tensor c ring y.
Proof.
  intros S (U & C & R & T & I) O. destruct y as [b|p]; cbn [operand_ok operand_tensor sanity] in *.
  - exists b. destruct O as (U' & O). rewrite U'. split; [reflexivity|]. split; [split; auto|reflexivity].
  - rewrite U. cbn [rbind fst snd]. rewrite C, R. apply so_new_stored; auto.
Qed.

Lemma result_type_same c ring a b : stored c ring a -> stored c ring b -> result_type a b = so_type a.
Proof.
  intros (_ & _ & _ & T & _) (_ & _ & _ & T' & _). rewrite T in T'. injection T' as E. unfold result_type. rewrite <- E.
  destruct (so_type a), (tsh (so_ten a)), (tsh (so_ten b)); reflexivity.
Qed.

Definition s_op (o : sop) (ring : Z) (x y : list Z) : list Z := map2 (fun a b => to_ring ring (sop_elt o a b)) x y.

Lemma apply_ok env c ring a b so o : signed ring -> stored c ring a -> stored c ring b -> o <> SMatmul ->
  bshape (tsh (so_ten a)) (tsh (so_ten b)) so ->
  exists z, apply_function env a b o = Ok z /\ stored c ring z /\
    so_ten z = mkT so (s_op o ring (bexpand (tsh (so_ten a)) so (tdat (so_ten a))) (bexpand (tsh (so_ten b)) so (tdat (so_ten b)))).
Proof.
  intros S A B O H. pose proof (result_type_same _ _ _ _ A B) as RT.
  destruct A as (U & C & R & T & I), B as (U' & C' & R' & T' & I').
  destruct (signed_type ring S) as (d & T0 & D). assert (Ed : so_type a = d) by congruence. assert (Ed' : so_type b = d) by congruence.
  destruct (signed_supported ring S) as (Sup & _).
  assert (W : tbin (fun x y => cast d (sop_elt o (cast d x) (cast d y))) (so_ten a) (so_ten b) =
    Ok (mkT so (s_op o ring (bexpand (tsh (so_ten a)) so (tdat (so_ten a))) (bexpand (tsh (so_ten b)) so (tdat (so_ten b)))))).
  { rewrite (tbin_spec _ _ _ so H). do 2 f_equal. unfold s_op. apply map2_ext_in. intros x y Hin.
    pose proof (bexpand_in ring (tsh (so_ten a)) so _ Sup (proj2 (proj2 I))) as Ia.
    pose proof (bexpand_in ring (tsh (so_ten b)) so _ Sup (proj2 (proj2 I'))) as Ib.
    rewrite !(signed_cast ring d) by auto.
    rewrite (proj1 (Forall_forall _ _) Ia x (in_combine_l _ _ _ _ Hin)), (proj1 (Forall_forall _ _) Ib y (in_combine_r _ _ _ _ Hin)). reflexivity. }
  assert (TO : torch_op o a b = Ok (d, mkT so (s_op o ring (bexpand (tsh (so_ten a)) so (tdat (so_ten a))) (bexpand (tsh (so_ten b)) so (tdat (so_ten b)))))).
  { unfold torch_op. rewrite RT, Ed, Ed'.
    assert (NB : dtype_eqb d TBool = false) by (destruct d; auto; congruence).
    rewrite NB. cbn [orb].
    destruct o; try congruence; change Z.sub with (sop_elt SSub); rewrite W; reflexivity. }
  unfold apply_function. rewrite TO. cbn [rbind fst snd]. rewrite U, U'. cbn [rbind fst snd]. rewrite C, R.
  eexists; split; [reflexivity|]. split; [|reflexivity]. unfold stored; cbn [so_uuid so_cfg so_ring so_type so_ten tsh].
  do 4 (split; [auto|]). split; [reflexivity|]. cbn [tdat]. unfold s_op. split.
  - apply map2_length_eq; apply bexpand_length.
  - apply map2_to_ring_in. exact Sup.
Qed.

Lemma scale_fits ring d s : signed ring -> get_type_from_ring ring = Ok d -> 1 <= s < ring / 2 -> cast d s = s.
Proof. intros S T H. rewrite (signed_cast ring) by auto. apply signed_range; auto. lia. Qed.

Lemma rescale_ok c ring x b r : signed ring -> stored c ring x -> stored c ring b -> stored c ring r -> 1 <= scale c < ring / 2 ->
  exists z, rescale x b r = Ok z /\ stored c ring z /\
    so_ten z = mkT (tsh (so_ten r)) (map (fun v => Z.quot v (scale c)) (tdat (so_ten r))).
Proof.
  intros S (U & C & _) (U' & _) (Ur & Cr & Rr & Tr & I) Hs. unfold rescale. rewrite U, U'.
  destruct (signed_type ring S) as (d & T0 & D). assert (Ed : so_type r = d) by congruence. rewrite Ed.
  assert (NB : dtype_eqb d TBool = false) by (destruct d; auto; congruence). rewrite NB, C. unfold floordiv.
  rewrite (scale_fits ring) by auto. assert (Q : (scale c =? 0) = false) by lia. rewrite Q. cbn [rbind].
  assert (M : forall v, In v (tdat (so_ten r)) -> cast d (Z.quot v (scale c)) = Z.quot v (scale c) /\ in_ring ring (Z.quot v (scale c))).
  { intros v Hv. pose proof (proj1 (Forall_forall _ _) (proj2 (proj2 I)) v Hv) as Iv. apply signed_range in Iv; auto.
    assert (B : in_ring ring (Z.quot v (scale c))).
    { apply signed_range; auto. destruct (Z_le_dec 0 v).
      - pose proof (Z.quot_le_upper_bound v (scale c) v ltac:(lia) ltac:(nia)). pose proof (Z.quot_pos v (scale c) ltac:(lia) ltac:(lia)). lia.
      - pose proof (Z.quot_le_upper_bound (- v) (scale c) (- v) ltac:(lia) ltac:(nia)).
        pose proof (Z.quot_pos (- v) (scale c) ltac:(lia) ltac:(lia)). rewrite Z.quot_opp_l in * by lia. lia. }
    split; auto. rewrite (signed_cast ring) by auto. exact B. }
  rewrite (map_ext_in _ (fun v => Z.quot v (scale c)) (tdat (so_ten r))) by (intros v Hv; apply M, Hv).
  eexists; split; [reflexivity|]. split; [|reflexivity].
  unfold stored; cbn [so_uuid so_cfg so_ring so_type so_ten tsh]. do 4 (split; [congruence|]). split; [reflexivity|]. cbn [tdat].
  rewrite map_length. split; [apply I|]. apply Forall_map, Forall_forall. intros v Hv. apply M, Hv.
Qed.

Lemma torch_matmul env c ring a b m k n : signed ring -> stored c ring a -> stored c ring b ->
  tsh (so_ten a) = [m; k] -> tsh (so_ten b) = [k; n] ->
  exists z, apply_function env a b SMatmul = Ok z /\ stored c ring z /\ tsh (so_ten z) = [m; n] /\
    forall r q, (r < m)%nat -> (q < n)%nat -> nth (r * n + q) (tdat (so_ten z)) 0 =
      to_ring ring (zsum (map (fun t => nth (r * k + t) (tdat (so_ten a)) 0 * nth (t * n + q) (tdat (so_ten b)) 0) (seq 0 k))).
Proof.
  intros S A B Ha Hb. pose proof (result_type_same _ _ _ _ A B) as RT.
  destruct A as (U & C & R & T & I), B as (U' & C' & R' & T' & I').
  destruct (signed_type ring S) as (d & T0 & D). assert (Ed : so_type a = d) by congruence. assert (Ed' : so_type b = d) by congruence.
  unfold apply_function, torch_op. rewrite RT, Ed, Ed', Ha, Hb.
  assert (NB : dtype_eqb d TBool = false) by (destruct d; auto; congruence). assert (SB : dtype_eqb d d = true) by (destruct d; auto).
  rewrite NB, SB. cbn [orb negb].
  assert (BI : bil_index BMatmul [m; k] [k; n] = Some ([m; n], map (map (fun q => (fst q, snd q))) (ix_matmul m k n))).
  { cbn [bil_index matmul_index]. unfold mm_index. cbn [rev app]. rewrite Nat.eqb_refl. cbn. rewrite app_nil_r. reflexivity. }
  assert (ID : map (map (fun q : nat * nat => (fst q, snd q))) (ix_matmul m k n) = ix_matmul m k n).
  { transitivity (map (fun l : list (nat * nat) => l) (ix_matmul m k n)); [|apply map_id]. apply map_ext. intros l.
    transitivity (map (fun q : nat * nat => q) l); [|apply map_id]. apply map_ext. intros []; reflexivity. }
  rewrite ID in BI. rewrite BI. cbn [rbind fst snd]. rewrite U, U'. cbn [rbind fst snd]. rewrite C, R.
  eexists; split; [reflexivity|]. cbn [so_ten tsh tdat]. split; [|split; [reflexivity|]].
  - unfold stored; cbn [so_uuid so_cfg so_ring so_type so_ten tsh]. do 4 (split; [auto|]). split; [reflexivity|]. cbn [tdat].
    rewrite map_length, ix_matmul_length. split; [cbn [numel fold_right]; lia|].
    apply Forall_map, Forall_forall. intros ps _. rewrite (signed_cast ring) by auto. apply in_to_ring, signed_pos, S.
  - intros r q Hr Hq.
    rewrite (nth_map_in _ []) by (rewrite ix_matmul_length; nia). rewrite (signed_cast ring) by auto.
    rewrite ix_matmul_nth by auto. rewrite map_map. reflexivity.
Qed.

(** values as rational numbers *)
Lemma Qscale_nz c : 1 <= c_base c -> ~ (inject_Z (scale c) == 0)%Q.
Proof. intros H E. pose proof (scale_Q_pos c H) as P. rewrite E in P. discriminate. Qed.
Lemma decode_add c a b : 1 <= c_base c -> (decode1 c (a + b) == decode1 c a + decode1 c b)%Q.
Proof. intros H. rewrite !decode1_correct by auto. rewrite inject_Z_plus. field. apply Qscale_nz, H. Qed.
Lemma decode_sub c a b : 1 <= c_base c -> (decode1 c (a - b) == decode1 c a - decode1 c b)%Q.
Proof. intros H. rewrite !decode1_correct by auto. unfold Z.sub. rewrite inject_Z_plus, inject_Z_opp. field. apply Qscale_nz, H. Qed.
Lemma quot_close s p : 1 <= s -> Z.abs (Z.quot p s * s - p) < s.
Proof.
  intros H. pose proof (Z.quot_rem' p s) as E.
  destruct (Z_le_dec 0 p); [pose proof (Z.rem_bound_pos p s ltac:(lia) ltac:(lia)) | pose proof (rem_bound_neg p s ltac:(lia) ltac:(lia))]; nia.
Qed.
Lemma decode_quot c p : 1 <= c_base c -> (Qabs (decode1 c (Z.quot p (scale c)) - inject_Z p / (inject_Z (scale c) * inject_Z (scale c))) < / inject_Z (scale c))%Q.
Proof.
  intros H. pose proof (scale_pos c H) as Hs. pose proof (scale_Q_pos c H) as P. rewrite decode1_correct by auto. set (s := scale c) in *.
  assert (E : (inject_Z (Z.quot p s) / inject_Z s - inject_Z p / (inject_Z s * inject_Z s) == inject_Z (Z.quot p s * s - p) * / (inject_Z s * inject_Z s))%Q).
  { unfold Z.sub. rewrite inject_Z_plus, inject_Z_mult, inject_Z_opp. field. apply Qscale_nz, H. }
  rewrite E, Qabs_Qmult. rewrite (Qabs_pos (/ (inject_Z s * inject_Z s))).
  2:{ apply Qinv_le_0_compat. apply Qmult_le_0_compat; apply Qlt_le_weak; auto. }
  assert (A : (Qabs (inject_Z (Z.quot p s * s - p)) < inject_Z s)%Q).
  { change (Qabs (inject_Z (Z.quot p s * s - p))) with (inject_Z (Z.abs (Z.quot p s * s - p))). rewrite <- Zlt_Qlt. apply quot_close. lia. }
  apply (Qmult_lt_r _ _ (inject_Z s * inject_Z s)).
  { rewrite <- inject_Z_mult. change 0%Q with (inject_Z 0). rewrite <- Zlt_Qlt. nia. }
  assert (N := Qscale_nz c H). fold s in N.
  assert (E1 : (Qabs (inject_Z (Z.quot p s * s - p)) * / (inject_Z s * inject_Z s) * (inject_Z s * inject_Z s) == Qabs (inject_Z (Z.quot p s * s - p)))%Q) by (field; auto).
  assert (E2 : (/ inject_Z s * (inject_Z s * inject_Z s) == inject_Z s)%Q) by (field; auto).
  rewrite E1, E2. exact A.
Qed.
Lemma decode_mono c a b : 1 <= c_base c -> (decode1 c a < decode1 c b)%Q <-> a < b.
Proof.
  intros H. rewrite !decode1_correct by auto. pose proof (scale_Q_pos c H) as P. unfold Qdiv.
  rewrite (Qmult_lt_r _ _ (/ inject_Z (scale c))) by (apply Qinv_lt_0_compat; auto). rewrite <- Zlt_Qlt. reflexivity.
Qed.

(** a sum of decoded products is the decoded sum of products up to the scale *)
Fixpoint qsum (l : list Q) : Q := match l with [] => 0%Q | x :: r => (x + qsum r)%Q end.
Lemma qsum_products {A} c (f g : A -> Z) l : 1 <= c_base c ->
  (qsum (map (fun t => decode1 c (f t) * decode1 c (g t)) l) == inject_Z (zsum (map (fun t => f t * g t)%Z l)) / (inject_Z (scale c) * inject_Z (scale c)))%Q.
Proof.
  intros H. induction l as [|t l IH]; cbn [map qsum zsum].
  - unfold Qdiv. change (inject_Z 0) with 0%Q. ring.
  - rewrite IH, !decode1_correct by auto. rewrite inject_Z_plus, inject_Z_mult. field. apply Qscale_nz, H.
Qed.
