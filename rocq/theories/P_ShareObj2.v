(** C72, continued: division by an integer, the forwarded methods, decoding and xor of share objects
    that belong to no session. *)
From Coq Require Import QArith Qabs.
From Verif Require Import Util Modular S_Ring S_Tensor S_Bil S_View M_Torch L_Torch M_Encoder L_Encoder M_Tensor L_Tensor M_Share L_Share L_View M_Dtype
  M_ShareObj L_ShareObj P_ShareObj.
Local Open Scope Z_scope.

Lemma stored_R64 c ring x : signed ring -> stored c ring x -> vec_in R64 (tdat (so_ten x)).
Proof.
  intros S (_ & _ & _ & _ & _ & _ & V). eapply Forall_impl; [|exact V]. intros v H.
  assert (S64 : signed R64) by (right; right; right; left; reflexivity).
  apply (signed_range R64 v S64). apply (signed_range ring v S) in H.
  destruct S as [<-|[<-|[<-|[<-|[]]]]]; revert H; clear; [change (2^8/2) with 128|change (2^16/2) with 32768|change (2^32/2) with 2147483648|change (2^64/2) with 9223372036854775808];
    change (R64/2) with 9223372036854775808; lia.
Qed.

(** C72: dividing by an integer that the ring can represent truncates every element toward zero (the
    smallest element divided by -1 is left out); the result has the shape and the configuration
    of the operand. *)
Theorem C72_division : forall c ring x k, signed ring -> stored c ring x -> fits ring k -> k <> 0 ->
  (forall v, In v (tdat (so_ten x)) -> v <> - (ring / 2) \/ k <> -1) ->
  exists z, so_div x k = Ok z /\ so_uuid z = None /\ so_cfg z = c /\ so_type z = so_type x /\ tsh (so_ten z) = tsh (so_ten x) /\
    length (tdat (so_ten z)) = length (tdat (so_ten x)) /\
    forall e, let v := nth e (tdat (so_ten x)) 0 in let w := nth e (tdat (so_ten z)) 0 in
      Z.abs (w * k) <= Z.abs v < Z.abs (w * k) + Z.abs k /\ 0 <= v * (w * k).
Proof.
  intros c ring x k S X F N M. pose proof (stored_R64 _ _ _ S X) as V64. destruct X as (U & C & R & T & X1 & X2 & X3).
  destruct (signed_type ring S) as (d & Td & ND). rewrite T in Td. injection Td as Td.
  unfold so_div. replace (match so_type x with TBool => TI64 | d0 => d0 end) with (so_type x) by (rewrite Td; destruct d; auto; congruence).
  unfold floordiv. rewrite (signed_cast ring _ k S T). rewrite (to_ring_fits ring k S F).
  replace (k =? 0) with false by (symmetry; apply Z.eqb_neq; exact N). cbn [rbind]. eexists. split; [reflexivity|]. cbn [so_uuid so_cfg so_type so_ten tsh tdat].
  split; [exact U|]. split; [exact C|]. split; [reflexivity|]. split; [reflexivity|]. split; [apply map_length|].
  intros e. set (v := nth e (tdat (so_ten x)) 0). match goal with |- context [nth e (map ?F ?L) 0] => set (w := nth e (map F L) 0) end.
  assert (EW : w = Z.quot v k).
  { subst v w. destruct (Nat.lt_ge_cases e (length (tdat (so_ten x)))) as [He|He].
    - rewrite (nth_map_in _ 0) by exact He. rewrite (signed_cast ring _ _ S T). apply to_ring_fits; [exact S|].
      assert (I : In (nth e (tdat (so_ten x)) 0) (tdat (so_ten x))) by (apply nth_In; exact He).
      specialize (M _ I). pose proof (proj1 (Forall_forall _ _) X3 _ I) as X3e. apply (signed_range ring _ S) in X3e.
      set (v := nth e (tdat (so_ten x)) 0) in *. unfold fits. clear - N M X3e.
      destruct (Z.eq_dec k (-1)) as [->|K].
      + destruct M as [M|M]; [|congruence]. change (-1) with (-(1)). rewrite Z.quot_opp_r, Z.quot_1_r by lia. lia.
      + destruct (Z.eq_dec k 1) as [->|K1]; [rewrite Z.quot_1_r; lia|].
        pose proof (Z.quot_rem v k N) as Q. pose proof (Z.rem_bound_abs v k N) as B.
        assert (A : Z.abs (Z.quot v k) * 2 <= Z.abs v).
        { rewrite <- Z.quot_abs by exact N. pose proof (Z.mul_quot_le (Z.abs v) (Z.abs k) ltac:(lia) ltac:(lia)) as Y.
          pose proof (Z.quot_pos (Z.abs v) (Z.abs k) ltac:(lia) ltac:(lia)) as P. assert (2 <= Z.abs k) by lia. nia. }
        lia.
    - rewrite !nth_overflow by (rewrite ?map_length; exact He). rewrite Z.quot_0_l by exact N. reflexivity. }
  rewrite EW. clear EW w. pose proof (Z.quot_rem v k N) as Q. pose proof (Z.rem_bound_abs v k N) as B.
  pose proof (Z.rem_sign_mul v k N) as Sg. set (q := Z.quot v k) in *. set (r := Z.rem v k) in *.
  replace (q * k) with (v - r) by lia. destruct (Z_le_gt_dec 0 v) as [Hv|Hv].
  - assert (0 <= r) by (subst r; apply Z.rem_nonneg; lia). assert (r <= v).
    { subst r. rewrite <- (Z.abs_eq v), <- (Z.rem_abs_r _ k) by lia. apply Z.rem_le; lia. }
    nia.
  - assert (r <= 0) by (subst r; apply Z.rem_nonpos; lia). assert (v <= r).
    { subst r. rewrite <- (Z.opp_involutive v) at 2. rewrite Z.rem_opp_l by lia. rewrite <- (Z.rem_abs_r _ k) by lia.
      pose proof (Z.rem_le (- v) (Z.abs k) ltac:(lia) ltac:(lia)). lia. }
    nia.
Qed.
Print Assumptions C72_division.
Example C72_division_witness : let c := mkConfig 2 4 in let x := mkShare None c (2^8) TI8 (mkT [3]%nat [-128; 7; -7]) in
  signed (2^8) /\ stored c (2^8) x /\ fits (2^8) (-3) /\
  (do z <- so_div x (-3); Ok (so_ten z, so_type z)) = Ok (mkT [3]%nat [42; -2; 2], TI8).
Proof. cbn zeta. split; [left; reflexivity|]. split; [repeat constructor|]. split; [split; [vm_compute; discriminate|reflexivity]|]. vm_compute. reflexivity. Qed.

(** C72: division by 0 raises. *)
Theorem C72_division_zero : forall c ring x, signed ring -> stored c ring x -> so_div x 0 = Err RuntimeError.
Proof.
  intros c ring x S (_ & _ & _ & T & _). destruct (signed_type ring S) as (d & Td & ND). rewrite T in Td. injection Td as Td.
  unfold so_div, floordiv. rewrite Td. destruct S as [<-|[<-|[<-|[<-|[]]]]]; injection T as T; rewrite Td in T; subst d; reflexivity.
Qed.
Print Assumptions C72_division_zero.
Example C72_division_zero_witness : signed (2^16) /\ stored (mkConfig 2 4) (2^16) (mkShare None (mkConfig 2 4) (2^16) TI16 (mkT [2;1]%nat [40; -7])).
Proof. split; [right; left; reflexivity|]. repeat constructor. Qed.

(** C72: the forwarded methods (t, transpose, reshape, repeat, narrow, roll, sum, clone) give the
    elements of the tensor at the positions of S_View.v; sums are sums modulo 2^64 whatever the ring
    of the object; configuration and session (none) are kept. *)
Theorem C72_methods : forall c ring x v so f, signed ring -> stored c ring x -> viewed v (tsh (so_ten x)) so f ->
  exists z, so_view v x = Ok z /\ so_uuid z = None /\ so_cfg z = c /\ so_shape z = so /\ tdat (so_ten z) = f (tdat (so_ten x)) /\
    so_type z = (match v with VSum | VSumDim _ | VSumFirst _ | VSumKeep _ => TI64 | _ => so_type x end).
Proof.
  intros c ring x v so f S X H. pose proof (stored_R64 _ _ _ S X) as V64. destruct X as (U & C & R & T & X1 & X2 & X3).
  pose proof (view_spec v _ so f (tdat (so_ten x)) H X2 V64) as E. change (2^64) with R64 in E.
  unfold so_view. destruct (so_ten x) as [tx dx]. cbn [tsh tdat] in *. rewrite E. cbn [rbind]. eexists. split; [reflexivity|].
  cbn [so_uuid so_cfg so_shape so_ten tsh tdat so_type]. split; [exact U|]. split; [exact C|]. split; [reflexivity|]. split; [reflexivity|].
  destruct v; reflexivity.
Qed.
Print Assumptions C72_methods.
Example C72_methods_witness : let c := mkConfig 2 4 in let x := mkShare None c (2^8) TI8 (mkT [2;2]%nat [100; 90; -3; 4]) in
  signed (2^8) /\ stored c (2^8) x /\ (exists f, viewed VT [2;2]%nat [2;2]%nat f) /\ (exists f, viewed (VSumDim 1) [2;2]%nat [2]%nat f) /\
  (do z <- so_view VT x; Ok (so_ten z, so_type z)) = Ok (mkT [2;2]%nat [100; -3; 90; 4], TI8) /\
  (do z <- so_view (VSumDim 1) x; Ok (so_ten z, so_type z)) = Ok (mkT [2]%nat [190; 1], TI64).
Proof.
  cbn zeta. split; [left; reflexivity|]. split; [repeat constructor|].
  split; [eexists; constructor|]. split; [eexists; apply (vw_sumdim 1 [2;2]%nat); cbn; lia|]. split; vm_compute; reflexivity.
Qed.

(** C72: decoding gives one number per element, the stored integer over the scale (the integers
    themselves if the precision is 0). *)
Theorem C72_decode : forall c ring x, stored c ring x -> 1 <= c_base c ->
  (c_prec c <> 0%nat -> exists l, so_decode x = Ok (TFloat l) /\ length l = so_numel x /\
     forall e, (e < so_numel x)%nat -> (nth e l 0 == inject_Z (nth e (tdat (so_ten x)) 0%Z) / inject_Z (c_base c ^ Z.of_nat (c_prec c)))%Q) /\
  (c_prec c = 0%nat -> so_decode x = Ok (TLong (tdat (so_ten x))) /\ length (tdat (so_ten x)) = so_numel x).
Proof.
  intros c ring x (U & C & R & T & X1 & X2 & X3) Hb. unfold so_decode, so_numel. rewrite C. cbn [decode]. split; intros P.
  - apply Nat.eqb_neq in P. rewrite P. eexists. split; [reflexivity|]. rewrite map_length. split; [exact X2|].
    intros e He. rewrite (nth_map_in _ 0%Z) by lia. apply decode1_correct. exact Hb.
  - rewrite P. cbn [Nat.eqb]. split; [reflexivity|exact X2].
Qed.
Print Assumptions C72_decode.
Example C72_decode_witness : let c := mkConfig 10 1 in let x := mkShare None c (2^16) TI16 (mkT [2;1]%nat [-47; 130]) in
  stored c (2^16) x /\ 1 <= c_base c /\ c_prec c <> 0%nat /\ (exists l, so_decode x = Ok (TFloat l)) /\ (decode1 c (-47) == -47 # 10)%Q.
Proof. cbn zeta. split; [repeat constructor|]. split; [cbn; lia|]. split; [discriminate|]. split; [eexists; reflexivity|]. reflexivity. Qed.

Lemma lxor_fits ring a b : signed ring -> fits ring a -> fits ring b -> fits ring (Z.lxor a b).
Proof.
  intros S A B.
  assert (E : exists k, 0 <= k /\ ring / 2 = 2 ^ k).
  { destruct S as [<-|[<-|[<-|[<-|[]]]]]; [exists 7|exists 15|exists 31|exists 63]; (split; [lia|reflexivity]). }
  destruct E as (k & K & E). unfold fits in *. rewrite E in *. clear E S.
  assert (P : 0 < 2 ^ k) by (apply Z.pow_pos_nonneg; lia).
  assert (G : forall v, - 2^k <= v < 2^k <-> Z.shiftr v k = 0 \/ Z.shiftr v k = -1).
  { intros v. rewrite Z.shiftr_div_pow2 by exact K. pose proof (Z.div_mod v (2^k) ltac:(lia)) as D. pose proof (Z.mod_pos_bound v (2^k) P) as M.
    split.
    - intros H. assert (-1 <= v / 2^k) by (apply Z.div_le_lower_bound; lia). assert (v / 2^k < 1) by (apply Z.div_lt_upper_bound; lia). lia.
    - intros [H|H]; rewrite H in D; lia. }
  apply G. apply G in A. apply G in B. rewrite Z.shiftr_lxor. destruct A as [->| ->], B as [->| ->]; cbn; auto.
Qed.

(** C72: the exclusive or of two objects of one ring acts on each bit of each element. *)
Theorem C72_xor : forall env c ring x y so, signed ring -> stored c ring x -> stored c ring y ->
  bshape (tsh (so_ten x)) (tsh (so_ten y)) so ->
  exists z, so_xor env x (inl y) = Ok z /\ stored c ring z /\ so_shape z = so /\
    forall e i, (e < numel so)%nat -> 0 <= i ->
      Z.testbit (nth e (tdat (so_ten z)) 0) i = xorb (Z.testbit (entry (so_ten x) so e) i) (Z.testbit (entry (so_ten y) so e) i).
Proof.
  intros env c ring x y so S X Y H.
  destruct (apply_ok env c ring x y so SXor S X Y ltac:(discriminate) H) as (z & E & Z1 & Z2).
  exists z. split; [exact E|]. split; [exact Z1|]. unfold so_shape. rewrite Z2. cbn [tsh tdat]. split; [reflexivity|].
  intros e i He Hi. rewrite s_op_nth by exact He. cbn [sop_elt]. rewrite to_ring_fits; [apply Z.lxor_spec|exact S|].
  destruct X as (_ & _ & _ & _ & _ & _ & X3), Y as (_ & _ & _ & _ & _ & _ & Y3).
  apply lxor_fits; [exact S| |]; unfold fits; apply signed_range; auto; unfold bget; apply nth_in_ring; auto using signed_pos; apply signed_supported; auto.
Qed.
Print Assumptions C72_xor.
Example C72_xor_witness : let c := mkConfig 2 4 in let x := mkShare None c (2^8) TI8 (mkT [2;1]%nat [100; -3]) in
  let y := mkShare None c (2^8) TI8 (mkT [2]%nat [-1; 7]) in
  signed (2^8) /\ stored c (2^8) x /\ stored c (2^8) y /\ bshape [2;1]%nat [2]%nat [2;2]%nat /\
  (do z <- so_xor (fun _ => None) x (inl y); Ok (so_ten z)) = Ok (mkT [2;2]%nat [-101; 99; 2; -6]).
Proof. cbn zeta. split; [left; reflexivity|]. split; [repeat constructor|]. split; [repeat constructor|]. split; [apply bcast_spec; reflexivity|]. vm_compute. reflexivity. Qed.

(** the ring in which objects of the rings [r] and [r'] are combined: the larger one, except that a
    tensor without dimensions does not enlarge the ring of the other *)
Definition common (r r' : Z) (sh sh' : list nat) : Z :=
  match sh, sh' with
  | [], _ :: _ => r'
  | _ :: _, [] => r
  | _, _ => Z.max r r'
  end.

(** C72: objects of different rings are combined in the common one, while the result is said to be
    of the ring of the first. *)
Theorem C72_widths : forall env c c' r r' x y so, signed r -> signed r' -> stored c r x -> stored c' r' y ->
  bshape (tsh (so_ten x)) (tsh (so_ten y)) so ->
  let m := common r r' (tsh (so_ten x)) (tsh (so_ten y)) in
  (exists z, so_add env x (inl y) = Ok z /\ so_ring z = r /\ so_cfg z = c /\ get_type_from_ring m = Ok (so_type z) /\ so_shape z = so /\
     forall e, (e < numel so)%nat -> nth e (tdat (so_ten z)) 0 = to_ring m (entry (so_ten x) so e + entry (so_ten y) so e)) /\
  (exists z, so_sub env x (inl y) = Ok z /\ so_ring z = r /\ so_cfg z = c /\ get_type_from_ring m = Ok (so_type z) /\ so_shape z = so /\
     forall e, (e < numel so)%nat -> nth e (tdat (so_ten z)) 0 = to_ring m (entry (so_ten x) so e - entry (so_ten y) so e)).
Proof.
  intros env c c' r r' x y so S S' X Y H m.
  assert (E : get_type_from_ring m = Ok (result_type x y) /\ signed m).
  { destruct X as (_ & _ & _ & T & _), Y as (_ & _ & _ & T' & _). subst m. unfold result_type, common.
    destruct (tsh (so_ten x)) as [|a l], (tsh (so_ten y)) as [|a' l'];
    (destruct S as [<-|[<-|[<-|[<-|[]]]]]; injection T as T; destruct S' as [<-|[<-|[<-|[<-|[]]]]]; injection T' as T'; rewrite <- T, <- T';
     (split; [reflexivity|]); vm_compute; tauto). }
  destruct E as (ET & Sm). set (d := result_type x y) in *.
  assert (ND : so_type x <> TBool /\ so_type y <> TBool).
  { destruct X as (_ & _ & _ & T & _), Y as (_ & _ & _ & T' & _).
    destruct (signed_type r S) as (d1 & T1 & N1), (signed_type r' S') as (d2 & T2 & N2). split; congruence. }
  destruct X as (U & C & R & T & X1 & X2 & X3), Y as (U' & C' & R' & T' & Y1 & Y2 & Y3). destruct ND as (N1 & N2).
  unfold so_add, so_sub, sanity. rewrite U, U'. cbn [rbind]. unfold apply_function, torch_op. fold d.
  assert (B : (dtype_eqb (so_type x) TBool || dtype_eqb (so_type y) TBool)%bool = false) by (destruct (so_type x), (so_type y); auto; congruence).
  rewrite B. rewrite !(tbin_spec _ _ _ so H). cbn [rbind fst snd]. rewrite U, U'. cbn [rbind fst snd]. rewrite C, R.
  assert (Pos : 0 < m) by (apply signed_pos; exact Sm).
  split; (eexists; split; [reflexivity|]; cbn [so_ring so_cfg so_type so_shape so_ten tsh tdat]; split; [reflexivity|]; split; [reflexivity|];
    split; [exact ET|]; split; [reflexivity|]; intros e He; rewrite (nth_map2 _ 0 0) by (rewrite bexpand_length; auto);
    rewrite !bexpand_nth by auto; cbn [sop_elt]; rewrite !(signed_cast m d) by auto; unfold entry; apply to_ring_eq).
  - apply eqmod_add; apply to_ring_eqmod; exact Pos.
  - apply eqmod_sub; apply to_ring_eqmod; exact Pos.
Qed.
Print Assumptions C72_widths.
(* an int8 object plus an int16 one without dimensions stays in int8; the other way round it does too *)
Example C72_widths_witness : let c := mkConfig 2 4 in let x := mkShare None c (2^8) TI8 (mkT [2]%nat [100; -3]) in
  let y := mkShare None c (2^16) TI16 (mkT [] [200]) in let y1 := mkShare None c (2^16) TI16 (mkT [1]%nat [200]) in
  signed (2^8) /\ signed (2^16) /\ stored c (2^8) x /\ stored c (2^16) y /\ stored c (2^16) y1 /\ bshape [2]%nat [] [2]%nat /\ bshape [2]%nat [1]%nat [2]%nat /\
  (do z <- so_add (fun _ => None) x (inl y); Ok (tdat (so_ten z), so_ring z)) = Ok ([44; -59], 2^8) /\
  (do z <- so_add (fun _ => None) x (inl y1); Ok (tdat (so_ten z), so_ring z)) = Ok ([300; 197], 2^8).
Proof.
  cbn zeta. split; [left; reflexivity|]. split; [right; left; reflexivity|]. split; [repeat constructor|]. split; [repeat constructor|]. split; [repeat constructor|].
  split; [apply bcast_spec; reflexivity|]. split; [apply bcast_spec; reflexivity|]. split; vm_compute; reflexivity.
Qed.
