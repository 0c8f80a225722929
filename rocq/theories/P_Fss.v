(** C28: comparisons of shared tensors. *)
From Coq Require Import QArith String.
From Verif Require Import Util S_Ring S_Tensor S_Fss M_Torch M_Encoder M_Tensor M_Share M_Spdz M_Store M_Fss
  S_Store L_Share L_Circuit L_Fss3 P_Share P_Store.
Local Open Scope Z_scope.
Local Open Scope list_scope.

(** In a session of two parties, for every correct backend (every mask, every pair of keys
    whose words avoid the two lowest ones), every pair of sharings and every broadcast, the six
    operators return a fixed-point sharing of the truth values of the relation decided on the
    difference taken as a signed 32-bit word; the keys are used up, so the next comparison
    finds the stores as this one did. *)
Theorem C28_exact : forall K alpha ev (gen : fop -> nat -> nat -> result (list (list K))) s r x y so vx vy prim w,
  good_gen (fun o k0 k1 => keys_ok alpha ev o k0 k1 /\ no_carry ev o k0) gen ->
  s_n s = 2%nat -> none_waiting w ->
  length (m_shares x) = 2%nat -> length (m_shares y) = 2%nat ->
  shared (2^64) (m_shape x) vx (m_shares x) -> shared (2^64) (m_shape y) vy (m_shares y) ->
  bshape (m_shape x) (m_shape y) so -> rel_fits r (s_cfg s) (m_shape x) (m_shape y) ->
  exists z w', mpc_rel alpha ev gen s (rop_of r) x y prim w = (Ok z, w') /\ none_waiting w' /\
    m_sid z = s_id s /\ m_shape z = so /\ length (m_shares z) = 2%nat /\
    shared (2^64) so
      (map (fun e => to_ring (2^64) (b2z (relates32 r (bget (m_shape x) so vx e) (bget (m_shape y) so vy e)) * scale (s_cfg s)))
           (seq 0 (numel so))) (m_shares z).
Proof. intros. eapply rel_ok; eauto. Qed.
Print Assumptions C28_exact.

(** C28 for values at a distance below 2^31 - 1 units (a unit is the least fixed-point step):
    the result is the relation between the secrets.  Missing from the full statement: larger
    distances (refuted below), words with a carry (refuted below), other numbers of parties
    (refused below), tensors without dimension for <, > and !=, and != with a precision above
    16 bits. *)
Theorem C28_comparison_partial : forall K alpha ev (gen : fop -> nat -> nat -> result (list (list K))) s r x y so vx vy prim w,
  good_gen (fun o k0 k1 => keys_ok alpha ev o k0 k1 /\ no_carry ev o k0) gen ->
  s_n s = 2%nat -> none_waiting w ->
  length (m_shares x) = 2%nat -> length (m_shares y) = 2%nat ->
  shared (2^64) (m_shape x) vx (m_shares x) -> shared (2^64) (m_shape y) vy (m_shares y) ->
  bshape (m_shape x) (m_shape y) so -> rel_fits r (s_cfg s) (m_shape x) (m_shape y) ->
  0 < scale (s_cfg s) < 2^63 ->
  (forall e, (e < numel so)%nat -> Z.abs (bget (m_shape x) so vx e - bget (m_shape y) so vy e) < 2^31 - 1) ->
  exists z w', mpc_rel alpha ev gen s (rop_of r) x y prim w = (Ok z, w') /\ none_waiting w' /\
    m_sid z = s_id s /\ m_shape z = so /\ length (m_shares z) = 2%nat /\
    reconstruct z = Ok (mkT so (map (fun e => if relates r (bget (m_shape x) so vx e) (bget (m_shape y) so vy e) then scale (s_cfg s) else 0)
                                    (seq 0 (numel so)))).
Proof.
  intros K alpha ev gen s r x y so vx vy prim w HG Hn HW LX LY HX HY Hso HF Hsc HD.
  destruct (C28_exact K alpha ev gen s r x y so vx vy prim w HG Hn HW LX LY HX HY Hso HF) as (z & w' & E & W' & Z1 & Z2 & Z3 & Z4).
  exists z, w'. repeat (split; [assumption|]). unfold reconstruct. change R64 with (2^64).
  rewrite (L_Tensor.shared_tsum (2^64) supR _ _ _ Z4). do 2 f_equal. apply map_ext_in. intros e He. apply in_seq in He.
  rewrite relates32_small by (apply HD; lia). destruct (relates _ _ _); cbn [b2z].
  - rewrite Z.mul_1_l. apply L_Div.to_ring64_small. lia.
  - reflexivity.
Qed.
Print Assumptions C28_comparison_partial.

(** the same for a comparison with a public number or tensor, which is shared first *)
Theorem C28_public_operand_partial : forall K alpha ev (gen : fop -> nat -> nat -> result (list (list K))) s r x p rnd so vx prim w,
  good_gen (fun o k0 k1 => keys_ok alpha ev o k0 k1 /\ no_carry ev o k0) gen ->
  s_n s = 2%nat -> none_waiting w -> length (m_shares x) = 2%nat ->
  shared (2^64) (m_shape x) vx (m_shares x) -> pub_ok p -> draws (2^64) 2 (pub_shape p) rnd ->
  bshape (m_shape x) (pub_shape p) so -> rel_fits r (s_cfg s) (m_shape x) (pub_shape p) ->
  0 < scale (s_cfg s) < 2^63 ->
  let vp := encode (s_cfg s) (pub_vals p) in
  (forall e, (e < numel so)%nat -> Z.abs (bget (m_shape x) so vx e - bget (pub_shape p) so vp e) < 2^31 - 1) ->
  exists y z w', check_or_convert s (inr p) rnd = Ok y /\
    mpc_rel alpha ev gen s (rop_of r) x y prim w = (Ok z, w') /\ none_waiting w' /\ m_shape z = so /\
    reconstruct z = Ok (mkT so (map (fun e => if relates r (bget (m_shape x) so vx e) (bget (pub_shape p) so vp e) then scale (s_cfg s) else 0)
                                    (seq 0 (numel so)))).
Proof.
  intros K alpha ev gen s r x p rnd so vx prim w HG Hn HW LX HX HP HR Hso HF Hsc vp HD.
  destruct (C03_split_reconstruct s p rnd) as (y & EY & _ & Y2 & Y3 & Y4 & _); [lia|auto|rewrite Hn; auto|].
  rewrite <- Y2 in Hso, HF, Y4, HD. rewrite Hn in Y3.
  destruct (C28_comparison_partial K alpha ev gen s r x y so vx vp prim w HG Hn HW LX Y3 HX Y4 Hso HF Hsc HD) as (z & w' & E & W' & _ & Z2 & _ & Z4).
  exists y, z, w'. rewrite <- Y2. repeat (split; [assumption|]). exact Z4.
Qed.
Print Assumptions C28_public_operand_partial.

(** with another number of parties every comparison raises ValueError *)
Theorem C28_two_parties_only : forall K alpha ev (gen : fop -> nat -> nat -> result (list (list K))) s r x y so n,
  two_arrays gen -> n <> 2%nat -> bshape (m_shape x) (m_shape y) so ->
  r = REq \/ r = RLe \/ r = RGe \/ r = RNe -> forall prim,
  fst (mpc_rel alpha ev gen s r x y prim (empty_world [] n)) = Err ValueError.
Proof.
  intros K alpha ev gen s r x y so n HG Hn Hso Hr prim.
  assert (F : forall o x y so, bshape (m_shape x) (m_shape y) so ->
    fst (fss_op alpha ev gen s o x y (empty_world [] n)) = Err ValueError).
  { intros o x' y' so' H. unfold fss_op, shape_bin. rewrite (L_Tensor.bcast_complete _ _ _ H).
    pose proof (C31_two_parties_only K gen o (numel so') n HG Hn) as T.
    destruct (fss_take gen o (numel so') (empty_world [] n)) as [[[m k]|e] w']; [discriminate|]. cbn in T |- *. congruence. }
  destruct Hr as [->|[->|[->| ->]]]; cbn [mpc_rel].
  - eapply F; eauto.
  - eapply F; eauto.
  - eapply F. apply bshape_sym. eauto.
  - pose proof (F FEq x y so Hso) as T. destruct (fss_op alpha ev gen s FEq x y _) as [[z|e] w']; [discriminate|]. exact T.
Qed.
Print Assumptions C28_two_parties_only.

(** a toy backend: a key holds the party's share of the mask, the other share and the word of
    party 0; the word of party 1 completes it *)
Definition tkey : Type := Z * Z * Z.
Definition t_alpha (k : tkey) : Z := fst (fst k).
Definition t_ev (o : fop) (b x : Z) (k : tkey) : Z :=
  let '(a, a', w) := k in if b =? 0 then w else b2z (test o (signed32 (x - a - a'))) - w.
Definition t_gen (a0 a1 w : Z) (o : fop) (i nr : nat) : result (list (list tkey)) :=
  Ok [repeat (a0, a1, w) nr; repeat (a1, a0, w) nr].
Definition fw0 : fworld tkey := mkW [[]; []] false [] 0%nat.

Lemma t_gen_good a0 a1 w (P : fop -> tkey -> Prop) : 0 <= a0 < 2^32 -> 0 <= a1 < 2^32 -> (forall o, P o (a0, a1, w)) ->
  good_gen (fun o k0 k1 => keys_ok t_alpha t_ev o k0 k1 /\ P o k0) (t_gen a0 a1 w).
Proof.
  intros H0 H1 HP o i nr. eexists _, _. split; [reflexivity|]. split; [apply repeat_length|]. split; [apply repeat_length|].
  induction nr as [|nr IH]; cbn [repeat]; constructor; auto. split; [|apply HP]. split; [exact H0|]. split; [exact H1|].
  intros x Hx. cbn [t_ev t_alpha fst Z.eqb].
  replace (x - a1 - a0) with (x - a0 - a1) by ring. f_equal. ring.
Qed.

Definition toy := t_gen 4294967290 1000 77777.
Lemma toy_good : good_gen (fun o k0 k1 => keys_ok t_alpha t_ev o k0 k1 /\ no_carry t_ev o k0) toy.
Proof. apply t_gen_good; [lia|lia|]. intros o x _. cbn [t_ev Z.eqb]. vm_compute. reflexivity. Qed.

Lemma fw0_none : none_waiting fw0.
Proof. exists [], []. split; [reflexivity|]. intros o st [->| ->]; auto. Qed.

(** 1.5, -2, 0 against 1.5, 0, -2^-16 *)
Definition C28_s : sess := mkS 3 2 default_config.
Definition C28_x : mpc := mkM 3 [3%nat] [mkT [3%nat] [5000; 2^62; -7]; mkT [3%nat] [93304; - 2^62 - 131072; 7]].
Definition C28_y : mpc := mkM 3 [3%nat] [mkT [3%nat] [2^63 - 1; 12; 0]; mkT [3%nat] [- 2^63 + 98305; -12; -1]].
Definition C28_run (r : rel) : result tensor :=
  do z <- fst (mpc_rel t_alpha t_ev toy C28_s (rop_of r) C28_x C28_y ([], []) fw0); reconstruct z.

Example C28_witness :
  good_gen (fun o k0 k1 => keys_ok t_alpha t_ev o k0 k1 /\ no_carry t_ev o k0) toy /\ none_waiting fw0 /\
  shared (2^64) [3%nat] [98304; -131072; 0] (m_shares C28_x) /\ shared (2^64) [3%nat] [98304; 0; -1] (m_shares C28_y) /\
  (forall r, rel_fits r (s_cfg C28_s) [3%nat] [3%nat]) /\
  C28_run Rle = Ok (mkT [3%nat] [65536; 65536; 0]) /\ C28_run Rlt = Ok (mkT [3%nat] [0; 65536; 0]) /\
  C28_run Rge = Ok (mkT [3%nat] [65536; 0; 65536]) /\ C28_run Rgt = Ok (mkT [3%nat] [0; 0; 65536]) /\
  C28_run Req = Ok (mkT [3%nat] [65536; 0; 0]) /\ C28_run Rne = Ok (mkT [3%nat] [0; 65536; 65536]).
Proof.
  split; [exact toy_good|]. split; [exact fw0_none|].
  split; [split; [discriminate|]; split; [repeat constructor|reflexivity]|].
  split; [split; [discriminate|]; split; [repeat constructor|reflexivity]|].
  split; [intros []; cbn; repeat split; try lia; try discriminate; left; discriminate|].
  vm_compute. repeat split; reflexivity.
Qed.

(** C28 refuted for distant values: with a correct backend and the default encoder,
    40000 <= 0 holds and 65536 == 0 holds *)
Theorem C28_distant_refuted : exists (gen : fop -> nat -> nat -> result (list (list tkey))) s x x' y z z' w w' w'',
  good_gen (fun o k0 k1 => keys_ok t_alpha t_ev o k0 k1 /\ no_carry t_ev o k0) gen /\ none_waiting w /\
  s_n s = 2%nat /\ s_cfg s = default_config /\
  shared (2^64) [1%nat] [40000 * 65536] (m_shares x) /\ shared (2^64) [1%nat] [65536 * 65536] (m_shares x') /\
  shared (2^64) [1%nat] [0] (m_shares y) /\
  mpc_rel t_alpha t_ev gen s RLe x y ([], []) w = (Ok z, w') /\ reconstruct z = Ok (mkT [1%nat] [65536]) /\
  mpc_rel t_alpha t_ev gen s REq x' y ([], []) w = (Ok z', w'') /\ reconstruct z' = Ok (mkT [1%nat] [65536]).
Proof.
  exists toy, C28_s, (mkM 3 [1%nat] [mkT [1%nat] [5]; mkT [1%nat] [40000 * 65536 - 5]]),
    (mkM 3 [1%nat] [mkT [1%nat] [5]; mkT [1%nat] [65536 * 65536 - 5]]), (mkM 3 [1%nat] [mkT [1%nat] [-9]; mkT [1%nat] [9]]).
  eexists _, _, fw0, _, _. split; [exact toy_good|]. split; [exact fw0_none|]. split; [reflexivity|]. split; [reflexivity|].
  do 3 (split; [split; [discriminate|]; split; [repeat constructor|reflexivity]|]).
  split; [vm_compute; reflexivity|]. split; [reflexivity|]. split; [vm_compute; reflexivity|reflexivity].
Qed.
Print Assumptions C28_distant_refuted.

(** C28 refuted for a backend that is correct modulo 2^32 and returns the lowest word: the
    sign extension of the two words loses a carry, 1 == 1 reconstructs to 1 - 2^32 *)
Theorem C28_carry_refuted : exists (gen : fop -> nat -> nat -> result (list (list tkey))) s x z w w',
  good_gen (fun o k0 k1 => keys_ok t_alpha t_ev o k0 k1) gen /\ none_waiting w /\
  s_n s = 2%nat /\ s_cfg s = default_config /\ shared (2^64) [1%nat] [65536] (m_shares x) /\
  mpc_rel t_alpha t_ev gen s REq x x ([], []) w = (Ok z, w') /\
  reconstruct z = Ok (mkT [1%nat] [(1 - 2^32) * 65536]).
Proof.
  exists (t_gen 4294967290 1000 (- 2^31)), C28_s, (mkM 3 [1%nat] [mkT [1%nat] [5]; mkT [1%nat] [65531]]).
  eexists _, fw0, _. split.
  { intros o i nr. destruct (t_gen_good 4294967290 1000 (- 2^31) (fun _ _ => True) ltac:(lia) ltac:(lia) (fun _ => I) o i nr) as (k0 & k1 & E & L0 & L1 & HF).
    exists k0, k1. repeat (split; [assumption|]). clear -HF. induction HF as [|? ? ? ? [? _]]; constructor; auto. }
  split; [exact fw0_none|]. split; [reflexivity|]. split; [reflexivity|].
  split; [split; [discriminate|]; split; [repeat constructor|reflexivity]|].
  split; [vm_compute; reflexivity|reflexivity].
Qed.
Print Assumptions C28_carry_refuted.
