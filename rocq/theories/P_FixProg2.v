(** C38 (powers), C57 (layers) and C59 (mean squared error) in fixed-point sessions of any number
    of parties, compared with real numbers.  Specification: S_FixProg ([known], [pow_bound],
    [pow_room], [pow_steady], [dot_err]). *)
From Coq Require Import QArith Reals Qreals Lra.
From Verif Require Import Util Modular S_Ring S_Tensor S_Wraps S_Div S_Bil S_Spdz S_View S_Circuit S_Module S_Fixed S_Real S_FixProg
  M_Torch M_Encoder M_Float M_Tensor M_Share M_Spdz M_Circuit M_Conv M_Module M_Loss
  L_Torch L_Tensor L_Encoder L_Share L_Spdz L_Div L_Bil L_Mul L_View L_Circuit L_FixProg L_FixProg2 L_Rep6 P_Conv P_Module P_FixProg.
Local Open Scope Z_scope.
Local Open Scope list_scope.

(** C38 in fixed point, any number of parties, any base and precision: the error is at most
    [pow_bound], which follows the squarings.  Missing from the full statement: tensors without
    dimensions (C38_zero_dim_refuted); runs with a division that is not accurate (C87_carry_refuted). *)
Theorem C38_fixed_parties_partial : forall s sh tri msk x r b p,
  0 < c_base (s_cfg s) -> (2 <= s_n s)%nat -> sh <> [] -> room (s_cfg s) 1 ->
  (forall k, valid_triples sh sh sh (mul_val sh sh sh) (s_n s) (tri k)) ->
  (forall k, any_masks (s_n s) sh (fst (msk k)) (snd (msk k))) ->
  known s sh r b x -> pow_room (s_cfg s) (s_n s) sh p r b None -> pow_steady s p x None 0 tri msk ->
  exists z, mpc_pow s x (Zpos p) tri msk = Ok (inl z) /\
    known s sh (build sh (fun e => rat r e ^ Pos.to_nat p)%R) (pow_bound (s_cfg s) (s_n s) sh p r b None) z.
Proof.
  intros s sh tri msk x r b p Hb Hn Hsh H1 HT HM HX HR HS.
  destruct (pow_near s Hb Hn sh tri msk Hsh H1 HT HM x r b p (known_near s Hb Hn _ _ _ _ HX) HR HS) as (z & E & N).
  exists z. split; [exact E|]. apply near_known. exact N.
Qed.
Print Assumptions C38_fixed_parties_partial.

(** C59 in fixed point, any number of parties: the sum of the squared differences (every shape but
    []) and its quotient by the first dimension, up to stated bounds.  That the quotient is the mean
    is false for more than one dimension (C59_mean_refuted). *)
Definition diff_real (sh : list nat) (rp rt : list R) : list R := build sh (fun e => rat rp e - rat rt e)%R.
Definition diff_err (sh : list nat) (bp bt : list R) : list R := build sh (fun e => rat bp e + rat bt e)%R.
Definition sq_sum (sh : list nat) (rp rt : list R) : R :=
  real_sum (map (fun e => (rat rp e - rat rt e) ^ 2)%R (seq 0 (numel sh))).
Definition sq_bound (s : sess) (sh : list nat) (rp bp rt bt : list R) : R :=
  real_sum (pow_bound (s_cfg s) (s_n s) sh 2 (diff_real sh rp rt) (diff_err sh bp bt) None).
(** the numbers fit: the differences, their squares, the sum of the squares *)
Definition sq_room (s : sess) (sh : list nat) (rp bp rt bt : list R) : Prop :=
  room (s_cfg s) 1 /\
  (forall e, (e < numel sh)%nat -> room (s_cfg s) (mag rp bp e + mag rt bt e)) /\
  pow_room (s_cfg s) (s_n s) sh 2 (diff_real sh rp rt) (diff_err sh bp bt) None /\
  room (s_cfg s) (sq_sum sh rp rt + sq_bound s sh rp bp rt bt).

Theorem C59_fixed_sum_partial : forall s sh pred target rp bp rt bt tri msk prim,
  0 < c_base (s_cfg s) -> (2 <= s_n s)%nat -> sh <> [] ->
  known s sh rp bp pred -> known s sh rt bt target ->
  (forall k, valid_triples sh sh sh (mul_val sh sh sh) (s_n s) (tri k)) ->
  (forall k, any_masks (s_n s) sh (fst (msk k)) (snd (msk k))) ->
  sq_room s sh rp bp rt bt ->
  (forall d, mpc_lin LSub pred target = Ok d -> pow_steady s 2 d None 0 tri msk) ->
  exists z, mse_loss s pred target RSum tri msk prim = Ok z /\
    known s [] [sq_sum sh rp rt] [sq_bound s sh rp bp rt bt] z.
Proof.
  intros s sh pred target rp bp rt bt tri msk prim Hb Hn Hsh HP HT HV HM (H1 & R1 & R2 & R3) HS.
  apply (known_near s Hb Hn) in HP, HT. destruct HP as (vp & (P1 & P2 & P3 & P4) & NP), HT as (vt & (T1 & T2 & T3 & T4) & NT).
  destruct (mpc_lin_shared LSub pred target sh vp vt) as (d & ED & D1 & D2 & D3 & D4); try (rewrite ?P2, ?T2; auto; fail); try congruence.
  { rewrite P2, T2. apply bshape_same. }
  rewrite P2, T2 in D4.
  assert (ND : is_near s sh (diff_real sh rp rt) (diff_err sh bp bt) d).
  { eexists. split; [split; [congruence|split; [exact D2|split; [congruence|exact D4]]]|].
    assert (RR : forall e, (e < numel sh)%nat -> room (s_cfg s) (mag rp bp (bpos sh sh e) + mag rt bt (bpos sh sh e))).
    { intros e He. rewrite (bpos_self s Hn sh e He). apply R1; auto. }
    assert (NL := lin_near_vals s Hb Hn LSub sh sh sh _ _ _ _ _ _ NP NT RR).
    unfold diff_real, diff_err. revert NL. apply (near_ext s Hn); intros e He; cbv beta; rewrite (bpos_self s Hn sh e He); reflexivity. }
  destruct (pow_near s Hb Hn sh tri msk Hsh H1 HV HM d _ _ 2 ND R2 (HS d ED)) as (p & EP & NPW).
  set (pb := pow_bound _ _ _ _ _ _ _) in *.
  assert (LB : length pb = numel sh) by (destruct NPW as (v & _ & _ & _ & L & _); exact L).
  assert (SEQ : forall l : list R, length l = numel sh -> map (rat l) (seq 0 (numel sh)) = l).
  { intros l <-. unfold rat. apply nth_ext with (d := 0%R) (d' := 0%R); rewrite map_length, seq_length; [reflexivity|].
    intros i Hi. rewrite (nth_indep _ 0%R (nth 0 l 0%R)) by (rewrite map_length, seq_length; auto).
    rewrite (map_nth (fun i => nth i l 0%R)), seq_nth by auto. reflexivity. }
  set (sq := build sh (fun e => rat (diff_real sh rp rt) e ^ Pos.to_nat 2)%R) in *.
  assert (ESQ : sq = build sh (fun e => (rat rp e - rat rt e) ^ 2)%R).
  { unfold sq, diff_real, build. apply map_ext_in. intros e He. apply in_seq in He. fold (build sh (fun e => rat rp e - rat rt e)%R).
    rewrite build_nth by lia. reflexivity. }
  assert (LS : length sq = numel sh) by apply build_length.
  assert (S0 : real_sum sq = sq_sum sh rp rt) by (rewrite ESQ; reflexivity).
  destruct (view_near s Hb Hn VSum sh [] (fun _ => seq 0 (numel sh)) _ _ p (pk_sum sh) NPW) as (z & EZ & NZ).
  - intros e He.
    assert (EM : map (mag sq pb) (seq 0 (numel sh)) = map (fun e => rat sq e + rat pb e)%R (seq 0 (numel sh))).
    { apply map_ext_in. intros i Hi. apply in_seq in Hi. unfold mag. rewrite Rabs_right; [reflexivity|].
      rewrite ESQ, build_nth by lia. apply Rle_ge. rewrite <- Rsqr_pow2. apply Rle_0_sqr. }
    assert (ADD : forall l, real_sum (map (fun e => rat sq e + rat pb e)%R l) = (real_sum (map (rat sq) l) + real_sum (map (rat pb) l))%R).
    { induction l as [|i l IH]; cbn [map real_sum fold_right]; [lra|]. unfold real_sum in *. rewrite IH. ring. }
    rewrite EM, ADD, !SEQ, S0 by auto. exact R3.
  - exists z. unfold mse_loss, sq_err. rewrite ED. cbn [rbind]. rewrite EP. cbn [rbind]. split; [exact EZ|].
    apply near_known. unfold real_gather in NZ. rewrite !SEQ in NZ by auto. unfold build in NZ. cbn [numel fold_right seq map] in NZ.
    rewrite S0 in NZ. exact NZ.
Qed.
Print Assumptions C59_fixed_sum_partial.

Theorem C59_fixed_mean_partial : forall s n0 r pred target rp bp rt bt tri msk prim, let sh := n0 :: r in
  0 < c_base (s_cfg s) -> (2 <= s_n s)%nat -> (0 < n0)%nat ->
  known s sh rp bp pred -> known s sh rt bt target ->
  (forall k, valid_triples sh sh sh (mul_val sh sh sh) (s_n s) (tri k)) ->
  (forall k, any_masks (s_n s) sh (fst (msk k)) (snd (msk k))) ->
  sq_room s sh rp bp rt bt ->
  (forall d, mpc_lin LSub pred target = Ok d -> pow_steady s 2 d None 0 tri msk) ->
  (forall t, mse_loss s pred target RSum tri msk prim = Ok t -> evenly s (m_shares t) (Z.of_nat n0) prim) ->
  exists z, mse_loss s pred target RMean tri msk prim = Ok z /\
    known s [] [sq_sum sh rp rt / INR n0]%R
      [(sq_bound s sh rp bp rt bt + IZR (slack (s_n s) (Z.of_nat n0)) * ulp (s_cfg s)) / INR n0]%R z.
Proof.
  intros s n0 r pred target rp bp rt bt tri msk prim sh Hb Hn H0 HP HT HV HM HR HS HD.
  destruct (C59_fixed_sum_partial s sh pred target rp bp rt bt tri msk prim) as (t & ET & NT); auto; [discriminate|].
  specialize (HD t ET). apply (known_near s Hb Hn) in NT.
  destruct (div_near s Hb Hn [] _ _ t (Z.of_nat n0) prim ltac:(lia) NT HD) as (z & EZ & NZ).
  exists z. cbn [mse_loss] in *. rewrite ET. cbn [rbind]. destruct HP as (v & _ & -> & _). unfold sh. split; [exact EZ|].
  apply near_known. rewrite INR_IZR_INZ. exact NZ.
Qed.
Print Assumptions C59_fixed_mean_partial.

(* ------------------------------------------------------------------ *)
(** 1.5 ** 3 with three parties, default configuration: 27/8 *)
Lemma w3_even : forall ws v k p, 0 <= p <= 62 -> k = 2^p -> 4 < k -> shared (2^64) [1%nat] [v] ws ->
  (- 2^63 <= v + (2^62 + 5) < 2^63) ->
  (forall j, (j < 3)%nat -> to_ring (2^64) (nth 0 (tdat (nth j (fst w3_masks) (mkT [] []))) 0 + nth 0 (tdat (nth j ws (mkT [] []))) 0) <> - 2^63) ->
  evenly (mkS 0 3 default_config) ws k w3_masks.
Proof.
  intros ws v k p Hp Hk Hk4 HS HV HW. exists [1%nat], [v]. split; [exact HS|]. right.
  split; [cbn; lia|]. split; [reflexivity|]. split.
  - right. split; [reflexivity|]. split; [cbn; lia|]. split; [reflexivity|]. exists p. cbn. split; [lia|]. split; [exact Hk|lia].
  - split; [reflexivity|]. split; [reflexivity|]. exists [2^62 + 5].
    split; [repeat split; try discriminate; repeat constructor|].
    split; [repeat split; try discriminate; repeat constructor|].
    split; [intros [|e] He; [exact HV|cbn in He; lia]|].
    split; [intros t [<-|[<-|[<-|[]]]]; repeat constructor; discriminate|].
    intros j [|e] Hj He; [apply HW; exact Hj|cbn in He; lia].
Qed.
Lemma exactly : forall x y, x = y -> (Rabs (x - y) <= 0)%R.
Proof. intros x y ->. rewrite Rminus_eq_0, Rabs_R0. lra. Qed.

Ltac even3 := eapply (w3_even _ _ _ 16);
  [lia|reflexivity|reflexivity|split; [discriminate|split; [repeat constructor|vm_compute; reflexivity]]|split; vm_compute; congruence
  |intros [|[|[|j]]] Hj; [vm_compute; discriminate ..|lia]].
Ltac known_now H := vm_compute in H; injection H as <-.

Example C38_fixed_parties_witness : let s := mkS 0 3 default_config in
  let tri := fun _ : nat => w3_triples in let msk := fun _ : nat => w3_masks in
  known s [1]%nat [3/2]%R [0]%R (w3_env 0) /\ room (s_cfg s) 1 /\
  (forall k, valid_triples [1]%nat [1]%nat [1]%nat (mul_val [1]%nat [1]%nat [1]%nat) 3 (tri k)) /\
  (forall k, any_masks 3 [1]%nat (fst (msk k)) (snd (msk k))) /\
  pow_room (s_cfg s) 3 [1]%nat 3 [3/2]%R [0]%R None /\ pow_steady s 3 (w3_env 0) None 0 tri msk /\
  (nth 0 (pow_bound (s_cfg s) 3 [1]%nat 3 [3/2]%R [0]%R None) 0 <= 25 / 65536)%R /\
  (do z <- mpc_pow s (w3_env 0) 3 tri msk; match z with inl z => reconstruct z | inr _ => Err TypeError end) = Ok (mkT [1]%nat [221182]).
Proof.
  cbn zeta. split; [|split; [|split; [|split; [|split; [|split; [|split]]]]]].
  - exists [98304]. share_ok. intros [|k] Hk; [|cbn in Hk; lia]. unfold rat; cbn [nth s_cfg]. rewrite w_fixed. apply exactly. lra.
  - tidy3. lra.
  - intros k. split; [reflexivity|]. exists [4], [1]. repeat split; try discriminate; repeat constructor.
  - intros k. right. split; [lia|]. do 3 (split; [reflexivity|]). split; repeat constructor; discriminate.
  - cbn [pow_room step_room times_room pow_factor]. split; [|split]; intros [|e] He; try (cbn in He; lia); unfold real_times, err_times; tidy3; abs; lra.
  - cbn [pow_steady]. split; [|split].
    + intros ws Hw. known_now Hw. even3.
    + intros ws Hw. known_now Hw. even3.
    + intros r b Hr Hb ws Hw. known_now Hr. known_now Hb. known_now Hw. even3.
  - cbn [pow_bound pow_factor snd]. unfold err_times, real_times. tidy3. abs. lra.
  - vm_compute. reflexivity.
Qed.

(** mean squared error of (1.5, 2) against (0.5, -1), two parties, default configuration: sum 10, mean 5 *)
Definition q_pred : mpc := mkM 0 [2]%nat [mkT [2]%nat [98304 + 777; 131072 - 5]; mkT [2]%nat [- 777; 5]].
Definition q_target : mpc := mkM 0 [2]%nat [mkT [2]%nat [32768 - 10; - 65536 + 4]; mkT [2]%nat [10; - 4]].
Definition q_triples : list triple :=
  [(mkT [2]%nat [1; 1], mkT [2]%nat [3; 4], mkT [2]%nat [30; 5]);
   (mkT [2]%nat [2; 0], mkT [2]%nat [4; - 2], mkT [2]%nat [- 9; - 3])].

Ltac even2 so := exists so; eexists; split; [split; [discriminate|]; split; [repeat constructor; vm_compute; reflexivity|vm_compute; reflexivity]|];
  left; split; [reflexivity|]; intros [|[|e]] He; [vm_compute; reflexivity ..|cbn in He; lia] || (intros [|e] He; [vm_compute; reflexivity|cbn in He; lia]).

Example C59_fixed_witness : let s := mkS 0 2 default_config in
  let tri := fun _ : nat => q_triples in let msk := fun _ : nat => (@nil tensor, @nil tensor) in
  known s [2]%nat [3/2; 2]%R [0; 0]%R q_pred /\ known s [2]%nat [1/2; -1]%R [0; 0]%R q_target /\
  (forall k, valid_triples [2]%nat [2]%nat [2]%nat (mul_val [2]%nat [2]%nat [2]%nat) 2 (tri k)) /\
  sq_room s [2]%nat [3/2; 2]%R [0; 0]%R [1/2; -1]%R [0; 0]%R /\
  (forall d, mpc_lin LSub q_pred q_target = Ok d -> pow_steady s 2 d None 0 tri msk) /\
  (forall t, mse_loss s q_pred q_target RSum tri msk ([], []) = Ok t -> evenly s (m_shares t) 2 ([], [])) /\
  sq_sum [2]%nat [3/2; 2]%R [1/2; -1]%R = 10%R /\ (sq_bound s [2]%nat [3/2; 2]%R [0; 0]%R [1/2; -1]%R [0; 0]%R <= 8 / 65536)%R /\
  (do z <- mse_loss s q_pred q_target RSum tri msk ([], []); reconstruct z) = Ok (mkT [] [655359]) /\
  (do z <- mse_loss s q_pred q_target RMean tri msk ([], []); reconstruct z) = Ok (mkT [] [327680]).
Proof.
  cbn zeta. split; [|split; [|split; [|split; [|split; [|split; [|split; [|split; [|split]]]]]]]].
  - exists [98304; 131072]. share_ok. intros [|[|k]] Hk; try (cbn in Hk; lia); unfold rat; cbn [nth s_cfg]; rewrite w_fixed; apply exactly; lra.
  - exists [32768; -65536]. share_ok. intros [|[|k]] Hk; try (cbn in Hk; lia); unfold rat; cbn [nth s_cfg]; rewrite w_fixed; apply exactly; lra.
  - intros k. split; [reflexivity|]. exists [3; 1], [7; 2]. repeat split; try discriminate; repeat constructor.
  - unfold sq_room, sq_bound, sq_sum, diff_real, diff_err. cbn [pow_room step_room times_room pow_factor pow_bound snd]. unfold step_room, times_room.
    split; [tidy; lra|]. split; [|split; [split|]].
    1-3: intros [|[|e]] He; try (cbn in He; lia); unfold real_times, err_times; tidy; abs; lra.
    unfold real_times, err_times; tidy; abs; lra.
  - intros d Hd. known_now Hd. cbn [pow_steady]. split.
    + intros ws Hw. known_now Hw. even2 [2]%nat.
    + intros b Hb ws Hw. known_now Hb. known_now Hw. even2 [2]%nat.
  - intros t Ht. known_now Ht. even2 (@nil nat).
  - unfold sq_sum. tidy. lra.
  - unfold sq_bound, diff_real, diff_err. cbn [pow_bound pow_factor snd]. unfold real_times, err_times. tidy. abs. lra.
  - vm_compute. reflexivity.
  - vm_compute. reflexivity.
Qed.

(* ------------------------------------------------------------------ *)
(** C57 in fixed point: a Conv2d layer with a bias, any number of parties: the real convolution
    plus the bias of the channel, up to the errors of the operands and of one rescaling.  Missing
    from the full statement: layers without bias (C57_conv_no_bias_refuted); [terms] with the
    default parameters (shapes of the unstrided convolution, cf. C56). *)
Definition conv_bias_real (so : list nat) (ps : nat -> list (nat * nat)) (o area : nat) (rx rw rb : list R) : list R :=
  build so (fun e => real_sum (map (fun p => rat rx (fst p) * rat rw (snd p)) (ps e)) + rat rb ((e / area) mod o)%nat)%R.
Definition conv_bias_err (so : list nat) (ps : nat -> list (nat * nat)) (o area : nat) (rx bx rw bw bb : list R) (rounding : R) : list R :=
  build so (fun e => rat (dot_err so ps rx bx rw bw rounding) e + rat bb ((e / area) mod o)%nat)%R.

Theorem C57_conv_fixed_partial : forall s l x bm sx sw nb o oh ow ps so' ps' rx bx rw bw rb bb ts prim,
  let a := mc_a l in let so := [nb; o; oh; ow] in
  0 < c_base (s_cfg s) -> (2 <= s_n s)%nat -> (0 < o)%nat ->
  terms (SConv (ca_stride a) (ca_pad a) (ca_dil a) (ca_groups a)) sx sw so ps ->
  terms (SConv 1 0 1 1) sx sw so' ps' ->
  known s sx rx bx x -> known s sw rw bw (mc_w l) -> mc_b l = Some bm -> known s [o] rb bb bm ->
  valid_triples sx sw so (ring_dot so ps) (s_n s) ts ->
  (forall ws, run_mul (mul_parties_raw (BConv2d (mkConv (ca_stride a) (ca_pad a) (ca_dil a) (ca_groups a)))) x (mc_w l) ts = Ok ws ->
     evenly s ws (scale (s_cfg s)) prim) ->
  (forall e, (e < numel so)%nat ->
     room (s_cfg s) (real_sum (map (fun p => mag rx bx (fst p) * mag rw bw (snd p))%R (ps e)) * IZR (scale (s_cfg s)))) ->
  (forall e, (e < numel so)%nat ->
     room (s_cfg s) (mag (real_dot so ps rx rw) (dot_err so ps rx bx rw bw (rounding (s_cfg s) (s_n s))) e + mag rb bb ((e / (oh * ow)) mod o)%nat)) ->
  exists z vz, conv_forward s l x ts prim = Ok z /\ m_shape z = so /\ length (m_shares z) = s_n s /\ shared (2^64) so vz (m_shares z) /\
    forall e, (e < numel so)%nat ->
      (Rabs (fixed (s_cfg s) (nth e vz 0%Z) - nth e (conv_bias_real so ps o (oh * ow) rx rw rb) 0)
       <= nth e (conv_bias_err so ps o (oh * ow) rx bx rw bw bb (rounding (s_cfg s) (s_n s))) 0)%R.
Proof.
  intros s l x bm sx sw nb o oh ow ps so' ps' rx bx rw bw rb bb ts prim a so Hb Hn Ho HT HT' HX HW EB HB HV HE HR HR2.
  apply (known_near s Hb Hn) in HX, HW, HB.
  destruct (mul_near s Hb Hn (SConv (ca_stride a) (ca_pad a) (ca_dil a) (ca_groups a)) sx sw so so' ps ps' x (mc_w l) rx bx rw bw ts prim HT HT' HX HW HV HE HR)
    as (c & EC & vc & (C1 & C2 & C3 & C4) & NC).
  destruct HB as (vb & (B1 & B2 & B3 & B4) & NB).
  destruct (C55_shared_bias s (SConv (ca_stride a) (ca_pad a) (ca_dil a) (ca_groups a)) x (mc_w l) ts prim c vc bm vb nb o oh ow EC C2 C3 C4)
    as (z & vz & EZ & Z1 & Z2 & Z3 & Z4); try congruence; auto.
  exists z, vz. unfold conv_forward. rewrite EB. fold a. cbn [bop_of] in EZ.
  split; [exact EZ|]. do 3 (split; [assumption|]). intros e He. fold so in Z4. rewrite (Z4 e He).
  change (2^64) with R64. set (j := ((e / (oh * ow)) mod o)%nat) in *.
  pose proof (lin_value s Hb Hn LAdd (nth e vc 0) (nth j vb 0) _ (HR2 e He)) as LV. cbv iota in LV. fold j in LV.
  rewrite LV by (apply Rplus_le_compat; [apply (near_mag s _ _ _ _ _ NC)|apply (near_mag s _ _ _ _ _ NB)]).
  change (nth e (conv_bias_real so ps o (oh * ow) rx rw rb) 0%R) with (rat (conv_bias_real so ps o (oh * ow) rx rw rb) e).
  match goal with |- (_ <= nth e ?l 0)%R => change (nth e l 0%R) with (rat l e) end.
  unfold conv_bias_real, conv_bias_err. rewrite !build_nth by auto. fold j.
  replace (real_sum _) with (rat (real_dot so ps rx rw) e) by (unfold real_dot; rewrite build_nth by auto; reflexivity).
  apply (lin_err LAdd); [apply NC|apply NB].
Qed.
Print Assumptions C57_conv_fixed_partial.

(** image (1.5, 2, -1, 0.5), kernel (0.5, 1), stride 2, bias 0.25, two parties: (3, 0.25) *)
Definition k_x : mpc := mkM 0 [1;1;1;4]%nat [mkT [1;1;1;4]%nat [98304 + 7; 131072; - 65536; 32768 - 9]; mkT [1;1;1;4]%nat [- 7; 0; 0; 9]].
Definition k_w : mpc := mkM 0 [1;1;1;2]%nat [mkT [1;1;1;2]%nat [32768 + 3; 65536]; mkT [1;1;1;2]%nat [- 3; 0]].
Definition k_b : mpc := mkM 0 [1]%nat [mkT [1]%nat [16384 + 1000]; mkT [1]%nat [- 1000]].
Definition k_layer : mconv := mkMC (mkCA 1 1 1 2 2 0 1 1) k_w (Some k_b).

Lemma k_terms : exists ps, terms (SConv 2 0 1 1) [1;1;1;4]%nat [1;1;1;2]%nat [1;1;1;2]%nat ps /\
  ps 0%nat = [(0, 0); (1, 1)]%nat /\ ps 1%nat = [(2, 0); (3, 1)]%nat.
Proof. eexists. split; [apply (tm_conv 2 0 1 1 1 1 4 1 1 1 2 1 2); cbn; lia|]. split; reflexivity. Qed.

Example C57_conv_fixed_witness : let s := mkS 0 2 default_config in let so := [1;1;1;2]%nat in
  let a := mc_a k_layer in
  let rx := [3/2; 2; -1; 1/2]%R in let rw := [1/2; 1]%R in let z4 := [0; 0; 0; 0]%R in let z2 := [0; 0]%R in
  exists ps so' ps',
  terms (SConv (ca_stride a) (ca_pad a) (ca_dil a) (ca_groups a)) [1;1;1;4]%nat [1;1;1;2]%nat so ps /\
  terms (SConv 1 0 1 1) [1;1;1;4]%nat [1;1;1;2]%nat so' ps' /\
  known s [1;1;1;4]%nat rx z4 k_x /\ known s [1;1;1;2]%nat rw z2 (mc_w k_layer) /\ known s [1]%nat [1/4]%R [0]%R k_b /\
  valid_triples [1;1;1;4]%nat [1;1;1;2]%nat so (ring_dot so ps) 2 C57_cts /\
  (forall ws, run_mul (mul_parties_raw (BConv2d (mkConv (ca_stride a) (ca_pad a) (ca_dil a) (ca_groups a)))) k_x (mc_w k_layer) C57_cts = Ok ws ->
     evenly s ws (scale (s_cfg s)) ([], [])) /\
  (forall e, (e < numel so)%nat ->
     room (s_cfg s) (real_sum (map (fun p => mag rx z4 (fst p) * mag rw z2 (snd p))%R (ps e)) * IZR (scale (s_cfg s)))) /\
  (forall e, (e < numel so)%nat ->
     room (s_cfg s) (mag (real_dot so ps rx rw) (dot_err so ps rx z4 rw z2 (rounding (s_cfg s) 2)) e + mag [1/4]%R [0]%R ((e / (1 * 2)) mod 1)%nat)) /\
  conv_bias_real so ps 1 (1 * 2) rx rw [1/4]%R = [3; 1/4]%R /\
  (do z <- conv_forward s k_layer k_x C57_cts ([], []); reconstruct z) = Ok (mkT so [196607; 16384]).
Proof.
  cbn zeta. destruct k_terms as (ps & HT & P0 & P1). exists ps. do 2 eexists. split; [exact HT|].
  split; [apply (tm_conv 1 0 1 1 1 1 4 1 1 1 2 1 3); cbn; lia|].
  split; [|split; [|split; [|split; [|split; [|split; [|split; [|split]]]]]]].
  - exists [98304; 131072; - 65536; 32768]. share_ok.
    intros [|[|[|[|k]]]] Hk; try (cbn in Hk; lia); unfold rat; cbn [nth s_cfg]; rewrite w_fixed; apply exactly; lra.
  - exists [32768; 65536]. share_ok. intros [|[|k]] Hk; try (cbn in Hk; lia); unfold rat; cbn [nth s_cfg]; rewrite w_fixed; apply exactly; lra.
  - exists [16384]. share_ok. intros [|k] Hk; try (cbn in Hk; lia); unfold rat; cbn [nth s_cfg]; rewrite w_fixed; apply exactly; lra.
  - split; [reflexivity|]. exists [3; 4; 5; 6], [7; 8].
    split; [apply sharedb_ok; vm_compute; reflexivity|]. split; [apply sharedb_ok; vm_compute; reflexivity|].
    unfold ring_dot. cbn [numel fold_right seq map Nat.mul Nat.add]. rewrite P0, P1. apply sharedb_ok; vm_compute; reflexivity.
  - intros ws Hw. known_now Hw. even2 [1;1;1;2]%nat.
  - intros [|[|e]] He; try (cbn in He; lia); rewrite ?P0, ?P1; tidy; abs; lra.
  - intros [|[|e]] He; try (cbn in He; lia); unfold real_dot, dot_err, mag; rewrite !build_nth by (cbn; lia); rewrite ?P0, ?P1;
      change ((0 / (1 * 2)) mod 1)%nat with 0%nat; change ((1 / (1 * 2)) mod 1)%nat with 0%nat; tidy; abs; lra.
  - unfold conv_bias_real, build. cbn [numel fold_right seq map Nat.mul Nat.add]. rewrite P0, P1.
    change ((0 / 2) mod 1)%nat with 0%nat; change ((1 / 2) mod 1)%nat with 0%nat. tidy. f_equal; [|f_equal]; lra.
  - vm_compute. reflexivity.
Qed.
