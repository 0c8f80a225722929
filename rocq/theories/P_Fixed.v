(** C69: sign, modulus, relu and hardtanh with fixed-point secrets; how often shares carry.
    C70: exp, reciprocal, sigmoid, tanh and quotients with the default encoder. *)
From Coq Require Import QArith Reals Qreals Lra String.
From Verif Require Import Util Modular S_Ring S_Tensor S_Wraps S_Div S_Bil S_Spdz S_Circuit S_Fss S_Sort S_Real S_Sigmoid S_Fixed
  M_Torch M_Encoder M_Tensor M_Share M_Spdz M_Store M_Fss M_Engine M_Approx M_GradFun
  L_Torch L_Tensor L_Share L_Engine L_Real L_Sigmoid L_Fixed L_Fixed2 L_FixedR L_FixedN L_Fixed3 L_Fixed4 P_Fss P_Sort.
Local Open Scope Z_scope.
Local Open Scope list_scope.

(** what the encoder makes of a public number *)
Definition encoded (c : config) (n : num) : R := fixed c (encode1 c n).

Lemma fits_fixed s a : 1 <= c_base (s_cfg s) -> Z.abs a < 2^31 - 1 -> fits s (fixed (s_cfg s) a).
Proof.
  intros Hb Ha. apply IZR_lt in Ha. rewrite abs_IZR, minus_IZR in Ha. unfold fits, fixed.
  pose proof (S_pos s Hb) as SP. unfold Rdiv. rewrite Rabs_mult, Rabs_inv, (Rabs_right (IZR (scale (s_cfg s)))) by lra.
  rewrite Rmult_assoc, Rinv_l by lra. lra.
Qed.
Lemma fixed_minus c a b : (fixed c a - fixed c b = fixed c (a - b))%R.
Proof. unfold fixed. rewrite minus_IZR. unfold Rdiv. ring. Qed.
Lemma range_of v B : B <= 2^63 -> Forall (fun a => Z.abs a < B) v -> Forall (fun a => - 2^63 <= a < 2^63) v.
Proof. intros HB. apply Forall_impl. intros a. lia. Qed.

(** C69 for two parties, every base and precision with a scale of at most 2^31, every backend,
    sharing and supply of valid triples, and a non-empty tensor of secrets closer to 0 than
    2^31 - 1 units: sign never raises and, if no shares carried, is within one unit in the last
    place of the sign. *)
Theorem C69_sign : forall K alpha ev (gen : fop -> nat -> nat -> result (list (list K))) s su sh x v w,
  backend_ok alpha ev gen -> fixed_pair s -> scale (s_cfg s) <= 2^31 -> supply_ok sh su -> sh <> [] -> (0 < numel sh)%nat ->
  shares_of s sh v x -> Forall (fun a => Z.abs a < 2^31 - 1) v -> none_waiting (fst w) ->
  computes alpha ev gen s su sh (fun W T E => sign E) sgn_R (fun _ => ulp (s_cfg s)) x v w.
Proof.
  intros K alpha ev gen s su sh x v w HG [Hn Hb] HS [HT HR] Hsh HN HX HV HW. apply IZR_le in HS.
  eapply (computes_intro _ _ _ _ _ _ _ _ _ (fits s)); auto.
  - intros e y He SY. apply sign_f; auto.
  - apply (range_of _ (2^31 - 1)); auto. lia.
  - eapply Forall_impl; [|exact HV]. intros a Ha. apply fits_fixed; auto.
Qed.
Print Assumptions C69_sign.

(** ... relu is within one unit of the maximum with 0 ... *)
Theorem C69_relu : forall K alpha ev (gen : fop -> nat -> nat -> result (list (list K))) s su sh x v w,
  backend_ok alpha ev gen -> fixed_pair s -> scale (s_cfg s) <= 2^31 -> supply_ok sh su -> sh <> [] -> (0 < numel sh)%nat ->
  shares_of s sh v x -> Forall (fun a => Z.abs a < 2^31 - 1) v -> none_waiting (fst w) ->
  computes alpha ev gen s su sh (fun W T E => relu E) (Rmax 0) (fun _ => ulp (s_cfg s)) x v w.
Proof.
  intros K alpha ev gen s su sh x v w HG [Hn Hb] HS [HT HR] Hsh HN HX HV HW. apply IZR_le in HS.
  eapply (computes_intro _ _ _ _ _ _ _ _ _ (fits s)); auto.
  - intros e y He SY. apply relu_f; auto.
  - apply (range_of _ (2^31 - 1)); auto. lia.
  - eapply Forall_impl; [|exact HV]. intros a Ha. apply fits_fixed; auto.
Qed.
Print Assumptions C69_relu.

(** ... modulus is within 2 + |x| units of the absolute value (the sign it multiplies with may
    be off by one unit) ... *)
Theorem C69_modulus : forall K alpha ev (gen : fop -> nat -> nat -> result (list (list K))) s su sh x v w,
  backend_ok alpha ev gen -> fixed_pair s -> scale (s_cfg s) <= 2^31 -> supply_ok sh su -> sh <> [] -> (0 < numel sh)%nat ->
  shares_of s sh v x -> Forall (fun a => Z.abs a < 2^31 - 1) v -> none_waiting (fst w) ->
  computes alpha ev gen s su sh (fun W T E => modulus E) Rabs (fun r => (2 + Rabs r) * ulp (s_cfg s))%R x v w.
Proof.
  intros K alpha ev gen s su sh x v w HG [Hn Hb] HS [HT HR] Hsh HN HX HV HW. apply IZR_le in HS.
  eapply (computes_intro _ _ _ _ _ _ _ _ _ (fits s)); auto.
  - intros e y He SY. eapply f_weaken; [apply (modulus_f alpha ev gen s su sh e); auto|]. intros z _ H F. cbv beta in H |- *. specialize (H F). lra.
  - apply (range_of _ (2^31 - 1)); auto. lia.
  - eapply Forall_impl; [|exact HV]. intros a Ha. apply fits_fixed; auto.
Qed.
Print Assumptions C69_modulus.

(** ... and hardtanh is within two units of clamping to the encoded bounds. *)
Theorem C69_hardtanh : forall K alpha ev (gen : fop -> nat -> nat -> result (list (list K))) s su sh lo hi x v w,
  let l := encode1 (s_cfg s) lo in let h := encode1 (s_cfg s) hi in
  backend_ok alpha ev gen -> fixed_pair s -> scale (s_cfg s) <= 2^31 -> supply_ok sh su -> sh <> [] -> (0 < numel sh)%nat ->
  l <= h -> Z.abs l < 2^31 - 1 -> Z.abs h < 2^31 - 1 ->
  shares_of s sh v x -> Forall (fun a => Z.abs a < 2^31 - 1 /\ Z.abs (a - l) < 2^31 - 1 /\ Z.abs (a - h) < 2^31 - 1) v -> none_waiting (fst w) ->
  computes alpha ev gen s su sh (fun W T E => hardtanh E lo hi)
    (fun r => Rmax (encoded (s_cfg s) lo) (Rmin (encoded (s_cfg s) hi) r)) (fun _ => 2 * ulp (s_cfg s))%R x v w.
Proof.
  intros K alpha ev gen s su sh lo hi x v w l h HG [Hn Hb] HS [HT HR] Hsh HN HLH HL HH HX HV HW. apply IZR_le in HS.
  eapply (computes_intro _ _ _ _ _ _ _ _ _ (fun r => fits s r /\ fits s (r - fixed (s_cfg s) l) /\ fits s (r - fixed (s_cfg s) h))%R); auto.
  - intros e y He SY. eapply f_weaken; [apply (hardtanh_f alpha ev gen s su sh e); auto|].
    + unfold enc, fixed. pose proof (S_pos s Hb). apply Rmult_le_compat_r; [left; apply Rinv_0_lt_compat; lra|]. apply IZR_le. exact HLH.
    + apply fits_fixed; auto.
    + apply fits_fixed; auto.
    + intros z _ H (F1 & F2 & F3). exact (H F1 F2 F3).
  - eapply Forall_impl; [|exact HV]. cbn beta. lia.
  - eapply Forall_impl; [|exact HV]. intros a (A1 & A2 & A3). rewrite !fixed_minus. repeat split; apply fits_fixed; auto.
Qed.
Print Assumptions C69_hardtanh.

(** C69: which shares carry.  Two shares of the values [v] carry exactly if at some position the
    first share lies in an interval of the int64 that holds a + 1 of them for a value a >= 0 and
    -a - 1 of them for a value a < 0: for a uniformly distributed first share the probability
    is below (|a| + 1) / 2^64 per rescaled element. *)
Definition carry_start (a : Z) : Z := if 0 <=? a then - 2^63 else a + 2^63 + 1.
Definition carry_count (a : Z) : Z := if 0 <=? a then a + 1 else - a - 1.
Theorem C69_carry : forall sh v t0 t1, shared (2^64) sh v [t0; t1] ->
  (carries [t0; t1] = true <->
   exists e, (e < numel sh)%nat /\
     let a := nth e v 0 in carry_start a <= nth e (tdat t0) 0 < carry_start a + carry_count a) /\
  (forall a, - 2^63 <= a < 2^63 -> 0 <= carry_count a <= Z.abs a + 1 /\
     - 2^63 <= carry_start a /\ carry_start a + carry_count a <= 2^63).
Proof.
  intros sh v t0 t1 HS. split.
  - pose proof HS as (H1 & H2 & H3).
    apply Forall_inv in H2 as T0. apply Forall_inv_tail, Forall_inv in H2 as T1.
    destruct T0 as (_ & L0 & I0), T1 as (_ & L1 & I1). pose proof (shared_vals R64 supR _ _ _ HS) as (LV & IV & EV).
    unfold carries. rewrite existsb_exists. cbn [hd]. rewrite L0.
    assert (KEY : forall e, (e < numel sh)%nat ->
      negb ((- 2^63 <=? zsum (col e [t0; t1])) && (zsum (col e [t0; t1]) <? 2^63)) = true <->
      carry_start (nth e v 0) <= nth e (tdat t0) 0 < carry_start (nth e v 0) + carry_count (nth e v 0)).
    { intros e He. specialize (EV e). cbn [map zsum fold_right] in EV. unfold col. cbn [map zsum fold_right].
      assert (A0 : - 2^63 <= nth e (tdat t0) 0 < 2^63) by (apply in_ring64_range; refine (proj1 (Forall_forall _ _) I0 _ (nth_In _ _ _)); lia).
      assert (A1 : - 2^63 <= nth e (tdat t1) 0 < 2^63) by (apply in_ring64_range; refine (proj1 (Forall_forall _ _) I1 _ (nth_In _ _ _)); lia).
      assert (AV : - 2^63 <= nth e v 0 < 2^63) by (apply in_ring64_range; refine (proj1 (Forall_forall _ _) IV _ (nth_In _ _ _)); lia).
      destruct EV as [k EK]. change R64 with 18446744073709551616 in EK.
      generalize dependent (nth e (tdat t0) 0). generalize dependent (nth e (tdat t1) 0). generalize dependent (nth e v 0). clear.
      intros a Ha b Hb c E Hc. unfold carry_start, carry_count.
      rewrite negb_true_iff, andb_false_iff, Z.leb_gt, Z.ltb_ge. destruct (Z.leb_spec 0 a); lia. }
    split.
    + intros (e & Hin & H). apply in_seq in Hin. exists e. split; [lia|]. apply KEY; [lia|exact H].
    + intros (e & He & H). exists e. split; [apply in_seq; lia|]. apply KEY; auto.
  - intros a Ha. unfold carry_start, carry_count. destruct (Z.leb_spec 0 a); lia.
Qed.
Print Assumptions C69_carry.

(** a session with the default encoder and three sharings *)
Definition fx_s : sess := mkS 3 2 (mkConfig 2 16).
Definition fx_x (first : Z) (l : list Z) : mpc :=
  let n := length l in mkM 3 [n] [mkT [n] (map (fun _ => first) l); mkT [n] (map (fun a => a - first) l)].
Definition fx_run (F : forall W T, engine W T -> T -> comp W T) (su : tri_supply) (x : mpc) : result tensor * bool :=
  let p := F _ _ (noted_engine t_alpha t_ev toy fx_s su) x ((fw0, 0%nat), false) in (do z <- fst p; reconstruct z, snd (snd p)).
Lemma fx_supply4 : supply_ok [4%nat] toy_supply.
Proof.
  split; [|intros k; split; [reflexivity|]; repeat constructor; discriminate].
  intros k. split; [reflexivity|]. exists [3; 3; 3; 3], [5; 5; 5; 5]. repeat split; try discriminate; repeat constructor; try reflexivity; discriminate.
Qed.
Lemma fx_supply1 : supply_ok [1%nat] toy_supply.
Proof.
  split; [|intros k; split; [reflexivity|]; repeat constructor; discriminate].
  intros k. split; [reflexivity|]. exists [3], [5]. repeat split; try discriminate; repeat constructor; try reflexivity; discriminate.
Qed.

(** 3, -5/65536, 0 and 1/65536; nothing is noted; relu is off by one unit at the first position *)
Example C69_witness :
  backend_ok t_alpha t_ev toy /\ fixed_pair fx_s /\ scale (s_cfg fx_s) <= 2^31 /\ supply_ok [4%nat] toy_supply /\
  shares_of fx_s [4%nat] [196608; -5; 0; 1] (fx_x (10^18) [196608; -5; 0; 1]) /\ none_waiting (fst (fw0, 0%nat)) /\
  fx_run (fun W T E => sign E) toy_supply (fx_x (10^18) [196608; -5; 0; 1]) = (Ok (mkT [4%nat] [65536; -65536; 0; 65536]), false) /\
  fx_run (fun W T E => modulus E) toy_supply (fx_x (10^18) [196608; -5; 0; 1]) = (Ok (mkT [4%nat] [196608; 5; 0; 1]), false) /\
  fx_run (fun W T E => relu E) toy_supply (fx_x (10^18) [196608; -5; 0; 1]) = (Ok (mkT [4%nat] [196607; 0; 0; 1]), false) /\
  fx_run (fun W T E => hardtanh E (NInt (-1)) (NInt 2)) toy_supply (fx_x (10^18) [196608; -5; 0; 1]) = (Ok (mkT [4%nat] [131071; -5; 0; 1]), false).
Proof.
  split; [exact toy_good|]. split; [split; [reflexivity|cbn; lia]|]. split; [discriminate|]. split; [exact fx_supply4|].
  split. { repeat (split; [reflexivity|]). split; [discriminate|]; split; [repeat constructor|reflexivity]; discriminate. }
  split; [exact fw0_none|]. vm_compute. repeat split; reflexivity.
Qed.
(** the two shares of 3 whose first is -2^63 carry *)
Example C69_carry_witness : shared (2^64) [1%nat] [3] [mkT [1%nat] [- 2^63]; mkT [1%nat] [3 - 2^63]] /\
  carries [mkT [1%nat] [- 2^63]; mkT [1%nat] [3 - 2^63]] = true /\ carries [mkT [1%nat] [4 - 2^63]; mkT [1%nat] [2^63 - 1]] = false.
Proof. split; [|split; reflexivity]. split; [discriminate|]. split; [repeat constructor; discriminate|reflexivity]. Qed.

(** C69 refuted for triples whose shares carry: valid triples (0 * 0 = 0) with which relu(3) is
    about -2^32. *)
Definition carrying_supply : tri_supply :=
  mkSup (fun _ sx _ => let c v := mkT sx (repeat v (numel sx)) in zip3 [c 0; c 0] [c 0; c 0] [c (- 2^63); c (- 2^63)])
        (fun _ => [[12345]]).
Theorem C69_relu_refuted : exists (gen : fop -> nat -> nat -> result (list (list tkey))) s su x z w w',
  backend_ok t_alpha t_ev gen /\ default_pair s /\ supply_ok [1%nat] su /\ none_waiting (fst w) /\
  shares_of s [1%nat] [3 * 65536] x /\ relu (mpc_engine t_alpha t_ev gen s su) x w = (Ok z, w') /\
  reconstruct z = Ok (mkT [1%nat] [3 * 65536 - 65536 * 2^32]).
Proof.
  exists toy, fx_s, carrying_supply, (fx_x 5 [3 * 65536]). eexists _, (fw0, 0%nat), _. split; [exact toy_good|]. split; [split; reflexivity|].
  split.
  { split; [|intros k; split; [reflexivity|]; repeat constructor; discriminate].
    intros k. split; [reflexivity|]. exists [0], [0]. repeat split; try discriminate; repeat constructor; try reflexivity; discriminate. }
  split; [exact fw0_none|].
  split. { repeat (split; [reflexivity|]). split; [discriminate|]; split; [repeat constructor|reflexivity]; discriminate. }
  split; [vm_compute; reflexivity|]. vm_compute. reflexivity.
Qed.
Print Assumptions C69_relu_refuted.

(** ** C70: the default encoder *)
Definition U : R := (/ 65536)%R.
Definition between (lo hi : Z) (v : list Z) : Prop := Forall (fun a => lo * 65536 <= a <= hi * 65536) v.

Lemma fixed_default s a : s_cfg s = mkConfig 2 16 -> fixed (s_cfg s) a = (IZR a / 65536)%R.
Proof. intros H. unfold fixed. rewrite H. reflexivity. Qed.
Lemma between_fixed s lo hi v : s_cfg s = mkConfig 2 16 -> between lo hi v -> Forall (fun a => IZR lo <= fixed (s_cfg s) a <= IZR hi)%R v.
Proof.
  intros Hc. apply Forall_impl. intros a [H1 H2]. rewrite fixed_default by auto. apply IZR_le in H1, H2. rewrite mult_IZR in H1, H2. lra.
Qed.
Lemma between_range lo hi v : -1000 <= lo -> hi <= 1000 -> between lo hi v -> Forall (fun a => - 2^63 <= a < 2^63) v.
Proof. intros H1 H2. apply Forall_impl. intros a H. lia. Qed.

(** C70, default encoder, two parties, every backend, sharing and supply of valid triples: exp
    never raises and, if no shares carried, is within 19/1000 of exp(x) for -500 <= x <= 0 ... *)
Theorem C70_exp_negative : forall K alpha ev (gen : fop -> nat -> nat -> result (list (list K))) s su sh x v w,
  default_pair s -> supply_ok sh su -> sh <> [] -> (0 < numel sh)%nat ->
  shares_of s sh v x -> between (-500) 0 v -> none_waiting (fst w) ->
  computes alpha ev gen s su sh (fun W T E => exp_a E 8) exp (fun _ => 19 / 1000)%R x v w.
Proof.
  intros K alpha ev gen s su sh x v w [Hn Hc] [HT HR] Hsh HN HX HV HW.
  eapply (computes_intro _ _ _ _ _ _ _ _ _ (fun r => -500 <= r <= 0)%R); auto.
  - intros e y He SY. eapply f_weaken; [apply (exp_low alpha ev gen s su sh e); auto|]. intros z _ H F. cbv beta in H |- *.
    destruct H as (H & _); [lra|]. destruct (limexp_close (- dec s e y)) as [_ C]; [lra|]. rewrite Ropp_involutive in C.
    apply abs_in in H, C. apply Rabs_le. lra.
  - apply (between_range (-500) 0); auto; lia.
  - apply (between_fixed s (-500) 0); auto.
Qed.
Print Assumptions C70_exp_negative.

(** ... and has a relative error of at most x^2/256 + 1031 units for 0 <= x <= 20. *)
Theorem C70_exp_positive : forall K alpha ev (gen : fop -> nat -> nat -> result (list (list K))) s su sh x v w,
  default_pair s -> supply_ok sh su -> sh <> [] -> (0 < numel sh)%nat ->
  shares_of s sh v x -> between 0 20 v -> none_waiting (fst w) ->
  computes alpha ev gen s su sh (fun W T E => exp_a E 8) exp (fun r => (r * r / 256 + 1031 * U) * exp r)%R x v w.
Proof.
  intros K alpha ev gen s su sh x v w [Hn Hc] [HT HR] Hsh HN HX HV HW.
  eapply (computes_intro _ _ _ _ _ _ _ _ _ (fun r => 0 <= r <= 20)%R); auto.
  - intros e y He SY. eapply f_weaken; [apply (exp_high alpha ev gen s su sh e); auto|]. intros z _ H F. cbv beta in H |- *.
    specialize (H F). assert (E8 : (2 ^ 8 = 256)%R) by lra.
    destruct (exp_below 8 (dec s e y)) as [B0 B1]; [rewrite E8; lra|].
    pose proof (exp_above 8 (dec s e y)) as B2. rewrite E8 in B2.
    assert (B3 : (Rabs (dec s e y) < 256)%R) by (rewrite Rabs_right; lra). specialize (B2 B3). apply abs_in in H.
    assert (B4 : (1031 * (1 / 65536) * limexp 8 (dec s e y) <= 1031 * (1 / 65536) * exp (dec s e y))%R) by lra.
    assert (EU : U = (1 / 65536)%R) by (unfold U; lra). rewrite EU. apply Rabs_le. lra.
  - apply (between_range 0 20); auto; lia.
  - apply (between_fixed s 0 20); auto.
Qed.
Print Assumptions C70_exp_positive.

(** C70: the reciprocal of a secret with 1/2 <= |x| <= 50 never raises and, if no shares carried,
    is within 1/400 of 1/x; for |x| <= 3.9 within 28 units. *)
Definition moderate (v : list Z) : Prop := Forall (fun a => 32768 <= Z.abs a <= 50 * 65536) v.
Lemma moderate_fixed s v : s_cfg s = mkConfig 2 16 -> moderate v -> Forall (fun a => 1 / 2 <= Rabs (fixed (s_cfg s) a) <= 50)%R v.
Proof.
  intros Hc. apply Forall_impl. intros a [H1 H2]. rewrite fixed_default by auto. apply IZR_le in H1, H2. rewrite abs_IZR in H1, H2. rewrite mult_IZR in H2.
  unfold Rdiv. rewrite Rabs_mult, (Rabs_right (/ 65536)) by lra. lra.
Qed.
Lemma moderate_range v : moderate v -> Forall (fun a => - 2^63 <= a < 2^63) v.
Proof. apply Forall_impl. intros a. lia. Qed.

Theorem C70_reciprocal : forall K alpha ev (gen : fop -> nat -> nat -> result (list (list K))) s su sh x v w,
  backend_ok alpha ev gen -> default_pair s -> supply_ok sh su -> sh <> [] -> (0 < numel sh)%nat ->
  shares_of s sh v x -> moderate v -> none_waiting (fst w) ->
  computes alpha ev gen s su sh (fun W T E => reciprocal E RNewton 10) (fun r => 1 / r)%R
    (fun r => if Rle_dec (Rabs r) (39 / 10) then 28 * U else 1 / 400)%R x v w.
Proof.
  intros K alpha ev gen s su sh x v w HG [Hn Hc] [HT HR] Hsh HN HX HV HW.
  eapply (computes_intro _ _ _ _ _ _ _ _ _ (fun r => 1 / 2 <= Rabs r <= 50)%R); auto.
  - intros e y He SY. eapply f_weaken; [apply (reciprocal_f alpha ev gen s su sh e); auto|]. intros z _ H F. cbv beta in H |- *.
    destruct (H F) as [H1 H2]. assert (EU : U = (1 / 65536)%R) by (unfold U; lra). rewrite EU. destruct (Rle_dec _ _); auto.
  - apply moderate_range; auto.
  - apply moderate_fixed; auto.
Qed.
Print Assumptions C70_reciprocal.

(** C70: a secret divided by such a secret. *)
Theorem C70_division : forall K alpha ev (gen : fop -> nat -> nat -> result (list (list K))) s su sh x y v u w,
  backend_ok alpha ev gen -> default_pair s -> supply_ok sh su -> sh <> [] -> (0 < numel sh)%nat ->
  shares_of s sh v x -> shares_of s sh u y -> Forall (fun a => Z.abs a <= 1000000 * 65536) v -> moderate u -> none_waiting (fst w) ->
  computes2 alpha ev gen s su sh (fun W T E => div_private E 2) Rdiv
    (fun r t => (if Rle_dec (Rabs t) (39 / 10) then 28 * U else 1 / 400) * Rabs r + 2 * U)%R x y v u w.
Proof.
  intros K alpha ev gen s su sh x y v u w HG [Hn Hc] [HT HR] Hsh HN HX HY HV HU HW.
  eapply (computes2_intro _ _ _ _ _ _ _ _ _ (fun r => Rabs r <= 1000000)%R (fun r => 1 / 2 <= Rabs r <= 50)%R); auto.
  - intros e a b He SA SB. eapply f_weaken; [apply (div_f alpha ev gen s su sh e); auto|]. intros z _ H F G. cbv beta in H |- *.
    destruct (H F G) as [H1 H2]. assert (EU : U = (1 / 65536)%R) by (unfold U; lra). rewrite EU. destruct (Rle_dec _ _); [auto|lra].
  - eapply Forall_impl; [|exact HV]. cbn beta. lia.
  - apply moderate_range; auto.
  - eapply Forall_impl; [|exact HV]. intros a H. rewrite fixed_default by auto. apply IZR_le in H. rewrite abs_IZR, mult_IZR in H.
    unfold Rdiv. rewrite Rabs_mult, (Rabs_right (/ 65536)) by lra. lra.
  - apply moderate_fixed; auto.
Qed.
Print Assumptions C70_division.

(** C70: a public integer divided by such a secret. *)
Theorem C70_public_numerator : forall K alpha ev (gen : fop -> nat -> nat -> result (list (list K))) s su sh k y u w,
  backend_ok alpha ev gen -> default_pair s -> supply_ok sh su -> sh <> [] -> (0 < numel sh)%nat ->
  shares_of s sh u y -> Z.abs k <= 1000000 -> moderate u -> none_waiting (fst w) ->
  computes alpha ev gen s su sh (fun W T E => rdiv E (NInt k)) (fun r => IZR k / r)%R (fun _ => Rabs (IZR k) / 400 + U)%R y u w.
Proof.
  intros K alpha ev gen s su sh k y u w HG [Hn Hc] [HT HR] Hsh HN HY HK HU HW. apply IZR_le in HK. rewrite abs_IZR in HK.
  eapply (computes_intro _ _ _ _ _ _ _ _ _ (fun r => 1 / 2 <= Rabs r <= 50)%R); auto.
  - intros e b He SB. eapply f_weaken; [apply (rdiv_f alpha ev gen s su sh e); auto|]. intros z _ H F. cbv beta in H |- *.
    specialize (H F). assert (EU : U = (1 / 65536)%R) by (unfold U; lra). rewrite EU. exact H.
  - apply moderate_range; auto.
  - apply moderate_fixed; auto.
Qed.
Print Assumptions C70_public_numerator.

(** C70: the default sigmoid is within 1/50 of the logistic function for |x| <= 499, the default
    tanh within 1/24 of tanh for |x| <= 249. *)
Theorem C70_sigmoid : forall K alpha ev (gen : fop -> nat -> nat -> result (list (list K))) s su sh cs x v w,
  backend_ok alpha ev gen -> default_pair s -> supply_ok sh su -> sh <> [] -> (0 < numel sh)%nat ->
  shares_of s sh v x -> between (-499) 499 v -> none_waiting (fst w) ->
  computes alpha ev gen s su sh (fun W T E => sigmoid E SExp cs) logistic (fun _ => 1 / 50)%R x v w.
Proof.
  intros K alpha ev gen s su sh cs x v w HG [Hn Hc] [HT HR] Hsh HN HX HV HW.
  eapply (computes_intro _ _ _ _ _ _ _ _ _ (fun r => -499 <= r <= 499)%R); auto.
  - intros e y He SY. eapply f_weaken; [apply (sigmoid_f alpha ev gen s su sh e); auto|]. intros z _ H F. apply H. apply Rabs_le. lra.
  - apply (between_range (-499) 499); auto; lia.
  - apply (between_fixed s (-499) 499); auto.
Qed.
Print Assumptions C70_sigmoid.
Theorem C70_tanh : forall K alpha ev (gen : fop -> nat -> nat -> result (list (list K))) s su sh cs x v w,
  backend_ok alpha ev gen -> default_pair s -> supply_ok sh su -> sh <> [] -> (0 < numel sh)%nat ->
  shares_of s sh v x -> between (-249) 249 v -> none_waiting (fst w) ->
  computes alpha ev gen s su sh (fun W T E => tanh_a E TSigmoid cs) tanh (fun _ => 1 / 24)%R x v w.
Proof.
  intros K alpha ev gen s su sh cs x v w HG [Hn Hc] [HT HR] Hsh HN HX HV HW.
  eapply (computes_intro _ _ _ _ _ _ _ _ _ (fun r => -249 <= r <= 249)%R); auto.
  - intros e y He SY. eapply f_weaken; [apply (tanh_f alpha ev gen s su sh e); auto|]. intros z _ H F. apply H. apply Rabs_le. lra.
  - apply (between_range (-249) 249); auto; lia.
  - apply (between_fixed s (-249) 249); auto.
Qed.
Print Assumptions C70_tanh.

(** 3, -5, 1/2 and 10 in units; nothing is noted *)
Definition C70_v : list Z := [196608; -327680; 32768; 655360].
Definition C70_n : list Z := [-65536; -327680; 0; -655360].
Definition C70_div : result tensor * bool :=
  let p := div_private (noted_engine t_alpha t_ev toy fx_s toy_supply) 2 (fx_x (10^18) C70_n) (fx_x 77 C70_v) ((fw0, 0%nat), false) in
  (do z <- fst p; reconstruct z, snd (snd p)).
Example C70_witness :
  backend_ok t_alpha t_ev toy /\ default_pair fx_s /\ supply_ok [4%nat] toy_supply /\
  shares_of fx_s [4%nat] C70_v (fx_x (10^18) C70_v) /\ shares_of fx_s [4%nat] C70_n (fx_x (10^18) C70_n) /\ none_waiting (fst (fw0, 0%nat)) /\
  moderate C70_v /\ between (-499) 499 C70_v /\ between (-500) 0 C70_n /\
  fx_run (fun W T E => exp_a E 8) toy_supply (fx_x (10^18) C70_n) = (Ok (mkT [4%nat] [24074; 420; 65536; 2]), false) /\
  fx_run (fun W T E => reciprocal E RNewton 10) toy_supply (fx_x (10^18) C70_v) = (Ok (mkT [4%nat] [21847; -13107; 131077; 6562]), false) /\
  fx_run (fun W T E => sigmoid E SExp []) toy_supply (fx_x (10^18) C70_v) = (Ok (mkT [4%nat] [62465; 419; 40714; 65534]), false) /\
  fx_run (fun W T E => tanh_a E TSigmoid []) toy_supply (fx_x (10^18) C70_v) = (Ok (mkT [4%nat] [65234; -65532; 30224; 65536]), false) /\
  C70_div = (Ok (mkT [4%nat] [-21846; 65535; 0; -65619]), false).
Proof.
  split; [exact toy_good|]. split; [split; reflexivity|]. split; [exact fx_supply4|].
  split. { repeat (split; [reflexivity|]). split; [discriminate|]; split; [repeat constructor|reflexivity]; discriminate. }
  split. { repeat (split; [reflexivity|]). split; [discriminate|]; split; [repeat constructor|reflexivity]; discriminate. }
  split; [exact fw0_none|]. split; [repeat constructor; discriminate|]. split; [repeat constructor; discriminate|]. split; [repeat constructor; discriminate|].
  vm_compute. repeat split; reflexivity.
Qed.

(** C70 refuted outside these ranges, with shares that do not carry: exp(23) comes out negative,
    1/400 is about -111, and the sigmoid of 520 about -10^9. *)
Theorem C70_range_refuted : exists (gen : fop -> nat -> nat -> result (list (list tkey))) s su x y t z z' z'' w w1 w2 w3,
  backend_ok t_alpha t_ev gen /\ default_pair s /\ supply_ok [1%nat] su /\ none_waiting (fst w) /\
  shares_of s [1%nat] [23 * 65536] x /\ shares_of s [1%nat] [400 * 65536] y /\ shares_of s [1%nat] [520 * 65536] t /\
  exp_a (noted_engine t_alpha t_ev gen s su) 8 x (w, false) = (Ok z, (w1, false)) /\ reconstruct z = Ok (mkT [1%nat] [-40678644217101]) /\
  reciprocal (noted_engine t_alpha t_ev gen s su) RNewton 10 y (w, false) = (Ok z', (w2, false)) /\ reconstruct z' = Ok (mkT [1%nat] [-7311295]) /\
  sigmoid (noted_engine t_alpha t_ev gen s su) SExp [] t (w, false) = (Ok z'', (w3, false)) /\ reconstruct z'' = Ok (mkT [1%nat] [-71869686933622]).
Proof.
  exists toy, fx_s, toy_supply, (fx_x (10^18) [23 * 65536]), (fx_x (10^18) [400 * 65536]), (fx_x (10^18) [520 * 65536]).
  eexists _, _, _, (fw0, 0%nat), _, _, _. split; [exact toy_good|]. split; [split; reflexivity|]. split; [exact fx_supply1|]. split; [exact fw0_none|].
  do 3 (split; [repeat (split; [reflexivity|]); split; [discriminate|]; split; [repeat constructor; discriminate|reflexivity]|]).
  split; [vm_compute; reflexivity|]. split; [vm_compute; reflexivity|].
  split; [vm_compute; reflexivity|]. split; [vm_compute; reflexivity|].
  split; [vm_compute; reflexivity|]. vm_compute; reflexivity.
Qed.
Print Assumptions C70_range_refuted.

(** C70 refuted for secrets whose shares carry: the two shares of 1 are divided by 256 separately,
    exp(1) comes out above 10^9. *)
Theorem C70_carry_refuted : exists (gen : fop -> nat -> nat -> result (list (list tkey))) s su x z w w',
  default_pair s /\ supply_ok [1%nat] su /\ none_waiting (fst w) /\ shares_of s [1%nat] [65536] x /\
  exp_a (mpc_engine t_alpha t_ev gen s su) 8 x w = (Ok z, w') /\ reconstruct z = Ok (mkT [1%nat] [106257550892675]).
Proof.
  exists toy, fx_s, toy_supply, (mkM 3 [1%nat] [mkT [1%nat] [3 - 2^63]; mkT [1%nat] [65533 - 2^63]]).
  eexists _, (fw0, 0%nat), _. split; [split; reflexivity|]. split; [exact fx_supply1|]. split; [exact fw0_none|].
  split. { repeat (split; [reflexivity|]). split; [discriminate|]; split; [repeat constructor; discriminate|reflexivity]. }
  split; [vm_compute; reflexivity|]. vm_compute; reflexivity.
Qed.
Print Assumptions C70_carry_refuted.
