(** C40 with fixed-point secrets: the one-hot argmax, max and argmax along a dimension. *)
From Coq Require Import QArith Reals String.
From Verif Require Import Util Modular S_Ring S_Tensor S_View S_Bil S_Spdz S_Fss S_Sort S_Argmax S_Fixed
  M_Torch M_Encoder M_Tensor M_Share M_Spdz M_Store M_Fss M_Engine M_Static M_Argmax
  L_Torch L_Tensor L_Encoder L_Share L_Div L_Bil L_Mul L_Circuit L_Fss2 L_Fss3 L_Engine L_View L_Grad L_Algo L_Argmax L_Fixed L_Fixed2 L_ArgmaxF
  P_Fss P_Sort P_Fixed P_Argmax.
Local Open Scope Z_scope.
Local Open Scope list_scope.

Lemma hot_maximum sh d v e : (d < length sh)%nat -> (e < numel sh)%nat ->
  (hot sh d (fun q => nth q v 0) e = true <-> is_maximum (nth e v 0) (line_of sh d v e)).
Proof.
  intros Hd He. rewrite hot_spec. split.
  - intros H. split.
    + rewrite <- (pos_coord sh d Hd e He) at 1. rewrite <- line_of_nth by (apply coord_lt; auto).
      apply nth_In. rewrite line_of_length. apply coord_lt; auto.
    + intros y Hy. apply In_nth with (d := 0) in Hy. destruct Hy as (j & Hj & <-). rewrite line_of_length in Hj.
      rewrite line_of_nth by auto. apply H. auto.
  - intros [_ H] j Hj. rewrite <- line_of_nth by auto. apply H, nth_In. rewrite line_of_length. auto.
Qed.

(** What the theorems below need: a correct backend, a session of two parties with any base and
    precision, secrets of less than 2^30 units, a line (or a line of 2) of encoded ones below
    2^31 units. *)
Definition fsetting {K} (alpha : K -> Z) ev gen (s : sess) (su : tri_supply) sh (n : nat) v x (w : mpcw (K:=K)) : Prop :=
  backend_ok alpha ev gen /\ fixed_pair s /\ supply_ok sh su /\ shares_of s sh v x /\ Forall (fun a => Z.abs a < 2^30) v /\
  (0 < numel sh)%nat /\ Z.max 2 (Z.of_nat n) * scale (s_cfg s) < 2^31 /\ none_waiting (fst w).

(** C40 in fixed point along a dimension, kept or not: the one-hot result is exact (the encoded
    1 where a largest value of its line stands, 0 elsewhere); max and argmax never raise; if the
    product's shares do not carry, max is within [n] units of the largest value (times the
    number of its places), and if the shares times the indices do not carry, the position is
    within [n] units of the encoded place (sum of places), [n] the length of the line.
    Missing from the full statement: carrying shares, ties (refuted), larger secrets, replicated
    secrets. *)
Theorem C40_fixed_partial : forall K alpha ev (gen : fop -> nat -> nat -> result (list (list K))) s su sh d keep v x w,
  let n := nth d sh 0%nat in let S := scale (s_cfg s) in let so := reduced keep sh d in
  fsetting alpha ev gen s su sh n v x w -> (d < length sh)%nat ->
  exists hots m at_ prod w1 w2 noted raw o tops ats,
    argmax_one_hot alpha ev gen s su x (Some d) w = (Ok hots, w1) /\ shares_of s sh o hots /\ length o = numel sh /\
    (forall e, (e < numel sh)%nat ->
      (is_maximum (nth e v 0) (line_of sh d v e) -> nth e o 0 = S) /\
      (~ is_maximum (nth e v 0) (line_of sh d v e) -> nth e o 0 = 0)) /\
    max_mpc alpha ev gen s su x (Some d) keep false w = (Ok (m, Some at_), w2) /\ none_waiting (fst w2) /\
    argmax alpha ev gen s su x (Some d) keep w = (Ok at_, w1) /\
    shares_of s so tops m /\ shares_of s so ats at_ /\
    e_mul (noted_engine alpha ev gen s su) hots x (w1, false) = (Ok prod, (w2, noted)) /\
    rmap (fun t => sh_bil BMul t (share_init (s_cfg s) (index_vector sh d))) (m_shares hots) = Ok raw /\
    forall e t, (e < numel so)%nat -> is_maximum t (line_at keep sh d v e) ->
      let p := places (line_at keep sh d v e) t in
      (noted = false -> Z.abs (nth e tops 0 - Z.of_nat (length p) * t) <= Z.of_nat n) /\
      (carries raw = false -> Z.abs (nth e ats 0 - zsum (map Z.of_nat p) * S) <= Z.of_nat n).
Proof.
  intros K alpha ev gen s su sh d keep v x w n S0 so (HG & [Hn Hb] & (HT & HR) & HX & HV & HN & HB & HW) Hd.
  destruct (shares_rep _ _ _ _ HX) as [GX LV]. pose proof (scale_ge1 s Hb) as S1. fold S0 in S1, HB.
  assert (HV1 : forall a, (a < numel sh)%nat -> Z.abs (nth a v 0) < 2^30).
  { intros a Ha. rewrite Forall_forall in HV. apply HV, nth_In. lia. }
  assert (HC : forall a b, (a < numel sh)%nat -> (b < numel sh)%nat -> Z.abs (nth a v 0 - nth b v 0) < 2^31 - 1).
  { intros a b Ha Hb'. pose proof (HV1 a Ha). pose proof (HV1 b Hb'). lia. }
  assert (RL : Z.of_nat (rl sh d) * S0 < 2^31).
  { replace (Z.of_nat (rl sh d)) with (Z.max 2 (Z.of_nat n)); [exact HB|]. unfold rl, n. lia. }
  destruct (one_hot_dim_fix alpha ev gen s su HG Hn Hb HR sh d _ x Hd GX HC RL w HW) as (r & w1 & E1 & N1 & GR).
  destruct (masked alpha ev gen s su Hn Hb HR sh r x (hot sh d (fun q => nth q v 0)) _ HN HT GR GX) with (w := w1) as (z & w2 & noted & M0 & M1 & N2 & g & GZ & BG); auto.
  { fold S0. lia. }
  { intros e He. pose proof (HV1 e He). fold S0. split; [lia|]. nia. }
  destruct (indexed s su Hn Hb HR sh d r (hot sh d (fun q => nth q v 0)) Hd HN RL GR) as (p & raw & P0 & P1 & h & GP & BH).
  destruct (rep_sum keep sh d Hd s _ z GZ) as (m & EM & GM). destruct (rep_sum keep sh d Hd s _ p GP) as (a & EA & GA).
  pose proof GR as (_ & R2 & _).
  do 11 eexists. split; [exact E1|]. split; [apply rep_listed; exact GR|]. split; [rewrite map_length, seq_length; auto|]. split.
  { intros e He. rewrite map_seq_nth by auto. pose proof (hot_maximum sh d v e Hd He) as HH. fold S0. split; intros H.
    - apply HH in H. rewrite H. cbn [b2z]. lia.
    - destruct (hot _ _ _ _); [exfalso; apply H, HH; reflexivity|reflexivity]. }
  split. { unfold max_mpc, cbind. rewrite E1, M0. unfold lift. rewrite R2, P0. rewrite EA, EM. reflexivity. }
  split; [exact N2|]. split. { unfold argmax, cbind. rewrite E1. unfold lift. rewrite R2, P0. rewrite EA. reflexivity. }
  split; [apply rep_listed; exact GM|]. split; [apply rep_listed; exact GA|]. split; [exact M1|]. split; [exact P1|].
  intros e t He HM pl. destruct (line_sums keep sh d v e t Hd He HM) as [L1 L2]. fold pl n in L1, L2. rewrite !map_seq_nth by auto. split; intros HQ.
  - rewrite <- L1. apply sumn_near. intros k Hk. apply (BG HQ). apply posk_lt; auto.
  - rewrite <- L2, <- sumn_scale. apply sumn_near. intros k Hk. apply (BH HQ). apply posk_lt; auto.
Qed.
Print Assumptions C40_fixed_partial.

(** 3/2 and -1/4 above 1/65536 and 2 *)
Definition C40_fx : mpc := mkM 3 [2; 2]%nat
  [mkT [2; 2]%nat [10^17; 10^17; 10^17; 10^17]; mkT [2; 2]%nat [98304 - 10^17; -16384 - 10^17; 1 - 10^17; 131072 - 10^17]].
Example C40_fixed_witness :
  fsetting t_alpha t_ev toy fx_s toy_supply [2; 2]%nat 2 [98304; -16384; 1; 131072] C40_fx w0 /\
  is_maximum 98304 (line_at false [2; 2]%nat 1 [98304; -16384; 1; 131072] 0) /\
  opened (fst (max_mpc t_alpha t_ev toy fx_s toy_supply C40_fx (Some 1%nat) false false w0)) =
    Ok (mkT [2%nat] [98304; 131072], Some (mkT [2%nat] [0; 65536])) /\
  (let (h, w1) := argmax_one_hot t_alpha t_ev toy fx_s toy_supply C40_fx (Some 1%nat) w0 in
   do hots <- h;
   do raw <- rmap (fun t => sh_bil BMul t (share_init (s_cfg fx_s) (index_vector [2; 2]%nat 1))) (m_shares hots);
   Ok (snd (snd (e_mul (noted_engine t_alpha t_ev toy fx_s toy_supply) hots C40_fx (w1, false))), carries raw)) = Ok (false, false).
Proof.
  split.
  { split; [exact toy_good|]. split; [split; [reflexivity|cbn; lia]|].
    split; [split; [intros k; split; [reflexivity|]; exists [3; 3; 3; 3], [5; 5; 5; 5];
                  repeat split; try discriminate; repeat constructor; try reflexivity; discriminate
                 |intros k; split; [reflexivity|]; repeat constructor; discriminate]|].
    split; [repeat (split; [reflexivity|]); split; [discriminate|]; split; [repeat constructor; discriminate|reflexivity]|].
    split; [repeat constructor|]. split; [cbn; lia|]. split; [reflexivity|exact fw0_none]. }
  split; [split; [cbn; tauto|intros q Hq; vm_compute in Hq; lia]|]. split; vm_compute; reflexivity.
Qed.

(** C40 in fixed point without a dimension, for a list shorter than the scale whose largest value
    stands at one place only: max is within [n] units of it, argmax within [n] units of its
    encoded place; the test for several maxima does not raise. *)
Theorem C40_fixed_flat_partial : forall K alpha ev (gen : fop -> nat -> nat -> result (list (list K))) s su n keep oh v x w top at_,
  let S := scale (s_cfg s) in
  fsetting alpha ev gen s su [n] n v x w -> Z.of_nat n < S -> Z.max 2 (Z.of_nat n) * S + Z.of_nat n < 2^31 - 1 ->
  is_maximum top v -> places v top = [at_] ->
  exists hots m prod w1 w2 noted raw t,
    argmax_one_hot alpha ev gen s su x None w = (Ok hots, w1) /\
    max_mpc alpha ev gen s su x None keep oh w = (Ok (m, None), w2) /\ none_waiting (fst w2) /\ shares_of s [] [t] m /\
    e_mul (noted_engine alpha ev gen s su) hots x (w1, false) = (Ok prod, (w2, noted)) /\
    rmap (fun t => sh_bil BMul t (share_init (s_cfg s) (index_vector [n] 0))) (m_shares hots) = Ok raw /\
    (noted = false -> Z.abs (t - top) <= Z.of_nat n) /\
    (carries raw = false -> exists a i w3,
       argmax alpha ev gen s su x None keep w = (Ok a, w3) /\ none_waiting (fst w3) /\ shares_of s [] [i] a /\
       Z.abs (i - Z.of_nat at_ * S) <= Z.of_nat n).
Proof.
  intros K alpha ev gen s su n keep oh v x w top at_ S0 (HG & [Hn Hb] & (HT & HR) & HX & HV & HN & HB & HW) HS HS2 HM HP.
  destruct (shares_rep _ _ _ _ HX) as [GX LV]. pose proof (scale_ge1 s Hb) as S1. fold S0 in S1, HB, HS2.
  assert (EN : numel [n] = n) by (cbn; lia). assert (LN : length v = n) by lia.
  assert (HV1 : forall a, (a < n)%nat -> Z.abs (nth a v 0) < 2^30).
  { intros a Ha. rewrite Forall_forall in HV. apply HV, nth_In. lia. }
  assert (HC : forall a b, (a < n)%nat -> (b < n)%nat -> Z.abs (nth a v 0 - nth b v 0) < 2^31 - 1).
  { intros a b Ha Hb'. pose proof (HV1 a Ha). pose proof (HV1 b Hb'). lia. }
  assert (RL : Z.of_nat (rl [n] 0) * S0 < 2^31).
  { replace (Z.of_nat (rl [n] 0)) with (Z.max 2 (Z.of_nat n)); [exact HB|]. unfold rl. cbn [nth]. lia. }
  destruct (one_hot_flat_fix alpha ev gen s su HG Hn Hb HR n _ x GX HC RL w HW) as (r & w1 & E1 & N1 & GR).
  destruct (masked alpha ev gen s su Hn Hb HR [n] r x (hot [n] 0 (fun q => nth q v 0)) _ HN HT GR GX) with (w := w1) as (z & w2 & noted & M0 & M1 & N2 & g & GZ & BG); auto.
  { fold S0. lia. }
  { intros e He. rewrite EN in He. pose proof (HV1 e He). fold S0. split; [lia|]. nia. }
  destruct (indexed s su Hn Hb HR [n] 0 r (hot [n] 0 (fun q => nth q v 0)) ltac:(cbn; lia) HN RL GR) as (p & raw & P0 & P1 & h & GP & BH).
  destruct (rep_vsum s [n] _ z GZ) as (m & EM & GM). destruct (rep_vsum s [n] _ p GP) as (a & EA & GA). rewrite EN in GM, GA.
  pose proof GR as (_ & R2 & _). pose proof GX as (_ & X2 & _).
  assert (ON : forall c y, rep s [] (fun _ => c) y -> shares_of s [] [c] y).
  { intros c y GY. eapply rep_shares; [exact GY|reflexivity|]. intros e He. change (numel []) with 1%nat in He. replace e with 0%nat by lia. reflexivity. }
  destruct (flat_sums v top HM) as [L1 L2]. rewrite LN, HP in L1, L2. cbn [length map zsum] in L1, L2.
  exists r, m, z, w1, w2, noted, raw. eexists. split; [exact E1|].
  split. { unfold max_mpc, cbind. rewrite E1, M0. unfold lift. rewrite EM. reflexivity. }
  split; [exact N2|]. split; [apply ON; exact GM|]. split; [exact M1|]. split; [exact P1|]. split.
  - intros HQ. replace top with (Z.of_nat 1 * top) by lia. rewrite <- L1. apply sumn_near. intros k Hk. apply (BG HQ). lia.
  - intros HQ. specialize (BH HQ). set (i := sumn n h) in *.
    assert (IB : Z.abs (i - Z.of_nat at_ * S0) <= Z.of_nat n).
    { replace (Z.of_nat at_) with (Z.of_nat at_ + 0) by lia. rewrite <- L2, <- sumn_scale. apply sumn_near. intros k Hk. specialize (BH k ltac:(lia)).
      replace (coord [n] 0 k) with k in BH; [exact BH|]. unfold coord. cbn [unravel nth]. change (numel []) with 1%nat. symmetry. apply Nat.div_1_r. }
    assert (AN : (at_ < n)%nat).
    { assert (IN : In at_ (places v top)) by (rewrite HP; left; auto). apply filter_In in IN. destruct IN as [IN _]. apply in_seq in IN. lia. }
    assert (PR : runs (let! c := e_relp (mpc_engine alpha ev gen s su) RGe a (NInt (Z.of_nat (rl [n] 0))) in
        let! t := lift (reconstruct c) in if nth 0 (tdat t) 0 =? 0 then cret a else cerr ValueError) (eq a)).
    { eapply runs_bind; [apply (r_gep0 alpha ev gen s su HG Hn HR _ (Z.of_nat (rl [n] 0)) a GA)|]. intros c (_ & C2 & _ & C4).
      fold i S0 in C4. rewrite relates32_small in C4.
      2:{ assert (Z.of_nat (rl [n] 0) = Z.max 2 (Z.of_nat n)) by (unfold rl; cbn [nth]; lia). rewrite H. nia. }
      eapply runs_bind.
      { apply runs_lift. unfold reconstruct. rewrite (shared_tsum R64 supR _ _ _ C4). eexists. split; [reflexivity|apply eq_refl]. }
      intros t <-. cbn [tdat]. unfold vals. change (numel [1%nat]) with 1%nat. cbn [seq map nth relates].
      replace (Z.of_nat (rl [n] 0) * S0 <=? i) with false.
      - cbn [b2z]. rewrite Z.mul_0_l. change (to_ring R64 0 =? 0) with true. apply runs_ret. reflexivity.
      - symmetry. apply Z.leb_gt. assert (Z.of_nat (rl [n] 0) = Z.max 2 (Z.of_nat n)) by (unfold rl; cbn [nth]; lia). nia. }
    destruct (PR w1 N1) as (a' & w3 & EP & N3 & <-).
    exists a, i, w3. split.
    { unfold argmax, cbind at 1. rewrite E1. rewrite R2, X2, EN. change (PTensor [n] (float_range n)) with (index_vector [n] 0).
      unfold cbind at 1. unfold lift at 1. rewrite P0. unfold cbind at 1. unfold lift at 1. rewrite EA.
      unfold cbind at 1. unfold lift at 1. change (last_dim [n]) with (Ok 0%nat : result nat).
      unfold cbind at 1. unfold lift at 1. rewrite row_length_ok by (cbn; lia). exact EP. }
    split; [exact N3|]. split; [apply ON; exact GA|]. exact IB.
Qed.
Print Assumptions C40_fixed_flat_partial.

Example C40_fixed_flat_witness :
  fsetting t_alpha t_ev toy fx_s toy_supply [4%nat] 4 [98304; -131072; 1; 0] (fx_x (10^17) [98304; -131072; 1; 0]) w0 /\
  Z.of_nat 4 < scale (s_cfg fx_s) /\ Z.max 2 (Z.of_nat 4) * scale (s_cfg fx_s) + Z.of_nat 4 < 2^31 - 1 /\ is_maximum 98304 [98304; -131072; 1; 0] /\ places [98304; -131072; 1; 0] 98304 = [0%nat] /\
  opened (fst (max_mpc t_alpha t_ev toy fx_s toy_supply (fx_x (10^17) [98304; -131072; 1; 0]) None false false w0)) = Ok (mkT [] [98304], None) /\
  (do z <- fst (argmax t_alpha t_ev toy fx_s toy_supply (fx_x (10^17) [1; -131072; 98304; 0]) None false w0); reconstruct z) = Ok (mkT [] [131072]).
Proof.
  split.
  { split; [exact toy_good|]. split; [split; [reflexivity|cbn; lia]|]. split; [exact fx_supply4|].
    split; [repeat (split; [reflexivity|]); split; [discriminate|]; split; [repeat constructor; discriminate|reflexivity]|].
    split; [repeat constructor|]. split; [cbn; lia|]. split; [reflexivity|exact fw0_none]. }
  split; [reflexivity|]. split; [reflexivity|]. split; [split; [cbn; tauto|intros q Hq; cbn in Hq; lia]|]. split; [reflexivity|].
  split; vm_compute; reflexivity.
Qed.
