(** Property C83: the layers, the squared error and the optimiser in sessions with replicated shares.
    Specifications: S_RepT ([holds], [cfg_ok]), S_RCircuit ([fit]: usable randomness of a product),
    S_RepNN ([rbias], [no_carry3], [shifted], [rtrainable], [rmoved]). *)
From Coq Require Import QArith.
From Verif Require Import Util Modular S_Ring S_Tensor S_Bil S_Spdz S_View S_Rep S_RepView M_Torch L_Torch M_Encoder M_Tensor L_Tensor M_Share L_Share M_Spdz L_Spdz L_Bil
  L_RShare L_Mul L_Circuit L_Optim L_Module2 M_Fss M_Engine M_Approx M_Loss M_Session L_Session M_Rep S_RepT L_Rep L_Rep2 L_Rep3 L_Rep4 L_Rep5 L_Rep6
  M_RepView L_RepView M_RepEngine L_RepEngine S_RCircuit M_RepNN S_RepNN L_RepNN P_Rep P_Loss.
Local Open Scope Z_scope.

(** C83: a Linear layer with three parties, without scaling: exactly the weighted sums plus the bias,
    in every ring 2^8 to 2^64, semi-honest or malicious, inputs of any shape *)
Theorem C83_linear_exact : forall ring s l x b fin fout c d vx vw vb f u, supported ring -> ring <> 2 -> ring <> 67 ->
  rs_n s = 3%nat -> cfg_ok c -> c_prec c = 0%nat ->
  holds s ring d [fout; fin] vw (rl_w l) -> rbias s ring fout vb (rl_b l) -> holds s ring c (b ++ [fin]) vx x ->
  product_r ring SMatmul (b ++ [fin]) [fin; fout] (b ++ [fout]) f -> fit ring s (b ++ [fin]) [fin; fout] (b ++ [fout]) f u ->
  exists z vz, rep_linear s l x u = Ok z /\ holds s ring c (b ++ [fout]) vz z /\
    forall e, (e < numel (b ++ [fout]))%nat ->
      nth e vz 0 = to_ring ring (sumn fin (fun i => nth (e / fout * fin + i) vx 0 * nth (e mod fout * fin + i) vw 0)
                                 + S_Module.bias_at vb (e mod fout)).
Proof.
  intros ring s l x b fin fout c d vx vw vb f u Hs N2 N67 Hn HC Hc HW HB HX HP HU.
  destruct (rep_linear_ok ring Hs s l x b fin fout c d vx vw vb f u N2 N67 Hn HC HW HB HX HP HU) as (zs & z & vz & LZ & SZ & _ & E & HZ & HV).
  exists z, vz. split; [exact E|]. split; [exact HZ|]. intros e He. rewrite HV by auto.
  rewrite (trunc3_exact ring Hs c _ _ zs N2 N67 Hc SZ LZ). destruct (linear_product_r ring b fin fout _ f HP) as [_ HM].
  rewrite HM by auto. apply to_ring_eq. rewrite to_ring_eqmod by apply (supported_pos ring Hs). reflexivity.
Qed.
Print Assumptions C83_linear_exact.

(** with scaled values: the weighted sum is divided by the scale, rounded down or one less, wherever
    the parties' shares [zs] of the product do not carry *)
Theorem C83_linear_scaled : forall ring s l x b fin fout c d vx vw vb f u, supported ring -> ring <> 2 -> ring <> 67 ->
  rs_n s = 3%nat -> c_base c = 2 ->
  holds s ring d [fout; fin] vw (rl_w l) -> rbias s ring fout vb (rl_b l) -> holds s ring c (b ++ [fin]) vx x ->
  product_r ring SMatmul (b ++ [fin]) [fin; fout] (b ++ [fout]) f -> fit ring s (b ++ [fin]) [fin; fout] (b ++ [fout]) f u ->
  exists wt zs z vz, rm_method Mt (rl_w l) = Ok (false, wt) /\ falcon_z BMatmul x wt (su_mask u) = Ok zs /\
    rep_linear s l x u = Ok z /\ holds s ring c (b ++ [fout]) vz z /\
    forall e, (e < numel (b ++ [fout]))%nat -> no_carry3 ring e zs -> exists q,
      shifted (c_prec c) (to_ring ring (sumn fin (fun i => nth (e / fout * fin + i) vx 0 * nth (e mod fout * fin + i) vw 0))) q /\
      nth e vz 0 = to_ring ring (q + S_Module.bias_at vb (e mod fout)).
Proof.
  intros ring s l x b fin fout c d vx vw vb f u Hs N2 N67 Hn Hb HW HB HX HP HU.
  assert (HC : cfg_ok c) by (unfold cfg_ok; lia).
  destruct (rep_linear_ok ring Hs s l x b fin fout c d vx vw vb f u N2 N67 Hn HC HW HB HX HP HU) as (zs & z & vz & LZ & SZ & (wt & EW & EZ) & E & HZ & HV).
  exists wt, zs, z, vz. do 4 (split; [assumption|]). intros e He HN.
  exists (nth e (trunc3 ring c (b ++ [fout]) zs) 0). split; [|apply HV; auto].
  pose proof (trunc3_shifted ring Hs c _ _ zs e N2 N67 Hb SZ He HN) as T.
  destruct (linear_product_r ring b fin fout _ f HP) as [_ HM]. rewrite HM in T by auto. exact T.
Qed.
Print Assumptions C83_linear_scaled.

(* 1.5 * 2 + 0.5 with four bits after the point, three parties; the same shares as integers *)
Definition C83_c (p : nat) : config := mkConfig 2 p.
Definition C83_l (p : nat) : rlinear :=
  mkRL (rx RS3 (2^64) (C83_c p) [1;1]%nat [[20]; [10]; [2]]) (Some (rx RS3 (2^64) (C83_c p) [1]%nat [[5]; [-2]; [5]])).
Definition C83_x (p : nat) : rmpc := rx RS3 (2^64) (C83_c p) [1;1]%nat [[14]; [5]; [5]].
Definition C83_u : mulsup := mkSup [mkT [1;1]%nat [9]; mkT [1;1]%nat [-4]; mkT [1;1]%nat [-5]] (mkT [1;1]%nat [7]) (mkRT [] [] []).
Example C83_linear_witness :
  (forall p, holds RS3 (2^64) (C83_c p) [1;1]%nat [32] (rl_w (C83_l p)) /\ rbias RS3 (2^64) 1 (Some [8]) (rl_b (C83_l p)) /\
     holds RS3 (2^64) (C83_c p) ([1] ++ [1])%nat [24] (C83_x p)) /\
  product_r (2^64) SMatmul ([1] ++ [1])%nat [1;1]%nat ([1] ++ [1])%nat (mm_vr (2^64) [] [] [] 1 1 1) /\
  fit (2^64) RS3 ([1] ++ [1])%nat [1;1]%nat ([1] ++ [1])%nat (mm_vr (2^64) [] [] [] 1 1 1) C83_u /\
  (do z <- rep_linear RS3 (C83_l 0) (C83_x 0) C83_u; rm_reconstruct RS3 z) = Ok (mkT [1;1]%nat [24 * 32 + 8]) /\
  (do z <- rep_linear RS3 (C83_l 4) (C83_x 4) C83_u; rm_reconstruct RS3 z) = Ok (mkT [1;1]%nat [24 * 2 + 8 - 1]).
Proof.
  split.
  { intros p. split; [rx|]. split; [exists (C83_c p); rx|]. rx. }
  split; [apply (prod_mm_r (2^64) [] [] [] 1 1 1); apply bshape_same|]. split.
  { split; [apply sharedb_ok; vm_compute; reflexivity|]. split; [reflexivity|]. split; [apply tensor_inb_ok; vm_compute; reflexivity|discriminate]. }
  split; vm_compute; reflexivity.
Qed.

(** Convolutional layers: never, whatever the layer, the session and the randomness *)
Theorem C83_conv_fails : forall s k x w b u, exists e, rep_conv s k x w b u = Err e.
Proof.
  intros s k x w b u. unfold rep_conv. destruct b as [b|]; [|eauto].
  unfold rm_bil. destruct (negb _); cbn [rbind opname_of]; eauto.
Qed.
Print Assumptions C83_conv_fails.
Theorem C83_conv_refuted : exists s c sx sw so f vx vw vb x w b u, rs_n s = 3%nat /\
  holds s (2^64) c sx vx x /\ holds s (2^64) c sw vw w /\ holds s (2^64) c [1%nat] vb b /\
  product_r (2^64) (SConv 1 0 1 1) sx sw so f /\ fit (2^64) s sx sw so f u /\
  rep_conv s (mkConv 1 0 1 1) x w (Some b) u = Err NotImplementedErr.
Proof.
  exists RS3, c16, [1;1;1;2]%nat, [1;1;1;1]%nat, [1;1;1;2]%nat, (conv_vr (2^64) 1 0 1 1 1 1 1 2 1 1 1 1 1 2), [6; 15], [3], [5],
    (rx RS3 (2^64) c16 [1;1;1;2]%nat [[1; 4]; [2; 5]; [3; 6]]), (rx RS3 (2^64) c16 [1;1;1;1]%nat [[1]; [1]; [1]]),
    (rx RS3 (2^64) c16 [1]%nat [[1]; [1]; [3]]),
    (mkSup [mkT [1;1;1;2]%nat [0; 1]; mkT [1;1;1;2]%nat [0; 0]; mkT [1;1;1;2]%nat [0; -1]] (mkT [1;1;1;2]%nat [7; 8]) (mkRT [] [] [])).
  split; [reflexivity|]. split; [rx|]. split; [rx|]. split; [rx|].
  split; [apply (prod_conv_r (2^64) 1 0 1 1 1 1 2 1 1 1 1 1 2); cbn; lia|]. split; [|reflexivity].
  split; [apply sharedb_ok; vm_compute; reflexivity|]. split; [reflexivity|]. split; [apply tensor_inb_ok; vm_compute; reflexivity|discriminate].
Qed.
Print Assumptions C83_conv_refuted.

(** The squared error, reduction "sum", ring 2^64, without scaling: exact *)
Theorem C83_sum_exact : forall s c u sh va vb pred target, rs_n s = 3%nat -> cfg_ok c -> c_prec c = 0%nat -> sh <> [] ->
  holds s (2^64) c sh va pred -> holds s (2^64) c sh vb target ->
  (forall k, fit (2^64) s sh sh sh (mul_vr (2^64) sh sh sh) (ru_mul u k)) ->
  exists t, rep_mse s u pred target RSum = Ok (false, t) /\ holds s (2^64) c [] [to_ring (2^64) (squares va vb)] t.
Proof.
  intros s c u sh va vb pred target Hn HC Hc Hsh HA HB HF. assert (Hs : supported (2^64)) by sup.
  assert (N2 : 2^64 <> 2) by discriminate. assert (N67 : 2^64 <> 67) by discriminate.
  destruct (holds_vals _ Hs _ _ _ _ _ HA) as (AL & AI). destruct (holds_vals _ Hs _ _ _ _ _ HB) as (BL & BI).
  destruct (rep_square_ok (2^64) Hs s c u sh va vb pred target N2 N67 Hn HC Hsh HA HB HF) as (d & p & zs & ys & ED & EP & LZ & SZ & LY & SY & HP).
  rewrite (trunc3_exact _ Hs c sh _ ys N2 N67 Hc SY LY) in HP. rewrite (trunc3_exact _ Hs c sh _ zs N2 N67 Hc SZ LZ) in HP.
  destruct (rm_sum_64 s c sh _ p MSum [] (fun v => [zsum v]) HP) as (t & ET & HT); [constructor|].
  exists t. unfold rep_mse, rep_sq_err. rewrite ED. cbn [rbind]. rewrite EP. cbn [rbind]. split; [exact ET|].
  change R64 with (2^64) in HT. cbn [map] in HT. match type of HT with holds _ _ _ _ [?A] _ => replace A with (to_ring (2^64) (squares va vb)) in HT; [exact HT|] end.
  assert (E1 : encode1 c (NInt 1) = 1) by (unfold encode1, scale; rewrite Hc; change (Z.of_nat 0) with 0; rewrite Z.pow_0_r; reflexivity).
  apply to_ring_eq. rewrite E1. unfold squares. clear -AL BL. assert (LL : length va = length vb) by lia. clear AL BL.
  change (2^64) with R64. revert vb LL. induction va as [|a va IH]; intros [|b vb] LL; try discriminate LL; [reflexivity|].
  cbn [map2 map zsum fold_right]. rewrite <- IH by (cbn in LL; lia). rewrite (to_ring_eqmod R64 _ posR). rewrite (to_ring_eqmod R64 _ posR).
  apply eqmod_eq. rewrite Z.mul_1_r. reflexivity.
Qed.
Print Assumptions C83_sum_exact.

(** scaled values: every square is divided by the scale, rounded down or one less, and so again for
    its product with the number one ([pow] starts from 1); up to two units per element, wherever the
    shares of the two products do not carry *)
Theorem C83_sum_scaled : forall s c u sh va vb pred target, rs_n s = 3%nat -> c_base c = 2 -> sh <> [] ->
  holds s (2^64) c sh va pred -> holds s (2^64) c sh vb target ->
  (forall k, fit (2^64) s sh sh sh (mul_vr (2^64) sh sh sh) (ru_mul u k)) ->
  exists t r zs ys, rep_mse s u pred target RSum = Ok (false, t) /\ holds s (2^64) c [] [to_ring (2^64) r] t /\
    shared (2^64) sh (map2 (fun a b => to_ring (2^64) ((a - b) * (a - b))) va vb) zs /\ length zs = 3%nat /\ length ys = 3%nat /\
    let m := 2 ^ Z.of_nat (c_prec c) in
    ((forall e, (e < numel sh)%nat -> no_carry3 (2^64) e zs /\ no_carry3 (2^64) e ys /\
        in_ring (2^64) ((nth e va 0 - nth e vb 0) * (nth e va 0 - nth e vb 0) + m)) -> (m < 2^63) ->
     zsum (map2 (fun a b => (a - b) * (a - b) / m) va vb) - 2 * Z.of_nat (numel sh) <= r <=
     zsum (map2 (fun a b => (a - b) * (a - b) / m) va vb)).
Proof.
  intros s c u sh va vb pred target Hn Hb Hsh HA HB HF. assert (Hs : supported (2^64)) by sup.
  assert (HC : cfg_ok c) by (unfold cfg_ok; lia).
  assert (N2 : 2^64 <> 2) by discriminate. assert (N67 : 2^64 <> 67) by discriminate.
  destruct (holds_vals _ Hs _ _ _ _ _ HA) as (AL & AI). destruct (holds_vals _ Hs _ _ _ _ _ HB) as (BL & BI).
  destruct (rep_square_ok (2^64) Hs s c u sh va vb pred target N2 N67 Hn HC Hsh HA HB HF) as (d & p & zs & ys & ED & EP & LZ & SZ & LY & SY & HP).
  destruct (rm_sum_64 s c sh _ p MSum [] (fun v => [zsum v]) HP) as (t & ET & HT); [constructor|].
  exists t, (zsum (trunc3 (2^64) c sh ys)), zs, ys.
  unfold rep_mse, rep_sq_err. rewrite ED. cbn [rbind]. rewrite EP. cbn [rbind]. split; [exact ET|].
  split; [exact HT|]. split; [exact SZ|]. split; [exact LZ|]. split; [exact LY|]. intros HN Hm. set (m := 2 ^ Z.of_nat (c_prec c)) in *.
  assert (M0 : 0 < m) by (apply Z.pow_pos_nonneg; lia).
  assert (E1 : encode1 c (NInt 1) = m).
  { unfold encode1, scale. rewrite Hb. fold m. rewrite Z.mul_1_l. apply in_ring64; lia. }
  assert (K : forall e, (e < numel sh)%nat -> let q := (nth e va 0 - nth e vb 0) * (nth e va 0 - nth e vb 0) / m in
              q - 2 <= nth e (trunc3 (2^64) c sh ys) 0 <= q).
  { intros e He q. destruct (HN e He) as (NZ & NY & IR).
    pose proof (trunc3_shifted _ Hs c sh _ zs e N2 N67 Hb SZ He NZ) as TZ.
    pose proof (trunc3_shifted _ Hs c sh _ ys e N2 N67 Hb SY He NY) as TY. fold m in TZ, TY.
    rewrite (nth_map2 _ 0 0 0) in TZ by lia. rewrite (nth_map_in _ 0 0) in TY by (rewrite trunc3_len; auto). rewrite E1 in TY.
    set (w := (nth e va 0 - nth e vb 0) * (nth e va 0 - nth e vb 0)) in *. assert (W0 : 0 <= w) by (apply Z.square_nonneg).
    assert (RW : - 2^63 <= w + m < 2^63) by (apply in_ring64_range; exact IR).
    rewrite (in_ring64 w) in TZ by lia. set (a := nth e (trunc3 (2^64) c sh zs) 0) in *.
    unfold shifted in TZ. fold m in TZ. fold q in TZ.
    assert (QW : q * m <= w) by (unfold q; rewrite Z.mul_comm; apply Z.mul_div_le; lia).
    assert (Q0 : 0 <= q) by (apply Z.div_pos; lia).
    assert (AM : - m <= a * m <= w) by (destruct TZ; nia).
    rewrite (in_ring64 (a * m)) in TY by lia. unfold shifted in TY. fold m in TY. rewrite Z.div_mul in TY by lia. lia. }
  assert (LT : length (trunc3 (2^64) c sh ys) = length va) by (rewrite trunc3_len; auto).
  rewrite <- AL in *. assert (LL : length vb = length va) by lia. clear -LT LL K. revert vb LL K LT. generalize (trunc3 (2^64) c sh ys).
  induction va as [|a va IH]; intros [|x l] [|b vb] LL K LT; try discriminate; [cbn; lia|].
  specialize (IH l vb ltac:(cbn in LL; lia)). specialize (fun H => IH H ltac:(cbn in LT; lia)).
  pose proof (K 0%nat ltac:(cbn; lia)) as K0. cbn [nth] in K0.
  assert (I := IH ltac:(intros e He; apply (K (S e)); cbn; lia)). cbn [map2 zsum fold_right length]. cbn [zsum] in I. unfold zsum in *. cbn [fold_right]. lia.
Qed.
Print Assumptions C83_sum_scaled.

Definition C83_z (p : nat) (ss : list (list Z)) : rmpc := rx RS3 (2^64) (C83_c p) [2]%nat ss.
Definition C83_s : rep_supply := mkRSup (fun _ => mkSup [t1 [3; 4]; t1 [-1; -1]; t1 [-2; -3]] (t1 [7; 8]) (mkRT [] [] [])) (fun _ => []).
Example C83_sum_witness : (* (5 - 2)^2 + (1 - 8)^2 = 58, and scaled by 16: floor (9*256/16) + ... *)
  (forall k, fit (2^64) RS3 [2]%nat [2]%nat [2]%nat (mul_vr (2^64) [2]%nat [2]%nat [2]%nat) (ru_mul C83_s k)) /\
  holds RS3 (2^64) (C83_c 0) [2]%nat [5; 1] (C83_z 0 [[1; 1]; [2; 0]; [2; 0]]) /\
  (do t <- rep_mse RS3 C83_s (C83_z 0 [[1; 1]; [2; 0]; [2; 0]]) (C83_z 0 [[2; 9]; [4; 4]; [-4; -5]]) RSum; rw_reconstruct RS3 t) = Ok (mkT [] [58]) /\
  (do t <- rep_mse RS3 C83_s (C83_z 4 [[16; 16]; [32; 0]; [32; 0]]) (C83_z 4 [[2 * 16; 128]; [0; 4]; [0; -4]]) RSum; rw_reconstruct RS3 t) = Ok (mkT [] [58 * 16 - 2]).
Proof.
  split.
  { intros k. split; [apply sharedb_ok; vm_compute; reflexivity|]. split; [reflexivity|]. split; [apply tensor_inb_ok; vm_compute; reflexivity|discriminate]. }
  split; [rx|]. split; vm_compute; reflexivity.
Qed.

(** reduction "mean" (the default): never returns, for any number of parties and any tensors *)
Theorem C83_mean_fails : forall s u pred target, exists e, rep_mse s u pred target RMean = Err e.
Proof.
  intros s u pred target. unfold rep_mse. destruct (rep_sq_err s u pred target) as [t|e] eqn:E; cbn [rbind]; [|eauto].
  destruct (rm_shape pred); [eauto|]. unfold rm_truediv. destruct (Nat.eqb_spec (rs_n s) 2) as [H|]; [|cbn [rbind]; eauto].
  exfalso. unfold rep_sq_err in E. destruct (rm_lin LSub pred target) as [d|]; cbn [rbind] in E; [|discriminate].
  destruct (rep_pow_stuck s u 2 ltac:(rewrite H; discriminate) d None 0%nat) as (e & w & Ee). rewrite Ee in E. discriminate E.
Qed.
Print Assumptions C83_mean_fails.
Theorem C83_mean_refuted : exists s c u sh va vb pred target, rs_n s = 3%nat /\ cfg_ok c /\ c_prec c = 0%nat /\ sh <> [] /\
  holds s (2^64) c sh va pred /\ holds s (2^64) c sh vb target /\
  (forall k, fit (2^64) s sh sh sh (mul_vr (2^64) sh sh sh) (ru_mul u k)) /\ rep_mse s u pred target RMean = Err AttributeError.
Proof.
  exists RS3, (C83_c 0), C83_s, [2]%nat, [5; 1], [2; 8], (C83_z 0 [[1; 1]; [2; 0]; [2; 0]]), (C83_z 0 [[2; 9]; [4; 4]; [-4; -5]]).
  split; [reflexivity|]. split; [unfold cfg_ok; cbn; lia|]. split; [reflexivity|]. split; [discriminate|]. split; [rx|]. split; [rx|].
  split; [apply C83_sum_witness|]. vm_compute. reflexivity.
Qed.
Print Assumptions C83_mean_refuted.
(** The optimiser: parameters listed once, each with a gradient of its own shape *)
Theorem C83_step_partial : forall ring s lr rnd c ids objs on (sh : nat -> list nat) (v g : nat -> list Z),
  supported ring -> ring <> 2 -> ring <> 67 -> rs_n s = 3%nat -> cfg_ok c -> NoDup ids ->
  (forall k i, nth_error ids k = Some i -> tensor_in ring (sh i) (rnd k) /\ rtrainable s ring c (sh i) (nth_error objs i) (v i) (g i)) ->
  exists objs', rep_sgd_step s lr rnd ids (mkRW objs on) = (mkRW objs' true, Ok tt) /\
    length objs' = length objs /\
    (forall j, ~ In j ids -> nth_error objs' j = nth_error objs j) /\
    (forall j p, In j ids -> nth_error objs j = Some p ->
       exists p', nth_error objs' j = Some p' /\ rmoved s ring c (encode1 c lr) (sh j) (v j) (g j) p p').
Proof.
  intros ring s lr rnd c ids objs on sh v g Hs N2 N67 Hn HC HN HT.
  destruct (rep_sgd_ok ring Hs s lr rnd c sh v g N2 N67 Hn HC ids 0 objs HN HT) as (o & E & H).
  exists o. unfold rep_sgd_step. cbn [rw_objs]. rewrite E. auto.
Qed.
Print Assumptions C83_step_partial.

Definition C83_o : robj := mkRO (C83_z 4 [[16; 16]; [32; 0]; [32; 0]]) (Some (C83_z 4 [[8; 0]; [8; 16]; [16; 16]])).
Example C83_step_witness : (* [5, 1] - 0.5 * [2, 2], four bits after the point *)
  rtrainable RS3 (2^64) (C83_c 4) [2]%nat (nth_error [C83_o] 0) [80; 16] [32; 32] /\ tensor_in (2^64) [2]%nat (t1 [100; 200]) /\
  match rep_sgd_step RS3 (NFloat (1#2)) (fun _ => t1 [100; 200]) [0%nat] (mkRW [C83_o] false) with
  | (mkRW [o] true, Ok tt) => rm_reconstruct RS3 (ro_val o) = Ok (t1 [64; 0])
  | _ => False
  end.
Proof.
  split. { do 2 eexists. split; [reflexivity|]. split; [reflexivity|]. split; [discriminate|]. split; rx. }
  split; [apply tensor_inb_ok; vm_compute; reflexivity|]. vm_compute. reflexivity.
Qed.

(** REFUTED for a parameter without dimensions: 5 - 0.5 * 2 is computed, but the shares then have the
    shape [1] while the attribute shape still says that there are no dimensions *)
Definition C83_one (a b c : Z) : rmpc := rx RS3 (2^64) (C83_c 4) [] [[a]; [b]; [c]].
Theorem C83_zero_dim_refuted : exists s lr rnd p g o, rs_n s = 3%nat /\
  holds s (2^64) (C83_c 4) [] [80] p /\ holds s (2^64) (C83_c 4) [] [32] g /\
  rep_sgd_step s lr rnd [0%nat] (mkRW [mkRO p (Some g)] true) = (mkRW [o] true, Ok tt) /\
  rm_shape (ro_val o) = [] /\ rm_reconstruct s (ro_val o) = Ok (mkT [1%nat] [64]).
Proof.
  exists RS3, (NFloat (1#2)), (fun _ => t1 [100]), (C83_one 16 32 32), (C83_one 8 8 16). eexists.
  split; [reflexivity|]. split; [unfold C83_one; rx|]. split; [unfold C83_one; rx|].
  split; [vm_compute; reflexivity|]. split; vm_compute; reflexivity.
Qed.
Print Assumptions C83_zero_dim_refuted.

(** without a gradient (for instance after zero_grad): TypeError, and automatic differentiation stays off *)
Theorem C83_missing_gradient_refuted : exists s lr rnd objs w o,
  rep_sgd_step s lr rnd [0; 1]%nat (mkRW objs true) = (w, Err TypeError) /\ rw_on w = false /\
  nth_error (rw_objs w) 0 = Some o /\ nth_error objs 0 = Some C83_o /\ rm_reconstruct s (ro_val o) <> rm_reconstruct s (ro_val C83_o).
Proof.
  exists RS3, (NFloat (1#2)), (fun _ => t1 [100; 200]), [C83_o; mkRO (ro_val C83_o) None]. do 2 eexists.
  split; [vm_compute; reflexivity|]. split; [reflexivity|]. split; [reflexivity|]. split; [reflexivity|]. vm_compute. discriminate.
Qed.
Print Assumptions C83_missing_gradient_refuted.

(** for any other number of parties nothing is updated: the product with the learning rate fails *)
Theorem C83_step_parties : forall s lr rnd i ids objs on, rs_n s <> 3%nat ->
  exists e, rep_sgd_step s lr rnd (i :: ids) (mkRW objs on) = (mkRW objs false, Err e).
Proof.
  intros s lr rnd i ids objs on H. unfold rep_sgd_step. cbn [rw_objs rep_sgd_loop].
  destruct (nth_error objs i) as [p|]; [|eauto]. destruct (ro_grad p) as [g|]; [|eauto].
  assert (F : exists e, rm_bil_public s BMul g (PNum lr) (rnd 0%nat) = Err e).
  { unfold rm_bil_public. destruct (at_parties _ _ _); cbn [rbind]; [|eauto]. destruct (shape_bil _ _ _); cbn [rbind]; [|eauto].
    destruct (first_ring g); cbn [rbind]; [|eauto]. unfold aby3_truncate. apply Nat.eqb_neq in H. rewrite H. cbn [negb]. eauto. }
  destruct F as (e & ->). cbn [rbind]. eauto.
Qed.
Print Assumptions C83_step_parties.
Example C83_step_parties_witness : rs_n RS4 <> 3%nat /\
  rep_sgd_step RS4 (NInt 1) (fun _ => t1 []) [0%nat]
    (mkRW [mkRO (rx RS4 (2^64) c16 [1%nat] [[1]; [3]; [5]; [1]]) (Some (rx RS4 (2^64) c16 [1%nat] [[1]; [3]; [5]; [1]]))] true) =
  (mkRW [mkRO (rx RS4 (2^64) c16 [1%nat] [[1]; [3]; [5]; [1]]) (Some (rx RS4 (2^64) c16 [1%nat] [[1]; [3]; [5]; [1]]))] false, Err ValueError).
Proof. split; [discriminate|]. vm_compute. reflexivity. Qed.
