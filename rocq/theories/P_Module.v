(** C56: sharing the parameters of a module and taking them back; C57: the forward passes of the
    shared layers; C58: comparing layers.  Specification: S_Module. *)
From Coq Require Import QArith Qabs String.
From Verif Require Import Util Modular S_Ring S_Tensor S_Wraps S_Div S_Bil S_Spdz S_Module
  M_Torch M_Encoder M_Float M_Tensor M_Share M_Spdz M_Conv M_Module
  L_Torch L_Tensor L_Encoder L_Share L_Spdz L_Div L_Bil L_Mul L_Circuit L_Module L_Module2 L_Rep6 P_Mul P_Conv.
Local Open Scope Z_scope.

(** C56.  The full statement: every module of layers the library can share comes back with the same
    names, classes and attributes and every parameter rounded toward zero to a multiple of the unit.
    Missing here ([carried]): Flatten layers, Conv2d layers without a bias or with several groups,
    and Conv2d layers at a party whose stride, padding or dilation is not the default one; for these
    it is false, see below. *)
Theorem C56_round_trip_partial : forall s parties pl ls u, 1 <= c_base (s_cfg s) -> (2 <= s_n s)%nat ->
  (forall j nm l, nth_error ls j = Some (nm, l) ->
     layer_ok (s_cfg s) l /\ carried pl l /\ lsup_ok s parties pl l (u j)) ->
  exists ms ls', module_share s parties pl ls u = Ok ms /\ module_back s ms = Ok ls' /\
    map fst ms = map fst ls /\ map fst ls' = map fst ls /\
    Forall2 (fun p q => same_layer (s_cfg s) (snd p) (snd q)) ls ls'.
Proof.
  intros s parties pl ls u Hb Hn H. apply (module_round_trip s parties pl ls u 0 Hb Hn).
  intros j [nm l] Hj. apply (H j nm l Hj).
Qed.
Print Assumptions C56_round_trip_partial.

Definition C56_s : sess := mkS 3 2 (mkConfig 2 4).
(* a 2x2 linear layer with a bias and a convolution with stride 2 *)
Definition C56_ls : list (string * tlayer) :=
  [("fc", TLinear 2 2 [NFloat (3#2); NFloat (-1#3); NInt 2; NFloat (1#16)] (Some [NFloat (1#3); NInt (-1)]));
   ("conv", TConv (mkCA 1 1 1 2 2 0 1 1) [NFloat (5#4); NFloat (-7#100)] (Some [NFloat (1#2)]))]%string.
Definition C56_u (k : nat) : psup * psup :=
  match k with
  | O => (mkPS [[5; 6; 7; 8]] [], mkPS [[9; 10]] [])
  | _ => (mkPS [[11; -12]] [], mkPS [[-2^63]] [])
  end.
Lemma C56_fits v : Qle_bool (inject_Z (-2^63)) (num_q v * 16) = true -> Qle_bool (inject_Z (2^63)) (num_q v * 16) = false ->
  fits (s_cfg C56_s) v.
Proof.
  intros A B. split.
  - apply Qle_bool_iff. exact A.
  - apply Qnot_le_lt. intros H. apply Qle_bool_iff in H. change (c_base (s_cfg C56_s) ^ Z.of_nat (c_prec (s_cfg C56_s))) with 16 in H.
    change (inject_Z 16) with (16#1)%Q in H. congruence.
Qed.
Example C56_witness :
  1 <= c_base (s_cfg C56_s) /\ (2 <= s_n C56_s)%nat /\
  (forall j nm l, nth_error C56_ls j = Some (nm, l) ->
     layer_ok (s_cfg C56_s) l /\ carried Local l /\ lsup_ok C56_s [] Local l (C56_u j)) /\
  (do ms <- module_share C56_s [] Local C56_ls C56_u; module_back C56_s ms) = Ok
    [("fc", TLinear 2 2 [NFloat (24#16); NFloat (-5#16); NFloat (32#16); NFloat (1#16)] (Some [NFloat (5#16); NFloat (-16#16)]));
     ("conv", TConv (mkCA 1 1 1 2 2 0 1 1) [NFloat (20#16); NFloat (-1#16)] (Some [NFloat (8#16)]))]%string.
Proof.
  split; [vm_compute; discriminate|]. split; [cbn; lia|]. split.
  - intros [|[|j]] nm l H; cbn in H.
    + injection H as <- <-. split; [|split; [exact I|]].
      * split; (split; [reflexivity|]); repeat (constructor; [apply C56_fits; reflexivity|]); constructor.
      * split; (split; [reflexivity|]); repeat constructor.
    + injection H as <- <-. split; [|split].
      * do 3 (split; [cbn; lia|]). split; [cbn; lia|].
        split; (split; [reflexivity|]); repeat (constructor; [apply C56_fits; reflexivity|]); constructor.
      * split; [discriminate|]. auto.
      * split; (split; [reflexivity|]); repeat constructor.
    + destruct j; discriminate.
  - vm_compute. reflexivity.
Qed.

(** the layers excluded above.  A Flatten layer is shared but can never be taken back. *)
Lemma back_err s nm m ms : In (nm, m) ms -> (exists e, back_layer s m = Err e) -> exists e, module_back s ms = Err e.
Proof.
  intros HI (e & E). unfold module_back. induction ms as [|p ms IH]; [contradiction|]. cbn [rmap].
  destruct HI as [->|HI].
  - cbn [snd]. rewrite E. cbn [rbind]. eauto.
  - destruct (do l <- back_layer s (snd p); Ok (fst p, l)); cbn [rbind]; [|eauto].
    destruct (IH HI) as (e' & ->). cbn [rbind]. eauto.
Qed.
Lemma share_in s parties pl nm l u : forall ls k ms, share_from k s parties pl ls u = Ok ms -> In (nm, l) ls ->
  exists m i, In (nm, m) ms /\ share_layer s parties pl l (u i) = Ok m.
Proof.
  induction ls as [|[nm' l'] ls IH]; intros k ms E HI; [contradiction|]. cbn [share_from] in E.
  destruct (share_layer s parties pl l' (u k)) as [m|] eqn:E1; [|discriminate]. cbn [rbind] in E.
  destruct (share_from (S k) s parties pl ls u) as [rest|] eqn:E2; [|discriminate]. cbn [rbind] in E. injection E as <-.
  destruct HI as [HI|HI].
  - injection HI as -> ->. exists m, k. split; [left; reflexivity|exact E1].
  - destruct (IH _ _ E2 HI) as (m' & i & A & B). exists m', i. split; [right; exact A|exact B].
Qed.
Theorem C56_flatten_fails : forall s parties pl ls u ms nm, In (nm, TFlatten) ls ->
  module_share s parties pl ls u = Ok ms -> exists e, module_back s ms = Err e.
Proof.
  intros s parties pl ls u ms nm HI E. destruct (share_in _ _ _ _ _ _ _ _ _ E HI) as (m & i & A & B).
  cbn [share_layer] in B. injection B as <-. apply (back_err s nm _ ms A). cbn [back_layer]. eauto.
Qed.
Print Assumptions C56_flatten_fails.
Theorem C56_flatten_refuted : exists s ls u ms, layer_ok (s_cfg s) TFlatten /\ ls = [("f"%string, TFlatten)] /\ s_n s = 2%nat /\
  module_share s [] Local ls u = Ok ms /\ module_back s ms = Err AttributeError.
Proof. exists C56_s, [("f"%string, TFlatten)], C56_u. eexists. split; [exact I|]. repeat split. Qed.
Print Assumptions C56_flatten_refuted.

(** A convolution without a bias is shared but can never be taken back. *)
Theorem C56_no_bias_fails : forall s parties pl ls u ms nm a w, In (nm, TConv a w None) ls ->
  module_share s parties pl ls u = Ok ms -> exists e, module_back s ms = Err e.
Proof.
  intros s parties pl ls u ms nm a w HI E. destruct (share_in _ _ _ _ _ _ _ _ _ E HI) as (m & i & A & B).
  apply (back_err s nm _ ms A). cbn [share_layer] in B. unfold share_conv in B. cbn [rbind] in B.
  destruct (share_param s parties pl (conv_wshape a) w (fst (u i))) as [mw|]; cbn [rbind] in B; [|discriminate]. injection B as <-.
  cbn [back_layer]. unfold back_conv, recon_conv. cbn [mc_w mc_b]. destruct (recon_param s mw); cbn [rbind]; eauto.
Qed.
Print Assumptions C56_no_bias_fails.
Definition C56_cv : tlayer := TConv (mkCA 1 1 1 2 2 0 1 1) [NFloat (5#4); NFloat (-7#100)] None.
Theorem C56_no_bias_refuted : exists s l u ms, layer_ok (s_cfg s) l /\ lsup_ok s [] Local l (u 0%nat) /\ l = C56_cv /\ s_n s = 2%nat /\
  module_share s [] Local [("c"%string, l)] u = Ok ms /\ module_back s ms = Err AttributeError.
Proof.
  exists C56_s, C56_cv, (fun _ => C56_u 1). eexists. split.
  { do 3 (split; [cbn; lia|]). split; [cbn; lia|]. split; [|exact I].
    split; [reflexivity|]. repeat (constructor; [apply C56_fits; reflexivity|]); constructor. }
  split; [split; (split; [reflexivity|]); repeat constructor|]. do 2 (split; [reflexivity|]).
  split; [vm_compute; reflexivity|]. vm_compute. reflexivity.
Qed.
Print Assumptions C56_no_bias_refuted.

(** A convolution in several groups is shared but can never be taken back: the number of input
    channels is overwritten by the weight's second dimension. *)
Theorem C56_groups_fail : forall s parties a w b u m, layer_ok (s_cfg s) (TConv a w b) -> (2 <= ca_groups a)%nat ->
  (2 <= s_n s)%nat -> 1 <= c_base (s_cfg s) -> lsup_ok s parties Local (TConv a w b) u ->
  share_layer s parties Local (TConv a w b) u = Ok m -> exists e, back_layer s m = Err e.
Proof.
  intros s parties a w b u m (G1 & G2 & G3 & G4 & HW & HB) Hg Hn Hb (UW & UB) E.
  cbn [share_layer] in E. unfold share_conv in E.
  destruct (param_round_trip s parties Local _ w (fst u) Hb Hn HW UW) as (x & v' & E1 & _ & _ & _ & RW & _).
  unfold conv_wshape in E. rewrite E1 in E. cbn [rbind] in E.
  assert (C0 : (0 < ca_in a / ca_groups a)%nat).
  { apply Nat.div_exact in G2; [|lia]. destruct (ca_in a / ca_groups a)%nat; [|lia]. rewrite Nat.mul_0_r in G2. lia. }
  assert (C1 : (ca_in a / ca_groups a / ca_groups a < ca_in a / ca_groups a)%nat) by (apply Nat.div_lt; lia).
  assert (K : forall mb, exists e, back_layer s (MConv (mkMC
     (mkCA (ca_in a / ca_groups a) (ca_out a) (ca_kh a) (ca_kw a) (ca_stride (copy_attrs Local a)) (ca_pad (copy_attrs Local a))
        (ca_dil (copy_attrs Local a)) (ca_groups (copy_attrs Local a))) x mb)) = Err e).
  { intros mb. cbn [back_layer]. unfold back_conv, recon_conv. cbn [mc_w mc_b mc_a ca_in ca_out ca_groups copy_attrs].
    rewrite RW. cbn [rbind]. destruct mb as [y|]; [|cbn [rbind]; eauto].
    destruct (recon_param s y) as [v|]; cbn [rbind]; [|eauto].
    destruct (negb _); [eauto|]. destruct (negb _); [eauto|]. cbn [fst snd]. unfold conv_wshape. cbn [ca_in ca_out ca_groups ca_kh ca_kw].
    unfold shape_eqb. destruct (list_eq_dec _ _ _) as [EQ|]; [|eauto]. injection EQ as EQ. lia. }
  destruct b as [b|].
  - destruct (share_param s parties Local [ca_out a] b (snd u)) as [y|]; cbn [rbind] in E; [|discriminate]. injection E as <-. apply K.
  - cbn [rbind] in E. injection E as <-. apply K.
Qed.
Print Assumptions C56_groups_fail.
Definition C56_gr : tlayer := TConv (mkCA 2 2 1 1 1 0 1 2) [NInt 1; NInt 2] (Some [NInt 3; NInt 4]).
Theorem C56_groups_refuted : exists s l u m, layer_ok (s_cfg s) l /\ lsup_ok s [] Local l u /\ l = C56_gr /\ s_n s = 2%nat /\
  share_layer s [] Local l u = Ok m /\ back_layer s m = Err ValueError.
Proof.
  exists C56_s, C56_gr, (mkPS [[5; 6]] [], mkPS [[7; 8]] []). eexists. split.
  { do 3 (split; [cbn; lia|]). split; [cbn; lia|].
    split; (split; [reflexivity|]); repeat (constructor; [apply C56_fits; reflexivity|]); constructor. }
  split; [split; (split; [reflexivity|]); repeat constructor|]. do 2 (split; [reflexivity|]).
  split; [vm_compute; reflexivity|]. vm_compute. reflexivity.
Qed.
Print Assumptions C56_groups_refuted.

(** A convolution at a party loses its stride (padding and dilation likewise). *)
Definition C56_st : tlayer := TConv (mkCA 1 1 1 2 2 0 1 1) [NInt 1; NInt 2] (Some [NInt 3]).
Theorem C56_remote_refuted : exists s parties owner l u ms ls', layer_ok (s_cfg s) l /\ lsup_ok s parties (At owner) l u /\
  l = C56_st /\ s_n s = 2%nat /\
  module_share s parties (At owner) [("c"%string, l)] (fun _ => u) = Ok ms /\ module_back s ms = Ok ls' /\
  ~ Forall2 (fun p q => same_layer (s_cfg s) (snd p) (snd q)) [("c"%string, l)] ls'.
Proof.
  exists C56_s, [4; 7]%nat, 7%nat, C56_st,
    (mkPS [] [mkT [1;1;1;2]%nat [5; 6]; mkT [1;1;1;2]%nat [-5; -6]], mkPS [] [mkT [1%nat] [5]; mkT [1%nat] [-5]]).
  eexists. eexists. split.
  { do 3 (split; [cbn; lia|]). split; [cbn; lia|].
    split; (split; [reflexivity|]); repeat (constructor; [apply C56_fits; reflexivity|]); constructor. }
  split.
  { assert (ND : NoDup [4; 7]%nat) by (constructor; [cbn; lia|constructor; [cbn; lia|constructor]]).
    split; (split; [right; left; reflexivity|]); (split; [exact ND|]); (split; [reflexivity|]);
      apply sharedb_ok; vm_compute; reflexivity. }
  do 2 (split; [reflexivity|]). split; [vm_compute; reflexivity|]. split; [vm_compute; reflexivity|].
  intros H. inversion H; subst. match goal with K : same_layer _ _ _ |- _ => destruct K as (A & _); discriminate A end.
Qed.
Print Assumptions C56_remote_refuted.

(** Layers of any other class: KeyError, whatever else the module holds. *)
Theorem C56_unsupported : forall s parties pl ls u nm, In (nm, TOther) ls -> exists e, module_share s parties pl ls u = Err e.
Proof.
  intros s parties pl ls u nm HI. unfold module_share. destruct (share_from 0 s parties pl ls u) as [ms|e] eqn:E; [|eauto].
  destruct (share_in _ _ _ _ _ _ _ _ _ E HI) as (m & i & _ & B). discriminate B.
Qed.
Print Assumptions C56_unsupported.
Example C56_unsupported_witness : module_share C56_s [] Local [("a", TFlatten); ("b", TOther)]%string C56_u = Err KeyError.
Proof. reflexivity. Qed.

(** C57: a Linear layer, integer sessions (precision 0): inputs of any shape ending with the number
    of input features; every output is the weighted sum plus the bias, in the ring. *)
Theorem C57_linear_exact : forall s l x b fin fout vx vw vb f ts prim,
  c_prec (s_cfg s) = 0%nat -> 0 < c_base (s_cfg s) -> (2 <= s_n s)%nat ->
  sharing_of s [fout; fin] vw (ml_w l) -> bias_sharing s fout vb (ml_b l) -> sharing_of s (b ++ [fin]) vx x ->
  product SMatmul (b ++ [fin]) [fin; fout] (b ++ [fout]) f ->
  valid_triples (b ++ [fin]) [fin; fout] (b ++ [fout]) f (s_n s) ts -> any_masks (s_n s) (b ++ [fout]) (fst prim) (snd prim) ->
  exists z vz, linear_forward s l x ts prim = Ok z /\ sharing_of s (b ++ [fout]) vz z /\
    forall e, (e < numel (b ++ [fout]))%nat ->
      nth e vz 0 = to_ring (2^64) (sumn fin (fun i => nth (e / fout * fin + i) vx 0 * nth (e mod fout * fin + i) vw 0)
                                   + bias_at vb (e mod fout)).
Proof.
  intros s l x b fin fout vx vw vb f ts prim Hp Hc Hn GW GB GX HP HT HM. change (2^64) with R64 in *.
  destruct (weight_t s fout fin _ vw GW) as (wt & EW & GT).
  destruct (linear_product b fin fout _ f HP) as [_ HV].
  destruct (prec0_bil s SMatmul (b ++ [fin]) [fin; fout] (b ++ [fout]) f x wt vx (wT fout fin vw) ts prim Hp Hc Hn eq_refl HP GX GT HT HM)
    as (r & ER & GR).
  destruct (add_bias s b fout r _ (ml_b l) vb GR GB) as (z & vz & EZ & GZ & HZ).
  exists z, vz. unfold linear_forward. rewrite EW. cbn [rbind]. cbn [bop_of] in ER. rewrite ER. cbn [rbind]. rewrite EZ.
  split; [reflexivity|]. split; [exact GZ|]. intros e He. rewrite HZ by auto. change (2^64) with R64. rewrite (HV vx vw e He). change (2^64) with R64.
  apply to_ring_eq. rewrite to_ring_eqmod by apply posR. reflexivity.
Qed.
Print Assumptions C57_linear_exact.

(* integers, two parties: x = [[3, -1], [2, 5]] through W = [[1, 2], [0, -4], [7, 1]], bias [10, 20, 30] *)
Definition C57_s : sess := mkS 3 2 (mkConfig 2 0).
Definition C57_l : mlinear :=
  mkML 3 2 (mkM 3 [3;2]%nat [mkT [3;2]%nat [100; 1; 1; -3; 0; 2]; mkT [3;2]%nat [-99; 1; -1; -1; 7; -1]])
           (Some (mkM 3 [3]%nat [mkT [3]%nat [9; 9; 9]; mkT [3]%nat [1; 11; 21]])).
Definition C57_x : mpc := mkM 3 [2;2]%nat [mkT [2;2]%nat [1; 1; 1; 1]; mkT [2;2]%nat [2; -2; 1; 4]].
Definition C57_ts : list triple :=
  match get_triples BMatmul 2 (mkT [2;2]%nat [3; 4; 5; 6]) (mkT [2;3]%nat [7; 8; 9; 10; 11; 12])
    [[1; 2; 3; 4]] [[5; 6; 7; 8; 9; 10]] [[13; 14; 15; 16; 17; 18]] with Ok t => t | Err _ => [] end.
Example C57_linear_witness :
  sharing_of C57_s [3;2]%nat [1; 2; 0; -4; 7; 1] (ml_w C57_l) /\
  bias_sharing C57_s 3 (Some [10; 20; 30]) (ml_b C57_l) /\
  sharing_of C57_s ([2] ++ [2])%nat [3; -1; 2; 5] C57_x /\
  product SMatmul ([2] ++ [2])%nat [2;3]%nat ([2] ++ [3])%nat (mm_val [] [] [] 2 2 3) /\
  valid_triples ([2] ++ [2])%nat [2;3]%nat ([2] ++ [3])%nat (mm_val [] [] [] 2 2 3) 2 C57_ts /\
  (do z <- linear_forward C57_s C57_l C57_x C57_ts ([], []); reconstruct z) =
    Ok (mkT [2;3]%nat [3 - 2 + 10; 4 + 20; 21 - 1 + 30; 2 + 10 + 10; -20 + 20; 14 + 5 + 30]).
Proof.
  split; [do 3 (split; [reflexivity|]); apply sharedb_ok; vm_compute; reflexivity|].
  split; [do 3 (split; [reflexivity|]); apply sharedb_ok; vm_compute; reflexivity|].
  split; [do 3 (split; [reflexivity|]); apply sharedb_ok; vm_compute; reflexivity|].
  split; [apply (prod_mm [] [] [] 2 2 3); apply bshape_nil_l|]. split.
  - split; [reflexivity|]. exists [3; 4; 5; 6], [7; 8; 9; 10; 11; 12].
    split; [apply sharedb_ok; vm_compute; reflexivity|]. split; [apply sharedb_ok; vm_compute; reflexivity|].
    apply sharedb_ok; vm_compute; reflexivity.
  - vm_compute. reflexivity.
Qed.

(** C57: a Linear layer at any precision: every output is the weighted sum divided by the scale, up
    to n units in the last place for the usual scales, plus the bias, when the division is accurate
    ([divisible], see C10, C12, C14). *)
Theorem C57_linear_fixed : forall s l x b fin fout vx vw vb f ts prim,
  0 < c_base (s_cfg s) -> (2 <= s_n s)%nat ->
  sharing_of s [fout; fin] vw (ml_w l) -> bias_sharing s fout vb (ml_b l) -> sharing_of s (b ++ [fin]) vx x ->
  product SMatmul (b ++ [fin]) [fin; fout] (b ++ [fout]) f ->
  valid_triples (b ++ [fin]) [fin; fout] (b ++ [fout]) f (s_n s) ts ->
  exists wt ws raw, mpc_view VT (ml_w l) = Ok wt /\ run_mul (mul_parties_raw BMatmul) x wt ts = Ok ws /\
    shared (2^64) (b ++ [fout]) raw ws /\
    (forall e, (e < numel (b ++ [fout]))%nat ->
       nth e raw 0 = to_ring (2^64) (sumn fin (fun i => nth (e / fout * fin + i) vx 0 * nth (e mod fout * fin + i) vw 0))) /\
    (divisible (c_base (s_cfg s)) (c_prec (s_cfg s)) (s_n s) (b ++ [fout]) raw ws (scale (s_cfg s)) (fst prim) (snd prim) ->
     exists z vz, linear_forward s l x ts prim = Ok z /\ sharing_of s (b ++ [fout]) vz z /\
       forall e, (e < numel (b ++ [fout]))%nat -> exists q,
         quot_within (scale (s_cfg s)) (nth e raw 0) q
           (Z.of_nat (s_n s) * (scale (s_cfg s) - 1) + 2 * (Z.of_nat (s_n s) + 1) * (2^62 mod scale (s_cfg s))) /\
         nth e vz 0 = to_ring (2^64) (q + bias_at vb (e mod fout))).
Proof.
  intros s l x b fin fout vx vw vb f ts prim Hc Hn GW GB GX HP HT.
  destruct (weight_t s fout fin _ vw GW) as (wt & EW & T1 & T2 & T3 & T4).
  destruct (linear_product b fin fout _ f HP) as [_ HV]. pose proof GX as (X1 & X2 & X3 & X4).
  destruct (C10_rescaled_product s SMatmul _ _ _ _ f f x wt vx (wT fout fin vw) ts prim Hc Hn HP HP X1 T1 X2 T2 X3 T3 X4 T4 HT)
    as (ws & E1 & L1 & S1 & HD).
  exists wt, ws, (f vx (wT fout fin vw)). split; [exact EW|]. split; [exact E1|]. split; [exact S1|].
  split; [intros e He; apply HV; exact He|]. intros D. destruct (HD D) as (r & vr & ER & R1 & R2 & R3 & R4 & R5).
  destruct (add_bias s b fout r vr (ml_b l) vb) as (z & vz & EZ & GZ & HZ); [repeat split; auto; apply R4|exact GB|].
  exists z, vz. unfold linear_forward. rewrite EW. cbn [rbind]. cbn [bop_of] in ER. rewrite ER. cbn [rbind]. rewrite EZ.
  split; [reflexivity|]. split; [exact GZ|]. intros e He. exists (nth e vr 0). split; [apply R5; exact He|apply HZ; exact He].
Qed.
Print Assumptions C57_linear_fixed.

Example C57_fixed_witness : (* 1.5 * 2 + 0.5, four bits after the point *)
  let s := mkS 3 2 (mkConfig 2 4) in
  let l := mkML 1 1 (mkM 3 [1;1]%nat [mkT [1;1]%nat [20]; mkT [1;1]%nat [12]]) (Some (mkM 3 [1]%nat [mkT [1]%nat [5]; mkT [1]%nat [3]])) in
  let x := mkM 3 [1]%nat [mkT [1]%nat [14]; mkT [1]%nat [10]] in
  let ts := [(mkT [1]%nat [1], mkT [1;1]%nat [3], mkT [1]%nat [30]); (mkT [1]%nat [2], mkT [1;1]%nat [4], mkT [1]%nat [-9])] in
  valid_triples ([] ++ [1])%nat [1;1]%nat ([] ++ [1])%nat (mm_val [] [] [] 1 1 1) 2 ts /\
  product SMatmul ([] ++ [1])%nat [1;1]%nat ([] ++ [1])%nat (mm_val [] [] [] 1 1 1) /\
  (do wt <- mpc_view VT (ml_w l); do ws <- run_mul (mul_parties_raw BMatmul) x wt ts; Ok (map tdat ws)) = Ok [[643]; [125]] /\
  643 + 125 = 24 * 32 /\
  (do z <- linear_forward s l x ts ([], []); reconstruct z) = Ok (mkT [1%nat] [55]).
Proof.
  cbn zeta. split.
  { split; [reflexivity|]. exists [3], [7]. split; [apply sharedb_ok; vm_compute; reflexivity|].
    split; [apply sharedb_ok; vm_compute; reflexivity|]. apply sharedb_ok; vm_compute; reflexivity. }
  split; [apply (prod_vm_r (2^64) [] 1 1)|]. split; [vm_compute; reflexivity|]. split; [reflexivity|]. vm_compute. reflexivity.
Qed.

(** C57: a Conv2d layer with a bias (its own stride, padding, dilation and groups), integer sessions:
    the convolution plus the bias of the channel.  [product (SConv 1 0 1 1) ...]: the library also
    needs the convolution with the default arguments to exist (see C52). *)
Theorem C57_conv_exact_partial : forall s l x bm sx sw nb o oh ow f so' f' vx vw vb ts prim,
  let a := mc_a l in
  c_prec (s_cfg s) = 0%nat -> 0 < c_base (s_cfg s) -> (2 <= s_n s)%nat -> (0 < o)%nat ->
  product (SConv (ca_stride a) (ca_pad a) (ca_dil a) (ca_groups a)) sx sw [nb; o; oh; ow] f ->
  product (SConv 1 0 1 1) sx sw so' f' ->
  sharing_of s sw vw (mc_w l) -> mc_b l = Some bm -> sharing_of s [o] vb bm -> sharing_of s sx vx x ->
  valid_triples sx sw [nb; o; oh; ow] f (s_n s) ts -> any_masks (s_n s) [nb; o; oh; ow] (fst prim) (snd prim) ->
  exists z vz, conv_forward s l x ts prim = Ok z /\ m_shape z = [nb; o; oh; ow] /\ length (m_shares z) = s_n s /\
    shared (2^64) [nb; o; oh; ow] vz (m_shares z) /\
    forall e, (e < numel [nb; o; oh; ow])%nat ->
      nth e vz 0 = to_ring (2^64) (nth e (f vx vw) 0 + nth ((e / (oh * ow)) mod o)%nat vb 0).
Proof.
  intros s l x bm sx sw nb o oh ow f so' f' vx vw vb ts prim a Hp Hc Hn Ho HP HP' GW EB GB GX HT HM.
  destruct (prec0_bil' s (SConv (ca_stride a) (ca_pad a) (ca_dil a) (ca_groups a)) sx sw _ so' f f' x (mc_w l) vx vw ts prim Hp Hc Hn HP HP' GX GW HT HM)
    as (c & EC & C1 & C2 & C3 & C4). destruct GB as (B1 & B2 & B3 & B4).
  destruct (C55_shared_bias s (SConv (ca_stride a) (ca_pad a) (ca_dil a) (ca_groups a)) x (mc_w l) ts prim c (f vx vw) bm vb nb o oh ow EC C2 C3 C4)
    as (z & vz & EZ & Z1 & Z2 & Z3 & Z4); try congruence; auto.
  exists z, vz. unfold conv_forward. rewrite EB. fold a. cbn [bop_of] in EZ. rewrite EZ. auto.
Qed.
Print Assumptions C57_conv_exact_partial.

(* 2x2 image, 1x2 kernel, stride 2, bias *)
Definition C57_cl (b : option mpc) : mconv :=
  mkMC (mkCA 1 1 1 2 2 0 1 1) (mkM 3 [1;1;1;2]%nat [mkT [1;1;1;2]%nat [1; 1]; mkT [1;1;1;2]%nat [1; 2]]) b.
Definition C57_b1 : mpc := mkM 3 [1]%nat [mkT [1]%nat [90]; mkT [1]%nat [10]].
Definition C57_cx : mpc := mkM 3 [1;1;1;4]%nat [mkT [1;1;1;4]%nat [1; 2; 3; 4]; mkT [1;1;1;4]%nat [4; 4; 4; 4]].
Definition C57_cts : list triple :=
  match get_triples (BConv2d (mkConv 2 0 1 1)) 2 (mkT [1;1;1;4]%nat [3; 4; 5; 6]) (mkT [1;1;1;2]%nat [7; 8])
    [[1; 2; 3; 4]] [[5; 6]] [[13; 14]] with Ok t => t | Err _ => [] end.
Definition C57_cf := conv_val 2 0 1 1 1 1 1 4 1 1 1 2 1 2.
Lemma C57_cf_product : product (SConv 2 0 1 1) [1;1;1;4]%nat [1;1;1;2]%nat [1;1;1;2]%nat C57_cf.
Proof. apply (prod_conv 2 0 1 1 1 1 4 1 1 1 2 1 2); cbn; lia. Qed.
Lemma C57_cts_valid : valid_triples [1;1;1;4]%nat [1;1;1;2]%nat [1;1;1;2]%nat C57_cf 2 C57_cts.
Proof.
  split; [reflexivity|]. exists [3; 4; 5; 6], [7; 8].
  split; [apply sharedb_ok; vm_compute; reflexivity|]. split; [apply sharedb_ok; vm_compute; reflexivity|].
  apply sharedb_ok; vm_compute; reflexivity.
Qed.
Lemma C57_cw : sharing_of C57_s [1;1;1;2]%nat [2; 3] (mc_w (C57_cl None)).
Proof. do 3 (split; [reflexivity|]). apply sharedb_ok; vm_compute; reflexivity. Qed.
Lemma C57_cxs : sharing_of C57_s [1;1;1;4]%nat [5; 6; 7; 8] C57_cx.
Proof. do 3 (split; [reflexivity|]). apply sharedb_ok; vm_compute; reflexivity. Qed.
Example C57_conv_witness :
  product (SConv 2 0 1 1) [1;1;1;4]%nat [1;1;1;2]%nat [1;1;1;2]%nat C57_cf /\
  (exists so' f', product (SConv 1 0 1 1) [1;1;1;4]%nat [1;1;1;2]%nat so' f') /\
  sharing_of C57_s [1;1;1;2]%nat [2; 3] (mc_w (C57_cl (Some C57_b1))) /\ sharing_of C57_s [1]%nat [100] C57_b1 /\
  sharing_of C57_s [1;1;1;4]%nat [5; 6; 7; 8] C57_cx /\
  valid_triples [1;1;1;4]%nat [1;1;1;2]%nat [1;1;1;2]%nat C57_cf 2 C57_cts /\
  (do z <- conv_forward C57_s (C57_cl (Some C57_b1)) C57_cx C57_cts ([], []); reconstruct z) =
    Ok (mkT [1;1;1;2]%nat [10 + 18 + 100; 14 + 24 + 100]).
Proof.
  split; [exact C57_cf_product|]. split.
  { do 2 eexists. apply (prod_conv 1 0 1 1 1 1 4 1 1 1 2 1 3); cbn; lia. }
  split; [exact C57_cw|]. split; [do 3 (split; [reflexivity|]); apply sharedb_ok; vm_compute; reflexivity|].
  split; [exact C57_cxs|]. split; [exact C57_cts_valid|]. vm_compute. reflexivity.
Qed.

(** Without a bias, which torch allows, the layer can be shared but never applied. *)
Theorem C57_conv_no_bias_fails : forall s l x ts prim, mc_b l = None -> conv_forward s l x ts prim = Err AttributeError.
Proof. intros s l x ts prim E. unfold conv_forward. rewrite E. reflexivity. Qed.
Print Assumptions C57_conv_no_bias_fails.
Theorem C57_conv_no_bias_refuted : exists s l x vx vw f ts prim,
  s_n s = 2%nat /\ c_prec (s_cfg s) = 0%nat /\ mc_b l = None /\
  product (SConv (ca_stride (mc_a l)) (ca_pad (mc_a l)) (ca_dil (mc_a l)) (ca_groups (mc_a l))) [1;1;1;4]%nat [1;1;1;2]%nat [1;1;1;2]%nat f /\
  (exists so' f', product (SConv 1 0 1 1) [1;1;1;4]%nat [1;1;1;2]%nat so' f') /\
  sharing_of s [1;1;1;2]%nat vw (mc_w l) /\ sharing_of s [1;1;1;4]%nat vx x /\
  valid_triples [1;1;1;4]%nat [1;1;1;2]%nat [1;1;1;2]%nat f 2 ts /\
  conv_forward s l x ts prim = Err AttributeError.
Proof.
  exists C57_s, (C57_cl None), C57_cx, [5; 6; 7; 8], [2; 3], C57_cf, C57_cts, ([], []).
  do 3 (split; [reflexivity|]). split; [exact C57_cf_product|]. split.
  { do 2 eexists. apply (prod_conv 1 0 1 1 1 1 4 1 1 1 2 1 3); cbn; lia. }
  split; [exact C57_cw|]. split; [exact C57_cxs|]. split; [exact C57_cts_valid|]. reflexivity.
Qed.
Print Assumptions C57_conv_no_bias_refuted.

(** C58: comparing two layers: both parameters close; layers of which only one has a bias differ.
    Missing: two layers without a bias, for which it raises, see below. *)
Theorem C58_eq_close_partial : forall (A B : Type) (cw : A -> A -> bool) (cb : B -> B -> bool) w1 w2 b1 b2,
  b1 <> None \/ b2 <> None ->
  exists r, eq_close cw cb w1 w2 b1 b2 = Ok r /\
    (r = true <-> cw w1 w2 = true /\ exists x y, b1 = Some x /\ b2 = Some y /\ cb x y = true).
Proof.
  intros A B cw cb w1 w2 [x|] [y|] H; cbn [eq_close].
  - destruct (cw w1 w2); cbn [negb]; eexists; (split; [reflexivity|]).
    + split; [intros E; eauto 6|intros (_ & x' & y' & E1 & E2 & E); congruence].
    + split; [discriminate|intros (E & _); discriminate].
  - eexists. split; [reflexivity|]. split; [discriminate|intros (_ & x' & y' & _ & E & _); discriminate].
  - eexists. split; [reflexivity|]. split; [discriminate|intros (_ & x' & y' & E & _); discriminate].
  - destruct H; congruence.
Qed.
Print Assumptions C58_eq_close_partial.
Example C58_witness : eq_close Z.eqb Z.eqb 3 3 (Some 4) (Some 4) = Ok true /\ eq_close Z.eqb Z.eqb 3 3 (Some 4) None = Ok false /\
  eq_close Z.eqb Z.eqb 3 3 (Some 4) (Some 5) = Ok false.
Proof. repeat split. Qed.
Theorem C58_no_bias_refuted : exists (cw cb : Z -> Z -> bool) w, cw w w = true /\ eq_close cw cb w w None None = Err TypeError.
Proof. exists Z.eqb, Z.eqb, 3. split; reflexivity. Qed.
Print Assumptions C58_no_bias_refuted.
