(** Property C89: whole programs on fixed-point numbers in replicated sessions of three parties,
    compared with the same programs on real numbers.  Specification: S_RFixProg. *)
From Coq Require Import QArith Reals Qreals Lra.
From Verif Require Import Util Modular S_Ring S_Tensor S_Bil S_Spdz S_Rep S_Fixed S_Real S_Circuit S_FixProg M_Torch L_Torch M_Encoder M_Tensor L_Tensor M_Share L_Share M_Spdz
  L_Bil L_RShare M_Rep S_RepT L_Rep L_Rep2 L_Rep3 L_Rep4 L_Rep5 L_Rep6 L_Rep7 P_Rep M_RCircuit S_RCircuit L_RCircuit S_RepNN L_Circuit L_FixProg S_View M_RepView S_RFixProg L_RFixProg P_FixProg.
Local Open Scope Z_scope.
Local Open Scope list_scope.

(** C89: in a session of three parties, in either security mode, the result of a program (sums,
    differences, products, matrix products, positive powers, public operands, forwarded methods, in any nesting)
    lies within the bound [b] of what the program computes on real numbers, whatever the base and the precision, provided
    every intermediate number fits and the shares of no product carry when they are truncated
    ([rsteady]).  Missing from the full statement: public operands that enlarge the shape of a
    sum, public minus a shared tensor without dimensions, other rings than 2^64; the runs whose
    truncations carry (C22, C89_carry_refuted: there the error is not bounded). *)
Theorem C89_replicated_partial : forall s c env ins sup, 0 < c_base c -> rs_n s = 3%nat ->
  (forall i, rknown s c (fst (ins i)) (fst (snd (ins i))) (snd (snd (ins i))) (env i)) ->
  forall e sh r b, rapprox c s ins sup [] e sh r b -> rsteady s env sup [] e ->
  exists z v, reval s env sup [] e = Ok z /\ holds s (2^64) c sh v z /\ rm_reconstruct s z = Ok (mkT sh v) /\
    length r = numel sh /\
    forall k, (k < numel sh)%nat -> (Rabs (fixed c (nth k v 0%Z) - nth k r 0) <= nth k b 0)%R.
Proof.
  intros s c env ins sup Hb Hn HI e sh r b HA HS.
  destruct (reval_near s c Hb Hn env ins sup) with (path := @nil bool) (e := e) (sh := sh) (r := r) (b := b)
    as (z & E & v & HZ & V1 & V2 & V3 & V4); auto.
  - intros i. apply rknown_near; auto.
  - exists z, v. split; [exact E|]. split; [exact HZ|].
    split; [apply (holds_reconstruct (2^64) supR s c sh v z HZ); lia|]. split; [exact V2|]. intros k Hk. apply V4.
Qed.
Print Assumptions C89_replicated_partial.

(** 1 - (x @ w + 0.25) with x = (1.5, -2), w = (0.5, 3): 6; a malicious session, default
    configuration, triple (1, 2) @ (3, 4) = 11 *)
Definition f_ins (i : nat) : list nat * (list R * list R) :=
  match i with O => ([1; 2]%nat, ([3/2; -2]%R, [0; 0]%R)) | _ => ([2; 1]%nat, ([1/2; 3]%R, [0; 0]%R)) end.
Definition f_env (i : nat) : rmpc :=
  match i with
  | O => rx RS3m (2^64) c16 [1; 2]%nat [[98304 + 777; - 131072 - 5]; [- 700; 3]; [- 77; 2]]
  | _ => rx RS3m (2^64) c16 [2; 1]%nat [[32768 - 1000; 196608 + 4]; [900; 4]; [100; - 8]]
  end.
Definition f_sup (path : list bool) : mulsup :=
  mkSup (map (mkT [1; 1]%nat) [[4]; [5]; [-9]]) (mkT [1; 1]%nat [123])
    (mkRT (rm_ps (rx RS3m (2^64) c16 [1; 2]%nat [[1; 2]; [5; 7]; [-5; -7]]))
          (rm_ps (rx RS3m (2^64) c16 [2; 1]%nat [[3; 4]; [1; 1]; [-1; -1]]))
          (rm_ps (rx RS3m (2^64) c16 [1; 1]%nat [[50]; [-30]; [-9]]))).
Definition f_prog : rexpr := RRsub (PNum (NInt 1)) (RLinPub LAdd (RMatmul (RInput 0) (RInput 1)) (PNum (NFloat (1#4)))).

Ltac ftidy := unfold room, mag, rat, rrounding, real_dot, dot_err, bpos; cbn; unfold Q2R; cbn;
  change (0 / 1)%nat with 0%nat; change (0 mod 1)%nat with 0%nat; cbn;
  change (IZR (2^63)) with 9223372036854775808%R; unfold ulp; change (scale c16) with 65536%Z; change (scale default_config) with 65536%Z.

Example C89_witness :
  (forall i, rknown RS3m c16 (fst (f_ins i)) (fst (snd (f_ins i))) (snd (snd (f_ins i))) (f_env i)) /\
  (exists r b, rapprox c16 RS3m f_ins f_sup [] f_prog [1; 1]%nat r b /\ r = [6%R] /\ (nth 0 b 0 <= 5 / 65536)%R) /\
  rsteady RS3m f_env f_sup [] f_prog /\
  (do z <- reval RS3m f_env f_sup [] f_prog; rm_reconstruct RS3m z) = Ok (mkT [1; 1]%nat [393217]).
Proof.
  split; [|split; [|split; [|vm_compute; reflexivity]]].
  - assert (A0 : forall x y, x = y -> (Rabs (x - y) <= 0)%R) by (intros x y ->; rewrite Rminus_eq_0, Rabs_R0; lra).
    intros [|i]; [exists [98304; -131072]|exists [32768; 196608]]; (split; [cbn [f_env f_ins fst snd]; rx|]); (split; [reflexivity|]); (split; [reflexivity|]);
      intros [|[|k]] Hk; try (cbn in Hk; lia); cbn [rat nth fst snd f_ins]; unfold rat; cbn [nth]; rewrite w_fixed; apply A0; lra.
  - assert (T : tensor_in (2^64) [1;1]%nat (mkT [1;1]%nat [123])) by (apply tensor_inb_ok; vm_compute; reflexivity).
    eexists. eexists. split; [|split].
    + apply ra_rsub; [apply ra_linpub|..].
      * apply (ra_matmul _ _ _ _ _ _ _ [1; 2]%nat [2; 1]%nat [1; 1]%nat).
        -- apply ra_in.
        -- exact (ra_in c16 RS3m f_ins f_sup _ 1%nat).
        -- apply (tm_mm [] [] [] 1 2 1). split; [reflexivity|]. intros i Hi. cbn in Hi. lia.
        -- split; [apply sharedb_ok; vm_compute; reflexivity|]. split; [reflexivity|]. split; [exact T|]. intros _.
           exists c16, c16, c16, [1; 2], [3; 4]. do 3 eexists. split; [reflexivity|]. split; [rx|]. split; [rx|]. rx.
        -- intros e He. destruct e as [|e]; [|cbn in He; lia]. ftidy. abs. lra.
      * split; [exact I|]. repeat constructor. cbn [num_R]. ftidy. abs. lra.
      * apply bshape_scalar. discriminate.
      * intros e He. destruct e as [|e]; [|cbn in He; lia]. ftidy. abs. lra.
      * discriminate.
      * split; [exact I|]. repeat constructor. cbn [num_R]. ftidy. abs. lra.
      * ftidy. lra.
      * apply bshape_scalar. discriminate.
      * exact T.
      * intros e He. destruct e as [|e]; [|cbn in He; lia]. ftidy. abs. lra.
    + ftidy. f_equal. lra.
    + ftidy. abs. lra.
  - cbn [rsteady f_prog]. split; [split; [exact I|split; [exact I|]]|].
    + intros x y zs Hx Hy Hz. vm_compute in Hx, Hy. injection Hx as <-. injection Hy as <-. vm_compute in Hz. injection Hz as <-.
      intros [|e] He; [vm_compute; reflexivity|cbn in He; lia].
    + intros x d Hx Hd. vm_compute in Hx. injection Hx as <-. vm_compute in Hd. injection Hd as <-.
      intros ps zs Hp L3 Hz. vm_compute in Hp. injection Hp as <-. destruct zs as [|z1 [|z2 [|z3 [|]]]]; try discriminate L3.
      cbn [map r_shares seq rep_view] in Hz. vm_compute in Hz. injection Hz; intros; subst.
      intros [|e] He; [vm_compute; reflexivity|cbn in He; lia].
Qed.

Example C89_methods_witness : (* x.view(2, 1).sum() with the x above: -0.5, exactly *)
  let e := RMeth MSum (RMeth (MView [2; 1]%nat) (RInput 0)) in
  (exists r b, rapprox c16 RS3m f_ins f_sup [] e [] r b /\ r = [(-1/2)%R] /\ b = [0%R]) /\ rsteady RS3m f_env f_sup [] e /\
  (do z <- reval RS3m f_env f_sup [] e; rm_reconstruct RS3m z) = Ok (mkT [] [-32768]).
Proof.
  cbn zeta. split; [|split; [exact I|vm_compute; reflexivity]]. eexists. eexists. split; [|split].
  - apply (ra_meth _ _ _ _ _ MSum VSum _ [2; 1]%nat); [|constructor|constructor|].
    + apply (ra_meth _ _ _ _ _ (MView [2; 1]%nat) (VReshape [2; 1]%nat) _ [1; 2]%nat); [apply ra_in|constructor|constructor; reflexivity|].
      intros [|[|e]] He; try (cbn in He; lia); ftidy; abs; lra.
    + intros [|e] He; [|cbn in He; lia]. ftidy. abs. lra.
  - ftidy. f_equal. lra.
  - ftidy. f_equal. lra.
Qed.

Example C89_power_witness : (* x ** 3 with x = 1.5: 3.375, a semi-honest session *)
  let ins := fun _ : nat => ([1%nat], ([(3/2)%R], [0%R])) in
  let env := fun _ : nat => rx RS3 (2^64) c16 [1%nat] [[98304 + 777]; [-700]; [-77]] in
  let sup := fun _ : list bool => mkSup (map (mkT [1%nat]) [[4]; [5]; [-9]]) (mkT [1%nat] [123]) (mkRT [] [] []) in
  let e := RPow (RInput 0) 3 in
  (forall i, rknown RS3 c16 (fst (ins i)) (fst (snd (ins i))) (snd (snd (ins i))) (env i)) /\
  (exists r b, rapprox c16 RS3 ins sup [] e [1%nat] r b /\ r = [(27/8)%R] /\ (nth 0 b 0 <= 10 / 65536)%R) /\
  rsteady RS3 env sup [] e /\
  exists v, (do z <- reval RS3 env sup [] e; rm_reconstruct RS3 z) = Ok (mkT [1%nat] [v]) /\ Z.abs (v - 221184) <= 4.
Proof.
  cbn zeta. split; [|split; [|split]].
  - intros i. exists [98304]. split; [cbn [fst snd]; rx|]. do 2 (split; [reflexivity|]).
    intros [|k] Hk; [|cbn in Hk; lia]. unfold rat; cbn [nth fst snd]. rewrite w_fixed. replace (98304 / 65536 - 3/2)%R with 0%R by lra. rewrite Rabs_R0. lra.
  - eexists. eexists. split; [|split].
    + apply (ra_pow _ _ _ _ [] (RInput 0) 3 [1%nat]).
      * exact (ra_in c16 RS3 (fun _ => ([1%nat], ([(3/2)%R], [0%R]))) _ _ 0%nat).
      * discriminate.
      * ftidy. lra.
      * intros i. split; [apply sharedb_ok; vm_compute; reflexivity|]. split; [reflexivity|].
        split; [apply tensor_inb_ok; vm_compute; reflexivity|discriminate].
      * cbn [rpow_room step_room rpow_factor]. split; [|split]; intros [|e] He; try (cbn in He; lia); unfold real_times, rerr_times, build; ftidy; abs; lra.
    + unfold build. change (Pos.to_nat 3) with 3%nat. cbn [numel fold_right Nat.mul Nat.add seq map]. f_equal. unfold rat. cbn [fst snd nth pow]. lra.
    + cbn [rpow_bound rpow_factor snd]. unfold real_times, rerr_times, build. ftidy. abs. lra.
  - cbn [rsteady rpow_steady]. split; [exact I|]. intros x Hx. vm_compute in Hx. injection Hx as <-.
    split; [|split].
    + intros ps zs Hp L3 Hz. vm_compute in Hp. injection Hp as <-. destruct zs as [|z1 [|z2 [|z3 [|]]]]; try discriminate L3.
      cbn [map r_shares seq rep_view] in Hz. vm_compute in Hz. injection Hz; intros; subst.
      intros [|e] He; [vm_compute; reflexivity|cbn in He; lia].
    + intros zs Hz. vm_compute in Hz. injection Hz as <-. intros [|e] He; [vm_compute; reflexivity|cbn in He; lia].
    + intros r b Hr Hb' zs Hz. vm_compute in Hr, Hb'. injection Hr as <-. injection Hb' as <-. vm_compute in Hz. injection Hz as <-.
      intros [|e] He; [vm_compute; reflexivity|cbn in He; lia].
  - eexists. split; [vm_compute; reflexivity|vm_compute; discriminate].
Qed.

(** the number 1 times the public number 1, default configuration: the shares of the product carry
    and the result is 2^32 below *)
Theorem C89_carry_refuted : exists s env ins sup e r b z v,
  rs_n s = 3%nat /\
  (forall i, rknown s default_config (fst (ins i)) (fst (snd (ins i))) (snd (snd (ins i))) (env i)) /\
  rapprox default_config s ins sup [] e [1%nat] r b /\ reval s env sup [] e = Ok z /\
  rm_reconstruct s z = Ok (mkT [1%nat] v) /\ nth 0 b 0%R = (2 / 65536)%R /\
  nth 0 r 0%R = 1%R /\ (fixed default_config (nth 0 v 0%Z) = 1 - 2^32)%R.
Proof.
  exists RS3, (fun _ => rx RS3 (2^64) c16 [1%nat] [[2^47]; [0]; [65536 - 2^47]]), (fun _ => ([1%nat], ([1%R], [0%R]))),
    (fun _ => mkSup [] (mkT [1%nat] [5]) (mkRT [] [] [])), (RMulPub (RInput 0) (PNum (NInt 1))).
  do 4 eexists. split; [reflexivity|]. split.
  { intros i. exists [65536]. split; [cbn [fst snd]; rx|]. do 2 (split; [reflexivity|]).
    intros [|k] Hk; [|cbn in Hk; lia]. unfold rat; cbn [nth fst snd]. rewrite w_fixed. replace (65536 / 65536 - 1)%R with 0%R by lra. rewrite Rabs_R0. lra. }
  split.
  { apply (ra_mulpub default_config RS3 _ _ [] (RInput 0) (PNum (NInt 1)) [1%nat] [1%nat]).
    - exact (ra_in default_config RS3 (fun _ => ([1%nat], ([1%R], [0%R]))) _ _ 0%nat).
    - split; [exact I|]. repeat constructor. cbn [num_R]. ftidy. abs. lra.
    - apply tm_mul. apply bshape_same.
    - apply tensor_inb_ok; vm_compute; reflexivity.
    - intros [|e] He; [|cbn in He; lia]. ftidy. abs. lra. }
  split; [vm_compute; reflexivity|]. split; [vm_compute; reflexivity|].
  split; [|split].
  - ftidy. abs. lra.
  - ftidy. lra.
  - cbn [nth]. rewrite w_fixed. lra.
Qed.
Print Assumptions C89_carry_refuted.
