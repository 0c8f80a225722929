(** Property C49 (whole programs) for replicated sessions of three parties, and the matrix product
    by a public matrix (C18).  Specifications: S_RCircuit ([rmeans]), S_RepT ([holds]), S_Bil. *)
From Coq Require Import QArith.
From Verif Require Import Util S_Ring S_Tensor S_Bil S_Rep S_RepT M_Torch L_Torch M_Encoder M_Tensor L_Tensor M_Share M_Spdz M_Rep
  S_Spdz L_Bil L_RShare L_Rep L_Rep2 L_Rep3 L_Rep4 L_Rep5 L_Rep6 L_Rep7 P_Rep M_RCircuit M_RepView S_RepView S_RCircuit L_RCircuit.
Local Open Scope Z_scope.

(** x @ y with a public matrix y, unscaled values, rings 2^k *)
Theorem C18_public_matmul : forall ring s c sx so f vx x y w rnd, supported ring -> ring <> 2 -> ring <> 67 ->
  rs_n s = 3%nat -> cfg_ok c -> c_prec c = 0%nat ->
  holds s ring c sx vx x -> pub_ok y -> pub_in ring c y w -> product_r ring SMatmul sx (pub_shape y) so f ->
  tensor_in ring so rnd ->
  exists z, rm_bil_public s BMatmul x y rnd = Ok z /\ holds s ring c so (f vx w) z.
Proof. intros ring s c sx so f vx x y w rnd Hs. exact (rm_matmul_public_exact ring Hs s c sx so f vx x y w rnd). Qed.
Print Assumptions C18_public_matmul.

Definition ci : config := mkConfig 2 0.
Example C18_public_matmul_witness : (* [10; 20] @ [[3]; [-1]] in a malicious session *)
  let x := rx RS3m (2^64) ci [1;2]%nat [[1; 2]; [2^63 - 1; 10]; [-2^63 + 10; 8]] in
  let y := PTensor [2;1]%nat [NInt 3; NInt (-1)] in
  holds RS3m (2^64) ci [1;2]%nat [10; 20] x /\ pub_ok y /\ pub_in (2^64) ci y [3; -1] /\
  product_r (2^64) SMatmul [1;2]%nat [2;1]%nat [1;1]%nat (mm_vr (2^64) [] [] [] 1 2 1) /\
  (do z <- rm_bil_public RS3m BMatmul x y (mkT [1;1]%nat [77]); rm_reconstruct RS3m z) = Ok (mkT [1;1]%nat [10]).
Proof.
  cbn zeta. split; [rx|]. split; [reflexivity|].
  split; [right; right; split; [discriminate|]; split; [discriminate|]; vm_compute; reflexivity|].
  split; [apply (prod_mm_r (2^64) [] [] [] 1 2 1), bcast_spec; reflexivity|]. vm_compute; reflexivity.
Qed.

(** C49: any program in an unscaled session of three parties, in every ring and either security
    mode; the parties' opened values agree with the program evaluated in the ring.  Missing from
    the full statement: a public matrix on the left of @ (refused, see below), public minus shared
    in the ring 2 and for tensors without dimensions, public operands that enlarge the shape of a
    sum. *)
Theorem C49_replicated_partial : forall ring s c env senv sup, supported ring ->
  rs_n s = 3%nat -> cfg_ok c -> c_prec c = 0%nat ->
  (forall i, holds s ring c (fst (senv i)) (snd (senv i)) (env i)) ->
  forall e sh v, rmeans ring c s senv sup [] e sh v ->
  exists z, reval s env sup [] e = Ok z /\ holds s ring c sh v z /\ rm_reconstruct s z = Ok (mkT sh v).
Proof.
  intros ring s c env senv sup Hs Hn HC Hp HE e sh v HM.
  destruct (reval_correct ring Hs s c env senv sup Hn HC Hp HE [] e sh v HM) as (z & E & H).
  exists z. split; [exact E|]. split; [exact H|]. apply (holds_reconstruct ring Hs s c sh v z H). lia.
Qed.
Print Assumptions C49_replicated_partial.

Example C49_replicated_witness : (* X @ [[3]; [-1]] + (100 - Y * Y), malicious session, triple 5 * 6 = 30 *)
  let X := rx RS3m (2^64) ci [1;2]%nat [[1; 2]; [2^63 - 1; 10]; [-2^63 + 10; 8]] in
  let Y := rx RS3m (2^64) ci [1;1]%nat [[-2^63]; [2^63 - 1]; [8]] in
  let a := rx RS3m (2^64) ci [1;1]%nat [[1]; [1]; [3]] in
  let b := rx RS3m (2^64) ci [1;1]%nat [[7]; [-2]; [1]] in
  let cc := rx RS3m (2^64) ci [1;1]%nat [[50]; [-30]; [10]] in
  let u := mkSup (map (mkT [1;1]%nat) [[4]; [5]; [-9]]) (mkT [1;1]%nat [123]) (mkRT (rm_ps a) (rm_ps b) (rm_ps cc)) in
  let env i := match i with O => X | _ => Y end in
  let senv (i : nat) := match i with O => ([1;2]%nat, [10; 20]) | _ => ([1;1]%nat, [7]) end in
  let e := RLin LAdd (RMatmulPub (RInput 0) (PTensor [2;1]%nat [NInt 3; NInt (-1)]))
                     (RRsub (PNum (NInt 100)) (RMul (RInput 1) (RInput 1))) in
  (forall i, holds RS3m (2^64) ci (fst (senv i)) (snd (senv i)) (env i)) /\
  (exists v, rmeans (2^64) ci RS3m senv (fun _ => u) [] e [1;1]%nat v /\ v = [61]) /\
  (do z <- reval RS3m env (fun _ => u) [] e; rm_reconstruct RS3m z) = Ok (mkT [1;1]%nat [61]).
Proof.
  cbn zeta. split; [|split; [|vm_compute; reflexivity]].
  { intros [|i]; rx. }
  assert (B : bshape [1;1]%nat [1;1]%nat [1;1]%nat) by (apply bcast_spec; reflexivity).
  assert (T : tensor_in (2^64) [1;1]%nat (mkT [1;1]%nat [123])) by (apply tensor_inb_ok; vm_compute; reflexivity).
  eexists. split.
  - eapply (rn_lin _ _ _ _ _ _ LAdd _ _ [1;1]%nat [1;1]%nat [1;1]%nat).
    + eapply rn_matmulpub; [discriminate|discriminate|apply rn_in|reflexivity| | |exact T].
      * right. right. split; [discriminate|]. split; [discriminate|]. reflexivity.
      * apply (prod_mm_r (2^64) [] [] [] 1 2 1), bcast_spec; reflexivity.
    + eapply rn_rsub; [discriminate| |exact I| | |exact T].
      * eapply rn_mul; [apply (rn_in _ _ _ _ _ _ 1%nat)|apply (rn_in _ _ _ _ _ _ 1%nat)|apply prod_mul_r; exact B|].
        split; [apply sharedb_ok; vm_compute; reflexivity|]. split; [reflexivity|]. split; [exact T|]. intros _.
        exists ci, ci, ci, [5], [6]. do 3 eexists. split; [reflexivity|].
        split; [rx|]. split; [rx|]. rx.
      * right. right. split; [discriminate|]. split; [discriminate|]. reflexivity.
      * apply bcast_spec; reflexivity.
    + exact B.
  - vm_compute. reflexivity.
Qed.

Example C49_replicated_methods_witness : (* (X.t() * X.view(2, 1)).sum() *)
  let X := rx RS3 (2^64) ci [1;2]%nat [[1; 2]; [2^63 - 1; 10]; [-2^63 + 10; 8]] in
  let u := mkSup (map (mkT [2;1]%nat) [[4; 1]; [5; 1]; [-9; -2]]) (mkT [2;1]%nat [123; 4]) (mkRT [] [] []) in
  let e := RMeth MSum (RMul (RMeth Mt (RInput 0)) (RMeth (MView [2;1]%nat) (RInput 0))) in
  holds RS3 (2^64) ci [1;2]%nat [10; 20] X /\
  (exists v, rmeans (2^64) ci RS3 (fun _ => ([1;2]%nat, [10; 20])) (fun _ => u) [] e [] v /\ v = [500]) /\
  (do z <- reval RS3 (fun _ => X) (fun _ => u) [] e; rm_reconstruct RS3 z) = Ok (mkT [] [500]).
Proof.
  cbn zeta. split; [rx|]. split; [|vm_compute; reflexivity].
  eexists. split.
  - eapply (rn_summed _ _ _ _ _ _ MSum _ [2;1]%nat); [reflexivity| |constructor].
    eapply rn_mul.
    + eapply rn_moved; [apply rn_in|]. cbn [fst]. constructor.
    + eapply rn_moved; [apply rn_in|]. cbn [fst]. constructor. reflexivity.
    + apply prod_mul_r. apply bcast_spec; reflexivity.
    + split; [apply sharedb_ok; vm_compute; reflexivity|]. split; [reflexivity|].
      split; [apply tensor_inb_ok; vm_compute; reflexivity|]. discriminate.
  - vm_compute. reflexivity.
Qed.

Example C49_replicated_power_witness : (* X ** 5 + X *)
  let X := rx RS3 (2^64) ci [1;2]%nat [[1; 2]; [2^63 - 1; 10]; [-2^63 + 10; 8]] in
  let u := mkSup (map (mkT [1;2]%nat) [[4; 1]; [5; 1]; [-9; -2]]) (mkT [1;2]%nat [123; 4]) (mkRT [] [] []) in
  let e := RLin LAdd (RPow (RInput 0) 5) (RInput 0) in
  holds RS3 (2^64) ci [1;2]%nat [10; 20] X /\
  (exists v, rmeans (2^64) ci RS3 (fun _ => ([1;2]%nat, [10; 20])) (fun _ => u) [] e [1;2]%nat v /\ v = [100010; 3200020]) /\
  (do z <- reval RS3 (fun _ => X) (fun _ => u) [] e; rm_reconstruct RS3 z) = Ok (mkT [1;2]%nat [100010; 3200020]).
Proof.
  cbn zeta. split; [rx|]. split; [|vm_compute; reflexivity].
  eexists. split.
  - eapply rn_lin.
    + eapply rn_pow; [|apply rn_in|]; cbn [fst]; [discriminate|]. intros i.
      split; [apply sharedb_ok; vm_compute; reflexivity|]. split; [reflexivity|].
      split; [apply tensor_inb_ok; vm_compute; reflexivity|]. discriminate.
    + apply rn_in.
    + apply bcast_spec; reflexivity.
  - vm_compute. reflexivity.
Qed.

(** a public matrix on the left of a replicated one is always refused *)
Theorem C49_public_left_refuted : exists s x y sx vx, rs_n s = 3%nat /\ holds s (2^64) ci sx vx x /\
  pub_ok y /\ (exists w so f, pub_in (2^64) ci y w /\ product_r (2^64) SMatmul (pub_shape y) sx so f) /\
  forall sup, reval s (fun _ => x) sup [] (RRmatmul y (RInput 0)) = Err NotImplementedErr.
Proof.
  exists RS3, (rx RS3 (2^64) ci [1;2]%nat [[1; 2]; [3; 10]; [6; 8]]), (PTensor [2;1]%nat [NInt 3; NInt (-1)]), [1;2]%nat, [10; 20].
  split; [reflexivity|]. split; [rx|]. split; [reflexivity|]. split.
  - exists [3; -1], [2;2]%nat. eexists. split.
    + right. right. split; [discriminate|]. split; [discriminate|]. reflexivity.
    + apply (prod_mm_r (2^64) [] [] [] 2 1 2), bcast_spec; reflexivity.
  - intros sup. reflexivity.
Qed.
Print Assumptions C49_public_left_refuted.
