(** Property C81, powers: the operator ** of replicated tensors as the engine of M_RepEngine.v runs it
    (the numbers of its requests are handed out one by one). *)
From Coq Require Import QArith Lia List.
From Verif Require Import Util Modular S_Ring S_Tensor S_Bil S_Rep M_Torch L_Torch M_Encoder M_Tensor M_Share L_Share M_Spdz M_Fss M_Engine
  M_Rep S_RepT L_Rep L_Rep2 L_Rep3 L_Rep4 L_Rep5 L_Rep6 M_Aby3 L_Aby L_RPow M_RepEngine P_Rep P_RCircuit L_Div.
Import ListNotations.
Local Open Scope Z_scope.

(** the request number k of the engine is the request number k of the loop *)
Lemma rep_pow_loop s u p : forall base acc k,
  fst (rep_pow s u p base acc k) = rm_pow_loop s p base acc (fun q => ru_mul u (hd 0%nat q)) k.
Proof.
  induction p as [p IH|p IH|]; intros base acc k; cbn [rep_pow rm_pow_loop];
    unfold rep_mul, rep_mulp, cbind, rtick, rlift, cret, subsup; cbn [hd].
  - destruct acc as [a|]; cbn [rbind].
    + destruct (rm_bil s BMul a base _) as [r|e]; cbn [rbind fst]; [|reflexivity].
      destruct (rm_bil s BMul base base _) as [b|e]; cbn [rbind fst]; [apply IH|reflexivity].
    + destruct (rm_bil_public s BMul base _ _) as [r|e]; cbn [rbind fst]; [|reflexivity].
      destruct (rm_bil s BMul base base _) as [b|e]; cbn [rbind fst]; [apply IH|reflexivity].
  - destruct (rm_bil s BMul base base _) as [b|e]; cbn [rbind fst]; [apply IH|reflexivity].
  - destruct acc as [a|]; cbn [rbind].
    + destruct (rm_bil s BMul a base _) as [r|e]; cbn [rbind fst]; [|reflexivity].
      destruct (rm_bil s BMul base base _) as [b|e]; cbn [rbind fst]; reflexivity.
    + destruct (rm_bil_public s BMul base _ _) as [r|e]; cbn [rbind fst]; [|reflexivity].
      destruct (rm_bil s BMul base base _) as [b|e]; cbn [rbind fst]; reflexivity.
Qed.

Lemma rep_pow_from s u p base acc k :
  fst (rep_pow s u p base acc k) = fst (rep_pow s (mkRSup (fun i => ru_mul u (k + i)%nat) (ru_rnd u)) p base acc 0%nat).
Proof.
  rewrite !rep_pow_loop. cbn [ru_mul].
  enough (G : forall p base acc i, rm_pow_loop s p base acc (fun q => ru_mul u (hd 0%nat q)) (k + i)%nat =
    rm_pow_loop s p base acc (fun q => ru_mul u (k + hd 0%nat q)%nat) i) by (rewrite <- (G p base acc 0%nat), Nat.add_0_r; reflexivity).
  clear. induction p as [p IH|p IH|]; intros base acc i; cbn [rm_pow_loop]; unfold subsup; cbn [hd]; rewrite ?Nat.add_succ_r.
  - destruct (match acc with None => _ | Some _ => _ end); cbn [rbind]; [|reflexivity].
    match goal with |- context [rm_bil ?a ?b ?c ?d ?e] => destruct (rm_bil a b c d e) end; cbn [rbind]; [|reflexivity].
    rewrite <- IH, !Nat.add_succ_r. reflexivity.
  - match goal with |- context [rm_bil ?a ?b ?c ?d ?e] => destruct (rm_bil a b c d e) end; cbn [rbind]; [|reflexivity].
    rewrite <- IH, Nat.add_succ_r. reflexivity.
  - reflexivity.
Qed.

(** C81, what does work: a positive power of a tensor with dimensions, three parties, every ring, both
    security modes, values without scaling: the power, reduced into the ring, at every position; from
    any state of the supply.  With scaling: C89. *)
Theorem C81_power : forall pr ring s u c sh v x p k, supported ring -> rs_n s = 3%nat -> cfg_ok c -> c_prec c = 0%nat -> sh <> [] ->
  holds s ring c sh v x -> (forall i, good_sup ring s sh sh sh (mul_vr ring sh sh sh) (ru_mul u i)) ->
  exists z k', e_pow (rep_engine pr s u) x p k = (Ok z, k') /\
    holds s ring c sh (map (fun a => to_ring ring (a ^ Zpos p)) v) z.
Proof.
  intros pr ring s u c sh v x p k Hs Hn Hc Hp Hsh HX HU. cbn [rep_engine e_pow].
  pose proof (rep_pow_from s u p x None k) as F. rewrite rep_pow_loop in F.
  destruct (pw_power ring Hs s Hn c Hc Hp sh Hsh p x v (fun q => ru_mul u (k + hd 0%nat q)%nat) HX (fun q => HU _)) as (z & E & HZ).
  rewrite rep_pow_loop in F. cbn [ru_mul] in F. 
  destruct (rep_pow s u p x None k) as [r k'] eqn:ER. exists z, k'. split; [|exact HZ]. f_equal.
  assert (G := f_equal fst ER). rewrite rep_pow_loop, F, E in G. cbn [fst] in G. congruence.
Qed.
Print Assumptions C81_power.

Example C81_power_witness : (* [10; 20] ** 5 in an ABY3 session, the supply having served three requests *)
  let X := rx RS3 (2^64) ci [1;2]%nat [[1; 2]; [2^63 - 1; 10]; [-2^63 + 10; 8]] in
  let u := mkRSup (fun i => mkSup (map (mkT [1;2]%nat) [[4; 1]; [5; 1]; [-9; -2]]) (mkT [1;2]%nat [Z.of_nat i mod 100; 4]) (mkRT [] [] [])) (fun _ => []) in
  holds RS3 (2^64) ci [1;2]%nat [10; 20] X /\
  (forall i, good_sup (2^64) RS3 [1;2]%nat [1;2]%nat [1;2]%nat (mul_vr (2^64) [1;2]%nat [1;2]%nat [1;2]%nat) (ru_mul u i)) /\
  (do z <- fst (e_pow (rep_engine PAby3 RS3 u) X 5 3%nat); rm_reconstruct RS3 z) = Ok (mkT [1;2]%nat [100000; 3200000]).
Proof.
  cbn zeta. split; [rx|]. split; [|vm_compute; reflexivity]. intros i.
  split; [apply sharedb_ok; vm_compute; reflexivity|]. split; [reflexivity|].
  split; [|discriminate]. cbn [ru_mul su_rand]. split; [reflexivity|]. split; [reflexivity|].
  assert (B := Z.mod_pos_bound (Z.of_nat i) 100 ltac:(lia)). cbn [tdat]. apply Forall_cons; [|repeat constructor]. unfold in_ring. change (2^64) with R64. apply L_Div.to_ring64_small. change (2^63) with 9223372036854775808. lia.
Qed.
