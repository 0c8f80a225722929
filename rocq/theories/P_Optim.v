(** Property C48: optimiser steps.
    Specifications: S_Optim ([times], [times_shares]: products with a public number),
    S_Div ([divisible], [quot_within]); [trainable] and [moved] (L_Optim) describe one
    parameter before and after the step. *)
From Coq Require Import QArith.
From Verif Require Import Util S_Ring S_Tensor S_Wraps S_Div S_Optim M_Torch M_Encoder M_Tensor M_Share M_Spdz M_Optim
  L_Share L_Optim.
Local Open Scope Z_scope.

(** C48: parameters listed once, each with a gradient of its own shape (at least one
    dimension), are all replaced by parameter - lr * gradient (up to the rounding of the
    product); the gradients, the shapes and all other objects stay as they are.
    Partial: additive sharing only, [divisible] gradients (see C10, C12, C14); the three
    theorems marked refuted below show that the other restrictions are needed. *)
Theorem C48_step_partial : forall s lr msk ids objs on (v g : nat -> list Z),
  0 < c_base (s_cfg s) -> NoDup ids ->
  (forall k i, nth_error ids k = Some i -> trainable s lr (msk k) (nth_error objs i) (v i) (g i)) ->
  exists objs', sgd_step s lr msk ids (mkW objs on) = (mkW objs' true, Ok tt) /\
    length objs' = length objs /\
    (forall j, ~ In j ids -> nth_error objs' j = nth_error objs j) /\
    (forall j p, In j ids -> nth_error objs j = Some p ->
       exists p', nth_error objs' j = Some p' /\ moved s lr (v j) (g j) p p').
Proof.
  intros s lr msk ids objs on v g Hb HN HT.
  destruct (sgd_loop_ok s lr msk v g Hb ids 0 objs HN HT) as (objs' & E & R).
  exists objs'. unfold sgd_step. cbn [w_objs]. rewrite E. split; [reflexivity|exact R].
Qed.
Print Assumptions C48_step_partial.

(* two parties; parameters 2.0 and (1.0, -3.0), gradients 4.0 and (-1.0, 0.5), rate 0.5;
   object number 1 is no parameter *)
Definition C48_s : sess := mkS 0 2 default_config.
Definition C48_p (sh : list nat) (v : list Z) : mpc := (* shares v + 1000000 and -1000000 *)
  mkM 0 sh [mkT sh (map (fun a => a + 1000000) v); mkT sh (map (fun _ => -1000000) v)].
Definition C48_v (j : nat) : list Z := match j with 0%nat => [2 * 65536] | _ => [65536; -3 * 65536] end.
Definition C48_g (j : nat) : list Z := match j with 0%nat => [4 * 65536] | _ => [-65536; 32768] end.
Definition C48_o (j : nat) : pobj :=
  match j with
  | 0%nat => mkPO (C48_p [1%nat] (C48_v 0)) (Some (C48_p [1%nat] (C48_g 0)))
  | 1%nat => mkPO (C48_p [1%nat] [7]) None
  | _ => mkPO (C48_p [2%nat] (C48_v 2)) (Some (C48_p [2%nat] (C48_g 2)))
  end.
Example C48_step_witness :
  let objs := [C48_o 0; C48_o 1; C48_o 2] in
  (forall k i, nth_error [2; 0]%nat k = Some i ->
     trainable C48_s (NFloat (1 # 2)) ([], []) (nth_error objs i) (C48_v i) (C48_g i)) /\
  (let (w, r) := sgd_step C48_s (NFloat (1 # 2)) (fun _ => ([], [])) [2; 0]%nat (mkW objs false) in
   (r, map (fun p => reconstruct (p_val p)) (w_objs w))) =
  (Ok tt, [Ok (mkT [1%nat] [0]); Ok (mkT [1%nat] [7]); Ok (mkT [2%nat] [65536 + 32768; -3 * 65536 - 16384])]).
Proof.
  cbn zeta. split; [|vm_compute; reflexivity].
  intros [|[|k]] i H; cbn in H; try discriminate; [| |destruct k; discriminate]; injection H as <-.
  all: do 2 eexists; split; [reflexivity|]; split; [reflexivity|].
  all: do 2 (split; [reflexivity|]); split; [reflexivity|]; split; [discriminate|].
  all: do 2 (split; [reflexivity|]).
  all: split; [split; [discriminate|]; split; [repeat constructor|reflexivity]|].
  all: split; [split; [discriminate|]; split; [repeat constructor|reflexivity]|].
  all: left; split; [reflexivity|]; intros e He.
  all: cbn in He; destruct e as [|[|e]]; try lia; vm_compute; reflexivity.
Qed.

(** C48: zero_grad clears the gradients of exactly the listed parameters. *)
Theorem C48_zero_grad : forall ids objs on,
  let objs' := w_objs (sgd_zero_grad ids (mkW objs on)) in
  length objs' = length objs /\
  forall j p, nth_error objs j = Some p ->
    (In j ids -> nth_error objs' j = Some (mkPO (p_val p) None)) /\
    (~ In j ids -> nth_error objs' j = Some p).
Proof.
  intros ids objs on. destruct (zero_grad_ok ids objs on) as [L H]. cbn zeta in *. split; [exact L|].
  intros j p E. rewrite H, E. split; intros HJ; destruct (in_dec Nat.eq_dec j ids); auto; contradiction.
Qed.
Print Assumptions C48_zero_grad.

Example C48_zero_grad_witness :
  map p_grad (w_objs (sgd_zero_grad [2; 2]%nat (mkW [C48_o 0; C48_o 1; C48_o 2] true))) =
  [Some (C48_p [1%nat] (C48_g 0)); None; None].
Proof. reflexivity. Qed.

(** C48 is false with a parameter that has no gradient (yet): the step raises TypeError, the
    parameters listed before it have already moved, and AUTOGRAD_IS_ON stays switched off. *)
Theorem C48_missing_gradient_refuted : exists s lr msk objs w p0 p1,
  sgd_step s lr msk [0; 1]%nat (mkW objs true) = (w, Err TypeError) /\
  w_on w = false /\ length objs = 2%nat /\
  nth_error objs 0 = Some p0 /\ nth_error (w_objs w) 0 = Some p1 /\
  reconstruct (p_val p0) <> reconstruct (p_val p1).
Proof.
  exists C48_s, (NFloat (1 # 2)), (fun _ => ([], [])), [C48_o 0; C48_o 1]. do 3 eexists.
  split; [vm_compute; reflexivity|]. split; [reflexivity|]. split; [reflexivity|]. split; [reflexivity|].
  split; [reflexivity|]. vm_compute. discriminate.
Qed.
Print Assumptions C48_missing_gradient_refuted.

(** C48: in particular every step directly after zero_grad fails and changes no parameter. *)
Theorem C48_step_after_zero_grad : forall s lr msk i ids objs on, (i < length objs)%nat ->
  let w := sgd_zero_grad (i :: ids) (mkW objs on) in
  sgd_step s lr msk (i :: ids) w = (mkW (w_objs w) false, Err TypeError).
Proof.
  intros s lr msk i ids objs on Hi. cbn zeta.
  destruct (zero_grad_ok (i :: ids) objs on) as [_ H]. cbn zeta in H. specialize (H i).
  unfold sgd_step. cbn [sgd_loop]. rewrite H. destruct (nth_error objs i) as [p|] eqn:E.
  - destruct (in_dec Nat.eq_dec i (i :: ids)) as [|F]; [reflexivity|]. destruct F. left; auto.
  - apply nth_error_None in E. lia.
Qed.
Print Assumptions C48_step_after_zero_grad.

Example C48_step_after_zero_grad_witness :
  snd (sgd_step C48_s (NFloat (1 # 2)) (fun _ => ([], [])) [0]%nat (sgd_zero_grad [0]%nat (mkW [C48_o 0] true))) = Err TypeError.
Proof. reflexivity. Qed.

(** C48 is false for a parameter listed twice: it moves by twice lr * gradient. *)
Theorem C48_listed_twice_refuted : exists s lr msk objs w p1,
  objs = [C48_o 0] /\ reconstruct (p_val (C48_o 0)) = Ok (mkT [1%nat] [2 * 65536]) /\
  sgd_step s lr msk [0; 0]%nat (mkW objs true) = (w, Ok tt) /\
  nth_error (w_objs w) 0 = Some p1 /\
  reconstruct (p_val p1) = Ok (mkT [1%nat] [2 * 65536 - 2 * (2 * 65536)]).
Proof.
  exists C48_s, (NFloat (1 # 2)), (fun _ => ([], [])), [C48_o 0]. do 2 eexists.
  split; [reflexivity|]. split; [vm_compute; reflexivity|]. split; [vm_compute; reflexivity|].
  split; [reflexivity|]. vm_compute. reflexivity.
Qed.
Print Assumptions C48_listed_twice_refuted.

(** C48 is false for 0-dimensional parameters: the parameter silently becomes a tensor of
    shape (1,), while its shape attribute still says (). *)
Theorem C48_scalar_shape_refuted : exists s lr msk p g w p1 t,
  m_shape (p_val p) = [] /\ shared (2^64) [] [65536] (m_shares (p_val p)) /\
  p_grad p = Some g /\ m_shape g = [] /\ shared (2^64) [] [2 * 65536] (m_shares g) /\
  sgd_step s lr msk [0]%nat (mkW [p] true) = (w, Ok tt) /\ nth_error (w_objs w) 0 = Some p1 /\
  m_shape (p_val p1) = [] /\ reconstruct (p_val p1) = Ok t /\ tsh t = [1%nat].
Proof.
  exists C48_s, (NFloat (1 # 2)), (fun _ => ([], [])), (mkPO (C48_p [] [65536]) (Some (C48_p [] [2 * 65536]))).
  do 4 eexists.
  split; [reflexivity|]. split; [split; [discriminate|]; split; [repeat constructor|reflexivity]|].
  split; [reflexivity|]. split; [reflexivity|]. split; [split; [discriminate|]; split; [repeat constructor|reflexivity]|].
  split; [vm_compute; reflexivity|]. split; [reflexivity|]. split; [reflexivity|].
  split; [vm_compute; reflexivity|]. reflexivity.
Qed.
Print Assumptions C48_scalar_shape_refuted.
