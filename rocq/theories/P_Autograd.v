(** Back-propagation (property C44). *)
From Coq Require Import QArith String Lia.
From Verif Require Import Util Modular S_Ring S_Tensor S_Bil S_Spdz S_Fss S_Sort S_Autograd M_Torch M_Encoder M_Tensor M_Share M_Spdz
  M_Store M_Fss M_Engine M_Approx M_Grad M_Static M_Autograd S_Back L_Torch L_Tensor L_Share L_Div L_Bil L_Circuit L_Engine L_Grad L_Argmax P_Fss P_Sort P_Argmax L_Autograd L_Back L_Back2.
Local Open Scope Z_scope.
Local Open Scope list_scope.

(** C44 for two parties and integer secrets: whatever tensors are made by sums, differences,
    products, matrix products, powers, relu, sum, t, reshape and flatten, in whatever order and
    however they are used by each other, and whenever backward is called: every call succeeds, and
    in the end the gradient kept by each tensor for which gradients are wanted is a sharing of the
    sum, over the calls of backward and over all paths from their roots to the tensor, of the
    products of the derivatives along the path, and has the shape of the tensor.  Tensors not
    reached by a call, and those for which no gradient is wanted, have none.
    [history] (S_Back.v) says which calls: each root is computed and used at most once, and what is
    computed below it is not used elsewhere and was not reached by an earlier call.
    Missing from the full statement: computed tensors below the root that are also used elsewhere
    (refuted below: C44_branch), a second call over the same tensors (C44_twice), a call on a leaf
    (C44_leaf), differences from a constant (C44_rsub), matrix products with vectors (C44_vector),
    differences with a tensor without dimensions (C44_scalar); division, sigmoid, convolution and
    max pooling; fixed-point secrets; comparisons in relu beyond 2^31 - 1. *)
Theorem C44_chain_partial : forall K alpha ev (gen : fop -> nat -> nat -> result (list (list K))) s su mm on evs prog env visited acc fuel w,
  backend_ok alpha ev gen -> int_pair s -> supplies su mm on -> none_waiting (fst w) ->
  history s evs prog env visited acc -> (length prog <= fuel)%nat ->
  exists nodes w', run alpha ev gen s su mm on fuel evs (mkG [] true, w) = (Ok tt, (mkG nodes true, w')) /\
    length nodes = length prog /\
    forall i n, nth_error nodes i = Some n ->
      let sh := fst (look env (inl i)) in
      let sharing v := shares_of s sh (map v (seq 0 (numel sh))) in
      sharing (snd (look env (inl i))) (n_val n) /\
      (needs prog i -> visited i -> exists x, n_grad n = Some x /\ sharing (acc i) x) /\
      (~ (needs prog i /\ visited i) -> n_grad n = None).
Proof.
  intros K alpha ev gen s su mm on evs prog env visited acc fuel w HG HI HS HW HH Hf.
  destruct (run_ok alpha ev gen s su mm on HG HI HS evs prog env visited acc fuel w HH Hf HW) as (nodes & w' & E & _ & G).
  exists nodes, w'. split; [exact E|]. split; [apply (g_len _ _ _ _ _ _ G)|]. intros i n Hi sh sharing.
  assert (L : (i < length prog)%nat) by (rewrite <- (g_len _ _ _ _ _ _ G); apply nth_error_Some; congruence).
  destruct (nth_error prog i) as [st|] eqn:Es; [|apply nth_error_None in Es; lia].
  pose proof (g_fine _ _ _ _ _ _ G i st n Es Hi) as F.
  assert (RS : forall f x, rep s sh f x -> sharing f x).
  { intros f x R. unfold sharing. eapply rep_shares; [exact R|rewrite map_length, seq_length; reflexivity|]. intros e He. rewrite map_seq_nth by auto. reflexivity. }
  split; [apply RS, (f_val _ _ _ _ _ _ _ _ F)|]. split.
  - intros N V. pose proof (f_grad _ _ _ _ _ _ _ _ F N) as H. destruct (n_grad n) as [x|]; [|tauto]. exists x. split; [reflexivity|]. apply RS, H.
  - intros NN. destruct (n_req n) eqn:RQ.
    + pose proof (proj1 (f_req _ _ _ _ _ _ _ _ F) RQ) as N. pose proof (f_grad _ _ _ _ _ _ _ _ F N) as H. destruct (n_grad n); [tauto|reflexivity].
    + apply (f_none _ _ _ _ _ _ _ _ F). intros N. apply (f_req _ _ _ _ _ _ _ _ F) in N. congruence.
Qed.
Print Assumptions C44_chain_partial.

(* ------------------------------------------------------------------ a concrete supply *)
Definition pair_of (sh : list nat) (v : list Z) : list tensor :=
  [mkT sh (map (fun z => to_ring (2^64) (z + 1000)) v); mkT sh (repeat (-1000) (numel sh))].
Lemma pair_shared sh v : length v = numel sh -> vec_in (2^64) v -> shared (2^64) sh v (pair_of sh v).
Proof.
  intros L V. split; [discriminate|]. split.
  - repeat constructor; cbn [tsh tdat]; rewrite ?map_length, ?repeat_length; auto.
    + apply (map_to_ring_in R64 supR).
    + apply Forall_forall. intros z Hz. apply repeat_spec in Hz. subst. reflexivity.
  - apply (vec_eq R64 supR); auto; [apply s_sum_in; auto|rewrite s_sum_length; auto|]. intros e He. rewrite s_sum_nth by lia.
    cbn [pair_of map tdat zsum]. rewrite (nth_map_in _ 0) by auto. rewrite (nth_indep (repeat (-1000) (numel sh)) 0 (-1000)) by (rewrite repeat_length; lia). rewrite nth_repeat.
    rewrite to_ring_eqmod by apply posR. rewrite to_ring_eqmod by apply posR. apply eqmod_eq. ring.
Qed.
Definition g_su : tri_supply :=
  mkSup (fun _ sa sb => match bcast sa sb with
           | Some so => let a := repeat 3 (numel sa) in let b := repeat 5 (numel sb) in
                        zip3 (pair_of sa a) (pair_of sb b) (pair_of so (mul_val sa sb so a b))
           | None => [] end) (fun _ => [[12345]]).
Definition g_mm (t : nat) (sa sb : list nat) : list triple :=
  match sa, sb with
  | [m; k], [_; n] => let a := repeat 3 (m * (k * 1))%nat in let b := repeat 5 (k * (n * 1))%nat in
                      zip3 (pair_of sa a) (pair_of sb b) (pair_of [m; n] (mm_val [] [] [] m k n a b))
  | _, _ => []
  end.
Definition g_on (k : nat) (sh : list nat) : list (list Z) := [repeat 77 (numel sh)].
Lemma small_in n z : in_ring (2^64) z -> vec_in (2^64) (repeat z n).
Proof. intros H. apply Forall_forall. intros y Hy. apply repeat_spec in Hy. subst. exact H. Qed.
Lemma g_supplies : supplies g_su g_mm g_on.
Proof.
  split; [|split; [|split]].
  - intros k sa sb so HB. unfold g_su. cbn [su_tri]. rewrite (bcast_complete _ _ _ HB). split; [reflexivity|].
    exists (repeat 3 (numel sa)), (repeat 5 (numel sb)). split; [|split].
    + apply (pair_shared sa); [apply repeat_length|apply small_in; reflexivity].
    + apply (pair_shared sb); [apply repeat_length|apply small_in; reflexivity].
    + apply (pair_shared so); unfold mul_vr, s_mul.
      * apply map2_length_eq; apply bexpand_length.
      * apply (map2_to_ring_in R64 supR).
  - intros t m k n. split; [reflexivity|]. exists (repeat 3 (m * (k * 1))%nat), (repeat 5 (k * (n * 1))%nat). split; [|split].
    + apply (pair_shared [m; k]); [apply repeat_length|apply small_in; reflexivity].
    + apply (pair_shared [k; n]); [apply repeat_length|apply small_in; reflexivity].
    + apply (pair_shared [m; n]); unfold mm_vr.
      * rewrite map_length, seq_length. cbn [numel fold_right]. lia.
      * apply (map_to_ring_in R64 supR).
  - intros k. split; [reflexivity|]. repeat constructor; discriminate.
  - intros k sh. split; [reflexivity|]. constructor; [|constructor]. split; [apply repeat_length|apply small_in; reflexivity].
Qed.

(** what the modelled calls leave at the tensors: nothing, or the reconstruction of the gradient *)
Definition grads (evs : list event) : result (list (option (result tensor))) :=
  match run t_alpha t_ev toy int_s g_su g_mm g_on 50 evs (mkG [] true, w0) with
  | (Ok _, (g, _)) => Ok (map (fun n => match n_grad n with Some x => Some (reconstruct x) | None => None end) (g_nodes g))
  | (Err e, _) => Err e
  end.

Definition ex_x : mpc := two [2%nat] [1003; 2^62] [-1000; - 2^62 + 4].   (* 3, 4 *)
Definition ex_c : mpc := two [1%nat] [12] [-7].                           (* 5 *)
Definition C44_prog : list pstep :=
  [PLeaf ex_x true; PLeaf ex_c false;
   PBin FMul 0 (inl 0); PBin FAdd 2 (inl 1); PBin FMul 2 (inl 3); PUn FSum 4;   (* y = x x, sum (y (y + c)) *)
   PUn FSum 0; PBin FMul 6 (inr (PNum (NInt 2)))]%nat.                           (* 2 sum x *)
Definition C44_evs : list event :=
  map EvStep (firstn 6 C44_prog) ++ [EvBack 5 None] ++ map EvStep (skipn 6 C44_prog) ++ [EvBack 7 None].

Lemma dag_of (prog : list pstep) : forallb (fun i => forallb (fun j => Nat.ltb j i) (pars prog i)) (seq 0 (length prog)) = true ->
  forall i j, In j (pars prog i) -> (j < i)%nat.
Proof.
  intros H i j Hj. destruct (Nat.lt_ge_cases i (length prog)) as [L|L]; [|rewrite pars_ge in Hj by auto; destruct Hj].
  rewrite forallb_forall in H. specialize (H i ltac:(apply in_seq; lia)). rewrite forallb_forall in H. apply Nat.ltb_lt. auto.
Qed.

(** deciding [clean] for concrete programs *)
Definition clean_check (prog : list pstep) (vis : nat -> bool) (root : nat) : bool :=
  let r := reachb (pars prog) root in
  let inner i := (r i && negb (match pars prog i with [] => true | _ => false end))%bool in
  (inner root && Nat.leb (uses prog root) 1 &&
   forallb (fun i => negb (inner i && vis i)%bool) (seq 0 (S root)) &&
   forallb (fun i => forallb (fun c => negb (inner i && negb (Nat.eqb i root) && existsb (Nat.eqb i) (pars prog c) && negb (r c))%bool) (seq 0 (length prog))) (seq 0 (S root)))%bool.
Lemma clean_ok prog (visited : nat -> Prop) vis root : (forall i j, In j (pars prog i) -> (j < i)%nat) -> (forall i, visited i -> vis i = true) ->
  needs prog root -> clean_check prog vis root = true -> clean prog visited root.
Proof.
  intros HD HV HN H. unfold clean_check in H. rewrite !Bool.andb_true_iff in H. destruct H as [[[[_ H1] H2] H3] H4].
  assert (IN : forall i, below (pars prog) root i -> pars prog i <> [] ->
    (reachb (pars prog) root i && negb (match pars prog i with [] => true | _ => false end))%bool = true /\ (i <= root)%nat).
  { intros i B NE. split; [|destruct B as [q P]; eapply path_le; eauto]. rewrite (proj2 (reachb_ok _ HD root i)) by auto. destruct (pars prog i); [congruence|reflexivity]. }
  split; [|split; [auto|split; [|split]]].
  - destruct (pars prog root); [discriminate|congruence].
  - apply Nat.leb_le. auto.
  - intros i B NE V. destruct (IN i B NE) as [A L]. rewrite forallb_forall in H3. specialize (H3 i ltac:(apply in_seq; lia)). cbv beta in H3.
    rewrite A, (HV i V) in H3. discriminate.
  - intros i c B NR NE Hc. destruct (IN i B NE) as [A L]. rewrite forallb_forall in H4. specialize (H4 i ltac:(apply in_seq; lia)).
    rewrite forallb_forall in H4. assert (Lc : (c < length prog)%nat).
    { destruct (Nat.lt_ge_cases c (length prog)); auto. rewrite pars_ge in Hc by auto. destruct Hc. }
    specialize (H4 c ltac:(apply in_seq; lia)). cbv beta in H4. rewrite A in H4. destruct (Nat.eqb_spec i root); [congruence|].
    assert (E : existsb (Nat.eqb i) (pars prog c) = true) by (apply existsb_exists; exists i; split; [auto|apply Nat.eqb_refl]).
    rewrite E in H4. destruct (reachb (pars prog) root c) eqn:R; [apply reachb_ok; auto|discriminate].
Qed.

Ltac dims := repeat constructor; discriminate.
Ltac brd := apply bcast_spec; reflexivity.
Ltac leafsh := apply y_leaf; repeat (split; [reflexivity|]); split; [discriminate|]; split; [repeat constructor|reflexivity].

Example C44_witness : exists env visited acc,
  history int_s C44_evs C44_prog env visited acc /\ supplies g_su g_mm g_on /\ needs C44_prog 0 /\ visited 0%nat /\
  map (acc 0%nat) [0; 1]%nat = [140; 298] /\
  (do l <- grads C44_evs; Ok (nth 0 l None)) = Ok (Some (Ok (mkT [2%nat] [140; 298]))).
Proof.
  assert (N0 : needs C44_prog 0) by (apply (need_leaf _ 0 ex_x); reflexivity).
  pose proof (h_nil int_s) as H.
  eapply (h_step _ _ _ _ _ _ (PLeaf ex_x true) [2%nat] (fun e => nth e [3; 4] 0)) in H; [|leafsh].
  eapply (h_step _ _ _ _ _ _ (PLeaf ex_c false) [1%nat] (fun e => nth e [5] 0)) in H; [|leafsh].
  eapply (h_step _ _ _ _ _ _ (PBin FMul 0 (inl 0%nat))) in H; [|eapply (y_mul _ _ 0 (inl 0%nat) [2%nat]); [cbn; lia|cbn; lia|brd|dims]].
  eapply (h_step _ _ _ _ _ _ (PBin FAdd 2 (inl 1%nat))) in H; [|eapply (y_add _ _ 2 (inl 1%nat) [2%nat]); [cbn; lia|cbn; lia|brd|dims|exact I]].
  eapply (h_step _ _ _ _ _ _ (PBin FMul 2 (inl 3%nat))) in H; [|eapply (y_mul _ _ 2 (inl 3%nat) [2%nat]); [cbn; lia|cbn; lia|brd|dims]].
  eapply (h_step _ _ _ _ _ _ (PUn FSum 4)) in H; [|eapply (y_sum _ _ 4); cbn; lia].
  cbn [app] in H.
  match type of H with history _ _ ?p _ _ _ => assert (D1 : forall i j, In j (pars p i) -> (j < i)%nat) by (apply dag_of; reflexivity);
    eapply (h_back _ _ _ _ _ _ 5 None (fun _ => 1) (fun i => paths_from (pars p) 6 5 i)) in H end;
  [|apply (clean_ok _ _ (fun _ => false)); [exact D1|tauto| |reflexivity]|split; [cbn; lia|reflexivity]|intros i; apply all_paths_from; exact D1].
  2:{ apply (need_op _ 5 4); [cbn; tauto|]. apply (need_op _ 4 2); [cbn; tauto|]. apply (need_op _ 2 0); [cbn; tauto|]. apply (need_leaf _ 0 ex_x); reflexivity. }
  eapply (h_step _ _ _ _ _ _ (PUn FSum 0)) in H; [|eapply (y_sum _ _ 0); cbn; lia].
  eapply (h_step _ _ _ _ _ _ (PBin FMul 6 (inr (PNum (NInt 2))))) in H; [|eapply (y_mul _ _ 6 (inr (PNum (NInt 2))) []); [cbn; lia|split; [exact I|repeat constructor; eexists; reflexivity]|brd|constructor]].
  cbn [app] in H.
  match type of H with history _ _ ?p _ _ _ => assert (D2 : forall i j, In j (pars p i) -> (j < i)%nat) by (apply dag_of; reflexivity);
    eapply (h_back _ _ _ _ _ _ 7 None (fun _ => 1) (fun i => paths_from (pars p) 8 7 i)) in H end;
  [|apply (clean_ok _ _ (fun i => Nat.leb i 5)); [exact D2| | |reflexivity]|split; [cbn; lia|reflexivity]|intros i; apply all_paths_from; exact D2].
  2:{ intros i [[]|[q P]]. apply path_le in P; [|exact D1]. apply Nat.leb_le. auto. }
  2:{ apply (need_op _ 7 6); [cbn; tauto|]. apply (need_op _ 6 0); [cbn; tauto|]. exact N0. }
  do 3 eexists. split; [exact H|]. split; [exact g_supplies|]. split; [exact N0|].
  split; [right; exists [(7, 0); (6, 0)]%nat; repeat econstructor|].
  split; vm_compute; reflexivity.
Qed.

(* ------------------------------------------------------------------------- refuted *)
(** a program in which every step is as in the theorem above: the tensors it makes *)
Definition makes (prog : list pstep) (env : tensors) : Prop :=
  history int_s (map EvStep prog) prog env (fun _ => False) (fun _ _ => 0).
Definition two_ : nat + pub := inr (PNum (NInt 2)).
Ltac mk_pub := split; [exact I|repeat constructor; eexists; reflexivity].
Definition chain_sum (prog : list pstep) (env : tensors) (root i e : nat) : Z :=
  path_sum (deriv prog env) (paths_from (pars prog) (S root) root i) (fun _ => 1) e.

(** C44 refuted for branches: if something below the root is also used by a tensor not below the
    root (here y = 2 x, used by y + 2 and by the root, the sum of y), its gradient is not passed on
    and the leaf gets none; nothing is raised.  It should be 2, 2. *)
Theorem C44_branch_refuted : exists prog env root,
  makes prog env /\ needs prog 0 /\ needs prog root /\ (uses prog root <= 1)%nat /\
  (forall i, all_paths (pars prog) root i (paths_from (pars prog) (S root) root i)) /\
  map (chain_sum prog env root 0) [0; 1]%nat = [2; 2] /\
  exists l, grads (map EvStep prog ++ [EvBack root None]) = Ok l /\ nth_error l 0 = Some None.
Proof.
  set (prog := [PLeaf ex_x true; PBin FMul 0 two_; PBin FAdd 1 two_; PUn FSum 1]).
  assert (D : forall i j, In j (pars prog i) -> (j < i)%nat) by (apply dag_of; reflexivity).
  assert (N0 : needs prog 0) by (apply (need_leaf _ 0 ex_x); reflexivity).
  assert (H := h_nil int_s).
  eapply (h_step _ _ _ _ _ _ (PLeaf ex_x true) [2%nat] (fun e => nth e [3; 4] 0)) in H; [|leafsh].
  eapply (h_step _ _ _ _ _ _ (PBin FMul 0 two_)) in H; [|eapply (y_mul _ _ 0 two_ [2%nat]); [cbn; lia|mk_pub|brd|dims]].
  eapply (h_step _ _ _ _ _ _ (PBin FAdd 1 two_)) in H; [|eapply (y_add _ _ 1 two_ [2%nat]); [cbn; lia|mk_pub|brd|dims|reflexivity]].
  eapply (h_step _ _ _ _ _ _ (PUn FSum 1)) in H; [|eapply (y_sum _ _ 1); cbn; lia].
  exists prog. eexists. exists 3%nat. split; [exact H|]. split; [exact N0|].
  split; [apply (need_op _ 3 1); [cbn; tauto|]; apply (need_op _ 1 0); [cbn; tauto|exact N0]|].
  split; [cbn; lia|]. split; [intros i; apply all_paths_from; exact D|]. split; [vm_compute; reflexivity|].
  eexists. split; [vm_compute; reflexivity|reflexivity].
Qed.
Print Assumptions C44_branch_refuted.

(** C44 refuted for a second call of backward over the same tensors: the gradient kept by the root
    and by every tensor on the way is passed on again.  It should be 2 + 2 and is 8. *)
Theorem C44_twice_refuted : exists prog env root l,
  makes prog env /\ clean prog (fun _ => False) root /\
  (forall i, all_paths (pars prog) root i (paths_from (pars prog) (S root) root i)) /\
  map (chain_sum prog env root 0) [0; 1]%nat = [2; 2] /\
  grads (map EvStep prog ++ [EvBack root None; EvBack root None]) = Ok l /\
  nth_error l 0 = Some (Some (Ok (mkT [2%nat] [8; 8]))).
Proof.
  set (prog := [PLeaf ex_x true; PBin FMul 0 two_; PUn FSum 1]).
  assert (D : forall i j, In j (pars prog i) -> (j < i)%nat) by (apply dag_of; reflexivity).
  assert (H := h_nil int_s).
  eapply (h_step _ _ _ _ _ _ (PLeaf ex_x true) [2%nat] (fun e => nth e [3; 4] 0)) in H; [|leafsh].
  eapply (h_step _ _ _ _ _ _ (PBin FMul 0 two_)) in H; [|eapply (y_mul _ _ 0 two_ [2%nat]); [cbn; lia|mk_pub|brd|dims]].
  eapply (h_step _ _ _ _ _ _ (PUn FSum 1)) in H; [|eapply (y_sum _ _ 1); cbn; lia].
  exists prog. eexists. exists 2%nat. eexists. split; [exact H|]. split.
  { apply (clean_ok _ _ (fun _ => false)); [exact D|tauto| |reflexivity].
    apply (need_op _ 2 1); [cbn; tauto|]; apply (need_op _ 1 0); [cbn; tauto|]. apply (need_leaf _ 0 ex_x); reflexivity. }
  split; [intros i; apply all_paths_from; exact D|]. split; [vm_compute; reflexivity|].
  split; [vm_compute; reflexivity|reflexivity].
Qed.
Print Assumptions C44_twice_refuted.

(** C44 refuted for backward on a leaf: recording stays off afterwards, so that a later backward
    does nothing.  The gradient should be 1 (of the first call) plus 2. *)
Theorem C44_leaf_refuted : exists prog env root l,
  makes prog env /\ clean prog (fun i => i = 0%nat) root /\
  (forall i, all_paths (pars prog) root i (paths_from (pars prog) (S root) root i)) /\
  map (chain_sum prog env root 0) [0; 1]%nat = [2; 2] /\
  grads (map EvStep (firstn 1 prog) ++ [EvBack 0 None] ++ map EvStep (skipn 1 prog) ++ [EvBack root None]) = Ok l /\
  nth_error l 0 = Some (Some (Ok (mkT [2%nat] [1; 1]))).
Proof.
  set (prog := [PLeaf ex_x true; PBin FMul 0 two_; PUn FSum 1]).
  assert (D : forall i j, In j (pars prog i) -> (j < i)%nat) by (apply dag_of; reflexivity).
  assert (H := h_nil int_s).
  eapply (h_step _ _ _ _ _ _ (PLeaf ex_x true) [2%nat] (fun e => nth e [3; 4] 0)) in H; [|leafsh].
  eapply (h_step _ _ _ _ _ _ (PBin FMul 0 two_)) in H; [|eapply (y_mul _ _ 0 two_ [2%nat]); [cbn; lia|mk_pub|brd|dims]].
  eapply (h_step _ _ _ _ _ _ (PUn FSum 1)) in H; [|eapply (y_sum _ _ 1); cbn; lia].
  exists prog. eexists. exists 2%nat. eexists. split; [exact H|]. split.
  { apply (clean_ok _ _ (fun i => Nat.eqb i 0)); [exact D|intros i ->; reflexivity| |reflexivity].
    apply (need_op _ 2 1); [cbn; tauto|]; apply (need_op _ 1 0); [cbn; tauto|]. apply (need_leaf _ 0 ex_x); reflexivity. }
  split; [intros i; apply all_paths_from; exact D|]. split; [vm_compute; reflexivity|].
  split; [vm_compute; reflexivity|reflexivity].
Qed.
Print Assumptions C44_leaf_refuted.

(** C44 refuted for 10 - x: its value is right, but x (with requires_grad) gets no gradient from
    the sum of 10 - x, and nothing is raised.  It should be -1, -1. *)
Theorem C44_rsub_refuted : exists nodes act w' n0 n2,
  shares_of int_s [2%nat] [3; 4] ex_x /\
  (let! x := leaf ex_x true in
   let! y := call_rsub t_alpha t_ev toy int_s g_su g_mm x (PNum (NInt 10)) in
   let! r := call1 t_alpha t_ev toy int_s g_su FSum y in
   mbackward t_alpha t_ev toy int_s g_su g_on 50 r None) (mkG [] true, w0) = (Ok tt, (mkG nodes act, w')) /\
  nth_error nodes 2 = Some n2 /\ reconstruct (n_val n2) = Ok (mkT [2%nat] [7; 6]) /\
  nth_error nodes 0 = Some n0 /\ n_req n0 = true /\ n_grad n0 = None.
Proof.
  match goal with |- context [cbind (leaf ex_x true) ?k] => set (c := cbind (leaf ex_x true) k) end.
  assert (P : match c (mkG [] true, w0) with
              | (Ok tt, (g, _)) => map (fun n => (n_req n, match n_grad n with None => true | _ => false end, reconstruct (n_val n))) (g_nodes g)
              | _ => [] end =
              [(true, true, Ok (mkT [2%nat] [3; 4])); (false, true, Ok (mkT [2%nat] [-7; -6])); (false, true, Ok (mkT [2%nat] [7; 6])); (false, true, Ok (mkT [] [13]))])
    by (vm_compute; reflexivity).
  destruct (c (mkG [] true, w0)) as [[[]|] [[nodes act] w']]; [|discriminate]. cbn [g_nodes] in P.
  destruct nodes as [|n0 [|n1 [|n2 nodes]]]; try discriminate. cbn [map] in P. injection P as P1 P2 P3 P4 P5 P6 P7 P8 P9 P10.
  exists (n0 :: n1 :: n2 :: nodes), act, w', n0, n2.
  split; [repeat (split; [reflexivity|]); split; [discriminate|]; split; [repeat constructor|reflexivity]|].
  repeat (split; [first [reflexivity|assumption]|]). destruct (n_grad n0); [discriminate|reflexivity].
Qed.
Print Assumptions C44_rsub_refuted.

(** C44 refuted for the product of a matrix and a vector: backward raises.  (Row-major 3 4 / 5 6
    times the public vector 1 1.) *)
Theorem C44_vector_refuted : exists x p l,
  shares_of int_s [2; 2]%nat [3; 4; 5; 6] x /\
  grads (map EvStep [PLeaf x true; PBin FMatmul 0 (inr p)]) = Ok l /\
  grads (map EvStep [PLeaf x true; PBin FMatmul 0 (inr p)] ++ [EvBack 1 None]) = Err RuntimeError.
Proof.
  exists (two [2; 2]%nat [3; 4; 5; 6] [0; 0; 0; 0]), (PTensor [2%nat] [NInt 1; NInt 1]). eexists.
  split; [repeat (split; [reflexivity|]); split; [discriminate|]; split; [repeat constructor|reflexivity]|].
  split; vm_compute; reflexivity.
Qed.
Print Assumptions C44_vector_refuted.

(** C44 refuted for shapes: the gradient of a subtrahend without dimensions has one dimension *)
Theorem C44_scalar_refuted : exists x y l g,
  shares_of int_s [2%nat] [3; 4] x /\ shares_of int_s [] [5] y /\
  grads (map EvStep [PLeaf x true; PLeaf y true; PBin FSub 0 (inl 1%nat); PUn FSum 2] ++ [EvBack 3 None]) = Ok l /\
  nth_error l 1 = Some (Some (Ok g)) /\ tsh g = [1%nat].
Proof.
  exists ex_x, (two [] [12] [-7]). do 2 eexists.
  split; [repeat (split; [reflexivity|]); split; [discriminate|]; split; [repeat constructor|reflexivity]|].
  split; [repeat (split; [reflexivity|]); split; [discriminate|]; split; [repeat constructor|reflexivity]|].
  split; [vm_compute; reflexivity|]. split; reflexivity.
Qed.
Print Assumptions C44_scalar_refuted.
