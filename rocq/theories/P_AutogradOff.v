(** C44, continued: what is computed while recording is off has no history. *)
From Coq Require Import QArith String Lia.
From Verif Require Import Util Modular S_Ring S_Tensor S_Bil S_Spdz S_Fss S_Sort S_Autograd M_Torch M_Encoder M_Tensor M_Share M_Spdz
  M_Store M_Fss M_Engine M_Approx M_Grad M_Static M_Autograd S_Back L_Torch L_Tensor L_Share L_Div L_Bil L_Circuit L_Engine L_Grad L_Argmax P_Fss P_Sort P_Argmax L_Autograd L_Back L_Back2 P_Autograd.
Local Open Scope Z_scope.
Local Open Scope list_scope.

Lemma record_off {K : Type} params fw pl st st' i : g_active (fst st) = false ->
  record (K:=K) params fw pl st = (Ok i, st') ->
  exists v, g_nodes (fst st') = g_nodes (fst st) ++ [mkN v false None [] None 0] /\
    g_active (fst st') = false /\ i = length (g_nodes (fst st)).
Proof.
  intros A H. unfold record in H. rewrite A in H.
  destruct (rmap _ params) as [ns|e]; [|discriminate].
  unfold cbind, liftw, leaf, append in H. destruct (pl _ (snd st)) as [[r|e] w]; [|discriminate].
  cbn in H. injection H as <- <-. exists r. cbn. auto.
Qed.

(** C44: any operation that returns while recording is off (whatever the number of parties, the
    operands and their requires_grad) makes one new tensor, which requires no gradients and has no
    history; every other tensor keeps its value, history, gradient and edges, recording stays off,
    and a later backward on the new tensor changes nothing, whatever the gradient given. *)
Theorem C44_off : forall K alpha ev (gen : fop -> nat -> nat -> result (list (list K))) s su mm on fuel step st st',
  match step with PLeaf _ _ => False | _ => True end ->
  g_active (fst st) = false ->
  exec alpha ev gen s su mm on fuel (EvStep step) st = (Ok tt, st') ->
  length (g_nodes (fst st')) = S (length (g_nodes (fst st))) /\
  (forall i, (i < length (g_nodes (fst st)))%nat -> nth_error (g_nodes (fst st')) i = nth_error (g_nodes (fst st)) i) /\
  (exists n, nth_error (g_nodes (fst st')) (length (g_nodes (fst st))) = Some n /\
     n_req n = false /\ n_fun n = None /\ n_parents n = [] /\ n_grad n = None /\ n_edges n = 0) /\
  g_active (fst st') = false /\
  (forall g, exec alpha ev gen s su mm on (S fuel) (EvBack (length (g_nodes (fst st))) g) st' = (Ok tt, st')).
Proof.
  intros K alpha ev gen s su mm on fuel step st st' Hs A H.
  assert (X : exists v, g_nodes (fst st') = g_nodes (fst st) ++ [mkN v false None [] None 0] /\ g_active (fst st') = false).
  { destruct step as [x b|f i|f i [y|p]]; [contradiction| | |]; cbn [exec] in H; unfold cbind at 1 in H;
    unfold call1, call2 in H.
    all: match type of H with context [record ?a ?b ?c ?d] => destruct (record a b c d) as [[k|e] s1] eqn:R; [|discriminate] end.
    all: unfold cret in H; injection H as <-; destruct (record_off _ _ _ _ _ _ A R) as (v & B & C & _); exists v; auto. }
  destruct X as (v & B & C). rewrite B. split; [rewrite app_length; cbn; lia|].
  split; [intros i Hi; apply nth_error_app1; exact Hi|].
  assert (N : nth_error (g_nodes (fst st) ++ [mkN v false None [] None 0]) (length (g_nodes (fst st))) = Some (mkN v false None [] None 0))
    by (rewrite nth_error_app2, Nat.sub_diag by lia; reflexivity).
  split; [eexists; split; [exact N|]; cbn; auto|]. split; [exact C|].
  intros g. cbn [exec]. unfold mbackward. cbn [backward]. unfold cbind, get_node, get_nth. rewrite B, N. reflexivity.
Qed.
Print Assumptions C44_off.

(** the product of a tensor that requires gradients and a public number, made while recording is off *)
Example C44_off_witness :
  exists st', exec t_alpha t_ev toy int_s g_su g_mm g_on 5 (EvStep (PBin FMul 0 two_))
      (mkG [mkN ex_x true None [] None 0] false, w0) = (Ok tt, st') /\
    map (fun n => (n_req n, reconstruct (n_val n))) (g_nodes (fst st')) =
      [(true, Ok (mkT [2%nat] [3; 4])); (false, Ok (mkT [2%nat] [6; 8]))].
Proof.
  match goal with |- exists st', ?e = _ /\ _ => remember e as z eqn:Ez end.
  assert (P : match z with (Ok tt, st') => map (fun n => (n_req n, reconstruct (n_val n))) (g_nodes (fst st')) | _ => [] end =
    [(true, Ok (mkT [2%nat] [3; 4])); (false, Ok (mkT [2%nat] [6; 8]))]) by (rewrite Ez; vm_compute; reflexivity).
  clear Ez. destruct z as [[[]|] st']; [|discriminate]. eauto.
Qed.
