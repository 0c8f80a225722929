(** Back-propagation for arbitrary functions: the gradients flow as in S_Flow.v. *)
From Coq Require Import Permutation Lia QArith.
From Verif Require Import Util Modular S_Autograd S_Flow M_Share M_Engine M_Autograd L_Autograd.
Local Open Scope Z_scope.
Local Open Scope list_scope.

(* -------------------------------------------- computations whose failures become values *)
Section Total.
  Context {W T : Type} (shape_of : T -> list nat) (tadd : T -> T -> comp W T) (ones : list nat -> comp W T) (good : W -> bool).
  (** once a state is not good, no later one is *)
  Definition keeps {A} (m : comp W A) : Prop := forall w a w', m w = (Ok a, w') -> good w' = true -> good w = true.
  Hypothesis Kadd : forall x y, keeps (tadd x y).
  Hypothesis Kones : forall sh, keeps (ones sh).

  Definition total1 {A} (m : comp W A) : comp W (option A) :=
    fun w => match m w with (Ok a, w') => (Ok (if good w' then Some a else None), w') | (Err _, _) => (Ok None, w) end.
  Definition tadd' (x y : option T) : comp W (option T) :=
    match x, y with Some x, Some y => total1 (tadd x y) | _, _ => cret None end.
  Definition ones' (sh : list nat) : comp W (option T) := total1 (ones sh).
  Definition shape' (x : option T) : list nat := match x with Some x => shape_of x | None => [] end.
  Definition fn' (n : nat) (b : T -> comp W (list T)) (x : option T) : comp W (list (option T)) :=
    match x with
    | Some x => fun w => match b x w with
                         | (Ok gs, w') => (Ok ((if good w' then map Some gs else []) ++ repeat None n), w')
                         | (Err _, _) => (Ok (repeat None n), w) end
    | None => cret (repeat None n)
    end.
  Definition emb (n : node W T) : node W (option T) :=
    mkN (Some (n_val n)) (n_req n) (Some (match n_fun n with Some b => fn' (length (n_parents n)) b | None => fun _ => cret (repeat None (length (n_parents n))) end)) (n_parents n) (option_map Some (n_grad n)) (n_edges n).

  Definition fkeeps (n : node W T) : Prop := forall b x, n_fun n = Some b -> keeps (b x).
  Definition fun_ok (nodes : list (node W T)) : Prop := forall i n, nth_error nodes i = Some n -> fkeeps n.

  Lemma total1_ok {A} (m : comp W A) w a w' : m w = (Ok a, w') -> good w' = true -> total1 m w = (Ok (Some a), w').
  Proof. intros E G. unfold total1. rewrite E, G. reflexivity. Qed.

  Lemma cbind_inv {S A B} (m : comp S A) (f : A -> comp S B) st b st' : cbind m f st = (Ok b, st') ->
    exists a st1, m st = (Ok a, st1) /\ f a st1 = (Ok b, st').
  Proof. unfold cbind. destruct (m st) as [[a|e] st1] eqn:E; [|discriminate]. intros H. exists a, st1. auto. Qed.
  Lemma get_node_inv (nodes : list (node W T)) act w i n st' : get_node i (mkG nodes act, w) = (Ok n, st') ->
    nth_error nodes i = Some n /\ st' = (mkG nodes act, w).
  Proof. unfold get_node, get_nth. cbn [fst g_nodes]. destruct (nth_error nodes i); intros H; inversion H; subst; auto. Qed.
  Lemma emb_nth nodes i : nth_error (map emb nodes) i = option_map emb (nth_error nodes i).
  Proof. revert i. induction nodes; intros [|i]; cbn; auto. Qed.
  Lemma emb_set nodes i n : map emb (set_nth i n nodes) = set_nth i (emb n) (map emb nodes).
  Proof. revert i. induction nodes; intros [|i]; cbn; auto. f_equal. auto. Qed.

  Lemma set_fun_ok nodes i n : fun_ok nodes -> fkeeps n -> fun_ok (set_nth i n nodes).
  Proof.
    intros F H j m Hm. rewrite nth_error_set in Hm. destruct (Nat.eqb_spec j i) as [->|]; [|eapply F; eauto].
    destruct (nth_error nodes i); [injection Hm as <-; auto|discriminate].
  Qed.

  Notation back := (backward shape_of tadd ones).
  Notation back' := (backward shape' tadd' ones').

  (** what a computation over the graph keeps *)
  Definition KP {A} (P : A -> Prop) (m : gcomp W T A) : Prop := forall nodes act w a nodes' act' w', fun_ok nodes ->
    m (mkG nodes act, w) = (Ok a, (mkG nodes' act', w')) -> P a /\ fun_ok nodes' /\ (good w' = true -> good w = true).
  Lemma KP_bind {A B} (P : A -> Prop) (Q : B -> Prop) m f : KP P m -> (forall a, P a -> KP Q (f a)) -> KP Q (cbind m f).
  Proof.
    intros H1 H2 nodes act w b nodes' act' w' F E. apply cbind_inv in E. destruct E as (a & [[n1 a1] w1] & E1 & E2).
    destruct (H1 _ _ _ _ _ _ _ F E1) as (Pa & F1 & G1). destruct (H2 a Pa _ _ _ _ _ _ _ F1 E2) as (Qb & F2 & G2). auto.
  Qed.
  Lemma KP_ret {A} (P : A -> Prop) a : P a -> KP P (cret a).
  Proof. intros Pa nodes act w b nodes' act' w' F E. unfold cret in E. inversion E; subst. auto. Qed.
  Lemma KP_err {A} (P : A -> Prop) e : KP P (cerr e).
  Proof. intros nodes act w b nodes' act' w' F E. unfold cerr in E. discriminate. Qed.
  Lemma KP_get i : KP fkeeps (get_node i).
  Proof.
    intros nodes act w b nodes' act' w' F E. apply get_node_inv in E. destruct E as [E S]. inversion S; subst. eauto.
  Qed.
  Lemma KP_act b : KP (fun _ => True) (set_active b).
  Proof. intros nodes act w [] nodes' act' w' F E. unfold set_active in E. cbn [fst g_nodes snd] in E. inversion E; subst. auto. Qed.
  Lemma KP_lift {A} (m : comp W A) : keeps m -> KP (fun _ => True) (liftw m).
  Proof.
    intros K nodes act w a nodes' act' w' F E. unfold liftw in E. cbn [snd fst] in E. destruct (m w) as [r w1] eqn:Em.
    inversion E; subst. split; [auto|]. split; [auto|]. intros G. eapply K; eauto.
  Qed.
  Lemma KP_put i n : fkeeps n -> KP (fun _ => True) (put_node i n).
  Proof.
    intros K nodes act w [] nodes' act' w' F E. unfold put_node in E. cbn [fst g_nodes g_active snd] in E. inversion E; subst.
    split; [auto|]. split; [apply set_fun_ok; auto|auto].
  Qed.
  Lemma KP_set_grad i x : KP (fun _ => True) (set_grad i x).
  Proof. unfold set_grad. eapply KP_bind; [apply KP_get|]. intros n K. apply KP_put. intros b y H. apply K. exact H. Qed.
  Lemma KP_add_edges i d : KP (fun _ => True) (add_edges i d).
  Proof. unfold add_edges. eapply KP_bind; [apply KP_get|]. intros n K. apply KP_put. intros b y H. apply K. exact H. Qed.
  Lemma KP_pure {A} (r : result A) : KP (fun _ => True) (fun st => (r, st)).
  Proof. intros nodes act w a nodes' act' w' F E. inversion E; subst. auto. Qed.

  (* ------------------------------------------------------------------ the simulation *)
  Definition sims {A B} (P : A -> Prop) (h : A -> B) (m : gcomp W T A) (m' : gcomp W (option T) B) : Prop :=
    KP P m /\ forall nodes act w a nodes' act' w', fun_ok nodes -> m (mkG nodes act, w) = (Ok a, (mkG nodes' act', w')) -> good w' = true ->
      m' (mkG (map emb nodes) act, w) = (Ok (h a), (mkG (map emb nodes') act', w')).
  Lemma sims_bind {A B A' B'} (P : A -> Prop) (Q : B -> Prop) (h : A -> A') (k : B -> B') m f m' f' :
    sims P h m m' -> (forall a, P a -> sims Q k (f a) (f' (h a))) -> sims Q k (cbind m f) (cbind m' f').
  Proof.
    intros [K1 H1] H2. split; [eapply KP_bind; [exact K1|]; intros a Pa; apply (H2 a Pa)|].
    intros nodes act w b nodes' act' w' F E G. apply cbind_inv in E. destruct E as (a & [[n1 a1] w1] & E1 & E2).
    destruct (K1 _ _ _ _ _ _ _ F E1) as (Pa & F1 & _). destruct (H2 a Pa) as [K2 S2].
    destruct (K2 _ _ _ _ _ _ _ F1 E2) as (_ & _ & G1). rewrite (cbind_ok _ _ _ _ _ (H1 _ _ _ _ _ _ _ F E1 (G1 G))). eauto.
  Qed.
  Lemma sims_ret {A B} (P : A -> Prop) (h : A -> B) a : P a -> sims P h (cret a) (cret (h a)).
  Proof. intros Pa. split; [apply KP_ret; auto|]. intros nodes act w b nodes' act' w' F E G. unfold cret in *. inversion E; subst. reflexivity. Qed.
  Lemma sims_err {A B} (P : A -> Prop) (h : A -> B) e m' : sims P h (cerr e) m'.
  Proof. split; [apply KP_err|]. intros nodes act w b nodes' act' w' F E G. unfold cerr in *. discriminate. Qed.
  Lemma sims_get i : sims fkeeps emb (get_node i) (get_node i).
  Proof.
    split; [apply KP_get|]. intros nodes act w n nodes' act' w' F E G. apply get_node_inv in E. destruct E as [E S]. inversion S; subst.
    unfold get_node, get_nth. cbn [fst g_nodes]. rewrite emb_nth, E. reflexivity.
  Qed.
  Lemma sims_act b : sims (fun _ => True) (fun u => u) (set_active b) (set_active b).
  Proof. split; [apply KP_act|]. intros nodes act w [] nodes' act' w' F E G. unfold set_active in *. cbn [fst g_nodes snd] in *. inversion E; subst. reflexivity. Qed.
  Lemma sims_lift {A} (m : comp W A) B (h : A -> B) m' : keeps m -> (forall w a w', m w = (Ok a, w') -> good w' = true -> m' w = (Ok (h a), w')) ->
    sims (fun _ => True) h (liftw m) (liftw m').
  Proof.
    intros K H. split; [apply KP_lift; auto|]. intros nodes act w a nodes' act' w' F E G. unfold liftw in *. cbn [snd fst] in *.
    destruct (m w) as [r w1] eqn:Em. inversion E; subst. rewrite (H _ _ _ Em G). reflexivity.
  Qed.
  Lemma sims_put i n : fkeeps n -> sims (fun _ => True) (fun u => u) (put_node i n) (put_node i (emb n)).
  Proof.
    intros K. split; [apply KP_put; auto|]. intros nodes act w [] nodes' act' w' F E G. unfold put_node in *. cbn [fst g_nodes g_active snd] in *.
    inversion E; subst. rewrite emb_set. reflexivity.
  Qed.
  Lemma sims_set_grad i x : sims (fun _ => True) (fun u => u) (set_grad i x) (set_grad i (Some x)).
  Proof.
    unfold set_grad. eapply sims_bind; [apply sims_get|]. intros n K.
    apply (sims_put i (mkN (n_val n) (n_req n) (n_fun n) (n_parents n) (Some x) (n_edges n))). intros b y H. apply K. exact H.
  Qed.
  Lemma sims_add_edges i d : sims (fun _ => True) (fun u => u) (add_edges i d) (add_edges i d).
  Proof.
    unfold add_edges. eapply sims_bind; [apply sims_get|]. intros n K.
    apply (sims_put i (mkN (n_val n) (n_req n) (n_fun n) (n_parents n) (n_grad n) (n_edges n + d))). intros b y H. apply K. exact H.
  Qed.
  Lemma sims_each {A} (l : list A) f f' : (forall a, sims (fun _ => True) (fun u => u) (f a) (f' a)) ->
    sims (fun _ => True) (fun u : unit => u) (for_each l f) (for_each l f').
  Proof. intros H. induction l as [|a l IH]; cbn [for_each]; [apply sims_ret; auto|]. eapply sims_bind; [apply H|]. auto. Qed.

  Lemma sims_back fuel : forall i g, sims (fun _ => True) (fun u => u) (back fuel i g) (back' fuel i (option_map Some g)).
  Proof.
    induction fuel as [|fuel IH]; intros i g; cbn [backward]; [apply sims_err|].
    eapply sims_bind; [apply sims_get|]. intros n Kn. cbn [emb n_req n_val n_grad n_parents n_fun n_edges shape'].
    destruct (negb (n_req n)); [apply (sims_ret _ (fun u => u)); auto|].
    eapply sims_bind; [apply sims_act|]. intros _ _.
    eapply sims_bind with (P := fun _ => True) (h := @Some T).
    { destruct g as [g|]; cbn [option_map]; [apply sims_ret; auto|]. destruct (Nat.ltb 1 (length (shape_of (n_val n)))); [apply sims_err|].
      apply sims_lift; [apply Kones|]. intros; apply total1_ok; auto. }
    intros g1 _. eapply sims_bind with (P := fun _ => True) (h := @Some T).
    { destruct (n_grad n); cbn [option_map]; [|apply sims_ret; auto]. apply sims_lift; [apply Kadd|]. intros; apply total1_ok; auto. }
    intros g2 _. eapply sims_bind; [apply sims_set_grad|]. intros _ _. destruct (n_parents n) as [|p ps] eqn:Ep; [apply (sims_ret _ (fun u => u)); auto|].
    eapply sims_bind; [apply sims_add_edges|]. intros _ _. destruct (0 <? n_edges n - 1); [apply (sims_ret _ (fun u => u)); auto|].
    destruct (n_fun n) as [f|] eqn:Ef; [|apply sims_err].
    eapply sims_bind with (h := fun gs => map Some gs ++ repeat None (length (p :: ps))).
    { apply sims_lift; [apply Kn; auto|]. intros w a w' E G. unfold fn'. rewrite E, G. reflexivity. }
    intros gs _. eapply sims_bind; [|intros _ _; apply sims_act]. apply sims_each. intros a. eapply sims_bind with (h := @Some T); [|intros x _; apply IH].
    split; [apply KP_pure|]. intros nodes act w x nodes' act' w' F E G. unfold get_nth in *. destruct (nth_error gs (fst a)) as [y|] eqn:Ey; [|discriminate].
    inversion E; subst. rewrite nth_error_app1, nth_error_map, Ey by (rewrite map_length; apply nth_error_Some; congruence). reflexivity.
  Qed.
End Total.

(* ------------------------------------------------------------ backward changes no functions *)
Section Static.
  Context {W T : Type} (shape_of : T -> list nat) (tadd : T -> T -> comp W T) (ones : list nat -> comp W T).
  Definition PF {A} (m : gcomp W T A) : Prop := forall st, map n_fun (g_nodes (fst (snd (m st)))) = map n_fun (g_nodes (fst st)).
  Lemma PF_bind {A B} (m : gcomp W T A) (f : A -> gcomp W T B) : PF m -> (forall a, PF (f a)) -> PF (cbind m f).
  Proof. intros H1 H2 st. unfold cbind. specialize (H1 st). destruct (m st) as [[a|e] st1]; cbn [snd] in *; [rewrite H2; auto|auto]. Qed.
  Lemma PF_same {A} (m : gcomp W T A) : (forall st, g_nodes (fst (snd (m st))) = g_nodes (fst st)) -> PF m.
  Proof. intros H st. rewrite H. reflexivity. Qed.
  Lemma map_fun_set (nodes : list (node W T)) i n m : nth_error nodes i = Some n -> n_fun m = n_fun n -> map n_fun (set_nth i m nodes) = map n_fun nodes.
  Proof.
    revert i. induction nodes as [|a l IH]; intros [|i] H E; cbn in *; try discriminate.
    - injection H as ->. congruence.
    - f_equal. eauto.
  Qed.
  Lemma PF_change i (h : node W T -> node W T) : (forall n, n_fun (h n) = n_fun n) -> PF (let! n := get_node i in put_node i (h n)).
  Proof.
    intros H [[nodes act] w]. unfold cbind, get_node, get_nth, put_node. cbn [fst g_nodes].
    destruct (nth_error nodes i) eqn:E; cbn [fst snd g_nodes g_active]; [|reflexivity]. eapply map_fun_set; eauto.
  Qed.
  Lemma PF_each {A} (l : list A) f : (forall a, PF (f a)) -> PF (for_each l f).
  Proof. intros H. induction l; cbn [for_each]; [apply PF_same; reflexivity|]. apply PF_bind; auto. Qed.
  Lemma PF_lift {A} (m : comp W A) : PF (liftw m).
  Proof. apply PF_same. intros st. unfold liftw. destruct (m (snd st)). reflexivity. Qed.
  Lemma PF_back fuel : forall i g, PF (backward shape_of tadd ones fuel i g).
  Proof.
    induction fuel as [|fuel IH]; intros i g; cbn [backward]; [apply PF_same; reflexivity|].
    apply PF_bind; [apply PF_same; reflexivity|]. intros n. destruct (negb (n_req n)); [apply PF_same; reflexivity|].
    apply PF_bind; [apply PF_same; reflexivity|]. intros _.
    apply PF_bind; [destruct g; [apply PF_same; reflexivity|]; destruct (Nat.ltb _ _); [apply PF_same; reflexivity|apply PF_lift]|]. intros g1.
    apply PF_bind; [destruct (n_grad n); [apply PF_lift|apply PF_same; reflexivity]|]. intros g2.
    apply PF_bind; [apply PF_change; reflexivity|]. intros _. destruct (n_parents n) as [|p ps]; [apply PF_same; reflexivity|].
    apply PF_bind; [apply PF_change; reflexivity|]. intros _. destruct (0 <? n_edges n - 1); [apply PF_same; reflexivity|].
    destruct (n_fun n) as [f|]; [|apply PF_same; reflexivity]. apply PF_bind; [apply PF_lift|]. intros gs.
    apply PF_bind; [|intros _; apply PF_same; reflexivity]. apply PF_each. intros a. apply PF_bind; [apply PF_same; reflexivity|]. auto.
  Qed.
  Lemma same_fun fuel i g nodes act w st' r : backward shape_of tadd ones fuel i g (mkG nodes act, w) = (r, st') ->
    forall j m m0, nth_error (g_nodes (fst st')) j = Some m -> nth_error nodes j = Some m0 -> n_fun m = n_fun m0.
  Proof.
    intros E j m m0 Hm Hm0. pose proof (PF_back fuel i g (mkG nodes act, w)) as P. rewrite E in P. cbn [fst snd g_nodes] in P.
    pose proof (f_equal (fun l => nth_error l j) P) as Q. cbn beta in Q. rewrite !nth_error_map, Hm, Hm0 in Q. cbn in Q. congruence.
  Qed.
End Static.

(* -------------------------------------------------------------- gradients as lists of uses *)
Section Uses.
  Context {T : Type}.
  Lemma below_ext (p q : nat -> list nat) a b : (forall i, p i = q i) -> below p a b -> below q a b.
  Proof.
    intros H [l P]. exists l. induction P; [constructor|]. econstructor; [rewrite <- H; eauto|auto].
  Qed.
  Lemma all_uses_ext p q root (old : nat -> option T) i L : (forall i, p i = q i) -> all_uses p root old i L -> all_uses q root old i L.
  Proof.
    intros H (N & A & B). split; [auto|]. split; [|auto]. intros c k. rewrite A, <- H. assert (H' : forall j, q j = p j) by (intros; auto).
    split; intros [X Y]; (split; [|exact Y]); [exact (below_ext p q _ _ H X)|exact (below_ext q p _ _ H' X)].
  Qed.
  Lemma flows_ext p q root seed (old : nat -> option T) apply add i L x : (forall i, p i = q i) ->
    flows p root seed old apply add i L x -> flows q root seed old apply add i L x.
  Proof.
    intros H F. induction F.
    - apply fl_old; auto.
    - eapply fl_root; eauto. rewrite <- H. auto.
    - eapply fl_use; eauto; [eapply all_uses_ext; eauto|rewrite <- H; auto].
    - eapply fl_add; eauto.
  Qed.

  Definition use_dec : forall a b : option (nat * nat), {a = b} + {a <> b}.
  Proof. decide equality. decide equality; apply Nat.eq_dec. Defined.
  Fixpoint pos (e : nat * nat) (l : list (nat * nat)) : nat :=
    match l with [] => 0%nat | a :: r => if use_dec (Some a) (Some e) then 0%nat else S (pos e r) end.
  Lemma pos_lt e l : In e l -> (pos e l < length l)%nat.
  Proof.
    induction l as [|a l IH]; [intros []|]. intros H. cbn [pos length]. destruct (use_dec (Some a) (Some e)); [lia|].
    destruct H as [->|H]; [congruence|]. specialize (IH H). lia.
  Qed.
  Lemma pos_inj e e' l : In e l -> In e' l -> pos e l = pos e' l -> e = e'.
  Proof.
    induction l as [|a l IH]; [intros []|]. intros H H' E. cbn [pos] in E.
    destruct (use_dec (Some a) (Some e)) as [A|A], (use_dec (Some a) (Some e')) as [B|B]; try congruence.
    destruct H as [->|H]; [congruence|]. destruct H' as [->|H']; [congruence|]. apply IH; auto.
  Qed.

  Variable E : list (nat * nat).
  Definition code (u : option (nat * nat)) : nat := match u with None => 0%nat | Some e => S (pos e E) end.
  Definition valid (u : option (nat * nat)) : Prop := match u with None => True | Some e => In e E end.
  Definition unitv (n : nat) : vec := fun e => if Nat.eqb e n then 1 else 0.
  Definition cv (L : list (option (nat * nat))) : vec := fun e => zsum (map (fun u => unitv (code u) e) L).
  Lemma code_lt u : valid u -> (code u < S (length E))%nat.
  Proof. destruct u as [e|]; cbn; [|lia]. intros H. pose proof (pos_lt _ _ H). lia. Qed.
  Lemma code_inj u v : valid u -> valid v -> code u = code v -> u = v.
  Proof. destruct u as [e|], v as [e'|]; cbn; intros A B H; try lia; auto. f_equal. eapply pos_inj; eauto; lia. Qed.
  Lemma cv_app L L' e : cv (L ++ L') e = cv L e + cv L' e.
  Proof. unfold cv. rewrite map_app, zsum_app. reflexivity. Qed.
  Lemma cv_count L u : Forall valid L -> valid u -> cv L (code u) = Z.of_nat (count_occ use_dec L u).
  Proof.
    intros F V. induction F as [|v L Hv F IH]; [reflexivity|]. unfold cv in *. cbn [map zsum]. rewrite IH. unfold unitv at 1. cbn [count_occ].
    destruct (use_dec v u) as [->|NE]; [rewrite Nat.eqb_refl; lia|].
    destruct (Nat.eqb_spec (code u) (code v)) as [X|]; [exfalso; apply NE; symmetry; apply code_inj; auto|lia].
  Qed.
  Lemma cv_perm L L' : Forall valid L -> Forall valid L' -> eqv 0 (S (length E)) (cv L) (cv L') -> Permutation L L'.
  Proof.
    intros F F' H. apply (Permutation_count_occ use_dec). intros u.
    assert (D : (forall l, Forall valid l -> ~ valid u -> count_occ use_dec l u = 0%nat)).
    { intros l Fl NV. apply count_occ_not_In. intros I. apply NV. exact (proj1 (Forall_forall _ _) Fl _ I). }
    assert (VD : valid u \/ ~ valid u).
    { destruct u as [e|]; cbn; [|auto]. destruct (in_dec (fun a b => match use_dec (Some a) (Some b) with left H => left (f_equal (fun o => match o with Some z => z | None => a end) H) | right H => right (fun K => H (f_equal Some K)) end) e E); auto. }
    destruct VD as [V|V]; [|rewrite !D; auto]. apply Nat2Z.inj. rewrite <- !cv_count by auto.
    destruct (H (code u) (code_lt u V)) as [k K]. lia.
  Qed.
End Uses.

(* ------------------------------------------------------------------- the whole call *)
Section Flow.
  Context {W T : Type} (shape_of : T -> list nat) (tadd : T -> T -> comp W T) (ones : list nat -> comp W T)
          (good : W -> bool) (inv : W -> Prop) (nodes0 : list (node W T)) (root : nat) (gradient : option T) (n0 : node W T).
  Notation par := (L_Autograd.par nodes0).
  Notation req := (L_Autograd.req nodes0).
  Notation reach := (below par root).
  Definition step_inv {A} (m : comp W A) : Prop := forall w a w', inv w -> m w = (Ok a, w') -> inv w'.

  Definition old (i : nat) : option T := match nth_error nodes0 i with Some n => n_grad n | None => None end.
  Definition may {A} (m : comp W A) (a : A) : Prop := exists w w', inv w /\ m w = (Ok a, w') /\ good w' = true.
  Definition seedp (x : T) : Prop := match gradient with Some g => x = g | None => may (ones (shape_of (n_val n0))) x end.
  Definition applyp (c : nat) (x : T) (gs : list T) : Prop :=
    exists n b, nth_error nodes0 c = Some n /\ n_fun n = Some b /\ may (b x) gs.
  Definition addp (x y z : T) : Prop := may (tadd x y) z.

  Hypothesis Kadd : forall x y, keeps good (tadd x y).
  Hypothesis Kones : forall sh, keeps good (ones sh).
  Hypothesis Kfun : fun_ok good nodes0.
  Hypothesis Iadd : forall x y, step_inv (tadd x y).
  Hypothesis Iones : forall sh, step_inv (ones sh).
  Hypothesis Ifun : forall i n b x, nth_error nodes0 i = Some n -> n_fun n = Some b -> step_inv (b x).
  Hypothesis Hdag : forall i j, In j (par i) -> (j < i)%nat.
  Hypothesis Hreq : forall i j, In j (par i) -> req j = true -> req i = true.
  Hypothesis Hcnt : forall i n, nth_error nodes0 i = Some n -> n_req n = true -> n_parents n <> [] -> reach i -> i <> root ->
    exists L, NoDup L /\ (forall c k, In (c, k) L <-> reach c /\ nth_error (par c) k = Some i) /\ n_edges n = Z.of_nat (length L).
  Hypothesis Hold : forall i n x, nth_error nodes0 i = Some n -> n_req n = true -> reach i -> n_grad n = Some x -> n_parents n = [].
  Hypothesis Hn0 : nth_error nodes0 root = Some n0.
  Hypothesis Hreq0 : n_req n0 = true.
  Hypothesis Hpar0 : n_parents n0 <> [].
  Hypothesis Hedge0 : n_edges n0 <= 1.

  Let nodes1 := map (emb good) nodes0.
  Notation par1 := (L_Autograd.par nodes1).
  Let E := edges par1 root.
  Lemma par1_eq i : par1 i = par i.
  Proof. unfold L_Autograd.par, nodes1. rewrite emb_nth. destruct (nth_error nodes0 i); reflexivity. Qed.
  Lemma req1_eq i : L_Autograd.req nodes1 i = req i.
  Proof. unfold L_Autograd.req, nodes1. rewrite emb_nth. destruct (nth_error nodes0 i); reflexivity. Qed.
  Lemma dag1 i j : In j (par1 i) -> (j < i)%nat.
  Proof. rewrite par1_eq. apply Hdag. Qed.
  Lemma reach1 i : below par1 root i <-> reach i.
  Proof. split; apply below_ext; intros; rewrite par1_eq; auto. Qed.
  Notation flows0 := (flows par root seedp old applyp addp).

  Definition init0 (i : nat) : list (option (nat * nat)) := match old i with Some _ => [None] | None => [] end.
  Definition ins (i : nat) : list (option (nat * nat)) := map Some (into par1 E i).
  Definition Rep0 (i : nat) (f : vec) (x : option T) : Prop :=
    match x with
    | None => True
    | Some x => if Nat.eqb i root then seedp x
                else exists L, flows0 i L x /\ Forall (valid E) L /\ eqv 0 (S (length E)) f (cv E L)
    end.
  Definition G0 (i : nat) : vec := if Nat.eqb i root then fun _ => 0 else cv E (ins i).

  Lemma ins_valid i : Forall (valid E) (ins i).
  Proof.
    apply Forall_forall. intros u H. apply in_map_iff in H. destruct H as ((c, k) & <- & H). cbn. unfold into in H. apply filter_In in H. tauto.
  Qed.
  Lemma in_ins i c k : In (Some (c, k)) (ins i) <-> reach c /\ nth_error (par c) k = Some i.
  Proof.
    unfold ins. rewrite in_map_iff. rewrite <- par1_eq, <- reach1. split.
    - intros (e & EQ & H). injection EQ as ->. apply in_into_edges in H; [exact H|apply dag1].
    - intros H. exists (c, k). split; auto. apply in_into_edges; [apply dag1|exact H].
  Qed.
  Lemma ins_NoDup i : NoDup (ins i).
  Proof. apply NoDup_map_inj; [congruence|]. apply NoDup_filter, edges_NoDup. Qed.
  Lemma uses_of i L : Forall (valid E) L -> eqv 0 (S (length E)) (fun e => cv E (init0 i) e + cv E (ins i) e) (cv E L) -> all_uses par root old i L.
  Proof.
    intros F H. assert (P : Permutation (init0 i ++ ins i) L).
    { apply (cv_perm E); auto.
      - apply Forall_app. split; [|apply ins_valid]. unfold init0. destruct (old i); repeat constructor.
      - intros e He. rewrite cv_app. apply H. auto. }
    split; [|split].
    - eapply Permutation_NoDup; [exact P|]. apply NoDup_app_intro; [unfold init0; destruct (old i); repeat constructor; auto|apply ins_NoDup|].
      intros u Hu Hu'. unfold init0 in Hu. destruct (old i); [|contradiction]. destruct Hu as [<-|[]]. apply in_map_iff in Hu'. destruct Hu' as (? & ? & _). discriminate.
    - intros c k. rewrite <- in_ins. split; intros I.
      + apply (Permutation_in _ (Permutation_sym P)), in_app_iff in I. destruct I as [I|I]; auto. unfold init0 in I. destruct (old i); [destruct I as [I|[]]; discriminate|contradiction].
      + apply (Permutation_in _ P), in_app_iff. auto.
    - split; intros I.
      + apply (Permutation_in _ (Permutation_sym P)), in_app_iff in I. destruct I as [I|I].
        * unfold init0 in I. destruct (old i); [discriminate|contradiction].
        * apply in_map_iff in I. destruct I as (? & ? & _). discriminate.
      + apply (Permutation_in _ P), in_app_iff. left. unfold init0. destruct (old i); [left; auto|congruence].
  Qed.

  Lemma flow_embedded fuel act w : (root < fuel)%nat -> inv w ->
    (match gradient with None => (length (shape_of (n_val n0)) <= 1)%nat | Some _ => True end) ->
    exists nodes' w', backward (shape' shape_of) (tadd' tadd good) (ones' ones good) fuel root (option_map Some gradient) (mkG nodes1 act, w)
        = (Ok tt, (mkG nodes' true, w')) /\
      length nodes' = length nodes1 /\
      (forall i m m0, nth_error nodes' i = Some m -> nth_error nodes1 i = Some m0 -> same m m0) /\
      (forall i, ~ (reach i /\ req i = true) -> nth_error nodes' i = nth_error nodes1 i) /\
      (forall i m, nth_error nodes' i = Some m -> reach i -> req i = true ->
         exists x, n_grad m = Some x /\ Rep0 i (fun e => cv E (init0 i) e + G0 i e) x).
  Proof.
    intros Hf Hw Hg.
    assert (N1 : nth_error nodes1 root = Some (emb good n0)) by (unfold nodes1; rewrite emb_nth, Hn0; reflexivity).
    assert (NG : forall i n, nth_error nodes1 i = Some n -> exists m, nth_error nodes0 i = Some m /\ n = emb good m).
    { intros i n H. unfold nodes1 in H. rewrite emb_nth in H. destruct (nth_error nodes0 i) as [m|]; [|discriminate]. exists m. inversion H. auto. }
    destruct (backward_gen (shape' shape_of) (tadd' tadd good) (ones' ones good) inv 0 (fun _ => S (length E)) Rep0) with
      (nodes0 := nodes1) (root := root) (J := fun c k (_ : vec) => unitv (code E (Some (c, k)))) (init := fun i => cv E (init0 i)) (g0 := fun _ : nat => 0) (G := G0)
      (fuel := fuel) (gradient := option_map Some gradient) (n := emb good n0) (w := w) (act := act)
      as (nodes' & w' & EQ & _ & LN & SM & FR & GR); auto.
    - intros i f g [x|] HR HE; cbn [Rep0] in *; [|auto]. destruct (Nat.eqb i root); auto.
      destruct HR as (L & A & B & C). exists L. split; [auto|]. split; [auto|]. intros e He. rewrite <- (HE e He). apply C. auto.
    - intros i f g x y NR Hx Hy w1 Hw1. unfold tadd'. destruct x as [x|]; [|exists None, w1; cbn; auto]. destruct y as [y|]; [|exists None, w1; cbn; auto].
      unfold total1. destruct (tadd x y w1) as [[z|e] w2] eqn:EZ; [|exists None, w1; cbn; auto].
      exists (if good w2 then Some z else None), w2. split; [auto|]. split; [eapply Iadd; eauto|]. destruct (good w2) eqn:GZ; [|exact I].
      cbn [Rep0] in *. destruct (Nat.eqb_spec i root); [congruence|]. destruct Hx as (L & A & B & C), Hy as (L' & A' & B' & C').
      exists (L ++ L'). split; [eapply fl_add; eauto; exists w1, w2; auto|]. split; [apply Forall_app; auto|].
      intros e He. rewrite cv_app. rewrite (C e He), (C' e He). reflexivity.
    - apply dag1.
    - intros i j Hj. rewrite par1_eq in Hj. rewrite !req1_eq. apply Hreq. auto.
    - intros i k j _ f g _ e _. reflexivity.
    - intros i NR e He. unfold G0. destruct (Nat.eqb_spec i root); [congruence|]. unfold cv, ins. rewrite map_map. apply eqmod_eq. f_equal.
      apply map_ext. intros [c k]. reflexivity.
    - intros e _. unfold G0. rewrite Nat.eqb_refl. reflexivity.
    - intros i n Hn RQ PN RI. destruct (NG _ _ Hn) as (m & Hm & ->). apply reach1 in RI. cbn [emb n_fun n_req n_parents] in *.
      eexists. split; [reflexivity|]. intros f x HF HR w1 Hw1.
      assert (PI : par i = n_parents m) by (unfold L_Autograd.par; rewrite Hm; auto).
      assert (NB : forall k j, nth_error (n_parents m) k = Some j -> exists g, nth_error (repeat (@None T) (length (n_parents m))) k = Some g /\ Rep0 j (unitv (code E (Some (i, k)))) g).
      { intros k j Hk. exists None. split; [|exact I]. apply nth_error_repeat. apply nth_error_Some. congruence. }
      destruct (n_fun m) as [b|] eqn:Eb; [|eexists _, w1; split; [reflexivity|split; auto]].
      unfold fn'. destruct x as [x|]; [|eexists _, w1; split; [reflexivity|split; auto]].
      destruct (b x w1) as [[gs|e] w2] eqn:EB; [|eexists _, w1; split; [reflexivity|split; auto]].
      eexists _, w2. split; [reflexivity|]. split; [eapply Ifun; eauto|]. intros k j Hk.
      destruct (good w2) eqn:GW; cbn [app]; [|apply NB; auto].
      destruct (nth_error gs k) as [y|] eqn:Ey.
      + exists (Some y). rewrite nth_error_app1, nth_error_map, Ey by (rewrite map_length; apply nth_error_Some; congruence). split; [reflexivity|].
        assert (JI : (j < i)%nat) by (apply Hdag; rewrite PI; eapply nth_error_In; eauto).
        assert (IR : (i <= root)%nat) by (destruct RI as [q P]; eapply path_le; eauto).
        assert (AP : applyp i x gs) by (exists m, b; repeat split; auto; exists w1, w2; auto).
        cbn [Rep0]. destruct (Nat.eqb_spec j root); [lia|]. exists [Some (i, k)]. split; [|split].
        * cbn [Rep0] in HR. destruct (Nat.eqb_spec i root) as [->|NR].
          { eapply fl_root; eauto. rewrite PI. auto. }
          destruct HR as (L & A & B & C). eapply (fl_use _ _ _ _ _ _ i k j L); eauto; [|rewrite PI; auto].
          apply uses_of; auto. intros e He. rewrite <- (C e He), (HF e He). unfold G0. destruct (Nat.eqb_spec i root); [congruence|].
          assert (O : init0 i = []); [|rewrite O; reflexivity]. unfold init0, old. rewrite Hm.
          destruct (n_grad m) eqn:OG; auto. exfalso. apply PN. eapply Hold; eauto.
        * constructor; [|constructor]. cbn. apply in_edges; [apply dag1|]. split; [apply reach1; auto|]. rewrite par1_eq, PI. apply nth_error_Some. congruence.
        * intros e He. unfold cv. cbn [map zsum]. apply eqmod_eq. lia.
      + exists None. split; [|exact I]. apply nth_error_None in Ey. rewrite nth_error_app2 by (rewrite map_length; lia). rewrite map_length.
        apply nth_error_repeat. assert (k < length (n_parents m))%nat by (apply nth_error_Some; congruence). lia.
    - intros i n Hn RQ PN RI NR. destruct (NG _ _ Hn) as (m & Hm & ->). apply reach1 in RI. cbn [emb n_edges n_req n_parents] in *.
      destruct (Hcnt i m Hm RQ PN RI NR) as (L & A & B & C). rewrite C. f_equal. apply Permutation_length. apply NoDup_Permutation; auto.
      + apply NoDup_filter, edges_NoDup.
      + intros [c k]. rewrite B, in_into_edges by apply dag1. rewrite par1_eq, reach1. reflexivity.
    - intros i n Hn RQ RI. destruct (NG _ _ Hn) as (m & Hm & ->). apply reach1 in RI. cbn [emb n_grad n_req n_parents] in *.
      destruct (n_grad m) as [x|] eqn:OG; cbn [option_map].
      + split; [eapply Hold; eauto|]. cbn [Rep0]. destruct (Nat.eqb_spec i root) as [->|NR].
        * exfalso. rewrite Hn0 in Hm. injection Hm as <-. apply Hpar0. eapply Hold; eauto.
        * exists [None]. assert (OI : old i = Some x) by (unfold old; rewrite Hm; auto). split; [apply fl_old; auto|].
          split; [repeat constructor|]. intros e _. unfold init0. rewrite OI. reflexivity.
      + intros e _. unfold init0, old. rewrite Hm, OG. reflexivity.
    - destruct gradient as [g|] eqn:EG; cbn [option_map].
      + cbn [Rep0]. rewrite Nat.eqb_refl. unfold seedp. rewrite EG. reflexivity.
      + split; [exact Hg|]. intros w1 Hw1. cbn [emb n_val shape']. unfold ones', total1.
        destruct (ones (shape_of (n_val n0)) w1) as [[z|e] w2] eqn:EZ; [|exists None, w1; cbn; auto].
        exists (if good w2 then Some z else None), w2. split; [auto|]. split; [eapply Iones; eauto|]. destruct (good w2) eqn:GZ; [|exact I].
        cbn [Rep0]. rewrite Nat.eqb_refl. unfold seedp. rewrite EG. exists w1, w2. auto.
    - exists nodes', w'. split; [exact EQ|]. split; [auto|]. split; [auto|]. split.
      + intros i H. apply FR. rewrite reach1, req1_eq. auto.
      + intros i m Hm RI RQ. apply (GR i m Hm); [apply reach1; auto|rewrite req1_eq; auto].
  Qed.

  Theorem flow fuel act w nodes' act' w' : (root < fuel)%nat -> inv w ->
    backward shape_of tadd ones fuel root gradient (mkG nodes0 act, w) = (Ok tt, (mkG nodes' act', w')) -> good w' = true ->
    act' = true /\ length nodes' = length nodes0 /\
    (forall i m m0, nth_error nodes' i = Some m -> nth_error nodes0 i = Some m0 -> same m m0) /\
    (forall i, ~ (reach i /\ req i = true) -> nth_error nodes' i = nth_error nodes0 i) /\
    (forall i m, nth_error nodes' i = Some m -> reach i -> req i = true ->
       exists x, n_grad m = Some x /\ (i = root -> seedp x) /\ (i <> root -> exists L, flows0 i L x /\ all_uses par root old i L)).
  Proof.
    intros Hf Hw EB HGD.
    assert (Hg : match gradient with None => (length (shape_of (n_val n0)) <= 1)%nat | Some _ => True end).
    { destruct gradient; [exact I|]. destruct (Nat.leb_spec (length (shape_of (n_val n0))) 1); auto. exfalso.
      destruct fuel as [|fuel]; [lia|]. cbn [backward] in EB. rewrite (cbind_ok _ _ _ _ _ (get_node_ok _ _ _ _ _ Hn0)) in EB.
      rewrite Hreq0 in EB. cbn [negb] in EB. rewrite (cbind_ok (set_active false) _ (mkG nodes0 act, w) tt (mkG nodes0 false, w) eq_refl) in EB.
      rewrite (proj2 (Nat.ltb_lt 1 _) H) in EB. discriminate EB. }
    destruct (flow_embedded fuel act w Hf Hw Hg) as (nodes2 & w2 & E2 & LN & SM & FR & GR).
    destruct (sims_back shape_of tadd ones good Kadd Kones fuel root gradient) as [_ S].
    pose proof (S _ _ _ _ _ _ _ Kfun EB HGD) as S1. change (map (emb good) nodes0) with nodes1 in S1. rewrite S1 in E2.
    assert (Q2 : nodes2 = map (emb good) nodes' /\ act' = true) by (split; congruence). destruct Q2 as [-> ->]. clear E2 S1.
    split; [reflexivity|]. split; [unfold nodes1 in LN; rewrite !map_length in LN; auto|]. split; [|split].
    - intros i m m0 Hm Hm0. destruct (SM i (emb good m) (emb good m0)) as (VV & A & _ & B); [rewrite emb_nth, Hm; auto|unfold nodes1; rewrite emb_nth, Hm0; auto|].
      cbn [emb n_val n_req n_parents] in *. split; [congruence|]. split; [auto|]. split; [|auto].
      exact (same_fun shape_of tadd ones fuel root gradient _ _ _ _ _ EB i m m0 Hm Hm0).
    - intros i H. pose proof (FR i H) as FI. unfold nodes1 in FI. rewrite !emb_nth in FI.
      pose proof (same_fun shape_of tadd ones fuel root gradient _ _ _ _ _ EB i) as SF. cbn [fst g_nodes] in SF.
      destruct (nth_error nodes' i) as [[v1 r1 f1 p1 d1 e1]|], (nth_error nodes0 i) as [[v2 r2 f2 p2 d2 e2]|]; cbn in FI; try discriminate; [|reflexivity].
      specialize (SF _ _ eq_refl eq_refl). cbn in SF. subst. injection FI as -> -> _ -> HD ->. f_equal. f_equal. destruct d1, d2; cbn in HD; congruence.
    - intros i m Hm RI RQ. destruct (GR i (emb good m)) as (x & Hx & HR); auto; [rewrite emb_nth, Hm; auto|].
      cbn [emb n_grad] in Hx. destruct (n_grad m) as [y|]; [|discriminate]. cbn in Hx. injection Hx as <-. exists y. split; [reflexivity|].
      cbn [Rep0] in HR. destruct (Nat.eqb_spec i root); split; try congruence.
      + intros _. destruct HR as (L & A & B & C). exists L. split; [auto|]. apply uses_of; auto. intros e He. rewrite <- (C e He).
        unfold G0. destruct (Nat.eqb_spec i root); [congruence|reflexivity].
  Qed.
End Flow.
