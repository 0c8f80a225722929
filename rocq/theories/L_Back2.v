(** Histories of recorded calls and calls of backward. *)
From Coq Require Import QArith String Setoid Morphisms Permutation.
From Verif Require Import Util Modular S_Ring S_Tensor S_Wraps S_Div S_Bil S_Spdz S_View S_Circuit S_Fss S_Grad S_Sort S_Autograd
  M_Torch M_Encoder M_Tensor M_Share M_Spdz M_Store M_Fss M_Engine M_Approx M_Grad M_Static M_Autograd S_Back
  L_Torch L_Tensor L_Encoder L_Share L_Div L_Bil L_Mul L_Circuit L_View L_Fss2 L_Fss3 L_Engine L_Algo L_Grad L_Argmax P_Sort P_Grad L_Autograd L_Back.
Local Open Scope Z_scope.
Local Open Scope list_scope.

(* ------------------------------------------------------------------------- programs *)
Lemma look_app env t y : known env y -> look (env ++ [t]) y = look env y.
Proof. destruct y as [j|p]; cbn [known look]; intros H; [|reflexivity]. apply app_nth1. auto. Qed.
Lemma look_lt env t j : (j < length env)%nat -> look (env ++ [t]) (inl j) = look env (inl j).
Proof. intros. apply look_app. auto. Qed.
Lemma look_new env t : look (env ++ [t]) (inl (length env)) = t.
Proof. cbn [look]. rewrite app_nth2, Nat.sub_diag by auto. reflexivity. Qed.

Lemma yields_known s env st so v : yields s env st so v -> forall j, In j (operands st) -> (j < length env)%nat.
Proof.
  intros H j Hj. inversion H; subst; cbn [operands] in Hj; try (destruct Hj as [<-|[]]; assumption); try contradiction;
    (destruct y as [j'|p]; [destruct Hj as [<-|[<-|[]]]|destruct Hj as [<-|[]]]; assumption).
Qed.

Lemma jac_app env t so st k p e : (forall j, In j (operands st) -> (j < length env)%nat) ->
  jac (env ++ [t]) so st k p e = jac env so st k p e.
Proof.
  intros H. destruct st as [x b|f i|f i y]; cbn [jac]; auto.
  - rewrite look_lt by (apply H; left; auto). reflexivity.
  - assert (Hi : (i < length env)%nat) by (apply H; destruct y; left; auto). rewrite (look_lt env t i Hi).
    assert (Hy : look (env ++ [t]) y = look env y) by (destruct y as [j|q]; [apply look_lt, H; right; left; auto|reflexivity]).
    rewrite Hy. reflexivity.
Qed.

Lemma pars_lt prog st i : (i < length prog)%nat -> pars (prog ++ [st]) i = pars prog i.
Proof. intros H. unfold pars. rewrite nth_error_app1 by auto. reflexivity. Qed.
Lemma pars_new prog st : pars (prog ++ [st]) (length prog) = operands st.
Proof. unfold pars. rewrite nth_error_app2, Nat.sub_diag by auto. reflexivity. Qed.
Lemma pars_ge prog i : (length prog <= i)%nat -> pars prog i = [].
Proof. intros H. unfold pars. rewrite (proj2 (nth_error_None prog i)) by auto. reflexivity. Qed.

Lemma path_ext p1 p2 a b q : (forall i, p1 i = p2 i) -> path p1 a b q -> path p2 a b q.
Proof. intros E. induction 1; econstructor; eauto. rewrite <- E. auto. Qed.
Lemma below_ext p1 p2 a b : (forall i, p1 i = p2 i) -> below p1 a b <-> below p2 a b.
Proof. intros E. split; intros [q P]; exists q; (eapply path_ext; [|exact P]); auto. Qed.
Lemma all_paths_ext p1 p2 a b L : (forall i, p1 i = p2 i) -> all_paths p1 a b L -> all_paths p2 a b L.
Proof. intros E [N H]. split; auto. intros q. rewrite H. split; apply path_ext; auto. Qed.

Lemma needs_app prog st i : (forall a b, In b (pars prog a) -> (b < a)%nat) -> (i < length prog)%nat -> needs (prog ++ [st]) i <-> needs prog i.
Proof.
  intros HD Hi. split; intros H; revert Hi.
  - induction H as [i x H|i j H1 H2 IH]; intros Hi.
    + rewrite nth_error_app1 in H by auto. eapply need_leaf; eauto.
    + rewrite pars_lt in H1 by auto. pose proof (HD _ _ H1). eapply need_op; eauto. apply IH. lia.
  - induction H as [i x H|i j H1 H2 IH]; intros Hi.
    + eapply need_leaf. rewrite nth_error_app1 by auto. eauto.
    + pose proof (HD _ _ H1). eapply need_op; [rewrite pars_lt by auto; eauto|]. apply IH. lia.
Qed.

Lemma uses_app prog st i : uses (prog ++ [st]) i = (uses prog i + count_occ Nat.eq_dec (operands st) i)%nat.
Proof. unfold uses. rewrite flat_map_app, count_occ_app. cbn [flat_map]. rewrite app_nil_r. reflexivity. Qed.

(** the places at which a tensor is used *)
Fixpoint places (a : nat) (prog : list pstep) (i : nat) : list (nat * nat) :=
  match prog with
  | [] => []
  | st :: r => map (pair a) (filter (fun k => match nth_error (operands st) k with Some j => Nat.eqb j i | None => false end) (seq 0 (length (operands st))))
               ++ places (S a) r i
  end.
Lemma count_places_1 l i : forall a, length (filter (fun k => match nth_error l (k - a) with Some j => Nat.eqb j i | None => false end) (seq a (length l))) = count_occ Nat.eq_dec l i.
Proof.
  induction l as [|x l IH]; intros a; [reflexivity|]. cbn [length seq filter count_occ]. rewrite Nat.sub_diag. cbn [nth_error].
  assert (E : filter (fun k => match nth_error (x :: l) (k - a) with Some j => Nat.eqb j i | None => false end) (seq (S a) (length l)) =
              filter (fun k => match nth_error l (k - S a) with Some j => Nat.eqb j i | None => false end) (seq (S a) (length l))).
  { apply filter_ext_in. intros k Hk. apply in_seq in Hk. replace (k - a)%nat with (S (k - S a)) by lia. reflexivity. }
  rewrite E. destruct (Nat.eqb_spec x i) as [->|NE]; destruct (Nat.eq_dec _ i); try congruence; cbn [length]; rewrite IH; reflexivity.
Qed.
Lemma count_places_2 l i : length (filter (fun k => match nth_error l k with Some j => Nat.eqb j i | None => false end) (seq 0 (length l))) = count_occ Nat.eq_dec l i.
Proof. rewrite <- (count_places_1 l i 0). f_equal. apply filter_ext. intros k. rewrite Nat.sub_0_r. reflexivity. Qed.
Lemma places_length prog i : forall a, length (places a prog i) = uses prog i.
Proof.
  unfold uses. induction prog as [|st r IH]; intros a; [reflexivity|]. cbn [places flat_map]. rewrite app_length, map_length, count_places_2, count_occ_app, IH. reflexivity.
Qed.
Lemma in_places prog i : forall a c k, In (c, k) (places a prog i) <-> (a <= c)%nat /\ exists st, nth_error prog (c - a) = Some st /\ nth_error (operands st) k = Some i.
Proof.
  induction prog as [|st r IH]; intros a c k; cbn [places].
  - split; [intros []|]. intros (_ & st & H & _). destruct (c - a)%nat; discriminate.
  - rewrite in_app_iff, IH, in_map_iff. split.
    + intros [(k' & E & H)|(H1 & st' & H2 & H3)].
      * injection E as <- <-. apply filter_In in H. destruct H as [_ H]. split; [auto|]. exists st. rewrite Nat.sub_diag. split; [reflexivity|].
        destruct (nth_error (operands st) k'); [|discriminate]. apply Nat.eqb_eq in H. congruence.
      * split; [lia|]. exists st'. replace (c - a)%nat with (S (c - S a)) by lia. auto.
    + intros (H1 & st' & H2 & H3). destruct (c - a)%nat eqn:E.
      * left. cbn in H2. injection H2 as <-. assert (c = a) by lia. subst c. exists k. split; [reflexivity|]. apply filter_In. split.
        -- apply in_seq. split; [lia|]. apply nth_error_Some. congruence.
        -- rewrite H3. apply Nat.eqb_refl.
      * right. split; [lia|]. exists st'. replace (c - S a)%nat with n by lia. auto.
Qed.
Lemma places_NoDup prog i : forall a, NoDup (places a prog i).
Proof.
  induction prog as [|st r IH]; intros a; cbn [places]; [constructor|]. apply NoDup_app_intro; auto.
  - apply NoDup_map_inj; [congruence|]. apply NoDup_filter, seq_NoDup.
  - intros [c k] H H'. apply in_map_iff in H. destruct H as (? & E & _). injection E as <- <-. apply in_places in H'. lia.
Qed.
Lemma in_pars prog i c k : nth_error (pars prog c) k = Some i <-> exists st, nth_error prog c = Some st /\ nth_error (operands st) k = Some i.
Proof.
  unfold pars. destruct (nth_error prog c) as [st|]; split.
  - eauto. - intros (? & E & H). congruence. - destruct k; discriminate. - intros (? & E & _). discriminate.
Qed.

Lemma for_each_app {W T A} (l : list A) a (f : A -> gcomp W T unit) st st' : for_each l f st = (Ok tt, st') -> for_each (l ++ [a]) f st = f a st'.
Proof.
  revert st. induction l as [|b l IH]; intros st H; cbn [app for_each] in *.
  - cbn in H. injection H as <-. unfold cbind. destruct (f a st) as [[[]|] ?]; reflexivity.
  - unfold cbind in *. destruct (f b st) as [[?|] st1]; [|discriminate]. auto.
Qed.

Lemma rmap_get {A} (l : list A) ps : (forall j, In j ps -> (j < length l)%nat) ->
  exists ns, rmap (get_nth l) ps = Ok ns /\ Forall2 (fun j n => nth_error l j = Some n) ps ns.
Proof.
  induction ps as [|j ps IH]; intros H; [exists []; split; [reflexivity|constructor]|].
  destruct IH as (ns & E & F); [intros; apply H; right; auto|].
  destruct (nth_error l j) as [n|] eqn:En; [|apply nth_error_None in En; specialize (H j (or_introl eq_refl)); lia].
  exists (n :: ns). split; [|constructor; auto]. cbn [rmap]. unfold get_nth at 1. rewrite En. cbn [rbind]. rewrite E. reflexivity.
Qed.

Section Bump.
  Context {W T : Type}.
  Definition bump (d : nat) (n : node W T) : node W T := mkN (n_val n) (n_req n) (n_fun n) (n_parents n) (n_grad n) (n_edges n + Z.of_nat d).
  Lemma bump_0 n : bump 0 n = n.
  Proof. destruct n as [a b c d e f]. unfold bump. cbn [n_val n_req n_fun n_parents n_grad n_edges]. rewrite Z.add_0_r. reflexivity. Qed.
  Lemma for_each_bump ps : forall nodes act (w : W), (forall j, In j ps -> (j < length nodes)%nat) ->
    exists nodes', for_each ps (fun j => add_edges j 1) (mkG nodes act, w) = (Ok tt, (mkG nodes' act, w)) /\ length nodes' = length nodes /\
      forall i, nth_error nodes' i = option_map (bump (count_occ Nat.eq_dec ps i)) (nth_error nodes i).
  Proof.
    induction ps as [|j ps IH]; intros nodes act w H; cbn [for_each].
    - exists nodes. split; [reflexivity|]. split; [reflexivity|]. intros i. cbn [count_occ]. destruct (nth_error nodes i); cbn [option_map]; [rewrite bump_0|]; reflexivity.
    - destruct (nth_error nodes j) as [n|] eqn:En; [|apply nth_error_None in En; specialize (H j (or_introl eq_refl)); lia].
      erewrite cbind_ok; [|apply add_edges_ok; exact En].
      match goal with |- context [mkG ?N act] => destruct (IH N act w) as (nodes' & E & L & F) end.
      { intros j' Hj. rewrite set_nth_length. apply H. right. auto. }
      exists nodes'. split; [exact E|]. rewrite set_nth_length in L. split; [exact L|]. intros i. rewrite F, nth_error_set. cbn [count_occ].
      destruct (Nat.eqb_spec i j) as [->|NE]; destruct (Nat.eq_dec _ _); try congruence.
      rewrite En. cbn [option_map]. f_equal. unfold bump. cbn [n_val n_req n_fun n_parents n_grad n_edges]. f_equal. lia.
  Qed.
End Bump.

Section Hist.
  Context {K : Type} (alpha : K -> Z) (ev : fop -> Z -> Z -> K -> Z)
          (gen : fop -> nat -> nat -> result (list (list K))) (s : sess) (su : tri_supply)
          (mm : nat -> list nat -> list nat -> list triple) (on : nat -> list nat -> list (list Z)).
  Hypothesis HG : backend_ok alpha ev gen.
  Hypothesis HI : int_pair s.
  Hypothesis HS : supplies su mm on.
  Notation W := (mpcw (K:=K)).
  Notation nd := (node W mpc).
  Let ok (w : W) := none_waiting (fst w).
  Let Hn := proj1 HI. Let Hp := proj1 (proj2 HI). Let Hb := proj2 (proj2 HI).

  Definition opshape (env : tensors) (st : pstep) (k : nat) : list nat :=
    match nth_error (operands st) k with Some j => fst (look env (inl j)) | None => [] end.

  Record fine (prog : list pstep) (env : tensors) (visited : nat -> Prop) (acc : nat -> vec) (i : nat) (st : pstep) (n : nd) : Prop := mkFine {
    f_val : rep s (fst (look env (inl i))) (snd (look env (inl i))) (n_val n);
    f_req : n_req n = true <-> needs prog i;
    f_par : n_parents n = operands st;
    f_fun : operands st <> [] -> exists b, n_fun n = Some b /\
      passes s env (fst (look env (inl i))) st (opshape env st) (seq 0 (length (operands st))) b;
    f_edges : operands st <> [] -> ~ visited i -> n_edges n = Z.of_nat (uses prog i);
    f_grad : needs prog i -> match n_grad n with None => ~ visited i | Some x => visited i /\ rep s (fst (look env (inl i))) (acc i) x end;
    f_none : ~ needs prog i -> n_grad n = None }.

  Record Gok (prog : list pstep) (env : tensors) (visited : nat -> Prop) (acc : nat -> vec) (nodes : list nd) : Prop := mkGok {
    g_len : length nodes = length prog;
    g_env : length env = length prog;
    g_dag : forall i j, In j (pars prog i) -> (j < i)%nat;
    g_vis : forall i, visited i -> (i < length prog)%nat;
    g_acc : forall i, ~ visited i -> forall e, acc i e = 0;
    g_fine : forall i st n, nth_error prog i = Some st -> nth_error nodes i = Some n -> fine prog env visited acc i st n }.

  Lemma vdec (visited : nat -> Prop) (n : nd) prog env acc i st : fine prog env visited acc i st n -> needs prog i -> visited i \/ ~ visited i.
  Proof. intros F N. pose proof (f_grad _ _ _ _ _ _ _ F N). destruct (n_grad n); tauto. Qed.

  (** what holds of an old node when a step is added *)
  Lemma fine_old prog env visited acc i st n d st' t : (forall a b, In b (pars prog a) -> (b < a)%nat) -> length env = length prog ->
    nth_error prog i = Some st -> fine prog env visited acc i st n -> d = count_occ Nat.eq_dec (operands st') i ->
    fine (prog ++ [st']) (env ++ [t]) visited acc i st (bump d n).
  Proof.
    intros HD HL Hi F ->. assert (Li : (i < length prog)%nat) by (apply nth_error_Some; congruence).
    assert (OP : forall j, In j (operands st) -> (j < length env)%nat).
    { intros j Hj. assert (In j (pars prog i)) by (unfold pars; rewrite Hi; auto). apply HD in H. lia. }
    destruct F as [F1 F2 F3 F4 F5 F6 F7]. split; rewrite ?(look_lt env t i) by lia; cbn [bump n_val n_req n_fun n_parents n_grad n_edges]; auto.
    - rewrite needs_app by auto. auto.
    - intros NE. destruct (F4 NE) as (b & Eb & Pb). exists b. split; [auto|]. intros g z GZ. eapply runs_weaken; [exact (Pb g z GZ)|].
      intros gs H k Hk. destruct (H k Hk) as (r & E & R). exists r. split; [exact E|].
      assert (ES : opshape (env ++ [t]) st k = opshape env st k).
      { unfold opshape. destruct (nth_error (operands st) k) as [j|] eqn:EJ; [|reflexivity]. apply nth_error_In in EJ. rewrite look_lt; auto. }
      rewrite ES. eapply rep_ext; [exact R|]. intros e He. apply eqmod_eq, sumn_ext. intros p Hp'. rewrite jac_app by auto. reflexivity.
    - intros NE NV. rewrite (F5 NE NV), uses_app. lia.
    - rewrite needs_app by auto. auto.
    - rewrite needs_app by auto. auto.
  Qed.

  Lemma no_uses prog i : (forall a b, In b (pars prog a) -> (b < a)%nat) -> (length prog <= i)%nat -> uses prog i = 0%nat.
  Proof.
    intros HD H. rewrite <- (places_length prog i 0). destruct (places 0 prog i) as [|[c k] l] eqn:E; [reflexivity|exfalso].
    assert (I : In (c, k) (places 0 prog i)) by (rewrite E; left; auto). apply in_places in I. rewrite Nat.sub_0_r in I. destruct I as (_ & st & E1 & E2).
    assert (In i (pars prog c)) by (unfold pars; rewrite E1; eapply nth_error_In; eauto). apply HD in H0.
    assert (c < length prog)%nat by (apply nth_error_Some; congruence). lia.
  Qed.

  Lemma dag_app prog env st so v : length env = length prog -> (forall a b, In b (pars prog a) -> (b < a)%nat) -> yields s env st so v ->
    forall a b, In b (pars (prog ++ [st]) a) -> (b < a)%nat.
  Proof.
    intros HL HD HY a b H. destruct (Nat.lt_trichotomy a (length prog)) as [L|[->|L]].
    - rewrite pars_lt in H by auto. auto.
    - rewrite pars_new in H. pose proof (yields_known _ _ _ _ _ HY b H). lia.
    - rewrite pars_ge in H by (rewrite app_length; cbn; lia). contradiction.
  Qed.

  (** adding a node for a step *)
  Lemma add_node prog env visited acc nodes st so v nodes' n : Gok prog env visited acc nodes -> yields s env st so v ->
    length nodes' = length nodes ->
    (forall i, nth_error nodes' i = option_map (bump (count_occ Nat.eq_dec (operands st) i)) (nth_error nodes i)) ->
    rep s so v (n_val n) -> (n_req n = true <-> needs (prog ++ [st]) (length prog)) -> n_parents n = operands st -> n_edges n = 0 -> n_grad n = None ->
    (operands st <> [] -> exists b, n_fun n = Some b /\ passes s env so st (opshape env st) (seq 0 (length (operands st))) b) ->
    Gok (prog ++ [st]) (env ++ [(so, v)]) visited acc (nodes' ++ [n]).
  Proof.
    intros [] HY LN HN RV RQ RP RE RG RF. pose proof (dag_app _ _ _ _ _ g_env0 g_dag0 HY) as HD. split.
    - rewrite !app_length, LN, g_len0. reflexivity.
    - rewrite !app_length. rewrite g_env0. reflexivity.
    - exact HD.
    - intros i Hi. rewrite app_length. specialize (g_vis0 i Hi). lia.
    - auto.
    - intros i st' n' Hst Hn'. destruct (Nat.lt_trichotomy i (length prog)) as [L|[->|L]].
      + rewrite nth_error_app1 in Hst by auto. rewrite nth_error_app1 in Hn' by lia. rewrite HN in Hn'.
        destruct (nth_error nodes i) as [n0|] eqn:E0; [|discriminate]. cbn [option_map] in Hn'. injection Hn' as <-.
        eapply fine_old; eauto.
      + rewrite nth_error_app2, Nat.sub_diag in Hst by auto. cbn in Hst. injection Hst as <-.
        rewrite nth_error_app2, LN, g_len0, Nat.sub_diag in Hn' by lia. cbn in Hn'. injection Hn' as <-.
        assert (NV : ~ visited (length prog)) by (intros V; apply g_vis0 in V; lia).
        split; auto; rewrite <- ?g_env0, ?look_new; cbn [fst snd]; rewrite ?g_env0; auto.
        * intros NE. destruct (RF NE) as (b & Eb & Pb). exists b. split; [auto|]. intros g z GZ. eapply runs_weaken; [exact (Pb g z GZ)|].
          intros gs H k Hk. destruct (H k Hk) as (r & E & R). exists r. split; [exact E|].
          assert (ES : opshape (env ++ [(so, v)]) st k = opshape env st k).
          { unfold opshape. destruct (nth_error (operands st) k) as [j|] eqn:EJ; [|reflexivity]. apply nth_error_In in EJ. rewrite look_lt; auto. eapply yields_known; eauto. }
          rewrite ES. eapply rep_ext; [exact R|]. intros e He. apply eqmod_eq, sumn_ext. intros p Hp'. rewrite jac_app; [reflexivity|]. eapply yields_known; eauto.
        * intros _ _. rewrite uses_app, (no_uses prog) by auto. rewrite (proj1 (count_occ_not_In Nat.eq_dec (operands st) (length prog))); [lia|].
          intros H. apply (yields_known _ _ _ _ _ HY) in H. lia.
        * intros _. rewrite RG. auto.
      + assert (nth_error (prog ++ [st]) i = None) by (apply nth_error_None; rewrite app_length; cbn; lia). congruence.
  Qed.

  Lemma req_new prog env visited acc nodes st ns : Gok prog env visited acc nodes -> operands st <> [] -> Forall2 (fun j n => nth_error nodes j = Some n) (operands st) ns ->
    existsb n_req ns = true <-> needs (prog ++ [st]) (length prog).
  Proof.
    intros G NE F. rewrite existsb_exists.
    assert (P : forall j n, nth_error nodes j = Some n -> (n_req n = true <-> needs prog j) /\ (j < length prog)%nat).
    { intros j n E. assert (L : (j < length prog)%nat) by (rewrite <- (g_len _ _ _ _ _ G); apply nth_error_Some; congruence). split; [|exact L].
      destruct (nth_error prog j) as [sj|] eqn:Ej; [|apply nth_error_None in Ej; lia]. apply (f_req _ _ _ _ _ _ _ (g_fine _ _ _ _ _ G j sj n Ej E)). }
    split.
    - intros (n & Hin & Q). assert (EX : exists j, In j (operands st) /\ nth_error nodes j = Some n).
      { clear -F Hin. induction F; [destruct Hin|]. destruct Hin as [->|H']; [exists x; split; [left|]; auto|]. destruct (IHF H') as (j & A & B). exists j; split; [right|]; auto. }
      destruct EX as (j & Ij & Ej). destruct (P j n Ej) as [P1 P2]. eapply need_op; [rewrite pars_new; eauto|]. apply needs_app; [apply (g_dag _ _ _ _ _ G)|auto|tauto].
    - intros N. inversion N as [i x H|i j H1 H2]; subst.
      + rewrite nth_error_app2, Nat.sub_diag in H by auto. cbn in H. injection H as ->. cbn in NE. congruence.
      + rewrite pars_new in H1. assert (EX : exists n, In n ns /\ nth_error nodes j = Some n).
        { clear -F H1. induction F; [destruct H1|]. destruct H1 as [->|H']; [exists y; split; [left|]; auto|]. destruct (IHF H') as (n & A & B). exists n; split; [right|]; auto. }
        destruct EX as (n & In' & En). destruct (P j n En) as [P1 P2]. exists n. split; [auto|]. apply P1. apply needs_app in H2; auto. apply (g_dag _ _ _ _ _ G).
  Qed.

  Lemma record_ok prog env visited acc nodes st so v fw plain w : Gok prog env visited acc nodes -> yields s env st so v -> operands st <> [] ->
    (forall ns, Forall2 (fun j n => nth_error nodes j = Some n) (operands st) ns ->
       runs (fw (map n_val ns)) (fun rb => rep s so v (fst rb) /\ passes s env so st (opshape env st) (seq 0 (length (operands st))) (snd rb))) ->
    ok w -> exists nodes' w', record (K:=K) (operands st) fw plain (mkG nodes true, w) = (Ok (length nodes), (mkG nodes' true, w')) /\ ok w' /\
      Gok (prog ++ [st]) (env ++ [(so, v)]) visited acc nodes'.
  Proof.
    intros G HY NE HF Hw. assert (HB : forall j, In j (operands st) -> (j < length nodes)%nat).
    { intros j Hj. apply (yields_known _ _ _ _ _ HY) in Hj. rewrite (g_len _ _ _ _ _ G), <- (g_env _ _ _ _ _ G). auto. }
    destruct (rmap_get nodes (operands st) HB) as (ns & ER & F2).
    destruct (HF ns F2 w Hw) as (rb & w' & EF & Hw' & RV & RB).
    set (n := mkN (fst rb) (existsb n_req ns) (Some (snd rb)) (operands st) None 0).
    destruct (for_each_bump (operands st) (nodes ++ [n]) true w') as (nodes' & EB & LB & NB).
    { intros j Hj. rewrite app_length. apply HB in Hj. lia. }
    exists nodes', w'. split; [|split; [exact Hw'|]].
    - unfold record. cbn [g_active fst]. unfold forward. cbn [fst g_nodes]. rewrite ER.
      erewrite cbind_ok; [|reflexivity]. cbn [g_nodes fst snd].
      erewrite cbind_ok; [|apply liftw_ok; exact EF]. erewrite cbind_ok; [|reflexivity]. cbn [g_nodes fst snd].
      erewrite cbind_ok; [|reflexivity]. cbn [g_nodes g_active fst snd]. fold n. erewrite cbind_ok; [|exact EB]. reflexivity.
    - assert (EQ : exists nodes'', nodes' = nodes'' ++ [n] /\ length nodes'' = length nodes).
      { rewrite app_length in LB. cbn in LB. destruct (exists_last (l := nodes')) as (nodes'' & z & ->); [intros ->; cbn in LB; lia|].
        rewrite app_length in LB. cbn in LB. exists nodes''. assert (L : length nodes'' = length nodes) by lia. split; [|exact L]. f_equal. f_equal.
        specialize (NB (length nodes)). rewrite nth_error_app2, L, Nat.sub_diag in NB by lia. cbn [nth_error] in NB.
        rewrite nth_error_app2, Nat.sub_diag in NB by lia. cbn [nth_error option_map] in NB.
        rewrite (proj1 (count_occ_not_In Nat.eq_dec (operands st) (length nodes))), bump_0 in NB; [congruence|].
        intros H. apply HB in H. lia. }
      destruct EQ as (nodes'' & -> & L). eapply add_node; eauto.
      + intros i. specialize (NB i). destruct (Nat.lt_ge_cases i (length nodes)).
        * rewrite !nth_error_app1 in NB by lia. exact NB.
        * rewrite (proj2 (nth_error_None nodes'' i)) by lia. rewrite (proj2 (nth_error_None nodes i)) by lia. reflexivity.
      + unfold n. cbn [n_req]. eapply req_new; eauto.
      + intros _. exists (snd rb). split; [reflexivity|exact RB].
  Qed.

  Lemma node_rep prog env visited acc nodes j n : Gok prog env visited acc nodes -> nth_error nodes j = Some n ->
    rep s (fst (look env (inl j))) (snd (look env (inl j))) (n_val n).
  Proof.
    intros G E. assert (L : (j < length prog)%nat) by (rewrite <- (g_len _ _ _ _ _ G); apply nth_error_Some; congruence).
    destruct (nth_error prog j) as [st|] eqn:Ej; [|apply nth_error_None in Ej; lia]. apply (f_val _ _ _ _ _ _ _ (g_fine _ _ _ _ _ G j st n Ej E)).
  Qed.
  Lemma sizes_opshape_1 env f i k : In k [0%nat] -> opshape env (PUn f i) k = fst (look env (inl i)).
  Proof. intros [<-|[]]. reflexivity. Qed.
  Lemma sizes_opshape_2 env f i y k : In k (slots y) -> opshape env (PBin f i y) k = sizes env i y k.
  Proof. destruct y; cbn [slots]; [intros [<-|[<-|[]]]|intros [<-|[]]]; reflexivity. Qed.

  Lemma passes_sizes env so st sz sz' ks ks' b : ks = ks' -> (forall k, In k ks -> sz k = sz' k) -> passes (K:=K) s env so st sz ks b -> passes s env so st sz' ks' b.
  Proof.
    intros <- H P g z GZ. eapply runs_weaken; [exact (P g z GZ)|]. intros gs HH k Hk. destruct (HH k Hk) as (r & E & R). exists r. split; [exact E|].
    rewrite <- H by auto. exact R.
  Qed.

  Theorem step_ok prog env visited acc nodes st so v fuel w : Gok prog env visited acc nodes -> yields s env st so v -> ok w ->
    exists nodes' w', exec alpha ev gen s su mm on fuel (EvStep st) (mkG nodes true, w) = (Ok tt, (mkG nodes' true, w')) /\ ok w' /\
      Gok (prog ++ [st]) (env ++ [(so, v)]) visited acc nodes'.
  Proof.
    intros G HY Hw. destruct st as [x b|f i|f i y].
    - exists (nodes ++ [mkN x b None [] None 0]), w. split; [reflexivity|]. split; [exact Hw|]. eapply add_node; eauto.
      + intros j. cbn [operands count_occ]. destruct (nth_error nodes j); cbn [option_map]; [rewrite bump_0|]; reflexivity.
      + inversion HY; subst. cbn [n_val]. destruct (shares_rep _ _ _ _ ltac:(eassumption)) as [R _]. eapply rep_ext; [exact R|].
        intros e He. apply eqmod_eq. cbv beta. rewrite map_seq_nth by auto. reflexivity.
      + cbn [n_req]. split.
        * intros ->. eapply need_leaf. rewrite nth_error_app2, Nat.sub_diag by auto. reflexivity.
        * intros N. inversion N as [? ? H|? ? H1 H2]; subst.
          -- rewrite nth_error_app2, Nat.sub_diag in H by auto. cbn in H. injection H. auto.
          -- rewrite pars_new in H1. destruct H1.
      + cbn [operands]. congruence.
    - destruct (record_ok prog env visited acc nodes (PUn f i) so v (fun vs => match vs with [x] => fun1 alpha ev gen s su f x | _ => cerr TypeError end)
        (fun vs => match vs with [x] => plain1 alpha ev gen s su f x | _ => cerr TypeError end) w G HY) as (nodes' & w' & E & Hw' & G'); [discriminate| |exact Hw|].
      + intros ns F2. inversion F2 as [|j n ? ns' Hj F2']; subst. inversion F2'; subst. cbn [map].
        eapply runs_weaken; [eapply (fun1_ok alpha ev gen s su mm on); eauto; eapply node_rep; eauto|]. intros rb [R P]. split; [exact R|].
        eapply passes_sizes; [| |exact P]; [reflexivity|]. intros k Hk. symmetry. apply (sizes_opshape_1 env f). auto.
      + exists nodes', w'. split; [|auto]. cbn [exec]. unfold call1. erewrite cbind_ok; [|exact E]. reflexivity.
    - assert (KX : forall nodes' w', call2 alpha ev gen s su mm f i y (mkG nodes true, w) = (Ok (length nodes), (mkG nodes' true, w')) ->
        exec alpha ev gen s su mm on fuel (EvStep (PBin f i y)) (mkG nodes true, w) = (Ok tt, (mkG nodes' true, w'))).
      { intros nodes' w' E. cbn [exec]. erewrite cbind_ok; [|exact E]. reflexivity. }
      destruct y as [j|p].
      + destruct (record_ok prog env visited acc nodes (PBin f i (inl j)) so v (fun vs => match vs with [x; y] => fun2 alpha ev gen s su mm f x (inl y) | _ => cerr TypeError end)
          (fun vs => match vs with [x; y] => plain2 alpha ev gen s su mm f x (inl y) | _ => cerr TypeError end) w G HY) as (nodes' & w' & E & Hw' & G'); [discriminate| |exact Hw|].
        * intros ns F2. inversion F2 as [|j1 n1 ? ns1 Hj1 F21]; subst. inversion F21 as [|j2 n2 ? ns2 Hj2 F22]; subst. inversion F22; subst. cbn [map].
          eapply runs_weaken; [eapply (fun2_ok alpha ev gen s su mm on); eauto; [eapply node_rep; eauto|cbn [opd]; eapply node_rep; eauto]|].
          intros rb [R P]. split; [exact R|].
          eapply passes_sizes; [| |exact P]; [reflexivity|]. intros k Hk. symmetry. apply (sizes_opshape_2 env f i (inl j)). auto.
        * exists nodes', w'. split; [|auto]. apply KX. exact E.
      + destruct (record_ok prog env visited acc nodes (PBin f i (inr p)) so v (fun vs => match vs with [x] => fun2 alpha ev gen s su mm f x (inr p) | _ => cerr TypeError end)
          (fun vs => match vs with [x] => plain2 alpha ev gen s su mm f x (inr p) | _ => cerr TypeError end) w G HY) as (nodes' & w' & E & Hw' & G'); [discriminate| |exact Hw|].
        * intros ns F2. inversion F2 as [|j1 n1 ? ns1 Hj1 F21]; subst. inversion F21; subst. cbn [map].
          eapply runs_weaken; [eapply (fun2_ok alpha ev gen s su mm on); eauto; [eapply node_rep; eauto|cbn [opd]; reflexivity]|].
          intros rb [R P]. split; [exact R|].
          eapply passes_sizes; [| |exact P]; [reflexivity|]. intros k Hk. symmetry. apply (sizes_opshape_2 env f i (inr p)). auto.
        * exists nodes', w'. split; [|auto]. apply KX. exact E.
  Qed.

  Lemma mones_ok sh : runs (mones (K:=K) s on sh) (rep s sh (fun _ => 1)).
  Proof.
    unfold mones. eapply runs_bind; [apply (runs_tick (fun _ => True)); auto|]. intros k _. apply runs_lift.
    destruct (mpc_secret_reconstruct s (PTensor sh (repeat (NFloat 1) (numel sh))) (on k sh)) as (y & E & Y1 & Y2 & Y3 & Y4 & _).
    - rewrite Hn. lia.
    - apply repeat_length.
    - rewrite Hn. apply HS.
    - exists y. split; [exact E|]. repeat (split; [assumption|]). replace (vals sh (fun _ => 1)) with (encode (s_cfg s) (pub_vals (PTensor sh (repeat (NFloat 1) (numel sh))))); [exact Y4|].
      cbn [pub_vals]. unfold encode, vals. assert (E1 : encode1 (s_cfg s) (NFloat 1) = to_ring R64 1).
      { cbn [encode1]. rewrite (prec0_base s Hp). reflexivity. }
      clear - E1. generalize 0%nat. induction (numel sh) as [|m IH]; intros a; [reflexivity|]. cbn [repeat map seq]. rewrite E1, (IH (S a)). reflexivity.
  Qed.

  Lemma deriv_linear prog env i k n : linear R64 (numel (fst (look env (inl i)))) n (deriv prog env i k).
  Proof.
    split; intros f g.
    - intros H e He. unfold deriv. destruct (nth_error prog i) as [st|]; [|reflexivity]. apply zsum_eqmod. intros p Hp'. apply in_seq in Hp'.
      rewrite (H p) by lia. reflexivity.
    - intros e He. unfold deriv. destruct (nth_error prog i) as [st|]; [|reflexivity]. apply eqmod_eq. unfold sumn. rewrite <- zsum_map_add.
      apply f_equal, map_ext. intros. ring.
  Qed.

  Theorem back_ok prog env visited acc nodes root gradient g0 paths fuel w : Gok prog env visited acc nodes -> clean prog visited root ->
    (match gradient with
     | Some x => shares_of s (fst (look env (inl root))) (map g0 (seq 0 (numel (fst (look env (inl root)))))) x
     | None => (length (fst (look env (inl root))) <= 1)%nat /\ g0 = (fun _ => 1)
     end) ->
    (forall i, all_paths (pars prog) root i (paths i)) -> (length prog <= fuel)%nat -> ok w ->
    exists nodes' w', exec alpha ev gen s su mm on fuel (EvBack root gradient) (mkG nodes true, w) = (Ok tt, (mkG nodes' true, w')) /\ ok w' /\
      Gok prog env (fun i => visited i \/ below (pars prog) root i) (fun i e => acc i e + path_sum (deriv prog env) (paths i) g0 e) nodes'.
  Proof.
    intros G (C1 & C2 & C3 & C4 & C5) HG0 HP Hf Hw.
    assert (PP : forall i, par nodes i = pars prog i).
    { intros i. unfold par, pars. destruct (nth_error nodes i) as [n|] eqn:En.
      - assert (L : (i < length prog)%nat) by (rewrite <- (g_len _ _ _ _ _ G); apply nth_error_Some; congruence).
        destruct (nth_error prog i) as [st|] eqn:Ei; [|apply nth_error_None in Ei; lia]. apply (f_par _ _ _ _ _ _ _ (g_fine _ _ _ _ _ G i st n Ei En)).
      - apply nth_error_None in En. rewrite (g_len _ _ _ _ _ G) in En. rewrite (proj2 (nth_error_None prog i)) by auto. reflexivity. }
    assert (BB : forall i, below (par nodes) root i <-> below (pars prog) root i) by (intros; apply below_ext; auto).
    assert (FN : forall i n, nth_error nodes i = Some n -> exists st, nth_error prog i = Some st /\ fine prog env visited acc i st n /\ pars prog i = operands st).
    { intros i n En. assert (L : (i < length prog)%nat) by (rewrite <- (g_len _ _ _ _ _ G); apply nth_error_Some; congruence).
      destruct (nth_error prog i) as [st|] eqn:Ei; [|apply nth_error_None in Ei; lia]. exists st. split; [auto|]. split; [apply (g_fine _ _ _ _ _ G i st n Ei En)|].
      unfold pars. rewrite Ei. reflexivity. }
    assert (RQ : forall i, req nodes i = true <-> needs prog i).
    { intros i. unfold req. destruct (nth_error nodes i) as [n|] eqn:En.
      - destruct (FN i n En) as (st & _ & F & _). apply (f_req _ _ _ _ _ _ _ F).
      - split; [discriminate|]. intros N. apply nth_error_None in En. rewrite (g_len _ _ _ _ _ G) in En.
        inversion N as [? ? H|? ? H1 H2]; subst; [|rewrite pars_ge in H1 by auto; destruct H1].
        rewrite (proj2 (nth_error_None prog i)) in H by auto. discriminate. }
    assert (HD : forall i j, In j (par nodes i) -> (j < i)%nat) by (intros i j; rewrite PP; apply (g_dag _ _ _ _ _ G)).
    assert (RL : (root < length nodes)%nat).
    { destruct (Nat.lt_ge_cases root (length nodes)); auto. exfalso. apply C1. apply pars_ge. rewrite <- (g_len _ _ _ _ _ G). auto. }
    destruct (nth_error nodes root) as [nr|] eqn:Er; [|apply nth_error_None in Er; lia].
    destruct (FN root nr Er) as (str & Esr & Fr & Pr).
    assert (BR : below (pars prog) root root) by (exists []; constructor).
    destruct (backward_ok m_shape (madd alpha ev gen s su) (mones (K:=K) s on) ok R64 (fun i => numel (fst (look env (inl i))))
       (fun i => rep s (fst (look env (inl i))))) with (nodes0 := nodes) (root := root) (J := deriv prog env) (init := acc) (g0 := g0) (fuel := fuel)
       (gradient := gradient) (n := nr) (w := w) (act := true) as (nodes' & w' & EB & W' & LB & SB & FB & NB).
    - intros i f g x H HE. eapply rep_ext; [exact H|]. auto.
    - intros i f g x y HX HY. unfold madd. cbn [e_lin mpc_engine]. apply (runs_lift (mpc_lin LAdd x y)).
      destruct (rep_lin s HI LAdd _ _ (fst (look env (inl i))) _ _ _ _ HX HY (bshape_same _)) as (z & EZ & GZ). exists z. split; [exact EZ|].
      eapply rep_ext; [exact GZ|]. intros e He. apply eqmod_eq. cbv beta. rewrite (bpos_self s HI) by auto. reflexivity.
    - exact HD.
    - intros i j Hj Hr. apply RQ in Hr. apply RQ. rewrite PP in Hj. eapply need_op; eauto.
    - intros i k j _. apply deriv_linear.
    - intros i n En Q NP B. destruct (FN i n En) as (st & Es & F & Pi). rewrite (f_par _ _ _ _ _ _ _ F) in *.
      destruct (f_fun _ _ _ _ _ _ _ F NP) as (b & Eb & Pb). exists b. split; [exact Eb|]. intros f x HX.
      assert (RB := Pb f x HX). intros w0 Hw0. destruct (RB w0 Hw0) as (gs & w1 & E1 & W1 & H1). exists gs, w1. split; [exact E1|]. split; [exact W1|].
      intros k j Hk. destruct (H1 k) as (r & Er' & Rr).
      { apply in_seq. split; [lia|]. apply nth_error_Some. congruence. }
      exists r. split; [exact Er'|]. unfold opshape in Rr. rewrite Hk in Rr. eapply rep_ext; [exact Rr|]. intros e He. unfold deriv. rewrite Es. reflexivity.
    - intros i n En Q NP B NR. destruct (FN i n En) as (st & Es & F & Pi). rewrite (f_par _ _ _ _ _ _ _ F) in *. apply BB in B.
      rewrite (f_edges _ _ _ _ _ _ _ F NP) by (apply C4; auto; congruence). f_equal. rewrite <- (places_length prog i 0).
      apply Permutation_length. apply NoDup_Permutation; [apply places_NoDup|apply NoDup_filter, edges_NoDup; auto|].
      intros [c k]. rewrite in_places, in_into_edges by auto. rewrite Nat.sub_0_r. rewrite PP, in_pars, BB. split.
      + intros (_ & stc & E1 & E2). split; [|eauto]. apply (C5 i c); auto; [congruence|]. unfold pars. rewrite E1. eapply nth_error_In; eauto.
      + intros (_ & stc & E1 & E2). split; [lia|]. eauto.
    - intros i n En Q B. destruct (FN i n En) as (st & Es & F & Pi). apply BB in B. pose proof (f_grad _ _ _ _ _ _ _ F (proj1 (f_req _ _ _ _ _ _ _ F) Q)) as HH.
      destruct (n_grad n) as [x|].
      + destruct HH as [V R]. split; [|exact R]. rewrite (f_par _ _ _ _ _ _ _ F). destruct (nil_or (operands st)) as [|NE]; [auto|]. exfalso. eapply C4; eauto. congruence.
      + intros e He. rewrite (g_acc _ _ _ _ _ G i HH). reflexivity.
    - rewrite (g_len _ _ _ _ _ G) in RL. lia.
    - exact Er.
    - apply (f_req _ _ _ _ _ _ _ Fr). auto.
    - rewrite (f_par _ _ _ _ _ _ _ Fr). congruence.
    - rewrite (f_edges _ _ _ _ _ _ _ Fr) by (congruence || (apply C4; auto)). lia.
    - exact Hw.
    - pose proof (f_val _ _ _ _ _ _ _ Fr) as (_ & SV & _). destruct gradient as [x|].
      + destruct (shares_rep _ _ _ _ HG0) as [R _]. eapply rep_ext; [exact R|]. intros e He. apply eqmod_eq. cbv beta. rewrite map_seq_nth by auto. reflexivity.
      + rewrite SV. destruct HG0 as [HL ->]. split; [exact HL|]. apply mones_ok.
    - exists nodes', w'. split; [exact EB|]. split; [exact W'|].
      assert (TOT : forall i e, total (par nodes) root (deriv prog env) g0 i e = path_sum (deriv prog env) (paths i) g0 e).
      { intros i e. symmetry. apply total_all; auto. eapply all_paths_ext; [|apply HP]. auto. }
      assert (EMP : forall i, ~ below (pars prog) root i -> forall e, path_sum (deriv prog env) (paths i) g0 e = 0).
      { intros i NBi e. destruct (HP i) as [_ H]. destruct (paths i) as [|q l]; [reflexivity|]. exfalso. apply NBi. exists q. apply H. left. auto. }
      assert (DEC : forall i, below (pars prog) root i \/ ~ below (pars prog) root i).
      { intros i. destruct (HP i) as [_ H]. destruct (paths i) as [|q l]; [right|left].
        - intros [q P]. apply H in P. destruct P. - exists q. apply H. left. auto. }
      split.
      + rewrite LB. apply (g_len _ _ _ _ _ G).
      + apply (g_env _ _ _ _ _ G).
      + apply (g_dag _ _ _ _ _ G).
      + intros i [V|[q P]]; [apply (g_vis _ _ _ _ _ G); auto|]. apply path_le in P; [|apply (g_dag _ _ _ _ _ G)]. rewrite (g_len _ _ _ _ _ G) in RL. lia.
      + intros i NV e. rewrite (g_acc _ _ _ _ _ G), EMP by tauto. reflexivity.
      + intros i st n' Es En'. destruct (nth_error nodes i) as [n|] eqn:En.
        2:{ apply nth_error_None in En. assert (i < length nodes')%nat by (apply nth_error_Some; congruence). lia. }
        destruct (FN i n En) as (st' & Es' & F & Pi). rewrite Es in Es'. injection Es' as <-.
        destruct (SB i n' n En' En) as (S1 & S2 & S3 & S4).
        assert (FR : ~ (below (pars prog) root i /\ needs prog i) -> n' = n).
        { intros NB'. rewrite (FB i) in En'; [congruence|]. rewrite BB, RQ. auto. }
        destruct F as [F1 F2 F3 F4 F5 F6 F7]. split; try (rewrite ?S1, ?S2, ?S3, ?S4; assumption).
        * intros NE NV. rewrite FR by tauto. apply F5; tauto.
        * intros N. destruct (DEC i) as [B|B].
          -- destruct (NB i n' En') as (x & Ex & Rx); [apply BB; auto|apply RQ; auto|]. rewrite Ex. split; [auto|]. eapply rep_ext; [exact Rx|].
             intros e He. cbv beta; rewrite TOT. reflexivity.
          -- rewrite FR by tauto. specialize (F6 N). destruct (n_grad n) as [x|]; [|tauto]. destruct F6 as [V R]. split; [auto|].
             eapply rep_ext; [exact R|]. intros e He. rewrite (EMP i B). apply eqmod_eq. ring.
        * intros N. rewrite FR by tauto. auto.
  Qed.

  Theorem run_ok evs prog env visited acc fuel w : history s evs prog env visited acc -> (length prog <= fuel)%nat -> ok w ->
    exists nodes w', run alpha ev gen s su mm on fuel evs (mkG [] true, w) = (Ok tt, (mkG nodes true, w')) /\ ok w' /\ Gok prog env visited acc nodes.
  Proof.
    intros H. revert w. induction H as [|evs prog env visited acc st sh v H IH HY|evs prog env visited acc root gradient g0 paths H IH HC HG0 HPa]; intros w Hf Hw.
    - exists [], w. split; [reflexivity|]. split; [exact Hw|]. split; auto.
      + intros i j Hj. unfold pars in Hj. destruct i; destruct Hj.
      + intros ? [].
      + intros i st n Hi. destruct i; discriminate.
    - rewrite app_length in Hf. cbn in Hf. destruct (IH w) as (nodes & w1 & E1 & W1 & G1); [lia|auto|].
      destruct (step_ok prog env visited acc nodes st sh v fuel w1 G1 HY W1) as (nodes' & w' & E2 & W2 & G2).
      exists nodes', w'. split; [|auto]. unfold run. erewrite for_each_app; [exact E2|exact E1].
    - destruct (IH w) as (nodes & w1 & E1 & W1 & G1); [lia|auto|].
      destruct (back_ok prog env visited acc nodes root gradient g0 paths fuel w1 G1 HC HG0 HPa Hf W1) as (nodes' & w' & E2 & W2 & G2).
      exists nodes', w'. split; [|auto]. unfold run. erewrite for_each_app; [exact E2|exact E1].
  Qed.
End Hist.
