(** Programs leave graphs to which L_Flow.v applies. *)
From Coq Require Import Permutation Lia QArith.
From Verif Require Import Util Modular S_Ring S_Tensor S_Autograd S_Flow M_Torch M_Encoder M_Tensor M_Share M_Spdz M_Store M_Fss M_Engine M_Autograd M_Program S_Program L_Autograd L_Back2 L_Flow.
Local Open Scope Z_scope.
Local Open Scope list_scope.

(* ---------------------------------------------------------------------- outlines *)
Section Outline.
  Implicit Types P : list (bool * list nat).
  Definition dag P : Prop := forall i j, In j (opnds P i) -> (j < i)%nat.
  Lemma opnds_lt P t i : (i < length P)%nat -> opnds (P ++ [t]) i = opnds P i.
  Proof. intros H. unfold opnds. rewrite nth_error_app1 by auto. reflexivity. Qed.
  Lemma opnds_new P t : opnds (P ++ [t]) (length P) = snd t.
  Proof. unfold opnds. rewrite nth_error_app2, Nat.sub_diag by auto. reflexivity. Qed.
  Lemma opnds_ge P i : (length P <= i)%nat -> opnds P i = [].
  Proof. intros H. unfold opnds. rewrite (proj2 (nth_error_None P i) H). reflexivity. Qed.
  Lemma dag_snoc P t : dag P -> (forall j, In j (snd t) -> (j < length P)%nat) -> dag (P ++ [t]).
  Proof.
    intros D H i j I. destruct (Nat.lt_trichotomy i (length P)) as [L|[->|L]].
    - rewrite opnds_lt in I by auto. auto.
    - rewrite opnds_new in I. auto.
    - rewrite opnds_ge in I by (rewrite app_length; cbn; lia). contradiction.
  Qed.
  Lemma dag_in P i j : dag P -> In j (opnds P i) -> (j < i < length P)%nat.
  Proof.
    intros D H. split; [auto|]. destruct (Nat.lt_ge_cases i (length P)); auto. rewrite opnds_ge in H by auto. contradiction.
  Qed.
  Lemma wanted_lt P i : wanted P i -> (i < length P)%nat.
  Proof.
    intros H. inversion H as [? ps E|? j I _]; subst; [apply nth_error_Some; congruence|].
    destruct (Nat.lt_ge_cases i (length P)); auto. rewrite opnds_ge in I by auto. contradiction.
  Qed.
  Lemma wanted_snoc P t i : dag P -> (i < length P)%nat -> wanted (P ++ [t]) i <-> wanted P i.
  Proof.
    intros D L. split; intros H; revert L; induction H as [i ps E|i j I H IH]; intros L.
    - rewrite nth_error_app1 in E by auto. eapply want_made; eauto.
    - rewrite opnds_lt in I by auto. eapply want_from; eauto. apply IH. apply D in I. lia.
    - eapply want_made. rewrite nth_error_app1 by auto. eauto.
    - eapply want_from; [rewrite opnds_lt by auto; eauto|]. apply IH. apply D in I. lia.
  Qed.
  Lemma path_snoc_ext P t a b q : dag P -> (a < length P)%nat -> path (opnds (P ++ [t])) a b q <-> path (opnds P) a b q.
  Proof.
    intros D L. split; intros H; revert L; induction H as [i|i k j l q H1 H2 IH]; intros L; try constructor.
    - rewrite opnds_lt in H1 by auto. econstructor; eauto. apply IH. apply nth_error_In in H1. apply D in H1. lia.
    - econstructor; [rewrite opnds_lt by auto; eauto|]. apply IH. apply nth_error_In in H1. apply D in H1. lia.
  Qed.
  Lemma below_snoc P t a b : dag P -> (a < length P)%nat -> below (opnds (P ++ [t])) a b <-> below (opnds P) a b.
  Proof. intros D L. split; intros [q H]; exists q; [rewrite <- path_snoc_ext by eauto|rewrite path_snoc_ext by eauto]; eauto. Qed.
  Lemma below_lt P a b : dag P -> (a < length P)%nat -> below (opnds P) a b -> (b < length P)%nat.
  Proof. intros D L [q H]. pose proof (path_le (opnds P) D _ _ _ H). lia. Qed.
  Lemma used_snoc P t i : used (P ++ [t]) i = (used P i + count_occ Nat.eq_dec (snd t) i)%nat.
  Proof. unfold used. rewrite flat_map_app, count_occ_app. cbn [flat_map]. rewrite app_nil_r. reflexivity. Qed.
  (** the uses of a tensor *)
  Lemma uses_list P i : exists L, NoDup L /\ (forall c k, In (c, k) L <-> nth_error (opnds P c) k = Some i) /\ length L = used P i.
  Proof.
    induction P as [|t P IH] using rev_ind.
    - exists []. split; [constructor|]. split; [|reflexivity]. intros c k. split; [intros []|]. unfold opnds. destruct c; destruct k; discriminate.
    - destruct IH as (L & N & HL & LL).
      set (ks := filter (fun k => match nth_error (snd t) k with Some j => Nat.eqb j i | None => false end) (seq 0 (length (snd t)))).
      exists (L ++ map (pair (length P)) ks).
      assert (KS : forall k, In k ks <-> nth_error (snd t) k = Some i).
      { intros k. unfold ks. rewrite filter_In, in_seq. split.
        - intros [_ H]. destruct (nth_error (snd t) k); [apply Nat.eqb_eq in H; congruence|discriminate].
        - intros H. rewrite H. split; [|apply Nat.eqb_refl]. assert (k < length (snd t))%nat by (apply nth_error_Some; congruence). lia. }
      assert (OUT : forall c k, In (c, k) L -> (c < length P)%nat).
      { intros c k H. apply HL in H. destruct (Nat.lt_ge_cases c (length P)); auto. rewrite opnds_ge in H by auto. destruct k; discriminate. }
      split; [|split].
      + apply NoDup_app_intro; auto.
        * apply NoDup_map_inj; [congruence|]. apply NoDup_filter, seq_NoDup.
        * intros [c k] H H'. apply OUT in H. apply in_map_iff in H'. destruct H' as (k' & E & _). injection E as <- <-. lia.
      + intros c k. rewrite in_app_iff, in_map_iff. destruct (Nat.lt_trichotomy c (length P)) as [LT|[->|LT]].
        * rewrite opnds_lt by auto. rewrite HL. split; [intros [H|(k' & E & _)]; auto; injection E as <- <-; lia|auto].
        * rewrite opnds_new, <- KS. split; [intros [H|(k' & E & H)]; [apply OUT in H; lia|injection E as <-; auto]|]. intros H. right. exists k. auto.
        * rewrite opnds_ge by (rewrite app_length; cbn; lia). split; [|destruct k; discriminate].
          intros [H|(k' & E & _)]; [apply OUT in H; lia|injection E as <- <-; lia].
      + rewrite app_length, map_length, used_snoc, LL. f_equal. apply count_places_2.
  Qed.
End Outline.

Lemma for_each_snoc {W T A} (l : list A) a (f : A -> gcomp W T unit) st st' : for_each (l ++ [a]) f st = (Ok tt, st') ->
  exists st1, for_each l f st = (Ok tt, st1) /\ f a st1 = (Ok tt, st').
Proof.
  revert st. induction l as [|b l IH]; intros st H; cbn [app for_each] in *.
  - apply cbind_inv in H. destruct H as ([] & st1 & H1 & H2). exists st. split; [reflexivity|]. cbn in H2. injection H2 as <-. auto.
  - apply cbind_inv in H. destruct H as ([] & st1 & H1 & H2). destruct (IH _ H2) as (st2 & A1 & A2). exists st2. split; [|auto].
    erewrite cbind_ok; [exact A1|exact H1].
Qed.
Lemma rmap_inv {A} (l : list A) ps : forall ns, rmap (get_nth l) ps = Ok ns -> Forall2 (fun j n => nth_error l j = Some n) ps ns.
Proof.
  induction ps as [|j ps IH]; intros ns H; cbn [rmap] in H; [injection H as <-; constructor|].
  unfold get_nth at 1 in H. destruct (nth_error l j) as [n|] eqn:En; [|discriminate]. cbn [rbind] in H.
  destruct (rmap (get_nth l) ps) as [ns'|]; [|discriminate]. cbn [rbind] in H. injection H as <-. constructor; auto.
Qed.

(* ---------------------------------------------------------------------- programs *)
Section Prog.
  Context {K : Type} (alpha : K -> Z) (ev : fop -> Z -> Z -> K -> Z)
          (gen : fop -> nat -> nat -> result (list (list K))) (s : sess)
          (su : tri_supply) (on : nat -> list nat -> list (list Z)).
  Notation W := (mpcw (K:=K)).
  Notation nd := (node W mpc).

  Record Pinv (l : list (gstep (K:=K))) (nodes : list nd) : Prop := mkPinv {
    p_len : length nodes = length (mades l);
    p_dag : dag (outline l);
    p_roots : forall r g, In (GBack r g) l -> (r < length (mades l))%nat;
    p_par : forall i n, nth_error nodes i = Some n -> n_parents n = opnds (outline l) i;
    p_req : forall i n, nth_error nodes i = Some n -> (n_req n = true <-> wanted (outline l) i);
    p_by : forall i n e, nth_error nodes i = Some n -> nth_error (mades l) i = Some e -> made_by nodes n e;
    p_grad : forall i n, nth_error nodes i = Some n -> (n_grad n <> None <-> wanted (outline l) i /\ seen l i);
    p_edges : forall i n, nth_error nodes i = Some n -> ~ (wanted (outline l) i /\ seen l i) -> n_edges n = Z.of_nat (used (outline l) i) }.

  Lemma mades_app (l l' : list (gstep (K:=K))) : mades (l ++ l') = mades l ++ mades l'.
  Proof. induction l as [|[] l IH]; cbn; rewrite ?IH; auto. Qed.
  Lemma outline_new (l : list (gstep (K:=K))) e : (forall r g, e <> GBack r g) -> outline (l ++ [e]) = outline l ++ [outline1 e].
  Proof. intros H. unfold outline. rewrite mades_app, map_app. destruct e; [reflexivity|reflexivity|exfalso; eapply H; eauto]. Qed.
  Lemma outline_back (l : list (gstep (K:=K))) r g : outline (l ++ [GBack r g]) = outline l.
  Proof. unfold outline. rewrite mades_app, app_nil_r. reflexivity. Qed.
  Lemma outline_length (l : list (gstep (K:=K))) : length (outline l) = length (mades l).
  Proof. apply map_length. Qed.
  Lemma seen_new (l : list (gstep (K:=K))) e i : (forall r g, e <> GBack r g) -> dag (outline l) -> (forall r g, In (GBack r g) l -> (r < length (mades l))%nat) ->
    seen (l ++ [e]) i <-> seen l i.
  Proof.
    intros H D R. unfold seen. rewrite outline_new by auto. split; intros (r & g & I & B); exists r, g.
    - apply in_app_iff in I. destruct I as [I|[I|[]]]; [|exfalso; eapply H; eauto]. split; auto.
      apply (below_snoc _ (outline1 e) r i D) in B; [exact B|rewrite outline_length; eauto].
    - split; [apply in_app_iff; auto|]. apply (below_snoc _ (outline1 e) r i D); [rewrite outline_length; eauto|exact B].
  Qed.
  Lemma seen_lt (l : list (gstep (K:=K))) i : dag (outline l) -> (forall r g, In (GBack r g) l -> (r < length (mades l))%nat) -> seen l i -> (i < length (mades l))%nat.
  Proof. intros D R (r & g & I & B). rewrite <- outline_length. eapply below_lt; eauto. rewrite outline_length. eauto. Qed.

  Lemma made_by_mono (nodes nodes' : list nd) n n' e : (forall j m, nth_error nodes j = Some m -> exists m', nth_error nodes' j = Some m' /\ n_val m' = n_val m) ->
    n_val n' = n_val n -> n_fun n' = n_fun n -> made_by nodes n e -> made_by nodes' n' e.
  Proof.
    intros H V F. destruct e as [x b|ps fw pl|r g]; cbn [made_by]; [congruence| |auto].
    intros (ns & b & w0 & w1 & A & B & C). exists ns, b, w0, w1. split; [|split; congruence]. clear B C.
    induction A as [|j v ps ns E A IH]; constructor; [|auto]. destruct (nth_error nodes j) as [m|] eqn:Em; [|discriminate].
    destruct (H j m Em) as (m' & E1 & E2). rewrite E1. cbn in *. congruence.
  Qed.

  (** a new node *)
  Lemma Pinv_add l nodes e ns n : Pinv l nodes -> (forall r g, e <> GBack r g) ->
    Forall2 (fun j m => nth_error nodes j = Some m) (snd (outline1 e)) ns ->
    length ns = length (snd (outline1 e)) ->
    forall nodes', length nodes' = length (nodes ++ [n]) ->
    (forall i, nth_error nodes' i = option_map (bump (count_occ Nat.eq_dec (snd (outline1 e)) i)) (nth_error (nodes ++ [n]) i)) ->
    n_parents n = snd (outline1 e) -> n_req n = (fst (outline1 e) || existsb n_req ns)%bool -> n_grad n = None -> n_edges n = 0 ->
    (match e with GNew x _ => n_val n = x | GCall _ fw _ => exists b w0 w1, fw (map n_val ns) w0 = (Ok (n_val n, b), w1) /\ n_fun n = Some b | _ => False end) ->
    Pinv (l ++ [e]) nodes'.
  Proof.
    intros I NB F2 LN nodes' LN' HN NP NR NG NE MB. pose proof (p_dag _ _ I) as D. pose proof (p_len _ _ I) as PL.
    assert (OPS : forall j, In j (snd (outline1 e)) -> (j < length nodes)%nat).
    { clear -F2. intros j Hj. induction F2; [destruct Hj|]. destruct Hj as [<-|Hj]; [apply nth_error_Some; congruence|auto]. }
    assert (D' : dag (outline (l ++ [e]))).
    { rewrite outline_new by auto. apply dag_snoc; auto. intros j Hj. rewrite outline_length, <- PL. auto. }
    assert (ML : length (mades (l ++ [e])) = S (length (mades l))).
    { rewrite <- !outline_length, outline_new by auto. rewrite app_length. cbn. lia. }
    assert (SN : forall i, seen (l ++ [e]) i <-> seen l i) by (intros i; apply seen_new; auto; apply (p_roots _ _ I)).
    assert (OLD : forall i n', (i < length nodes)%nat -> nth_error nodes' i = Some n' -> exists n0, nth_error nodes i = Some n0 /\ n' = bump (count_occ Nat.eq_dec (snd (outline1 e)) i) n0).
    { intros i n' L H. rewrite HN, nth_error_app1 in H by auto. destruct (nth_error nodes i) as [n0|]; [|discriminate]. cbn in H. injection H as <-. eauto. }
    assert (NEW : forall n', nth_error nodes' (length nodes) = Some n' -> n' = n).
    { intros n' H. rewrite HN, nth_error_app2, Nat.sub_diag in H by auto. cbn in H. injection H as <-.
      rewrite (proj1 (count_occ_not_In Nat.eq_dec _ _)); [apply bump_0|]. intros J. apply OPS in J. lia. }
    assert (CASES : forall i n', nth_error nodes' i = Some n' -> (i < length nodes)%nat \/ i = length nodes).
    { intros i n' H. assert (i < length nodes')%nat by (apply nth_error_Some; congruence). rewrite LN', app_length in H0. cbn in H0. lia. }
    assert (NSEEN : ~ seen l (length nodes)).
    { intros S. apply seen_lt in S; auto; [lia|apply (p_roots _ _ I)]. }
    assert (WN : wanted (outline (l ++ [e])) (length nodes) <-> n_req n = true).
    { rewrite outline_new, NR, PL by auto. rewrite <- (outline_length l). split.
      - intros Wt. inversion Wt as [? ps E|? j J Wj]; subst.
        + rewrite nth_error_app2, Nat.sub_diag in E by auto. cbn in E. injection E as E. rewrite E. reflexivity.
        + rewrite opnds_new in J. apply orb_true_iff. right. apply existsb_exists.
          assert (X : exists m, In m ns /\ nth_error nodes j = Some m).
          { clear -F2 J. induction F2; [destruct J|]. destruct J as [->|J]; [exists y; split; [left|]; auto|]. destruct (IHF2 J) as (m & A & B). exists m. split; [right|]; auto. }
          destruct X as (m & Im & Em). exists m. split; auto. apply (p_req _ _ I j m Em). apply wanted_snoc in Wj; auto. rewrite outline_length, <- PL. auto.
      - intros H. apply orb_true_iff in H. destruct H as [H|H].
        + apply (want_made _ _ (snd (outline1 e))). rewrite nth_error_app2, Nat.sub_diag by auto. cbn. destruct (outline1 e) as [b ps]. cbn in H. subst. reflexivity.
        + apply existsb_exists in H. destruct H as (m & Im & Qm).
          assert (X : exists j, In j (snd (outline1 e)) /\ nth_error nodes j = Some m).
          { clear -F2 Im. induction F2; [destruct Im|]. destruct Im as [->|J]; [exists x; split; [left|]; auto|]. destruct (IHF2 J) as (j & A & B). exists j. split; [right|]; auto. }
          destruct X as (j & Ij & Ej). eapply want_from; [rewrite opnds_new; exact Ij|]. apply wanted_snoc; auto.
          * rewrite outline_length, <- PL. apply nth_error_Some. congruence.
          * apply (p_req _ _ I j m Ej). auto. }
    assert (W0 : forall i, (i < length nodes)%nat -> wanted (outline (l ++ [e])) i <-> wanted (outline l) i).
    { intros i L. rewrite outline_new by auto. apply wanted_snoc; auto. rewrite outline_length, <- PL. auto. }
    split.
    - rewrite LN', app_length, ML, PL. cbn. lia.
    - exact D'.
    - intros r g J. rewrite ML. apply in_app_iff in J. destruct J as [J|[J|[]]]; [|exfalso; eapply NB; eauto]. apply (p_roots _ _ I) in J. lia.
    - intros i n' H. rewrite outline_new by auto. destruct (CASES i n' H) as [L| ->].
      + destruct (OLD i n' L H) as (n0 & E0 & ->). cbn [bump n_parents]. rewrite opnds_lt by (rewrite outline_length, <- PL; auto). apply (p_par _ _ I). auto.
      + rewrite (NEW _ H), PL, <- outline_length, opnds_new. auto.
    - intros i n' H. destruct (CASES i n' H) as [L| ->].
      + destruct (OLD i n' L H) as (n0 & E0 & ->). cbn [bump n_req]. rewrite W0 by auto. apply (p_req _ _ I). auto.
      + rewrite (NEW _ H). symmetry. exact WN.
    - assert (MONO : forall j m, nth_error nodes j = Some m -> exists m', nth_error nodes' j = Some m' /\ n_val m' = n_val m).
      { intros j m Hj. exists (bump (count_occ Nat.eq_dec (snd (outline1 e)) j) m). split; [|reflexivity].
        rewrite HN, nth_error_app1, Hj by (apply nth_error_Some; congruence). reflexivity. }
      intros i n' e' H He. destruct (CASES i n' H) as [L| ->].
      + destruct (OLD i n' L H) as (n0 & E0 & ->). rewrite mades_app, nth_error_app1 in He by lia.
        eapply made_by_mono; [exact MONO| | |eapply (p_by _ _ I i n0 e'); eauto]; reflexivity.
      + rewrite (NEW _ H) in *. rewrite mades_app, PL, nth_error_app2, Nat.sub_diag in He by auto.
        assert (EE : e' = e) by (destruct e; cbn in He; [congruence|congruence|exfalso; eapply NB; eauto]). subst e'.
        destruct e as [x b|ps fw pl|r g]; cbn [made_by]; [auto| |contradiction]. destruct MB as (b & w0 & w1 & A & B).
        exists (map n_val ns), b, w0, w1. split; [|auto]. cbn [outline1 snd] in F2. clear -F2 MONO. induction F2 as [|j m ps ns E F IH]; constructor; auto.
        destruct (MONO j m E) as (m' & E1 & E2). rewrite E1. cbn. congruence.
    - intros i n' H. rewrite SN. destruct (CASES i n' H) as [L| ->].
      + destruct (OLD i n' L H) as (n0 & E0 & ->). cbn [bump n_grad]. rewrite W0 by auto. apply (p_grad _ _ I). auto.
      + rewrite (NEW _ H), NG. split; [congruence|]. tauto.
    - intros i n' H. rewrite SN, outline_new, used_snoc by auto. rewrite <- outline_new by auto. destruct (CASES i n' H) as [L| ->].
      + destruct (OLD i n' L H) as (n0 & E0 & ->). cbn [bump n_edges]. rewrite W0 by auto. intros X. rewrite (p_edges _ _ I i n0 E0 X). lia.
      + intros _. rewrite (NEW _ H), NE. rewrite (proj1 (count_occ_not_In Nat.eq_dec (snd (outline1 e)) (length nodes))) by (intros J; apply OPS in J; lia).
        destruct (uses_list (outline l) (length nodes)) as (L & _ & HL & LL). rewrite <- LL. destruct L as [|[c k] L]; [reflexivity|].
        exfalso. assert (Q : nth_error (opnds (outline l) c) k = Some (length nodes)) by (apply HL; left; auto). apply nth_error_In in Q.
        apply dag_in in Q; auto. rewrite outline_length in Q. lia.
  Qed.

  Lemma par_outline l nodes : Pinv l nodes -> forall i, L_Autograd.par nodes i = opnds (outline l) i.
  Proof.
    intros I i. unfold L_Autograd.par. destruct (nth_error nodes i) as [n|] eqn:E; [apply (p_par _ _ I); auto|].
    rewrite opnds_ge; auto. apply nth_error_None in E. rewrite outline_length, <- (p_len _ _ I). auto.
  Qed.
  Lemma req_outline l nodes : Pinv l nodes -> forall i, L_Autograd.req nodes i = true <-> wanted (outline l) i.
  Proof.
    intros I i. unfold L_Autograd.req. destruct (nth_error nodes i) as [n|] eqn:E; [apply (p_req _ _ I); auto|].
    split; [discriminate|]. intros H. apply wanted_lt in H. apply nth_error_None in E. rewrite outline_length, <- (p_len _ _ I) in H. lia.
  Qed.

  Lemma flows_impl {T} p root (seed seed' : T -> Prop) old (ap ap' : nat -> T -> list T -> Prop) (add add' : T -> T -> T -> Prop) i L x :
    (forall x, seed x -> seed' x) -> (forall c x gs, ap c x gs -> ap' c x gs) -> (forall x y z, add x y z -> add' x y z) ->
    flows p root seed old ap add i L x -> flows p root seed' old ap' add' i L x.
  Proof.
    intros H1 H2 H3 F. induction F.
    - apply fl_old; auto.
    - eapply fl_root; eauto.
    - eapply fl_use; eauto.
    - eapply fl_add; eauto.
  Qed.

  Lemma back_flow l nodes root gradient fuel act w nodes' act' w' : Pinv l nodes -> fair (outline l) (seen l) root -> (length (mades l) <= fuel)%nat ->
    mbackward alpha ev gen s su on fuel root gradient (mkG nodes act, w) = (Ok tt, (mkG nodes' act', w')) ->
    act' = true /\ length nodes' = length nodes /\
    (forall i m m0, nth_error nodes' i = Some m -> nth_error nodes i = Some m0 -> same m m0) /\
    (forall i, ~ (below (opnds (outline l)) root i /\ wanted (outline l) i) -> nth_error nodes' i = nth_error nodes i) /\
    (forall i m, nth_error nodes' i = Some m -> below (opnds (outline l)) root i -> wanted (outline l) i ->
       exists x, n_grad m = Some x /\ (i = root -> start s on nodes root gradient x) /\
         (i <> root -> exists L, flows (opnds (outline l)) root (start s on nodes root gradient) (old_grad nodes) (passes_on nodes)
             (fun x y z => returns (madd alpha ev gen s su x y) z) i L x /\ all_uses (opnds (outline l)) root (old_grad nodes) i L)).
  Proof.
    intros I (FP & FW & FU & FB) HF EB. pose proof (par_outline _ _ I) as PO. pose proof (req_outline _ _ I) as RO.
    assert (BO : forall i, below (L_Autograd.par nodes) root i <-> below (opnds (outline l)) root i).
    { intros i. split; apply L_Flow.below_ext; intros; auto. }
    assert (RL : (root < length nodes)%nat) by (apply wanted_lt in FW; rewrite outline_length, <- (p_len _ _ I) in FW; auto).
    destruct (nth_error nodes root) as [n0|] eqn:E0; [|apply nth_error_None in E0; lia].
    assert (R0 : n_req n0 = true) by (apply (p_req _ _ I root n0 E0); auto).
    assert (P0 : n_parents n0 <> []) by (rewrite (p_par _ _ I root n0 E0); auto).
    assert (BR : below (opnds (outline l)) root root) by (exists []; constructor).
    assert (NS0 : ~ seen l root) by (apply (FB root BR FW FP)).
    assert (EDG : n_edges n0 <= 1) by (rewrite (p_edges _ _ I root n0 E0) by tauto; lia).
    unfold mbackward in EB.
    destruct (flow m_shape (madd alpha ev gen s su) (mones s on) (fun _ => true) (fun _ => True) nodes root gradient n0) with
      (fuel := fuel) (act := act) (w := w) (nodes' := nodes') (act' := act') (w' := w') as (A & B & C & D & F); auto.
    - intros x y w1 a w2 _ _. reflexivity.
    - intros sh w1 a w2 _ _. reflexivity.
    - intros i n _ b x _ w1 a w2 _ _. reflexivity.
    - intros x y w1 a w2 _ _. exact Logic.I.
    - intros sh w1 a w2 _ _. exact Logic.I.
    - intros i n b x _ _ w1 a w2 _ _. exact Logic.I.
    - intros i j. rewrite PO. apply (p_dag _ _ I).
    - intros i j J Q. rewrite PO in J. apply RO. apply RO in Q. eapply want_from; eauto.
    - intros i n En Rn Pn Bi NR. apply BO in Bi. assert (Wi : wanted (outline l) i) by (apply (p_req _ _ I i n En); auto).
      rewrite (p_par _ _ I i n En) in Pn. destruct (FB i Bi Wi Pn) as [NS US].
      destruct (uses_list (outline l) i) as (L & N & HL & LL). exists L. split; [auto|]. split.
      + intros c k. rewrite HL, PO. split; [|tauto]. intros H. split; [|auto]. apply BO. apply US; auto. eapply nth_error_In; eauto.
      + rewrite (p_edges _ _ I i n En) by tauto. congruence.
    - intros i n x En Rn Bi Gn. apply BO in Bi. assert (Wi : wanted (outline l) i) by (apply (p_req _ _ I i n En); auto).
      rewrite (p_par _ _ I i n En). destruct (opnds (outline l) i) as [|o os] eqn:OO; auto. exfalso.
      destruct (FB i Bi Wi) as [NS _]; [congruence|]. apply NS. apply (p_grad _ _ I i n En). congruence.
    - rewrite (p_len _ _ I) in RL. lia.
    - split; [auto|]. split; [auto|]. split; [auto|]. split.
      + intros i H. apply D. rewrite BO, RO. auto.
      + intros i m Em Bi Wi. destruct (F i m Em) as (x & Gx & S1 & S2); [apply BO; auto|apply RO; auto|]. exists x. split; [auto|].
        assert (SEED : forall y, seedp m_shape (mones s on) (fun _ => true) (fun _ => True) gradient n0 y -> start s on nodes root gradient y).
        { intros y H. unfold seedp, start in *. destruct gradient as [g|]; [auto|]. exists n0. split; [auto|]. destruct H as (w1 & w2 & _ & H & _). exists w1, w2. auto. }
        split; [auto|]. intros NR. destruct (S2 NR) as (L & FL & AU). exists L. split.
        * eapply flows_ext; [exact PO|]. eapply flows_impl; [exact SEED| | |exact FL].
          -- intros c y gs (n & b & H1 & H2 & w1 & w2 & _ & H3 & _). exists n, b. repeat split; auto. exists w1, w2. auto.
          -- intros y z t (w1 & w2 & _ & H & _). exists w1, w2. auto.
        * eapply all_uses_ext; [exact PO|exact AU].
  Qed.

  Lemma Pinv_back l nodes root gradient fuel act w nodes' act' w' : Pinv l nodes -> fair (outline l) (seen l) root -> (length (mades l) <= fuel)%nat ->
    mbackward alpha ev gen s su on fuel root gradient (mkG nodes act, w) = (Ok tt, (mkG nodes' act', w')) -> Pinv (l ++ [GBack root gradient]) nodes'.
  Proof.
    intros I FA HF EB. destruct (back_flow _ _ _ _ _ _ _ _ _ _ I FA HF EB) as (_ & LN & SM & FR & GR).
    assert (ML : mades (l ++ [GBack root gradient]) = mades l) by (rewrite mades_app, app_nil_r; auto).
    assert (SN : forall i, seen (l ++ [GBack root gradient]) i <-> seen l i \/ below (opnds (outline l)) root i).
    { intros i. unfold seen. rewrite outline_back. split.
      - intros (r & g & J & B). apply in_app_iff in J. destruct J as [J|[J|[]]]; [left; eauto|]. injection J as <- <-. auto.
      - intros [(r & g & J & B)|B]; [exists r, g|exists root, gradient]; (split; [apply in_app_iff|auto]); [auto|right; left; auto]. }
    assert (OLD : forall i m, nth_error nodes' i = Some m -> exists m0, nth_error nodes i = Some m0 /\ same m m0).
    { intros i m E. destruct (nth_error nodes i) as [m0|] eqn:E0; [exists m0; eauto|]. exfalso. apply nth_error_None in E0.
      assert (i < length nodes')%nat by (apply nth_error_Some; congruence). lia. }
    assert (RD : forall i, below (opnds (outline l)) root i \/ ~ below (opnds (outline l)) root i).
    { intros i. destruct (reachb (opnds (outline l)) root i) eqn:R; [left; apply reachb_ok; auto|right]; [apply (p_dag _ _ I)|].
      intros H. apply reachb_ok in H; [congruence|apply (p_dag _ _ I)]. }
    destruct FA as (FP & FW & _). apply wanted_lt in FW. rewrite outline_length in FW.
    assert (CASE : forall i m, nth_error nodes' i = Some m -> (below (opnds (outline l)) root i /\ wanted (outline l) i /\ n_grad m <> None) \/
               (~ (below (opnds (outline l)) root i /\ wanted (outline l) i) /\ nth_error nodes i = Some m)).
    { intros i m E. destruct (OLD i m E) as (m0 & E0 & S0).
      destruct (RD i) as [B|B]; [|right; split; [tauto|]; rewrite <- FR by tauto; auto].
      destruct (n_req m0) eqn:Q.
      - assert (Wi : wanted (outline l) i) by (apply (p_req _ _ I i m0 E0); auto). left. split; [auto|]. split; [auto|].
        destruct (GR i m E B Wi) as (x & G & _). congruence.
      - right. assert (NW : ~ wanted (outline l) i) by (intros Wi; apply (p_req _ _ I i m0 E0) in Wi; congruence). split; [tauto|]. rewrite <- FR by tauto. auto. }
    split; rewrite ?ML, ?outline_back.
    - rewrite LN. apply (p_len _ _ I).
    - apply (p_dag _ _ I).
    - intros r g J. apply in_app_iff in J. destruct J as [J|[J|[]]]; [apply (p_roots _ _ I) in J; auto|]. injection J as <- <-. auto.
    - intros i m E. destruct (OLD i m E) as (m0 & E0 & (_ & _ & _ & S0)). rewrite S0. apply (p_par _ _ I). auto.
    - intros i m E. destruct (OLD i m E) as (m0 & E0 & (_ & S0 & _)). rewrite S0. apply (p_req _ _ I). auto.
    - intros i m e E He. destruct (OLD i m E) as (m0 & E0 & (S1 & _ & S2 & _)). eapply made_by_mono; [|exact S1|exact S2|eapply (p_by _ _ I); eauto].
      intros j n Ej. destruct (nth_error nodes' j) as [n'|] eqn:Ej'.
      + exists n'. split; [auto|]. destruct (OLD j n' Ej') as (n2 & E2 & (V & _)). congruence.
      + exfalso. apply nth_error_None in Ej'. assert (j < length nodes)%nat by (apply nth_error_Some; congruence). lia.
    - intros i m E. rewrite SN. destruct (CASE i m E) as [(B & Wi & G)|(NB & E0)]; [tauto|].
      rewrite (p_grad _ _ I i m E0). tauto.
    - intros i m E. rewrite SN. destruct (CASE i m E) as [(B & Wi & G)|(NB & E0)]; [tauto|]. intros H. apply (p_edges _ _ I i m E0). tauto.
  Qed.

  Lemma Pinv_nil : Pinv [] [].
  Proof.
    split; try reflexivity; try (intros [|i] n H; discriminate).
    - intros i j H. unfold opnds in H. destruct i; contradiction.
    - intros r g [].
  Qed.

  Theorem run_inv fuel l w0 nodes act w : fairs l -> (length (mades l) <= fuel)%nat ->
    gexecs alpha ev gen s su on fuel l (mkG [] true, w0) = (Ok tt, (mkG nodes act, w)) -> act = true /\ Pinv l nodes.
  Proof.
    intros F. revert nodes act w. induction F as [|l x b F IH|l ps fw plain F IH|l root g F IH FR]; intros nodes act w HF E.
    - cbn in E. inversion E; subst. split; [auto|apply Pinv_nil].
    - apply for_each_snoc in E. destruct E as ([[nodes1 act1] w1] & E1 & E2). rewrite mades_app, app_length in HF. cbn in HF.
      destruct (IH _ _ _ ltac:(lia) E1) as [-> I]. cbn [gexec] in E2. unfold leaf, append, cbind, cret in E2. cbn [fst snd g_nodes g_active] in E2. inversion E2; subst.
      split; [auto|]. eapply (Pinv_add l nodes1 (GNew x b) []); eauto; try reflexivity; try discriminate.
      + constructor.
      + intros i. cbn [outline1 snd count_occ]. destruct (nth_error (nodes1 ++ _) i); cbn [option_map]; [rewrite bump_0|]; reflexivity.
      + cbn. rewrite orb_false_r. reflexivity.
    - apply for_each_snoc in E. destruct E as ([[nodes1 act1] w1] & E1 & E2). rewrite mades_app, app_length in HF. cbn in HF.
      destruct (IH _ _ _ ltac:(lia) E1) as [-> I]. cbn [gexec] in E2. apply cbind_inv in E2. destruct E2 as (i0 & st2 & E2 & E3). cbn in E3. injection E3 as ->.
      unfold record in E2. cbn [fst g_active] in E2. unfold forward in E2. cbn [fst g_nodes] in E2.
      destruct (rmap (get_nth nodes1) ps) as [ns|] eqn:ER; [|discriminate]. pose proof (rmap_inv _ _ _ ER) as F2.
      rewrite (cbind_ok (set_active false) _ (mkG nodes1 true, w1) tt (mkG nodes1 false, w1) eq_refl) in E2.
      apply cbind_inv in E2. destruct E2 as (r & st3 & E3 & E2). unfold liftw in E3. cbn [fst snd] in E3.
      destruct (fw (map n_val ns) w1) as [rr w2] eqn:EF. inversion E3; subst. clear E3.
      rewrite (cbind_ok (set_active true) _ (mkG nodes1 false, w2) tt (mkG nodes1 true, w2) eq_refl) in E2.
      unfold append in E2. erewrite cbind_ok in E2; [|reflexivity]. cbn [fst snd g_nodes g_active] in E2.
      set (n := mkN (fst r) (existsb n_req ns) (Some (snd r)) ps None 0) in *.
      destruct (for_each_bump ps (nodes1 ++ [n]) true w2) as (nodes2 & EB & LB & NB).
      { intros j Hj. rewrite app_length. clear -F2 Hj. induction F2; [destruct Hj|]. destruct Hj as [<-|Hj]; [|auto].
        assert (x < length nodes1)%nat by (apply nth_error_Some; congruence). cbn. lia. }
      erewrite cbind_ok in E2; [|exact EB]. cbn in E2. inversion E2; subst. split; [auto|].
      eapply (Pinv_add l nodes1 (GCall ps fw plain) ns n); eauto; try reflexivity; try discriminate.
      + cbn. clear -F2. induction F2; cbn; auto.
      + exists (snd r), w1, w. split; [|reflexivity]. rewrite EF. destruct r; reflexivity.
    - apply for_each_snoc in E. destruct E as ([[nodes1 act1] w1] & E1 & E2). rewrite mades_app, app_length in HF. cbn in HF.
      destruct (IH _ _ _ ltac:(lia) E1) as [-> I]. cbn [gexec] in E2. split.
      + destruct (back_flow l nodes1 root g fuel true w1 nodes act w) as [A _]; auto. lia.
      + apply (Pinv_back l nodes1 root g fuel true w1 nodes act w); auto. lia.
  Qed.
End Prog.
