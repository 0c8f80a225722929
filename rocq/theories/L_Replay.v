(** Lemmas: recording the triples a computation needs, and replaying the record. *)
From Coq Require Import String.
From Verif Require Import Util S_Ring S_Tensor S_Bil S_Spdz M_Torch M_Tensor M_Share M_Spdz M_Store S_Store
  L_StoreKey L_Store L_Take L_Bil L_Mul.
Local Open Scope list_scope.

Definition keyb (k : kkey) (g : treq) : bool := if kkey_dec k (keyof g) then true else false.
Definition lentry (g : treq) : option (pyshape * pyshape) * treq :=
  (Some (PTuple (fst (snd g)), PTuple (snd (snd g))), g).
Definition okey (g : treq) : string := op_key (kind_of (fst g)).
Definition tlog : Type := list (string * list (option (pyshape * pyshape) * treq)).

Lemma op_key_inj k k' : op_key k = op_key k' -> k = k'.
Proof. destruct k, k'; intros H; try reflexivity; discriminate H. Qed.

(** shape of the log after the calls [sq] *)
Definition log_ok (log : tlog) (sq : list treq) : Prop :=
  NoDup (map fst log) /\
  (forall o l e, In (o, l) log -> In e l -> e = lentry (snd e) /\ o = okey (snd e)) /\
  (forall k, filter (keyb k) (map snd (flat_map snd log)) = filter (keyb k) sq).

Lemma log_add_cons (o : string) l (log : tlog) o' e :
  log_add ((o, l) :: log) o' e = if string_dec o' o then (o, l ++ [e]) :: log else (o, l) :: log_add log o' e.
Proof.
  unfold log_add. cbn [dget dset]. destruct (string_dec o' o) as [->|]; [destruct (string_dec o o); [reflexivity|congruence]|].
  destruct (string_dec o' o); [congruence|]. reflexivity.
Qed.

Lemma log_add_nil o e : log_add ([] : tlog) o e = [(o, [e])].
Proof. reflexivity. Qed.
Local Arguments log_add : simpl never.
Local Arguments okey : simpl never.

Lemma log_ok_add log sq g : log_ok log sq -> log_ok (logged true log g) (sq ++ [g]).
Proof.
  unfold logged. fold (lentry g). fold (okey g). intros [ND [WF FL]].
  split; [|split].
  - clear WF FL. induction log as [|[o l] log IH].
    + rewrite log_add_nil. cbn. constructor; [intros []|constructor].
    + inversion ND as [|? ? N1 N2]; subst. rewrite log_add_cons. destruct (string_dec (okey g) o) as [E|N]; cbn.
      * constructor; auto.
      * constructor; [|apply IH, N2]. intros H. clear IH N2. apply N1. clear N1 ND.
        induction log as [|[o2 l2] log IH]; [rewrite log_add_nil in H; destruct H as [H|[]]; cbn in H; congruence|].
        rewrite log_add_cons in H. destruct (string_dec (okey g) o2); cbn in *; [exact H|].
        destruct H as [H|H]; auto.
  - clear ND FL. intros o l e. induction log as [|[o2 l2] log IH]; intros H1 H2.
    + rewrite log_add_nil in H1. destruct H1 as [H1|[]]. injection H1 as <- <-. destruct H2 as [<-|[]]. auto.
    + rewrite log_add_cons in H1. destruct (string_dec (okey g) o2) as [E|N]; cbn in H1.
      * destruct H1 as [H1|H1]; [|exact (WF o l e (or_intror H1) H2)]. injection H1 as <- <-.
        apply in_app_or in H2 as [H2|[<-|[]]]; [exact (WF _ _ e (or_introl eq_refl) H2)|]. cbn. auto.
      * destruct H1 as [H1|H1]; [injection H1 as <- <-; exact (WF _ _ e (or_introl eq_refl) H2)|].
        apply IH; auto. intros o' l' e' G1 G2. exact (WF o' l' e' (or_intror G1) G2).
  - intros k. rewrite filter_app, <- FL. clear FL.
    induction log as [|[o l] log IH].
    + rewrite log_add_nil. reflexivity.
    + inversion ND as [|? ? N1 N2]; subst.
      rewrite log_add_cons. destruct (string_dec (okey g) o) as [E|N]; cbn [flat_map snd].
      * rewrite !map_app, !filter_app. cbn [map snd lentry]. rewrite <- !app_assoc. f_equal.
        cbn [filter]. destruct (keyb k g) eqn:Ek; [|rewrite app_nil_r; reflexivity].
        unfold keyb in Ek. destruct (kkey_dec k (keyof g)) as [->|]; [clear Ek|discriminate].
        assert (Z : filter (keyb (keyof g)) (map snd (flat_map snd log)) = []).
        { assert (X : forall e, In e (flat_map snd log) -> keyb (keyof g) (snd e) = false).
          { intros e He. apply in_flat_map in He as [[o' l'] [H1 H2]]. cbn in H2.
            destruct (WF o' l' e (or_intror H1) H2) as [_ E2]. unfold keyb.
            destruct (kkey_dec _ _) as [E3|]; auto. exfalso. apply N1. apply in_map_iff.
            exists (o', l'). split; [|exact H1]. cbn. rewrite E2, <- E. unfold okey. unfold keyof in E3. congruence. }
          clear -X. induction (flat_map snd log) as [|e es IH]; auto. cbn. rewrite X by (left; reflexivity).
          apply IH. intros; apply X; right; auto. }
        rewrite Z. reflexivity.
      * rewrite !map_app, !filter_app, IH, app_assoc; auto. intros; eapply WF; [right|]; eauto.
Qed.

(** generating one triple after the other *)
Fixpoint gen_seq {P} (gen : nat -> treq -> result (list (list P))) (sq : list treq) (w : tworld P) : result unit * tworld P :=
  match sq with
  | [] => (Ok tt, w)
  | g :: r => match gen_call gen (fst g) (fst (snd g)) (snd (snd g)) w with
              | (Err e, w') => (Err e, w')
              | (Ok _, w') => gen_seq gen r w'
              end
  end.

Lemma gen_seq_app {P} (gen : nat -> treq -> result (list (list P))) s1 : forall s2 w,
  gen_seq gen (s1 ++ s2) w = match gen_seq gen s1 w with (Ok _, w') => gen_seq gen s2 w' | (Err e, w') => (Err e, w') end.
Proof.
  induction s1 as [|g s1 IH]; intros s2 w; cbn [app gen_seq]; auto.
  destruct (gen_call _ _ _ _ w) as [[x|e] w']; auto.
Qed.

Lemma replay_seq {P} (gen : nat -> treq -> result (list (list P))) (log : tlog) : forall w,
  (forall o l e, In (o, l) log -> In e l -> e = lentry (snd e) /\ o = okey (snd e)) ->
  replay (beaver_gens gen) beaver_adders log w = gen_seq gen (map snd (flat_map snd log)) w.
Proof.
  induction log as [|[o l] log IH]; intros w WF; cbn [replay flat_map snd map gen_seq]; auto.
  rewrite map_app, gen_seq_app.
  assert (E : replay_op (beaver_gens gen) beaver_adders o l w = gen_seq gen (map snd l) w).
  { assert (WF' : forall e, In e l -> e = lentry (snd e) /\ o = okey (snd e)) by (intros; eapply WF; [left; reflexivity|auto]).
    clear WF IH. revert w. induction l as [|e l IH]; intros w; cbn [replay_op map gen_seq]; auto.
    destruct (WF' e (or_introl eq_refl)) as [E1 E2]. specialize (IH (fun e H => WF' e (or_intror H))). clear WF'.
    rewrite E1. cbn [lentry]. rewrite E2 in *. destruct e as [pa [op [a b]]]. cbn [fst snd] in *.
    unfold gen_call. unfold okey in *. cbn [fst snd] in *.
    destruct (generate_primitives _ _ _ _ _ w) as [[x|er] w']; auto. }
  rewrite E. destruct (gen_seq gen (map snd l) w) as [[x|er] w']; auto.
  apply IH. intros; eapply WF; [right|]; eauto.
Qed.

Lemma keyb_self g : keyb (keyof g) g = true.
Proof. unfold keyb. destruct (kkey_dec _ _); congruence. Qed.

Lemma gen_seq_ok {P} n (gen : nat -> treq -> result (list (list P))) (Src : nat -> treq -> list P -> Prop) (Q : treq -> Prop) sq :
  (0 < n)%nat -> one_each n gen -> (forall i g ts, from_call gen i g ts -> Src i g ts) ->
  (forall i g, In g sq -> exists rows, gen i g = Ok rows) -> (forall g, In g sq -> Q g) ->
  forall U pend w, winv n Src Q U pend w ->
  exists X, fst (gen_seq gen sq w) = Ok tt /\ w_logging (snd (gen_seq gen sq w)) = w_logging w /\
    (forall k, map (fun e => snd (fst e)) (X k) = filter (keyb k) sq) /\
    (forall k e, In e (X k) -> exists i, from_call gen i (snd (fst e)) (snd e)) /\
    winv n Src Q U (fun k => pend k ++ X k) (snd (gen_seq gen sq w)).
Proof.
  intros Hn HG HS. induction sq as [|g sq IH]; intros HT HQ U pend w HW; cbn [gen_seq].
  - exists (fun _ => []). cbn. split; auto. split; auto. split; auto. split; [intros k e []|].
    eapply winv_ext; [|exact HW]. intros k. rewrite app_nil_r. reflexivity.
  - destruct g as [op [a b]]. cbn [fst snd].
    destruct (winv_gen n gen Src Q U pend w op a b Hn HG HS HW (HQ _ (or_introl eq_refl)))
      as [[e [_ [Eg _]]]|[ts [Ht [Fc [Ec [El [_ HW']]]]]]].
    + exfalso. destruct (HT (w_calls w) (op, (a, b)) (or_introl eq_refl)) as [rows Er]. congruence.
    + destruct (gen_call gen op a b w) as [rr w'] eqn:Eg. cbn [fst snd] in *. subst rr.
      destruct (IH (fun i g H => HT i g (or_intror H)) (fun g H => HQ g (or_intror H)) U _ w' HW') as [X [H1 [H2 [H3 [H4 H5]]]]].
      set (g := (op, (a, b))) in *.
      exists (fun k => (if kkey_dec k (keyof g) then [(w_calls w, g, ts)] else []) ++ X k).
      split; [exact H1|]. split; [congruence|]. split; [|split].
      * intros k. rewrite map_app, H3. cbn [filter]. unfold keyb at 2. destruct (kkey_dec k (keyof g)); reflexivity.
      * intros k e He. apply in_app_or in He as [He|He]; [|eauto].
        destruct (kkey_dec k (keyof g)); [|destruct He]. destruct He as [<-|[]]. exists (w_calls w). exact Fc.
      * eapply winv_ext; [|exact H5]. intros k. cbn beta. unfold upd.
        destruct (kkey_dec k (keyof g)) as [->|N]; [rewrite app_assoc|]; reflexivity.
Qed.

Lemma no_gen_one {P} n : one_each n (@no_gen P).
Proof. intros i g rows H. discriminate H. Qed.

Lemma winv_weaken {P} n (Src Src' : nat -> treq -> list P -> Prop) (Q Q' : treq -> Prop) U pend w :
  (forall i g ts, Src i g ts -> Src' i g ts) -> (forall g, Q g -> Q' g) -> winv n Src Q U pend w -> winv n Src' Q' U pend w.
Proof.
  intros H1 H2 [WH WE WI]. constructor; auto. intros k e H. destruct (WE k e H) as [A [B C]]. auto.
Qed.

Lemma run_record {P} n (gen : nat -> treq -> result (list (list P))) (SrcA SrcB : nat -> treq -> list P -> Prop) (QA QB : treq -> Prop) c :
  (0 < n)%nat -> one_each n gen -> (forall i g ts, from_call gen i g ts -> SrcA i g ts) -> (forall g, QA g) -> (forall g, QB g) ->
  forall UA pendA wA, winv n SrcA QA UA pendA wA -> w_logging wA = true ->
  all_ok (fst (wev_run gen (prods c) wA)) ->
  exists sq, w_log (snd (wev_run gen (prods c) wA)) = fold_left (logged true) sq (w_log wA) /\
    (forall g, In g sq -> exists i rows, gen i g = Ok rows) /\
    forall UB wB X, (forall k, map (fun e => snd (fst e)) (X k) = filter (keyb k) sq) ->
      winv n SrcB QB UB (fun k => pendA k ++ X k) wB ->
      Forall2 (fun r r' => exists ts ts' i i' g, r = Ok (ts, ts) /\ r' = Ok (ts', ts') /\ SrcA i g ts /\ SrcB i' g ts')
        (fst (wev_run gen (prods c) wA)) (fst (wev_run no_gen (prods c) wB)) /\
      exists UA' UB' pend', winv n SrcA QA UA' pend' (snd (wev_run gen (prods c) wA)) /\
                            winv n SrcB QB UB' pend' (snd (wev_run no_gen (prods c) wB)).
Proof.
  intros Hn HG HS HQA HQB. induction c as [|g c IH]; intros UA pendA wA HA HL HO.
  - exists []. cbn. split; auto. split; [intros g []|]. intros UB wB X HX HB. split; [constructor|].
    exists UA, UB, pendA. split; [exact HA|]. eapply winv_ext; [|exact HB]. intros k. cbn beta.
    assert (X k = []) as ->; [|apply app_nil_r]. specialize (HX k). destruct (X k); [auto|discriminate HX].
  - cbn [prods map wev_run wev_step] in *. destruct g as [op [a b]]. cbn [fst snd] in *. fold (prods c) in *.
    pose proof (take_step n gen SrcA QA UA pendA wA op a b Hn HG HS HA (HQA _)) as T. cbn zeta in T.
    set (g := (op, (a, b))) in *.
    destruct (take gen op a b wA) as [r wA1] eqn:Et. cbn [fst snd] in *.
    destruct (wev_run gen (prods c) wA1) as [os wA2] eqn:Er. cbn [fst snd app] in *.
    inversion HO as [|? ? [x Hr] HO']; subst.
    destruct (pendA (keyof g)) as [|e L] eqn:E.
    + destruct T as [[e [T1 _]]|[ts [T1 [T2 [T3 [T4 [T5 T6]]]]]]]; [discriminate|].
      injection T1 as ->. rewrite HL in *.
      destruct (IH (UA ++ [w_calls wA]) _ wA1 T4 T6) as [sq [S1 [S2 S3]]]; [rewrite Er; exact HO'|].
      rewrite Er in *. cbn [fst snd] in *.
      exists (g :: sq). split; [rewrite S1, T5; reflexivity|]. split.
      { intros g' [<-|H]; [eexists _, _; exact T2|auto]. }
      intros UB wB X HX HB.
      pose proof (take_step n no_gen SrcB QB UB _ wB op a b Hn (no_gen_one n) (fun i g ts H => ltac:(discriminate H)) HB (HQB _)) as TB.
      cbn beta zeta in TB. fold g in TB. rewrite E in TB. cbn [app] in TB.
      pose proof (HX (keyof g)) as HXg. cbn [filter] in HXg. rewrite keyb_self in HXg.
      destruct (X (keyof g)) as [|eb LB] eqn:EX; [discriminate|]. cbn [map] in HXg. injection HXg as Eg HXg.
      destruct TB as [B1 [B2 _]].
      assert (HBin := wi_ents _ _ _ _ _ _ HB (keyof g) eb). cbn beta in HBin. rewrite E, EX in HBin. specialize (HBin (or_introl eq_refl)).
      destruct HBin as [B3 _]. rewrite Eg in B3.
      destruct (take no_gen op a b wB) as [rb wB1] eqn:Eb. cbn [fst snd] in *. subst rb.
      destruct (S3 (UB ++ [fst (fst eb)]) wB1 (upd X (keyof g) LB)) as [F [UA' [UB' [pend' [W1 W2]]]]].
      { intros k. unfold upd. destruct (kkey_dec k (keyof g)) as [->|N]; [exact HXg|].
        rewrite HX. cbn [filter]. unfold keyb at 1. destruct (kkey_dec k (keyof g)); [congruence|reflexivity]. }
      { eapply winv_ext; [|exact B2]. intros k. unfold upd. destruct (kkey_dec k (keyof g)); reflexivity. }
      destruct (wev_run no_gen (prods c) wB1) as [osb wB2]. cbn [fst snd app] in *.
      split; [|eauto]. constructor; [|exact F]. exists ts, (snd eb), (w_calls wA), (fst (fst eb)), g. auto.
    + destruct T as [T1 [T2 [T3 T4]]]. 
      destruct (IH (UA ++ [fst (fst e)]) _ wA1 T2 ltac:(congruence)) as [sq [S1 [S2 S3]]]; [rewrite Er; exact HO'|].
      rewrite Er in *. cbn [fst snd] in *.
      exists sq. split; [rewrite S1, T3; reflexivity|]. split; [exact S2|].
      intros UB wB X HX HB.
      pose proof (take_step n no_gen SrcB QB UB _ wB op a b Hn (no_gen_one n) (fun i g ts H => ltac:(discriminate H)) HB (HQB _)) as TB.
      cbn beta zeta in TB. fold g in TB. rewrite E in TB. cbn [app] in TB.
      destruct TB as [B1 [B2 _]].
      assert (HBin := wi_ents _ _ _ _ _ _ HB (keyof g) e). cbn beta in HBin. rewrite E in HBin. specialize (HBin (or_introl eq_refl)).
      assert (HAin := wi_ents _ _ _ _ _ _ HA (keyof g) e). rewrite E in HAin. specialize (HAin (or_introl eq_refl)).
      destruct (take no_gen op a b wB) as [rb wB1] eqn:Eb. cbn [fst snd] in *. subst rb.
      destruct (S3 (UB ++ [fst (fst e)]) wB1 X HX) as [F [UA' [UB' [pend' [W1 W2]]]]].
      { eapply winv_ext; [|exact B2]. intros k. unfold upd. destruct (kkey_dec k (keyof g)) as [->|]; reflexivity. }
      destruct (wev_run no_gen (prods c) wB1) as [osb wB2]. cbn [fst snd app] in *.
      split; [|eauto]. constructor; [|exact F].
      exists (snd e), (snd e), (fst (fst e)), (fst (fst e)), (snd (fst e)). split; [congruence|]. split; [reflexivity|].
      split; [apply HAin|apply HBin].
Qed.

Lemma log_ok_fold sq : forall log s0, log_ok log s0 -> log_ok (fold_left (logged true) sq log) (s0 ++ sq).
Proof.
  induction sq as [|g sq IH]; intros log s0 H; cbn [fold_left]; [rewrite app_nil_r; exact H|].
  replace (s0 ++ g :: sq) with ((s0 ++ [g]) ++ sq) by (rewrite <- app_assoc; reflexivity).
  apply IH, log_ok_add, H.
Qed.

Lemma logging_off {P} (gen : nat -> treq -> result (list (list P))) h : forall w : tworld P,
  w_logging w = false -> w_log w = [] ->
  w_logging (snd (wev_run gen h w)) = false /\ w_log (snd (wev_run gen h w)) = [].
Proof.
  assert (G : forall op a b (w : tworld P), w_logging w = false -> w_log w = [] ->
    w_logging (snd (gen_call gen op a b w)) = false /\ w_log (snd (gen_call gen op a b w)) = []).
  { intros op a b w H1 H2. unfold gen_call, generate_primitives. rewrite beaver_gens_get.
    destruct (gen _ _) as [rows|e]; [|cbn; auto]. rewrite H1.
    destruct (transfer _ _ _ _ _); cbn; auto. }
  induction h as [|e h IH]; intros w H1 H2; cbn [wev_run].
  - auto.
  - assert (X : w_logging (snd (wev_step gen e w)) = false /\ w_log (snd (wev_step gen e w)) = []).
    { destruct e as [op a b|op a b]; cbn [wev_step].
      - apply G; auto.
      - rewrite take_eq. cbn zeta.
        destruct (fst (get_all (kind_of op) (PSize a) (PSize b) false (w_stores w))) as [m|[]]; cbn [snd w_logging w_log]; auto.
        specialize (G op a b w H1 H2). destruct (gen_call gen op a b w) as [[x|e] w']; cbn [snd] in *; auto.
        destruct (fst (get_all _ _ _ false (w_stores w'))) as [m|e]; cbn [snd w_logging w_log]; auto. }
    destruct (wev_step gen e w) as [o w1]. destruct X as [X1 X2]. specialize (IH w1 X1 X2).
    destruct (wev_run gen h w1) as [os w2]. exact IH.
Qed.

Lemma holds_same {P} n (s1 s2 : list (store P)) k a b L j st1 st2 : holds n s1 k a b L -> holds n s2 k a b L ->
  nth_error s1 j = Some st1 -> nth_error s2 j = Some st2 -> queue k a b st1 = queue k a b st2.
Proof.
  intros [_ [_ H1]] [_ [_ H2]] E1 E2. specialize (H1 j st1 E1). specialize (H2 j st2 E2). rewrite <- H2 in H1.
  revert H1. generalize (queue k a b st1) (queue k a b st2). intros q1. induction q1 as [|x q1 IH]; intros [|y q2] H; cbn in H; try discriminate; auto.
  injection H as -> H. f_equal. auto.
Qed.

Lemma record_replay {P} n (gen gen' : nat -> treq -> result (list (list P))) h c serial :
  (0 < n)%nat -> one_each n gen -> one_each n gen' ->
  (forall i j g rows, gen i g = Ok rows -> exists rows', gen' j g = Ok rows') ->
  let w0 := snd (wev_run gen h (empty_world [] n)) in
  let first := wev_run gen (prods c) (start_logging w0) in
  all_ok (fst first) ->
  exists log, fst (stop_logging serial false (snd first)) = Ok log /\
  let pre := replay (beaver_gens gen') beaver_adders log w0 in
  let again := wev_run no_gen (prods c) (snd pre) in
  fst pre = Ok tt /\
  Forall2 (fun r r' => exists ts ts' i i' g, r = Ok (ts, ts) /\ r' = Ok (ts', ts') /\
      from_call gen i g ts /\ (from_call gen i' g ts' \/ from_call gen' i' g ts')) (fst first) (fst again) /\
  length (w_stores (snd again)) = n /\
  forall k a b j st st', nth_error (w_stores (snd first)) j = Some st -> nth_error (w_stores (snd again)) j = Some st' ->
    queue k a b st = queue k a b st'.
Proof.
  intros Hn HG HG' HT. cbn zeta. intros HO.
  destruct (wev_history n gen (from_call gen) (fun _ => True) h Hn HG (fun i g ts H => H) [] (fun _ => []) (empty_world [] n)
    (winv_start n _ _) (fun _ _ => I)) as [ids [pend [HW _]]].
  destruct (logging_off gen h (empty_world [] n) eq_refl eq_refl) as [_ L0].
  set (w0 := snd (wev_run gen h (empty_world [] n))) in *.
  assert (HW' : winv n (from_call gen) (fun _ => True) ([] ++ ids) pend (start_logging w0)).
  { destruct HW as [A B C]. constructor; auto. }
  set (SrcB := fun i g ts => from_call gen i g ts \/ from_call gen' i g ts).
  destruct (run_record n gen (from_call gen) SrcB (fun _ => True) (fun _ => True) c Hn HG (fun i g ts H => H) (fun _ => I) (fun _ => I)
    ([] ++ ids) pend (start_logging w0) HW' eq_refl HO) as [sq [S1 [S2 S3]]].
  cbn [start_logging w_log] in S1. rewrite L0 in S1.
  assert (LO : log_ok (fold_left (logged true) sq []) ([] ++ sq)).
  { apply log_ok_fold. split; [constructor|]. split; [intros o l e []|]. reflexivity. }
  rewrite <- S1 in LO. destruct LO as [_ [WF FL]]. cbn [app] in FL.
  exists (w_log (snd (wev_run gen (prods c) (start_logging w0)))). split; [reflexivity|].
  rewrite (replay_seq gen' _ w0 WF).
  set (log := w_log (snd (wev_run gen (prods c) (start_logging w0)))) in *.
  assert (Hsub : forall g, In g (map snd (flat_map snd log)) -> In g sq).
  { intros g Hg. assert (F : In g (filter (keyb (keyof g)) (map snd (flat_map snd log)))) by (apply filter_In; split; [exact Hg|apply keyb_self]).
    rewrite FL in F. apply filter_In in F. apply F. }
  assert (HWB : winv n SrcB (fun _ => True) ([] ++ ids) pend w0).
  { eapply winv_weaken; [| |exact HW]; unfold SrcB; auto. }
  destruct (gen_seq_ok n gen' SrcB (fun _ => True) (map snd (flat_map snd log)) Hn HG' (fun i g ts H => or_intror H)) with (U := [] ++ ids) (pend := pend) (w := w0)
    as [X [X1 [_ [X2 [_ X3]]]]]; auto.
  { intros i g Hg. apply Hsub in Hg. destruct (S2 g Hg) as [i0 [rows Er]]. eapply HT, Er. }
  split; [exact X1|].
  destruct (S3 ([] ++ ids) _ X (fun k => eq_trans (X2 k) (FL k)) X3) as [F [UA' [UB' [pend' [W1 W2]]]]].
  split; [exact F|]. split.
  - eapply holds_len, (wi_holds _ _ _ _ _ _ W2 (KMul, ([], []))).
  - intros k a b j st st' E1 E2.
    eapply holds_same; [apply (wi_holds _ _ _ _ _ _ W1 (k, (a, b)))|apply (wi_holds _ _ _ _ _ _ W2 (k, (a, b)))|exact E1|exact E2].
Qed.

(* ------------------------------------------------------------------ products *)
Lemma mul_master_store_ok s gen op x y w ts : fst (take gen op (m_shape x) (m_shape y) w) = Ok (ts, ts) ->
  fst (mul_master_store s gen op x y w) = mul_master s op x y ts.
Proof.
  intros E. unfold mul_master_store. destruct (take gen op (m_shape x) (m_shape y) w) as [r w']. cbn [fst] in E. subst r.
  reflexivity.
Qed.

Lemma mul_master_store_err s gen op x y w e : fst (take gen op (m_shape x) (m_shape y) w) = Err e ->
  fst (mul_master_store s gen op x y w) = Err e.
Proof.
  intros E. unfold mul_master_store. destruct (take gen op (m_shape x) (m_shape y) w) as [r w']. cbn [fst] in E. subst r.
  reflexivity.
Qed.

Lemma generate_shares_length n secret rnd ss : generate_shares n secret rnd = Ok ss -> length ss = n.
Proof. unfold generate_shares. intros H. apply rmap_ok_length in H. rewrite seq_length in H. exact H. Qed.

Lemma get_triples_inv op n a b ra rb rc ts : get_triples op n a b ra rb rc = Ok ts ->
  exists sa sb c sc, generate_shares n a ra = Ok sa /\ generate_shares n b rb = Ok sb /\ tbil R64 op a b = Ok c /\
    generate_shares n c rc = Ok sc /\ ts = zip3 sa sb sc /\ length sa = n /\ length sb = n /\ length sc = n /\ length ts = n.
Proof.
  unfold get_triples. intros H.
  destruct (generate_shares n a ra) as [sa|] eqn:Ea; [|discriminate].
  destruct (generate_shares n b rb) as [sb|] eqn:Eb; [|discriminate].
  cbn [rbind] in H. destruct (tbil R64 op a b) as [c|] eqn:Ec; [|discriminate]. cbn [rbind] in H.
  destruct (generate_shares n c rc) as [sc|] eqn:Es; [|discriminate]. cbn [rbind] in H. injection H as <-.
  pose proof (generate_shares_length _ _ _ _ Ea) as La. pose proof (generate_shares_length _ _ _ _ Eb) as Lb.
  pose proof (generate_shares_length _ _ _ _ Es) as Lc.
  exists sa, sb, c, sc. repeat split; auto. unfold zip3, triple. rewrite !combine_length. lia.
Qed.

Lemma triple_gen_one n gen : triple_gen n gen -> one_each n gen.
Proof.
  intros H i [op [a b]] rows E. destruct (H i op a b rows E) as (ta & tb & ra & rb & rc & ts & G & -> & _).
  apply get_triples_inv in G. destruct G as (_ & _ & _ & _ & _ & _ & _ & _ & _ & _ & _ & _ & L).
  unfold triple_rows. rewrite map_length. split; [exact L|]. apply Forall_forall. intros r Hr.
  apply in_map_iff in Hr as [t [<- _]]. reflexivity.
Qed.

Lemma triple_rows_inj ts ts' : triple_rows ts = triple_rows ts' -> ts = ts'.
Proof.
  revert ts'; induction ts as [|t ts IH]; intros [|t' ts'] H; cbn in H; try discriminate; auto.
  injection H as -> H. f_equal. auto.
Qed.

Lemma from_call_valid n gen i op sx sy so f ts : (2 <= n)%nat -> triple_gen n gen -> product op sx sy so f ->
  from_call gen i (bop_of op, (sx, sy)) ts -> valid_triples sx sy so f n ts.
Proof.
  intros Hn HT HP HF. destruct (HT _ _ _ _ _ HF) as (ta & tb & ra & rb & rc & ts' & G & ER & Ta & Tb & Da & Db & Dc).
  apply triple_rows_inj in ER. subst ts'.
  destruct (get_triples_inv _ _ _ _ _ _ _ _ G) as (sa & sb & c & sc & _ & _ & Ec & _).
  specialize (Dc c Ec).
  assert (Hc : tsh c = so).
  { destruct (product_index _ _ _ _ _ HP) as (ix & EI & _). unfold tbil in Ec.
    destruct Ta as (A1 & _), Tb as (B1 & _). rewrite A1, B1, EI in Ec. injection Ec as <-. reflexivity. }
  rewrite Hc in Dc.
  destruct (get_triples_valid op sx sy so f n ta tb ra rb rc HP Hn Ta Tb Da Db Dc) as (ts2 & G2 & V & _). congruence.
Qed.

Lemma product_with_store n gen h s op sx sy so f x y : (2 <= n)%nat -> triple_gen n gen -> product op sx sy so f ->
  m_shape x = sx -> m_shape y = sy ->
  (forall e, In e h -> like (wev_req e) (bop_of op, (sx, sy)) -> wev_req e = (bop_of op, (sx, sy))) ->
  let r := fst (mul_master_store s gen (bop_of op) x y (snd (wev_run gen h (empty_world [] n)))) in
  (exists ts, valid_triples sx sy so f n ts /\ r = mul_master s (bop_of op) x y ts) \/
  (exists e i, r = Err e /\ gen i (bop_of op, (sx, sy)) = Err e).
Proof.
  intros Hn HT HP Ex Ey HL. cbn zeta. pose proof (triple_gen_one n gen HT) as HG.
  set (q := (bop_of op, (sx, sy))) in *.
  set (Q := fun g => In g (map wev_req h) \/ g = q).
  destruct (wev_history n gen (from_call gen) Q h ltac:(lia) HG (fun i g ts H => H) [] (fun _ => []) (empty_world [] n)
    (winv_start n _ _)) as [ids [pend [HW _]]].
  { intros e He. left. apply in_map, He. }
  pose proof (take_step n gen (from_call gen) Q _ pend _ (bop_of op) sx sy ltac:(lia) HG (fun i g ts H => H) HW (or_intror eq_refl)) as T.
  cbn zeta in T. fold q in T.
  set (w := snd (wev_run gen h (empty_world [] n))) in *.
  assert (HQ : forall g, Q g -> like g q -> g = q).
  { intros g [Hg| ->] Hl; auto. apply in_map_iff in Hg as [e [<- He]]. apply HL; auto. }
  destruct (pend (keyof q)) as [|e L] eqn:E.
  - destruct T as [[e [T1 [T2 _]]]|[ts [T1 [T2 _]]]].
    + right. exists e, (w_calls w). split; [|exact T2]. apply mul_master_store_err. rewrite Ex, Ey. exact T1.
    + left. exists ts. split; [eapply from_call_valid; eauto|]. apply mul_master_store_ok. rewrite Ex, Ey. exact T1.
  - destruct T as [T1 _]. left. exists (snd e). split; [|apply mul_master_store_ok; rewrite Ex, Ey; exact T1].
    destruct (wi_ents _ _ _ _ _ _ HW (keyof q) e) as [F1 [F2 F3]]; [rewrite E; left; reflexivity|].
    assert (Eq : snd (fst e) = q).
    { apply HQ; [exact F3|]. unfold keyof in F2. injection F2 as F2 F2'. split; auto. }
    rewrite Eq in F1. eapply from_call_valid; eauto.
Qed.

Lemma ex_gen_triples n : (2 <= n)%nat -> triple_gen n (ex_gen n).
Proof.
  intros Hn i op a b rows E. unfold ex_gen in E. cbn [fst snd] in E.
  destruct (get_triples op n _ _ _ _ _) as [ts|] eqn:G in E; [|discriminate]. cbn [rbind] in E. injection E as <-.
  eexists _, _, _, _, _, ts. split; [exact G|]. split; [reflexivity|].
  assert (T : forall sh v, in_ring (2^64) v -> tensor_in (2^64) sh (mkT sh (repeat v (numel sh)))).
  { intros sh v Hv. split; [reflexivity|]. split; [apply repeat_length|]. apply Forall_forall. intros z Hz. apply repeat_spec in Hz. subst. exact Hv. }
  assert (D : forall sh v, in_ring (2^64) v -> draws (2^64) n sh (repeat (repeat v (numel sh)) (n - 1))).
  { intros sh v Hv. split; [apply repeat_length|]. apply Forall_forall. intros r Hr. apply repeat_spec in Hr. subst r.
    split; [apply repeat_length|]. apply Forall_forall. intros z Hz. apply repeat_spec in Hz. subst. exact Hv. }
  assert (I5 : in_ring (2^64) 5) by (cbv; auto). assert (I7 : in_ring (2^64) 7) by (cbv; auto).
  assert (I9 : in_ring (2^64) 9) by (cbv; auto). assert (I3 : in_ring (2^64) (-3)) by (cbv; auto). assert (I11 : in_ring (2^64) 11) by (cbv; auto).
  split; [apply T; auto|]. split; [apply T; auto|]. split; [apply D; auto|]. split; [apply D; auto|].
  intros c Hc. rewrite Hc. apply D; auto.
Qed.
