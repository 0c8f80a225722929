(** Lemmas on the stacks of comparison keys. *)
From Coq Require Import String.
From Verif Require Import Util M_Store S_Store L_Store.
Local Open Scope list_scope.

Definition fop_dec (o o' : fop) : {o = o'} + {o <> o'}.
Proof. decide equality. Defined.

Definition stack {K} (o : fop) (st : fstore K) : list (list K) :=
  match dget st (fkey o) with Some s => s | None => [[]] end.

Lemma fkey_inj o o' : fkey o = fkey o' -> o = o'.
Proof. destruct o, o'; cbn; intros H; try reflexivity; discriminate. Qed.

Lemma ensure_get {K} (st : fstore K) o : dget (fss_ensure st) (fkey o) = Some (stack o st).
Proof.
  unfold fss_ensure, stack. cbn [fold_left].
  destruct (dget st "fss_eq"%string) as [s1|] eqn:E1.
  - destruct (dget st "fss_comp"%string) as [s2|] eqn:E2.
    + destruct o; cbn [fkey]; rewrite ?E1, ?E2; reflexivity.
    + rewrite dget_dset. destruct o; cbn [fkey].
      * rewrite E1. reflexivity.
      * rewrite E2. reflexivity.
  - rewrite dget_dset.
    change (if string_dec "fss_comp" "fss_eq" then Some [[]] else dget st "fss_comp"%string) with (dget st "fss_comp"%string).
    destruct (dget st "fss_comp"%string) as [s2|] eqn:E2.
    + rewrite dget_dset. destruct o; cbn [fkey].
      * rewrite E1. reflexivity.
      * rewrite E2. reflexivity.
    + rewrite !dget_dset. destruct o; cbn [fkey]; rewrite ?E1, ?E2; reflexivity.
Qed.

Lemma ensure_stack {K} (st : fstore K) o : stack o (fss_ensure st) = stack o st.
Proof. unfold stack at 1. rewrite ensure_get. reflexivity. Qed.

Lemma stack_set {K} (st : fstore K) o o' s : stack o (dset st (fkey o') s) = if fop_dec o o' then s else stack o st.
Proof.
  unfold stack. rewrite dget_dset. destruct (string_dec (fkey o) (fkey o')) as [E|N], (fop_dec o o') as [E'|N']; auto.
  - apply fkey_inj in E. congruence.
  - congruence.
Qed.

Lemma stack_add {K} (st : fstore K) o o' keys : stack o (fss_add o' st keys tt) =
  if fop_dec o o' then match stack o st with (_ :: _) :: _ => stack o st ++ [keys] | _ => [keys] end else stack o st.
Proof.
  unfold fss_add. rewrite ensure_get. destruct (fop_dec o o') as [->|N].
  - destruct (stack o' st) as [|[|x l] r] eqn:ES; rewrite stack_set; destruct (fop_dec o' o') as [_|N]; try (exfalso; apply N; reflexivity); reflexivity.
  - destruct (stack o' st) as [|[|x l] r]; rewrite stack_set, ensure_stack; destruct (fop_dec o o'); congruence.
Qed.

Lemma fss_get_eq {K} (st : fstore K) o nr r : fst (fss_get o st nr r) =
  match stack o st with ks :: _ => if Nat.leb nr (List.length ks) then Ok (firstn nr ks) else Err ValueError | [] => Err ValueError end.
Proof. unfold fss_get. rewrite ensure_get. destruct (stack o st) as [|ks rest]; [reflexivity|]. destruct (Nat.leb nr _); reflexivity. Qed.

Lemma fss_get_stack {K} (st : fstore K) o o' nr r ks rest : stack o' st = ks :: rest -> Nat.leb nr (List.length ks) = true ->
  stack o (snd (fss_get o' st nr r)) = if r then (if fop_dec o o' then rest else stack o st) else stack o st.
Proof.
  intros E L. unfold fss_get. rewrite ensure_get, E, L. cbn [snd]. destruct r; [|apply ensure_stack].
  rewrite stack_set, ensure_stack. reflexivity.
Qed.

Lemma fss_peek_stack {K} (st : fstore K) o o' nr : stack o (snd (fss_get o' st nr false)) = stack o st.
Proof.
  unfold fss_get. rewrite ensure_get. destruct (stack o' st) as [|ks rest]; [apply ensure_stack|].
  destruct (Nat.leb nr _); apply ensure_stack.
Qed.

(** entries of a stack: the number of the generator call, the number of keys, the two arrays *)
Definition fent (K : Type) : Type := (nat * nat) * (list K * list K).
Definition fe_ok {K} (gen : fop -> nat -> nat -> result (list (list K))) (o : fop) (e : fent K) : Prop :=
  gen o (fst (fst e)) (snd (fst e)) = Ok [fst (snd e); snd (snd e)] /\
  length (fst (snd e)) = snd (fst e) /\ length (snd (snd e)) = snd (fst e).

(** a party's stack represents [L] through [side] *)
Definition srep {K} (side : list K * list K -> list K) (s : list (list K)) (L : list (fent K)) : Prop :=
  s = map (fun e => side (snd e)) L \/ (s = [[]] /\ L = []).

Record finv {K} (gen : fop -> nat -> nat -> result (list (list K))) (Z : fop -> nat -> Prop) (U : list nat)
  (pend : fop -> list (fent K)) (w : fworld K) : Prop := {
  fi_stores : exists s0 s1, w_stores w = [s0; s1] /\ forall o, srep fst (stack o s0) (pend o) /\ srep snd (stack o s1) (pend o);
  fi_ents : forall o e, In e (pend o) -> fe_ok gen o e /\ Z o (snd (fst e));
  fi_ids : ids_ok (w_calls w) U (fun o => map (fun e => fst (fst e)) (pend o)) }.

Lemma finv_start {K} (gen : fop -> nat -> nat -> result (list (list K))) Z : finv gen Z [] (fun _ => []) (empty_world [] 2).
Proof.
  constructor.
  - exists [], []. split; [reflexivity|]. intros o. split; right; auto; destruct o; auto.
  - intros o e [].
  - apply ids_start.
Qed.

(** the stack after adding a new entry *)
Definition fpush {K} (L : list (fent K)) (e : fent K) : list (fent K) :=
  match L with (_, S _, _) :: _ => L ++ [e] | _ => [e] end.

Lemma srep_push {K} gen o (side : list K * list K -> list K) s L e : (side = fst \/ side = snd) ->
  (forall e, In e L -> fe_ok gen o e) -> srep side s L ->
  srep side (match s with (_ :: _) :: _ => s ++ [side (snd e)] | _ => [side (snd e)] end) (fpush L e).
Proof.
  intros HS HE [->|[-> ->]]; [|left; reflexivity]. left.
  destruct L as [|[[i m] ks] L]; [reflexivity|]. cbn [map fpush snd].
  destruct (HE _ (or_introl eq_refl)) as [_ [L0 L1]]. cbn [fst snd] in *.
  assert (HL : length (side ks) = m) by (destruct HS as [->| ->]; auto).
  clear L0 L1 HE. destruct m as [|m].
  - destruct (side ks); [reflexivity|discriminate HL].
  - destruct (side ks) as [|x r] eqn:E; [discriminate HL|]. cbn [map app snd]. rewrite E, map_app. reflexivity.
Qed.

Definition fupd {B} (pend : fop -> B) (o : fop) (v : B) : fop -> B := fun o' => if fop_dec o' o then v else pend o'.
Lemma fupd_same {B} (pend : fop -> B) o v : fupd pend o v o = v.
Proof. unfold fupd. destruct (fop_dec o o); congruence. Qed.
Lemma fupd_other {B} (pend : fop -> B) o v o' : o' <> o -> fupd pend o v o' = pend o'.
Proof. unfold fupd. destruct (fop_dec o' o); congruence. Qed.

Definition fgen_call {K} (gen : fop -> nat -> nat -> result (list (list K))) (o : fop) (nr : nat) (w : fworld K) :=
  generate_primitives (fss_gens gen) fss_adders (fkey o) nr (Some tt) w.

Lemma finv_gen {K} (gen : fop -> nat -> nat -> result (list (list K))) (Z : fop -> nat -> Prop) U pend w o nr :
  two_arrays gen -> finv gen Z U pend w -> Z o nr ->
  exists ks, fe_ok gen o (w_calls w, nr, ks) /\
    fst (fgen_call gen o nr w) = Ok [fst ks; snd ks] /\
    w_calls (snd (fgen_call gen o nr w)) = S (w_calls w) /\
    finv gen Z U (fupd pend o (fpush (pend o) (w_calls w, nr, ks))) (snd (fgen_call gen o nr w)).
Proof.
  intros HG [[s0 [s1 [ES HS]]] HE HI] HZ. destruct (HG o (w_calls w) nr) as [k0 [k1 [Eg [L0 L1]]]].
  assert (OK : fe_ok gen o (w_calls w, nr, (k0, k1))) by (split; [exact Eg|split; auto]).
  exists (k0, k1). split; [exact OK|].
  unfold fgen_call, generate_primitives.
  replace (dget (fss_gens gen) (fkey o)) with (Some (gen o)) by (destruct o; reflexivity).
  rewrite Eg. unfold transfer. rewrite ES. cbn [List.length Nat.eqb negb].
  replace (dget (@fss_adders K) (fkey o)) with (Some (@fss_add K o)) by (destruct o; reflexivity).
  cbn [map2 fst snd w_calls]. split; [reflexivity|]. split; [reflexivity|]. constructor.
  - cbn [w_stores]. eexists _, _. split; [reflexivity|]. intros o'. rewrite !stack_add.
    destruct (fop_dec o' o) as [->|N].
    + rewrite fupd_same. destruct (HS o) as [R0 R1].
      split; [apply (srep_push gen o fst _ _ (w_calls w, nr, (k0, k1)))|apply (srep_push gen o snd _ _ (w_calls w, nr, (k0, k1)))];
        auto; intros e He; apply (HE o e He).
    + rewrite fupd_other by exact N. apply HS.
  - intros o' e He. destruct (fop_dec o' o) as [->|N].
    + rewrite fupd_same in He. unfold fpush in He.
      assert (C : In e (pend o) \/ e = (w_calls w, nr, (k0, k1))).
      { destruct (pend o) as [|[[i m] ks] L]; [destruct He as [<-|[]]; auto|].
        destruct m; [destruct He as [<-|[]]; auto|]. apply in_app_or in He as [He|[<-|[]]]; auto. }
      destruct C as [C| ->]; [apply HE, C|]. split; auto.
    + rewrite fupd_other in He by exact N. apply HE, He.
  - cbn [w_calls]. eapply ids_push with (k := o); [exact HI| | |intros; apply fop_dec].
    + intros o' N. cbn beta. rewrite fupd_other by exact N. reflexivity.
    + cbn beta. rewrite fupd_same. unfold fpush. destruct (pend o) as [|[[i m] ks] L]; [left; reflexivity|].
      destruct m; [right; left; reflexivity|left; rewrite map_app; reflexivity].
Qed.

Lemma fss_take_eq {K} gen o nr (w : fworld K) : fss_take gen o nr w =
  match fgen_call gen o nr w with
  | (Err e, w') => (Err e, w')
  | (Ok _, w') =>
      let g1 := fss_get_all o nr false (w_stores w') in
      let w1 := mkW (snd g1) (w_logging w') (w_log w') (w_calls w') in
      match fst g1 with
      | Err e => (Err e, w1)
      | Ok masks =>
          let g2 := fss_get_all o nr true (firstn 2 (snd g1)) in
          (do ks <- fst g2; Ok (masks, ks), mkW (snd g2 ++ skipn 2 (snd g1)) (w_logging w1) (w_log w1) (w_calls w1))
      end
  end.
Proof.
  unfold fss_take, fgen_call. destruct (generate_primitives _ _ _ _ _ w) as [[x|e] w']; [|reflexivity].
  destruct (fss_get_all o nr false (w_stores w')) as [[m|e] sts1]; [|reflexivity]. cbn [fst snd].
  destruct (fss_get_all o nr true (firstn 2 sts1)) as [r sts2]. reflexivity.
Qed.

Lemma srep_head {K} (side : list K * list K -> list K) s e L : srep side s (e :: L) ->
  s = side (snd e) :: map (fun e => side (snd e)) L.
Proof. intros [->|[_ H]]; [reflexivity|discriminate H]. Qed.

(** one comparison *)
Lemma fss_step {K} (gen : fop -> nat -> nat -> result (list (list K))) (Z : fop -> nat -> Prop) U pend w o nr :
  two_arrays gen -> finv gen Z U pend w -> Z o nr ->
  exists ks, fe_ok gen o (w_calls w, nr, ks) /\
  w_calls (snd (fss_take gen o nr w)) = S (w_calls w) /\
  let L := fpush (pend o) (w_calls w, nr, ks) in
  exists e r, L = e :: r /\
    (nr <= snd (fst e) /\ fst (fss_take gen o nr w) = Ok ([firstn nr (fst (snd e)); firstn nr (snd (snd e))], [firstn nr (fst (snd e)); firstn nr (snd (snd e))]) /\
     finv gen Z (U ++ [fst (fst e)]) (fupd pend o r) (snd (fss_take gen o nr w)) \/
     snd (fst e) < nr /\ fst (fss_take gen o nr w) = Err ValueError /\
     finv gen Z U (fupd pend o L) (snd (fss_take gen o nr w)))%nat.
Proof.
  intros HG HI HZ. destruct (finv_gen gen Z U pend w o nr HG HI HZ) as [ks [OK [Eg [Ec HI']]]].
  exists ks. split; [exact OK|]. rewrite fss_take_eq.
  destruct (fgen_call gen o nr w) as [rr w'] eqn:Egc. cbn [fst snd] in *. subst rr.
  set (L := fpush (pend o) (w_calls w, nr, ks)) in *.
  assert (HL : exists e r, L = e :: r).
  { unfold L, fpush. destruct (pend o) as [|[[i [|m]] k] r]; cbn [app]; eauto. }
  destruct HL as [e [r EL]].
  destruct HI' as [[s0 [s1 [ES HS]]] HE HD].
  destruct (HS o) as [R0 R1]. rewrite fupd_same, EL in R0, R1. apply srep_head in R0, R1.
  destruct (HE o e) as [[_ [K0 K1]] _]; [rewrite fupd_same, EL; left; reflexivity|].
  cbn zeta. rewrite ES. unfold fss_get_all. cbn [map fst snd rseq].
  assert (P0 := fss_get_eq s0 o nr false). assert (P1 := fss_get_eq s1 o nr false).
  assert (Q0 := fun o' => fss_peek_stack s0 o' o nr). assert (Q1 := fun o' => fss_peek_stack s1 o' o nr).
  destruct (fss_get o s0 nr false) as [r0 s0'], (fss_get o s1 nr false) as [r1 s1']. cbn [fst snd] in *.
  rewrite R0, K0 in P0. rewrite R1, K1 in P1. subst r0 r1.
  destruct (Nat.leb nr (snd (fst e))) eqn:EN.
  - cbn [rseq firstn map fst snd skipn app].
    assert (G0 := fss_get_eq s0' o nr true). assert (G1 := fss_get_eq s1' o nr true).
    assert (T0 := fun o' => fss_get_stack s0' o' o nr true (fst (snd e)) (map (fun e => fst (snd e)) r)).
    assert (T1 := fun o' => fss_get_stack s1' o' o nr true (snd (snd e)) (map (fun e => snd (snd e)) r)).
    rewrite Q0, R0, K0, EN in G0. rewrite Q1, R1, K1, EN in G1.
    destruct (fss_get o s0' nr true) as [r0 s0''], (fss_get o s1' nr true) as [r1 s1'']. cbn [fst snd] in *. subst r0 r1.
    cbn [rseq rbind fst snd w_calls]. split; [exact Ec|]. exists e, r. split; [exact EL|]. left.
    split; [apply Nat.leb_le, EN|]. split; [reflexivity|]. constructor.
    + cbn [w_stores]. exists s0'', s1''. split; [reflexivity|]. intros o'.
      rewrite T0, T1 by (rewrite ?Q0, ?Q1, ?R0, ?R1, ?K0, ?K1; auto). rewrite Q0, Q1.
      destruct (fop_dec o' o) as [->|N].
      * rewrite fupd_same. split; left; reflexivity.
      * rewrite fupd_other by exact N. specialize (HS o'). rewrite fupd_other in HS by exact N. exact HS.
    + intros o' e' He. destruct (fop_dec o' o) as [->|N].
      * rewrite fupd_same in He. apply HE. rewrite fupd_same, EL. right; exact He.
      * rewrite fupd_other in He by exact N. apply HE. rewrite fupd_other by exact N. exact He.
    + cbn [w_calls]. eapply ids_pop with (k := o); [exact HD| | | |intros; apply fop_dec].
      * cbn beta. rewrite fupd_same, EL. reflexivity.
      * cbn beta. rewrite fupd_same. reflexivity.
      * intros o' N. cbn beta. rewrite !fupd_other by exact N. reflexivity.
  - cbn [rseq fst snd w_calls]. split; [exact Ec|]. exists e, r. split; [exact EL|]. right.
    split; [apply Nat.leb_gt, EN|]. split; [reflexivity|]. constructor; auto.
    cbn [w_stores]. exists s0', s1'. split; [reflexivity|]. intros o'. rewrite Q0, Q1. apply HS.
Qed.

Lemma fss_history {K} (gen : fop -> nat -> nat -> result (list (list K))) h : two_arrays gen ->
  forall (Z : fop -> nat -> Prop) U pend w, finv gen Z U pend w ->
  (forall e, In e h -> match e with FPreload o nr | FCompare o nr => Z o nr end) ->
  exists ids pend', finv gen Z (U ++ ids) pend' (snd (fev_run gen h w)) /\
    Forall2 (fun i s => fst (snd s) = snd (snd s) /\ first_keys gen i (fst (fst s)) (snd (fst s)) (snd (snd s)))
      ids (fserved (compares h) (fst (fev_run gen h w))) /\
    Forall (fun r => forall e, r = Err e -> e = ValueError) (fst (fev_run gen h w)) /\
    length (fst (fev_run gen h w)) = length (compares h).
Proof.
  intros HG Z. induction h as [|e h IH]; intros U pend w HI HZ; cbn [fev_run].
  - exists [], pend. cbn. rewrite app_nil_r. split; [exact HI|]. repeat split; constructor.
  - assert (HZ' : forall e, In e h -> match e with FPreload o nr | FCompare o nr => Z o nr end) by (intros; apply HZ; right; auto).
    pose proof (HZ e (or_introl eq_refl)) as Hz.
    destruct e as [o nr|o nr]; cbn [fev_step].
    + destruct (finv_gen gen Z U pend w o nr HG HI Hz) as [ks [_ [_ [_ HI1]]]].
      destruct (IH U _ _ HI1 HZ') as [ids [pend' [A [B [C D]]]]].
      unfold fpreload. fold (fgen_call gen o nr w). destruct (fev_run gen h _) as [os w2]. cbn [fst snd app] in *.
      exists ids, pend'. auto.
    + destruct (fss_step gen Z U pend w o nr HG HI Hz) as [ks [OK [_ [e [r [EL [[HN [HR HI1]]|[HN [HR HI1]]]]]]]]].
      * destruct (IH _ _ _ HI1 HZ') as [ids [pend' [A [B [C D]]]]].
        assert (FK : first_keys gen (fst (fst e)) o nr [firstn nr (fst (snd e)); firstn nr (snd (snd e))]).
        { assert (He : fe_ok gen o e).
          { assert (In e (fpush (pend o) (w_calls w, nr, ks))) by (rewrite EL; left; reflexivity).
            unfold fpush in H. destruct (pend o) as [|[[i m] k] L] eqn:EP; [destruct H as [<-|[]]; exact OK|].
            assert (PE : forall e, In e (pend o) -> fe_ok gen o e) by (intros; apply (fi_ents _ _ _ _ _ HI); auto).
            rewrite EP in PE.
            destruct m; [destruct H as [<-|[]]; exact OK|]. apply in_app_or in H as [H|[<-|[]]]; [apply PE, H|exact OK]. }
          exists (snd (fst e)), [fst (snd e); snd (snd e)]. split; [apply He|reflexivity]. }
        destruct (fss_take gen o nr w) as [rr w1]. cbn [fst snd] in *. subst rr.
        destruct (fev_run gen h w1) as [os w2]. cbn [fst snd app] in *.
        exists (fst (fst e) :: ids), pend'. rewrite <- app_assoc in A. split; [exact A|].
        cbn [compares flat_map app]. split; [|split].
        -- unfold fserved. cbn [combine flat_map snd fst app]. constructor; [cbn; auto|exact B].
        -- constructor; [discriminate|exact C].
        -- cbn. rewrite D. reflexivity.
      * destruct (IH _ _ _ HI1 HZ') as [ids [pend' [A [B [C D]]]]].
        destruct (fss_take gen o nr w) as [rr w1]. cbn [fst snd] in *. subst rr.
        destruct (fev_run gen h w1) as [os w2]. cbn [fst snd app] in *.
        exists ids, pend'. split; [exact A|]. cbn [compares flat_map app]. split; [|split].
        -- exact B.
        -- constructor; [intros e' E'; congruence|exact C].
        -- cbn. rewrite D. reflexivity.
Qed.

(** only comparisons: each finds the keys it generated itself *)
Lemma fss_on_demand {K} (gen : fop -> nat -> nat -> result (list (list K))) qs : two_arrays gen ->
  forall U w, finv gen (fun _ _ => True) U (fun _ => []) w ->
  forall j o nr, nth_error qs j = Some (o, nr) ->
  exists rows, gen o (w_calls w + j)%nat nr = Ok rows /\
    nth_error (fst (fev_run gen (map (fun q => FCompare (fst q) (snd q)) qs) w)) j = Some (Ok (rows, rows)).
Proof.
  intros HG. induction qs as [|[o' nr'] qs IH]; intros U w HI j o nr E; [destruct j; discriminate|].
  cbn [map fev_run fev_step fst snd].
  destruct (fss_step gen _ U _ w o' nr' HG HI I) as [ks [[OK1 [OK2 OK3]] [EC [e [r [EL C]]]]]].
  cbn [fpush] in EL. injection EL as <- <-. cbn [fst snd] in *.
  destruct C as [[_ [HR HI1]]|[HN _]]; [|lia].
  destruct (fss_take gen o' nr' w) as [rr w1]. cbn [fst snd] in *. subst rr.
  rewrite (firstn_all2 (fst ks)), (firstn_all2 (snd ks)) by lia.
  assert (HI2 : finv gen (fun _ _ => True) (U ++ [w_calls w]) (fun _ => []) w1).
  { destruct HI1 as [[s0 [s1 [ES HS]]] A B]. constructor.
    - exists s0, s1. split; auto. intros o2. specialize (HS o2). unfold fupd in HS. destruct (fop_dec o2 o'); exact HS.
    - intros o2 e [].
    - destruct B as [B1 [B2 [B3 [B4 B5]]]]. split; [exact B1|]. split; [exact B2|]. split; [constructor|]. split; [intros ? ? []|intros ? ? ? []]. }
  specialize (IH _ w1 HI2). destruct (fev_run gen _ w1) as [os w2]. cbn [fst snd app] in *.
  destruct j as [|j]; cbn in E.
  - injection E as -> ->. exists [fst ks; snd ks]. rewrite Nat.add_0_r. split; [exact OK1|]. reflexivity.
  - destruct (IH j o nr E) as [rows [R1 R2]]. exists rows. rewrite EC in R1.
    replace (w_calls w + S j)%nat with (S (w_calls w) + j)%nat by lia. auto.
Qed.

(** a comparison succeeds when every earlier array for the operation is empty or large enough *)
Lemma fss_large_enough {K} (gen : fop -> nat -> nat -> result (list (list K))) h o nr : two_arrays gen ->
  (forall m, In m (sizes o h) -> m = 0 \/ nr <= m)%nat ->
  exists keys, fst (fss_take gen o nr (snd (fev_run gen h (empty_world [] 2)))) = Ok (keys, keys).
Proof.
  intros HG HS.
  destruct (fss_history gen h HG (fun o' m => In m (sizes o' h)) [] (fun _ => []) (empty_world [] 2) (finv_start gen _)) as [ids [pend [HI _]]].
  { intros e He. assert (X : forall o' m, (e = FPreload o' m \/ e = FCompare o' m) -> In m (sizes o' h)).
    { intros o' m E. unfold sizes. apply in_flat_map. exists e. split; [exact He|]. destruct E as [->| ->]; destruct o'; left; reflexivity. }
    destruct e; apply X; auto. }
  cbn [app] in HI.
  assert (HI' : finv gen (fun o' m => In m (sizes o' h) \/ (o' = o /\ m = nr)) ids pend (snd (fev_run gen h (empty_world [] 2)))).
  { destruct HI as [A B C]. constructor; auto. intros o' e He. destruct (B o' e He). auto. }
  destruct (fss_step gen _ ids pend _ o nr HG HI' (or_intror (conj eq_refl eq_refl))) as [ks [_ [_ [e [r [EL C]]]]]].
  destruct C as [[_ [HR _]]|[HN _]]; [eexists; exact HR|].
  exfalso. unfold fpush in EL. destruct (pend o) as [|[[i [|m]] k] L] eqn:EP.
  - injection EL as <- _. cbn in HN. lia.
  - injection EL as <- _. cbn in HN. lia.
  - cbn [app] in EL. injection EL as <- _. cbn [fst snd] in HN.
    destruct (fi_ents _ _ _ _ _ HI o (i, S m, k)) as [_ Hm]; [rewrite EP; left; reflexivity|].
    apply HS in Hm. cbn in Hm. lia.
Qed.
