(** Back-propagation through any gradient functions (property C44). *)
From Coq Require Import QArith Qabs Lqa String Lia.
From Verif Require Import Util Modular S_Ring S_Tensor S_Bil S_Spdz S_Fss S_Sort S_Autograd M_Torch M_Encoder M_Tensor M_Share M_Spdz
  M_Store M_Fss M_Engine M_Approx M_Grad M_Static M_Conv M_GradConv M_Autograd M_Program S_Flow S_Program
  P_Fss P_Sort P_Argmax P_Autograd P_GradConv L_Autograd L_Flow L_Program.
Local Open Scope Z_scope.
Local Open Scope list_scope.

(** C44 for any session (parties, base, precision, protocol steps) and any methods with a gradient
    function, among them division, sigmoid, convolution and max pooling: a program makes tensors,
    calls methods and calls backward; if it raises nothing, every call of backward that is [fair]
    (S_Flow.v: the root is computed, wanted and used at most once, what is computed below it was not
    visited before and is only used below it)
    - leaves recording on, keeps all values, operands and functions, and changes nothing at
      tensors that are not below the root or not wanted;
    - gives the root the gradient it was called with, or a sharing of ones;
    - gives every other wanted tensor below the root the sum, in some order, of its earlier
      gradient and of one result for each of its uses below the root: that of the backward
      function recorded for the user, called with the whole gradient of the user, at the
      position of the operand.
    Whether these functions compute derivatives, and how exactly the sums are formed, is the subject
    of other theorems (C44_chain_partial, C62, C47, C61); C44_error adds up their errors.
    Missing from the full statement: calls that are not fair (refuted, see P_Autograd.v). *)
Theorem C44_flow_partial : forall K alpha ev (gen : fop -> nat -> nat -> result (list (list K))) s su on fuel l root gradient w0 nodes act w nodes' act' w',
  fairs l -> fair (outline l) (seen l) root -> (length (mades l) <= fuel)%nat ->
  gexecs alpha ev gen s su on fuel l (mkG [] true, w0) = (Ok tt, (mkG nodes act, w)) ->
  mbackward alpha ev gen s su on fuel root gradient (mkG nodes act, w) = (Ok tt, (mkG nodes' act', w')) ->
  let P := outline l in
  act = true /\ act' = true /\ length nodes = length (mades l) /\ length nodes' = length (mades l) /\
  forall i n e, nth_error nodes i = Some n -> nth_error (mades l) i = Some e ->
    made_by nodes n e /\ (n_grad n <> None <-> wanted P i /\ seen l i) /\
    exists m, nth_error nodes' i = Some m /\
      n_val m = n_val n /\ n_req m = n_req n /\ n_fun m = n_fun n /\ n_parents m = n_parents n /\
      (~ (below (opnds P) root i /\ wanted P i) -> m = n) /\
      (below (opnds P) root i -> wanted P i ->
       exists x, n_grad m = Some x /\ (i = root -> start s on nodes root gradient x) /\
         (i <> root -> exists L, all_uses (opnds P) root (old_grad nodes) i L /\
            flows (opnds P) root (start s on nodes root gradient) (old_grad nodes) (passes_on nodes)
              (fun x y z => returns (madd alpha ev gen s su x y) z) i L x)).
Proof.
  intros K alpha ev gen s su on fuel l root gradient w0 nodes act w nodes' act' w' FS FA HF E1 E2 P.
  destruct (run_inv alpha ev gen s su on fuel l w0 nodes act w FS HF E1) as [-> I].
  destruct (back_flow alpha ev gen s su on l nodes root gradient fuel true w nodes' act' w' I FA HF E2) as (A & B & C & D & F).
  split; [auto|]. split; [auto|]. split; [apply (p_len _ _ I)|]. split; [rewrite B; apply (p_len _ _ I)|].
  intros i n e En Ee. split; [apply (p_by _ _ I i n e En Ee)|]. split; [apply (p_grad _ _ I i n En)|].
  destruct (nth_error nodes' i) as [m|] eqn:Em.
  - exists m. destruct (C i m n Em En) as (V & R & G & O). do 5 (split; [auto|]). split.
    + intros H. apply D in H. congruence.
    + intros H1 H2. destruct (F i m Em H1 H2) as (x & G1 & G2 & G3). exists x. split; [auto|]. split; [auto|].
      intros NR. destruct (G3 NR) as (L & L1 & L2). exists L. auto.
  - exfalso. apply nth_error_None in Em. assert (i < length nodes)%nat by (apply nth_error_Some; congruence). lia.
Qed.
Print Assumptions C44_flow_partial.

(* --------------------------------------------------------------------- a concrete program *)
(** deciding [fair] *)
Definition fair_check (P : list (bool * list nat)) (vis : nat -> bool) (root : nat) : bool :=
  let r := reachb (opnds P) root in
  let inner i := (r i && negb (match opnds P i with [] => true | _ => false end))%bool in
  (inner root && Nat.leb (used P root) 1 &&
   forallb (fun i => negb (inner i && vis i)%bool) (seq 0 (S root)) &&
   forallb (fun i => forallb (fun c => negb (inner i && negb (Nat.eqb i root) && existsb (Nat.eqb i) (opnds P c) && negb (r c))%bool) (seq 0 (length P))) (seq 0 (S root)))%bool.
Lemma fair_ok P (seen : nat -> Prop) vis root : dag P -> (forall i, seen i -> vis i = true) ->
  wanted P root -> fair_check P vis root = true -> fair P seen root.
Proof.
  intros HD HV HN H. unfold fair_check in H. rewrite !Bool.andb_true_iff in H. destruct H as [[[[_ H1] H2] H3] H4].
  assert (IN : forall i, below (opnds P) root i -> opnds P i <> [] ->
    (reachb (opnds P) root i && negb (match opnds P i with [] => true | _ => false end))%bool = true /\ (i <= root)%nat).
  { intros i B NE. split; [|destruct B as [q Q]; eapply path_le; eauto]. rewrite (proj2 (reachb_ok _ HD root i)) by auto. destruct (opnds P i); [congruence|reflexivity]. }
  split; [|split; [auto|split]].
  - destruct (opnds P root); [discriminate|congruence].
  - apply Nat.leb_le. auto.
  - intros i B _ NE. destruct (IN i B NE) as [A L]. split.
    + intros V. rewrite forallb_forall in H3. specialize (H3 i ltac:(apply in_seq; lia)). cbv beta in H3. rewrite A, (HV i V) in H3. discriminate.
    + intros c NR Hc. rewrite forallb_forall in H4. specialize (H4 i ltac:(apply in_seq; lia)).
      rewrite forallb_forall in H4. assert (Lc : (c < length P)%nat) by (apply dag_in in Hc; [lia|auto]).
      specialize (H4 c ltac:(apply in_seq; lia)). cbv beta in H4. rewrite A in H4. destruct (Nat.eqb_spec i root); [congruence|].
      assert (E : existsb (Nat.eqb i) (opnds P c) = true) by (apply existsb_exists; exists i; split; [auto|apply Nat.eqb_refl]).
      rewrite E in H4. destruct (reachb (opnds P) root c) eqn:R; [apply reachb_ok; auto|discriminate].
Qed.
Lemma dag_check (P : list (bool * list nat)) : forallb (fun i => forallb (fun j => Nat.ltb j i) (opnds P i)) (seq 0 (length P)) = true -> dag P.
Proof.
  intros H i j Hj. destruct (Nat.lt_ge_cases i (length P)) as [L|L]; [|rewrite opnds_ge in Hj by auto; destruct Hj].
  rewrite forallb_forall in H. specialize (H i ltac:(apply in_seq; lia)). rewrite forallb_forall in H. apply Nat.ltb_lt. auto.
Qed.

(** y = conv2d(x, w) with stride 2, the sum of y * y *)
Definition fl_ts : list triple :=
  match get_triples (BConv2d (mkConv 2 0 1 1)) 2 (mkT [1;1;4;4]%nat (repeat 3 16)) (mkT [2;1;2;2]%nat [1;2;3;4;5;6;7;8])
          [repeat 9 16] [repeat 4 8] [repeat 1 8] with Ok ts => ts | Err _ => [] end.
Definition fl_prog : list gstep :=
  [GNew C62_x true; GNew C62_w true;
   g_conv C62_s 0 1 2 0 1 1 fl_ts C62_ts1 C62_ts2 (fun _ => Err ValueError);
   g_bin t_alpha t_ev toy C62_s g_su g_mm FMul 2 2; g_un t_alpha t_ev toy C62_s g_su FSum 3]%nat.
Definition fl_run := gexecs t_alpha t_ev toy C62_s g_su g_on 9 fl_prog (mkG [] true, w0).
Definition fl_back := match fl_run with (Ok _, st) => mbackward t_alpha t_ev toy C62_s g_su g_on 9 4 None st | x => x end.
Definition fl_ok {A} (r : result A * (graph (mpcw (K:=tkey)) mpc * mpcw (K:=tkey))) : bool :=
  match r with (Ok _, (g, _)) => g_active g | _ => false end.
Definition fl_grad (r : result unit * (graph (mpcw (K:=tkey)) mpc * mpcw (K:=tkey))) (i : nat) : result tensor :=
  do n <- get_nth (g_nodes (fst (snd r))) i; match n_grad n with Some x => reconstruct x | None => Err KeyError end.
Example C44_flow_witness : fairs fl_prog /\ fair (outline fl_prog) (seen fl_prog) 4 /\
  fl_ok fl_run = true /\ fl_ok fl_back = true /\ fl_grad fl_back 1 = Ok (mkT [2;1;2;2]%nat [136; 120; 72; 56; 2312; 2648; 3656; 3992]).
  (* with y = -7, -5 + 2^63, 1, 3 + 2^63 for the first kernel: 2 (35 + 15 + 3 + 15) and so on *)
Proof.
  assert (D : dag (outline fl_prog)) by (apply dag_check; reflexivity).
  split; [|split; [|split; [|split]]].
  - apply (fs_call [_; _; _; _]), (fs_call [_; _; _]), (fs_call [_; _]), (fs_new [_]), (fs_new []). apply fs_nil.
  - apply (fair_ok _ _ (fun _ => false)); [exact D| | |reflexivity].
    + intros i (r & g & J & _). cbn in J. repeat (destruct J as [J|J]; [discriminate|]). destruct J.
    + apply (want_from _ 4 3); [cbn; tauto|]. apply (want_from _ 3 2); [cbn; tauto|]. apply (want_from _ 2 0); [cbn; tauto|]. eapply want_made. reflexivity.
  - vm_compute. reflexivity.
  - vm_compute. reflexivity.
  - vm_compute. reflexivity.
Qed.

(* ------------------------------------------------------------------------ adding errors *)
Section Error.
  Local Open Scope Q_scope.
  (** [x] is, on the elements of tensor [i], within [b] of [f] *)
  Definition near {T} (val : T -> nat -> Q) (dim : nat -> nat) (i : nat) (x : T) (f : nat -> Q) (b : Q) : Prop :=
    forall e, (e < dim i)%nat -> Qabs (val x e - f e) <= b.
  (** the sum of the errors [D c k] of the uses in [L], [O] for the old gradient, [eps] for each addition *)
  Definition error_of (O : Q) (D : nat -> nat -> Q) (eps : Q) (L : list (option (nat * nat))) : Q :=
    qsum (map (fun u => eps + match u with None => O | Some (c, k) => D c k end) L) - eps.
End Error.

(** C44 with errors: if the gradients flow as in C44_flow_partial, the backward functions compute
    the derivatives [J] with an error of at most [D c k] whenever their argument is within [B c] of
    the true gradient [A c], additions have an error of at most [eps], the seed is within [B root]
    and the old gradients within [O i], then every gradient is within [B i] of the true one, for any
    bounds [B] that are at least the sums of these errors. *)
Theorem C44_error : forall T (par : nat -> list nat) root (seed : T -> Prop) (old : nat -> option T) (apply : nat -> T -> list T -> Prop) (add : T -> T -> T -> Prop)
    (val : T -> nat -> Q) dim J (o : nat -> nat -> Q) g A
    (B : nat -> Q) (D : nat -> nat -> Q) (O : nat -> Q) eps,
  (forall i j, In j (par i) -> (j < i)%nat) -> old root = None ->
  adjoint par root J o g A ->
  (forall x, seed x -> near val dim root x (A root) (B root)) ->
  (forall i, match old i with Some x => near val dim i x (o i) (O i) | None => forall e, (o i e == 0)%Q end) ->
  (forall c x gs k y i, apply c x gs -> near val dim c x (A c) (B c) -> nth_error gs k = Some y -> nth_error (par c) k = Some i ->
     near val dim i y (J c k (A c)) (D c k)) ->
  (forall x y z e, add x y z -> (Qabs (val z e - (val x e + val y e)) <= eps)%Q) ->
  (forall i L, i <> root -> all_uses par root old i L -> (error_of (O i) D eps L <= B i)%Q) ->
  forall i L x, i <> root -> flows par root seed old apply add i L x -> all_uses par root old i L -> near val dim i x (A i) (B i).
Proof.
  intros T par root seed old apply add val dim J o g A B D O eps HD OR [AR AI] HS HO HA HE HB.
  set (part := fun i (u : option (nat * nat)) e => match u with None => o i e | Some (c, k) => J c k (A c) e end).
  assert (QA : forall l l', (qsum (l ++ l') == qsum l + qsum l')%Q).
  { unfold qsum. induction l as [|q l IH]; intros l'; cbn [app fold_right]; [rewrite Qplus_0_l; reflexivity|]. rewrite IH. ring. }
  assert (NIL : forall i L X, flows par root seed old apply add i L X -> L <> []).
  { intros i L X F. induction F; try discriminate. intros HN. apply app_eq_nil in HN. tauto. }
  assert (NR : forall L X, all_uses par root old root L -> flows par root seed old apply add root L X -> False).
  { intros L X (_ & U & V) F. pose proof (NIL _ _ _ F) as NE.
    destruct L as [|[[c k]|] L]; [congruence| |].
    - destruct (proj1 (U c k) (or_introl eq_refl)) as [[q Q] H]. apply nth_error_In in H. apply HD in H. apply path_le in Q; [lia|auto].
    - apply (proj1 V (or_introl eq_refl)). auto. }
  (* the parts of all uses make up the gradient *)
  assert (SUM : forall i L, i <> root -> all_uses par root old i L -> forall e, (qsum (map (fun u => part i u e) L) == A i e)%Q).
  { intros i L NI (N & U & V) e.
    set (L' := flat_map (fun u : option (nat * nat) => match u with Some p => [p] | None => [] end) L).
    assert (IN : forall c k, In (c, k) L' <-> In (Some (c, k)) L).
    { intros c k. unfold L'. rewrite in_flat_map. split.
      - intros ([p|] & H & H'); [destruct H' as [->|[]]; auto|destruct H'].
      - intros H. exists (Some (c, k)). split; [auto|left; auto]. }
    assert (N' : NoDup L').
    { apply NoDup_flat_map; [auto| |].
      - intros [p|] _; repeat constructor; auto.
      - intros [p|] [q|] x _ _ H H'; try destruct H; try destruct H'; try contradiction; congruence. }
    rewrite (AI i L' NI N') by (intros c k; rewrite IN; apply U).
    assert (SP : forall l, NoDup l -> (qsum (map (fun u => part i u e) l) ==
       (if in_dec use_dec None l then o i e else 0) + qsum (map (fun u => J (fst u) (snd u) (A (fst u)) e) (flat_map (fun u : option (nat * nat) => match u with Some p => [p] | None => [] end) l)))%Q).
    { induction l as [|u l IH]; intros ND; [cbn; ring|]. inversion ND as [|? ? NI' ND']; subst. specialize (IH ND').
      cbn [map flat_map]. destruct u as [[c k]|]; cbn [app map]; unfold qsum in *; cbn [fold_right fst snd]; rewrite IH.
      - unfold part. destruct (in_dec use_dec None l) as [H|H], (in_dec use_dec None (Some (c, k) :: l)) as [H'|H']; try ring.
        + exfalso. apply H'. right. auto.
        + exfalso. destruct H' as [H'|H']; [discriminate|auto].
      - unfold part. destruct (in_dec use_dec None l) as [H|H]; [contradiction|].
        destruct (in_dec use_dec None (None :: l)) as [H'|H']; [ring|]. exfalso. apply H'. left. auto. }
    rewrite (SP L N). fold L'. destruct (in_dec use_dec None L) as [H|H]; [reflexivity|].
    pose proof (HO i) as Hi. destruct (old i) as [x|] eqn:Oi; [exfalso; apply H, V; congruence|]. rewrite Hi. reflexivity. }
  assert (MAIN : forall i L x, flows par root seed old apply add i L x ->
    near val dim i x (fun e => qsum (map (fun u => part i u e) L)) (error_of (O i) D eps L)).
  { intros i L x F. induction F as [i x Ho|k i X gs y HX Hap Hy Hp|c k i L X gs y F IH U Hap Hy Hp|i L L' x y z F1 IH1 F2 IH2 Hz].
    - pose proof (HO i) as Hi. rewrite Ho in Hi. intros e He. specialize (Hi e He). unfold error_of, qsum, part. cbn [map fold_right].
      apply Qabs_Qle_condition in Hi. apply Qabs_Qle_condition. lra.
    - pose proof (HA root X gs k y i Hap (HS X HX) Hy Hp) as H. intros e He. specialize (H e He). unfold error_of, qsum, part. cbn [map fold_right].
      apply Qabs_Qle_condition in H. apply Qabs_Qle_condition. lra.
    - assert (NC : c <> root) by (intros ->; eapply NR; eauto).
      assert (NX : near val dim c X (A c) (B c)).
      { intros e He. specialize (IH e He). pose proof (SUM c L NC U e) as SE. pose proof (HB c L NC U) as BE.
        apply Qabs_Qle_condition in IH. apply Qabs_Qle_condition. lra. }
      pose proof (HA c X gs k y i Hap NX Hy Hp) as H. intros e He. specialize (H e He). unfold error_of, qsum, part. cbn [map fold_right].
      apply Qabs_Qle_condition in H. apply Qabs_Qle_condition. lra.
    - intros e He. specialize (IH1 e He). specialize (IH2 e He). pose proof (HE x y z e Hz) as Ez. unfold error_of in *. rewrite !map_app.
      pose proof (QA (map (fun u => part i u e) L) (map (fun u => part i u e) L')) as Q1.
      pose proof (QA (map (fun u => eps + match u with None => O i | Some (c, k) => D c k end)%Q L) (map (fun u => eps + match u with None => O i | Some (c, k) => D c k end)%Q L')) as Q2.
      apply Qabs_Qle_condition in IH1, IH2, Ez. apply Qabs_Qle_condition. lra. }
  intros i L x NI F U e He. pose proof (MAIN i L x F e He) as H. pose proof (SUM i L NI U e) as SE. pose proof (HB i L NI U) as BE.
  apply Qabs_Qle_condition in H. apply Qabs_Qle_condition. lra.
Qed.
Print Assumptions C44_error.

(** [x] used twice as operand of a product whose backward function is off by up to 1/10 *)
Definition er_par (i : nat) : list nat := match i with 1%nat => [0; 0]%nat | _ => [] end.
Definition er_apply (c : nat) (x : Q) (gs : list Q) : Prop := exists a b, gs = [a; b] /\ (Qabs (a - 3 * x) <= 1 # 10)%Q /\ (Qabs (b - 3 * x) <= 1 # 10)%Q.
Example C44_error_witness :
  adjoint er_par 1 (fun _ _ f e => 3 * f e)%Q (fun _ _ => 0)%Q (fun _ => 1)%Q (fun i _ => if Nat.eqb i 1 then 1 else if Nat.eqb i 0 then 6 else 0)%Q /\
  flows er_par 1 (fun x => x = 1%Q) (fun _ => None) er_apply (fun x y z => z = (x + y)%Q) 0 [Some (1, 0); Some (1, 1)]%nat ((31 # 10) + (30 # 10))%Q /\
  all_uses er_par 1 (fun _ => @None Q) 0 [Some (1, 0); Some (1, 1)]%nat /\
  (error_of 0 (fun _ _ => 1 # 10) 0 [Some (1, 0); Some (1, 1)]%nat == 1 # 5)%Q /\
  (Qabs ((31 # 10) + (30 # 10) - 6) <= 1 # 5)%Q.
Proof.
  assert (PB : forall a b, below er_par a b -> a = 1%nat -> b = 1%nat \/ b = 0%nat).
  { intros a b [q P] ->. inversion P as [|? k j ? ? H P2]; subst; [auto|]. right. destruct k as [|[|k]]; cbn in H; try (destruct k; discriminate);
    injection H as <-; inversion P2 as [|? k2 ? ? ? H2]; subst; auto; destruct k2; discriminate. }
  assert (B1 : below er_par 1 1) by (exists []; constructor).
  assert (U0 : all_uses er_par 1 (fun _ => @None Q) 0 [Some (1, 0); Some (1, 1)]%nat).
  { split; [repeat constructor; cbn; intuition congruence|]. split.
    - intros c k. split.
      + intros [H|[H|[]]]; injection H as <- <-; auto.
      + intros [B H]. destruct (PB 1%nat c B eq_refl) as [-> | ->]; [|destruct k; discriminate].
        destruct k as [|[|k]]; cbn in *; auto. destruct k; discriminate.
    - cbn. intuition congruence. }
  split; [|split; [|split; [exact U0|split; [reflexivity|discriminate]]]].
  - split; [reflexivity|]. intros i L NI N H e. destruct (Nat.eqb_spec i 1); [congruence|]. destruct (Nat.eqb_spec i 0) as [->|N0].
    + assert (PL : Permutation.Permutation L [(1, 0); (1, 1)]%nat).
      { apply Permutation.NoDup_Permutation; [auto|repeat constructor; cbn; intuition congruence|]. intros [c k]. rewrite H. split.
        - intros [B E]. destruct (PB 1%nat c B eq_refl) as [-> | ->]; [|destruct k; discriminate]. destruct k as [|[|k]]; cbn in *; auto. destruct k; discriminate.
        - intros [E|[E|[]]]; injection E as <- <-; auto. }
      assert (LE : forall l : list (nat * nat), (forall u, In u l -> fst u = 1%nat) ->
        (qsum (map (fun u => 3 * (if Nat.eqb (fst u) 1 then 1 else if Nat.eqb (fst u) 0 then 6 else 0)) l) == 3 * inject_Z (Z.of_nat (length l)))%Q).
      { induction l as [|u l IH]; intros Hl; [reflexivity|]. cbn [map length]. unfold qsum in *. cbn [fold_right]. rewrite IH by (intros; apply Hl; right; auto).
        rewrite (Hl u) by (left; auto). cbn [Nat.eqb]. rewrite Nat2Z.inj_succ, <- Z.add_1_l, inject_Z_plus. ring. }
      rewrite LE; [rewrite (Permutation.Permutation_length PL); reflexivity|]. intros u Hu. apply (Permutation.Permutation_in _ PL) in Hu. destruct Hu as [<-|[<-|[]]]; reflexivity.
    + destruct L as [|[c k] L]; [reflexivity|]. exfalso. destruct (proj1 (H c k) (or_introl eq_refl)) as [B E].
      destruct (PB 1%nat c B eq_refl) as [-> | ->]; [|destruct k; discriminate]. destruct k as [|[|k]]; cbn in E; try congruence. destruct k; discriminate.
  - apply (fl_add _ _ _ _ _ _ 0 [Some (1, 0)]%nat [Some (1, 1)]%nat (31 # 10)%Q (30 # 10)%Q).
    + eapply (fl_root _ _ _ _ _ _ 0 0 1%Q [31 # 10; 30 # 10]%Q); [reflexivity| |reflexivity|reflexivity]. eexists _, _. split; [reflexivity|]. split; discriminate.
    + eapply (fl_root _ _ _ _ _ _ 1 0 1%Q [31 # 10; 30 # 10]%Q); [reflexivity| |reflexivity|reflexivity]. eexists _, _. split; [reflexivity|]. split; discriminate.
    + reflexivity.
Qed.
