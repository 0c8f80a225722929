(** Lemmas about the protocol registry, share() and equality. *)
From Coq Require Import String.
From Verif Require Import Util S_Ring S_Tensor M_Torch M_Encoder M_Session S_Calls L_Torch L_Session.
Local Open Scope Z_scope.

(** ---- session construction *)
Lemma existsb_name {A} (reg : list (string * A)) n :
  existsb (fun e => String.eqb (fst e) n) reg = true <-> In n (map fst reg).
Proof.
  rewrite existsb_exists, in_map_iff. split.
  - intros ([k a] & H & E). apply String.eqb_eq in E. exists (k, a). auto.
  - intros ([k a] & E & H). exists (k, a). split; auto. apply String.eqb_eq. auto.
Qed.

Lemma type_iff ring : supported ring <-> exists d, get_type_from_ring ring = Ok d.
Proof. split; [apply type_supported|]. intros [d H]. eapply supported_type; eauto. Qed.

Lemma type_err ring : ~ supported ring -> get_type_from_ring ring = Err ValueError.
Proof.
  intros H. destruct (get_type_from_ring ring) as [d|e] eqn:E.
  - apply supported_type in E. contradiction.
  - unfold get_type_from_ring in E. repeat (destruct (_ =? _); [discriminate|]). congruence.
Qed.

Definition few_malicious (ps : list nat) (m : bool) : Prop :=
  (1 <= List.length ps <= 2)%nat /\ m = true.

Lemma session_init_iff g reg parties ring cfg p :
  let ps := match parties with None => [] | Some l => l end in
  ((In (pr_name p) (map fst reg) /\ supported ring /\ ~ few_malicious ps (pr_malicious p)) ->
   session_init g reg parties ring cfg (Some p) =
   Ok (mkSession g ps (List.length ps) p (match cfg with Some c => c | None => default_config end)
         ring ((- ring) / 2) ((ring - 1) / 2) None [] [])) /\
  (~ (In (pr_name p) (map fst reg) /\ supported ring /\ ~ few_malicious ps (pr_malicious p)) ->
   session_init g reg parties ring cfg (Some p) = Err ValueError).
Proof.
  intros ps. unfold session_init. fold ps.
  destruct (existsb (fun e => String.eqb (fst e) (pr_name p)) reg) eqn:Ex; cbn [rbind].
  2: { split; [|reflexivity]. intros (H & _). apply existsb_name in H. congruence. }
  apply existsb_name in Ex.
  destruct (Nat.ltb 0 (List.length ps) && Nat.ltb (List.length ps) 3 && pr_malicious p)%bool eqn:Em.
  - apply andb_true_iff in Em. destruct Em as [Em1 Em2]. apply andb_true_iff in Em1. destruct Em1 as [E1 E2].
    apply Nat.ltb_lt in E1, E2. split; [|reflexivity]. intros (_ & _ & H). exfalso. apply H. split; auto. lia.
  - assert (Hm : ~ few_malicious ps (pr_malicious p)).
    { intros [H1 H2]. rewrite H2 in Em. rewrite andb_true_r in Em.
      apply andb_false_iff in Em. destruct Em as [Em|Em]; apply Nat.ltb_ge in Em; lia. }
    split.
    + intros (_ & Hs & _). destruct (type_supported _ Hs) as [d ->]. reflexivity.
    + intros H. rewrite type_err; [reflexivity|]. intros Hs. apply H. auto.
Qed.

Lemma session_init_default g reg parties ring cfg : In "FSS"%string (map fst reg) ->
  session_init g reg parties ring cfg None =
  session_init g reg parties ring cfg (Some (mkProto "FSS" CShare false)).
Proof. intros H. unfold session_init. cbn [pr_name]. apply existsb_name in H. rewrite H. reflexivity. Qed.

Lemma bounds_even ring z : supported ring -> ring <> 67 ->
  exists! v, (- ring) / 2 <= v <= (ring - 1) / 2 /\ exists k, z = v + k * ring.
Proof.
  intros Hs H67. exists ((z + ring / 2) mod ring - ring / 2).
  assert (R : 0 < ring /\ ring = 2 * (ring / 2)).
  { destruct (supported_cases _ Hs) as [->|[->|[->|[->|[->| ->]]]]]; try congruence; split; reflexivity. }
  destruct R as [R1 R2]. set (h := ring / 2) in *. clearbody h.
  assert (M : 0 <= (z + h) mod ring < ring) by (apply Z.mod_pos_bound; auto).
  assert (D := Z.div_mod (z + h) ring ltac:(lia)).
  set (q := (z + h) / ring) in *. set (r := (z + h) mod ring) in *. clearbody q r.
  assert (E1 : (- ring) / 2 = - h) by lia. assert (E2 : (ring - 1) / 2 = h - 1) by lia.
  rewrite E1, E2. split.
  - split; [lia|]. exists q. lia.
  - intros v [Hv [k Hk]]. assert (k = q) by nia. subst k. lia.
Qed.

(** ---- protocol registry *)
Lemma define_class_cases reg c :
  (cd_share c = None \/ cd_levels c = None \/ In (cd_name c) (map fst reg)) /\
    define_class reg c = (Err ValueError, reg) \/
  (cd_share c <> None /\ cd_levels c <> None /\ ~ In (cd_name c) (map fst reg)) /\
    define_class reg c = (Ok tt, reg ++ [(cd_name c, c)]).
Proof.
  unfold define_class. destruct (cd_share c) eqn:E1; [|left; auto].
  destruct (cd_levels c) eqn:E2; [|left; auto].
  destruct (existsb (fun e => String.eqb (fst e) (cd_name c)) reg) eqn:Ex.
  - apply existsb_name in Ex. left; auto.
  - right. split; [|reflexivity]. repeat split; try discriminate. intros H.
    apply existsb_name in H. congruence.
Qed.

Lemma NoDup_snoc {A} (l : list A) a : NoDup l -> ~ In a l -> NoDup (l ++ [a]).
Proof.
  intros H Ha. induction l as [|x l IH]; simpl.
  - constructor; [simpl; tauto|constructor].
  - inversion H as [|? ? N1 N2]; subst. constructor.
    + rewrite in_app_iff. simpl in *. intuition.
    + apply IH; auto. simpl in Ha. tauto.
Qed.

Definition reg_ok (reg : list (string * classdef)) : Prop :=
  NoDup (map fst reg) /\
  forall n c, In (n, c) reg -> cd_name c = n /\ cd_share c <> None /\ cd_levels c <> None.

Lemma reg_ok_step reg c : reg_ok reg -> reg_ok (snd (define_class reg c)).
Proof.
  intros [H1 H2]. destruct (define_class_cases reg c) as [[_ ->]|[(S1 & S2 & S3) ->]]; cbn [snd].
  - split; auto.
  - split.
    + rewrite map_app. cbn [map fst]. apply NoDup_snoc; auto.
    + intros n c' H. apply in_app_iff in H. destruct H as [H|[H|[]]]; [auto|].
      injection H as <- <-. auto.
Qed.

Lemma after_classes_ok h : reg_ok (after_classes h).
Proof.
  unfold after_classes. assert (H0 : reg_ok []). { split; [constructor|]. intros ? ? []. }
  revert H0. generalize (@nil (string * classdef)). induction h as [|c h IH]; intros reg H; cbn [fold_left]; auto.
  apply IH, reg_ok_step, H.
Qed.

(** ---- share() *)
Lemma same_set_spec a b : same_set a b = true <-> same_clients a b.
Proof.
  unfold same_set, same_clients. rewrite andb_true_iff, !forallb_forall. split.
  - intros [H1 H2] x. split; intros H.
    + specialize (H1 x H). apply existsb_exists in H1. destruct H1 as (y & Hy & E).
      apply Nat.eqb_eq in E. subst; auto.
    + specialize (H2 x H). apply existsb_exists in H2. destruct H2 as (y & Hy & E).
      apply Nat.eqb_eq in E. subst; auto.
  - intros H. split; intros x Hx; apply existsb_exists; exists x; (split; [apply H; auto|apply Nat.eqb_refl]).
Qed.

Lemma same_clients_eq a b c : same_clients a b -> same_set c a = same_set c b.
Proof.
  intros H. destruct (same_set c a) eqn:E1, (same_set c b) eqn:E2; auto.
  - apply same_set_spec in E1. assert (same_set c b = true); [|congruence].
    apply same_set_spec. intros x. rewrite (E1 x). apply H.
  - apply same_set_spec in E2. assert (same_set c a = true); [|congruence].
    apply same_set_spec. intros x. rewrite (E2 x). symmetry; apply H.
Qed.

Lemma find_app {A} (f : A -> bool) l1 l2 x : List.find f l1 = Some x -> List.find f (l1 ++ l2) = Some x.
Proof. induction l1 as [|a l1 IH]; simpl; [discriminate|]. destruct (f a); auto. Qed.

Lemma find_app_none {A} (f : A -> bool) l1 l2 : List.find f l1 = None -> List.find f (l1 ++ l2) = List.find f l2.
Proof. induction l1 as [|a l1 IH]; simpl; auto. destruct (f a); [discriminate|auto]. Qed.

Lemma share_call_app st ps se kw : exists l, snd (share_call st ps se kw) = st ++ l.
Proof.
  unfold share_call. destruct se as [s|], ps as [ps|]; try (exists []; rewrite app_nil_r; reflexivity).
  destruct (List.find _ st); [exists []; rewrite app_nil_r; reflexivity|].
  destruct (forallb _ kw); eexists; reflexivity.
Qed.

Lemma after_calls_app h : forall st, exists l, after_calls h st = st ++ l.
Proof.
  induction h as [|c h IH]; intros st; cbn [after_calls fold_left].
  - exists []. rewrite app_nil_r. reflexivity.
  - destruct (share_call_app st (fst (fst c)) (snd (fst c)) (snd c)) as [l1 E1].
    unfold after_calls in IH. rewrite E1. destruct (IH (st ++ l1)) as [l2 E2].
    exists (l1 ++ l2). rewrite E2, app_assoc. reflexivity.
Qed.

(** every entry of the table is a session created for its key *)
Definition table_ok (st : parties_map) : Prop := forall k s, In (k, s) st -> sv_parties s = k.

Lemma table_ok_step st ps se kw : table_ok st -> table_ok (snd (share_call st ps se kw)).
Proof.
  intros H. unfold share_call. destruct se as [s|], ps as [ps|]; cbn [snd]; auto.
  destruct (List.find _ st); cbn [snd]; auto.
  assert (T : table_ok (st ++ [(ps, mkSS (List.length st) ps)])).
  { intros k s Hi. apply in_app_iff in Hi. destruct Hi as [Hi|[Hi|[]]]; [auto|]. injection Hi as <- <-. reflexivity. }
  destruct (forallb _ kw); exact T.
Qed.

Lemma after_calls_ok h : forall st, table_ok st -> table_ok (after_calls h st).
Proof.
  induction h as [|c h IH]; intros st H; cbn [after_calls fold_left]; auto.
  apply IH. apply table_ok_step, H.
Qed.

Lemma share_call_plain st ps : table_ok st ->
  exists s l, share_call st (Some ps) None [] = (construct s [], st ++ l) /\
    List.find (fun e => same_set (fst e) ps) (st ++ l) = Some (sv_parties s, s) /\
    same_clients (sv_parties s) ps.
Proof.
  intros T. unfold share_call. destruct (List.find (fun e => same_set (fst e) ps) st) as [[k s]|] eqn:E.
  - exists s, []. rewrite app_nil_r. cbn [snd].
    destruct (find_some _ _ E) as [Hi Hs]. cbn [fst] in Hs. rewrite (T _ _ Hi).
    split; [reflexivity|]. split; [exact E|]. apply same_set_spec, Hs.
  - cbn [forallb]. exists (mkSS (List.length st) ps), [(ps, mkSS (List.length st) ps)].
    split; [reflexivity|]. split.
    + rewrite find_app_none by exact E. cbn [List.find fst].
      assert (R : same_set ps ps = true) by (apply same_set_spec; intros x; tauto). rewrite R. reflexivity.
    + intros x; tauto.
Qed.

Lemma share_call_stable h1 h2 ps ps' : same_clients ps ps' ->
  let st := after_calls h1 [] in
  let r1 := share_call st (Some ps) None [] in
  let r2 := share_call (after_calls h2 (snd r1)) (Some ps') None [] in
  fst r2 = fst r1.
Proof.
  intros H st r1 r2.
  assert (T : table_ok st) by (apply after_calls_ok; intros ? ? []).
  destruct (share_call_plain st ps T) as (s & l & E1 & F1 & _).
  subst r2 r1. rewrite E1. cbn [fst snd].
  destruct (after_calls_app h2 (st ++ l)) as [l2 E2]. rewrite E2.
  unfold share_call.
  assert (F2 : List.find (fun e => same_set (fst e) ps') ((st ++ l) ++ l2) = Some (sv_parties s, s)).
  { apply find_app. rewrite <- F1. clear - H. induction (st ++ l) as [|a m IH]; simpl; auto.
    rewrite <- (same_clients_eq ps ps') by exact H. destruct (same_set (fst a) ps); auto. }
  rewrite F2. reflexivity.
Qed.

Lemma share_call_members h ps : 
  match fst (share_call (after_calls h []) (Some ps) None []) with
  | Ok s => same_clients (sv_parties s) ps
  | Err e => exists a, forall x, In x ps -> x = a
  end.
Proof.
  set (st := after_calls h []).
  assert (T : table_ok st) by (apply after_calls_ok; intros ? ? []).
  destruct (share_call_plain st ps T) as (s & l & E1 & _ & M). rewrite E1. cbn [fst].
  unfold construct. cbn [forallb negb].
  destruct (sv_parties s) as [|a [|b r]] eqn:Es; cbn [List.length].
  - exists 0%nat. intros x Hx. apply M in Hx. destruct Hx.
  - exists a. intros x Hx. apply M in Hx. destruct Hx as [<-|[]]. reflexivity.
  - rewrite Es. exact M.
Qed.

(** ---- equality *)
Lemma list_eqb_eq a b : list_eqb a b = true <-> a = b.
Proof.
  unfold list_eqb. rewrite andb_true_iff, Nat.eqb_eq, forallb_forall. split.
  - intros [HL H]. revert b HL H. induction a as [|x a IH]; intros [|y b] HL H; simpl in *; try discriminate; auto.
    f_equal; [|apply IH; auto]. specialize (H (x, y) (or_introl eq_refl)). cbn in H. apply Z.eqb_eq, H.
  - intros ->. split; auto. intros [x y] H. cbn. apply Z.eqb_eq.
    induction b as [|z b IH]; simpl in H; [tauto|]. destruct H as [H|H]; [congruence|auto].
Qed.

Lemma config_eqb_eq a b : config_eqb a b = true <-> a = b.
Proof.
  unfold config_eqb. rewrite andb_true_iff, Z.eqb_eq, Nat.eqb_eq. destruct a, b; cbn. split.
  - intros [-> ->]; auto.
  - injection 1; auto.
Qed.

Lemma share_eq_refl a : share_eq a a = true.
Proof.
  unfold share_eq. rewrite (proj2 (list_eqb_eq _ _) eq_refl), (proj2 (config_eqb_eq _ _) eq_refl).
  destruct (se_uuid a); [apply Nat.eqb_refl|reflexivity].
Qed.

Lemma share_eq_sym a b : share_eq a b = share_eq b a.
Proof.
  assert (H : forall a b, share_eq a b = true -> share_eq b a = true).
  { clear. intros a b. unfold share_eq. rewrite !andb_true_iff, !list_eqb_eq, !config_eqb_eq.
    intros [[-> ->] H]. repeat split. destruct (se_uuid a), (se_uuid b); auto.
    rewrite Nat.eqb_sym. exact H. }
  destruct (share_eq a b) eqn:E1, (share_eq b a) eqn:E2; auto; exfalso.
  - apply H in E1. congruence.
  - apply H in E2. congruence.
Qed.

Lemma share_eq_trans a b c : se_uuid b <> None -> share_eq a b = true -> share_eq b c = true -> share_eq a c = true.
Proof.
  unfold share_eq. rewrite !andb_true_iff, !list_eqb_eq, !config_eqb_eq.
  intros Hu [[-> ->] H1] [[-> ->] H2]. repeat split.
  destruct (se_uuid b) as [u|]; [|congruence].
  destruct (se_uuid a) as [v|], (se_uuid c) as [w|]; auto.
  apply Nat.eqb_eq in H1, H2. apply Nat.eqb_eq. congruence.
Qed.

Lemma opt_eqb_eq a b : opt_eqb a b = true <-> a = b.
Proof.
  destruct a, b; cbn; try rewrite Nat.eqb_eq; split; try congruence; auto.
Qed.

Lemma nats_eqb_eq a : forall b, Nat.eqb (List.length a) (List.length b) &&
   forallb (fun p => Nat.eqb (fst p) (snd p)) (combine a b) = true <-> a = b.
Proof.
  induction a as [|x a IH]; intros [|y b]; cbn; try (split; congruence).
  rewrite andb_true_iff, andb_true_iff, Nat.eqb_eq, Nat.eqb_eq. specialize (IH b).
  rewrite andb_true_iff, Nat.eqb_eq in IH. split.
  - intros (H1 & H2 & H3). f_equal; auto. apply IH. auto.
  - injection 1 as -> ->. destruct IH as [_ IH]. destruct (IH eq_refl). auto.
Qed.

Lemma session_eq_eq a b : session_eq a b = true <-> a = b.
Proof.
  unfold session_eq. rewrite !andb_true_iff, !opt_eqb_eq, config_eqb_eq, !Z.eqb_eq, String.eqb_eq, !Bool.eqb_true_iff.
  rewrite <- andb_true_iff, nats_eqb_eq, Nat.eqb_eq.
  assert (D : dtype_eqb (sc_type a) (sc_type b) = true <-> sc_type a = sc_type b).
  { destruct (sc_type a), (sc_type b); cbn; split; congruence. }
  rewrite D. destruct a as [a1 a2 a3 a4 [a5 a5'] a6 a7 a8 a9 a10 a11 a12], b as [b1 b2 b3 b4 [b5 b5'] b6 b7 b8 b9 b10 b11 b12]; cbn.
  split.
  - intros H. repeat match goal with H : _ /\ _ |- _ => destruct H end. subst. reflexivity.
  - intros H. injection H. intros. subst. tauto.
Qed.
