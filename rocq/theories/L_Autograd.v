(** Back-propagation over a computation graph. *)
From Coq Require Import Permutation.
From Verif Require Import Util Modular S_Autograd M_Share M_Engine M_Autograd.
Local Open Scope Z_scope.
Local Open Scope list_scope.

Lemma nth_error_set {A} (l : list A) : forall i j a, nth_error (set_nth i a l) j =
  if Nat.eqb j i then match nth_error l j with Some _ => Some a | None => None end else nth_error l j.
Proof.
  induction l as [|b l IH]; intros [|i] [|j] a; cbn [set_nth nth_error Nat.eqb]; auto. destruct (Nat.eqb j i); auto.
Qed.

Lemma NoDup_map_inj {A B} (f : A -> B) l : (forall a b, f a = f b -> a = b) -> NoDup l -> NoDup (map f l).
Proof.
  intros H N. induction N as [|a l NI N IH]; cbn; constructor; auto. intros I. apply in_map_iff in I.
  destruct I as (b & E & Hb). apply H in E. subst. auto.
Qed.
Lemma NoDup_app_intro {A} (l1 l2 : list A) : NoDup l1 -> NoDup l2 -> (forall a, In a l1 -> ~ In a l2) -> NoDup (l1 ++ l2).
Proof.
  intros N1 N2 H. induction N1 as [|a l NI N IH]; cbn; auto. constructor.
  - rewrite in_app_iff. intros [I|I]; [auto|]. exact (H a (or_introl eq_refl) I).
  - apply IH. intros b Hb. apply H. right. auto.
Qed.
Lemma NoDup_flat_map {A B} (f : A -> list B) l : NoDup l -> (forall a, In a l -> NoDup (f a)) ->
  (forall a b x, In a l -> In b l -> In x (f a) -> In x (f b) -> a = b) -> NoDup (flat_map f l).
Proof.
  induction 1 as [|a l NI N IH]; cbn [flat_map]; intros H1 H2; [constructor|].
  apply NoDup_app_intro.
  - apply H1. left. auto.
  - apply IH; [intros; apply H1; right; auto|]. intros; eapply H2; eauto; right; auto.
  - intros x Hx Hx'. apply in_flat_map in Hx'. destruct Hx' as (b & Hb & Hx').
    assert (a = b) by (eapply H2; eauto; [left; auto|right; auto]). subst. auto.
Qed.
Lemma fst_combine {A B} (l1 : list A) : forall (l2 : list B), length l1 = length l2 -> map fst (combine l1 l2) = l1.
Proof. induction l1; intros [|b l2] H; cbn in *; try discriminate; auto. f_equal. auto. Qed.
Lemma zsum_perm l l' : Permutation l l' -> zsum l = zsum l'.
Proof. induction 1; cbn [zsum]; lia. Qed.
Lemma zsum_map_perm {A} (f : A -> Z) l l' : Permutation l l' -> zsum (map f l) = zsum (map f l').
Proof. intros. apply zsum_perm, Permutation_map. auto. Qed.

(* ------------------------------------------------------------------------------ paths *)
Section Paths.
  Variable par : nat -> list nat.
  Hypothesis Hdag : forall i j, In j (par i) -> (j < i)%nat.

  Lemma path_le a b q : path par a b q -> (b <= a)%nat.
  Proof. induction 1 as [|i k j l q H P IH]; auto. apply nth_error_In in H. apply Hdag in H. lia. Qed.
  Lemma path_app a b c q r : path par a b q -> path par b c r -> path par a c (q ++ r).
  Proof. induction 1; cbn [app]; auto. intros. econstructor; eauto. Qed.
  Lemma path_snoc a b k j q : path par a b q -> nth_error (par b) k = Some j -> path par a j (q ++ [(b, k)]).
  Proof. intros. eapply path_app; eauto. econstructor; eauto. constructor. Qed.
  Lemma path_last a b q : path par a b q -> (q = [] /\ a = b) \/
    exists q' c k, q = q' ++ [(c, k)] /\ path par a c q' /\ nth_error (par c) k = Some b.
  Proof.
    induction 1 as [i|i k j l q H P IH]; [left; auto|]. right. destruct IH as [[-> ->]|(q' & c & k' & -> & P' & E)].
    - exists [], i, k. repeat split; auto. constructor.
    - exists ((i, k) :: q'), c, k'. repeat split; auto. econstructor; eauto.
  Qed.

  (** all paths from [a] to [b], for [a < fuel] *)
  Fixpoint paths_from (fuel a b : nat) : list (list (nat * nat)) :=
    match fuel with
    | O => []
    | S fuel => (if Nat.eqb a b then [[]] else []) ++
        flat_map (fun p => map (cons (a, fst p)) (paths_from fuel (snd p) b)) (combine (seq 0 (length (par a))) (par a))
    end.

  Lemma in_enum {A} (l : list A) : forall s k a, In (k, a) (combine (seq s (length l)) l) <-> ((s <= k)%nat /\ nth_error l (k - s) = Some a).
  Proof.
    induction l as [|b l IH]; intros s k a; cbn [length seq combine In].
    - split; [tauto|]. intros [_ H]. destruct (k - s)%nat; discriminate.
    - rewrite IH. split.
      + intros [E|[H1 H2]].
        * injection E as <- <-. rewrite Nat.sub_diag. auto.
        * split; [lia|]. replace (k - s)%nat with (S (k - S s)) by lia. auto.
      + intros [H1 H2]. destruct (k - s)%nat eqn:E.
        * left. cbn in H2. injection H2 as ->. f_equal. lia.
        * right. split; [lia|]. replace (k - S s)%nat with n by lia. auto.
  Qed.
  Lemma in_enum0 {A} (l : list A) k a : In (k, a) (combine (seq 0 (length l)) l) <-> nth_error l k = Some a.
  Proof. rewrite in_enum, Nat.sub_0_r. split; [tauto|]. intros; split; auto; lia. Qed.

  Lemma paths_from_ok fuel : forall a b q, (a < fuel)%nat -> (In q (paths_from fuel a b) <-> path par a b q).
  Proof.
    induction fuel as [|fuel IH]; intros a b q Ha; [lia|]. cbn [paths_from]. rewrite in_app_iff, in_flat_map. split.
    - intros [H|((k & j) & H1 & H2)].
      + destruct (Nat.eqb_spec a b); [|contradiction]. destruct H as [<-|[]]. subst. constructor.
      + apply in_enum0 in H1. apply in_map_iff in H2. destruct H2 as (q' & <- & H2). cbn [fst snd] in *.
        pose proof (Hdag _ _ (nth_error_In _ _ H1)). apply IH in H2; [|lia]. econstructor; eauto.
    - intros P. inversion P as [|? k j ? q' H P']; subst.
      + left. rewrite Nat.eqb_refl. left. auto.
      + right. exists (k, j). split; [apply in_enum0; auto|]. cbn [fst snd]. apply in_map. apply IH; auto.
        pose proof (Hdag _ _ (nth_error_In _ _ H)). lia.
  Qed.
  Lemma paths_from_NoDup fuel : forall a b, NoDup (paths_from fuel a b).
  Proof.
    induction fuel as [|fuel IH]; intros a b; cbn [paths_from]; [constructor|]. apply NoDup_app_intro.
    - destruct (Nat.eqb a b); repeat constructor; auto.
    - apply NoDup_flat_map.
      + apply (NoDup_map_inv fst). rewrite fst_combine by apply seq_length. apply seq_NoDup.
      + intros [k j] _. cbn [fst snd]. apply NoDup_map_inj; [|apply IH]. intros x y E. injection E. auto.
      + intros [k j] [k' j'] x H1 H2 X1 X2. cbn [fst snd] in *. apply in_map_iff in X1, X2.
        destruct X1 as (q1 & <- & _), X2 as (q2 & E & _). injection E as E _. subst k'.
        apply in_enum0 in H1, H2. congruence.
    - intros x Hx Hx'. destruct (Nat.eqb a b); [|contradiction]. destruct Hx as [<-|[]].
      apply in_flat_map in Hx'. destruct Hx' as (? & _ & H). apply in_map_iff in H. destruct H as (? & E & _). discriminate.
  Qed.
  Lemma all_paths_from a b : all_paths par a b (paths_from (S a) a b).
  Proof. split; [apply paths_from_NoDup|]. intros q. apply paths_from_ok. lia. Qed.

  Variable root : nat.
  (** the edges used from the root *)
  Definition reachb (c : nat) : bool := match paths_from (S root) root c with [] => false | _ => true end.
  Lemma reachb_ok c : reachb c = true <-> below par root c.
  Proof.
    unfold reachb, below. destruct (all_paths_from root c) as [_ H]. split.
    - destruct (paths_from _ _ _) as [|q l]; [discriminate|]. intros _. exists q. apply H. left. auto.
    - intros [q P]. apply H in P. destruct (paths_from _ _ _); [contradiction|reflexivity].
  Qed.
  Definition edges : list (nat * nat) :=
    flat_map (fun c => if reachb c then map (pair c) (seq 0 (length (par c))) else []) (seq 0 (S root)).
  Lemma edges_NoDup : NoDup edges.
  Proof.
    apply NoDup_flat_map; [apply seq_NoDup| |].
    - intros c _. destruct (reachb c); [|constructor]. apply NoDup_map_inj; [|apply seq_NoDup]. congruence.
    - intros a b x _ _ Ha Hb. destruct (reachb a), (reachb b); try contradiction.
      apply in_map_iff in Ha, Hb. destruct Ha as (? & <- & _), Hb as (? & E & _). congruence.
  Qed.
  Lemma in_edges c k : In (c, k) edges <-> below par root c /\ (k < length (par c))%nat.
  Proof.
    unfold edges. rewrite in_flat_map. split.
    - intros (a & _ & H). destruct (reachb a) eqn:R; [|contradiction]. apply in_map_iff in H. destruct H as (b & E & H).
      injection E as -> ->. apply in_seq in H. split; [apply reachb_ok; auto|lia].
    - intros [[q P] H]. pose proof (path_le _ _ _ P). exists c. split; [apply in_seq; lia|].
      rewrite (proj2 (reachb_ok c)) by (exists q; auto). apply in_map, in_seq. lia.
  Qed.
  Definition leads (i : nat) (e : nat * nat) : bool :=
    match nth_error (par (fst e)) (snd e) with Some j => Nat.eqb j i | None => false end.
  Definition into (D : list (nat * nat)) (i : nat) : list (nat * nat) := filter (leads i) D.
  Lemma leads_spec i c k : leads i (c, k) = true <-> nth_error (par c) k = Some i.
  Proof.
    unfold leads. cbn [fst snd]. destruct (nth_error (par c) k); [|split; discriminate]. rewrite Nat.eqb_eq. split; congruence.
  Qed.
  Lemma in_into D i c k : In (c, k) (into D i) <-> In (c, k) D /\ nth_error (par c) k = Some i.
  Proof. unfold into. rewrite filter_In, leads_spec. reflexivity. Qed.
  Lemma in_into_edges i c k : In (c, k) (into edges i) <-> below par root c /\ nth_error (par c) k = Some i.
  Proof.
    rewrite in_into, in_edges. split; [tauto|]. intros [A B]. repeat split; auto. apply nth_error_Some. congruence.
  Qed.

  (** paths to a node other than the root, by their last step *)
  Lemma paths_by_last i : i <> root -> Permutation (paths_from (S root) root i)
    (flat_map (fun e => map (fun q => q ++ [e]) (paths_from (S root) root (fst e))) (into edges i)).
  Proof.
    intros NE. apply NoDup_Permutation.
    - apply paths_from_NoDup.
    - apply NoDup_flat_map.
      + apply NoDup_filter, edges_NoDup.
      + intros e _. apply NoDup_map_inj; [|apply paths_from_NoDup]. intros a b E. apply app_inj_tail in E. tauto.
      + intros e e' x _ _ H1 H2. apply in_map_iff in H1, H2. destruct H1 as (? & <- & _), H2 as (? & E & _).
        apply app_inj_tail in E. destruct E; auto.
    - intros q. rewrite paths_from_ok by lia. rewrite in_flat_map. split.
      + intros P. destruct (path_last _ _ _ P) as [[-> E]|(q' & c & k & -> & P' & E)]; [congruence|].
        exists (c, k). split; [apply in_into_edges; split; auto; exists q'; auto|]. apply in_map_iff. exists q'. split; [auto|].
        cbn [fst]. apply paths_from_ok; auto.
      + intros ((c & k) & H1 & H2). apply in_into_edges in H1. apply in_map_iff in H2. destruct H2 as (q' & <- & H2).
        apply paths_from_ok in H2; [|cbn; lia]. apply path_snoc; tauto.
  Qed.
End Paths.

(* ------------------------------------------------------------------- sums over paths *)

Section Sums.
  Variables (M : Z) (dim : nat -> nat) (par : nat -> list nat) (root : nat) (J : nat -> nat -> vec -> vec) (g0 : vec).
  Hypothesis Hdag : forall i j, In j (par i) -> (j < i)%nat.
  Hypothesis Hlin : forall i k j, nth_error (par i) k = Some j -> linear M (dim i) (dim j) (J i k).

  Definition total (i : nat) : vec := path_sum J (paths_from par (S root) root i) g0.

  Lemma eqv_refl n f : eqv M n f f. Proof. intros e _. reflexivity. Qed.
  Lemma eqv_trans n f g h : eqv M n f g -> eqv M n g h -> eqv M n f h.
  Proof. intros A B e He. rewrite (A e He). auto. Qed.
  Lemma eqv_sym n f g : eqv M n f g -> eqv M n g f.
  Proof. intros A e He. symmetry. auto. Qed.

  Lemma linear_zero m n F : linear M m n F -> eqv M n (F (fun _ => 0)) (fun _ => 0).
  Proof.
    intros [C A] e He. pose proof (A (fun _ => 0) (fun _ => 0) e He) as H. cbn beta in H. 
    assert (Z0 : F (fun _ : nat => 0 + 0) e == F (fun _ => 0) e [mod M]) by (apply C; auto; intros ? _; reflexivity).
    rewrite Z0 in H. apply (eqmod_add_cancel_l M (F (fun _ => 0) e)). rewrite <- H. apply eqmod_eq. ring.
  Qed.
  Lemma linear_sum {A} m n F (f : A -> vec) l : linear M m n F ->
    eqv M n (F (fun e => zsum (map (fun a => f a e) l))) (fun e => zsum (map (fun a => F (f a) e) l)).
  Proof.
    intros HF. induction l as [|a l IH]; cbn [map zsum].
    - apply (linear_zero m). auto.
    - intros e He. destruct HF as [C Ad]. rewrite (Ad (f a) (fun e => zsum (map (fun a => f a e) l)) e He).
      rewrite (IH e He). reflexivity.
  Qed.

  Lemma total_root : eqv M (dim root) (total root) g0.
  Proof.
    intros e He. unfold total, path_sum.
    assert (P : Permutation (paths_from par (S root) root root) [[]]).
    { apply NoDup_Permutation; [apply paths_from_NoDup; auto|repeat constructor; auto|]. intros q. rewrite paths_from_ok by auto. split.
      - intros P. destruct (path_last _ _ _ _ P) as [[-> _]|(q' & c & k & -> & P' & E)]; [left; auto|].
        apply path_le in P'; auto. apply nth_error_In, Hdag in E. lia.
      - intros [<-|[]]. constructor. }
    rewrite (zsum_map_perm _ _ _ P). cbn [map zsum along fold_left]. apply eqmod_eq. ring.
  Qed.
  Lemma zsum_flat {A B} (f : A -> list B) (h : B -> Z) l : zsum (map h (flat_map f l)) = zsum (map (fun a => zsum (map h (f a))) l).
  Proof. induction l as [|a l IH]; cbn [flat_map map zsum]; auto. rewrite map_app, zsum_app, IH. reflexivity. Qed.

  Lemma total_step i : i <> root ->
    eqv M (dim i) (total i) (fun e => zsum (map (fun ek => J (fst ek) (snd ek) (total (fst ek)) e) (into par (edges par root) i))).
  Proof.
    intros NE e He. unfold total at 1, path_sum. rewrite (zsum_map_perm _ _ _ (paths_by_last par Hdag root i NE)).
    rewrite zsum_flat. apply zsum_eqmod. intros [c k] H. apply in_into in H. destruct H as [_ H]. cbn [fst snd].
    rewrite map_map. unfold total, path_sum.
    pose proof (linear_sum _ _ _ (fun q => along J q g0) (paths_from par (S root) root c) (Hlin _ _ _ H) e He) as L.
    cbn beta in L. rewrite L. apply zsum_eqmod. intros q _. unfold along. rewrite fold_left_app. reflexivity.
  Qed.
  Lemma total_all i L : all_paths par root i L -> forall e, path_sum J L g0 e = total i e.
  Proof.
    intros [N H] e. apply zsum_map_perm. apply NoDup_Permutation; auto; [apply paths_from_NoDup; auto|].
    intros q. rewrite H, paths_from_ok by auto. reflexivity.
  Qed.
End Sums.

(* ---------------------------------------------------------------- the backward pass *)
Section Dfs.
  Context {W T : Type} (shape_of : T -> list nat) (tadd : T -> T -> comp W T) (ones : list nat -> comp W T).
  Variable okW : W -> Prop.
  Definition runsw {A} (m : comp W A) (P : A -> Prop) : Prop :=
    forall w, okW w -> exists a w', m w = (Ok a, w') /\ okW w' /\ P a.

  Variables (M : Z) (dim : nat -> nat) (Rep : nat -> vec -> T -> Prop).
  Hypothesis Rep_ext : forall i f g x, Rep i f x -> eqv M (dim i) f g -> Rep i g x.

  Variables (nodes0 : list (node W T)) (root : nat) (J : nat -> nat -> vec -> vec) (init : nat -> vec) (g0 : vec) (G : nat -> vec).
  Definition par (i : nat) : list nat := match nth_error nodes0 i with Some n => n_parents n | None => [] end.
  Definition req (i : nat) : bool := match nth_error nodes0 i with Some n => n_req n | None => false end.
  Notation reach := (below par root).
  Notation E := (edges par root).

  Hypothesis Hadd : forall i f g x y, i <> root -> Rep i f x -> Rep i g y -> runsw (tadd x y) (Rep i (fun e => f e + g e)).
  Hypothesis Hdag : forall i j, In j (par i) -> (j < i)%nat.
  Hypothesis Hreq : forall i j, In j (par i) -> req j = true -> req i = true.
  (** [G i]: what arrives at node [i] over all uses; [J i k] need not be linear *)
  Hypothesis Hcong : forall i k j, nth_error (par i) k = Some j -> forall f g, eqv M (dim i) f g -> eqv M (dim j) (J i k f) (J i k g).
  Hypothesis Hstep : forall i, i <> root ->
    eqv M (dim i) (G i) (fun e => zsum (map (fun ek => J (fst ek) (snd ek) (G (fst ek)) e) (into par E i))).
  Hypothesis Hroot : eqv M (dim root) (G root) g0.
  Hypothesis Hfun : forall i n, nth_error nodes0 i = Some n -> n_req n = true -> n_parents n <> [] -> reach i ->
    exists b, n_fun n = Some b /\ forall f x, eqv M (dim i) f (G i) -> Rep i f x -> runsw (b x) (fun gs =>
      forall k j, nth_error (n_parents n) k = Some j -> exists g, nth_error gs k = Some g /\ Rep j (J i k f) g).
  Hypothesis Hcnt : forall i n, nth_error nodes0 i = Some n -> n_req n = true -> n_parents n <> [] -> reach i -> i <> root ->
    n_edges n = Z.of_nat (length (into par E i)).
  Hypothesis Hinit : forall i n, nth_error nodes0 i = Some n -> n_req n = true -> reach i ->
    match n_grad n with None => eqv M (dim i) (init i) (fun _ => 0) | Some x => n_parents n = [] /\ Rep i (init i) x end.

  Definition same (n n0 : node W T) : Prop :=
    n_val n = n_val n0 /\ n_req n = n_req n0 /\ n_fun n = n_fun n0 /\ n_parents n = n_parents n0.
  Definition acc (D : list (nat * nat)) (i : nat) : vec :=
    fun e => init i e + zsum (map (fun ek => J (fst ek) (snd ek) (G (fst ek)) e) (into par D i)).
  Definition complete (D : list (nat * nat)) (i : nat) : Prop := incl (into par E i) D.

  Record Inv (RP : node W T -> Prop) (D : list (nat * nat)) (nodes : list (node W T)) : Prop := mkInv {
    i_len : length nodes = length nodes0;
    i_same : forall i n n0, nth_error nodes i = Some n -> nth_error nodes0 i = Some n0 -> same n n0;
    i_frame : forall i, ~ (reach i /\ req i = true) -> nth_error nodes i = nth_error nodes0 i;
    i_nodup : NoDup D;
    i_incl : incl D E;
    i_fired : forall a b, In (a, b) D -> req a = true /\ (a = root \/ complete D a);
    i_root : forall n, nth_error nodes root = Some n -> RP n;
    i_node : forall i n, nth_error nodes i = Some n -> reach i -> req i = true -> i <> root ->
      (n_parents n <> [] -> n_edges n = Z.of_nat (length (into par E i)) - Z.of_nat (length (into par D i))) /\
      match n_grad n with None => into par D i = [] /\ eqv M (dim i) (init i) (fun _ => 0) | Some x => Rep i (acc D i) x end }.

  Lemma reach_le i : reach i -> (i <= root)%nat.
  Proof. intros [q P]. eapply path_le; eauto. Qed.
  Lemma reach_step c k j : reach c -> nth_error (par c) k = Some j -> reach j.
  Proof. intros [q P] H. exists (q ++ [(c, k)]). eapply path_snoc; eauto. Qed.
  Lemma par_lt c k j : nth_error (par c) k = Some j -> (j < c)%nat /\ (c < length nodes0)%nat.
  Proof.
    intros H. split; [apply Hdag; eapply nth_error_In; eauto|]. unfold par in H. destruct (nth_error nodes0 c) eqn:E0.
    - apply nth_error_Some. congruence.
    - destruct k; discriminate.
  Qed.
  Lemma into_cons e D i : into par (e :: D) i = if leads par i e then e :: into par D i else into par D i.
  Proof. reflexivity. Qed.
  Lemma leads_other c k j i : nth_error (par c) k = Some j -> i <> j -> leads par i (c, k) = false.
  Proof. intros H NE. unfold leads. cbn [fst snd]. rewrite H. apply Nat.eqb_neq. auto. Qed.
  Lemma leads_self c k j : nth_error (par c) k = Some j -> leads par j (c, k) = true.
  Proof. intros H. apply leads_spec. auto. Qed.
  Lemma edge_in c k j : reach c -> nth_error (par c) k = Some j -> In (c, k) E.
  Proof. intros R H. apply in_edges; auto. split; auto. apply nth_error_Some. congruence. Qed.
  Lemma complete_other c k j D a : nth_error (par c) k = Some j -> a <> j -> complete ((c, k) :: D) a -> complete D a.
  Proof.
    intros H NE C [c' k'] I. pose proof I as I'. apply C in I. destruct I as [EQ|I]; [|auto]. injection EQ as <- <-.
    apply in_into_edges in I'; auto. destruct I' as [_ I']. congruence.
  Qed.
  Lemma complete_mono D D' a : incl D D' -> complete D a -> complete D' a.
  Proof. intros H C e I. auto. Qed.
  Lemma into_incl D i : incl D E -> incl (into par D i) (into par E i).
  Proof. intros H [c k] I. apply in_into in I. destruct I as [I1 I2]. apply in_into. auto. Qed.
  Lemma complete_count D i : NoDup D -> incl D E -> (length (into par E i) <= length (into par D i))%nat -> complete D i.
  Proof.
    intros N I L e He. assert (A : In e (into par D i)).
    { eapply (NoDup_length_incl (l := into par D i)); eauto; [apply NoDup_filter; auto|apply into_incl; auto]. }
    unfold into in A. apply filter_In in A. tauto.
  Qed.
  Lemma count_complete D i : complete D i -> (length (into par E i) <= length (into par D i))%nat.
  Proof.
    intros C. apply NoDup_incl_length; [apply NoDup_filter, edges_NoDup; auto|]. intros [c k] H.
    pose proof (C _ H). apply in_into in H. apply in_into. tauto.
  Qed.
  Lemma complete_perm D i : NoDup D -> incl D E -> complete D i -> Permutation (into par D i) (into par E i).
  Proof.
    intros N I C. apply NoDup_Permutation; [apply NoDup_filter; auto|apply NoDup_filter, edges_NoDup; auto|].
    intros [c k]. split; [apply into_incl; auto|]. intros H. pose proof (C _ H). apply in_into in H. apply in_into. tauto.
  Qed.
  Lemma acc_complete D i : NoDup D -> incl D E -> complete D i -> i <> root -> eqv M (dim i) (acc D i) (fun e => init i e + G i e).
  Proof.
    intros N I C NE e He. unfold acc. rewrite (zsum_map_perm _ _ _ (complete_perm D i N I C)).
    rewrite (Hstep i NE e He). reflexivity.
  Qed.

  (** adding an edge that changes no node *)
  Lemma inv_add RP D nodes c k j : Inv RP D nodes -> nth_error (par c) k = Some j -> reach c -> req c = true ->
    ~ In (c, k) D -> (c = root \/ complete D c) -> (forall i, reach i -> req i = true -> i <> root -> i <> j) ->
    Inv RP ((c, k) :: D) nodes.
  Proof.
    intros [] H R Q NI C NJ. split; auto.
    - constructor; auto.
    - intros e [<-|I]; auto. eapply edge_in; eauto.
    - intros a b [EQ|I].
      + injection EQ as <- <-. split; auto. destruct C; auto. right. eapply complete_mono; [|eauto]. apply incl_tl, incl_refl.
      + destruct (i_fired0 _ _ I) as [A B]. split; auto. destruct B; auto. right. eapply complete_mono; [|eauto]. apply incl_tl, incl_refl.
    - intros i n Hn Ri Qi NR. rewrite into_cons, (leads_other c k j) by auto. destruct (i_node0 i n Hn Ri Qi NR) as [A B].
      split; auto. destruct (n_grad n); auto. eapply Rep_ext; [exact B|]. intros e He. unfold acc. rewrite into_cons, (leads_other c k j) by auto. reflexivity.
  Qed.

  (** replacing the root, whose static fields stay *)
  Lemma inv_root (RP RP' : node W T -> Prop) D nodes n n' : Inv RP D nodes -> nth_error nodes root = Some n -> same n' n -> req root = true -> RP' n' ->
    Inv RP' D (set_nth root n' nodes).
  Proof.
    intros [] Hn SM Q HN. assert (R : reach root) by (exists []; constructor). split; auto.
    - rewrite set_nth_length. auto.
    - intros i m m0 Hm Hm0. rewrite nth_error_set in Hm. destruct (Nat.eqb_spec i root) as [->|].
      + rewrite Hn in Hm. injection Hm as <-. destruct (i_same0 root n m0 Hn Hm0) as (A1 & A2 & A3 & A4).
        destruct SM as (B1 & B2 & B3 & B4). repeat split; congruence.
      + eauto.
    - intros i Hi. rewrite nth_error_set. destruct (Nat.eqb_spec i root) as [->|]; auto. tauto.
    - intros m Hm. rewrite nth_error_set, Nat.eqb_refl, Hn in Hm. injection Hm as <-. auto.
    - intros i m Hm Ri Qi NR. rewrite nth_error_set in Hm. destruct (Nat.eqb_spec i root) as [->|]; auto. congruence.
  Qed.

  Lemma cbind_ok {S A B} (m : comp S A) (f : A -> comp S B) st a st' : m st = (Ok a, st') -> cbind m f st = f a st'.
  Proof. intros H. unfold cbind. rewrite H. reflexivity. Qed.
  Lemma get_node_ok nodes act w i (n : node W T) : nth_error nodes i = Some n ->
    get_node i (mkG nodes act, w) = (Ok n, (mkG nodes act, w)).
  Proof. intros H. unfold get_node, get_nth. cbn [fst g_nodes]. rewrite H. reflexivity. Qed.
  Lemma set_grad_ok nodes act w i (n : node W T) x : nth_error nodes i = Some n ->
    set_grad i x (mkG nodes act, w) = (Ok tt, (mkG (set_nth i (mkN (n_val n) (n_req n) (n_fun n) (n_parents n) (Some x) (n_edges n)) nodes) act, w)).
  Proof. intros H. unfold set_grad. rewrite (cbind_ok _ _ _ _ _ (get_node_ok _ act w _ _ H)). reflexivity. Qed.
  Lemma add_edges_ok nodes act w i (n : node W T) d : nth_error nodes i = Some n ->
    add_edges i d (mkG nodes act, w) = (Ok tt, (mkG (set_nth i (mkN (n_val n) (n_req n) (n_fun n) (n_parents n) (n_grad n) (n_edges n + d)) nodes) act, w)).
  Proof. intros H. unfold add_edges. rewrite (cbind_ok _ _ _ _ _ (get_node_ok _ act w _ _ H)). reflexivity. Qed.
  Lemma liftw_ok {A} (m : comp W A) (G1 : graph W T) w a w' : m w = (Ok a, w') -> liftw m (G1, w) = (Ok a, (G1, w')).
  Proof. intros H. unfold liftw. cbn [snd fst]. rewrite H. reflexivity. Qed.

  Lemma match_ne {A B} (l : list A) (a b : B) : l <> [] -> match l with [] => a | _ :: _ => b end = b.
  Proof. destruct l; congruence. Qed.
  Lemma nil_or {A} (l : list A) : l = [] \/ l <> [].
  Proof. destruct l; [left|right]; congruence. Qed.

  Definition outs (a : nat) (D : list (nat * nat)) : Prop := forall b, (b < length (par a))%nat -> In (a, b) D.

  (** what a call for node [j] does, made over the edge (c, k) *)
  Definition visits RP (fuel : nat) : Prop := forall j c k x D nodes act w, (j < fuel)%nat -> nth_error (par c) k = Some j ->
    reach c -> req c = true -> Inv RP D nodes -> ~ In (c, k) D -> (c = root \/ complete D c) -> Rep j (J c k (G c)) x -> okW w ->
    exists nodes' act' w' D', backward shape_of tadd ones fuel j (Some x) (mkG nodes act, w) = (Ok tt, (mkG nodes' act', w')) /\
      okW w' /\ Inv RP D' nodes' /\ incl ((c, k) :: D) D' /\
      (forall a b, In (a, b) D' -> In (a, b) ((c, k) :: D) \/ (a <= j)%nat) /\
      (forall a, reach a -> req a = true -> a <> root -> complete D' a -> complete D a \/ outs a D').

  Lemma loop_ok RP fuel j gs f D1 : visits RP fuel -> (j <= fuel)%nat -> reach j -> req j = true ->
    (forall k p, nth_error (par j) k = Some p -> exists g, nth_error gs k = Some g /\ Rep p (J j k f) g) ->
    eqv M (dim j) f (G j) -> (j = root \/ complete D1 j) -> (forall b, ~ In (j, b) D1) ->
    forall l k0 D nodes act w, skipn k0 (par j) = l -> Inv RP D nodes -> incl D1 D -> okW w ->
    (forall a b, In (a, b) D -> In (a, b) D1 \/ (a < j)%nat \/ (a = j /\ (b < k0)%nat)) ->
    (forall b, (b < k0)%nat -> (b < length (par j))%nat -> In (j, b) D) ->
    (forall a, reach a -> req a = true -> a <> root -> a <> j -> complete D a -> complete D1 a \/ outs a D) ->
    exists nodes' act' w' D', for_each (combine (seq k0 (length l)) l)
         (fun p => let! g := fun st => (get_nth gs (fst p), st) in backward shape_of tadd ones fuel (snd p) (Some g))
         (mkG nodes act, w) = (Ok tt, (mkG nodes' act', w')) /\
      okW w' /\ Inv RP D' nodes' /\ incl D1 D' /\
      (forall a b, In (a, b) D' -> In (a, b) D1 \/ (a <= j)%nat) /\ outs j D' /\
      (forall a, reach a -> req a = true -> a <> root -> a <> j -> complete D' a -> complete D1 a \/ outs a D').
  Proof.
    intros HV Hf Rj Qj Hgs Hfg Hc Hnew. induction l as [|p l IH]; intros k0 D nodes act w Hl HI Hi Hw Ha Hb Hcm.
    - exists nodes, act, w, D. cbn [length seq combine for_each]. split; [reflexivity|].
      assert (LEN : (length (par j) <= k0)%nat).
      { apply (f_equal (@length _)) in Hl. rewrite skipn_length in Hl. cbn in Hl. lia. }
      split; [auto|]. split; [auto|]. split; [auto|]. split; [|split; [|auto]].
      + intros a b H. destruct (Ha a b H) as [?|[?|[? ?]]]; auto; right; lia.
      + intros b Hlt. apply Hb; lia.
    - assert (HP : nth_error (par j) k0 = Some p).
      { rewrite <- (firstn_skipn k0 (par j)). rewrite nth_error_app2 by (rewrite firstn_length; lia).
        assert (LEN : length (firstn k0 (par j)) = k0).
        { rewrite firstn_length. apply (f_equal (@length _)) in Hl. rewrite skipn_length in Hl. cbn in Hl. lia. }
        rewrite LEN, Nat.sub_diag, Hl. reflexivity. }
      destruct (Hgs k0 p HP) as (g & Eg & Rg). destruct (par_lt _ _ _ HP) as [Pl _].
      assert (Rg' : Rep p (J j k0 (G j)) g).
      { eapply Rep_ext; [exact Rg|]. apply (Hcong _ _ _ HP). auto. }
      destruct (HV p j k0 g D nodes act w) as (nodes1 & act1 & w1 & D2 & E1 & W1 & I1 & N1 & A1 & C1); auto.
      { lia. }
      { intros H. destruct (Ha _ _ H) as [H'|[H'|[_ H']]]; [eapply Hnew; eauto|lia|lia]. }
      { destruct Hc; auto. right. eapply complete_mono; eauto. }
      destruct (IH (S k0) D2 nodes1 act1 w1) as (nodes' & act' & w' & D' & E2 & REST); auto.
      { clear -Hl. revert k0 Hl. induction (par j) as [|x y IHy]; intros [|k0] H; cbn in *; try discriminate.
        - injection H as -> ->. reflexivity. - apply IHy. auto. }
      { intros e He. apply N1. right. auto. }
      { intros a b H. destruct (A1 a b H) as [[EQ|H']|H'].
        - injection EQ as <- <-. right; right. lia.
        - destruct (Ha a b H') as [?|[?|[? ?]]]; auto. right; right. lia.
        - right; left. lia. }
      { intros b Hlt HL. destruct (Nat.eq_dec b k0) as [->|]; [apply N1; left; auto|]. apply N1. right. apply Hb; lia. }
      { intros a Ra Qa NR NJ H. destruct (C1 a Ra Qa NR H) as [H'|H']; auto.
        destruct (Hcm a Ra Qa NR NJ H') as [?|H'']; auto. right. intros b HB. apply N1. right. auto. }
      exists nodes', act', w', D'. split; [|exact REST].
      cbn [length seq combine for_each]. erewrite cbind_ok; [exact E2|]. cbn [fst snd].
      erewrite cbind_ok; [exact E1|]. unfold get_nth. rewrite Eg. reflexivity.
  Qed.

  Lemma visits_ok RP fuel : visits RP fuel.
  Proof.
    induction fuel as [|fuel IH]; intros j c k x D nodes act w Hj HP Rc Qc HI NI Hc HX Hw; [lia|].
    destruct (par_lt _ _ _ HP) as [Jl Cl]. pose proof (reach_le _ Rc) as CR. assert (NR : j <> root) by lia.
    assert (Rj : reach j) by (eapply reach_step; eauto).
    assert (LN : (j < length nodes)%nat) by (rewrite (i_len _ _ _ HI); lia).
    destruct (nth_error nodes j) as [n|] eqn:En; [|apply nth_error_None in En; lia].
    destruct (nth_error nodes0 j) as [n0|] eqn:En0; [|apply nth_error_None in En0; lia].
    pose proof (i_same _ _ _ HI j n n0 En En0) as (S1 & S2 & S3 & S4).
    assert (QJ : req j = n_req n) by (unfold req; rewrite En0; congruence).
    assert (PJ : par j = n_parents n) by (unfold par; rewrite En0; congruence).
    cbn [backward]. rewrite (cbind_ok _ _ _ _ _ (get_node_ok _ _ _ _ _ En)).
    destruct (n_req n) eqn:RQ; cbn [negb].
    2:{ exists nodes, act, w, ((c, k) :: D). split; [reflexivity|]. split; [auto|]. split.
        { eapply inv_add; eauto. intros i Ri Qi NRi ->. congruence. }
        split; [apply incl_refl|]. split; [auto|]. intros a Ra Qa NRa C. left. eapply complete_other; eauto. congruence. }
    rewrite (cbind_ok (set_active false) _ (mkG nodes act, w) tt (mkG nodes false, w) eq_refl).
    rewrite (cbind_ok (cret x) _ (mkG nodes false, w) x (mkG nodes false, w) eq_refl).
    (* the sum of the gradients *)
    set (D1 := (c, k) :: D).
    assert (DE : incl D1 E) by (intros e [<-|I]; [eapply edge_in; eauto|apply (i_incl _ _ _ HI); auto]).
    assert (DN : NoDup D1) by (constructor; auto; apply (i_nodup _ _ _ HI)).
    assert (IJ : into par D1 j = (c, k) :: into par D j) by (unfold D1; rewrite into_cons, (leads_self c k j) by auto; auto).
    destruct (i_node _ _ _ HI j n En Rj QJ NR) as [NE NG].
    assert (GR : exists g w1, (match n_grad n with None => cret x | Some old => liftw (tadd old x) end)
        (mkG nodes false, w) = (Ok g, (mkG nodes false, w1)) /\ okW w1 /\ Rep j (acc D1 j) g).
    { destruct (n_grad n) as [old|].
      - destruct (Hadd j _ _ _ _ NR NG HX w Hw) as (g & w1 & E1 & W1 & R1). exists g, w1. split.
        + apply liftw_ok. exact E1.
        + split; auto. eapply Rep_ext; [exact R1|]. intros e He. unfold acc. rewrite IJ. cbn [map zsum fst snd]. apply eqmod_eq. ring.
      - exists x, w. split; [reflexivity|]. split; auto. eapply Rep_ext; [exact HX|]. destruct NG as [NG1 NG2].
        intros e He. unfold acc. rewrite IJ, NG1. cbn [map zsum fst snd]. rewrite (NG2 e He). apply eqmod_eq. ring. }
    destruct GR as (g & w1 & EG & W1 & RG).
    rewrite (cbind_ok _ _ _ _ _ EG).
    rewrite (cbind_ok _ _ _ _ _ (set_grad_ok _ _ _ _ _ g En)).
    set (n1 := mkN (n_val n) (n_req n) (n_fun n) (n_parents n) (Some g) (n_edges n)).
    assert (En1 : nth_error (set_nth j n1 nodes) j = Some n1) by (rewrite nth_error_set, Nat.eqb_refl, En; auto).
    (* the invariant with the new edge, for any number of edges that is right *)
    assert (INV : forall n2, same n2 n -> n_grad n2 = Some g ->
       (n_parents n <> [] -> n_edges n2 = Z.of_nat (length (into par E j)) - Z.of_nat (length (into par D1 j))) ->
       Inv RP D1 (set_nth j n2 nodes)).
    { intros n2 SM G2 E2. destruct HI as [J1 J2 J3 J4 J5 J6 J8 J7]. split; auto.
      - rewrite set_nth_length. auto.
      - intros i m m0 Hm Hm0. rewrite nth_error_set in Hm. destruct (Nat.eqb_spec i j) as [->|]; [|eauto].
        rewrite En in Hm. injection Hm as <-. destruct (J2 j n m0 En Hm0) as (A1 & A2 & A3 & A4).
        destruct SM as (B1 & B2 & B3 & B4). repeat split; congruence.
      - intros i Hi. rewrite nth_error_set. destruct (Nat.eqb_spec i j) as [->|]; auto. tauto.
      - intros a b [EQ|I].
        + injection EQ as <- <-. split; auto. destruct Hc; auto. right. eapply complete_mono; [|eauto]. apply incl_tl, incl_refl.
        + destruct (J6 _ _ I) as [A B]. split; auto. destruct B; auto. right. eapply complete_mono; [|eauto]. apply incl_tl, incl_refl.
      - intros m Hm. rewrite nth_error_set in Hm. destruct (Nat.eqb_spec root j); [congruence|auto].
      - intros i m Hm Ri Qi NRi. rewrite nth_error_set in Hm. destruct (Nat.eqb_spec i j) as [->|NEi].
        + rewrite En in Hm. injection Hm as <-. rewrite G2. split; [|exact RG]. intros. apply E2. destruct SM as (_ & _ & _ & B4). congruence.
        + unfold D1. rewrite into_cons, (leads_other c k j) by auto. destruct (J7 i m Hm Ri Qi NRi) as [A B].
          split; auto. destruct (n_grad m); auto. eapply Rep_ext; [exact B|]. intros e He. unfold acc. rewrite into_cons, (leads_other c k j) by auto. reflexivity. }
    assert (OTHER : forall a, a <> j -> complete D1 a -> complete D a) by (intros a NEa C; eapply complete_other; eauto).
    destruct (nil_or (n_parents n)) as [EP|PN].
    { rewrite EP. exists (set_nth j n1 nodes), false, w1, D1. split; [reflexivity|]. split; [auto|].
      split. { apply INV; [repeat split|reflexivity|congruence]. }
      split; [apply incl_refl|]. split; [auto|]. intros a Ra Qa NRa C. destruct (Nat.eq_dec a j) as [->|]; [|left; auto].
      right. intros b Hb. rewrite PJ, EP in Hb. cbn in Hb. lia. }
    rewrite (match_ne _ _ _ PN).
    rewrite (cbind_ok _ _ _ _ _ (add_edges_ok _ _ _ _ _ (-1) En1)).
    set (n2 := mkN (n_val n) (n_req n) (n_fun n) (n_parents n) (Some g) (n_edges n + -1)).
    assert (SS : set_nth j n2 (set_nth j n1 nodes) = set_nth j n2 nodes).
    { clear. revert j. induction nodes as [|a l IHl]; intros [|j]; cbn [set_nth]; auto. f_equal. auto. }
    match goal with |- context [set_nth j ?a (set_nth j n1 nodes)] => change a with n2 end. rewrite SS.
    assert (CNT : n_edges n + -1 = Z.of_nat (length (into par E j)) - Z.of_nat (length (into par D1 j))).
    { rewrite IJ. cbn [length]. rewrite NE by auto. lia. }
    assert (I2 : Inv RP D1 (set_nth j n2 nodes)) by (apply INV; [repeat split|reflexivity|intros _; exact CNT]).
    destruct (Z.ltb_spec 0 (n_edges n - 1)) as [LT|GE].
    { exists (set_nth j n2 nodes), false, w1, D1. split; [reflexivity|]. split; [auto|]. split; [auto|].
      split; [apply incl_refl|]. split; [auto|]. intros a Ra Qa NRa C. destruct (Nat.eq_dec a j) as [->|]; [|left; auto].
      exfalso. pose proof (count_complete _ _ C). lia. }
    assert (CP : complete D1 j) by (apply complete_count; auto; lia).
    assert (RQ0 : n_req n0 = true) by congruence. destruct (Hfun j n0 En0 RQ0 ltac:(congruence) Rj) as (b & Eb & Hb). rewrite S3, Eb.
    assert (RGj : eqv M (dim j) (acc D1 j) (G j)).
    { intros e He. rewrite (acc_complete D1 j DN DE CP NR e He).
      pose proof (Hinit j n0 En0 RQ0 Rj) as HN0. destruct (n_grad n0).
      - destruct HN0 as [HN0 _]. congruence.
      - rewrite (HN0 e He). apply eqmod_eq. ring. }
    destruct (Hb _ _ RGj RG w1 W1) as (gs & w2 & E2 & W2 & Hgs).
    rewrite (cbind_ok _ _ _ _ _ (liftw_ok _ _ _ _ _ E2)).
    destruct (loop_ok RP fuel j gs (acc D1 j) D1) with (l := n_parents n) (k0 := 0%nat) (D := D1) (nodes := set_nth j n2 nodes) (act := false) (w := w2)
      as (nodes' & act' & w' & D' & E3 & W3 & I3 & N3 & A3 & O3 & C3); auto.
    - lia.
    - intros k' p' Hp'. apply Hgs. rewrite <- S4, <- PJ. auto.
    - intros b' [EQ|I]; [injection EQ as -> _; lia|]. destruct (i_fired _ _ _ HI _ _ I) as [_ [?|C]]; [congruence|].
      apply NI. apply C. apply in_into_edges; auto.
    - apply incl_refl.
    - intros b' Hb' _. lia.
    - exists nodes', true, w', D'. split.
      { rewrite (cbind_ok _ _ _ _ _ E3). reflexivity. }
      split; [auto|]. split; [auto|]. split; [exact N3|]. split; [auto|].
      intros a Ra Qa NRa C. destruct (Nat.eq_dec a j) as [->|NEa]; [right; auto|].
      destruct (C3 a Ra Qa NRa NEa C) as [C'|?]; auto.
  Qed.

  Lemma inv_start : Inv (fun _ => True) [] nodes0.
  Proof.
    split; auto.
    - intros i n n0 H1 H2. rewrite H1 in H2. injection H2 as ->. repeat split.
    - constructor.
    - intros e [].
    - intros a b [].
    - intros i n Hn R Q NR. assert (QN : n_req n = true) by (unfold req in Q; rewrite Hn in Q; auto). split.
      + intros PN. cbn [into filter length]. rewrite (Hcnt i n) by auto. lia.
      + pose proof (Hinit i n Hn QN R) as HI. destruct (n_grad n).
        * destruct HI as [_ HI]. eapply Rep_ext; [exact HI|]. intros e He. unfold acc. cbn [into filter map zsum]. apply eqmod_eq. ring.
        * auto.
  Qed.

  Lemma reach_into i : reach i -> i <> root -> into par E i <> [].
  Proof.
    intros [q P] NR. destruct (path_last _ _ _ _ P) as [[_ H]|(r & b & k & _ & Pb & Hk)]; [congruence|].
    intros H. assert (I : In (b, k) (into par E i)) by (apply in_into_edges; auto; split; auto; exists r; auto).
    rewrite H in I. destruct I.
  Qed.

  Theorem backward_gen fuel gradient n w : (root < fuel)%nat -> nth_error nodes0 root = Some n -> n_req n = true -> n_parents n <> [] ->
    n_edges n <= 1 -> okW w ->
    (match gradient with Some x => Rep root g0 x
     | None => (length (shape_of (n_val n)) <= 1)%nat /\ runsw (ones (shape_of (n_val n))) (Rep root g0) end) ->
    forall act, exists nodes' w', backward shape_of tadd ones fuel root gradient (mkG nodes0 act, w) = (Ok tt, (mkG nodes' true, w')) /\
      okW w' /\ length nodes' = length nodes0 /\
      (forall i m n0, nth_error nodes' i = Some m -> nth_error nodes0 i = Some n0 -> same m n0) /\
      (forall i, ~ (reach i /\ req i = true) -> nth_error nodes' i = nth_error nodes0 i) /\
      (forall i m, nth_error nodes' i = Some m -> reach i -> req i = true ->
         exists x, n_grad m = Some x /\ Rep i (fun e => init i e + G i e) x).
  Proof.
    intros Hf Hn Hr Hp Hs Hw Hg act. destruct fuel as [|fuel]; [lia|].
    assert (RR : reach root) by (exists []; constructor).
    assert (QR : req root = true) by (unfold req; rewrite Hn; auto).
    assert (PR : par root = n_parents n) by (unfold par; rewrite Hn; auto).
    assert (G0 : n_grad n = None /\ eqv M (dim root) (init root) (fun _ => 0)).
    { pose proof (Hinit root n Hn Hr RR) as HI. destruct (n_grad n); [destruct HI; congruence|auto]. }
    destruct G0 as [GN G0].
    cbn [backward]. rewrite (cbind_ok _ _ _ _ _ (get_node_ok _ _ _ _ _ Hn)). rewrite Hr. cbn [negb].
    rewrite (cbind_ok (set_active false) _ (mkG nodes0 act, w) tt (mkG nodes0 false, w) eq_refl).
    assert (GR : exists g w1, (match gradient with Some g => cret g
                    | None => if Nat.ltb 1 (length (shape_of (n_val n))) then cerr ValueError
                              else liftw (ones (shape_of (n_val n))) end) (mkG nodes0 false, w) = (Ok g, (mkG nodes0 false, w1)) /\
               okW w1 /\ Rep root g0 g).
    { destruct gradient as [x|]; [exists x, w; auto|]. destruct Hg as [HL HO].
      destruct (Nat.ltb_spec 1 (length (shape_of (n_val n)))); [lia|]. destruct (HO w Hw) as (g & w1 & E1 & W1 & R1).
      exists g, w1. split; auto. apply liftw_ok. auto. }
    destruct GR as (g & w1 & EG & W1 & RG). rewrite (cbind_ok _ _ _ _ _ EG). rewrite GN.
    rewrite (cbind_ok (cret g) _ (mkG nodes0 false, w1) g (mkG nodes0 false, w1) eq_refl).
    rewrite (cbind_ok _ _ _ _ _ (set_grad_ok _ _ _ _ _ g Hn)). rewrite (match_ne _ _ _ Hp).
    set (n1 := mkN (n_val n) (n_req n) (n_fun n) (n_parents n) (Some g) (n_edges n)).
    assert (En1 : nth_error (set_nth root n1 nodes0) root = Some n1) by (rewrite nth_error_set, Nat.eqb_refl, Hn; auto).
    rewrite (cbind_ok _ _ _ _ _ (add_edges_ok _ _ _ _ _ (-1) En1)).
    set (n2 := mkN (n_val n) (n_req n) (n_fun n) (n_parents n) (Some g) (n_edges n + -1)).
    match goal with |- context [set_nth root ?a (set_nth root n1 nodes0)] => change a with n2 end.
    destruct (Z.ltb_spec 0 (n_edges n - 1)); [lia|].
    destruct (Hfun root n Hn Hr Hp RR) as (b & Eb & Hb). rewrite Eb.
    destruct (Hb _ _ (eqv_sym _ _ _ _ Hroot) RG w1 W1) as (gs & w2 & E2 & W2 & Hgs).
    rewrite (cbind_ok _ _ _ _ _ (liftw_ok _ _ _ _ _ E2)).
    assert (I0 : Inv (fun n => n_grad n = Some g) [] (set_nth root n2 (set_nth root n1 nodes0))).
    { eapply (inv_root (fun _ => True)); eauto; [eapply (inv_root (fun _ => True)); eauto; [apply inv_start|repeat split]|repeat split]. }
    assert (TR : eqv M (dim root) (G root) g0) by exact Hroot.
    destruct (loop_ok (fun n => n_grad n = Some g) fuel root gs g0 []) with (l := n_parents n) (k0 := 0%nat) (D := @nil (nat * nat))
       (nodes := set_nth root n2 (set_nth root n1 nodes0)) (act := false) (w := w2)
      as (nodes' & act' & w' & D' & E3 & W3 & I3 & N3 & A3 & O3 & C3); auto.
    - apply visits_ok.
    - lia.
    - intros k p Hk. apply Hgs. rewrite <- PR. auto.
    - apply eqv_sym; auto.
    - intros e [].
    - intros b' Hb' _. lia.
    - exists nodes', w'. split; [rewrite (cbind_ok _ _ _ _ _ E3); reflexivity|]. split; [auto|].
      split; [apply (i_len _ _ _ I3)|]. split; [apply (i_same _ _ _ I3)|]. split; [apply (i_frame _ _ _ I3)|].
      assert (CC : forall m i, (root - i < m)%nat -> reach i -> req i = true -> i <> root -> complete D' i).
      { induction m as [|m IH]; intros i Hm Ri Qi NR [c k] I; [lia|]. apply in_into_edges in I; auto. destruct I as [Rc Hk].
        pose proof (reach_le _ Rc). pose proof (par_lt _ _ _ Hk).
        assert (Qc : req c = true) by (eapply Hreq; eauto; eapply nth_error_In; eauto).
        assert (KL : (k < length (par c))%nat) by (apply nth_error_Some; congruence).
        destruct (Nat.eq_dec c root) as [->|NC]; [apply O3; auto|].
        assert (Cc : complete D' c) by (apply IH; auto; lia).
        destruct (C3 c Rc Qc NC NC Cc) as [C0|C0]; [|apply C0; auto].
        exfalso. apply (reach_into c Rc NC). destruct (into par E c) as [|e l] eqn:EE; auto. exfalso.
        unfold complete in C0. rewrite EE in C0. apply (C0 e). left. auto. }
      intros i m Hm Ri Qi. destruct (Nat.eq_dec i root) as [->|NR].
      + exists g. split.
        * apply (i_root _ _ _ I3). auto.
        * eapply Rep_ext; [exact RG|]. intros e He. rewrite (G0 e He), (TR e He). apply eqmod_eq. ring.
      + destruct (i_node _ _ _ I3 i m Hm Ri Qi NR) as [_ HG]. pose proof (CC (S root) i ltac:(lia) Ri Qi NR) as CI.
        destruct (n_grad m) as [x|].
        * exists x. split; auto. eapply Rep_ext; [exact HG|]. apply acc_complete; auto; [apply (i_nodup _ _ _ I3)|apply (i_incl _ _ _ I3)].
        * exfalso. destruct HG as [HG _]. apply (reach_into i Ri NR). pose proof (count_complete _ _ CI) as CL.
          rewrite HG in CL. destruct (into par E i); auto. cbn in CL. lia.
  Qed.
End Dfs.

(** the same with the sums over all paths *)
Section Chain.
  Context {W T : Type} (shape_of : T -> list nat) (tadd : T -> T -> comp W T) (ones : list nat -> comp W T).
  Variable okW : W -> Prop.
  Variables (M : Z) (dim : nat -> nat) (Rep : nat -> vec -> T -> Prop).
  Hypothesis Rep_ext : forall i f g x, Rep i f x -> eqv M (dim i) f g -> Rep i g x.
  Hypothesis Hadd : forall i f g x y, Rep i f x -> Rep i g y -> runsw okW (tadd x y) (Rep i (fun e => f e + g e)).
  Variables (nodes0 : list (node W T)) (root : nat) (J : nat -> nat -> vec -> vec) (init : nat -> vec) (g0 : vec).
  Notation par := (par nodes0).
  Notation req := (req nodes0).
  Notation reach := (below par root).
  Notation E := (edges par root).
  Notation G := (total par root J g0).
  Hypothesis Hdag : forall i j, In j (par i) -> (j < i)%nat.
  Hypothesis Hreq : forall i j, In j (par i) -> req j = true -> req i = true.
  Hypothesis Hlin : forall i k j, nth_error (par i) k = Some j -> linear M (dim i) (dim j) (J i k).
  Hypothesis Hfun : forall i n, nth_error nodes0 i = Some n -> n_req n = true -> n_parents n <> [] -> reach i ->
    exists b, n_fun n = Some b /\ forall f x, Rep i f x -> runsw okW (b x) (fun gs =>
      forall k j, nth_error (n_parents n) k = Some j -> exists g, nth_error gs k = Some g /\ Rep j (J i k f) g).
  Hypothesis Hcnt : forall i n, nth_error nodes0 i = Some n -> n_req n = true -> n_parents n <> [] -> reach i -> i <> root ->
    n_edges n = Z.of_nat (length (into par E i)).
  Hypothesis Hinit : forall i n, nth_error nodes0 i = Some n -> n_req n = true -> reach i ->
    match n_grad n with None => eqv M (dim i) (init i) (fun _ => 0) | Some x => n_parents n = [] /\ Rep i (init i) x end.
  Theorem backward_ok fuel gradient n w : (root < fuel)%nat -> nth_error nodes0 root = Some n -> n_req n = true -> n_parents n <> [] ->
    n_edges n <= 1 -> okW w ->
    (match gradient with Some x => Rep root g0 x
     | None => (length (shape_of (n_val n)) <= 1)%nat /\ runsw okW (ones (shape_of (n_val n))) (Rep root g0) end) ->
    forall act, exists nodes' w', backward shape_of tadd ones fuel root gradient (mkG nodes0 act, w) = (Ok tt, (mkG nodes' true, w')) /\
      okW w' /\ length nodes' = length nodes0 /\
      (forall i m n0, nth_error nodes' i = Some m -> nth_error nodes0 i = Some n0 -> same m n0) /\
      (forall i, ~ (reach i /\ req i = true) -> nth_error nodes' i = nth_error nodes0 i) /\
      (forall i m, nth_error nodes' i = Some m -> reach i -> req i = true ->
         exists x, n_grad m = Some x /\ Rep i (fun e => init i e + G i e) x).
  Proof.
    apply (backward_gen shape_of tadd ones okW M dim Rep Rep_ext nodes0 root J init g0 G); auto.
    - intros i k j H. apply (proj1 (Hlin _ _ _ H)).
    - intros i NE. apply (total_step M dim par root J g0 Hdag Hlin i NE).
    - apply total_root; auto.
    - intros i m H1 H2 H3 H4. destruct (Hfun i m H1 H2 H3 H4) as (b & E1 & H5). exists b. split; auto.
  Qed.
End Chain.
