(** argmax and max of integer secrets. *)
From Coq Require Import QArith String Setoid Morphisms.
From Verif Require Import Util Modular S_Ring S_Tensor S_Wraps S_Div S_Bil S_Spdz S_Circuit S_Fss S_Sort S_View S_Argmax
  M_Torch M_Encoder M_Tensor M_Share M_Spdz M_Store M_Fss M_Engine M_Static M_Argmax
  L_Torch L_Tensor L_Encoder L_Share L_Div L_Bil L_Mul L_Circuit L_Fss2 L_Fss3 L_Engine L_View L_Grad L_Algo.
Local Open Scope Z_scope.
Local Open Scope list_scope.

(* ------------------------------------------------------------------------ positions *)
Lemma unravel_ravel sh : forall ix, Forall2 (fun d i => (i < d)%nat) sh ix -> unravel sh (ravel sh ix) = ix.
Proof.
  induction sh as [|d sh IH]; intros ix H; inversion H as [|? i ? jx Hi Hj]; subst; cbn [unravel ravel]; [reflexivity|].
  pose proof (ravel_lt _ _ Hj) as HL. rewrite Nat.div_add_l, Nat.div_small, Nat.add_0_r by lia.
  rewrite Nat.add_comm, Nat.mod_add, Nat.mod_small by lia. rewrite IH by auto. reflexivity.
Qed.

(** a multi-index with coordinate [d] replaced, as the specification writes it *)
Definition repl (d j : nat) (ix : list nat) : list nat := firstn d ix ++ j :: skipn (S d) ix.
Lemma repl_set d j ix : (d < length ix)%nat -> set_nth d j ix = repl d j ix.
Proof. apply set_nth_split. Qed.

Lemma Forall2_set {A B} (P : A -> B -> Prop) (da : A) d (y : B) : forall l1 l2, Forall2 P l1 l2 ->
  P (nth d l1 da) y -> Forall2 P l1 (set_nth d y l2).
Proof.
  revert y. induction d as [|d IH]; intros y l1 l2 H HP; destruct H; cbn [set_nth] in *; constructor; auto.
Qed.

Section Line.
  Variables (sh : list nat) (d : nat).
  Hypothesis Hd : (d < length sh)%nat.
  Let n := nth d sh 0%nat.
  Definition coord (e : nat) : nat := nth d (unravel sh e) 0%nat.
  Definition pos (e j : nat) : nat := ravel sh (repl d j (unravel sh e)).

  Lemma in_repl e j : (e < numel sh)%nat -> (j < n)%nat -> Forall2 (fun d i => (i < d)%nat) sh (repl d j (unravel sh e)).
  Proof.
    intros He Hj. rewrite <- repl_set by (rewrite unravel_length; auto).
    apply (Forall2_set _ 0%nat); [apply unravel_lt; auto|exact Hj].
  Qed.
  Lemma pos_lt e j : (e < numel sh)%nat -> (j < n)%nat -> (pos e j < numel sh)%nat.
  Proof. intros. apply ravel_lt, in_repl; auto. Qed.
  Lemma coord_lt e : (e < numel sh)%nat -> (coord e < n)%nat.
  Proof.
    intros He. unfold coord, n. pose proof (unravel_lt sh e He) as H.
    assert (G : forall l1 l2 k, Forall2 (fun d i : nat => (i < d)%nat) l1 l2 -> (k < length l1)%nat -> (nth k l2 0 < nth k l1 0)%nat).
    { clear. intros l1 l2 k H. revert k. induction H; intros [|k] Hk; cbn in *; try lia. apply IHForall2. lia. }
    apply G; auto.
  Qed.
  Lemma pos_coord e : (e < numel sh)%nat -> pos e (coord e) = e.
  Proof.
    intros He. unfold pos, coord. rewrite <- repl_set by (rewrite unravel_length; auto).
    assert (G : forall l k, set_nth k (nth k l 0%nat) l = l).
    { clear. induction l as [|a l IH]; intros [|k]; cbn [set_nth nth]; auto. rewrite IH. reflexivity. }
    rewrite G. apply ravel_unravel_id; auto.
  Qed.
  Lemma coord_pos e j : (e < numel sh)%nat -> (j < n)%nat -> coord (pos e j) = j.
  Proof.
    intros He Hj. unfold coord, pos. rewrite unravel_ravel by (apply in_repl; auto).
    rewrite <- repl_set by (rewrite unravel_length; auto). rewrite nth_set_nth by (rewrite unravel_length; auto).
    rewrite Nat.eqb_refl. reflexivity.
  Qed.

  (** rotations visit every other place of the line *)
  Lemma roll_pos e i : (e < numel sh)%nat -> (S i < Nat.max n 2)%nat ->
    roll_src sh d (S i) e = pos e ((coord e + (n - S i mod n)) mod n).
  Proof.
    intros He Hi. unfold roll_src, pos, coord. fold n. rewrite repl_set by (rewrite unravel_length; auto). reflexivity.
  Qed.
  Lemma others e (P : nat -> Prop) : (e < numel sh)%nat -> P e ->
    (forall i, (S i < Nat.max n 2)%nat -> P (roll_src sh d (S i) e)) <-> (forall j, (j < n)%nat -> P (pos e j)).
  Proof.
    intros He PE. pose proof (coord_lt e He) as HC. split.
    - intros H j Hj. destruct (Nat.eq_dec j (coord e)) as [->|NE]; [rewrite pos_coord; auto|].
      set (i := ((coord e + n - j) mod n - 1)%nat).
      assert (EI : S i = ((coord e + n - j) mod n)%nat).
      { unfold i. destruct (Nat.lt_ge_cases (coord e) j).
        - rewrite Nat.mod_small by lia. lia.
        - replace (coord e + n - j)%nat with (coord e - j + 1 * n)%nat by lia. rewrite Nat.mod_add, Nat.mod_small by lia. lia. }
      assert (HI : (S i < n)%nat) by (rewrite EI; apply Nat.mod_upper_bound; lia).
      assert (HI' : (S i < Nat.max n 2)%nat) by lia.
      specialize (H i HI'). rewrite roll_pos in H by auto. rewrite (Nat.mod_small (S i) n) in H by auto.
      replace ((coord e + (n - S i)) mod n)%nat with j in H; [exact H|].
      rewrite EI. destruct (Nat.lt_ge_cases (coord e) j).
      + rewrite (Nat.mod_small (coord e + n - j)) by lia. rewrite Nat.mod_small by lia. lia.
      + replace (coord e + n - j)%nat with (coord e - j + 1 * n)%nat by lia. rewrite Nat.mod_add, (Nat.mod_small (coord e - j)) by lia.
        replace (coord e + (n - (coord e - j)))%nat with (j + 1 * n)%nat by lia. rewrite Nat.mod_add, Nat.mod_small by lia. reflexivity.
    - intros H i Hi. rewrite roll_pos by auto. apply H. apply Nat.mod_upper_bound. lia.
  Qed.
  Lemma roll_lt e i : (e < numel sh)%nat -> (S i < Nat.max n 2)%nat -> (roll_src sh d (S i) e < numel sh)%nat.
  Proof.
    intros He Hi. rewrite roll_pos by auto. apply pos_lt; auto. apply Nat.mod_upper_bound.
    pose proof (coord_lt e He). lia.
  Qed.

  Lemma line_of_nth v e j : (j < n)%nat -> nth j (line_of sh d v e) 0 = nth (pos e j) v 0.
  Proof. intros Hj. unfold line_of. fold n. rewrite map_seq_nth by auto. reflexivity. Qed.
  Lemma line_of_length v e : length (line_of sh d v e) = n.
  Proof. unfold line_of. rewrite map_length, seq_length. reflexivity. Qed.
End Line.

(* --------------------------------------------------------------------------- copying *)
Definition gather (so : list nat) (g : nat -> nat) (t : tensor) : tensor :=
  mkT so (map (fun e => nth (g e) (tdat t) 0) (seq 0 (numel so))).

Lemma rep_gather s sh so f x g : rep s sh f x -> (forall e, (e < numel so)%nat -> (g e < numel sh)%nat) ->
  rep s so (fun e => f (g e)) (mkM (s_id s) so (map (gather so g) (m_shares x))).
Proof.
  intros (X1 & X2 & X3 & X4) HG. unfold rep, good. cbn [m_sid m_shape m_shares].
  split; [auto|]. split; [auto|]. split; [rewrite map_length; auto|].
  pose proof (shared_vals R64 supR _ _ _ X4) as (VL & VI & VN). destruct X4 as (N & F & _).
  apply shared_intro; auto using supR, vals_len, vals_in.
  - destruct (m_shares x); [congruence|discriminate].
  - apply Forall_map. eapply Forall_impl; [|exact F]. intros t (T1 & T2 & T3). split; [reflexivity|].
    cbn [gather tdat]. split; [rewrite map_length, seq_length; auto|].
    apply Forall_map, Forall_forall. intros e He. apply nth_in_ring; auto using supR.
  - intros e He. rewrite vals_nth_eq by auto. rewrite <- (vals_nth_eq sh f (g e)) by auto. rewrite VN, map_map.
    apply eqmod_eq. f_equal. apply map_ext. intros t. cbn [gather tdat]. rewrite map_seq_nth by auto. reflexivity.
Qed.

Lemma concat_repeat_gather (sh : list nat) (v : list Z) k : length v = numel sh ->
  concat (repeat v k) = map (fun e => nth (e mod numel sh) v 0) (seq 0 (k * numel sh)).
Proof.
  intros L. apply (nth_ext_len 0).
  - rewrite concat_repeat_length, map_length, seq_length, L. reflexivity.
  - intros i Hi. rewrite concat_repeat_length, L in Hi. rewrite map_seq_nth by auto.
    rewrite concat_repeat_nth; rewrite ?L; auto. destruct (numel sh); lia.
Qed.

Lemma concat_map_gather (m : nat) (F : nat -> nat -> Z) k :
  concat (map (fun i => map (F i) (seq 0 m)) (seq 0 k)) = map (fun e => F (e / m)%nat (e mod m)%nat) (seq 0 (k * m)).
Proof.
  induction k as [|k IH]; [reflexivity|]. rewrite seq_S, map_app, concat_app, IH.
  replace (S k * m)%nat with (k * m + m)%nat by lia. rewrite seq_app, map_app. f_equal.
  cbn [map concat Nat.add]. rewrite app_nil_r, (map_seq_shift _ m (k * m)). apply map_ext_in. intros e He. apply in_seq in He.
  rewrite Nat.div_add_l, Nat.div_small, Nat.add_0_r by lia.
  rewrite (Nat.add_comm (k * m) e), Nat.mod_add, Nat.mod_small by lia. reflexivity.
Qed.

Lemma stack_same (l : list tensor) sh : l <> [] -> Forall (fun t => tsh t = sh) l ->
  torch_stack l = Ok (mkT (length l :: sh) (concat (map tdat l))).
Proof.
  intros N F. unfold torch_stack, stack_shape. destruct l as [|a l]; [congruence|]. cbn [map].
  inversion F as [|? ? F1 F2]; subst.
  assert (A : forallb (shape_eqb (tsh a)) (map tsh l) = true).
  { apply forallb_forall. intros s Hs. apply in_map_iff in Hs. destruct Hs as (t & <- & Ht).
    rewrite Forall_forall in F2. rewrite (F2 t Ht). unfold shape_eqb. destruct (list_eq_dec _ _ _); congruence. }
  rewrite A. unfold norm_dim. cbn [rbind].
  assert (G : (- Z.of_nat (S (length (tsh a))) <=? 0) && (0 <? Z.of_nat (S (length (tsh a)))) = true).
  { apply andb_true_iff. split; [apply Z.leb_le|apply Z.ltb_lt]; lia. }
  rewrite G. cbn [rbind Z.ltb Z.compare Z.to_nat]. unfold insert_nth. cbn [firstn skipn app length map].
  rewrite map_length. reflexivity.
Qed.

(* ------------------------------------------------------------------- the differences *)
Definition rl (sh : list nat) (d : nat) : nat := Nat.max (nth d sh 0%nat) 2.

Lemma row_length_ok sh d : (d < length sh)%nat -> row_length sh d = Ok (rl sh d).
Proof.
  intros Hd. unfold row_length, rl. rewrite (nth_error_nth' sh 0%nat) by auto. f_equal.
  destruct (Nat.ltb_spec 1 (nth d sh 0%nat)); lia.
Qed.

Definition wide (sh : list nat) (d : nat) : list nat := (rl sh d - 1)%nat :: sh.
Definition gb (sh : list nat) (d e : nat) : nat := roll_src sh d (S (e / numel sh)) (e mod numel sh).

Lemma pairwise_share sh d t : (d < length sh)%nat -> tensor_in R64 sh t ->
  argmax_pairwise d t = sh_lin LSub (gather (wide sh d) (fun e => e mod numel sh)%nat t) (gather (wide sh d) (gb sh d) t).
Proof.
  intros Hd (T1 & T2 & T3). unfold argmax_pairwise. rewrite T1, row_length_ok by auto. cbn [rbind].
  rewrite (stack_same _ sh).
  2:{ pose proof (Nat.le_max_r (nth d sh 0%nat) 2). unfold rl. destruct (Nat.max _ _ - 1)%nat eqn:E; [lia|discriminate]. }
  2:{ apply Forall_map, Forall_forall. intros i _. cbn [torch_roll tsh]. auto. }
  cbn [rbind]. rewrite map_length, seq_length, map_map. f_equal.
  - unfold gather, wide. f_equal. rewrite (concat_repeat_gather sh) by auto. reflexivity.
  - unfold gather, wide, gb. f_equal. cbn [torch_roll tdat]. rewrite T1.
    rewrite (concat_map_gather (numel sh) (fun i e => nth (roll_src sh d (S i) e) (tdat t) 0)). reflexivity.
Qed.

Lemma wide_numel sh d : numel (wide sh d) = ((rl sh d - 1) * numel sh)%nat.
Proof. reflexivity. Qed.

Lemma wide_split sh d e : (e < numel (wide sh d))%nat ->
  (0 < numel sh)%nat /\ (e mod numel sh < numel sh)%nat /\ (S (e / numel sh) < rl sh d)%nat.
Proof.
  rewrite wide_numel. intros He. assert (P : (0 < numel sh)%nat) by nia. split; [auto|].
  split; [apply Nat.mod_upper_bound; lia|]. assert (e / numel sh < rl sh d - 1)%nat; [|lia].
  apply Nat.div_lt_upper_bound; lia.
Qed.

Lemma pairwise_ok s sh d f x : (d < length sh)%nat -> s_n s = 2%nat -> c_prec (s_cfg s) = 0%nat -> rep s sh f x ->
  exists shs, rmap (argmax_pairwise d) (m_shares x) = Ok shs /\
    rep s (wide sh d) (fun e => f (e mod numel sh)%nat - f (gb sh d e)) (mkM (s_id s) (wide sh d) shs).
Proof.
  intros Hd Hn Hp GX.
  set (A := mkM (s_id s) (wide sh d) (map (gather (wide sh d) (fun e => (e mod numel sh)%nat)) (m_shares x))).
  set (B := mkM (s_id s) (wide sh d) (map (gather (wide sh d) (gb sh d)) (m_shares x))).
  assert (GA : rep s (wide sh d) (fun e => f (e mod numel sh)%nat) A).
  { apply (rep_gather s sh (wide sh d) f x _ GX). intros e He. apply wide_split in He. tauto. }
  assert (GB : rep s (wide sh d) (fun e => f (gb sh d e)) B).
  { apply (rep_gather s sh (wide sh d) f x _ GX). intros e He. apply wide_split in He. unfold gb. apply roll_lt; tauto. }
  destruct (r_lin s (wide sh d) Hn Hp LSub A B _ _ GA GB) as (z & E & GZ).
  assert (EM : rmap (argmax_pairwise d) (m_shares x) =
    rmap (fun p => sh_lin LSub (fst p) (snd p)) (combine (m_shares A) (m_shares B))).
  { unfold A, B. cbn [m_shares]. rewrite combine_map, rmap_map. cbn [fst snd]. apply rmap_ext. intros t Ht.
    apply pairwise_share; auto. destruct GX as (_ & _ & _ & (_ & F & _)). rewrite Forall_forall in F. auto. }
  unfold mpc_lin in E. replace (m_sid A) with (s_id s) in E by reflexivity. replace (m_sid B) with (s_id s) in E by reflexivity.
  rewrite Nat.eqb_refl in E. cbn [negb] in E.
  rewrite EM. destruct (rmap _ _) as [shs|]; cbn [rbind] in E; [|discriminate].
  exists shs. split; [reflexivity|].
  destruct (shape_bin _ _) as [so|]; cbn [rbind] in E; [|discriminate]. injection E as <-.
  destruct GZ as (Z1 & Z2 & Z3 & Z4). cbn [m_shape m_sid m_shares] in *. subst so. repeat split; auto; apply Z4.
Qed.

(* ---------------------------------------------------------------------------- sums *)
Lemma rep_view s v sh so F f x g : viewed v sh so F -> rep s sh f x ->
  (forall e, (e < numel so)%nat -> nth e (F (vals sh f)) 0 == g e [mod R64]) ->
  exists y, mpc_view v x = Ok y /\ rep s so g y.
Proof.
  intros HV (X1 & X2 & X3 & X4) HE.
  assert (TV := view_spec v sh so F (vals sh f) HV (vals_len sh f) (vals_in sh f)).
  destruct (mpc_view_commutes v x (vals sh f) (mkT so (F (vals sh f)))) as (y & EY & Y1 & Y2 & Y3 & Y4 & _).
  { rewrite X2. exact X4. } { rewrite X2. exact TV. }
  exists y. split; [exact EY|]. cbn [tsh tdat] in *. unfold rep, good.
  pose proof (shared_vals R64 supR _ _ _ Y4) as (L & I & _).
  replace (vals so g) with (F (vals sh f)); [repeat split; try congruence; apply Y4|].
  apply vals_eq; auto.
Qed.

Lemma sumn_eqmod m n f g : (forall k, (k < n)%nat -> f k == g k [mod m]) -> sumn n f == sumn n g [mod m].
Proof. intros H. unfold sumn. apply zsum_eqmod. intros k Hk. apply in_seq in Hk. apply H. lia. Qed.
Lemma sumn_ext n f g : (forall k, (k < n)%nat -> f k = g k) -> sumn n f = sumn n g.
Proof. intros H. unfold sumn. f_equal. apply map_ext_in. intros k Hk. apply in_seq in Hk. apply H. lia. Qed.

(** how many of [n] tests hold *)
Lemma sumn_b2z n (p : nat -> bool) : 0 <= sumn n (fun i => b2z (p i)) <= Z.of_nat n /\
  (Z.of_nat n <= sumn n (fun i => b2z (p i)) <-> forall i, (i < n)%nat -> p i = true).
Proof.
  unfold sumn. induction n as [|n IH].
  - cbn. split; [lia|]. split; [intros; lia|lia].
  - rewrite seq_S, map_app, zsum_app. cbn [map zsum Nat.add]. destruct IH as [IB [IH1 IH2]].
    destruct (p n) eqn:E; cbn [b2z].
    + split; [lia|]. split.
      * intros H i Hi. destruct (Nat.eq_dec i n) as [->|]; [auto|]. apply IH1; lia.
      * intros H. assert (forall i, (i < n)%nat -> p i = true) by (intros; apply H; lia). specialize (IH2 H0). lia.
    + split; [lia|]. split; [intros; lia|]. intros H. rewrite H in E by lia. discriminate.
Qed.

Lemma tabulate_nth sh F e : (e < numel sh)%nat -> nth e (tabulate sh F) 0 = F (unravel sh e).
Proof. intros He. unfold tabulate. rewrite map_seq_nth by auto. reflexivity. Qed.

Definition hot (sh : list nat) (d : nat) (f : nat -> Z) (e : nat) : bool :=
  forallb (fun j => f (pos sh d e j) <=? f e) (seq 0 (nth d sh 0%nat)).

Lemma hot_spec sh d f e : hot sh d f e = true <-> forall j, (j < nth d sh 0%nat)%nat -> f (pos sh d e j) <= f e.
Proof.
  unfold hot. rewrite forallb_forall. split.
  - intros H j Hj. apply Z.leb_le, H, in_seq. lia.
  - intros H j Hj. apply in_seq in Hj. apply Z.leb_le, H. lia.
Qed.

Lemma dim_le_numel sh : forall d, (d < length sh)%nat -> (0 < numel sh)%nat -> (nth d sh 0 <= numel sh)%nat.
Proof.
  induction sh as [|n sh IH]; intros d Hd HN; [cbn in Hd; lia|].
  change (numel (n :: sh)) with (n * numel sh)%nat in *.
  assert (0 < n /\ 0 < numel sh)%nat as [A B] by (destruct n, (numel sh); lia).
  destruct d; cbn [nth]; [nia|]. cbn in Hd. specialize (IH d ltac:(lia) B). nia.
Qed.

Section Argmax.
  Context {K : Type} (alpha : K -> Z) (ev : fop -> Z -> Z -> K -> Z)
          (gen : fop -> nat -> nat -> result (list (list K))) (s : sess) (su : tri_supply).
  Hypothesis HG : backend_ok alpha ev gen.
  Hypothesis HI : int_pair s.
  Hypothesis HR : forall k, draws (2^64) 2 [1%nat] (su_rnd su k).
  Let E := mpc_engine alpha ev gen s su.
  Let Hn := proj1 HI. Let Hp := proj1 (proj2 HI). Let Hb := proj2 (proj2 HI).

  (** the two comparisons; [xs] is the shape attribute whose row length is used *)
  Lemma tail_ok sh d f prep xs d' : (d < length sh)%nat -> (d' < length xs)%nat -> rl xs d' = rl sh d -> rep s sh f prep ->
    (forall a b, (a < numel sh)%nat -> (b < numel sh)%nat -> Z.abs (f a - f b) < 2^31 - 1) ->
    Z.of_nat (numel sh) < 2^31 ->
    runs (let! shs := lift (rmap (argmax_pairwise d) (m_shares prep)) in
          let! sh0 := lift (do t <- get_nth shs 0; Ok (tsh t)) in
          let! c := e_relp E RGe (mkM (s_id s) sh0 shs) (NInt 0) in
          let! d' := lift (Ok d') in
          let! l := lift (row_length xs d') in
          let! r := lift (mpc_view (VSumDim 0) c) in
          e_relp E RGe r (NInt (Z.of_nat l - 1)))
      (rep s sh (fun e => b2z (hot sh d f e))).
  Proof.
    intros Hd Hd' EL GX HC HB.
    assert (NS : sh <> []) by (intro A; subst sh; cbn in Hd; lia).
    destruct (pairwise_ok s sh d f prep Hd Hn Hp GX) as (shs & ES & GS).
    eapply runs_bind; [apply runs_lift; exists shs; split; [exact ES|]; apply eq_refl|]. intros ? <-.
    pose proof GS as (_ & _ & L & (NE & F & _)). cbn [m_shares] in *.
    destruct shs as [|t0 shs]; [congruence|].
    eapply runs_bind; [apply runs_lift; cbn [get_nth nth_error rbind]; eexists; split; [reflexivity|]; apply eq_refl|]. intros ? <-.
    assert (ET : tsh t0 = wide sh d) by (inversion F as [|? ? (T1 & _) _]; auto). rewrite ET.
    eapply runs_bind; [apply (r_relp alpha ev gen s su (wide sh d) HG Hn Hp Hb ltac:(discriminate) HR Rge _ _ 0 ltac:(discriminate) GS)|].
    intros c GC. eapply runs_bind; [apply runs_lift; eexists; split; [reflexivity|]; apply eq_refl|]. intros ? <-.
    eapply runs_bind; [apply runs_lift; eexists; split; [apply row_length_ok; auto|]; apply eq_refl|]. intros ? <-.
    rewrite EL.
    eapply runs_bind.
    { apply runs_lift. apply (rep_view s (VSumDim 0) (wide sh d) sh _ _ c
        (fun e => sumn (rl sh d - 1) (fun i => b2z (f (roll_src sh d (S i) e) <=? f e)))
        (vw_sumdim 0 (wide sh d) ltac:(cbn; lia)) GC).
      intros e He. unfold remove_at, wide. cbn [firstn skipn app]. rewrite tabulate_nth by auto.
      rewrite to_ring_eqmod by apply posR. cbn [nth]. apply sumn_eqmod. intros i Hi.
      unfold elt, insert_at. cbn [firstn skipn app ravel]. rewrite ravel_unravel_id by auto.
      assert (HW : (i * numel sh + e < numel (wide sh d))%nat) by (rewrite wide_numel; nia).
      change ((rl sh d - 1)%nat :: sh) with (wide sh d). rewrite vals_nth_eq by auto. apply eqmod_eq.
      unfold gb. rewrite Nat.div_add_l, Nat.div_small, Nat.add_0_r by lia.
      rewrite (Nat.add_comm (i * numel sh) e), Nat.mod_add, Nat.mod_small by lia.
      assert (HRL : (roll_src sh d (S i) e < numel sh)%nat) by (apply roll_lt; unfold rl in Hi; lia).
      specialize (HC e _ He HRL). rewrite relates32_small by lia. cbn [relates]. f_equal.
      apply Bool.eq_iff_eq_true. rewrite !Z.leb_le. lia. }
    intros r GR. eapply runs_weaken; [apply (r_relp alpha ev gen s su sh HG Hn Hp Hb NS HR Rge _ _ _ ltac:(discriminate) GR)|].
    intros z GZ. eapply rep_ext; [exact GZ|]. intros e He. apply eqmod_eq. cbn beta.
    destruct (sumn_b2z (rl sh d - 1) (fun i => f (roll_src sh d (S i) e) <=? f e)) as [SB SI].
    assert (R2 : (2 <= rl sh d)%nat) by (unfold rl; lia).
    assert (R3 : Z.of_nat (rl sh d) < 2^31).
    { unfold rl. pose proof (dim_le_numel sh d Hd ltac:(lia)). lia. }
    rewrite relates32_small by lia. f_equal. apply Bool.eq_iff_eq_true. cbn [relates].
    rewrite Z.leb_le, hot_spec. replace (Z.of_nat (rl sh d) - 1) with (Z.of_nat (rl sh d - 1)) by lia. rewrite SI.
    rewrite <- (others sh d Hd e (fun q => f q <= f e) He (Z.le_refl _)). split.
    - intros H i Hi. apply Z.leb_le, H. unfold rl. lia.
    - intros H i Hi. apply Z.leb_le, H. unfold rl in Hi. lia.
  Qed.

  Lemma one_hot_dim sh d f x : (d < length sh)%nat -> rep s sh f x ->
    (forall a b, (a < numel sh)%nat -> (b < numel sh)%nat -> Z.abs (f a - f b) < 2^31 - 1) ->
    Z.of_nat (numel sh) < 2^31 ->
    runs (argmax_one_hot alpha ev gen s su x (Some d)) (rep s sh (fun e => b2z (hot sh d f e))).
  Proof.
    intros Hd GX HC HB. unfold argmax_one_hot.
    eapply runs_bind; [apply runs_lift; eexists; split; [reflexivity|]; apply eq_refl|]. intros ? <-.
    eapply runs_bind; [apply runs_lift; eexists; split; [reflexivity|]; apply eq_refl|]. intros ? <-.
    pose proof GX as (_ & X2 & _). rewrite X2. apply tail_ok; auto.
  Qed.

  Lemma one_hot_flat n f x : rep s [n] f x ->
    (forall a b, (a < n)%nat -> (b < n)%nat -> Z.abs (f a - f b) < 2^31 - 1) ->
    Z.of_nat n < 2^31 ->
    runs (argmax_one_hot alpha ev gen s su x None) (rep s [n] (fun e => b2z (hot [n] 0 f e))).
  Proof.
    intros GX HC HB. unfold argmax_one_hot. pose proof GX as (_ & X2 & _). rewrite X2.
    assert (EN : numel [n] = n) by (cbn; lia).
    eapply runs_bind.
    { apply runs_lift. apply (rep_view s (VReshape [numel [n]]) [n] [numel [n]] _ _ x f (vw_reshape [n] [numel [n]] ltac:(cbn; lia)) GX).
      intros e He. apply vals_nth_eq. rewrite EN in He. exact He. }
    rewrite EN. intros prep GP. pose proof GP as (_ & P2 & _). rewrite P2.
    eapply runs_bind; [apply runs_lift; eexists; split; [reflexivity|]; apply eq_refl|]. intros ? <-.
    apply tail_ok; cbn [length]; auto; rewrite EN; auto.
  Qed.
End Argmax.

(* ----------------------------------------------------------------- the index vector *)
Definition ivs (sh : list nat) (d : nat) : list nat := set_nth d (nth d sh 0%nat) (repeat 1%nat (length sh)).

Lemma ones_ravel r : forall ix, ravel (repeat 1%nat r) (map2 (fun q i => if Nat.eqb q 1 then 0%nat else i) (repeat 1%nat r) ix) = 0%nat.
Proof. induction r as [|r IH]; intros [|i ix]; cbn [repeat map2 ravel Nat.eqb]; auto. rewrite IH. reflexivity. Qed.
Lemma ones_numel r : numel (repeat 1%nat r) = 1%nat.
Proof. induction r; [reflexivity|]. cbn [repeat]. change (numel (1%nat :: repeat 1%nat r)) with (1 * numel (repeat 1%nat r))%nat. lia. Qed.

Lemma iv_ravel n : forall r d ix, (d < r)%nat -> length ix = r -> (nth d ix 0 < n)%nat ->
  ravel (set_nth d n (repeat 1%nat r)) (map2 (fun q i => if Nat.eqb q 1 then 0%nat else i) (set_nth d n (repeat 1%nat r)) ix) = nth d ix 0%nat.
Proof.
  induction r as [|r IH]; intros d ix Hd HL HN; [lia|]. destruct ix as [|i ix]; [discriminate|].
  destruct d; cbn [repeat set_nth map2 ravel nth] in *.
  - rewrite ones_ravel, ones_numel. destruct (Nat.eqb_spec n 1); lia.
  - rewrite Nat.eqb_refl, Nat.mul_0_l, Nat.add_0_l. apply IH; [lia|cbn in HL; lia|auto].
Qed.

Lemma iv_numel n : forall r d, (d < r)%nat -> numel (set_nth d n (repeat 1%nat r)) = n.
Proof.
  induction r as [|r IH]; intros d Hd; [lia|]. destruct d; cbn [repeat set_nth].
  - change (numel (n :: repeat 1%nat r)) with (n * numel (repeat 1%nat r))%nat. rewrite ones_numel. lia.
  - change (numel (1%nat :: set_nth d n (repeat 1%nat r))) with (1 * numel (set_nth d n (repeat 1%nat r)))%nat. rewrite IH; lia.
Qed.

Lemma iv_bshape sh d : (d < length sh)%nat -> bshape sh (ivs sh d) sh.
Proof.
  intros Hd. assert (L : length (ivs sh d) = length sh) by (unfold ivs; rewrite set_nth_length, repeat_length; auto).
  split; [lia|]. intros i Hi. cbv zeta. rewrite (rev_nth sh) by auto. rewrite (rev_nth (ivs sh d)) by lia. rewrite L.
  set (k := (length sh - S i)%nat). assert (Hk : (k < length sh)%nat) by (unfold k; lia).
  rewrite (nth_indep sh 1%nat 0%nat) by auto. unfold ivs. rewrite nth_set_nth by (rewrite repeat_length; auto).
  destruct (Nat.eqb_spec k d) as [->|]; [left; auto|]. right. right. rewrite nth_repeat. auto.
Qed.

Lemma float_range_enc c n : c_prec c = 0%nat -> Z.of_nat n < 2^63 ->
  encode c (float_range n) = map Z.of_nat (seq 0 n).
Proof.
  intros Hp Hn. unfold encode, float_range. rewrite map_map. apply map_ext_in. intros i Hi. apply in_seq in Hi.
  cbn [encode1]. assert (ET : Qtrunc (inject_Z (Z.of_nat i) * inject_Z (scale c)) = Z.of_nat i).
  { apply Qtrunc_inject. unfold scale. rewrite Hp. change (Z.of_nat 0) with 0. rewrite Z.pow_0_r. apply Qmult_1_r. }
  rewrite flong_in_range; rewrite ET; [reflexivity|lia].
Qed.

Lemma r_mulv s sh d x f : s_n s = 2%nat -> c_prec (s_cfg s) = 0%nat -> (d < length sh)%nat -> Z.of_nat (numel sh) < 2^63 ->
  rep s sh f x ->
  exists z, mpc_bil_public s BMul x (index_vector sh d) ([], []) = Ok z /\ rep s sh (fun e => f e * Z.of_nat (coord sh d e)) z.
Proof.
  intros Hn Hp Hd HB GX.
  destruct (prec0_bil_public s SMul sh sh (mul_val sh (ivs sh d) sh) x (index_vector sh d) (vals sh f) ([], [])) as (z & E & G); auto.
  { apply prod_mul. apply iv_bshape; auto. }
  { cbn [index_vector pub_ok]. unfold float_range. rewrite map_length, seq_length. fold (ivs sh d). unfold ivs. rewrite iv_numel; auto. }
  { left. exact Hn. }
  exists z. split; [exact E|]. unfold mul_vr in G. rewrite bexpand_self in G by apply vals_len. change (2^64) with R64 in G.
  rewrite (mul_vals s sh Hn Hp _ _ f (fun e => Z.of_nat (coord sh d e))) in G; auto using vals_len, bexpand_length.
  intros e He. split; [apply vals_nth_eq; auto|].
  assert (N : (nth d sh 0 <= numel sh)%nat) by (apply dim_le_numel; auto; lia).
  pose proof (coord_lt sh d Hd e He) as C. unfold coord in C.
  rewrite bexpand_nth by auto. cbn [index_vector pub_vals]. rewrite float_range_enc by (auto; lia).
  unfold bget. unfold ivs. rewrite set_nth_length, repeat_length, Nat.sub_diag. cbn [skipn].
  rewrite iv_ravel; auto.
  - rewrite map_seq_nth by auto. reflexivity.
  - apply unravel_length.
Qed.

(* ------------------------------------------------------------------- sums along lines *)
Lemma firstn_app_len {A} (l1 l2 : list A) k : length l1 = k -> firstn k (l1 ++ l2) = l1.
Proof. intros <-. rewrite firstn_app, firstn_all, Nat.sub_diag. cbn. apply app_nil_r. Qed.
Lemma skipn_app_len {A} (l1 l2 : list A) k : length l1 = k -> skipn k (l1 ++ l2) = l2.
Proof. intros <-. rewrite skipn_app, skipn_all, Nat.sub_diag. reflexivity. Qed.

Lemma Forall2_firstn {A B} (P : A -> B -> Prop) k : forall l1 l2, Forall2 P l1 l2 -> Forall2 P (firstn k l1) (firstn k l2).
Proof. induction k; intros l1 l2 H; destruct H; cbn [firstn]; constructor; auto. Qed.
Lemma Forall2_skipn {A B} (P : A -> B -> Prop) k : forall l1 l2, Forall2 P l1 l2 -> Forall2 P (skipn k l1) (skipn k l2).
Proof. induction k; intros l1 l2 H; destruct H; cbn [skipn]; auto. Qed.

Section Reduced.
  Variables (keep : bool) (sh : list nat) (d : nat).
  Hypothesis Hd : (d < length sh)%nat.
  Let n := nth d sh 0%nat.
  Let sk := if keep then S d else d.
  Definition full (e k : nat) : list nat :=
    let ix := unravel (reduced keep sh d) e in firstn d ix ++ k :: skipn (if keep then S d else d) ix.
  Definition posk (e k : nat) : nat := ravel sh (full e k).

  Lemma reduced_parts : firstn d (reduced keep sh d) = firstn d sh /\ skipn sk (reduced keep sh d) = skipn (S d) sh.
  Proof.
    assert (L : length (firstn d sh) = d) by (rewrite firstn_length; lia). unfold reduced. split.
    - apply firstn_app_len; auto.
    - unfold sk. destruct keep.
      + cbn [app]. change (1%nat :: skipn (S d) sh) with ([1%nat] ++ skipn (S d) sh). rewrite app_assoc. apply skipn_app_len.
        rewrite app_length, L. cbn. lia.
      + cbn [app]. apply skipn_app_len; auto.
  Qed.
  Lemma sh_parts : sh = firstn d sh ++ n :: skipn (S d) sh.
  Proof.
    rewrite <- (firstn_skipn d sh) at 1. f_equal. unfold n. clear -Hd. revert d Hd.
    induction sh as [|a l IH]; intros [|d] Hd; cbn in *; try lia; auto. apply IH. lia.
  Qed.
  Lemma full_lt e k : (e < numel (reduced keep sh d))%nat -> (k < n)%nat -> Forall2 (fun d i => (i < d)%nat) sh (full e k).
  Proof.
    intros He Hk. destruct reduced_parts as [R1 R2]. rewrite sh_parts at 1. unfold full.
    pose proof (unravel_lt _ _ He) as F. apply Forall2_app.
    - rewrite <- R1. apply Forall2_firstn. exact F.
    - constructor; [exact Hk|]. rewrite <- R2. apply Forall2_skipn. exact F.
  Qed.
  Lemma len_first e : length (firstn d (unravel (reduced keep sh d) e)) = d.
  Proof.
    rewrite firstn_length, unravel_length. unfold reduced. rewrite !app_length, firstn_length, skipn_length. lia.
  Qed.
  Lemma posk_lt e k : (e < numel (reduced keep sh d))%nat -> (k < n)%nat -> (posk e k < numel sh)%nat.
  Proof. intros. apply ravel_lt, full_lt; auto. Qed.
  Lemma pos_posk e k j : (e < numel (reduced keep sh d))%nat -> (k < n)%nat -> pos sh d (posk e k) j = posk e j.
  Proof.
    intros He Hk. unfold pos, posk. rewrite unravel_ravel by (apply full_lt; auto). f_equal.
    unfold repl, full. rewrite firstn_app_len by apply len_first.
    f_equal. f_equal. change (k :: ?l) with ([k] ++ l). rewrite app_assoc. apply skipn_app_len.
    rewrite app_length, len_first. cbn. lia.
  Qed.
  Lemma coord_posk e k : (e < numel (reduced keep sh d))%nat -> (k < n)%nat -> coord sh d (posk e k) = k.
  Proof.
    intros He Hk. unfold coord, posk. rewrite unravel_ravel by (apply full_lt; auto). unfold full.
    rewrite app_nth2 by (rewrite len_first; auto). rewrite len_first, Nat.sub_diag. reflexivity.
  Qed.

  Lemma viewed_sum_along : viewed (sum_along d keep) sh (reduced keep sh d)
    (fun v => tabulate (reduced keep sh d) (fun ix => to_ring (2^64)
       (sumn (nth d sh 0%nat) (fun k => elt sh v (firstn d ix ++ k :: skipn (if keep then S d else d) ix))))).
  Proof. destruct keep; [apply vw_sumkeep; auto|apply vw_sumdim; auto]. Qed.

  Lemma rep_sum s f x : rep s sh f x ->
    exists y, mpc_view (sum_along d keep) x = Ok y /\ rep s (reduced keep sh d) (fun e => sumn n (fun k => f (posk e k))) y.
  Proof.
    intros GX. eapply rep_view; [apply viewed_sum_along|exact GX|]. intros e He. cbv beta. rewrite tabulate_nth by auto.
    rewrite to_ring_eqmod by apply posR. apply sumn_eqmod. intros k Hk. unfold elt.
    change (ravel sh (firstn d (unravel (reduced keep sh d) e) ++ k :: skipn (if keep then S d else d) (unravel (reduced keep sh d) e)))
      with (posk e k). apply vals_nth_eq. apply posk_lt; auto.
  Qed.

  Lemma line_at_length v e : length (line_at keep sh d v e) = n.
  Proof. unfold line_at. rewrite map_length, seq_length. reflexivity. Qed.
  Lemma line_at_nth v e k : (k < n)%nat -> nth k (line_at keep sh d v e) 0 = nth (posk e k) v 0.
  Proof. intros Hk. unfold line_at. rewrite map_seq_nth by auto. reflexivity. Qed.

  (** a place of a line is marked exactly if the maximum stands there *)
  Lemma hot_posk v e k m : (e < numel (reduced keep sh d))%nat -> (k < n)%nat -> is_maximum m (line_at keep sh d v e) ->
    hot sh d (fun q => nth q v 0) (posk e k) = (nth k (line_at keep sh d v e) 0 =? m).
  Proof.
    intros He Hk [M1 M2]. apply Bool.eq_iff_eq_true. rewrite hot_spec, Z.eqb_eq. split.
    - intros H. apply In_nth with (d := 0) in M1. destruct M1 as (j & Hj & Ej). rewrite line_at_length in Hj.
      specialize (H j Hj). rewrite pos_posk in H by auto. rewrite <- !line_at_nth in H by auto.
      assert (nth k (line_at keep sh d v e) 0 <= m) by (apply M2, nth_In; rewrite line_at_length; auto). lia.
    - intros Ek j Hj. rewrite pos_posk by auto. rewrite <- !line_at_nth by auto. rewrite Ek.
      apply M2, nth_In. rewrite line_at_length. auto.
  Qed.
End Reduced.

Lemma sumn_filter_const n (p : nat -> bool) c : sumn n (fun k => b2z (p k) * c) = Z.of_nat (length (filter p (seq 0 n))) * c.
Proof.
  unfold sumn. induction (seq 0 n) as [|a l IH]; [reflexivity|]. cbn [map zsum filter]. rewrite IH. clear IH.
  destruct (p a); cbn [b2z length]; lia.
Qed.
Lemma sumn_filter_index n (p : nat -> bool) : sumn n (fun k => b2z (p k) * Z.of_nat k) = zsum (map Z.of_nat (filter p (seq 0 n))).
Proof.
  unfold sumn. induction (seq 0 n) as [|a l IH]; [reflexivity|]. cbn [map zsum filter]. rewrite IH. clear IH.
  destruct (p a); cbn [b2z map zsum]; lia.
Qed.

(* ------------------------------------------------------------------------ the results *)
Lemma hot_flat n f e : (e < n)%nat -> hot [n] 0 f e = forallb (fun j => f j <=? f e) (seq 0 n).
Proof.
  intros He. unfold hot. cbn [nth]. apply Bool.eq_iff_eq_true. rewrite !forallb_forall.
  assert (P : forall j, pos [n] 0 e j = j).
  { intros j. unfold pos, repl. cbn [firstn app unravel skipn ravel]. change (numel []) with 1%nat. lia. }
  split; intros H j Hj; specialize (H j Hj); rewrite P in *; auto.
Qed.

Lemma hot_list v e m : (e < length v)%nat -> is_maximum m v -> hot [length v] 0 (fun q => nth q v 0) e = (nth e v 0 =? m).
Proof.
  intros He [M1 M2]. rewrite hot_flat by auto. apply Bool.eq_iff_eq_true. rewrite forallb_forall, Z.eqb_eq. split.
  - intros H. apply In_nth with (d := 0) in M1. destruct M1 as (j & Hj & Ej).
    specialize (H j ltac:(apply in_seq; lia)). apply Z.leb_le in H.
    assert (nth e v 0 <= m) by (apply M2, nth_In; auto). lia.
  - intros Ee j Hj. apply in_seq in Hj. apply Z.leb_le. rewrite Ee. apply M2, nth_In. lia.
Qed.

Lemma zsum_sumn l : zsum l = sumn (length l) (fun k => nth k l 0).
Proof.
  unfold sumn. f_equal. apply (nth_ext_len 0); [rewrite map_length, seq_length; auto|].
  intros i Hi. rewrite map_seq_nth by auto. reflexivity.
Qed.

Lemma rep_vsum s sh f x : rep s sh f x -> exists y, mpc_view VSum x = Ok y /\ rep s [] (fun _ => sumn (numel sh) f) y.
Proof.
  intros GX. eapply rep_view; [apply vw_sum|exact GX|]. intros e He. change (numel []) with 1%nat in He.
  replace e with 0%nat by lia. cbn [nth]. rewrite to_ring_eqmod by apply posR. rewrite zsum_sumn, vals_len.
  apply sumn_eqmod. intros k Hk. apply vals_nth_eq. auto.
Qed.

Section Results.
  Context {K : Type} (alpha : K -> Z) (ev : fop -> Z -> Z -> K -> Z)
          (gen : fop -> nat -> nat -> result (list (list K))) (s : sess) (su : tri_supply).
  Hypothesis HG : backend_ok alpha ev gen.
  Hypothesis HI : int_pair s.
  Hypothesis HR : forall k, draws (2^64) 2 [1%nat] (su_rnd su k).
  Let E := mpc_engine alpha ev gen s su.
  Let Hn := proj1 HI. Let Hp := proj1 (proj2 HI). Let Hb := proj2 (proj2 HI).

  (** a tensor without dimensions compared with a number: the result has shape [1] *)
  Lemma r_relp0 f c x : rep s [] f x ->
    runs (e_relp E RGe x (NInt c)) (rep s [1%nat] (fun _ => b2z (relates32 Rge (f 0%nat) c))).
  Proof.
    intros (X1 & X2 & X3 & X4). unfold E. cbn [e_relp mpc_engine].
    eapply runs_bind; [apply (runs_tick (fun _ => True)); auto|]. intros k _. unfold check_or_convert.
    eapply runs_bind; [apply runs_lift|].
    { destruct (mpc_secret_reconstruct s (PNum (NInt c)) (su_rnd su k)) as (y & EY & Y1 & Y2 & Y3 & Y4 & _); [rewrite Hn; lia|exact I|rewrite Hn; apply HR|].
      exists y. split; [exact EY|]. exact (conj Y1 (conj Y2 (conj Y3 Y4))). }
    intros y (Y1 & Y2 & Y3 & Y4) [w j] Hw. cbn [fst] in Hw. unfold m_rel. cbn [fst snd].
    rewrite enc_int in Y4 by exact Hp. cbn [pub_shape] in Y2, Y4.
    destruct (rel_ok alpha ev gen HG s Rge x y [1%nat] (vals [] f) [to_ring R64 c] ([], []) w) as (z & w' & EZ & W' & Z1 & Z2 & Z3 & Z4);
      rewrite ?X2, ?Y2; auto; try (rewrite ?X3, ?Y3; exact Hn).
    { split; [reflexivity|]. intros i Hi. cbn in Hi. assert (i = 0%nat) by lia. subst i. left. cbn. auto. }
    { exact I. }
    change (rop_of Rge) with RGe in EZ. rewrite EZ. exists z, (w', j). split; [reflexivity|]. split; [exact W'|].
    unfold rep, good. split; [auto|]. split; [auto|]. split; [rewrite Hn; auto|].
    replace (vals [1%nat] (fun _ => b2z (relates32 Rge (f 0%nat) c))) with
      (truth (s_cfg s) [1%nat] (fun e => relates32 Rge (bget (m_shape x) [1%nat] (vals [] f) e) (bget (m_shape y) [1%nat] [to_ring R64 c] e))); [exact Z4|].
    unfold truth, vals. apply map_ext_in. intros e He. apply in_seq in He. change (numel [1%nat]) with 1%nat in He. assert (e = 0%nat) by lia. subst e.
    rewrite (prec0_base s Hp), Z.mul_1_r, X2, Y2.
    change (bget [] [1%nat] (map (fun e0 => to_ring R64 (f e0)) (seq 0 (numel []))) 0) with (to_ring R64 (f 0%nat)).
    change (bget [1%nat] [1%nat] [to_ring R64 c] 0) with (to_ring R64 c). rewrite sum_small_words by lia. reflexivity.
  Qed.

  Section Dim.
    Variables (sh : list nat) (d : nat) (f : nat -> Z) (x : mpc).
    Hypothesis Hd : (d < length sh)%nat.
    Hypothesis GX : rep s sh f x.
    Hypothesis HC : forall a b, (a < numel sh)%nat -> (b < numel sh)%nat -> Z.abs (f a - f b) < 2^31 - 1.
    Hypothesis HB : Z.of_nat (numel sh) < 2^31.

    Let index_val (keep : bool) e := sumn (nth d sh 0%nat) (fun k => b2z (hot sh d f (posk keep sh d e k)) * Z.of_nat (coord sh d (posk keep sh d e k))).
    Let max_val (keep : bool) e := sumn (nth d sh 0%nat) (fun k => b2z (hot sh d f (posk keep sh d e k)) * f (posk keep sh d e k)).

    Lemma argmax_dim keep : runs (argmax alpha ev gen s su x (Some d) keep) (rep s (reduced keep sh d) (index_val keep)).
    Proof.
      unfold argmax. eapply runs_bind; [apply (one_hot_dim alpha ev gen s su HG HI HR sh d f x Hd GX HC HB)|]. intros r GR.
      pose proof GR as (_ & R2 & _). rewrite R2. eapply runs_bind.
      { apply runs_lift. apply (r_mulv s sh d r _ Hn Hp Hd ltac:(lia) GR). }
      intros p GP. apply runs_lift. exact (rep_sum keep sh d Hd s _ p GP).
    Qed.

    Hypothesis HT : forall k, valid_triples sh sh sh (mul_val sh sh sh) 2 (su_tri su k sh sh).
    Lemma max_dim keep oh : runs (max_mpc alpha ev gen s su x (Some d) keep oh)
      (fun r => rep s (reduced keep sh d) (max_val keep) (fst r) /\
                exists i, snd r = Some i /\ (if oh then rep s sh (fun e => b2z (hot sh d f e)) i
                                             else rep s (reduced keep sh d) (index_val keep) i)).
    Proof.
      unfold max_mpc. eapply runs_bind; [apply (one_hot_dim alpha ev gen s su HG HI HR sh d f x Hd GX HC HB)|]. intros r GR.
      eapply runs_bind; [apply (r_mul s su sh Hn Hp Hb HT r x _ _ GR GX)|]. intros m GM.
      eapply (runs_bind _ _ (fun i => if oh then rep s sh (fun e => b2z (hot sh d f e)) i
                                     else rep s (reduced keep sh d) (index_val keep) i)).
      { destruct oh; [apply runs_ret; exact GR|]. pose proof GR as (_ & R2 & _). rewrite R2.
        eapply runs_bind. { apply runs_lift. apply (r_mulv s sh d r _ Hn Hp Hd ltac:(lia) GR). }
        intros p GP. apply runs_lift. exact (rep_sum keep sh d Hd s _ p GP). }
      intros i Gi. eapply runs_bind. { apply runs_lift. exact (rep_sum keep sh d Hd s _ m GM). }
      intros m' GM'. apply runs_ret. cbn [fst snd]. split; [exact GM'|]. exists i. auto.
    Qed.
  End Dim.

  Section Flat.
    Variables (n : nat) (f : nat -> Z) (x : mpc).
    Hypothesis GX : rep s [n] f x.
    Hypothesis HC : forall a b, (a < n)%nat -> (b < n)%nat -> Z.abs (f a - f b) < 2^31 - 1.
    Hypothesis HB : Z.of_nat n < 2^31 - 1.
    Let EN : numel [n] = n. Proof. cbn. lia. Qed.
    Let flat_index := sumn n (fun k => b2z (hot [n] 0 f k) * Z.of_nat k).

    Lemma argmax_flat : 0 <= flat_index < 2^31 - 1 -> forall w, none_waiting (fst w) ->
      (flat_index < Z.max (Z.of_nat n) 2 -> exists z w', argmax alpha ev gen s su x None false w = (Ok z, w') /\ none_waiting (fst w') /\ rep s [] (fun _ => flat_index) z) /\
      (Z.max (Z.of_nat n) 2 <= flat_index -> exists w', argmax alpha ev gen s su x None false w = (Err ValueError, w')).
    Proof.
      intros HF. assert (HF2 : Z.abs (flat_index - Z.max (Z.of_nat n) 2) < 2^31 - 1) by lia.
      assert (PR : runs (let! r := argmax_one_hot alpha ev gen s su x None in
        let! check := lift (mpc_bil_public s BMul r (PTensor [numel (m_shape r)] (float_range (numel (m_shape r)))) ([], [])) in
        let! am := lift (mpc_view VSum check) in
        let! d' := lift (last_dim (m_shape x)) in
        let! l := lift (row_length (m_shape x) d') in
        let! c := e_relp E RGe am (NInt (Z.of_nat l)) in
        let! t := lift (reconstruct c) in cret (am, nth 0 (tdat t) 0))
        (fun q => rep s [] (fun _ => flat_index) (fst q) /\ snd q = b2z (Z.max (Z.of_nat n) 2 <=? flat_index))).
      { eapply runs_bind; [apply (one_hot_flat alpha ev gen s su HG HI HR n f x GX HC ltac:(lia))|]. intros r GR.
        pose proof GR as (_ & R2 & _). rewrite R2, EN. eapply runs_bind.
        { apply runs_lift. apply (r_mulv s [n] 0 r _ Hn Hp ltac:(cbn; lia) ltac:(rewrite EN; lia) GR). }
        intros p GP. eapply runs_bind. { apply runs_lift. exact (rep_vsum s [n] _ p GP). }
        intros am GA. rewrite EN in GA.
        assert (EF : sumn n (fun k => b2z (hot [n] 0 f k) * Z.of_nat (coord [n] 0 k)) = flat_index).
        { apply sumn_ext. intros k Hk. do 2 f_equal. unfold coord. cbn [unravel nth]. change (numel []) with 1%nat. apply Nat.div_1_r. }
        rewrite EF in GA. pose proof GX as (_ & X2 & _). rewrite X2.
        eapply runs_bind; [apply runs_lift; eexists; split; [reflexivity|]; apply eq_refl|]. intros ? <-.
        eapply runs_bind; [apply runs_lift; eexists; split; [apply row_length_ok; cbn; lia|]; apply eq_refl|]. intros ? <-.
        eapply runs_bind; [apply (r_relp0 _ (Z.of_nat (rl [n] (length [n] - 1))) am GA)|]. intros c (_ & C2 & _ & C4).
        assert (ER : Z.of_nat (rl [n] (length [n] - 1)) = Z.max (Z.of_nat n) 2).
        { unfold rl. cbn [length Nat.sub nth]. lia. }
        rewrite ER in C4.
        eapply runs_bind.
        { apply runs_lift. unfold reconstruct. rewrite (shared_tsum R64 supR _ _ _ C4). eexists. split; [reflexivity|apply eq_refl]. }
        intros t <-. apply runs_ret. cbn [fst snd tdat]. split; [exact GA|].
        unfold vals. change (numel [1%nat]) with 1%nat. cbn [seq map nth].
        rewrite relates32_small by lia. cbn [relates].
        rewrite to_ring64_small; [reflexivity|]. destruct (_ <=? _); cbn; lia. }
      assert (EA : forall w, argmax alpha ev gen s su x None false w =
        (let! q := (let! r := argmax_one_hot alpha ev gen s su x None in
        let! check := lift (mpc_bil_public s BMul r (PTensor [numel (m_shape r)] (float_range (numel (m_shape r)))) ([], [])) in
        let! am := lift (mpc_view VSum check) in
        let! d' := lift (last_dim (m_shape x)) in
        let! l := lift (row_length (m_shape x) d') in
        let! c := e_relp E RGe am (NInt (Z.of_nat l)) in
        let! t := lift (reconstruct c) in cret (am, nth 0 (tdat t) 0)) in
        if snd q =? 0 then cret (fst q) else cerr ValueError) w).
      { intros w. unfold argmax. fold E. unfold cbind, lift, cret, cerr.
        repeat match goal with |- context [match ?m with _ => _ end] => destruct m; cbn [fst snd]; try reflexivity end. }
      intros w Hw. destruct (PR w Hw) as ([am b] & w' & EP & W' & GA & EB). cbn [fst snd] in *.
      assert (EW : argmax alpha ev gen s su x None false w = (if b =? 0 then cret am else cerr ValueError) w').
      { rewrite EA. unfold cbind at 1. rewrite EP. reflexivity. }
      rewrite EW. split; intros HL.
      - rewrite (proj2 (Z.leb_gt _ _) HL) in EB. rewrite EB. cbn [b2z Z.eqb]. exists am, w'. split; [reflexivity|]. auto.
      - rewrite (proj2 (Z.leb_le _ _) HL) in EB. rewrite EB. cbn [b2z Z.eqb]. exists w'. reflexivity.
    Qed.

    Hypothesis HT : forall k, valid_triples [n] [n] [n] (mul_val [n] [n] [n]) 2 (su_tri su k [n] [n]).
    Lemma max_flat keep oh : runs (max_mpc alpha ev gen s su x None keep oh)
      (fun r => rep s [] (fun _ => sumn n (fun k => b2z (hot [n] 0 f k) * f k)) (fst r) /\ snd r = None).
    Proof.
      unfold max_mpc. eapply runs_bind; [apply (one_hot_flat alpha ev gen s su HG HI HR n f x GX HC ltac:(lia))|]. intros r GR.
      eapply runs_bind; [apply (r_mul s su [n] Hn Hp Hb HT r x _ _ GR GX)|]. intros m GM.
      eapply runs_bind. { apply runs_lift. exact (rep_vsum s [n] _ m GM). }
      intros z GZ. apply runs_ret. cbn [fst snd]. rewrite EN in GZ. auto.
    Qed.
  End Flat.
End Results.
