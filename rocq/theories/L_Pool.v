(** Max pooling: the windows, their maxima, the selected entries. *)
From Coq Require Import QArith String Setoid Morphisms.
From Verif Require Import Util Modular S_Ring S_Tensor S_Wraps S_Div S_Bil S_Spdz S_View S_Circuit S_Fss S_Sort S_Argmax
  M_Torch M_Encoder M_Tensor M_Share M_Spdz M_Store M_Fss M_Engine M_Static M_Argmax M_Pool S_Pool
  L_Torch L_Tensor L_Encoder L_Share L_Div L_Bil L_Mul L_Circuit L_View L_Fss2 L_Fss3 L_Engine L_Algo L_Grad L_Argmax L_Autograd S_Autograd L_Back.
Local Open Scope Z_scope.
Local Open Scope list_scope.

(* ------------------------------------------------------------------------ positions *)
Lemma dec3 b h w r c : (r < h)%nat -> (c < w)%nat ->
  let e := ((b * h + r) * w + c)%nat in (e / (h * w) = b /\ (e / w) mod h = r /\ e mod w = c)%nat.
Proof.
  intros Hr Hc e. assert (E1 : (e / w = b * h + r)%nat) by (unfold e; rewrite Nat.div_add_l, Nat.div_small; lia).
  assert (E2 : (e mod w = c)%nat) by (unfold e; rewrite Nat.add_comm, Nat.mod_add, Nat.mod_small; lia).
  rewrite (Nat.mul_comm h w), <- Nat.div_div by lia. rewrite E1. split; [rewrite Nat.div_add_l, Nat.div_small; lia|].
  split; [rewrite Nat.add_comm, Nat.mod_add, Nat.mod_small; lia|exact E2].
Qed.

Lemma enc3 n h w e : (e < n * h * w)%nat ->
  let b := (e / (h * w))%nat in let r := ((e / w) mod h)%nat in let c := (e mod w)%nat in
  (b < n /\ r < h /\ c < w /\ e = (b * h + r) * w + c)%nat.
Proof.
  intros He b r c. assert (0 < h /\ 0 < w)%nat as [Hh Hw] by (destruct h, w; lia).
  assert (E1 : (b = e / w / h)%nat) by (unfold b; rewrite (Nat.mul_comm h w), <- Nat.div_div by lia; auto).
  pose proof (Nat.div_mod e w ltac:(lia)) as D1. pose proof (Nat.div_mod (e / w) h ltac:(lia)) as D2.
  pose proof (Nat.mod_upper_bound e w ltac:(lia)). pose proof (Nat.mod_upper_bound (e / w) h ltac:(lia)).
  fold c in D1, H. fold r in D2, H0. rewrite <- E1 in D2.
  split; [|split; [auto|split; [auto|]]].
  - unfold b. apply Nat.div_lt_upper_bound; [nia|]. rewrite (Nat.mul_comm (h * w)). lia.
  - rewrite D1. rewrite D2. lia.
Qed.

Lemma lt3 n h w b r c : (b < n)%nat -> (r < h)%nat -> (c < w)%nat -> ((b * h + r) * w + c < n * h * w)%nat.
Proof. intros. assert (b * h + r < n * h)%nat by nia. nia. Qed.


Lemma map_gather {A} (m : nat) (F : nat -> nat -> A) k :
  flat_map (fun i => map (F i) (seq 0 m)) (seq 0 k) = map (fun e => F (e / m)%nat (e mod m)%nat) (seq 0 (k * m)).
Proof.
  induction k as [|k IH]; [reflexivity|]. rewrite seq_S, flat_map_app, IH.
  replace (S k * m)%nat with (k * m + m)%nat by lia. rewrite seq_app, map_app. f_equal.
  cbn [flat_map Nat.add]. rewrite app_nil_r.
  assert (EQ : forall n a, (a + n <= m)%nat -> map (F k) (seq a n) = map (fun e => F (e / m)%nat (e mod m)%nat) (seq (k * m + a) n)).
  { induction n as [|n IHn]; intros a Ha; [reflexivity|]. cbn [seq map]. f_equal.
    - rewrite Nat.div_add_l, Nat.div_small, Nat.add_0_r by lia.
      rewrite (Nat.add_comm (k * m) a), Nat.mod_add, Nat.mod_small by lia. reflexivity.
    - rewrite IHn by lia. do 2 f_equal. lia. }
  rewrite EQ by lia. rewrite Nat.add_0_r. reflexivity.
Qed.

Lemma grid_flat {A} n h w (F : nat -> nat -> nat -> A) :
  grid n h w F = map (fun e => F (e / (h * w))%nat ((e / w) mod h)%nat (e mod w)%nat) (seq 0 (n * h * w)).
Proof.
  unfold grid. erewrite flat_map_ext; [|intros b; apply (map_gather w (F b) h)].
  rewrite (map_gather (h * w) (fun b e => F b (e / w)%nat (e mod w)%nat) n), Nat.mul_assoc.
  apply map_ext_in. intros e He. apply in_seq in He. pose proof (enc3 n h w e ltac:(lia)) as (_ & _ & _ & E).
  set (b := (e / (h * w))%nat) in *. set (r := ((e / w) mod h)%nat) in *. set (c := (e mod w)%nat) in *.
  assert (0 < h /\ 0 < w)%nat as [Hh Hw] by (destruct h, w; lia).
  assert (Hr : (r < h)%nat) by (apply Nat.mod_upper_bound; lia). assert (Hc : (c < w)%nat) by (apply Nat.mod_upper_bound; lia).
  assert (EM : (e mod (h * w) = r * w + c)%nat).
  { rewrite E. replace ((b * h + r) * w + c)%nat with ((r * w + c) + b * (h * w))%nat by lia.
    rewrite Nat.mod_add by lia. apply Nat.mod_small. nia. }
  rewrite EM. f_equal.
  - rewrite Nat.div_add_l, Nat.div_small; lia.
  - rewrite Nat.add_comm, Nat.mod_add, Nat.mod_small; lia.
Qed.

Lemma grid_length {A} n h w (F : nat -> nat -> nat -> A) : length (grid n h w F) = (n * h * w)%nat.
Proof. rewrite grid_flat, map_length, seq_length. reflexivity. Qed.

(** lines along the last dimension *)
Lemma last_pos pre n e j : (e < numel (pre ++ [n]))%nat -> (j < n)%nat ->
  L_Argmax.pos (pre ++ [n]) (length pre) e j = (e / n * n + j)%nat.
Proof.
  intros He Hj. rewrite numel_app in He. cbn [numel fold_right] in He. rewrite Nat.mul_1_r in He.
  unfold L_Argmax.pos, repl. assert (D : (e = e / n * n + e mod n)%nat) by (rewrite Nat.mul_comm; apply Nat.div_mod; lia).
  assert (M : (e mod n < n)%nat) by (apply Nat.mod_upper_bound; lia).
  assert (Q : (e / n < numel pre)%nat) by (apply Nat.div_lt_upper_bound; lia).
  assert (U : unravel (pre ++ [n]) e = unravel pre (e / n) ++ unravel [n] (e mod n)).
  { rewrite D at 1. rewrite <- (unravel_app pre [n] (e / n) (e mod n)); cbn [numel fold_right]; rewrite ?Nat.mul_1_r; auto. }
  rewrite U. rewrite firstn_app_len by apply unravel_length.
  replace (skipn (S (length pre)) (unravel pre (e / n) ++ unravel [n] (e mod n))) with (@nil nat)
    by (symmetry; apply skipn_all2; rewrite app_length, !unravel_length; cbn; lia).
  rewrite ravel_app by apply unravel_length. rewrite ravel_unravel_id by auto. cbn [ravel numel fold_right]. lia.
Qed.

Lemma last_reduced pre n : reduced false (pre ++ [n]) (length pre) = pre.
Proof.
  unfold reduced. rewrite firstn_app_len by auto.
  replace (skipn (S (length pre)) (pre ++ [n])) with (@nil nat) by (symmetry; apply skipn_all2; rewrite app_length; cbn; lia).
  cbn [app]. apply app_nil_r.
Qed.

Lemma last_posk pre n e k : (e < numel pre)%nat -> posk false (pre ++ [n]) (length pre) e k = (e * n + k)%nat.
Proof.
  intros He. unfold posk, full. rewrite last_reduced.
  rewrite firstn_all2 by (rewrite unravel_length; auto). rewrite skipn_all2 by (rewrite unravel_length; auto).
  rewrite ravel_app by apply unravel_length. rewrite ravel_unravel_id by auto. cbn [ravel numel fold_right]. lia.
Qed.

Lemma last_nth pre n : nth (length pre) (pre ++ [n]) 0%nat = n.
Proof. rewrite app_nth2, Nat.sub_diag by lia. reflexivity. Qed.

(** marks along the last dimension *)
Lemma hot_last pre n f e k : (e < numel pre)%nat -> (k < n)%nat ->
  (hot (pre ++ [n]) (length pre) f (e * n + k) = true <-> forall j, (j < n)%nat -> f (e * n + j)%nat <= f (e * n + k)%nat).
Proof.
  intros He Hk. assert (HE : (e * n + k < numel (pre ++ [n]))%nat) by (rewrite numel_app; cbn [numel fold_right]; nia).
  rewrite hot_spec, last_nth. split; intros H j Hj.
  - specialize (H j Hj). rewrite last_pos in H by auto. rewrite Nat.div_add_l, Nat.div_small, Nat.add_0_r in H by lia. exact H.
  - rewrite last_pos by auto. rewrite Nat.div_add_l, Nat.div_small, Nat.add_0_r by lia. auto.
Qed.

(* ------------------------------------------------------------ one line, one sum *)
(** the sum of the marked values of a line of length [n] *)
Section Line.
  Variables (n : nat) (f : nat -> Z).
  Definition marked (k : nat) : bool := forallb (fun j => f j <=? f k) (seq 0 n).
  Lemma marked_spec k : marked k = true <-> forall j, (j < n)%nat -> f j <= f k.
  Proof.
    unfold marked. rewrite forallb_forall. split; intros H j Hj.
    - apply Z.leb_le, H, in_seq. lia.
    - apply in_seq in Hj. apply Z.leb_le, H. lia.
  Qed.
  Definition line_val : Z := sumn n (fun k => b2z (marked k) * f k).

  Lemma line_max : (0 < n)%nat -> exists k, (k < n)%nat /\ forall j, (j < n)%nat -> f j <= f k.
  Proof.
    intros Hn. clear -Hn. induction n as [|m IH]; [lia|]. destruct m as [|m].
    - exists 0%nat. split; [lia|]. intros j Hj. replace j with 0%nat by lia. lia.
    - destruct (IH ltac:(lia)) as (k & Hk & HM). destruct (Z_le_gt_dec (f (S m)) (f k)).
      + exists k. split; [lia|]. intros j Hj. destruct (Nat.eq_dec j (S m)) as [->|]; [lia|apply HM; lia].
      + exists (S m). split; [lia|]. intros j Hj. destruct (Nat.eq_dec j (S m)) as [->|]; [lia|]. specialize (HM j ltac:(lia)). lia.
  Qed.

  Lemma line_count k : (k < n)%nat -> (forall j, (j < n)%nat -> f j <= f k) ->
    line_val = Z.of_nat (length (filter marked (seq 0 n))) * f k /\ In k (filter marked (seq 0 n)) /\
    Forall (fun j => (j < n)%nat /\ f j = f k) (filter marked (seq 0 n)).
  Proof.
    intros Hk HM. split; [|split].
    - unfold line_val. rewrite <- sumn_filter_const. apply sumn_ext. intros j Hj.
      destruct (marked j) eqn:E; cbn [b2z]; [|lia]. rewrite marked_spec in E. specialize (E k Hk). specialize (HM j Hj). lia.
    - apply filter_In. split; [apply in_seq; lia|]. apply marked_spec. auto.
    - apply Forall_forall. intros j Hj. apply filter_In in Hj. destruct Hj as [Hj E]. apply in_seq in Hj. split; [lia|].
      rewrite marked_spec in E. specialize (E k Hk). specialize (HM j ltac:(lia)). lia.
  Qed.

  (** a single largest value *)
  Lemma line_single k : (k < n)%nat -> (forall j, (j < n)%nat -> j <> k -> f j < f k) ->
    line_val = f k /\ forall j, (j < n)%nat -> marked j = Nat.eqb j k.
  Proof.
    intros Hk HM.
    assert (HJ : forall j, (j < n)%nat -> marked j = Nat.eqb j k).
    { intros j Hj. destruct (Nat.eqb_spec j k) as [->|HN].
      - apply marked_spec. intros i Hi. destruct (Nat.eq_dec i k) as [->|]; [lia|]. specialize (HM i Hi ltac:(auto)). lia.
      - destruct (marked j) eqn:E; [|reflexivity]. rewrite marked_spec in E. specialize (E k Hk). specialize (HM j Hj HN). lia. }
    split; [|exact HJ]. unfold line_val. rewrite <- (sumn_pick n k f Hk). apply sumn_ext. intros j Hj. rewrite HJ by auto. reflexivity.
  Qed.

  (** any line stays below a bound its values stay below, if positive maxima stand once *)
  Lemma line_below m B : (0 < n)%nat -> (forall j, (j < n)%nat -> f j < m) ->
    (forall c1 c2, (c1 < n)%nat -> (c2 < n)%nat -> 0 < f c1 -> f c2 = f c1 -> (forall j, (j < n)%nat -> f j <= f c1) -> c1 = c2) ->
    (forall j, (j < n)%nat -> Z.abs (f j) * Z.of_nat n <= B) ->
    line_val < m /\ Z.abs line_val <= B.
  Proof.
    intros Hn HB HU HA. destruct (line_max Hn) as (k & Hk & HM). destruct (line_count k Hk HM) as (EL & IN & AL).
    pose proof (HB k Hk) as HBk. pose proof (HA k Hk) as HAk. set (l := filter marked (seq 0 n)) in *.
    assert (LL : (length l <= n)%nat).
    { unfold l. transitivity (length (seq 0 n)); [|rewrite seq_length; lia]. clear. induction (seq 0 n) as [|a r IH]; cbn; [lia|destruct (marked a); cbn; lia]. }
    destruct l as [|a [|b l']] eqn:EQ; [destruct IN| |].
    - cbn [length] in EL. rewrite EL. split; [lia|]. nia.
    - assert (f k <= 0).
      { destruct (Z_le_gt_dec (f k) 0) as [|HP]; [auto|]. exfalso.
        assert (ND : NoDup (a :: b :: l')) by (rewrite <- EQ; apply NoDup_filter, seq_NoDup).
        inversion AL as [|? ? [A1 A2] AL']; subst. inversion AL' as [|? ? [B1 B2] _]; subst.
        assert (a = b) by (apply (HU a b); auto; try lia; intros j Hj; rewrite A2; auto). subst.
        inversion ND; subst. cbn in *. tauto. }
      rewrite EL. cbn [length] in *. split; nia.
  Qed.
End Line.

Lemma marked_ext n f g k : (k < n)%nat -> (forall j, (j < n)%nat -> f j = g j) -> marked n f k = marked n g k.
Proof.
  intros Hk H. apply Bool.eq_iff_eq_true. rewrite !marked_spec. split; intros HM j Hj.
  - rewrite <- !H by auto. auto.
  - rewrite !H by auto. auto.
Qed.
Lemma line_val_ext n f g : (forall j, (j < n)%nat -> f j = g j) -> line_val n f = line_val n g.
Proof. intros H. unfold line_val. apply sumn_ext. intros k Hk. rewrite (marked_ext n f g k Hk H), H by auto. reflexivity. Qed.

Lemma hot_marked pre n f e k : (e < numel pre)%nat -> (k < n)%nat ->
  hot (pre ++ [n]) (length pre) f (e * n + k) = marked n (fun j => f (e * n + j)%nat) k.
Proof. intros He Hk. apply Bool.eq_iff_eq_true. rewrite hot_last, marked_spec by auto. reflexivity. Qed.

(* --------------------------------------------------------------- max over the windows *)
Section Runs.
  Context {K : Type} (alpha : K -> Z) (ev : fop -> Z -> Z -> K -> Z)
          (gen : fop -> nat -> nat -> result (list (list K))) (s : sess) (su : tri_supply).
  Hypothesis HG : backend_ok alpha ev gen.
  Hypothesis HI : int_pair s.
  Hypothesis HS : mul_supply su.
  Let Hn := proj1 HI. Let Hp := proj1 (proj2 HI). Let Hb := proj2 (proj2 HI).

  (** max over the last dimension with the one-hot marks *)
  Lemma max_last pre n f x : rep s (pre ++ [n]) f x ->
    (forall a b, (a < numel (pre ++ [n]))%nat -> (b < numel (pre ++ [n]))%nat -> Z.abs (f a - f b) < 2^31 - 1) ->
    Z.of_nat (numel (pre ++ [n])) < 2^31 ->
    runs (max_mpc alpha ev gen s su x (Some (length pre)) false true)
      (fun r => rep s pre (fun e => line_val n (fun j => f (e * n + j)%nat)) (fst r) /\
                exists i, snd r = Some i /\ rep s (pre ++ [n]) (fun e => b2z (marked n (fun j => f (e / n * n + j)%nat) (e mod n))) i).
  Proof.
    intros GX HC HB. assert (Hd : (length pre < length (pre ++ [n]))%nat) by (rewrite app_length; cbn; lia).
    eapply runs_weaken.
    { apply (max_dim alpha ev gen s su HG HI (proj2 HS) (pre ++ [n]) (length pre) f x Hd GX HC HB).
      intros k. apply (proj1 HS). apply bshape_same. }
    intros r (GM & i & EI & GI). rewrite last_reduced, last_nth in GM. split.
    - eapply rep_ext; [exact GM|]. intros e He. apply eqmod_eq. cbv beta. apply sumn_ext. intros k Hk.
      rewrite !last_posk by auto. rewrite hot_marked by auto. reflexivity.
    - exists i. split; [exact EI|]. eapply rep_ext; [exact GI|]. intros e He. apply eqmod_eq. cbv beta. f_equal.
      rewrite numel_app in He. cbn [numel fold_right] in He. rewrite Nat.mul_1_r in He.
      assert (n <> 0)%nat by (intros ->; lia).
      assert (D : (e = e / n * n + e mod n)%nat) by (rewrite Nat.mul_comm; apply Nat.div_mod; lia).
      rewrite D at 1. apply hot_marked; [apply Nat.div_lt_upper_bound; lia|apply Nat.mod_upper_bound; auto].
  Qed.
End Runs.
