(** The operators of a two-party integer session, element by element. *)
From Coq Require Import QArith String Setoid Morphisms.
From Verif Require Import Util Modular S_Ring S_Tensor S_Wraps S_Div S_Bil S_Spdz S_Circuit S_Fss M_Torch M_Encoder M_Tensor M_Share M_Spdz M_Store M_Fss M_Engine
  L_Torch L_Tensor L_Encoder L_Share L_Div L_Bil L_Mul L_Circuit L_Fss2 L_Fss3.
Local Open Scope Z_scope.
Local Open Scope list_scope.

Lemma sum_small_words a b r : relates32 r (to_ring R64 a) (to_ring R64 b) = relates32 r a b.
Proof.
  assert (E : forall k, signed32 (to_ring R64 a + k - to_ring R64 b) = signed32 (a + k - b)).
  { intro k. apply eqmod_signed32. rewrite !to_ring_eqmod by apply posR. reflexivity. }
  assert (E' : forall k, signed32 (to_ring R64 b + k - to_ring R64 a) = signed32 (b + k - a)).
  { intro k. apply eqmod_signed32. rewrite !to_ring_eqmod by apply posR. reflexivity. }
  pose proof (E 0) as E0. pose proof (E' 0) as E0'. rewrite !Z.add_0_r in E0, E0'.
  destruct r; cbn [relates32]; rewrite ?E, ?E', ?E0, ?E0'; reflexivity.
Qed.

(** the values of a tensor of shape [sh] given by position *)
Section Vals.
  Variable sh : list nat.
  Definition vals (f : nat -> Z) : list Z := map (fun e => to_ring R64 (f e)) (seq 0 (numel sh)).

  Lemma vals_len f : length (vals f) = numel sh.
  Proof. unfold vals. rewrite map_length, seq_length. reflexivity. Qed.
  Lemma vals_in f : vec_in R64 (vals f).
  Proof. apply map_to_ring_in; auto using supR. Qed.
  Lemma vals_nth f e : (e < numel sh)%nat -> nth e (vals f) 0 = to_ring R64 (f e).
  Proof. intros He. unfold vals. rewrite map_seq_nth by auto. reflexivity. Qed.
  Lemma vals_ext f g : (forall e, (e < numel sh)%nat -> f e == g e [mod R64]) -> vals f = vals g.
  Proof.
    intros H. apply vec_eqR; auto using vals_in; [rewrite !vals_len; auto|]. intros e He. rewrite vals_len in He.
    rewrite !vals_nth by auto. rewrite !to_ring_eqmod by apply posR. auto.
  Qed.
  Lemma vals_eq v f : vec_in R64 v -> length v = numel sh -> (forall e, (e < numel sh)%nat -> nth e v 0 == f e [mod R64]) -> v = vals f.
  Proof.
    intros HI HL H. apply vec_eqR; auto using vals_in; [rewrite vals_len; auto|]. intros e He.
    rewrite vals_nth by lia. rewrite to_ring_eqmod by apply posR. apply H. lia.
  Qed.

End Vals.

Section Hoare.
  Context {K : Type} (alpha : K -> Z) (ev : fop -> Z -> Z -> K -> Z)
          (gen : fop -> nat -> nat -> result (list (list K))) (s : sess) (su : tri_supply) (sh : list nat).
  Notation vals := (vals sh).
  Hypothesis HG : good_gen (fun o k0 k1 => keys_ok alpha ev o k0 k1 /\ no_carry ev o k0) gen.
  Hypothesis Hn : s_n s = 2%nat.
  Hypothesis Hp : c_prec (s_cfg s) = 0%nat.
  Hypothesis Hb : 1 <= c_base (s_cfg s).
  Hypothesis Hsh : sh <> [].
  Hypothesis HT : forall k, valid_triples sh sh sh (mul_val sh sh sh) 2 (su_tri su k sh sh).
  Hypothesis HR : forall k, draws (2^64) 2 [1%nat] (su_rnd su k).

  (** the computation ends without an exception in a state without left-over keys, with a
      result satisfying P *)
  Definition runs {A} (m : comp (mpcw (K:=K)) A) (P : A -> Prop) : Prop :=
    forall w, none_waiting (fst w) -> exists a w', m w = (Ok a, w') /\ none_waiting (fst w') /\ P a.

  Lemma runs_ret {A} (a : A) (P : A -> Prop) : P a -> runs (cret a) P.
  Proof. intros H w Hw. exists a, w. auto. Qed.

  Lemma runs_bind {A B} (m : comp _ A) (k : A -> comp _ B) P Q :
    runs m P -> (forall a, P a -> runs (k a) Q) -> runs (cbind m k) Q.
  Proof.
    intros H1 H2 w Hw. destruct (H1 w Hw) as (a & w1 & E & W1 & PA). unfold cbind. rewrite E. apply (H2 a PA w1 W1).
  Qed.

  Lemma runs_weaken {A} (m : comp _ A) (P Q : A -> Prop) : runs m P -> (forall a, P a -> Q a) -> runs m Q.
  Proof. intros H HPQ w Hw. destruct (H w Hw) as (a & w1 & E & W1 & PA). eauto 6. Qed.

  Lemma runs_lift {A} (r : result A) (P : A -> Prop) : (exists a, r = Ok a /\ P a) -> runs (lift r) P.
  Proof. intros (a & -> & H) w Hw. exists a, w. auto. Qed.

  Lemma runs_tick (P : nat -> Prop) : (forall k, P k) -> runs tick P.
  Proof. intros H w Hw. exists (snd w), (fst w, S (snd w)). auto. Qed.

  Definition rep (f : nat -> Z) (x : mpc) : Prop := good s sh (vals f) x.
  Lemma rep_ext f g x : rep f x -> (forall e, (e < numel sh)%nat -> f e == g e [mod R64]) -> rep g x.
  Proof. intros H E. unfold rep. rewrite <- (vals_ext sh f g E). exact H. Qed.

  Definition linz (o : linop) (a b : Z) : Z := match o with LAdd => a + b | LSub => a - b end.

  Lemma linop_vals o v1 v2 f g : length v1 = numel sh -> length v2 = numel sh ->
    (forall e, (e < numel sh)%nat -> nth e v1 0 == f e [mod R64] /\ nth e v2 0 == g e [mod R64]) ->
    s_linop o v1 v2 = vals (fun e => linz o (f e) (g e)).
  Proof.
    clear HT HR.
    intros L1 L2 H. apply vals_eq.
    - destruct o; apply map2_to_ring_in; auto.
    - destruct o; cbn [s_linop]; unfold s_add, s_sub; rewrite map2_length; lia.
    - intros e He. destruct (H e He) as [A B].
      destruct o; cbn [s_linop linz]; unfold s_add, s_sub; rewrite (nth_map2 _ 0 0 0) by lia;
        rewrite to_ring_eqmod by apply posR; rewrite A, B; reflexivity.
  Qed.

  Lemma mul_vals v1 v2 f g : length v1 = numel sh -> length v2 = numel sh ->
    (forall e, (e < numel sh)%nat -> nth e v1 0 == f e [mod R64] /\ nth e v2 0 == g e [mod R64]) ->
    s_mul R64 v1 v2 = vals (fun e => f e * g e).
  Proof.
    clear HT HR.
    intros L1 L2 H. apply vals_eq.
    - apply map2_to_ring_in; auto.
    - unfold s_mul. rewrite map2_length. lia.
    - intros e He. destruct (H e He) as [A B]. unfold s_mul. rewrite (nth_map2 _ 0 0 0) by lia.
      rewrite to_ring_eqmod by apply posR. rewrite A, B. reflexivity.
  Qed.

  Lemma vals_nth_eq f e : (e < numel sh)%nat -> nth e (vals f) 0 == f e [mod R64].
  Proof.
    clear HT HR. intros He. rewrite vals_nth by auto. apply to_ring_eqmod, posR. Qed.

  Lemma enc_int c : encode (s_cfg s) (pub_vals (PNum (NInt c))) = [to_ring R64 c].
  Proof.
    clear HT HR. apply (int_pub_spec (s_cfg s) (PNum (NInt c)) _ Hp). exists c. auto. Qed.

  Lemma const_nth c e : (e < numel sh)%nat -> nth e (bexpand [1%nat] sh [to_ring R64 c]) 0 == c [mod R64].
  Proof.
    clear HT HR. intros He. rewrite bexpand_nth by auto. rewrite bget_one by auto. apply to_ring_eqmod, posR. Qed.

  Lemma r_lin o x y f g : rep f x -> rep g y -> exists z, mpc_lin o x y = Ok z /\ rep (fun e => linz o (f e) (g e)) z.
  Proof.
    clear HT HR.
    intros (X1 & X2 & X3 & X4) (Y1 & Y2 & Y3 & Y4).
    destruct (mpc_lin_shared o x y sh (vals f) (vals g)) as (z & E & Z1 & Z2 & Z3 & Z4); rewrite ?X2, ?Y2; auto using bshape_same; try congruence.
    exists z. split; [exact E|]. repeat split; try congruence; try apply Z4.
    rewrite X2, Y2 in Z4. rewrite !bexpand_self in Z4 by apply vals_len. rewrite (linop_vals o _ _ f g) in Z4; auto using vals_len.
    - apply Z4.
    - intros; split; apply vals_nth_eq; auto.
  Qed.

  Lemma r_linp o x f c : rep f x -> exists z, mpc_lin_public s o x (PNum (NInt c)) = Ok z /\ rep (fun e => linz o (f e) c) z.
  Proof.
    clear HT HR.
    intros (X1 & X2 & X3 & X4).
    destruct (mpc_lin_public_value s o x (PNum (NInt c)) (vals f) sh) as (z & E & Z1 & Z2 & Z3 & _ & Z5); rewrite ?X2; auto.
    { exact I. } { apply bshape_scalar. auto. }
    exists z. split; [exact E|]. specialize (Z5 (eq_sym X2)). rewrite X2, enc_int in Z5. cbn [pub_shape] in Z5.
    rewrite bexpand_self in Z5 by apply vals_len.
    rewrite (linop_vals o _ _ f (fun _ => c)) in Z5; auto using vals_len.
    - repeat split; try congruence; apply Z5.
    - apply bexpand_length.
    - intros; split; [apply vals_nth_eq|apply const_nth]; auto.
  Qed.

  Lemma r_mulp x f c : rep f x -> exists z, mpc_bil_public s BMul x (PNum (NInt c)) ([], []) = Ok z /\ rep (fun e => f e * c) z.
  Proof.
    clear HT HR.
    intros GX.
    destruct (prec0_bil_public s SMul sh sh (mul_val sh [1%nat] sh) x (PNum (NInt c)) (vals f) ([], [])) as (z & E & G); auto.
    { apply prod_mul. apply bshape_scalar. auto. } { exact I. } { left. exact Hn. }
    exists z. split; [exact E|]. rewrite enc_int in G. unfold mul_vr in G. rewrite bexpand_self in G by apply vals_len.
    change (2^64) with R64 in G.
    rewrite (mul_vals _ _ f (fun _ => c)) in G; auto using vals_len.
    - apply bexpand_length.
    - intros; split; [apply vals_nth_eq|apply const_nth]; auto.
  Qed.

  Lemma r_rsub x f c : rep f x -> exists z, mpc_rsub s x (PNum (NInt c)) ([], []) = Ok z /\ rep (fun e => c - f e) z.
  Proof.
    clear HT HR.
    intros GX. unfold mpc_rsub. destruct (r_linp LSub x f c GX) as (d & -> & GD). cbn [rbind].
    destruct (r_mulp d _ (-1) GD) as (z & E & GZ). exists z. split; [exact E|]. eapply rep_ext; [exact GZ|].
    intros e He. cbn [linz]. apply eqmod_eq. ring.
  Qed.

  Lemma r_mul x y f g : rep f x -> rep g y -> runs (m_mul s su x y) (rep (fun e => f e * g e)).
  Proof.
    clear HR.
    intros GX GY. unfold m_mul. eapply runs_bind; [apply (runs_tick (fun _ => True)); auto|]. intros k _. apply runs_lift.
    pose proof GX as (_ & X2 & _). pose proof GY as (_ & Y2 & _).
    destruct (prec0_bil s SMul sh sh sh (mul_val sh sh sh) x y (vals f) (vals g) (su_tri su k (m_shape x) (m_shape y)) ([], [])) as (z & E & G); auto.
    { lia. } { lia. } { apply prod_mul, bshape_same. } { rewrite X2, Y2, Hn. apply HT. } { left. exact Hn. }
    exists z. split; [exact E|]. rewrite mul_val_self in G by apply vals_len. rewrite (mul_vals _ _ f g) in G; auto using vals_len.
    intros; split; apply vals_nth_eq; auto.
  Qed.

  Lemma fits_any r sx sy : sx <> [] -> sy <> [] -> r <> Rne -> rel_fits r (s_cfg s) sx sy.
  Proof.
    clear HT HR. intros A B C. destruct r; cbn; auto. congruence. Qed.

  Lemma bget_vals f e : (e < numel sh)%nat -> bget sh sh (vals f) e = to_ring R64 (f e).
  Proof.
    clear HT HR.
    intros He. rewrite <- (vals_nth sh f e He). rewrite <- bexpand_nth by auto. rewrite bexpand_self by apply vals_len. reflexivity.
  Qed.

  Lemma r_rel r x y f g : r <> Rne -> rep f x -> rep g y ->
    runs (m_rel alpha ev gen s (rop_of r) x y) (rep (fun e => b2z (relates32 r (f e) (g e)))).
  Proof.
    clear HT HR.
    intros Hr (X1 & X2 & X3 & X4) (Y1 & Y2 & Y3 & Y4) [w k] Hw. cbn [fst] in Hw. unfold m_rel. cbn [fst snd].
    destruct (rel_ok alpha ev gen HG s r x y sh (vals f) (vals g) ([], []) w) as (z & w' & E & W' & Z1 & Z2 & Z3 & Z4);
      rewrite ?X2, ?Y2; auto using bshape_same, fits_any; try congruence.
    rewrite E. exists z, (w', k). split; [reflexivity|]. split; [exact W'|].
    repeat split; try congruence; try apply Z4.
    unfold truth in Z4. unfold vals. erewrite map_ext_in; [apply Z4|]. intros e He. apply in_seq in He.
    rewrite (prec0_base s Hp), Z.mul_1_r, X2, Y2, !bget_vals, sum_small_words by lia. reflexivity.
  Qed.

  Lemma r_relp r x f c : r <> Rne -> rep f x ->
    runs (e_relp (mpc_engine alpha ev gen s su) (rop_of r) x (NInt c)) (rep (fun e => b2z (relates32 r (f e) c))).
  Proof.
    clear HT.
    intros Hr (X1 & X2 & X3 & X4). cbn [e_relp mpc_engine].
    eapply runs_bind; [apply (runs_tick (fun _ => True)); auto|]. intros k _. unfold check_or_convert.
    eapply runs_bind; [apply runs_lift|].
    { destruct (mpc_secret_reconstruct s (PNum (NInt c)) (su_rnd su k)) as (y & E & Y1 & Y2 & Y3 & Y4 & _); [lia|exact I|rewrite Hn; apply HR|].
      exists y. split; [exact E|]. exact (conj Y1 (conj Y2 (conj Y3 Y4))). }
    intros y (Y1 & Y2 & Y3 & Y4) [w j] Hw. cbn [fst] in Hw. unfold m_rel. cbn [fst snd].
    rewrite enc_int in Y4. cbn [pub_shape] in Y2, Y4.
    destruct (rel_ok alpha ev gen HG s r x y sh (vals f) [to_ring R64 c] ([], []) w) as (z & w' & E & W' & Z1 & Z2 & Z3 & Z4);
      rewrite ?X2, ?Y2; auto using bshape_scalar; try congruence.
    { apply fits_any; auto. discriminate. }
    rewrite E. exists z, (w', j). split; [reflexivity|]. split; [exact W'|].
    repeat split; try congruence; try apply Z4.
    unfold truth in Z4. unfold vals. erewrite map_ext_in; [apply Z4|]. intros e He. apply in_seq in He.
    rewrite (prec0_base s Hp), Z.mul_1_r, X2, Y2, bget_vals, bget_one, sum_small_words by (auto; lia). reflexivity.
  Qed.
End Hoare.
