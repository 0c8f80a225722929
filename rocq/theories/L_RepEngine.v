(** Computations that never return a value, and the algorithms in sessions with replicated shares. *)
From Coq Require Import QArith Lia List.
From Verif Require Import Util S_Ring S_Tensor M_Torch M_Encoder M_Tensor M_Share M_Spdz M_Fss M_Engine M_Approx M_Softmax
  L_Share L_Mul S_Rep M_Rep M_RepView L_Rep L_Rep7 M_RepEngine.
Import ListNotations.
Local Open Scope Z_scope.
Local Open Scope list_scope.

(** the computation raises, whatever the state *)
Definition stuck {W A} (m : comp W A) : Prop := forall w, exists e w', m w = (Err e, w').

Lemma stuck_here {W A B} (m : comp W A) (k : A -> comp W B) : stuck m -> stuck (cbind m k).
Proof. intros H w. destruct (H w) as (e & w' & E). exists e, w'. unfold cbind. rewrite E. reflexivity. Qed.
Lemma stuck_later {W A B} (m : comp W A) (k : A -> comp W B) : (forall a, stuck (k a)) -> stuck (cbind m k).
Proof.
  intros H w. unfold cbind. destruct (m w) as [[a|e] w'].
  - apply H.
  - exists e, w'. reflexivity.
Qed.
Lemma stuck_err {W A} e : stuck (cerr e : comp W A).
Proof. intros w. exists e, w. reflexivity. Qed.

Section Mute.
  Context {W T : Type} (E : engine W T).
  Hypothesis NR : forall r x y, stuck (e_rel E r x y).
  Hypothesis NP : forall r x c, stuck (e_relp E r x c).
  Hypothesis NX : forall it x, stuck (exp_a E it x).

  Lemma sign_stuck x : stuck (sign E x).
  Proof. apply stuck_here, NP. Qed.
  Lemma modulus_stuck x : stuck (modulus E x).
  Proof. apply stuck_here, sign_stuck. Qed.
  Lemma relu_stuck x : stuck (relu E x).
  Proof. apply stuck_here, NP. Qed.
  Lemma hardtanh_stuck lo hi x : stuck (hardtanh E lo hi x).
  Proof. apply stuck_later. intros a. apply stuck_here, relu_stuck. Qed.
  Lemma log_stuck it ei x : stuck (log_a E it ei x).
  Proof. do 4 (apply stuck_later; intros ?). apply stuck_here, NX. Qed.
  Lemma reciprocal_stuck m n x : stuck (reciprocal E m n x).
  Proof. destruct m; [apply stuck_here, modulus_stuck|apply stuck_here, modulus_stuck|apply stuck_err]. Qed.
  Lemma tanh_cheb_stuck cs x : stuck (tanh_cheb E cs x).
  Proof. do 3 (apply stuck_later; intros ?). apply hardtanh_stuck. Qed.
  Lemma sigmoid_stuck m cs x : m <> SMaclaurin -> stuck (sigmoid E m cs x).
  Proof.
    destruct m; intros H; try congruence.
    - apply stuck_here, sign_stuck.
    - apply stuck_later. intros a. apply stuck_here, tanh_cheb_stuck.
    - apply stuck_here, sign_stuck.
    - apply stuck_err.
  Qed.
  Lemma tanh_stuck m cs x : stuck (tanh_a E m cs x).
  Proof.
    destruct m.
    - apply stuck_later. intros a. apply stuck_here, sigmoid_stuck. discriminate.
    - apply tanh_cheb_stuck.
    - apply stuck_err.
  Qed.
  Lemma sort_stuck sh l asc : (2 <= length l)%nat -> stuck (sort E sh l asc).
  Proof.
    intros H. unfold sort. destruct (forallb _ l); [|apply stuck_err]. apply stuck_here.
    destruct l as [|a [|b l]]; cbn [length] in *; try lia.
    replace (S (S (length l)) - 1)%nat with (S (length l)) by lia. cbn [bubbles bubble].
    apply stuck_here, stuck_here, stuck_here, NR.
  Qed.
  Lemma max_stuck xs d : length xs <> 1%nat -> stuck (line_max E xs d).
  Proof.
    intros H. unfold line_max. destruct xs as [|a [|b xs]]; [|cbn in H; congruence|].
    - cbn [seq length cmap]. intros w. exists RuntimeError, w. reflexivity.
    - apply stuck_here. cbn [length seq cmap]. apply stuck_here. unfold one_hot_at.
      apply stuck_here. cbn [length]. replace (S (S (length xs)) - 1)%nat with (S (length xs)) by lia.
      cbn [seq cmap]. apply stuck_here, stuck_later. intros y. apply NP.
  Qed.
  Lemma softmax_stuck z xs : length xs <> 1%nat -> stuck (softmax E z xs).
  Proof.
    intros H. destruct xs as [|a [|b xs]]; [|cbn in H; congruence|]; cbn [softmax]; apply stuck_here, max_stuck; auto.
  Qed.
  Lemma log_softmax_stuck z xs : length xs <> 1%nat -> stuck (log_softmax E z xs).
  Proof.
    intros H. destruct xs as [|a [|b xs]]; [|cbn in H; congruence|]; cbn [log_softmax]; apply stuck_here, max_stuck; auto.
  Qed.
End Mute.

Section Rep.
  Context (pr : rprot) (s : rsess) (u : rep_supply).
  Notation E := (rep_engine pr s u).

  Lemma rlift_stuck {A} (r : result A) : (forall a, r <> Ok a) -> stuck (rlift r).
  Proof. intros H w. destruct r as [a|e]; [exfalso; apply (H a); reflexivity|]. exists e, w. reflexivity. Qed.
  Lemma rel_never r x y rnd z : rm_rel pr s r x y rnd <> Ok z.
  Proof.
    unfold rm_rel. destruct (rm_convert pr s y rnd) as [y'|e]; [|discriminate]. cbn [rbind].
    destruct r; try discriminate. destruct (rm_lin_public _ _ _ _); discriminate.
  Qed.
  Lemma rep_rel_stuck r x y : stuck (e_rel E r x y).
  Proof. apply rlift_stuck. intros a. apply rel_never. Qed.
  Lemma rep_relp_stuck r x c : stuck (e_relp E r x c).
  Proof. apply stuck_later. intros k. apply rlift_stuck. intros a. apply rel_never. Qed.

  Lemma rep_mul_stuck x y : rs_n s <> 3%nat -> stuck (rep_mul s u x y).
  Proof.
    intros H. apply stuck_later. intros k. apply rlift_stuck. intros a. unfold rm_bil.
    destruct (negb (Nat.eqb (rm_sid x) (rm_sid y))); [discriminate|]. cbn [opname_of].
    destruct (Nat.eqb_spec (rs_n s) 3); [contradiction|]. discriminate.
  Qed.
  Lemma rep_pow_stuck p : rs_n s <> 3%nat -> forall base acc, stuck (rep_pow s u p base acc).
  Proof.
    intros H. destruct p; intros base acc; cbn [rep_pow].
    - apply stuck_later. intros r. apply stuck_here, rep_mul_stuck. exact H.
    - apply stuck_here, rep_mul_stuck. exact H.
    - apply stuck_later. intros r. apply stuck_here, rep_mul_stuck. exact H.
  Qed.
  Lemma rep_exp_stuck it x : stuck (exp_a E it x).
  Proof.
    unfold exp_a. destruct (Nat.eqb_spec (rs_n s) 2) as [H|H].
    - apply stuck_later. intros q. apply stuck_later. intros q'. apply rep_pow_stuck. rewrite H. discriminate.
    - apply stuck_here. apply rlift_stuck. intros a. unfold rm_truediv.
      destruct (Nat.eqb_spec (rs_n s) 2); [contradiction|]. discriminate.
  Qed.
  Lemma rep_div_stuck x y : stuck (rep_div pr s u x y).
  Proof.
    unfold rep_div. destruct (Nat.ltb 2 (rs_n s)); [apply stuck_err|].
    apply stuck_here, reciprocal_stuck, rep_relp_stuck.
  Qed.
End Rep.

Lemma rm_secret_ok s p rnd : (2 <= rs_n s)%nat -> rs_ring s = 2^64 -> pub_ok p ->
  draws R64 (rs_n s) (pub_shape p) rnd ->
  exists x, rm_secret PFalcon s p rnd = Ok x /\ rm_sid x = rs_id s /\ rm_shape x = pub_shape p /\
    replicated (2^64) (pub_shape p) (encode (rs_cfg s) (pub_vals p)) (map r_shares (rm_ps x)) /\
    rm_reconstruct s x = Ok (mkT (pub_shape p) (encode (rs_cfg s) (pub_vals p))).
Proof.
  intros Hn Hr Hp Hd. unfold rm_secret. destruct (Nat.eqb_spec (rs_n s) 0); [lia|].
  destruct (share_init_in (rs_cfg s) p Hp) as [HI EI]. rewrite EI in *. cbn [tsh].
  destruct (gen_shares (rs_n s) _ _ rnd Hn HI Hd) as (ss & E & L & S). rewrite E. cbn [rbind].
  destruct (distribute_reconstruct s ss (2^64) (rs_cfg s) _ _ (rs_mal s) ltac:(repeat ((left; reflexivity) || right)) L Hn S) as (ps & ED & R & RR).
  replace (rst_distribute s ss None None) with (rst_distribute s ss (Some (2^64)) (Some (rs_cfg s))).
  2:{ unfold rst_distribute. rewrite Hr. reflexivity. }
  rewrite ED. cbn [rbind received]. eexists. split; [reflexivity|]. cbn [rm_sid rm_shape rm_ps]. auto.
Qed.
