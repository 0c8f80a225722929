(** Softmax with the default encoder, one position of the tensors at a time. *)
From Coq Require Import QArith Reals Qreals Lra String.
From Verif Require Import Util Modular S_Ring S_Tensor S_Wraps S_Div S_Bil S_Spdz S_Circuit S_Fss S_Sort S_Real S_Fixed S_Softmax
  M_Torch M_Encoder M_Tensor M_Share M_Spdz M_Store M_Fss M_Engine M_Approx M_Softmax
  L_Torch L_Tensor L_Share L_Engine L_Real L_Sigmoid L_Softmax L_Fixed L_Fixed2 L_FixedR L_FixedN L_Fixed3 L_FixedExp L_FixedSort.
From Verif Require Import S_Softmax.
Local Open Scope Z_scope.
Local Open Scope list_scope.

Lemma f_cmap {K A B} (f0 : A -> comp (mpcw (K:=K)) B) (f : A -> comp (notedw (K:=K)) B) (l : list A) (W : B -> Prop) (P : A -> B -> Prop) :
  (forall a, In a l -> frun (f0 a) (f a) W (P a)) ->
  frun (cmap f0 l) (cmap f l) (fun bs => Forall W bs /\ length bs = length l) (Forall2 P l).
Proof.
  induction l as [|a l IH]; intros H; cbn [cmap]; [apply f_ret; [split; constructor|constructor]|].
  eapply f_bind; [apply H; now left|]. intros b WB. eapply f_bind; [apply IH; intros; apply H; now right|]. intros bs [WBS LB].
  apply f_ret; [split; [constructor; auto|cbn; lia]|]. intros. constructor; auto.
Qed.

Open Scope R_scope.
Lemma Forall2_in_l {A B} (P : A -> B -> Prop) l k a : Forall2 P l k -> In a l -> exists b, In b k /\ P a b.
Proof. induction 1 as [|x y l k H F IH]; intros []; [subst; exists y; cbn; auto|destruct IH as (b & Hb & Q); auto; exists b; cbn; auto]. Qed.
Lemma Forall2_in_r {A B} (P : A -> B -> Prop) l k b : Forall2 P l k -> In b k -> exists a, In a l /\ P a b.
Proof. induction 1 as [|x y l k H F IH]; intros []; [subst; exists x; cbn; auto|destruct IH as (a & Ha & Q); auto; exists a; cbn; auto]. Qed.
Lemma Forall2_len {A B} (P : A -> B -> Prop) l k : Forall2 P l k -> length l = length k.
Proof. induction 1; cbn; congruence. Qed.
Lemma Forall2_imp {A B} (P Q : A -> B -> Prop) l k : Forall2 P l k -> (forall a b, In a l -> In b k -> P a b -> Q a b) -> Forall2 Q l k.
Proof. induction 1 as [|x y l k H F IH]; intros HI; constructor; [apply HI; cbn; auto|]. apply IH. intros. apply HI; cbn; auto. Qed.
Lemma Forall2_comp {A B C} (P : A -> B -> Prop) (Q : B -> C -> Prop) l k j : Forall2 P l k -> Forall2 Q k j -> Forall2 (fun a c => exists b, In b k /\ P a b /\ Q b c) l j.
Proof.
  intros F. revert j. induction F as [|x y l k H F IH]; intros j G; inversion G; subst; constructor.
  - exists y. cbn. auto.
  - eapply Forall2_imp; [apply IH; eauto|]. intros a c _ _ (b & Hb & P1 & P2). exists b. cbn. auto.
Qed.
Lemma Forall2_maps {A B C D} (f : A -> C) (g : B -> D) (P : C -> D -> Prop) l k : Forall2 (fun a b => P (f a) (g b)) l k <-> Forall2 P (map f l) (map g k).
Proof.
  split.
  - induction 1; constructor; auto.
  - revert k. induction l as [|a l IH]; intros [|b k] H; inversion H; subst; constructor; auto.
Qed.

Lemma sum_close {A} (f g : A -> R) l k : Forall2 (fun a b => Rabs (b - f a) <= g a) l k -> Rabs (rsum k - rsum (map f l)) <= rsum (map g l).
Proof.
  induction 1 as [|x y l k H F IH]; cbn [map rsum fold_right]; [rewrite Rminus_0_r, Rabs_R0; lra|].
  fold (rsum k) (rsum (map f l)) (rsum (map g l)). replace (y + rsum k - (f x + rsum (map f l))) with ((y - f x) + (rsum k - rsum (map f l))) by ring.
  eapply Rle_trans; [apply Rabs_triang|]. lra.
Qed.
Lemma rsum_plus {A} (f g : A -> R) l : rsum (map (fun a => f a + g a) l) = rsum (map f l) + rsum (map g l).
Proof. unfold rsum. induction l as [|a l IH]; cbn [map fold_right]; [lra|]. rewrite IH. lra. Qed.
Lemma rsum_bound l B : (forall y, In y l -> Rabs y <= B) -> Rabs (rsum l) <= INR (length l) * B.
Proof.
  induction l as [|a l IH]; intros H; cbn [rsum fold_right length]; [cbn; rewrite Rabs_R0; lra|]. fold (rsum l). rewrite S_INR.
  eapply Rle_trans; [apply Rabs_triang|]. pose proof (H a (or_introl eq_refl)). assert (Rabs (rsum l) <= INR (length l) * B) by (apply IH; intros; apply H; now right). lra.
Qed.
Lemma rsum_low l c y : c <= 0 -> (forall x, In x l -> c <= x) -> In y l -> y + INR (length l) * c <= rsum l.
Proof.
  intros Hc. assert (G : forall l, (forall x, In x l -> c <= x) -> INR (length l) * c <= rsum l).
  { induction l0 as [|a l0 IH]; intros H; cbn [rsum fold_right length]; [cbn; lra|]. fold (rsum l0). rewrite S_INR.
    pose proof (H a (or_introl eq_refl)). assert (INR (length l0) * c <= rsum l0) by (apply IH; intros; apply H; now right). lra. }
  induction l as [|a l IH]; intros H HI; [destruct HI|]. cbn [rsum fold_right length]. fold (rsum l). rewrite S_INR. destruct HI as [->|HI].
  - assert (INR (length l) * c <= rsum l) by (apply G; intros; apply H; now right). lra.
  - assert (y + INR (length l) * c <= rsum l) by (apply IH; auto; intros; apply H; now right). pose proof (H a (or_introl eq_refl)). lra.
Qed.

(** the real numbers of a softmax with errors: [ls] the entries minus the (nearly) largest one,
    [ys] their exponentials, [r] the reciprocal of the sum, [ps] the products *)
Lemma exp_near0 t : Rabs t <= 48 * U -> 999 / 1000 <= exp t <= 1001 / 1000.
Proof.
  intros H. apply abs_in in H. pose proof (exp_ineq1_le t) as A. pose proof (exp_ineq1_le (- t)) as B. rewrite exp_Ropp in B. pose proof (exp_pos t) as P.
  split; [lra|]. assert (C : (1 - 48 * U) * exp t <= 1).
  { apply Rle_trans with (/ exp t * exp t); [apply Rmult_le_compat_r; lra|]. rewrite Rinv_l; lra. }
  assert ((1 - 48 * U) * (1001 / 1000) >= 1) by lra. nra.
Qed.
Lemma limexp_soft l : -499 <= l <= 48 * U -> 0 <= limexp 8 l <= 1001 / 1000 /\ exp l <= 1001 / 1000 /\ Rabs (limexp 8 l - exp l) <= 24 / 10000.
Proof.
  intros H. destruct (Rle_dec l 0) as [N|N].
  - pose proof (limexp_close (- l) ltac:(lra)) as Q. rewrite Ropp_involutive in Q. destruct Q as [A B]. repeat split; try lra.
    pose proof (exp_ineq1_le (- l)) as C. rewrite exp_Ropp in C. pose proof (exp_pos l) as P.
    assert (1 * exp l <= 1) by (apply Rle_trans with (/ exp l * exp l); [apply Rmult_le_compat_r; lra|rewrite Rinv_l; lra]). lra.
  - pose proof (exp_near0 l ltac:(apply Rabs_le; lra)) as E. destruct (exp_below 8 l ltac:(lra)) as [A B].
    assert (C : 1 <= limexp 8 l) by (rewrite limexp8; apply pow_R1_Rle; lra).
    split; [lra|]. split; [lra|]. apply Rabs_le. lra.
Qed.
Lemma limexp_near0 l : Rabs l <= 48 * U -> 999 / 1000 <= limexp 8 l.
Proof.
  intros H. apply abs_in in H. unfold limexp. pose proof (bernoulli (2 ^ 8) (l / 2 ^ 8)) as B.
  replace (INR (2 ^ 8)) with 256 in B by (rewrite pow_INR; cbn [INR]; lra). lra.
Qed.

Lemma soft_real (ls ys ps : list R) r : 2 <= INR (length ls) <= 48 ->
  (forall l, In l ls -> -499 <= l <= 48 * U) -> (exists l, In l ls /\ Rabs l <= 48 * U) ->
  Forall2 (fun l y => Rabs (y - limexp 8 l) <= 1016 * U * limexp 8 l + 20 * U /\ - (3 * U) <= y) ls ys ->
  (1 / 2 <= Rabs (rsum ys) <= 50 -> Rabs (r - 1 / rsum ys) <= 1 / 400) ->
  Forall2 (fun y p => Rabs (y * r) < 2147483648 -> Rabs (p - y * r) <= 2 * U) ys ps ->
  Forall2 (fun l p => Rabs (p - exp l / rsum (map exp ls)) <= 1 / 25 + 3 * INR (length ls) / 1000 /\ - (6 * U) <= p) ls ps /\
  Rabs (rsum ps - 1) <= INR (length ls) / 380.
Proof.
  intros Hn HL (l0 & I0 & A0) HY HR HP. set (n := INR (length ls)) in *.
  assert (LY : length ys = length ls) by (symmetry; eapply Forall2_len; eauto).
  assert (LP : length ps = length ys) by (symmetry; eapply Forall2_len; eauto).
  assert (Y1 : forall y, In y ys -> - (3 * U) <= y <= 10184 / 10000).
  { intros y Hy. destruct (Forall2_in_r _ _ _ _ HY Hy) as (l & Il & B1 & B2). destruct (limexp_soft l (HL l Il)) as (L1 & _). apply abs_in in B1. lra. }
  assert (Y0 : exists y, In y ys /\ 983 / 1000 <= y).
  { destruct (Forall2_in_l _ _ _ _ HY I0) as (y & Iy & B1 & _). exists y. split; [exact Iy|]. pose proof (limexp_near0 l0 A0) as L0.
    destruct (limexp_soft l0 (HL l0 I0)) as (L1 & _). apply abs_in in B1. lra. }
  set (d := rsum ys) in *.
  assert (D1 : 98 / 100 <= d).
  { destruct Y0 as (y & Iy & By). pose proof (rsum_low ys (- (3 * U)) y ltac:(lra) (fun x Hx => proj1 (Y1 x Hx)) Iy) as Q. rewrite LY in Q. fold n d in Q. lra. }
  assert (D2 : d <= n * (10184 / 10000)).
  { pose proof (rsum_bound ys (10184 / 10000)) as Q. rewrite LY in Q. fold n d in Q. apply abs_in in Q; [lra|].
    intros y Hy. specialize (Y1 y Hy). apply Rabs_le. lra. }
  assert (R1 : Rabs (r - 1 / d) <= 1 / 400) by (apply HR; rewrite Rabs_right; lra). clear HR. pose proof (abs_in _ _ R1) as R1'.
  assert (ID : 1 / 50 <= 1 / d <= 1021 / 1000).
  { unfold Rdiv. rewrite !Rmult_1_l. split; [apply Rinv_le_contravar; lra|]. apply Rle_trans with (/ (98 / 100)); [apply Rinv_le_contravar; lra|lra]. }
  assert (R2 : 0 <= r <= 1024 / 1000) by lra.
  assert (P1 : Forall2 (fun y p => Rabs (p - y * r) <= 2 * U) ys ps).
  { eapply Forall2_imp; [exact HP|]. intros y p Iy _ H. apply H. specialize (Y1 y Iy). apply Rabs_def1; nra. }
  clear HP.
  (* the sum of the exponentials *)
  set (D := rsum (map exp ls)) in *.
  set (rho := 155036 / 10000000). set (beta := 28 / 10000).
  assert (YE : Forall2 (fun l y => Rabs (y - exp l) <= rho * exp l + beta) ls ys).
  { eapply Forall2_imp; [exact HY|]. intros l y Il _ [B1 _]. destruct (limexp_soft l (HL l Il)) as (L1 & _ & L2). pose proof (exp_pos l) as EP.
    apply abs_in in B1, L2. unfold rho, beta. apply Rabs_le. lra. }
  assert (DD : Rabs (d - D) <= rho * D + n * beta).
  { pose proof (sum_close exp (fun l => rho * exp l + beta) ls ys YE) as Q. fold d D in Q. rewrite rsum_plus, rsum_const in Q. fold n in Q.
    rewrite <- (map_map exp (fun e => rho * e)) in Q.
    assert (E : rsum (map (fun e => rho * e) (map exp ls)) = rho * D).
    { unfold D. rewrite <- (Rmult_comm _ rho), <- rsum_scale. f_equal. apply map_ext. intros; ring. }
    rewrite E in Q. exact Q. }
  assert (DL : forall l, In l ls -> exp l <= D).
  { intros l Il. unfold D. apply rsum_ge; [|apply in_map; exact Il]. intros y Hy. apply in_map_iff in Hy. destruct Hy as (x & <- & _). left. apply exp_pos. }
  assert (D0 : 0 < D) by (eapply Rlt_le_trans; [apply exp_pos|apply (DL l0 I0)]).
  split.
  - pose proof (Forall2_comp _ _ _ _ _ YE P1) as C. eapply Forall2_imp; [exact C|]. intros l p Il _ (y & Iy & B1 & B2).
    specialize (Y1 y Iy). pose proof (DL l Il) as EL. destruct (limexp_soft l (HL l Il)) as (_ & E1 & _). pose proof (exp_pos l) as EP.
    set (x := exp l) in *. clearbody x. split; [|apply abs_in in B2; nra].
    replace (p - x / D) with ((p - y * r) + y * (r - 1 / d) + ((y - x) * (1 / d) + (x / D) * ((D - d) * (1 / d)))) by (field; lra).
    assert (T1 : Rabs (y * (r - 1 / d)) <= 10184 / 10000 * (1 / 400)).
    { rewrite Rabs_mult. apply Rmult_le_compat; auto using Rabs_pos. apply Rabs_le. lra. }
    assert (T2 : Rabs ((y - x) * (1 / d)) <= (rho * (1001 / 1000) + beta) * (1021 / 1000)).
    { rewrite Rabs_mult. apply Rmult_le_compat; auto using Rabs_pos; [|apply Rabs_le; lra]. eapply Rle_trans; [exact B1|]. unfold rho, beta. lra. }
    assert (T3 : Rabs ((x / D) * ((D - d) * (1 / d))) <= (rho * (1001 / 1000) + n * beta) * (1021 / 1000)).
    { rewrite <- Rmult_assoc, Rabs_mult. apply Rmult_le_compat; auto using Rabs_pos; [|apply Rabs_le; lra].
      rewrite Rabs_mult, <- (Rabs_Ropp (D - d)), Ropp_minus_distr.
      assert (X : 0 <= x / D <= 1).
      { split; [apply Rmult_le_pos; [lra|left; apply Rinv_0_lt_compat; lra]|]. apply (Rmult_le_reg_r D); auto. unfold Rdiv. rewrite Rmult_assoc, Rinv_l by lra. lra. }
      rewrite (Rabs_right (x / D)) by lra. apply Rle_trans with (x / D * (rho * D + n * beta)); [apply Rmult_le_compat_l; lra|].
      replace (x / D * (rho * D + n * beta)) with (rho * x + x / D * (n * beta)) by (field; lra).
      assert (x / D * (n * beta) <= 1 * (n * beta)) by (apply Rmult_le_compat_r; [unfold beta; lra|lra]). unfold rho in *. lra. }
    eapply Rle_trans; [apply Rabs_triang|]. assert (T4 : Rabs ((p - y * r) + y * (r - 1 / d)) <= 2 * U + 10184 / 10000 * (1 / 400)).
    { eapply Rle_trans; [apply Rabs_triang|]. lra. }
    assert (T5 : Rabs ((y - x) * (1 / d) + (x / D) * ((D - d) * (1 / d))) <= (rho * (1001 / 1000) + beta) * (1021 / 1000) + (rho * (1001 / 1000) + n * beta) * (1021 / 1000)).
    { eapply Rle_trans; [apply Rabs_triang|]. lra. }
    unfold rho, beta in *. lra.
  - pose proof (sum_close (fun y => y * r) (fun _ => 2 * U) ys ps P1) as Q. rewrite rsum_scale, rsum_const, LY in Q. fold n d in Q.
    replace (rsum ps - 1) with ((rsum ps - d * r) + d * (r - 1 / d)) by (field; lra).
    eapply Rle_trans; [apply Rabs_triang|]. rewrite (Rabs_mult d), (Rabs_right d) by lra.
    assert (d * Rabs (r - 1 / d) <= n * (10184 / 10000) * (1 / 400)) by (apply Rmult_le_compat; auto using Rabs_pos; lra). lra.
Qed.
Close Scope R_scope.

Section Soft.
  Context {K : Type} (alpha : K -> Z) (ev : fop -> Z -> Z -> K -> Z)
          (gen : fop -> nat -> nat -> result (list (list K))) (s : sess) (su : tri_supply) (sh : list nat) (e : nat).
  Hypothesis HG : good_gen (fun o k0 k1 => keys_ok alpha ev o k0 k1 /\ no_carry ev o k0) gen.
  Hypothesis Hn : s_n s = 2%nat.
  Hypothesis Hc : s_cfg s = mkConfig 2 16.
  Hypothesis Hsh : sh <> [].
  Hypothesis HT : forall k, valid_triples sh sh sh (mul_val sh sh sh) 2 (su_tri su k sh sh).
  Hypothesis HR : forall k, draws (2^64) 2 [1%nat] (su_rnd su k).
  Hypothesis He : (e < numel sh)%nat.
  Notation ME := (mpc_engine alpha ev gen s su).
  Notation NE := (noted_engine alpha ev gen s su).
  Notation dec := (dec s e).
  Notation enc := (enc s).
  Notation sharing := (sharing s sh).
  Open Scope R_scope.

  Lemma exp_soft x : sharing x ->
    frun (exp_a ME 8 x) (exp_a NE 8 x) sharing
      (fun z => -512 <= dec x <= 1 / 100 -> Rabs (dec z - limexp 8 (dec x)) <= 1016 * U * limexp 8 (dec x) + 20 * U /\ - (3 * U) <= dec z).
  Proof.
    clear HR HG. intros SX. eapply f_weaken; [apply (exp_f alpha ev gen s su sh e Hn Hc Hsh HT He x SX)|]. intros z _ H HX. destruct H as (b & B0 & B1 & B2); [lra|].
    pose proof (exp_chain b _ HX B0 B1) as C. pose proof (exp_chain_mixed b _ HX B0 B1) as C2. destruct (exp_chain_low b _ HX B0 B1) as [L1 _].
    assert (T : Rabs (limexp 8 (dec x)) <= 2).
    { destruct (Rle_dec (-256) (dec x)) as [Q|Q].
      - pose proof (exp_below 8 (dec x) ltac:(lra)) as [E1 E2]. rewrite Rabs_right by lra.
        pose proof (exp_ineq1_le (- dec x)) as E3. rewrite exp_Ropp in E3. pose proof (exp_pos (dec x)) as E4.
        assert (99 / 100 * exp (dec x) <= 1).
        { apply Rle_trans with (/ exp (dec x) * exp (dec x)); [apply Rmult_le_compat_r; lra|]. rewrite Rinv_l; lra. }
        lra.
      - rewrite limexp8. rewrite <- RPow_abs. apply Rle_trans with (1 ^ (2 ^ 8)).
        + apply pow_incr. split; [apply Rabs_pos|]. apply Rabs_le. lra.
        + rewrite pow1. lra. }
    apply abs_in in C, T, C2. assert (B8 : Rabs (b 8%nat) < 2147483648) by (apply Rabs_def1; lra).
    specialize (B2 B8). apply abs_in in B2. split; [apply Rabs_le; lra|lra].
  Qed.

  Lemma f_csum xs : xs <> [] -> Forall sharing xs ->
    frun (csum ME xs) (csum NE xs) sharing
      (fun z => forall B, (forall x, In x xs -> Rabs (dec x) <= B) -> INR (length xs) * B <= 1000000 -> dec z = rsum (map dec xs)).
  Proof.
    clear HR HG HT. pose proof (base1 s Hc) as Hb. induction xs as [|x xs IH]; intros HN HS; [congruence|]. inversion HS as [|? ? SX SXS]; subst.
    destruct xs as [|y xs].
    - cbn [csum]. apply f_ret; auto. intros B _ _. cbn. lra.
    - change (csum ME (x :: y :: xs)) with (let! t := csum ME (y :: xs) in e_lin ME LAdd x t).
      change (csum NE (x :: y :: xs)) with (let! t := csum NE (y :: xs) in e_lin NE LAdd x t).
      eapply f_bind; [apply IH; [discriminate|exact SXS]|]. intros t ST.
      eapply f_weaken; [apply (f_lin alpha ev gen s su sh e Hb He LAdd x t SX ST)|]. intros z _ EZ ET B HB HL. cbn [lin_R] in EZ.
      assert (B0 : 0 <= B) by (eapply Rle_trans; [apply Rabs_pos|apply (HB x); now left]).
      assert (L : INR (length (x :: y :: xs)) = INR (length (y :: xs)) + 1) by (rewrite <- S_INR; reflexivity).
      rewrite L in HL.
      rewrite (ET B) in EZ by (try (intros; apply HB; now right); lra).
      assert (Q : Rabs (rsum (map dec (y :: xs))) <= INR (length (map dec (y :: xs))) * B).
      { apply rsum_bound. intros v Hv. apply in_map_iff in Hv. destruct Hv as (q & <- & Iq). apply HB. now right. }
      rewrite map_length in Q. pose proof (HB x (or_introl eq_refl)) as BX.
      change (rsum (map dec (x :: y :: xs))) with (dec x + rsum (map dec (y :: xs))). apply EZ. apply (small1 s Hc _ 1000000); [|lra].
      eapply Rle_trans; [apply Rabs_triang|]. lra.
  Qed.

  Lemma INR_len (n : nat) B : (n <= 48)%nat -> 0 <= B -> INR n * B <= 48 * B.
  Proof. clear. intros H HB. apply Rmult_le_compat_r; auto. replace 48 with (INR 48) by (rewrite INR_IZR_INZ; reflexivity). apply le_INR. exact H. Qed.

  (** one entry of the one-hot result *)
  Lemma one_hot_f xs d i : (2 <= length xs <= 48)%nat -> (i < length xs)%nat -> Forall sharing xs ->
    frun (one_hot_at ME xs d i) (one_hot_at NE xs d i) sharing
      (fun z => (forall x, In x xs -> Rabs (dec x) <= 249) -> dec z = if largest_dec (map dec xs) (dec (nth i xs d)) then 1 else 0).
  Proof.
    clear HT. pose proof (base1 s Hc) as Hb. intros HN Hi HS. unfold one_hot_at. set (n := length xs) in *.
    assert (IN : forall j, (j < n)%nat -> sharing (nth j xs d)) by (intros j Hj; rewrite Forall_forall in HS; apply HS, nth_In; exact Hj).
    assert (MD : forall k, ((i + n - k) mod n < n)%nat) by (intros; apply Nat.mod_upper_bound; lia).
    set (g := fun k => rel_R RGe (dec (nth i xs d) - dec (nth ((i + n - k) mod n) xs d)) 0).
    eapply f_bind with (P := fun cs => (forall x, In x xs -> Rabs (dec x) <= 249) -> Forall2 (fun k c => dec c = g k) (seq 1 (n - 1)) cs).
    { eapply f_weaken; [apply f_cmap with (W := sharing) (P := fun k c => (forall x, In x xs -> Rabs (dec x) <= 249) -> dec c = g k)|].
      - intros k _. eapply f_bind; [apply (f_lin alpha ev gen s su sh e Hb He LSub); apply IN; auto|]. intros y SY.
        eapply f_weaken; [apply (f_relp alpha ev gen s su sh e HG Hn Hb Hsh HR He Rge y (NInt 0)); [discriminate|rewrite (S_val s Hc); lra|exact SY]|].
        intros z _ EZ EY HB. cbn [lin_R rop_of] in *. rewrite (enc_k s Hc 0) in EZ by (rewrite Rabs_R0; lra).
        pose proof (HB _ (nth_In xs d Hi)) as B1. pose proof (HB _ (nth_In xs d (MD k))) as B2. apply abs_in in B1, B2.
        rewrite EY in EZ by (apply (small1 s Hc _ 1000); [apply Rabs_le; lra|lra]).
        apply EZ. rewrite (S_val s Hc), Rminus_0_r. eapply Rle_lt_trans; [apply Rmult_le_compat_r; [lra|apply Rabs_le with (b := 1000); lra]|lra].
      - intros cs _ F HB. eapply Forall2_imp; [exact F|]. auto. }
    intros cs [SC LC]. rewrite seq_length in LC.
    eapply f_bind; [apply f_csum; [intros ->; cbn in LC; lia|exact SC]|]. intros c SCC.
    eapply f_weaken; [apply (f_relp alpha ev gen s su sh e HG Hn Hb Hsh HR He Rge c); [discriminate|rewrite (S_val s Hc); lra|exact SCC]|].
    intros z _ EZ ESUM EC HB. cbn [rop_of] in EZ. specialize (EC HB).
    assert (G1 : forall k, 0 <= g k <= 1) by (intros k; unfold g, rel_R; destruct (Rle_dec _ _); lra).
    assert (B1 : forall x, In x cs -> Rabs (dec x) <= 1).
    { intros x Hx. destruct (Forall2_in_r _ _ _ _ EC Hx) as (k & _ & ->). specialize (G1 k). apply Rabs_le. lra. }
    assert (N48 : INR (n - 1) * 1 <= 48 * 1) by (apply INR_len; [lia|lra]).
    rewrite (ESUM 1 B1) in EZ by (rewrite LC; lra).
    assert (EG : map dec cs = map g (seq 1 (n - 1))).
    { clear - EC. induction EC; cbn [map]; congruence. }
    rewrite EG in EZ.
    assert (NN : IZR (Z.of_nat n - 1) = INR (n - 1)) by (rewrite minus_IZR, <- INR_IZR_INZ, minus_INR by lia; reflexivity).
    pose proof (pos_INR (n - 1)) as NP.
    rewrite (enc_k s Hc) in EZ by (rewrite NN, Rabs_right; lra).
    rewrite EZ.
    2:{ rewrite (S_val s Hc), NN. assert (Q : Rabs (rsum (map g (seq 1 (n - 1)))) <= INR (length (map g (seq 1 (n - 1)))) * 1).
        { apply rsum_bound. intros y Hy. apply in_map_iff in Hy. destruct Hy as (k & <- & _). specialize (G1 k). apply Rabs_le. lra. }
        rewrite map_length, seq_length in Q. apply abs_in in Q. eapply Rle_lt_trans; [apply Rmult_le_compat_r; [lra|apply Rabs_le with (b := 1000); lra]|lra]. }
    (* the same number over the reals *)
    pose proof (one_hot_R (map dec xs) (dec d) i) as O. rewrite !map_length in O. fold n in O. specialize (O ltac:(lia) Hi).
    assert (O2 : gives (one_hot_at RE (map dec xs) (dec d) i) (rel_R RGe (rsum (map g (seq 1 (n - 1)))) (IZR (Z.of_nat n - 1)))).
    { unfold one_hot_at. rewrite map_length. fold n. eapply gives_bind; [apply (gives_cmap _ g); intros k _; run; unfold g; rewrite !map_nth; reflexivity|].
      eapply gives_bind; [apply gives_csum|].
      - intros Q. apply map_eq_nil in Q. assert (L : length (seq 1 (n - 1)) = 0%nat) by (rewrite Q; reflexivity). rewrite seq_length in L. lia.
      - run. reflexivity. }
    unfold gives in O, O2. rewrite O in O2. injection O2 as O2. rewrite map_nth in O2. symmetry. exact O2.
  Qed.

  (** the maximum of a line: the sum of its largest entries, up to one unit each *)
  Lemma line_max_f xs d : (2 <= length xs <= 48)%nat -> Forall sharing xs ->
    frun (line_max ME xs d) (line_max NE xs d) sharing
      (fun z => (forall x, In x xs -> Rabs (dec x) <= 249) -> Rabs (dec z - sum_largest (map dec xs)) <= INR (length xs) * U).
  Proof.
    pose proof (base1 s Hc) as Hb. pose proof (u_val s Hc) as UV. intros HN HS. unfold line_max. set (n := length xs) in *.
    set (f := fun x : R => if largest_dec (map dec xs) x then 1 else 0).
    eapply f_bind; [apply f_cmap with (P := fun i h => (forall x, In x xs -> Rabs (dec x) <= 249) -> dec h = f (dec (nth i xs d)))|].
    { intros i Hi. apply in_seq in Hi. apply one_hot_f; auto. lia. }
    intros hs [SHS LH]. rewrite seq_length in LH.
    eapply f_bind; [apply f_cmap with (W := sharing) (P := fun p m => (forall k, dec (fst p) = IZR k -> Rabs (dec (fst p) * dec (snd p)) < 2147483648 -> Rabs (dec m - dec (fst p) * dec (snd p)) <= U))|].
    { intros [h x] HI. cbn [fst snd]. assert (SH : sharing h) by (rewrite Forall_forall in SHS; apply SHS; eapply in_combine_l; eauto).
      assert (SX : sharing x) by (rewrite Forall_forall in HS; apply HS; eapply in_combine_r; eauto).
      eapply f_weaken; [apply (f_mul alpha ev gen s su sh e Hn Hb HT He h x SH SX)|]. intros z _ EZ k HK HB. rewrite UV in EZ.
      destruct EZ as [_ EZ]; [apply (small2 s Hc); exact HB|]. apply (EZ k). left. exact HK. }
    intros ms [SM LM]. rewrite combine_length, LH in LM. fold n in LM. rewrite Nat.min_id in LM.
    eapply f_weaken; [apply f_csum; [intros ->; cbn in LM; lia|exact SM]|]. intros z _ EZ EM EH HB.
    assert (EH' : map dec hs = map (fun x => f (dec x)) xs).
    { rewrite <- (map_nth_seq (fun x => f (dec x)) xs d). fold n. clear - EH HB. induction EH; cbn [map]; [reflexivity|]. f_equal; auto. }
    assert (EC : map (fun p => (dec (fst p), dec (snd p))) (combine hs xs) = map (fun x => (f (dec x), dec x)) xs).
    { clearbody f. clear - EH'. revert hs EH'. induction xs as [|x l IH]; intros [|h hs] Q; cbn [map combine] in *; try discriminate; auto.
      injection Q as Q1 Q2. cbn [fst snd]. rewrite Q1. f_equal. apply IH. exact Q2. }
    assert (F1 : forall x, f x = 0 \/ f x = 1) by (intros x; unfold f; destruct (largest_dec _ _); auto).
    assert (CM : Forall2 (fun x m => Rabs (dec m - f (dec x) * dec x) <= U) xs ms).
    { apply (Forall2_maps (fun x => (f (dec x), dec x)) (fun m : mpc => m) (fun a m => Rabs (dec m - fst a * snd a) <= U)). rewrite <- EC.
      apply Forall2_maps. cbn [fst snd]. eapply Forall2_imp; [exact EM|]. intros [h x] m HI _ Q. cbn [fst snd] in *.
      assert (HD : dec h = 0 \/ dec h = 1).
      { assert (In (dec h, dec x) (map (fun p => (dec (fst p), dec (snd p))) (combine hs xs))) by (apply in_map_iff; exists (h, x); auto).
        rewrite EC in H. apply in_map_iff in H. destruct H as (y & Ey & _). injection Ey as Ey _. rewrite <- Ey. apply F1. }
      pose proof (HB x (in_combine_r _ _ _ _ HI)) as BX. apply abs_in in BX.
      apply (Q (if Req_EM_T (dec h) 0 then 0 else 1)%Z); [destruct (Req_EM_T (dec h) 0); destruct HD; lra|].
      apply Rabs_def1; destruct HD as [-> | ->]; lra. }
    assert (BM : forall m, In m ms -> Rabs (dec m) <= 250).
    { intros m Hm. destruct (Forall2_in_r _ _ _ _ CM Hm) as (x & Ix & Q). specialize (HB x Ix). apply abs_in in HB, Q. apply Rabs_le.
      destruct (F1 (dec x)) as [E1|E1]; rewrite E1 in Q; lra. }
    assert (N250 : INR n * 250 <= 48 * 250) by (apply INR_len; [lia|lra]).
    rewrite (EZ 250 BM) by (rewrite LM; lra).
    assert (CM' : Forall2 (fun x m => Rabs (m - f (dec x) * dec x) <= U) xs (map dec ms)).
    { rewrite <- (map_id xs). apply (Forall2_maps (fun x : mpc => x) dec (fun x m => Rabs (m - f (dec x) * dec x) <= U)). exact CM. }
    pose proof (sum_close (fun x => f (dec x) * dec x) (fun _ => U) xs (map dec ms) CM') as Q. rewrite rsum_const in Q.
    replace (sum_largest (map dec xs)) with (rsum (map (fun x => f (dec x) * dec x) xs)); [exact Q|].
    unfold sum_largest. rewrite map_map. f_equal. apply map_ext. intros x. unfold f. destruct (largest_dec _ _); lra.
  Qed.

  Lemma sum_largest_one xs m : In m xs -> largest xs m -> count_occ Req_EM_T xs m = 1%nat -> sum_largest xs = m.
  Proof. clear. intros HI HL HU. rewrite (sum_largest_count xs m) by auto. rewrite HU. cbn [INR]. lra. Qed.
  Lemma exp_shifted xs m : rsum (map exp xs) = exp m * rsum (map exp (map (fun x => x - m) xs)).
  Proof.
    clear. unfold rsum. induction xs as [|a l IH]; cbn [map fold_right]; [lra|]. rewrite IH, Rmult_plus_distr_l, <- exp_plus. do 2 f_equal. lra.
  Qed.

  Lemma softmax_f z xs : (2 <= length xs <= 48)%nat -> Forall sharing xs ->
    frun (softmax ME z xs) (softmax NE z xs) (fun ps => Forall sharing ps /\ length ps = length xs)
      (fun ps => (forall x, In x xs -> Rabs (dec x) <= 249) ->
         (exists m, In m (map dec xs) /\ largest (map dec xs) m /\ count_occ Req_EM_T (map dec xs) m = 1%nat) ->
         Forall2 (fun x p => Rabs (dec p - softmax_at (map dec xs) (dec x)) <= 1 / 25 + 3 * INR (length xs) / 1000 /\ - (6 * U) <= dec p) xs ps /\
         Rabs (rsum (map dec ps) - 1) <= INR (length xs) / 380).
  Proof.
    pose proof (base1 s Hc) as Hb. pose proof (u_val s Hc) as UV. intros HN HS. set (n := length xs) in *.
    assert (E0 : forall W (E : engine W mpc), softmax E z xs = (let! m := line_max E xs z in let! ls := cmap (fun x => e_lin E LSub x m) xs in
        let! ys := cmap (exp_a E 8) ls in let! d := csum E ys in
        let! r := reciprocal E RNewton 10 d in cmap (fun y => e_mul E y r) ys)).
    { intros W E. destruct xs as [|a [|b l]]; cbn in n; try (unfold n in HN; lia). reflexivity. }
    rewrite !E0. clear E0.
    eapply f_bind; [apply line_max_f; auto|]. intros m SM.
    eapply f_bind; [apply f_cmap with (W := sharing) (P := fun x l => Rabs (dec x - dec m) <= 1000 -> dec l = dec x - dec m)|].
    { intros x Hx. eapply f_weaken; [apply (f_lin alpha ev gen s su sh e Hb He LSub); [rewrite Forall_forall in HS; auto|exact SM]|].
      intros l _ EL HB. apply EL. apply (small1 s Hc _ 1000 HB). lra. }
    intros ls [SL LL].
    eapply f_bind; [apply f_cmap with (W := sharing); intros l Hl; apply exp_soft; rewrite Forall_forall in SL; auto|]. intros ys [SY LY].
    eapply f_bind; [apply f_csum; [intros ->; cbn in LY; lia|exact SY]|]. intros d SD.
    eapply f_bind; [apply (reciprocal_f alpha ev gen s su sh e HG Hn Hc Hsh HT HR He d SD)|]. intros r SR.
    eapply f_weak; [|eapply f_weaken; [apply f_cmap with (W := sharing)|]].
    { intros ps [A B]. split; [exact A|]. lia. }
    { intros y Hy. apply (f_mul alpha ev gen s su sh e Hn Hb HT He y r); auto. rewrite Forall_forall in SY; auto. }
    intros ps _ EP ER ED EY EL EM HB (top & T1 & T2 & T3). fold n in LL. rewrite UV in *.
    specialize (EM HB). rewrite (sum_largest_one _ _ T1 T2 T3) in EM. fold n in EM.
    assert (N48 : 2 <= INR n <= 48).
    { replace 2 with (INR 2) by reflexivity. replace 48 with (INR 48) by (rewrite INR_IZR_INZ; reflexivity). split; apply le_INR; lia. }
    apply abs_in in EM. assert (BT : -249 <= top <= 249).
    { apply in_map_iff in T1. destruct T1 as (x & <- & Ix). apply abs_in. auto. }
    assert (EL' : map dec ls = map (fun x => x - dec m) (map dec xs)).
    { rewrite map_map. assert (EL2 : Forall2 (fun x l => dec l = dec x - dec m) xs ls).
      { eapply Forall2_imp; [exact EL|]. intros x l Ix _ Q. apply Q. specialize (HB x Ix). apply abs_in in HB. apply Rabs_le. lra. }
      clear - EL2. induction EL2; cbn [map]; congruence. }
    assert (RL : forall l, In l (map dec ls) -> -499 <= l <= 48 * U).
    { intros l Il. rewrite EL' in Il. apply in_map_iff in Il. destruct Il as (x & <- & Ix). specialize (T2 x Ix).
      apply in_map_iff in Ix. destruct Ix as (y & <- & Iy). specialize (HB y Iy). apply abs_in in HB. lra. }
    assert (LM : length (map dec ls) = n) by (rewrite map_length; exact LL).
    assert (YB : Forall2 (fun l y => Rabs (y - limexp 8 l) <= 1016 * U * limexp 8 l + 20 * U /\ - (3 * U) <= y) (map dec ls) (map dec ys)).
    { apply Forall2_maps. eapply Forall2_imp; [exact EY|]. intros l y Il _ Q. apply Q. pose proof (RL (dec l) (in_map dec _ _ Il)). lra. }
    assert (YM : forall y, In y ys -> Rabs (dec y) <= 2).
    { intros y Iy. destruct (Forall2_in_r _ _ _ _ YB (in_map dec _ _ Iy)) as (l & Il & Q & _). destruct (limexp_soft l (RL l Il)) as (L1 & _). apply abs_in in Q.
      apply Rabs_le. lra. }
    assert (DS : dec d = rsum (map dec ys)).
    { apply (ED 2 YM). rewrite LY, LL. lra. }
    destruct (soft_real (map dec ls) (map dec ys) (map dec ps) (dec r)) as [S1 S2]; rewrite ?LM; auto.
    { exists (top - dec m). split; [|apply Rabs_le; lra]. rewrite EL'. apply (in_map (fun x => x - dec m)). exact T1. }
    { intros Q. rewrite <- DS in *. apply ER. exact Q. }
    { apply Forall2_maps. eapply Forall2_imp; [exact EP|]. intros y p _ _ Q HQ. apply Q, (small2 s Hc), HQ. }
    rewrite LM in S1, S2. split; [|exact S2]. rewrite EL' in S1.
    rewrite (map_map dec (fun x => x - dec m)) in S1. apply (Forall2_maps (fun x => dec x - dec m) dec) in S1.
    eapply Forall2_imp; [exact S1|]. intros x p _ _ [Q1 Q2]. split; [|exact Q2].
    replace (softmax_at (map dec xs) (dec x)) with (exp (dec x - dec m) / rsum (map exp (map (fun x0 => dec x0 - dec m) xs))); [exact Q1|].
    unfold softmax_at. rewrite (exp_shifted (map dec xs) (dec m)), (map_map dec (fun x0 => x0 - dec m)). replace (exp (dec x)) with (exp (dec m) * exp (dec x - dec m)) by (rewrite <- exp_plus; f_equal; lra).
    field. split; [|apply Rgt_not_eq, exp_pos].
    assert (PS : 0 < rsum (map exp (map (fun x0 => dec x0 - dec m) xs))); [|lra].
    apply Rlt_le_trans with (exp (top - dec m)); [apply exp_pos|]. apply rsum_ge.
    - intros y Hy. apply in_map_iff in Hy. destruct Hy as (q & <- & _). left. apply exp_pos.
    - apply in_map. apply in_map_iff in T1. destruct T1 as (q & <- & Iq). apply (in_map (fun x0 => dec x0 - dec m)). exact Iq.
  Qed.
  Close Scope R_scope.
End Soft.
