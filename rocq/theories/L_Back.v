(** The functions of the gradient module in a two-party integer session: the results and the
    gradients they pass on. *)
From Coq Require Import QArith String Setoid Morphisms.
From Verif Require Import Util Modular S_Ring S_Tensor S_Wraps S_Div S_Bil S_Spdz S_View S_Circuit S_Fss S_Grad S_Sort S_Autograd
  M_Torch M_Encoder M_Tensor M_Share M_Spdz M_Store M_Fss M_Engine M_Approx M_Grad M_Static M_Autograd S_Back
  L_Torch L_Tensor L_Encoder L_Share L_Div L_Bil L_Mul L_Circuit L_View L_Fss2 L_Fss3 L_Engine L_Algo L_Grad L_Argmax P_Grad L_Autograd.
Local Open Scope Z_scope.
Local Open Scope list_scope.

Lemma bpos_lt a b so e : bshape a b so -> (e < numel so)%nat -> (bpos a so e < numel a)%nat.
Proof. apply bindex_lt. Qed.
Lemma vals_bpos a b so f e : bshape a b so -> (e < numel so)%nat -> nth e (bexpand a so (vals a f)) 0 == f (bpos a so e) [mod R64].
Proof. intros H He. rewrite bexpand_nth by auto. change (bget a so (vals a f) e) with (nth (bpos a so e) (vals a f) 0). apply vals_nth_eq. eapply bpos_lt; eauto. Qed.

(** sums with a single term *)
Lemma sumn_pick n q (f : nat -> Z) : (q < n)%nat -> sumn n (fun p => b2z (Nat.eqb p q) * f p) = f q.
Proof.
  intros H. unfold sumn. assert (A : forall a m, ~ (a <= q < a + m)%nat -> zsum (map (fun p => b2z (Nat.eqb p q) * f p) (seq a m)) = 0).
  { intros a m; revert a; induction m as [|m IH]; intros a Hn; cbn [seq map zsum]; [reflexivity|]. rewrite IH by lia.
    destruct (Nat.eqb_spec a q); [lia|]. cbn [b2z]. lia. }
  assert (B : forall m a, (a <= q < a + m)%nat -> zsum (map (fun p => b2z (Nat.eqb p q) * f p) (seq a m)) = f q).
  { induction m as [|m IH]; intros a Hn; [lia|]. cbn [seq map zsum]. destruct (Nat.eqb_spec a q) as [->|].
    - rewrite A by lia. cbn [b2z]. lia.
    - rewrite IH by lia. cbn [b2z]. lia. }
  apply B. lia.
Qed.
Lemma eqb_sym' a b : Nat.eqb a b = Nat.eqb b a. Proof. apply Nat.eqb_sym. Qed.
Lemma sumn_pick' n q (f : nat -> Z) : (q < n)%nat -> sumn n (fun p => b2z (Nat.eqb q p) * f p) = f q.
Proof. intros H. rewrite <- (sumn_pick n q f H). apply sumn_ext. intros. rewrite eqb_sym'. reflexivity. Qed.

Lemma cbind_assoc {W A B C} (m : comp W A) (f : A -> comp W B) (k : B -> comp W C) w :
  cbind (cbind m f) k w = cbind m (fun a => cbind (f a) k) w.
Proof. unfold cbind. destruct (m w) as [[a|] w1]; reflexivity. Qed.

Section Ops.
  Context {K : Type} (alpha : K -> Z) (ev : fop -> Z -> Z -> K -> Z)
          (gen : fop -> nat -> nat -> result (list (list K))) (s : sess) (su : tri_supply)
          (mm : nat -> list nat -> list nat -> list triple) (on : nat -> list nat -> list (list Z)).
  Hypothesis HG : backend_ok alpha ev gen.
  Hypothesis HI : int_pair s.
  Hypothesis HS : supplies su mm on.
  Let E := mpc_engine alpha ev gen s su.
  Let Hn := proj1 HI. Let Hp := proj1 (proj2 HI). Let Hb := proj2 (proj2 HI).

  Lemma rep_lin o sa sb so x y f g : rep s sa f x -> rep s sb g y -> bshape sa sb so ->
    exists z, mpc_lin o x y = Ok z /\ rep s so (fun e => linz o (f (bpos sa so e)) (g (bpos sb so e))) z.
  Proof.
    intros (X1 & X2 & X3 & X4) (Y1 & Y2 & Y3 & Y4) HB.
    destruct (mpc_lin_shared o x y so (vals sa f) (vals sb g)) as (z & EZ & Z1 & Z2 & Z3 & Z4); rewrite ?X2, ?Y2; auto; try congruence.
    exists z. split; [exact EZ|]. repeat split; try congruence; try apply Z4. rewrite X2, Y2 in Z4.
    rewrite (linop_vals s so Hn Hp o _ _ (fun e => f (bpos sa so e)) (fun e => g (bpos sb so e))) in Z4; try apply bexpand_length.
    - apply Z4.
    - intros e He. split; [apply (vals_bpos sa sb so f e HB He)|apply (vals_bpos sb sa so g e (bshape_sym _ _ _ HB) He)].
  Qed.

  Lemma as_tensor_look env p : look env (inr p) = look env (inr (match p with PNum v => PTensor [] [v] | _ => p end)).
  Proof. destruct p; reflexivity. Qed.

  (** the values of a public operand *)
  Lemma pub_spec env p : known env (inr p) -> pub_ok p /\ length (pub_vals p) = numel (pub_shape p) /\
    forall e, (e < numel (pub_shape p))%nat -> nth e (encode (s_cfg s) (pub_vals p)) 0 == snd (look env (inr p)) e [mod R64].
  Proof.
    intros [HO HF]. split; [exact HO|]. assert (HL : length (pub_vals p) = numel (pub_shape p)) by (destruct p; [reflexivity|exact HO]).
    split; [exact HL|]. intros e He. cbn [look snd]. unfold encode. rewrite (nth_indep _ 0 (encode1 (s_cfg s) (NInt 0))) by (rewrite map_length; lia).
    rewrite map_nth. assert (HI' : In (nth e (pub_vals p) (NInt 0)) (pub_vals p)) by (apply nth_In; lia).
    rewrite Forall_forall in HF. destruct (HF _ HI') as [z ->]. cbn [encode1 cast]. rewrite (prec0_base s Hp), Z.mul_1_r, wrap_to_ring64. apply to_ring_eqmod, posR.
  Qed.

  Lemma rep_linpub env o sa x p f : rep s sa f x -> known env (inr p) -> bshape sa (pub_shape p) sa ->
    exists z, mpc_lin_public s o x p = Ok z /\ rep s sa (fun e => linz o (f (bpos sa sa e)) (snd (look env (inr p)) (bpos (pub_shape p) sa e))) z.
  Proof.
    intros (X1 & X2 & X3 & X4) KP HB. destruct (pub_spec env p KP) as (PO & PL & PV).
    destruct (mpc_lin_public_value s o x p (vals sa f) sa) as (z & EZ & Z1 & Z2 & Z3 & _ & Z5); rewrite ?X2; auto.
    exists z. split; [exact EZ|]. specialize (Z5 (eq_sym X2)). rewrite X2 in Z5.
    rewrite (linop_vals s sa Hn Hp o _ _ (fun e => f (bpos sa sa e)) (fun e => snd (look env (inr p)) (bpos (pub_shape p) sa e))) in Z5; try apply bexpand_length.
    - repeat split; try congruence; apply Z5.
    - intros e He. split; [eapply vals_bpos; eauto|]. rewrite bexpand_nth by auto.
      change (bget (pub_shape p) sa ?l e) with (nth (bpos (pub_shape p) sa e) l 0). apply PV.
      apply (bpos_lt _ sa); auto using bshape_sym.
  Qed.

  Lemma mul_rep sa sb so f (l : list Z) g z : bshape sa sb so ->
    (forall e, (e < numel so)%nat -> nth (bpos sb so e) l 0 == g e [mod R64]) ->
    good s so (mul_val sa sb so (vals sa f) l) z -> rep s so (fun e => f (bpos sa so e) * g e) z.
  Proof.
    intros HB HL G. unfold rep. unfold mul_vr in G. change (2^64) with R64 in G.
    rewrite (mul_vals s so Hn Hp _ _ (fun e => f (bpos sa so e)) g) in G; try apply bexpand_length; auto.
    intros e He. split; [eapply vals_bpos; eauto|]. rewrite bexpand_nth by auto. apply HL; auto.
  Qed.

  Lemma rep_mul sa sb so x y f g : rep s sa f x -> rep s sb g y -> bshape sa sb so ->
    runs (m_mul (K:=K) s su x y) (rep s so (fun e => f (bpos sa so e) * g (bpos sb so e))).
  Proof.
    intros GX GY HB. unfold m_mul. eapply runs_bind; [apply (runs_tick (fun _ => True)); auto|]. intros k _. apply runs_lift.
    pose proof GX as (_ & X2 & _). pose proof GY as (_ & Y2 & _).
    destruct (prec0_bil s SMul sa sb so (mul_val sa sb so) x y (vals sa f) (vals sb g) (su_tri su k (m_shape x) (m_shape y)) ([], [])) as (z & EZ & G); auto.
    { lia. } { lia. } { apply prod_mul; auto. } { rewrite X2, Y2, Hn. apply HS. auto. } { left. exact Hn. }
    exists z. split; [exact EZ|]. eapply (mul_rep sa sb so f _ (fun e => g (bpos sb so e))); eauto.
    intros e He. apply vals_nth_eq. apply (bpos_lt sb sa); auto using bshape_sym.
  Qed.

  Lemma rep_mulpub' sa so x p f (pv : vec) : rep s sa f x -> pub_ok p ->
    (forall e, (e < numel (pub_shape p))%nat -> nth e (encode (s_cfg s) (pub_vals p)) 0 == pv e [mod R64]) -> bshape sa (pub_shape p) so ->
    exists z, mpc_bil_public s BMul x p ([], []) = Ok z /\ rep s so (fun e => f (bpos sa so e) * pv (bpos (pub_shape p) so e)) z.
  Proof.
    intros GX PO PV HB.
    destruct (prec0_bil_public s SMul sa so (mul_val sa (pub_shape p) so) x p (vals sa f) ([], [])) as (z & EZ & G); auto.
    { apply prod_mul; auto. } { left. exact Hn. }
    exists z. split; [exact EZ|]. eapply (mul_rep sa (pub_shape p) so f _ (fun e => pv (bpos (pub_shape p) so e))); eauto.
    intros e He. apply PV. apply (bpos_lt _ sa); auto using bshape_sym.
  Qed.
  Lemma rep_mulpub env sa so x p f : rep s sa f x -> known env (inr p) -> bshape sa (pub_shape p) so ->
    exists z, mpc_bil_public s BMul x p ([], []) = Ok z /\ rep s so (fun e => f (bpos sa so e) * snd (look env (inr p)) (bpos (pub_shape p) so e)) z.
  Proof. intros GX KP HB. destruct (pub_spec env p KP) as (PO & PL & PV). apply rep_mulpub'; auto. Qed.

  Lemma bpos_nil so e : bpos [] so e = 0%nat.
  Proof. unfold bpos. destruct (skipn _ _); reflexivity. Qed.
  Lemma bpos_self sh e : (e < numel sh)%nat -> bpos sh sh e = e.
  Proof.
    intros He. pose proof (bexpand_self sh (map Z.of_nat (seq 0 (numel sh)))) as H. rewrite map_length, seq_length in H. specialize (H eq_refl).
    apply (f_equal (fun l => nth e l 0)) in H. rewrite bexpand_nth in H by auto.
    change (bget sh sh ?l e) with (nth (bpos sh sh e) l 0) in H.
    rewrite !map_seq_nth in H; auto; [lia|]. eapply bpos_lt; [apply bshape_same|auto].
  Qed.

  (** an element of a matrix product *)
  Lemma mm_nth m k n l1 l2 e : (e < m * n)%nat ->
    nth e (mm_val [] [] [] m k n l1 l2) 0 == sumn k (fun t => nth (e / n * k + t) l1 0 * nth (t * n + e mod n) l2 0) [mod R64].
  Proof.
    intros He. unfold mm_vr. change (numel []) with 1%nat. rewrite Nat.mul_1_l. rewrite map_seq_nth by auto.
    rewrite to_ring_eqmod by apply posR. apply eqmod_eq, sumn_ext. intros t Ht.
    assert (n <> 0)%nat by (intros ->; lia). rewrite !bpos_nil, !Nat.mul_0_l, !Nat.add_0_l.
    rewrite (Nat.mod_small (e / n)) by (apply Nat.div_lt_upper_bound; lia). reflexivity.
  Qed.
  Lemma idx_lt m n i j : (i < m -> j < n -> i * n + j < m * n)%nat. Proof. nia. Qed.

  Lemma mm_rep m k n f g l z :
    (forall e, (e < k * n)%nat -> nth e l 0 == g e [mod R64]) ->
    good s [m; n] (mm_val [] [] [] m k n (vals [m; k] f) l) z ->
    rep s [m; n] (fun e => sumn k (fun t => f (e / n * k + t)%nat * g (t * n + e mod n)%nat)) z.
  Proof.
    intros HL G. unfold rep. rewrite <- (vals_eq [m; n] (mm_val [] [] [] m k n (vals [m; k] f) l)); [exact G| | |].
    - destruct G as (_ & _ & _ & G). apply (shared_vals R64 supR _ _ _ G).
    - destruct G as (_ & _ & _ & G). apply (shared_vals R64 supR _ _ _ G).
    - intros e He. cbn [numel fold_right] in He. rewrite Nat.mul_1_r in He. assert (n <> 0)%nat by (intros ->; lia).
      rewrite mm_nth by lia. apply sumn_eqmod. intros t Ht.
      assert (e / n < m)%nat by (apply Nat.div_lt_upper_bound; lia). pose proof (Nat.mod_upper_bound e n H).
      rewrite vals_nth_eq by (cbn [numel fold_right]; rewrite Nat.mul_1_r; apply idx_lt; auto).
      rewrite HL by (apply idx_lt; auto). reflexivity.
  Qed.

  Lemma rep_mm m k n x y f g : rep s [m; k] f x -> rep s [k; n] g y ->
    runs (x_matmul (K:=K) s mm x (inl y)) (rep s [m; n] (fun e => sumn k (fun t => f (e / n * k + t)%nat * g (t * n + e mod n)%nat))).
  Proof.
    intros GX GY. unfold x_matmul. eapply runs_bind; [apply (runs_tick (fun _ => True)); auto|]. intros t _. apply runs_lift.
    pose proof GX as (_ & X2 & _). pose proof GY as (_ & Y2 & _).
    destruct (prec0_bil s SMatmul [m; k] [k; n] [m; n] (mm_val [] [] [] m k n) x y (vals [m; k] f) (vals [k; n] g) (mm t (m_shape x) (m_shape y)) ([], [])) as (z & EZ & G); auto.
    { lia. } { lia. } { apply (prod_mm [] [] []). apply bshape_same. } { rewrite X2, Y2, Hn. apply HS. } { left. exact Hn. }
    exists z. split; [exact EZ|]. eapply mm_rep; eauto. intros e He. apply vals_nth_eq. cbn [numel fold_right]. lia.
  Qed.
  Lemma rep_mmpub env m k n x p f : rep s [m; k] f x -> known env (inr p) -> pub_shape p = [k; n] ->
    runs (x_matmul (K:=K) s mm x (inr p)) (rep s [m; n] (fun e => sumn k (fun t => f (e / n * k + t)%nat * snd (look env (inr p)) (t * n + e mod n)%nat))).
  Proof.
    intros GX KP HP. destruct (pub_spec env p KP) as (PO & PL & PV). unfold x_matmul. apply runs_lift.
    destruct (prec0_bil_public s SMatmul [m; k] [m; n] (mm_val [] [] [] m k n) x p (vals [m; k] f) ([], [])) as (z & EZ & G); auto.
    { rewrite HP. apply (prod_mm [] [] []). apply bshape_same. } { left. exact Hn. }
    exists z. split; [exact EZ|]. eapply mm_rep; eauto. intros e He. apply PV. rewrite HP. cbn [numel fold_right]. lia.
  Qed.

  (** the reduction of broadcast gradients *)
  Lemma rep_rb w b so x f : bshape w b so -> Forall (fun d => d <> 0%nat) so -> rep s so f x ->
    exists r, reverse_broadcast x w = Ok r /\ rep s w (fun e => sumn (numel so) (fun p => b2z (Nat.eqb e (bpos w so p)) * f p)) r.
  Proof.
    intros HB HZ (X1 & X2 & X3 & X4).
    assert (BR : broadcasts w so).
    { exists (firstn (length so - length w) so), (skipn (length so - length w) so). split; [symmetry; apply firstn_skipn|].
      pose proof (bshape_dims _ _ _ HB) as HD. clear -HD. induction HD; constructor; auto. tauto. }
    destruct (C45_adjoint_partial w so x (vals so f) BR HZ X2 X4) as (r & t & ER & R1 & R2 & R3 & R4 & _ & AD).
    exists r. split; [exact ER|]. change (2^64) with R64 in *. destruct (shared_vals R64 supR _ _ _ R4) as (TL & TV & _).
    assert (TE : t = vals w (fun e => sumn (numel so) (fun p => b2z (Nat.eqb e (bpos w so p)) * f p))).
    { apply vals_eq; auto. intros e He.
      set (y := map (fun i => b2z (Nat.eqb i e)) (seq 0 (numel w))).
      assert (YL : length y = numel w) by (unfold y; rewrite map_length, seq_length; auto).
      specialize (AD y YL). unfold inner in AD.
      rewrite (zsum_map2_mul _ _ (numel so)) in AD by (auto using bexpand_length, vals_len).
      rewrite (zsum_map2_mul _ _ (numel w)) in AD by auto.
      assert (E2 : sumn (numel w) (fun i => nth i y 0 * nth i t 0) = nth e t 0).
      { rewrite <- (sumn_pick (numel w) e (fun i => nth i t 0) He). apply sumn_ext. intros i Hi. unfold y. rewrite map_seq_nth by auto. reflexivity. }
      rewrite E2 in AD. rewrite <- AD. apply sumn_eqmod. intros p Hp'.
      rewrite bexpand_nth by auto. change (bget w so y p) with (nth (bpos w so p) y 0). unfold y at 1.
      rewrite map_seq_nth by (eapply bpos_lt; eauto). rewrite vals_nth_eq by auto. rewrite eqb_sym'. reflexivity. }
    unfold rep, good. rewrite <- TE. repeat split; try congruence; apply R4.
  Qed.

  Lemma rep_t m n x f : rep s [m; n] f x -> exists y, mpc_view VT x = Ok y /\ rep s [n; m] (fun e => f (e mod m * n + e / m)%nat) y.
  Proof.
    intros GX. eapply rep_view; [apply vw_t|exact GX|]. intros e He. cbv beta. rewrite tabulate_nth by auto.
    cbn [unravel numel fold_right]. unfold elt. cbn [ravel numel fold_right]. rewrite !Nat.mul_1_r, !Nat.div_1_r, !Nat.add_0_r.
    cbn [numel fold_right] in He. rewrite Nat.mul_1_r in He. assert (m <> 0)%nat by (intros ->; lia).
    apply vals_nth_eq. cbn [numel fold_right]. rewrite Nat.mul_1_r. apply idx_lt; [apply Nat.mod_upper_bound; auto|apply Nat.div_lt_upper_bound; lia].
  Qed.
  Lemma rep_reshape sh so x f : numel so = numel sh -> rep s sh f x -> exists y, mpc_view (VReshape so) x = Ok y /\ rep s so f y.
  Proof. intros HL GX. eapply rep_view; [apply (vw_reshape sh so); auto|exact GX|]. intros e He. apply vals_nth_eq. lia. Qed.
  Lemma rep_clone sh x f : rep s sh f x -> exists y, mpc_view VClone x = Ok y /\ rep s sh f y.
  Proof. intros GX. eapply rep_view; [apply vw_clone|exact GX|]. intros e He. apply vals_nth_eq. auto. Qed.

  Lemma sup_ok sh : supply_ok sh su.
  Proof. split; [|apply HS]. intros k. apply HS. apply bshape_same. Qed.

  Lemma rep_pow sh p : sh <> [] -> forall base acc f h, rep s sh f base ->
    match acc with None => forall e, h e = 1 | Some r => rep s sh h r end ->
    runs (m_pow (K:=K) s su p base acc) (rep s sh (fun e => h e * f e ^ Zpos p)).
  Proof.
    intros Hsh. pose proof (sup_ok sh) as SO.
    assert (STEP : forall base acc f h, rep s sh f base -> match acc with None => forall e, h e = 1 | Some r => rep s sh h r end ->
      runs (K:=K) (match acc with None => lift (mpc_bil_public s BMul base (PNum (NInt 1)) ([], [])) | Some r => m_mul s su r base end)
        (rep s sh (fun e => h e * f e))).
    { intros base acc f h GB GA. destruct acc as [r|].
      - apply (r_mul s su sh Hn Hp Hb (proj1 SO)); auto.
      - apply runs_lift. destruct (r_mulp s sh Hn Hp Hsh base f 1 GB) as (z & EZ & GZ). exists z. split; [exact EZ|].
        eapply rep_ext; [exact GZ|]. intros e He. rewrite GA. apply eqmod_eq. ring. }
    induction p as [p IH|p IH|]; intros base acc f h GB GA; cbn [m_pow].
    - eapply runs_bind; [apply STEP; eauto|]. intros r GR.
      eapply runs_bind; [apply (r_mul s su sh Hn Hp Hb (proj1 SO)); eauto|]. intros b GB'.
      eapply runs_weaken; [apply (IH b (Some r) (fun e => f e * f e) (fun e => h e * f e)); eauto|]. intros z GZ. eapply rep_ext; [exact GZ|].
      intros e He. apply eqmod_eq. cbv beta. rewrite Pos2Z.inj_xI, Z.pow_add_r, Z.pow_1_r, Z.pow_mul_r, Z.pow_2_r by lia. ring.
    - eapply runs_bind; [apply (r_mul s su sh Hn Hp Hb (proj1 SO)); eauto|]. intros b GB'.
      eapply runs_weaken; [apply (IH b acc (fun e => f e * f e) h); eauto|]. intros z GZ. eapply rep_ext; [exact GZ|].
      intros e He. apply eqmod_eq. cbv beta. rewrite Pos2Z.inj_xO, Z.pow_mul_r, Z.pow_2_r by lia. ring.
    - eapply runs_bind; [apply STEP; eauto|]. intros r GR.
      eapply runs_bind; [apply (r_mul s su sh Hn Hp Hb (proj1 SO)); eauto|]. intros b GB'.
      apply runs_ret. eapply rep_ext; [exact GR|]. intros e He. rewrite Z.pow_1_r. reflexivity.
  Qed.

  (** the mask of relu *)
  Lemma rep_mask sh x f : sh <> [] -> rep s sh f x -> (forall e, (e < numel sh)%nat -> Z.abs (f e) < 2^31 - 1) ->
    runs (let! m := e_relp E RGt x (NFloat 0) in sign E m) (rep s sh (fun e => b2z (0 <? f e))).
  Proof.
    intros Hsh GX HB. pose proof (sup_ok sh) as SO.
    assert (EQ : forall r, check_or_convert s (inr (PNum (NFloat 0))) r = check_or_convert s (inr (PNum (NInt 0))) r).
    { intros r. unfold check_or_convert, mpc_secret. assert (EI : share_init (s_cfg s) (PNum (NFloat 0)) = share_init (s_cfg s) (PNum (NInt 0))).
      { unfold share_init. cbn [pub_vals encode map encode1 cast]. rewrite (prec0_base s Hp). reflexivity. }
      rewrite EI. reflexivity. }
    assert (RE : runs (e_relp E RGt x (NFloat 0)) (rep s sh (fun e => b2z (relates32 Rgt (f e) 0)))).
    { intros w Hw. destruct (r_relp alpha ev gen s su sh HG Hn Hp Hb Hsh (proj2 SO) Rgt x f 0 ltac:(discriminate) GX w Hw) as (a & w' & E1 & R).
      exists a, w'. split; [|exact R]. rewrite <- E1. unfold E. cbn [e_relp mpc_engine rop_of]. unfold cbind, tick, lift. rewrite EQ. reflexivity. }
    eapply runs_bind; [exact RE|]. intros m GM.
    eapply runs_weaken; [apply (sign_ok alpha ev gen s su sh HG HI Hsh SO m _ GM)|].
    - intros e He. destruct (relates32 Rgt (f e) 0); cbn; lia.
    - intros z GZ. eapply rep_ext; [exact GZ|]. intros e He. apply eqmod_eq. cbv beta. rewrite relates32_small by (rewrite Z.sub_0_r; auto).
      cbn [relates]. destruct (0 <? f e); reflexivity.
  Qed.

  (** what has to be shown of a gradient function: its result, and what it passes on to operand [k] *)
  Definition passes (env : tensors) (so : list nat) (st : pstep) (sz : nat -> list nat) (ks : list nat) (b : mpc -> comp (mpcw (K:=K)) (list mpc)) : Prop :=
    forall g z, rep s so g z -> runs (b z) (fun gs => forall k, In k ks ->
      exists r, nth_error gs k = Some r /\ rep s (sz k) (fun e => sumn (numel so) (fun p => jac env so st k p e * g p)) r).

  Lemma repeat_nth {A} (a d : A) n e : (e < n)%nat -> nth e (repeat a n) d = a.
  Proof. revert e. induction n as [|n IH]; intros [|e] H; cbn; auto; try lia. apply IH. lia. Qed.

  Lemma t_index m n p e : (p < n * m -> e < m * n -> (e = p mod m * n + p / m <-> p = e mod n * m + e / n))%nat.
  Proof.
    intros Hp' He. assert (m <> 0)%nat by (intros ->; lia). assert (n <> 0)%nat by (intros ->; lia).
    assert (A : forall a b i j, (b <> 0 -> j < b -> i * b + j = a -> a / b = i /\ a mod b = j)%nat).
    { intros a b i j Hb' Hj <-. split.
      - rewrite Nat.div_add_l by auto. rewrite Nat.div_small by auto. lia.
      - rewrite Nat.add_comm, Nat.mod_add by auto. apply Nat.mod_small. auto. }
    pose proof (Nat.div_mod p m ltac:(auto)) as DP. pose proof (Nat.mod_upper_bound p m ltac:(auto)).
    pose proof (Nat.div_mod e n ltac:(auto)) as DE. pose proof (Nat.mod_upper_bound e n ltac:(auto)).
    assert (p / m < n)%nat by (apply Nat.div_lt_upper_bound; lia). assert (e / n < m)%nat by (apply Nat.div_lt_upper_bound; lia).
    split; intros HE.
    - destruct (A e n (p mod m)%nat (p / m)%nat) as [-> ->]; auto. lia.
    - destruct (A p m (e mod n)%nat (e / n)%nat) as [-> ->]; auto. lia.
  Qed.

  Theorem fun1_ok env f i so v x : yields s env (PUn f i) so v -> rep s (fst (look env (inl i))) (snd (look env (inl i))) x ->
    runs (fun1 alpha ev gen s su f x) (fun rb => rep s so v (fst rb) /\ passes env so (PUn f i) (fun _ => fst (look env (inl i))) [0%nat] (snd rb)).
  Proof.
    intros HY GX. inversion HY; subst; cbn [fun1]; set (sh := fst (look env (inl i))) in *; set (vl := snd (look env (inl i))) in *.
    - (* sum *)
      eapply runs_bind; [apply runs_lift; apply rep_vsum; eauto|]. intros r GR. apply runs_ret. cbn [fst snd]. split; [exact GR|].
      intros g z GZ. eapply runs_bind.
      { unfold x_mul. apply runs_lift. apply (rep_mulpub' [] sh z (PTensor (m_shape x) (repeat (NFloat 1) (numel (m_shape x)))) g (fun _ => 1)); auto.
        - cbn [pub_ok]. apply repeat_length.
        - cbn [pub_shape pub_vals]. intros e He. unfold encode. rewrite (nth_indep _ 0 (encode1 (s_cfg s) (NFloat 1))) by (rewrite map_length, repeat_length; auto).
          rewrite map_nth, repeat_nth by auto. cbn [encode1]. rewrite (prec0_base s Hp). reflexivity.
        - cbn [pub_shape]. destruct GX as (_ & -> & _). apply bshape_nil_l. }
      intros r' GR'. apply runs_ret. intros k [<-|[]]. exists r'. split; [reflexivity|]. eapply rep_ext; [exact GR'|].
      intros e He. cbn [jac]. rewrite bpos_nil. change (numel []) with 1%nat. rewrite sumn_1. apply eqmod_eq. lia.
    - (* t *)
      rename H4 into HS2. rewrite HS2 in *. eapply runs_bind; [apply runs_lift; apply rep_t; eauto|]. intros r GR. apply runs_ret. cbn [fst snd]. split; [exact GR|].
      intros g z GZ. eapply runs_bind; [apply runs_lift; apply rep_t; eauto|]. intros r' GR'. apply runs_ret. intros k [<-|[]].
      exists r'. split; [reflexivity|]. eapply rep_ext; [exact GR'|]. intros e He. cbn [jac]. fold sh. rewrite HS2.
      cbn [numel fold_right] in *. rewrite !Nat.mul_1_r in *. assert (m <> 0)%nat by (intros ->; lia). assert (n <> 0)%nat by (intros ->; lia).
      assert (Q : (e mod n * m + e / n < n * m)%nat) by (apply idx_lt; [apply Nat.mod_upper_bound; auto|apply Nat.div_lt_upper_bound; lia]).
      apply eqmod_eq. rewrite <- (sumn_pick _ _ g Q). apply sumn_ext. intros p Hp'. f_equal. f_equal.
      pose proof (t_index m n p e Hp' ltac:(lia)) as TI.
      destruct (Nat.eqb_spec p (e mod n * m + e / n)), (Nat.eqb_spec e (p mod m * n + p / m)); tauto.
    - (* reshape *)
      eapply runs_bind; [apply runs_lift; apply (rep_reshape sh); eauto|]. intros r GR. apply runs_ret. cbn [fst snd]. split; [exact GR|].
      intros g z GZ. pose proof GX as (_ & -> & _). eapply runs_bind; [apply runs_lift; apply (rep_reshape so); eauto|]. intros r' GR'. apply runs_ret. intros k [<-|[]].
      exists r'. split; [reflexivity|]. eapply rep_ext; [exact GR'|]. intros e He. cbn [jac]. apply eqmod_eq. symmetry. apply sumn_pick'. lia.
    - (* pow *)
      match goal with H : sh <> [] |- _ => rename H into Hsh end.
      eapply runs_bind; [apply (rep_pow sh k Hsh x None vl (fun _ => 1)); auto|]. intros r GR. apply runs_ret. cbn [fst snd]. split.
      { eapply rep_ext; [exact GR|]. intros e He. apply eqmod_eq. lia. }
      intros g z GZ. pose proof (sup_ok sh) as SO. eapply runs_bind with (P := rep s sh (fun e => Zpos k * vl e ^ (Zpos k - 1) * g e)).
      { destruct (Zpos k - 1) as [|q|q] eqn:EK; [| |lia].
        - assert (k = 1%positive) by lia. subst k. eapply runs_weaken; [apply (e_mulp_ok alpha ev gen s su sh HI Hsh z g); auto|].
          intros r' GR'. eapply rep_ext; [exact GR'|]. intros e He. apply eqmod_eq. rewrite Z.pow_0_r. ring.
        - eapply runs_bind; [apply (rep_pow sh q Hsh x None vl (fun _ => 1)); auto|]. intros y GY.
          eapply runs_bind; [apply (e_mulp_ok alpha ev gen s su sh HI Hsh); eauto|]. intros y' GY'.
          eapply runs_weaken; [apply (e_mul_ok alpha ev gen s su sh HI SO); eauto|]. intros r' GR'. eapply rep_ext; [exact GR'|].
          intros e He. apply eqmod_eq. cbv beta. ring. }
      intros r' GR'. apply runs_ret. intros k' [<-|[]]. exists r'. split; [reflexivity|]. eapply rep_ext; [exact GR'|].
      intros e He. cbn [jac]. fold vl. apply eqmod_eq. rewrite <- (sumn_pick' _ e (fun p => Zpos k * vl e ^ (Zpos k - 1) * g p) He). apply sumn_ext. intros p Hp'. ring.
    - (* relu *)
      match goal with H : sh <> [] |- _ => rename H into Hsh end. match goal with H : forall e, _ -> Z.abs _ < _ |- _ => rename H into HB end. pose proof (sup_ok sh) as SO.
      pose proof (rep_mask sh x vl Hsh GX HB) as RM.
      assert (GOAL : runs (let! m := (let! m := e_relp E RGt x (NFloat 0) in sign E m) in
                 let! r := e_mul E x m in result_of r (fun g => let! g := e_mul E g m in cret [g]))
        (fun rb => rep s sh (fun e => Z.max 0 (vl e)) (fst rb) /\ passes env sh (PUn FRelu i) (fun _ => sh) [0%nat] (snd rb))).
      { eapply runs_bind; [exact RM|]. intros m GM. eapply runs_bind; [apply (e_mul_ok alpha ev gen s su sh HI SO); eauto|].
        intros r GR. apply runs_ret. cbn [fst snd]. split.
        - eapply rep_ext; [exact GR|]. intros e He. apply eqmod_eq. cbv beta. destruct (Z.ltb_spec 0 (vl e)); cbn [b2z]; lia.
        - intros g z GZ. eapply runs_bind; [apply (e_mul_ok alpha ev gen s su sh HI SO); eauto|]. intros r' GR'. apply runs_ret. intros k [<-|[]].
          exists r'. split; [reflexivity|]. eapply rep_ext; [exact GR'|]. intros e He. cbn [jac]. fold vl. apply eqmod_eq. cbv beta.
          rewrite <- (sumn_pick' _ e (fun p => g p * b2z (0 <? vl e)) He). apply sumn_ext. intros p Hp'. ring. }
      intros w Hw. destruct (GOAL w Hw) as (a & w' & EA & R). exists a, w'. split; [|exact R]. rewrite <- EA.
      symmetry. apply cbind_assoc.
  Qed.

  Definition opd (env : tensors) (y : nat + pub) (o : operand) : Prop :=
    match y, o with
    | inl _, inl z => rep s (fst (look env y)) (snd (look env y)) z
    | inr p, inr q => p = q
    | _, _ => False
    end.
  Lemma pub_tensor env p : known env (inr p) -> exists q, as_tensor (inr p) = inr q /\ known env (inr q) /\
    look env (inr q) = look env (inr p) /\ pub_shape q = fst (look env (inr p)).
  Proof.
    intros [KO KF]. destruct p as [v|sh l].
    - exists (PTensor [] [v]). repeat split; auto.
    - exists (PTensor sh l). repeat split; auto.
  Qed.

  Definition slots (y : nat + pub) : list nat := match y with inl _ => [0; 1]%nat | inr _ => [0%nat] end.
  Definition sizes (env : tensors) (i : nat) (y : nat + pub) (k : nat) : list nat :=
    match k with O => fst (look env (inl i)) | _ => fst (look env y) end.

  Lemma lin_ok o env i y so x yo : known env (inl i) -> known env y ->
    bshape (fst (look env (inl i))) (fst (look env y)) so -> (match y with inl _ => True | inr _ => so = fst (look env (inl i)) end) ->
    rep s (fst (look env (inl i))) (snd (look env (inl i))) x -> opd env y yo ->
    runs (x_lin alpha ev gen s su o x (as_tensor yo))
      (rep s so (fun e => linz o (snd (look env (inl i)) (bpos (fst (look env (inl i))) so e)) (snd (look env y) (bpos (fst (look env y)) so e)))) /\
    op_shape (as_tensor yo) = fst (look env y).
  Proof.
    intros KI KY HB HSO GX OY. destruct y as [j|p], yo as [z|q]; cbn [opd] in OY; try contradiction.
    - cbn [as_tensor x_lin e_lin mpc_engine op_shape]. split; [apply runs_lift; apply rep_lin; auto|apply OY].
    - subst q. destruct (pub_tensor env p KY) as (q & -> & KQ & LQ & SQ). cbn [x_lin op_shape]. split; [|exact SQ]. subst so.
      apply runs_lift. destruct (rep_linpub env o _ x q _ GX KQ) as (z & EZ & GZ); [rewrite SQ; auto|].
      exists z. split; [exact EZ|]. rewrite LQ, SQ in GZ. exact GZ.
  Qed.

  Lemma mul_ok env y so sx fx x yo : known env y -> bshape sx (fst (look env y)) so -> rep s sx fx x -> opd env y yo ->
    runs (x_mul alpha ev gen s su x (as_tensor yo))
      (rep s so (fun e => fx (bpos sx so e) * snd (look env y) (bpos (fst (look env y)) so e))) /\
    op_shape (as_tensor yo) = fst (look env y).
  Proof.
    intros KY HB GX OY. destruct y as [j|p], yo as [z|q]; cbn [opd] in OY; try contradiction.
    - cbn [as_tensor x_mul e_mul mpc_engine op_shape]. split; [apply rep_mul; auto|apply OY].
    - subst q. destruct (pub_tensor env p KY) as (q & -> & KQ & LQ & SQ). cbn [x_mul op_shape]. split; [|exact SQ].
      apply runs_lift. destruct (rep_mulpub env sx so x q fx GX KQ) as (z & EZ & GZ); [rewrite SQ; auto|].
      exists z. split; [exact EZ|]. rewrite LQ, SQ in GZ. exact GZ.
  Qed.

  (** multiplying by -1; without dimensions the result has one *)
  Lemma neg_ok sh x f : rep s sh f x -> runs (e_mulp E x (NInt (-1))) (fun z => sh <> [] -> rep s sh (fun e => - f e) z).
  Proof.
    intros GX. destruct sh as [|d r].
    - apply runs_lift. destruct (rep_mulpub [] [] [1%nat] x (PNum (NInt (-1))) f GX) as (z & EZ & _).
      { split; [exact I|]. constructor; [eauto|constructor]. }
      { cbn [pub_shape]. apply bshape_nil_l. }
      exists z. split; [exact EZ|congruence].
    - eapply runs_weaken; [apply (e_mulp_ok alpha ev gen s su (d :: r) HI ltac:(discriminate)); eauto|]. intros z GZ _.
      eapply rep_ext; [exact GZ|]. intros e He. apply eqmod_eq. ring.
  Qed.

  (** the transpose of a public matrix *)
  Lemma pub_t env p k n : known env (inr p) -> fst (look env (inr p)) = [k; n] ->
    exists q, x_view VT (inr p) = Ok (inr q) /\ known env (inr q) /\ pub_shape q = [n; k] /\
      forall e, (e < n * k)%nat -> snd (look env (inr q)) e = snd (look env (inr p)) (e mod k * n + e / k)%nat.
  Proof.
    intros [KO KF] HL. destruct p as [v|sh l]; [discriminate|]. cbn [look fst] in HL. subst sh. cbn [pub_ok pub_vals] in *.
    cbn [x_view view_index rbind fst snd]. eexists. split; [reflexivity|]. rewrite map_map.
    cbn [numel fold_right] in KO. rewrite Nat.mul_1_r in KO.
    split; [|split; [reflexivity|]].
    - split; [cbn [pub_ok numel fold_right]; rewrite map_length, seq_length; lia|]. cbn [pub_vals]. apply Forall_forall. intros v Hv.
      apply in_map_iff in Hv. destruct Hv as (e & <- & He). apply in_seq in He. cbn [nth].
      assert (k <> 0)%nat by (intros ->; lia). rewrite Forall_forall in KF. apply KF. apply nth_In. rewrite KO.
      apply idx_lt; [apply Nat.mod_upper_bound; auto|apply Nat.div_lt_upper_bound; lia].
    - intros e He. cbn [look snd pub_vals]. rewrite map_seq_nth by lia. reflexivity.
  Qed.

  Lemma mat_ok env y m k n f x yo : known env y -> fst (look env y) = [k; n] -> rep s [m; k] f x -> opd env y yo ->
    runs (x_matmul (K:=K) s mm x yo) (rep s [m; n] (fun e => sumn k (fun t => f (e / n * k + t)%nat * snd (look env y) (t * n + e mod n)%nat))) /\
    op_shape yo = [k; n].
  Proof.
    intros KY HY GX OY. destruct y as [j|p], yo as [z|q]; cbn [opd] in OY; try contradiction.
    - rewrite HY in OY. split; [apply rep_mm; auto|apply OY].
    - subst q. assert (HP : pub_shape p = [k; n]) by (destruct p; [discriminate|exact HY]). split; [|exact HP].
      apply rep_mmpub; auto.
  Qed.

  (** multiplying by the transpose of an operand *)
  Lemma mat_t_ok env y m k n g x yo : known env y -> fst (look env y) = [k; n] -> rep s [m; n] g x -> opd env y yo ->
    runs (K:=K) (let! yt := lift (x_view VT yo) in x_matmul s mm x yt)
      (rep s [m; k] (fun e => sumn n (fun t => g (e / k * n + t)%nat * snd (look env y) (e mod k * n + t)%nat))).
  Proof.
    intros KY HY GX OY.
    assert (AR : forall t e, (t < n -> e < m * k -> (t * k + e mod k) mod k * n + (t * k + e mod k) / k = e mod k * n + t /\ t * k + e mod k < n * k)%nat).
    { intros t e Ht He. assert (k <> 0)%nat by (intros ->; lia). pose proof (Nat.mod_upper_bound e k H).
      rewrite (Nat.add_comm (t * k)), Nat.mod_add, Nat.mod_mod, Nat.div_add by auto. rewrite (Nat.div_small (e mod k)) by auto. split; [lia|]. nia. }
    destruct y as [j|p], yo as [z|q]; cbn [opd] in OY; try contradiction.
    - rewrite HY in OY. destruct (rep_t k n z _ OY) as (zt & ET & GT). cbn [x_view]. rewrite ET. cbn [rbind].
      eapply runs_bind; [apply (runs_lift (Ok (inl zt)) (fun r => r = inl zt)); eauto|]. intros ? ->.
      eapply runs_weaken; [apply rep_mm; eauto|]. intros r GR. eapply rep_ext; [exact GR|]. intros e He. apply eqmod_eq, sumn_ext.
      cbn [numel fold_right] in He. rewrite Nat.mul_1_r in He. intros t Ht. destruct (AR t e Ht ltac:(lia)) as [-> _]. reflexivity.
    - subst q. destruct (pub_t env p k n KY HY) as (q & -> & KQ & SQ & VQ).
      eapply runs_bind; [apply (runs_lift (Ok (inr q)) (fun r => r = inr q)); eauto|]. intros ? ->.
      eapply runs_weaken; [apply rep_mmpub; eauto|]. intros r GR. eapply rep_ext; [exact GR|]. intros e He. apply eqmod_eq, sumn_ext.
      cbn [numel fold_right] in He. rewrite Nat.mul_1_r in He. intros t Ht. destruct (AR t e Ht ltac:(lia)) as [EQ LT].
      rewrite VQ by auto. rewrite EQ. reflexivity.
  Qed.

  Lemma sumn_rows m n i (h : nat -> Z) : (i < m)%nat ->
    sumn (m * n) (fun p => b2z (Nat.eqb i (p / n)) * h p) = sumn n (fun t => h (i * n + t)%nat).
  Proof.
    intros Hi. rewrite sumn_mul. rewrite <- (sumn_pick' m i (fun a => sumn n (fun t => h (a * n + t)%nat)) Hi).
    apply sumn_ext. intros a Ha. rewrite <- sumn_scale. apply sumn_ext. intros t Ht. assert (n <> 0)%nat by lia.
    rewrite Nat.div_add_l, Nat.div_small, Nat.add_0_r by auto. reflexivity.
  Qed.
  Lemma sumn_cols m n j (h : nat -> Z) : (j < n)%nat ->
    sumn (m * n) (fun p => b2z (Nat.eqb j (p mod n)) * h p) = sumn m (fun a => h (a * n + j)%nat).
  Proof.
    intros Hj. rewrite sumn_mul. apply sumn_ext. intros a Ha. rewrite <- (sumn_pick' n j (fun t => h (a * n + t)%nat) Hj).
    apply sumn_ext. intros t Ht. rewrite (Nat.add_comm (a * n)), Nat.mod_add, Nat.mod_small by lia. reflexivity.
  Qed.

  Lemma runs_bret {A B} (a : A) (k : A -> comp (mpcw (K:=K)) B) Q : runs (k a) Q -> runs (let! x := cret a in k x) Q.
  Proof. exact (fun H => H). Qed.

  Theorem fun2_ok env f i y so v x yo : yields s env (PBin f i y) so v ->
    rep s (fst (look env (inl i))) (snd (look env (inl i))) x -> opd env y yo ->
    runs (fun2 alpha ev gen s su mm f x yo) (fun rb => rep s so v (fst rb) /\ passes env so (PBin f i y) (sizes env i y) (slots y) (snd rb)).
  Proof.
    intros HY GX OY. inversion HY; subst; cbn [fun2].
    - (* add *)
      destruct (lin_ok LAdd env i y so x yo) as [RL SL]; auto.
      eapply runs_bind; [exact RL|]. intros r GR. apply runs_ret. cbn [fst snd]. split; [exact GR|].
      intros g z GZ. rewrite SL. pose proof GX as (_ & -> & _).
      eapply runs_bind; [apply runs_lift; eapply rep_rb; eauto|]. intros gx GGX.
      eapply runs_bind; [apply runs_lift; eapply (rep_rb _ (fst (look env (inl i)))); eauto; apply bshape_sym; auto|]. intros gy GGY.
      apply runs_ret. intros k Hk. assert (HK : k = 0%nat \/ k = 1%nat) by (destruct y; destruct Hk as [<-|[<-|[]]] || destruct Hk as [<-|[]]; auto).
      destruct HK as [-> | ->]; [exists gx|exists gy]; (split; [reflexivity|]); cbn [sizes jac]; assumption.
    - (* sub *)
      destruct (lin_ok LSub env i y so x yo) as [RL SL]; auto. { destruct y; auto. }
      eapply runs_bind; [exact RL|]. intros r GR. apply runs_ret. cbn [fst snd]. split; [exact GR|].
      intros g z GZ. rewrite SL. pose proof GX as (_ & -> & _).
      eapply runs_bind; [apply runs_lift; eapply rep_rb; eauto|]. intros gx GGX.
      eapply runs_bind; [apply runs_lift; eapply (rep_rb _ (fst (look env (inl i)))); eauto; apply bshape_sym; auto|]. intros gy GGY.
      eapply runs_bind; [apply (neg_ok _ _ _ GGY)|]. intros gy' GGY'.
      apply runs_ret. intros k Hk. destruct y as [j|p].
      + destruct Hk as [<-|[<-|[]]]; [exists gx|exists gy']; (split; [reflexivity|]); cbn [sizes jac]; [assumption|].
        match goal with H : fst (look env (inl j)) <> [] |- _ => specialize (GGY' H) end. eapply rep_ext; [exact GGY'|].
        intros e He. apply eqmod_eq. cbv beta. match goal with |- - sumn ?N ?h = _ => replace (- sumn N h) with (-1 * sumn N h) by ring end. rewrite <- sumn_scale.
        apply sumn_ext. intros p Hp'. ring.
      + destruct Hk as [<-|[]]. exists gx. split; [reflexivity|]. cbn [sizes jac]. assumption.
    - (* mul *)
      destruct (mul_ok env y so _ _ x yo ltac:(eassumption) ltac:(eassumption) GX OY) as [RL SL].
      eapply runs_bind; [exact RL|]. intros r GR. apply runs_ret. cbn [fst snd]. split; [exact GR|].
      match goal with H : bshape _ _ so |- _ => rename H into HB end.
      intros g z GZ. rewrite SL. pose proof GX as (_ & -> & _).
      destruct (mul_ok env y so so g z yo) as [RG _]; auto. { eapply bshape_idem, bshape_sym; eauto. }
      eapply runs_bind; [exact RG|]. intros g1 G1.
      eapply runs_bind; [apply runs_lift; eapply rep_rb; eauto|]. intros gx GGX.
      eapply runs_bind; [cbn [e_mul mpc_engine]; apply (rep_mul so (fst (look env (inl i))) so z x g _ GZ GX); eapply bshape_idem; eauto|]. intros g2 G2.
      eapply runs_bind; [apply runs_lift; eapply (rep_rb _ (fst (look env (inl i)))); eauto; apply bshape_sym; auto|]. intros gy GGY.
      apply runs_ret. intros k Hk. assert (HK : k = 0%nat \/ k = 1%nat) by (destruct y; destruct Hk as [<-|[<-|[]]] || destruct Hk as [<-|[]]; auto).
      destruct HK as [-> | ->]; [exists gx|exists gy]; (split; [reflexivity|]); cbn [sizes jac]; (eapply rep_ext; [eassumption|]);
        intros e He; apply eqmod_eq, sumn_ext; intros p Hp'; rewrite bpos_self by auto; ring.
    - (* matmul *)
      match goal with H : fst (look env (inl i)) = [m; k] |- _ => rename H into HX end.
      match goal with H : fst (look env y) = [k; n] |- _ => rename H into HYS end.
      rewrite HX in GX. destruct (mat_ok env y m k n _ x yo ltac:(eassumption) HYS GX OY) as [RL SL].
      eapply runs_bind; [exact RL|]. intros r GR. apply runs_ret. cbn [fst snd]. split; [exact GR|].
      intros g z GZ. pose proof GX as (_ & SX & _). rewrite SX, SL. cbn [length Nat.ltb Nat.leb].
      eapply runs_bind; [apply runs_lift; eapply rep_clone; eauto|]. intros gx0 GG0.
      eapply runs_bind; [apply runs_lift; eapply rep_clone; eauto|]. intros gy0 GG1.
      do 4 apply runs_bret.
      assert (RT := mat_t_ok env y m k n g gx0 yo ltac:(eassumption) HYS GG0 OY).
      intros w Hw.
      assert (GOAL : runs (K:=K) (let! gx := (let! yt := lift (x_view VT yo) in x_matmul s mm gx0 yt) in
          let! xt := lift (mpc_view VT x) in let! gy := x_matmul s mm xt (inl gy0) in
          if (shape_eqb (m_shape x) (m_shape gx) && shape_eqb (op_shape yo) (m_shape gy))%bool then cret [gx; gy] else cerr ValueError)
        (fun gs => forall k0, In k0 (slots y) -> exists r, nth_error gs k0 = Some r /\
           rep s (sizes env i y k0) (fun e => sumn (numel [m; n]) (fun p => jac env [m; n] (PBin FMatmul i y) k0 p e * g p)) r)).
      { eapply runs_bind; [exact RT|]. intros gx GGX. eapply runs_bind; [apply runs_lift; apply rep_t; eauto|]. intros xt GXT.
        eapply runs_bind; [apply rep_mm; eauto|]. intros gy GGY.
        pose proof GGX as (_ & S1 & _). pose proof GGY as (_ & S2 & _). rewrite S1, S2, SX, SL.
        unfold shape_eqb. destruct (list_eq_dec Nat.eq_dec [m; k] [m; k]) as [_|C]; [|now elim C]. destruct (list_eq_dec Nat.eq_dec [k; n] [k; n]) as [_|C]; [|now elim C].
        cbn [andb]. apply runs_ret. intros k0 Hk.
        assert (HK : k0 = 0%nat \/ k0 = 1%nat) by (destruct y; destruct Hk as [<-|[<-|[]]] || destruct Hk as [<-|[]]; auto).
        destruct HK as [-> | ->]; [exists gx|exists gy]; (split; [reflexivity|]); cbn [sizes jac]; rewrite ?HX, ?HYS; (eapply rep_ext; [eassumption|]);
          intros e He; cbn [numel fold_right] in *; rewrite !Nat.mul_1_r in *; apply eqmod_eq; cbv beta.
        - assert (k <> 0)%nat by (intros ->; lia). symmetry.
          erewrite sumn_ext; [|intros; rewrite <- Z.mul_assoc; reflexivity]. rewrite (sumn_rows m n (e / k) (fun p => snd (look env y) (e mod k * n + p mod n)%nat * g p)) by (apply Nat.div_lt_upper_bound; lia).
          apply sumn_ext. intros t Ht. rewrite (Nat.add_comm (e / k * n) t), Nat.mod_add, (Nat.mod_small t n) by lia. ring.
        - assert (n <> 0)%nat by (intros ->; lia). symmetry. pose proof (Nat.mod_upper_bound e n H).
          assert (e / n < k)%nat by (apply Nat.div_lt_upper_bound; lia).
          erewrite sumn_ext; [|intros; rewrite <- Z.mul_assoc; reflexivity]. rewrite (sumn_cols m n (e mod n) (fun p => snd (look env (inl i)) (p / n * k + e / n)%nat * g p)) by auto.
          apply sumn_ext. intros t Ht. rewrite Nat.div_add_l, (Nat.div_small (e mod n)), Nat.add_0_r by auto.
          assert (m <> 0)%nat by lia. rewrite (Nat.add_comm (e / n * m)), Nat.mod_add, Nat.div_add, (Nat.mod_small t m), (Nat.div_small t m), Nat.add_0_l by assumption. reflexivity. }
      destruct (GOAL w Hw) as (a & w' & EA & R). exists a, w'. split; [|exact R]. rewrite <- EA. symmetry. apply cbind_assoc.
  Qed.
End Ops.
