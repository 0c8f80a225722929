(** The forward passes of the shared layers. *)
From Coq Require Import QArith String.
From Verif Require Import Util Modular S_Ring S_Tensor S_Wraps S_Div S_Bil S_Spdz S_View S_Circuit
  M_Torch M_Encoder M_Float M_Tensor M_Share M_Spdz M_Conv M_Circuit M_Module
  L_Torch L_Tensor L_Encoder L_Float L_Share L_Spdz L_Div L_Bil L_Mul L_View L_Circuit L_Grad L_Argmax L_Back S_Module.
Local Open Scope Z_scope.

Lemma app_last1 {A} (b : list A) x b1 y z : b ++ [x] = b1 ++ [y; z] -> b = b1 ++ [y] /\ x = z.
Proof.
  intros H. change [y; z] with ([y] ++ [z]) in H. rewrite app_assoc in H. apply app_inj_tail in H. exact H.
Qed.
Lemma app_two {A} (b : list A) x y x' y' : b ++ [x; y] = [x'; y'] -> b = [] /\ x = x' /\ y = y'.
Proof. destruct b as [|a [|c [|d l]]]; cbn; intros H; inversion H; auto. Qed.

(** one row of the weight per output *)
Definition wT (fout fin : nat) (w : list Z) : list Z :=
  tabulate [fin; fout] (fun ix => match ix with [i; j] => elt [fout; fin] w [j; i] | _ => 0 end).

Lemma wT_nth fout fin w i o : (i < fin)%nat -> (o < fout)%nat -> nth (i * fout + o) (wT fout fin w) 0 = nth (o * fin + i) w 0.
Proof.
  intros Hi Ho. unfold wT. rewrite tabulate_nth by (cbn [numel fold_right]; nia).
  cbn [unravel numel fold_right]. rewrite !Nat.mul_1_r, !Nat.div_1_r.
  rewrite (Nat.add_comm (i * fout) o), Nat.div_add, Nat.mod_add, Nat.div_small, Nat.mod_small by lia.
  unfold elt. cbn [ravel numel fold_right]. f_equal. lia.
Qed.

Lemma sumn_ext' n f g : (forall i, (i < n)%nat -> f i = g i) -> sumn n f = sumn n g.
Proof. intros H. unfold sumn. f_equal. apply map_ext_in. intros i Hi. apply in_seq in Hi. apply H. lia. Qed.

Lemma bpos_nil0 so e : bpos [] so e = 0%nat.
Proof. reflexivity. Qed.
Lemma bpos_self0 sh e : (e < numel sh)%nat -> bpos sh sh e = e.
Proof. intros He. unfold bpos. rewrite Nat.sub_diag. cbn [skipn]. apply ravel_unravel. auto. Qed.

Lemma linear_product_r ring b fin fout so f : product_r ring SMatmul (b ++ [fin]) [fin; fout] so f ->
  so = b ++ [fout] /\ forall vx vw e, (e < numel so)%nat ->
    nth e (f vx (wT fout fin vw)) 0 =
    to_ring ring (sumn fin (fun i => nth (e / fout * fin + i) vx 0 * nth (e mod fout * fin + i) vw 0)).
Proof.
  intros HP. remember (b ++ [fin]) as sx eqn:EX. remember [fin; fout] as sy eqn:EY.
  remember SMatmul as op eqn:EO.
  destruct HP as [| b1 b2 bs m k n HB| b2 k n | b1 m k | k | |]; try discriminate EO; try discriminate EY.
  - apply eq_sym in EX. apply app_last1 in EX. destruct EX as [-> ->]. apply app_two in EY. destruct EY as (-> & _ & ->).
    assert (bs = b1).
    { pose proof (bcast_complete _ _ _ HB) as E1. rewrite (bcast_complete _ _ _ (bshape_nil_r b1)) in E1. congruence. }
    subst bs. rewrite <- app_assoc. split; [reflexivity|]. intros vx vw e He. rewrite numel_app in He. cbn [numel fold_right] in He. rewrite Nat.mul_1_r in He.
    assert (fout <> 0)%nat by (intros ->; lia). assert (m <> 0)%nat by (intros ->; lia).
    unfold mm_vr. rewrite map_seq_nth by auto. cbv zeta. f_equal. apply sumn_ext'. intros i Hi.
    assert (HB' : (e / (m * fout) < numel b1)%nat) by (apply Nat.div_lt_upper_bound; nia).
    rewrite bpos_self0 by auto. rewrite bpos_nil0. rewrite Nat.mul_0_l, Nat.add_0_l.
    rewrite wT_nth by (auto; apply Nat.mod_upper_bound; auto). f_equal. f_equal. f_equal. f_equal.
    rewrite (Nat.mul_comm m fout), <- Nat.div_div by auto. rewrite (Nat.div_mod (e / fout) m) at 3 by auto. lia.
  - destruct b as [|b0 b]; [|destruct b; discriminate]. injection EX as <-. apply app_two in EY. destruct EY as (-> & _ & ->).
    split; [reflexivity|]. intros vx vw e He. cbn [app numel fold_right] in He. rewrite Nat.mul_1_r in He.
    assert (fout <> 0)%nat by (intros ->; lia).
    unfold mm_vr. rewrite map_seq_nth by (cbn [numel fold_right]; lia). cbv zeta. f_equal. apply sumn_ext'. intros i Hi.
    rewrite !bpos_nil0. rewrite (Nat.div_small e fout) by auto. rewrite (Nat.mod_small e fout) by auto.
    rewrite (Nat.mod_small 0 1) by lia. rewrite !Nat.mul_0_l, !Nat.add_0_l. rewrite wT_nth by auto. reflexivity.
Qed.

Lemma linear_product b fin fout so f : product SMatmul (b ++ [fin]) [fin; fout] so f ->
  so = b ++ [fout] /\ forall vx vw e, (e < numel so)%nat ->
    nth e (f vx (wT fout fin vw)) 0 =
    to_ring (2^64) (sumn fin (fun i => nth (e / fout * fin + i) vx 0 * nth (e mod fout * fin + i) vw 0)).
Proof. exact (linear_product_r (2^64) b fin fout so f). Qed.

Lemma bshape_last b n : bshape (b ++ [n]) [n] (b ++ [n]).
Proof.
  split; [rewrite app_length; cbn; lia|]. intros i Hi. cbv zeta. rewrite rev_app_distr. cbn [rev app].
  destruct i; cbn [nth]; auto. right. right. destruct i; auto.
Qed.
Lemma bget_last b n v e : (e < numel (b ++ [n]))%nat -> bget [n] (b ++ [n]) v e = nth (e mod n) v 0.
Proof.
  intros He. rewrite numel_app in He. cbn [numel fold_right] in He. rewrite Nat.mul_1_r in He. assert (Hn : n <> 0%nat) by (intros ->; lia).
  unfold bget. f_equal. rewrite (Nat.div_mod e n) at 1 by auto. rewrite (Nat.mul_comm n).
  replace (e / n * n + e mod n)%nat with (e / n * numel [n] + e mod n)%nat by (cbn [numel fold_right]; lia).
  rewrite unravel_app; [| apply Nat.div_lt_upper_bound; nia | cbn [numel fold_right]; rewrite Nat.mul_1_r; apply Nat.mod_upper_bound; auto].
  rewrite app_length. cbn [length]. replace (length b + 1 - 1)%nat with (length (unravel b (e / n))) by (rewrite L_Tensor.unravel_length; lia).
  rewrite skipn_app, skipn_all, Nat.sub_diag. cbn [app skipn unravel map2 ravel numel fold_right]. rewrite Nat.div_1_r, Nat.mul_1_r, Nat.add_0_r.
  destruct (Nat.eqb_spec n 1) as [->|]; [rewrite Nat.mod_1_r|]; reflexivity.
Qed.

Lemma add_bias s b fout r vr mb vb : good s (b ++ [fout]) vr r -> bias_sharing s fout vb mb ->
  exists z vz, match mb with None => Ok r | Some y => mpc_lin LAdd r y end = Ok z /\ good s (b ++ [fout]) vz z /\
    forall e, (e < numel (b ++ [fout]))%nat -> nth e vz 0 = to_ring (2^64) (nth e vr 0 + bias_at vb (e mod fout)).
Proof.
  intros GR GB. pose proof GR as (R1 & R2 & R3 & R4). destruct (shared_vals R64 supR _ _ _ R4) as (VL & VI & _).
  destruct mb as [y|], vb as [v|]; cbn [bias_sharing] in GB; try contradiction.
  - destruct GB as (B1 & B2 & B3 & B4). change (2^64) with R64 in B4. destruct (shared_vals R64 supR _ _ _ B4) as (BL & BI & _).
    destruct (mpc_lin_shared LAdd r y (b ++ [fout]) vr v) as (z & EZ & Z1 & Z2 & Z3 & Z4); try congruence.
    { rewrite R2, B2. apply bshape_last. }
    rewrite R2, B2 in Z4. exists z. eexists. split; [exact EZ|]. split; [split; [congruence|]; split; [exact Z2|]; split; [congruence|exact Z4]|].
    intros e He. cbn [s_linop]. unfold s_add. rewrite (nth_map2 _ 0 0) by (rewrite !bexpand_length; auto).
    rewrite !bexpand_nth by auto. rewrite bget_last by auto. change R64 with (2^64). rewrite <- bexpand_nth, bexpand_self by auto. reflexivity.
  - exists r, vr. split; [reflexivity|]. split; [exact GR|]. intros e He. cbn [bias_at]. rewrite Z.add_0_r.
    symmetry. apply (nth_in_ring R64); auto using supR.
Qed.

Lemma prec0_bil' s op sx sy so so' f f' x y vx vy ts prim : c_prec (s_cfg s) = 0%nat -> 0 < c_base (s_cfg s) -> (2 <= s_n s)%nat ->
  product op sx sy so f -> product (bare_op op) sx sy so' f' -> good s sx vx x -> good s sy vy y ->
  valid_triples sx sy so f (s_n s) ts -> any_masks (s_n s) so (fst prim) (snd prim) ->
  exists z, mpc_bil s (bop_of op) x y ts prim = Ok z /\ good s so (f vx vy) z.
Proof.
  intros Hp Hc Hn HP HP' (X1 & X2 & X3 & X4) (Y1 & Y2 & Y3 & Y4) HT HM.
  destruct (mpc_bil_raw s op sx sy so so' f f' Hc Hn HP HP') with (x := x) (y := y) (vx := vx) (vy := vy) (ts := ts) (prim := prim)
    as (ws & L & S & _ & ->); auto.
  apply divide_one'; auto.
Qed.

Lemma weight_t s fout fin w vw : good s [fout; fin] vw w -> exists wt, mpc_view VT w = Ok wt /\ good s [fin; fout] (wT fout fin vw) wt.
Proof.
  intros (W1 & W2 & W3 & W4). destruct (shared_vals R64 supR _ _ _ W4) as (VL & VI & _).
  destruct (mpc_view_commutes VT w vw (mkT [fin; fout] (wT fout fin vw))) as (y & E & Y1 & Y2 & Y3 & Y4 & Y5).
  - rewrite W2. exact W4.
  - rewrite W2. apply (view_spec VT [fout; fin] [fin; fout]); auto. apply vw_t.
  - exists y. split; [exact E|]. cbn [tsh tdat] in *. repeat split; try congruence; apply Y4.
Qed.
