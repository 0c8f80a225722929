(** C45: gradients of broadcast operands.  Specification: S_Grad ([broadcasts], [inner]) and
    S_Tensor ([bexpand]: the operand seen in the larger shape). *)
From Verif Require Import Util Modular S_Ring S_Tensor S_Bil S_Grad M_Encoder M_Torch L_Torch M_Tensor L_Tensor M_Share L_Share L_View M_Grad L_Grad.
From Verif Require L_Rep6.
Local Open Scope Z_scope.

Lemma bexpand_nth_lead w lead s y p e : length w = length s -> (p < numel lead)%nat -> (e < numel s)%nat ->
  nth (p * numel s + e) (bexpand w (lead ++ s) y) 0 = nth (pos w s e) y 0.
Proof.
  intros HL Hp He. rewrite bexpand_nth by (rewrite numel_app; nia). unfold bget, pos.
  rewrite unravel_app by auto. rewrite app_length. replace (length lead + length s - length w)%nat with (length (unravel lead p)) by (rewrite unravel_length; lia).
  rewrite skipn_app, skipn_all, Nat.sub_diag. reflexivity.
Qed.

(** The gradient summed back has the operand's shape, and summing back is the adjoint of
    broadcasting.  No dimension of size 1 may be broadcast to an empty one. *)
Theorem C45_adjoint_partial : forall w so x g, broadcasts w so -> Forall (fun d => d <> 0%nat) so ->
  m_shape x = so -> shared (2^64) so g (m_shares x) ->
  exists r t, reverse_broadcast x w = Ok r /\ m_sid r = m_sid x /\ m_shape r = w /\ length (m_shares r) = length (m_shares x) /\
    shared (2^64) w t (m_shares r) /\ reconstruct r = Ok (mkT w t) /\
    forall y, length y = numel w -> inner (bexpand w so y) g == inner y t [mod 2^64].
Proof.
  intros w so x g (lead & s & -> & HB) HN HM HS. change (2^64) with R64 in *.
  assert (HF : fits1 w s).
  { apply Forall_app in HN. destruct HN as [_ HN]. clear -HB HN. induction HB as [|m n w s H HB IH]; constructor; inversion HN; subst; auto.
    - destruct H as [->| ->]; [left; reflexivity|]. destruct (Nat.eq_dec n 1); [left|right]; lia.
    - apply IH; auto. }
  assert (HL : length w = length s) by (clear -HF; induction HF; cbn; auto).
  destruct (shared_vals R64 supR _ _ _ HS) as (GL & GV & _).
  assert (STEP : exists x' g', (if Nat.ltb (length w) (length (m_shape x)) then mpc_view (VSumFirst (length (m_shape x) - length w)) x else Ok x) = Ok x' /\
    m_sid x' = m_sid x /\ m_shape x' = s /\ length (m_shares x') = length (m_shares x) /\ shared R64 s g' (m_shares x') /\
    forall e, (e < numel s)%nat -> nth e g' 0 == sumn (numel lead) (fun p => nth (p * numel s + e)%nat g 0) [mod R64]).
  { destruct (Nat.ltb_spec (length w) (length (m_shape x))) as [LT|GE]; rewrite HM, app_length in *.
    - replace (length lead + length s - length w)%nat with (length lead) by lia.
      destruct (first_spec lead s g GL GV) as (g' & EV & HG). rewrite <- HM in HS, EV.
      destruct (mpc_view_commutes _ _ _ _ HS EV) as (x' & EX & X1 & X2 & X3 & X4 & X5). cbn [tsh tdat] in *.
      exists x', g'. auto 10.
    - assert (lead = []) by (destruct lead; [reflexivity|cbn in GE; lia]). subst lead. cbn [app] in *.
      exists x, g. do 5 (split; [auto|]). intros e He. rewrite sumn_1. reflexivity. }
  destruct STEP as (x' & g' & E1 & I1 & M1 & L1 & S1 & V1).
  destruct (rb_loop_ok w s HF [] x' g') as (r & t & R1 & R2 & R3 & R4 & R5 & R6); [exact M1|exact S1|].
  exists r, t. cbn [length app] in *. split.
  { unfold reverse_broadcast. rewrite E1. cbn [rbind]. rewrite M1. exact R1. }
  split; [congruence|]. split; [exact R3|]. split; [congruence|]. split; [exact R5|].
  split; [apply (shared_tsum R64 supR); exact R5|].
  intros y Hy. destruct (shared_vals R64 supR _ _ _ R5) as (TL & _ & _).
  unfold inner. rewrite (zsum_map2_mul _ _ (numel (lead ++ s))) by (auto; apply bexpand_length).
  rewrite (zsum_map2_mul _ _ (numel w)) by auto.
  specialize (R6 y). cbn [numel fold_right] in R6. change (fold_right Nat.mul 1%nat w) with (numel w) in R6. rewrite Nat.mul_1_l in R6.
  rewrite <- R6, sumn_1. rewrite numel_app, sumn_mul.
  etransitivity; [apply eqmod_eq, sumn_swap|]. apply sumn_eqmod. intros e He. rewrite Nat.mul_0_l. cbn [plus].
  rewrite (V1 e He), <- sumn_scale. apply eqmod_eq. apply sumn_ext. intros p Hp.
  rewrite bexpand_nth_lead by auto. reflexivity.
Qed.
Print Assumptions C45_adjoint_partial.

(** the result is determined by that: choosing unit vectors for y gives every element of it *)
Definition gx : mpc := mkM 3 [2; 2; 3]%nat
  [mkT [2; 2; 3]%nat [1; 2; 3; 4; 5; 6; 7; 8; 9; 10; 11; 2^63 - 1]; mkT [2; 2; 3]%nat [0; 0; 0; 0; 0; 0; 0; 0; 0; 0; 0; 13]].
Example C45_witness : broadcasts [2; 1]%nat [2; 2; 3]%nat /\ Forall (fun d => d <> 0%nat) [2; 2; 3]%nat /\
  shared (2^64) [2; 2; 3]%nat [1; 2; 3; 4; 5; 6; 7; 8; 9; 10; 11; -2^63 + 12] (m_shares gx) /\
  (do r <- reverse_broadcast gx [2; 1]%nat; reconstruct r) = Ok (mkT [2; 1]%nat [30; -2^63 + 48]) /\
  (do r <- reverse_broadcast gx [3]%nat; reconstruct r) = Ok (mkT [3]%nat [22; 26; -2^63 + 30]).
Proof.
  split. { exists [2%nat], [2; 3]%nat. split; [reflexivity|]. constructor; [left; reflexivity|]. constructor; [right; reflexivity|constructor]. }
  split; [repeat constructor; discriminate|]. split; [apply L_Rep6.sharedb_ok; vm_compute; reflexivity|].
  split; vm_compute; reflexivity.
Qed.

(** an operand of shape (1,) broadcast against an empty tensor gets a gradient of shape (0,) *)
Theorem C45_empty_refuted : exists w so x g r, broadcasts w so /\ m_shape x = so /\ shared (2^64) so g (m_shares x) /\
  reverse_broadcast x w = Ok r /\ m_shape r <> w.
Proof.
  exists [1%nat], [0%nat], (mkM 3 [0%nat] [mkT [0%nat] []; mkT [0%nat] []]), []. eexists.
  split. { exists [], [0%nat]. split; [reflexivity|]. constructor; [right; reflexivity|constructor]. }
  split; [reflexivity|]. split; [apply L_Rep6.sharedb_ok; vm_compute; reflexivity|]. split; [vm_compute; reflexivity|discriminate].
Qed.
Print Assumptions C45_empty_refuted.
