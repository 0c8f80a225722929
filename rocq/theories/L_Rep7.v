(** Lemmas for the replicated property theorems: errors in a verified multiplication,
    consistency of distributed shares. *)
From Coq Require Import QArith Setoid Morphisms.
From Verif Require Import Util Modular S_Ring S_Tensor S_Bil S_Spdz S_Rep M_Torch L_Torch M_Encoder M_Tensor L_Tensor M_Share L_Share M_Spdz L_Spdz L_Bil
  L_RShare L_Mul M_Session L_Session M_Rep S_RepT L_Rep L_Rep2 L_Rep3 L_Rep4 L_Rep5 L_Rep6.
Local Open Scope Z_scope.

Lemma nth_error_in_range {A} (l : list A) k a : nth_error l k = Some a -> (k < length l)%nat.
Proof. intros H. apply nth_error_Some. congruence. Qed.

(** what the parties receive *)
Lemma distribute_views s ss ring c : length ss = rs_n s -> (1 <= rs_n s)%nat ->
  exists ps, rst_distribute s ss (Some ring) (Some c) = Ok (Sent ps) /\ length ps = rs_n s /\
    forall k p, nth_error ps k = Some p ->
      r_ring p = ring /\ r_uuid p = Some (rs_uuid s k) /\ length (r_shares p) = (rs_n s - 1)%nat /\
      forall i, (i < rs_n s - 1)%nat -> nth_error (r_shares p) i = nth_error ss ((k + i) mod rs_n s).
Proof.
  intros HL Hn. exists (rviews s ring (fun _ => rst_cfg ring c) ss).
  split; [apply rst_distribute_ok; auto|]. split; [rewrite rviews_length; auto|].
  intros k p E. pose proof (nth_error_in_range _ _ _ E) as Hk. rewrite rviews_length in Hk.
  pose proof (rviews_get s ring (fun _ => rst_cfg ring c) ss k Hk) as G. unfold get_nth in G. rewrite E in G.
  injection G as ->. cbn [r_ring r_uuid r_shares]. split; [reflexivity|]. split; [reflexivity|].
  split; [rewrite rep_view_length; lia|]. intros i Hi.
  assert (Hm : ((k + i) mod rs_n s < length ss)%nat) by (rewrite HL; apply Nat.mod_upper_bound; lia).
  rewrite (nth_error_nth' _ dT) by (rewrite rep_view_length; lia).
  rewrite (nth_error_nth' ss dT) by auto. rewrite rep_view_nth by lia. rewrite HL. reflexivity.
Qed.

(** reconstruction of what was distributed *)
Lemma distribute_reconstruct s ss ring c sh v mal : supported ring -> length ss = rs_n s -> (2 <= rs_n s)%nat ->
  shared ring sh v ss ->
  exists ps, rst_distribute s ss (Some ring) (Some c) = Ok (Sent ps) /\
    replicated ring sh v (map r_shares ps) /\ rst_reconstruct mal ps = Ok (mkT sh v).
Proof.
  intros Hs HL Hn HS. exists (rviews s ring (fun _ => rst_cfg ring c) ss).
  split; [apply rst_distribute_ok; auto; lia|]. split.
  - rewrite rviews_shares. exists ss. auto.
  - apply reconstruct_views; auto. lia.
Qed.

Section Ring.
  Variable ring : Z.
  Hypothesis Hs : supported ring.
  Let Hp : 0 < ring := supported_pos ring Hs.

  Lemma s_add_zero_iff v m : length v = length m -> vec_in ring v -> vec_in ring m ->
    s_add ring v m = v -> m = repeat 0 (length m).
  Proof.
    revert m. unfold s_add. induction v as [|a v IH]; intros [|b m] HL HV HM E; cbn [map2 length repeat] in *; auto; try lia.
    inversion HV; inversion HM; subst. injection E as E1 E2. f_equal; [|apply IH; auto].
    apply (in_ring_eq ring); auto.
    - destruct (supported_cases _ Hs) as [->|[->|[->|[->|[->| ->]]]]]; reflexivity.
    - apply (eqmod_add_cancel_l _ a). rewrite <- (to_ring_eqmod ring (a + b)) by apply Hp. rewrite E1. apply eqmod_eq. lia.
  Qed.

  (** a wrong product, by whatever error [vm] added to its shares, is refused *)
  Lemma rm_bil_error s op sx sy so f cx cy ca cb cc vx vy vm va vb x y a b c masks rnd :
    rs_n s = 3%nat -> rs_mal s = true -> product_r ring op sx sy so f -> rep_op ring op ->
    holds s ring cx sx vx x -> holds s ring cy sy vy y ->
    holds s ring ca sx va a -> holds s ring cb sy vb b -> holds s ring cc so (f va vb) c ->
    length masks = 3%nat -> shared ring so vm masks -> vm <> repeat 0 (numel so) ->
    rm_bil s (bop_of op) x y (mkSup masks rnd (mkRT (rm_ps a) (rm_ps b) (rm_ps c))) = Err ValueError.
  Proof.
    intros Hn HM HP HO HX HY HA HB HC LM SM NE.
    destruct (holds_views _ _ _ _ _ _ HX) as (xs & fx & Hxs & Lx & EX & Ex & _).
    destruct (holds_views _ _ _ _ _ _ HY) as (ys & fy & Hys & Ly & EY & _).
    unfold rm_bil. pose proof HX as (S1 & S2 & _). pose proof HY as (S3 & S4 & _).
    rewrite S1, S3, Nat.eqb_refl. cbn [negb].
    destruct (rep_op_get ring Hs op HO) as (o & fn & EO & EG). rewrite EO, Hn. cbn [negb Nat.eqb].
    unfold first_ring. rewrite EX at 1. cbn [rm_ps]. rewrite (rviews_get s ring fx xs 0) by lia. cbn [rbind r_ring r_cfg su_mask].
    destruct (falcon_z_mask ring Hs s op sx sy so f fx fy vx vy vm xs ys masks HP HO ltac:(lia) ltac:(lia) LM Hxs Hys SM
      (rs_id s) (rs_id s) sx sy) as (zs & EZ & LZ & SZ).
    rewrite EX at 1. rewrite EY at 1. rewrite EZ. cbn [rbind]. rewrite S2, S4.
    destruct (product_index_r ring _ _ _ _ _ HP) as (ix & EI & _). unfold shape_bil. rewrite EI. cbn [rbind]. rewrite HM.
    unfold falcon_reshare. cbn [fst snd]. rewrite rst_distribute_ok by lia. cbn [rbind received su_tri].
    set (z := mkRM _ _ _).
    assert (HZ : holds s ring (rst_cfg ring (fx 0%nat)) so (s_add ring (f vx vy) vm) z).
    { apply views_holds; [auto|lia|]. intros k _. apply rst_cfg_idem. }
    pose proof (shared_vals ring Hs _ _ _ SM) as (VM & IM & _).
    destruct (product_in_r ring Hs _ _ _ _ _ vx vy HP) as (_ & PL & PI). cbn [tdat] in PL, PI.
    rewrite (falcon_verify_ok ring Hs s op sx sy so f cx cy (rst_cfg ring (fx 0%nat)) ca cb cc vx vy (s_add ring (f vx vy) vm) va vb x y z a b c Hn HP HO); auto.
    destruct (list_eq_dec Z.eq_dec _ _) as [E|]; [|reflexivity]. exfalso. apply NE.
    rewrite <- VM. apply (s_add_zero_iff (f vx vy)); auto. congruence.
  Qed.
End Ring.
