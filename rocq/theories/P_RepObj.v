(** C19, continued: the product of two replicated share objects, without communication. *)
From Coq Require Import QArith.
From Verif Require Import Util Modular S_Ring S_Tensor S_Bil S_Rep S_RepT M_Torch L_Torch M_Encoder M_Tensor L_Tensor M_Share M_Spdz M_Rep
  S_Spdz L_Spdz L_Bil L_RShare L_Rep L_Rep2 L_Rep3 L_Rep4 L_Rep5 L_Rep6 L_Rep7 P_Rep.
Local Open Scope Z_scope.

Lemma rmap_three {A B} (g : A -> result B) a b c zs : rmap g [a; b; c] = Ok zs ->
  exists x y z, zs = [x; y; z] /\ g a = Ok x /\ g b = Ok y /\ g c = Ok z.
Proof.
  cbn [rmap]. destruct (g a) as [x|]; [|discriminate]. cbn [rbind]. destruct (g b) as [y|]; [|discriminate]. cbn [rbind].
  destruct (g c) as [z|]; [|discriminate]. cbn [rbind]. intros E. injection E as <-. eauto 10.
Qed.

(** with a mask of zeros the masked product is the product *)
Lemma compute_z_zero ring op sx sy so f c d u w x0 x1 y0 y1 (Hs : supported ring) : product_r ring op sx sy so f -> rep_op ring op ->
  tensor_in ring sx x0 -> tensor_in ring sx x1 -> tensor_in ring sy y0 -> tensor_in ring sy y1 ->
  exists z, multiplication_protocol (bop_of op) (mkR ring c u [x0; x1]) (mkR ring d w [y0; y1]) = Ok z /\ tensor_in ring so z /\
    forall e, nth e (tdat z) 0 == nth e (f (tdat x0) (tdat y0)) 0 + nth e (f (tdat x1) (tdat y0)) 0 + nth e (f (tdat x0) (tdat y1)) 0 [mod ring].
Proof.
  intros HP HO X0 X1 Y0 Y1. destruct (rep_op_get ring Hs op HO) as (o & fn & EO & EG).
  unfold multiplication_protocol. rewrite EO. cbn [rbind r_ring r_shares]. rewrite EG. cbn [rbind].
  unfold get_nth. cbn [nth_error rbind].
  rewrite !(product_tbil ring Hs op sx sy so f) by auto. cbn [rbind].
  assert (HF : Forall (tensor_in ring so) [mkT so (f (tdat x0) (tdat y0)); mkT so (f (tdat x1) (tdat y0)); mkT so (f (tdat x0) (tdat y1))]).
  { repeat constructor; try (eapply product_in_r; eauto). }
  rewrite (tsum_spec ring Hs so) by (auto; discriminate). eexists. split; [reflexivity|].
  assert (SI : vec_in ring (s_sum ring (numel so) (map tdat [mkT so (f (tdat x0) (tdat y0)); mkT so (f (tdat x1) (tdat y0)); mkT so (f (tdat x0) (tdat y1))]))) by (apply s_sum_in; auto).
  split.
  - split; [reflexivity|]. cbn [tdat]. split; [apply s_sum_length|exact SI].
  - intros e. cbn [tdat]. destruct (Nat.lt_ge_cases e (numel so)) as [He|He].
    + rewrite s_sum_nth by auto. rewrite to_ring_eqmod by (apply supported_pos; exact Hs). cbn [map zsum tdat]. apply eqmod_eq. lia.
    + assert (ZL : forall va vb, nth e (f va vb) 0 = 0).
      { intros va vb. apply nth_overflow. destruct (product_in_r ring Hs _ _ _ _ _ va vb HP) as (_ & L & _). cbn [tdat] in L. lia. }
      rewrite !ZL. rewrite nth_overflow by (rewrite s_sum_length; auto). reflexivity.
Qed.

(** what the product of two objects (by the operator) gives at party [k] of three: [x] and [y] are the
    objects it holds; one tensor, with the ring, session and (in the rings 2^8 to 2^64) configuration of the first object.  The
    three tensors add up to the product: each party has an additive share, not a replicated one. *)
Theorem C19_objects : forall ring s sx sy so f c d vx vy x y, supported ring -> rs_n s = 3%nat ->
  product_r ring S_Bil.SMul sx sy so f -> holds s ring c sx vx x -> holds s ring d sy vy y ->
  exists zs, rmap (fun p => rst_mul (mkPC (Z.of_nat (fst p)) 3) (fst (snd p)) (snd (snd p)))
                  (combine (seq 0 3) (combine (rm_ps x) (rm_ps y))) = Ok zs /\
    Forall2 (fun z p => length (r_shares z) = 1%nat /\ r_ring z = ring /\ (ring <> 2 -> ring <> 67 -> r_cfg z = r_cfg p) /\ r_uuid z = r_uuid p) zs (rm_ps x) /\
    shared ring so (f vx vy) (concat (map r_shares zs)).
Proof.
  intros ring s sx sy so f c d vx vy x y Hs Hn HP HX HY.
  assert (HO : rep_op ring S_Bil.SMul) by (left; reflexivity).
  destruct (holds_views _ _ _ _ _ _ HX) as (xs & cf & Hxs & Lx & -> & _ & HU).
  destruct (holds_views _ _ _ _ _ _ HY) as (ys & cg & Hys & Ly & -> & _).
  pose proof (shared_vals ring Hs _ _ _ Hxs) as (_ & _ & XN). pose proof (shared_vals ring Hs _ _ _ Hys) as (_ & _ & YN).
  destruct Hxs as (_ & X2 & _), Hys as (_ & Y2 & _). rewrite Hn in Lx, Ly.
  destruct (three xs Lx) as (x0 & x1 & x2 & ->), (three ys Ly) as (y0 & y1 & y2 & ->).
  inversion X2 as [|? ? X2a X2']; inversion X2' as [|? ? X2b X2'']; inversion X2'' as [|? ? X2c _]; subst; clear X2 X2' X2''.
  inversion Y2 as [|? ? Y2a Y2']; inversion Y2' as [|? ? Y2b Y2'']; inversion Y2'' as [|? ? Y2c _]; subst; clear Y2 Y2' Y2''.
  cbn [rm_ps]. rewrite !rviews3.
  destruct (compute_z_zero ring S_Bil.SMul sx sy so f (cf 0%nat) (cg 0%nat) (Some (rs_uuid s 0)) (Some (rs_uuid s 0)) x0 x1 y0 y1 Hs) as (z0 & E0 & T0 & N0); auto.
  destruct (compute_z_zero ring S_Bil.SMul sx sy so f (cf 1%nat) (cg 1%nat) (Some (rs_uuid s 1)) (Some (rs_uuid s 1)) x1 x2 y1 y2 Hs) as (z1 & E1 & T1 & N1); auto.
  destruct (compute_z_zero ring S_Bil.SMul sx sy so f (cf 2%nat) (cg 2%nat) (Some (rs_uuid s 2)) (Some (rs_uuid s 2)) x2 x0 y2 y0 Hs) as (z2 & E2 & T2 & N2); auto.
  cbn [bop_of] in E0, E1, E2. cbn [seq combine rmap fst snd]. unfold rst_mul, rst_check. cbn [r_uuid r_shares r_ring length]. rewrite !Nat.eqb_refl, Z.eqb_refl. cbn [negb rbind].
  rewrite !(get_op_mul ring Hs). cbn [rbind ctx_of r_uuid pc_nr Nat.eqb]. rewrite E0, E1, E2. cbn [rbind].
  eexists. split; [reflexivity|]. split.
  { assert (G : forall k a, r_ring a = ring -> length (r_shares (rst_like a [k])) = 1%nat /\ r_ring (rst_like a [k]) = ring /\
      (ring <> 2 -> ring <> 67 -> r_cfg (rst_like a [k]) = r_cfg a) /\ r_uuid (rst_like a [k]) = r_uuid a).
    { intros k a Ea. split; [reflexivity|]. split; [exact Ea|]. split; [|reflexivity]. intros A B.
      unfold rst_like, rst_make. cbn [r_cfg]. unfold rst_cfg, PRIME. rewrite Ea. apply Z.eqb_neq in A, B. rewrite A, B. reflexivity. }
    constructor; [apply G; reflexivity|]. constructor; [apply G; reflexivity|]. constructor; [apply G; reflexivity|]. constructor. }
  cbn [map r_shares rst_like rst_make concat app].
  destruct (product_nth ring Hs _ _ _ _ _ HP) as (ix & HL & HN).
  destruct (product_in_r ring Hs _ _ _ _ _ vx vy HP) as (_ & P2 & P3). cbn [tdat] in P2, P3.
  apply (shared_intro ring Hs); auto.
  - discriminate.

  - intros e He. cbn [map zsum]. rewrite N0, N1, N2.
    rewrite (HN vx vy) by auto. rewrite !HN by auto.
    assert (EB : Bf (nth e ix []) (fun i => nth i vx 0) (fun i => nth i vy 0) ==
      Bf (nth e ix []) (fun i => nth i (tdat x0) 0 + (nth i (tdat x1) 0 + (nth i (tdat x2) 0 + 0)))
                    (fun i => nth i (tdat y0) 0 + (nth i (tdat y1) 0 + (nth i (tdat y2) 0 + 0))) [mod ring]).
    { apply Bf_cong; intros i; [rewrite (XN i) | rewrite (YN i)]; reflexivity. }
    etransitivity; [exact EB|]. rewrite Bf_three. apply eqmod_eq. ring.
Qed.

Print Assumptions C19_objects.

(* 3 * -5 and 2^62 * 4 (which wraps to 0): the additive shares of the parties *)
Definition C19_ox : rmpc := rx RS3 (2^64) c16 [2%nat] [[1; 2^61]; [7; 2^61]; [-5; 0]].
Definition C19_oy : rmpc := rx RS3 (2^64) c16 [2%nat] [[2; 1]; [-3; 1]; [-4; 2]].
Example C19_objects_witness : supported (2^64) /\ rs_n RS3 = 3%nat /\ product_r (2^64) S_Bil.SMul [2%nat] [2%nat] [2%nat] (mul_vr (2^64) [2%nat] [2%nat] [2%nat]) /\
  holds RS3 (2^64) c16 [2%nat] [3; 2^62] C19_ox /\ holds RS3 (2^64) c16 [2%nat] [-5; 4] C19_oy /\
  (do zs <- rmap (fun p => rst_mul (mkPC (Z.of_nat (fst p)) 3) (fst (snd p)) (snd (snd p)))
                 (combine (seq 0 3) (combine (rm_ps C19_ox) (rm_ps C19_oy))); Ok (map r_shares zs)) =
  Ok [[mkT [2%nat] [13; 3 * 2^61]]; [mkT [2%nat] [-34; 3 * 2^61]]; [mkT [2%nat] [6; 2^62]]].
Proof. split; [sup|]. split; [reflexivity|]. split; [apply prod_mul_r; apply bcast_spec; reflexivity|]. split; [rx|]. split; [rx|]. vm_compute. reflexivity. Qed.
