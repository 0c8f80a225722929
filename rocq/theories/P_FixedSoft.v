(** C79: softmax with the default encoder. *)
From Coq Require Import QArith Reals Qreals Lra String.
From Verif Require Import Util Modular S_Ring S_Tensor S_Wraps S_Div S_Bil S_Spdz S_Circuit S_Fss S_Sort S_Real S_Fixed
  M_Torch M_Encoder M_Tensor M_Share M_Spdz M_Store M_Fss M_Engine M_Approx M_Softmax
  L_Torch L_Tensor L_Encoder L_Share L_Div L_Bil L_Mul L_Rsub L_Circuit L_Fss2 L_Fss3 L_Engine L_Real L_Softmax L_Fixed L_Fixed2 L_Fixed3 L_FixedSoft P_Fss P_Sort P_Fixed.
From Verif Require Import S_Softmax.
Local Open Scope Z_scope.
Local Open Scope list_scope.

(** the line at a position: the real numbers that the elements of the tensors [vs] stand for *)
Definition line_R (s : sess) (vs : list (list Z)) (e : nat) : list R := map (fun v => fixed (s_cfg s) (nth e v 0)) vs.


(** one entry of the line is larger than all others *)
Definition one_top (l : list R) : Prop := exists m, In m l /\ largest l m /\ count_occ Req_EM_T l m = 1%nat.

Lemma shares_goods s sh vs xs : Forall2 (shares_of s sh) vs xs -> Forall (Forall (fun a => Z.abs a <= 249 * 65536)) vs ->
  Forall2 (L_Circuit.good s sh) vs xs /\ Forall (sharing s sh) xs.
Proof.
  induction 1 as [|v x vs xs H F IH]; intros HV; [split; constructor|]. inversion HV as [|? ? HV1 HV2]; subst. destruct (IH HV2) as [A B].
  destruct (sharing_of s sh x v H) as [G _]; [eapply Forall_impl; [|exact HV1]; cbn; intros; lia|].
  split; constructor; auto. exists v. exact G.
Qed.
Lemma goods_dec s sh e vs xs : (e < numel sh)%nat -> Forall2 (L_Circuit.good s sh) vs xs -> map (dec s e) xs = line_R s vs e.
Proof.
  intros He. induction 1 as [|v x vs xs H F IH]; [reflexivity|]. cbn [map line_R]. f_equal; [|exact IH]. unfold dec. rewrite (good_at s sh e He _ _ H). reflexivity.
Qed.
Lemma sharings_goods s sh xs : Forall (sharing s sh) xs -> exists vs, Forall2 (L_Circuit.good s sh) vs xs.
Proof.
  induction 1 as [|x xs (v & H) F (vs & IH)]; [exists []; constructor|]. exists (v :: vs). constructor; auto.
Qed.

(** C79 for two parties with the default encoder, every backend, sharing and supply of valid
    triples, and 2 to 48 non-empty tensors of the same shape with secrets from -249 to 249 whose
    largest entry occurs once at each position: softmax never raises, and if no shares carried
    then at each position the results add up to 1 within n / 380, none is below -6 units, and
    each is within 1/25 + 3n/1000 of softmax. Missing from the full statement: carrying shares,
    ties and wide spreads (refuted below), more entries, replicated secrets. *)
Theorem C79_softmax_partial : forall K alpha ev (gen : fop -> nat -> nat -> result (list (list K))) s su sh z xs vs w,
  backend_ok alpha ev gen -> default_pair s -> supply_ok sh su -> sh <> [] -> (0 < numel sh)%nat ->
  (2 <= length xs <= 48)%nat -> Forall2 (shares_of s sh) vs xs -> Forall (Forall (fun a => Z.abs a <= 249 * 65536)) vs ->
  (forall e, (e < numel sh)%nat -> one_top (line_R s vs e)) -> none_waiting (fst w) ->
  exists ps w' noted qs, softmax (mpc_engine alpha ev gen s su) z xs w = (Ok ps, w') /\
    softmax (noted_engine alpha ev gen s su) z xs (w, false) = (Ok ps, (w', noted)) /\ none_waiting (fst w') /\
    length ps = length xs /\ Forall2 (shares_of s sh) qs ps /\ Forall (Forall (fun a => - 2^63 <= a < 2^63)) qs /\
    (noted = false -> forall e, (e < numel sh)%nat ->
       Forall2 (fun x p => Rabs (p - softmax_at (line_R s vs e) x) <= 1 / 25 + 3 * INR (length xs) / 1000 /\ - 6 / 65536 <= p)%R (line_R s vs e) (line_R s qs e) /\
       (Rabs (rsum (line_R s qs e) - 1) <= INR (length xs) / 380)%R).
Proof.
  intros K alpha ev gen s su sh z xs vs w HG [Hn Hc] [HT HR] Hsh HN HL HX HV HO HW.
  destruct (shares_goods s sh vs xs HX HV) as [GX SX].
  pose proof (fun e He => softmax_f alpha ev gen s su sh e HG Hn Hc Hsh HT HR He z xs HL SX) as H.
  destruct (H 0%nat HN w false HW) as (ps & w' & b' & E0 & E & N & _ & [SP LP] & _).
  destruct (sharings_goods s sh ps SP) as (qs & GP).
  exists ps, w', b', qs. split; [exact E0|]. split; [exact E|]. split; [exact N|]. split; [exact LP|].
  assert (SQ : Forall2 (shares_of s sh) qs ps /\ Forall (Forall (fun a => - 2^63 <= a < 2^63)) qs).
  { clear - GP. induction GP as [|v x l k G F [A B]]; [split; constructor|]. destruct (sharing_to s sh x v G). split; constructor; auto. }
  destruct SQ as [SQ1 SQ2]. split; [exact SQ1|]. split; [exact SQ2|]. intros HB e He.
  destruct (H e He w false HW) as (ps' & w'' & b'' & F0 & F1 & _ & _ & _ & Q). rewrite E0 in F0. injection F0 as <- <-.
  rewrite E in F1. injection F1 as <-. specialize (Q HB). rewrite <- (goods_dec s sh e qs ps He GP), <- (goods_dec s sh e vs xs He GX).
  destruct Q as [Q1 Q2].
  - intros x Ix. apply (in_map (dec s e)) in Ix. rewrite (goods_dec s sh e vs xs He GX) in Ix. apply in_map_iff in Ix. destruct Ix as (v & <- & Iv).
    rewrite Forall_forall in HV. specialize (HV v Iv).
    assert (A : Z.abs (nth e v 0) <= 249 * 65536).
    { destruct (Nat.lt_ge_cases e (length v)) as [Hl|Hl]; [rewrite Forall_forall in HV; apply HV, nth_In, Hl|rewrite nth_overflow by lia; cbn; lia]. }
    apply IZR_le in A. rewrite abs_IZR, mult_IZR in A. unfold fixed. rewrite (S_val s Hc). unfold Rdiv. rewrite Rabs_mult, (Rabs_right (/ 65536)) by lra. lra.
  - rewrite (goods_dec s sh e vs xs He GX). apply HO. exact He.
  - split; [|exact Q2]. apply Forall2_maps. eapply Forall2_imp; [exact Q1|]. cbn. intros x p _ _ [A B]. split; [exact A|]. lra.
Qed.
Print Assumptions C79_softmax_partial.

(** 1, 3 and 2: 0.0895, 0.6659 and 0.2446 (softmax: 0.0900, 0.6652, 0.2447) *)
Definition fs_x (v : Z) : mpc := fx_x (10^18) [v].
Definition fs_run (l : list Z) : result (list tensor) * bool :=
  let p := softmax (noted_engine t_alpha t_ev toy fx_s toy_supply) (fs_x 0) (map fs_x l) (fw0, 0%nat, false) in
  (do l <- fst p; rmap reconstruct l, snd (snd p)).

Ltac one_share := repeat (split; [reflexivity|]); split; [discriminate|]; split; [repeat constructor; discriminate|reflexivity].
Definition C79_vs : list (list Z) := [[65536]; [196608]; [131072]].
Example C79_witness :
  backend_ok t_alpha t_ev toy /\ default_pair fx_s /\ supply_ok [1%nat] toy_supply /\ none_waiting (fst (fw0, 0%nat)) /\
  Forall2 (shares_of fx_s [1%nat]) C79_vs (map fs_x [65536; 196608; 131072]) /\
  Forall (Forall (fun a => Z.abs a <= 249 * 65536)) C79_vs /\
  (forall e, (e < numel [1%nat])%nat -> one_top (line_R fx_s C79_vs e)) /\
  fs_run [65536; 196608; 131072] = (Ok [mkT [1%nat] [5863]; mkT [1%nat] [43641]; mkT [1%nat] [16032]], false).
Proof.
  split; [exact toy_good|]. split; [split; reflexivity|]. split; [exact fx_supply1|]. split; [exact fw0_none|].
  split; [constructor; [one_share|constructor; [one_share|constructor; [one_share|constructor]]]|].
  split; [repeat constructor; discriminate|]. split.
  - intros e He. assert (E : e = 0%nat) by (cbn in He; lia). subst e.
    assert (L : line_R fx_s C79_vs 0 = [1; 3; 2]%R).
    { unfold line_R, C79_vs, fixed. cbn [map nth]. change (scale (s_cfg fx_s)) with 65536. f_equal; [|f_equal; [|f_equal]]; lra. }
    rewrite L. exists 3%R. split; [cbn; auto|]. split; [intros y [<-|[<-|[<-|[]]]]; lra|].
    cbn [count_occ]. destruct (Req_EM_T 1 3); [lra|]. destruct (Req_EM_T 3 3); [|lra]. destruct (Req_EM_T 2 3); [lra|reflexivity].
  - vm_compute. reflexivity.
Qed.

(** C79 refuted for ties and for wide spreads, with shares that do not carry: the two results
    for 20 and 20 are 0 (softmax: 1/2 each), the first result for 0 and -600 is about 1.7 * 10^9
    (softmax: about 1). *)
Theorem C79_softmax_refuted : exists (gen : fop -> nat -> nat -> result (list (list tkey))) s su z x x' y y' ps qs w w1 w2,
  backend_ok t_alpha t_ev gen /\ default_pair s /\ supply_ok [1%nat] su /\ none_waiting (fst w) /\
  shares_of s [1%nat] [20 * 65536] x /\ shares_of s [1%nat] [20 * 65536] x' /\ shares_of s [1%nat] [0] y /\ shares_of s [1%nat] [-600 * 65536] y' /\
  softmax (noted_engine t_alpha t_ev gen s su) z [x; x'] (w, false) = (Ok ps, (w1, false)) /\
  rmap reconstruct ps = Ok [mkT [1%nat] [0]; mkT [1%nat] [0]] /\ softmax_at [20; 20]%R 20%R = (1 / 2)%R /\
  softmax (noted_engine t_alpha t_ev gen s su) z [y; y'] (w, false) = (Ok qs, (w2, false)) /\
  rmap reconstruct qs = Ok [mkT [1%nat] [109909022985020]; mkT [1%nat] [-93747683959766]].
Proof.
  exists toy, fx_s, toy_supply, (fs_x 0), (fs_x (20 * 65536)), (fs_x (20 * 65536)), (fs_x 0), (fs_x (-600 * 65536)). eexists _, _, (fw0, 0%nat), _, _.
  split; [exact toy_good|]. split; [split; reflexivity|]. split; [exact fx_supply1|]. split; [exact fw0_none|].
  do 4 (split; [one_share|]).
  split; [vm_compute; reflexivity|]. split; [vm_compute; reflexivity|]. split.
  - unfold softmax_at. cbn [map rsum fold_right]. pose proof (exp_pos 20). field. lra.
  - split; [vm_compute; reflexivity|]. vm_compute. reflexivity.
Qed.
Print Assumptions C79_softmax_refuted.

Lemma map_repeat' {A B} (f : A -> B) a n : map f (repeat a n) = repeat (f a) n.
Proof. induction n as [|n IH]; [reflexivity|]. cbn. now rewrite IH. Qed.
(** C79 for one entry: exactly the encoded 1 at every position, for every number of parties and
    every encoder (the sharing of zero plus 1), whatever the entry is. *)
Theorem C79_single : forall K alpha ev (gen : fop -> nat -> nat -> result (list (list K))) s su sh z x w,
  sh <> [] -> shares_of s sh (repeat 0 (numel sh)) z ->
  exists p, softmax (mpc_engine alpha ev gen s su) z [x] w = (Ok [p], w) /\ shares_of s sh (repeat (scale (s_cfg s)) (numel sh)) p.
Proof.
  intros K alpha ev gen s su sh z x w Hsh (Z1 & Z2 & Z3 & Z4).
  destruct (mpc_lin_public_value s LAdd z (PNum (NInt 1)) (map (to_ring (2^64)) (repeat 0 (numel sh))) sh) as (p & E & P1 & P2 & P3 & _ & P5); rewrite ?Z2; auto.
  { exact I. } { apply bshape_scalar. auto. }
  exists p. split.
  { unfold softmax, cbind, lift. cbn [e_linp mpc_engine]. unfold lift. rewrite E. reflexivity. }
  split; [congruence|]. split; [congruence|]. split; [congruence|]. specialize (P5 (eq_sym Z2)). rewrite Z2 in P5. cbn [pub_shape pub_vals] in P5.
  change (encode (s_cfg s) [NInt 1]) with [to_ring R64 (1 * scale (s_cfg s))] in P5. rewrite Z.mul_1_l in P5.
  assert (LZ : length (map (to_ring (2^64)) (repeat 0 (numel sh))) = numel sh) by (rewrite map_length, repeat_length; reflexivity).
  rewrite bexpand_self in P5 by exact LZ.
  rewrite (linop_vals' sh LAdd _ _ (fun _ => 0) (fun _ => scale (s_cfg s))) in P5; auto.
  - replace (map (to_ring (2^64)) (repeat (scale (s_cfg s)) (numel sh))) with (vals sh (fun _ => linz LAdd 0 (scale (s_cfg s)))); [exact P5|].
    unfold vals. cbn [linz]. rewrite Z.add_0_l. clear. generalize 0%nat. induction (numel sh) as [|n IH]; intros k; cbn [seq map repeat]; [reflexivity|]. apply (f_equal2 cons); [reflexivity|apply IH].
  - apply bexpand_length.
  - intros i Hi. split.
    + rewrite map_repeat', nth_repeat. reflexivity.
    + rewrite bexpand_nth by auto. rewrite bget_one by auto. apply to_ring_eqmod. apply posR.
Qed.
Print Assumptions C79_single.
Example C79_single_witness : shares_of fx_s [1%nat] [0] (fs_x 0) /\
  fs_run [- 7] = (Ok [mkT [1%nat] [65536]], false).
Proof. split; [one_share|reflexivity]. Qed.
