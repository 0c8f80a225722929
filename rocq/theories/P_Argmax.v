(** C40: maximum and argmax of integer secrets, two parties. *)
From Coq Require Import QArith String.
From Verif Require Import Util Modular S_Ring S_Tensor S_View S_Bil S_Spdz S_Fss S_Sort S_Argmax
  M_Torch M_Encoder M_Tensor M_Share M_Spdz M_Store M_Fss M_Engine M_Static M_Argmax
  L_Torch L_Tensor L_Encoder L_Share L_Div L_Bil L_Mul L_Circuit L_Engine L_View L_Algo L_Argmax P_Fss P_Sort.
Local Open Scope Z_scope.
Local Open Scope list_scope.

Lemma rep_listed s sh f x : rep s sh f x -> shares_of s sh (map f (seq 0 (numel sh))) x.
Proof.
  intros H. eapply rep_shares; [exact H|rewrite map_length, seq_length; auto|].
  intros e He. rewrite map_seq_nth by auto. reflexivity.
Qed.

Lemma close_nth v n : length v = n -> close v -> forall a b, (a < n)%nat -> (b < n)%nat -> Z.abs (nth a v 0 - nth b v 0) < 2^31 - 1.
Proof. intros L H a b Ha Hb. apply H; apply nth_In; lia. Qed.

(** places and sums of one line *)
Lemma line_sums keep sh d v e m : (d < length sh)%nat -> (e < numel (reduced keep sh d))%nat -> is_maximum m (line_at keep sh d v e) ->
  let f q := nth q v 0 in let n := nth d sh 0%nat in let P := places (line_at keep sh d v e) m in
  sumn n (fun k => b2z (hot sh d f (posk keep sh d e k)) * f (posk keep sh d e k)) = Z.of_nat (length P) * m /\
  sumn n (fun k => b2z (hot sh d f (posk keep sh d e k)) * Z.of_nat (coord sh d (posk keep sh d e k))) = zsum (map Z.of_nat P).
Proof.
  intros Hd He HM f n P. unfold P, places. rewrite line_at_length. fold n. split.
  - rewrite <- sumn_filter_const. apply sumn_ext. intros k Hk. unfold f. rewrite (hot_posk keep sh d Hd v e k m) by auto.
    rewrite <- line_at_nth by auto. destruct (Z.eqb_spec (nth k (line_at keep sh d v e) 0) m); cbn [b2z]; lia.
  - rewrite <- sumn_filter_index. apply sumn_ext. intros k Hk. unfold f. rewrite (hot_posk keep sh d Hd v e k m) by auto.
    rewrite coord_posk by auto. reflexivity.
Qed.

Lemma flat_sums v m : is_maximum m v ->
  sumn (length v) (fun k => b2z (hot [length v] 0 (fun q => nth q v 0) k) * nth k v 0) = Z.of_nat (length (places v m)) * m /\
  sumn (length v) (fun k => b2z (hot [length v] 0 (fun q => nth q v 0) k) * Z.of_nat k) = zsum (map Z.of_nat (places v m)).
Proof.
  intros HM. unfold places. split.
  - rewrite <- sumn_filter_const. apply sumn_ext. intros k Hk. rewrite (hot_list v k m) by auto.
    destruct (Z.eqb_spec (nth k v 0) m); cbn [b2z]; lia.
  - rewrite <- sumn_filter_index. apply sumn_ext. intros k Hk. rewrite (hot_list v k m) by auto. reflexivity.
Qed.

(** What every theorem below needs: a correct backend, a session of two parties with integer
    encoding, a tensor of shape [sh] with the values [v], any two of them closer than 2^31 - 1,
    and fewer than 2^31 elements. *)
Definition setting {K} (alpha : K -> Z) ev gen (s : sess) (su : tri_supply) sh v x (w : mpcw (K:=K)) : Prop :=
  backend_ok alpha ev gen /\ int_pair s /\ supply_ok sh su /\ shares_of s sh v x /\ close v /\
  Z.of_nat (numel sh) < 2^31 - 1 /\ none_waiting (fst w).

(** C40, one-hot argmax along a dimension, for every shape, every dimension, every value: 1
    exactly where a largest value of its line stands, 0 elsewhere; ties are all marked. *)
Theorem C40_one_hot_partial : forall K alpha ev (gen : fop -> nat -> nat -> result (list (list K))) s su sh d v x w,
  setting alpha ev gen s su sh v x w -> (d < length sh)%nat ->
  exists z w' o, argmax_one_hot alpha ev gen s su x (Some d) w = (Ok z, w') /\ none_waiting (fst w') /\
    shares_of s sh o z /\ length o = numel sh /\
    forall e, (e < numel sh)%nat ->
      (is_maximum (nth e v 0) (line_of sh d v e) -> nth e o 0 = 1) /\
      (~ is_maximum (nth e v 0) (line_of sh d v e) -> nth e o 0 = 0).
Proof.
  intros K alpha ev gen s su sh d v x w (HG & HI & (HT & HR) & HX & HC & HB & HW) Hd.
  destruct (shares_rep _ _ _ _ HX) as [GX LV].
  destruct (one_hot_dim alpha ev gen s su HG HI HR sh d _ x Hd GX (close_nth v _ LV HC) ltac:(lia) w HW) as (z & w' & E & W' & GZ).
  exists z, w'. eexists. split; [exact E|]. split; [exact W'|]. split; [apply rep_listed; exact GZ|].
  split; [rewrite map_length, seq_length; auto|]. intros e He. rewrite map_seq_nth by auto.
  assert (HH : hot sh d (fun q => nth q v 0) e = true <-> is_maximum (nth e v 0) (line_of sh d v e)).
  { rewrite hot_spec. split.
    - intros H. split.
      + rewrite <- (pos_coord sh d Hd e He) at 1. rewrite <- line_of_nth by (apply coord_lt; auto).
        apply nth_In. rewrite line_of_length. apply coord_lt; auto.
      + intros y Hy. apply In_nth with (d := 0) in Hy. destruct Hy as (j & Hj & <-). rewrite line_of_length in Hj.
        rewrite line_of_nth by auto. apply H. auto.
    - intros [_ H] j Hj. rewrite <- line_of_nth by auto. apply H, nth_In. rewrite line_of_length. auto. }
  split; intros H.
  - apply HH in H. rewrite H. reflexivity.
  - destruct (hot _ _ _ _); [|reflexivity]. exfalso. apply H, HH. reflexivity.
Qed.
Print Assumptions C40_one_hot_partial.

(** C40 along a dimension, kept or not, for lines whose largest value stands at one place only:
    max returns the largest value of every line and its position, argmax the position.
    Missing from the full statement: ties (refuted below), a missing dimension for tensors of
    several dimensions (refuted below), fixed-point secrets, replicated secrets. *)
Theorem C40_dim_partial : forall K alpha ev (gen : fop -> nat -> nat -> result (list (list K))) s su sh d keep v x w,
  setting alpha ev gen s su sh v x w -> (d < length sh)%nat -> Forall (fun a => - 2^63 <= a < 2^63) v ->
  forall (top : nat -> Z) (at_ : nat -> nat),
  (forall e, (e < numel (reduced keep sh d))%nat ->
     is_maximum (top e) (line_at keep sh d v e) /\ places (line_at keep sh d v e) (top e) = [at_ e]) ->
  let so := reduced keep sh d in
  let tops := map top (seq 0 (numel so)) in let ats := map (fun e => Z.of_nat (at_ e)) (seq 0 (numel so)) in
  exists m i a w1 w2,
    max_mpc alpha ev gen s su x (Some d) keep false w = (Ok (m, Some i), w1) /\
    shares_of s so tops m /\ shares_of s so ats i /\ reconstruct m = Ok (mkT so tops) /\ reconstruct i = Ok (mkT so ats) /\
    argmax alpha ev gen s su x (Some d) keep w = (Ok a, w2) /\ shares_of s so ats a /\ reconstruct a = Ok (mkT so ats).
Proof.
  intros K alpha ev gen s su sh d keep v x w (HG & HI & (HT & HR) & HX & HC & HB & HW) Hd HV top at_ HU so tops ats.
  destruct (shares_rep _ _ _ _ HX) as [GX LV].
  destruct (max_dim alpha ev gen s su HG HI HR sh d _ x Hd GX (close_nth v _ LV HC) ltac:(lia) HT keep false w HW) as ([m oi] & w1 & E1 & _ & GM & i & EO & GI).
  destruct (argmax_dim alpha ev gen s su HG HI HR sh d _ x Hd GX (close_nth v _ LV HC) ltac:(lia) keep w HW) as (a & w2 & E2 & _ & GA).
  cbn [fst snd] in *. subst oi.
  assert (ST : shares_of s so tops m).
  { eapply rep_shares; [exact GM|unfold tops; rewrite map_length, seq_length; auto|]. intros e He. unfold tops. rewrite map_seq_nth by auto.
    destruct (HU e He) as [HM HP]. destruct (line_sums keep sh d v e _ Hd He HM) as [A _]. cbn beta. rewrite A, HP. cbn [length]. lia. }
  assert (SA : forall y, rep s so (fun e => sumn (nth d sh 0%nat) (fun k => b2z (hot sh d (fun q => nth q v 0) (posk keep sh d e k)) * Z.of_nat (coord sh d (posk keep sh d e k)))) y -> shares_of s so ats y).
  { intros y GY. eapply rep_shares; [exact GY|unfold ats; rewrite map_length, seq_length; auto|]. intros e He. unfold ats. rewrite map_seq_nth by auto.
    destruct (HU e He) as [HM HP]. destruct (line_sums keep sh d v e _ Hd He HM) as [_ A]. cbn beta. rewrite A, HP. cbn [map zsum]. lia. }
  assert (RA : Forall (fun q => - 2^63 <= q < 2^63) ats).
  { apply Forall_forall. intros q Hq. apply in_map_iff in Hq. destruct Hq as (e & <- & He). apply in_seq in He.
    destruct (HU e ltac:(unfold so in He; lia)) as [_ HP].
    assert (IN : In (at_ e) (places (line_at keep sh d v e) (top e))) by (rewrite HP; left; auto).
    apply filter_In in IN. destruct IN as [IN _]. apply in_seq in IN. rewrite line_at_length in IN.
    assert ((nth d sh 0 <= numel sh)%nat); [|lia]. apply dim_le_numel; [auto|].
    pose proof (posk_lt keep sh d Hd e (at_ e) ltac:(unfold so in He; lia) ltac:(lia)). lia. }
  assert (RT : Forall (fun q => - 2^63 <= q < 2^63) tops).
  { apply Forall_forall. intros q Hq. apply in_map_iff in Hq. destruct Hq as (e & <- & He). apply in_seq in He.
    destruct (HU e ltac:(unfold so in He; lia)) as [[HM _] _]. apply In_nth with (d := 0) in HM. destruct HM as (k & Hk & <-).
    rewrite line_at_length in Hk. rewrite line_at_nth by auto. rewrite Forall_forall in HV. apply HV, nth_In.
    rewrite LV. apply posk_lt; auto. unfold so in He; lia. }
  exists m, i, a, w1, w2. split; [exact E1|]. split; [exact ST|]. split; [apply SA; exact GI|].
  split; [apply (shares_reconstruct s); auto|]. split; [apply (shares_reconstruct s); auto; apply SA; exact GI|].
  split; [exact E2|]. split; [apply SA; exact GA|]. apply (shares_reconstruct s); auto; apply SA; exact GA.
Qed.
Print Assumptions C40_dim_partial.

(** What max and argmax return in every case, ties included: the largest value of the line
    times the number of its places, and the sum of its places. *)
Theorem C40_dim_ties : forall K alpha ev (gen : fop -> nat -> nat -> result (list (list K))) s su sh d keep v x w,
  setting alpha ev gen s su sh v x w -> (d < length sh)%nat ->
  exists m i a w1 w2 tops ats,
    max_mpc alpha ev gen s su x (Some d) keep false w = (Ok (m, Some i), w1) /\
    argmax alpha ev gen s su x (Some d) keep w = (Ok a, w2) /\
    shares_of s (reduced keep sh d) tops m /\ shares_of s (reduced keep sh d) ats i /\ shares_of s (reduced keep sh d) ats a /\
    forall e t, (e < numel (reduced keep sh d))%nat -> is_maximum t (line_at keep sh d v e) ->
      nth e tops 0 = Z.of_nat (length (places (line_at keep sh d v e) t)) * t /\
      nth e ats 0 = zsum (map Z.of_nat (places (line_at keep sh d v e) t)).
Proof.
  intros K alpha ev gen s su sh d keep v x w (HG & HI & (HT & HR) & HX & HC & HB & HW) Hd.
  destruct (shares_rep _ _ _ _ HX) as [GX LV].
  destruct (max_dim alpha ev gen s su HG HI HR sh d _ x Hd GX (close_nth v _ LV HC) ltac:(lia) HT keep false w HW) as ([m oi] & w1 & E1 & _ & GM & i & EO & GI).
  destruct (argmax_dim alpha ev gen s su HG HI HR sh d _ x Hd GX (close_nth v _ LV HC) ltac:(lia) keep w HW) as (a & w2 & E2 & _ & GA).
  cbn [fst snd] in *. subst oi. apply rep_listed in GM, GI, GA.
  do 7 eexists. split; [exact E1|]. split; [exact E2|]. split; [exact GM|]. split; [exact GI|]. split; [exact GA|].
  intros e t He HM. rewrite !map_seq_nth by auto. apply line_sums; auto.
Qed.
Print Assumptions C40_dim_ties.

(** C40 without a dimension, for a list of values whose largest stands at one place only: max
    returns it and argmax its position. *)
Theorem C40_flat_partial : forall K alpha ev (gen : fop -> nat -> nat -> result (list (list K))) s su n keep oh v x w top at_,
  setting alpha ev gen s su [n] v x w -> Forall (fun a => - 2^63 <= a < 2^63) v ->
  is_maximum top v -> places v top = [at_] ->
  exists m a w1 w2,
    max_mpc alpha ev gen s su x None keep oh w = (Ok (m, None), w1) /\ shares_of s [] [top] m /\ reconstruct m = Ok (mkT [] [top]) /\
    argmax alpha ev gen s su x None keep w = (Ok a, w2) /\ shares_of s [] [Z.of_nat at_] a /\ reconstruct a = Ok (mkT [] [Z.of_nat at_]).
Proof.
  intros K alpha ev gen s su n keep oh v x w top at_ (HG & HI & (HT & HR) & HX & HC & HB & HW) HV HM HP.
  destruct (shares_rep _ _ _ _ HX) as [GX LV]. assert (LN : length v = n) by (rewrite LV; cbn; lia). subst n.
  change (numel [length v]) with (length v * 1)%nat in *. rewrite Nat.mul_1_r in *.
  destruct (max_flat alpha ev gen s su HG HI HR (length v) _ x GX (close_nth v _ eq_refl HC) HB HT keep oh w HW) as ([m oi] & w1 & E1 & _ & GM & EO).
  cbn [fst snd] in *. subst oi. destruct (flat_sums v top HM) as [S1 S2]. rewrite HP in S1, S2. cbn [length map zsum] in S1, S2.
  assert (IN : In at_ (places v top)) by (rewrite HP; left; auto). apply filter_In in IN. destruct IN as [IN _]. apply in_seq in IN.
  destruct (argmax_flat alpha ev gen s su HG HI HR (length v) _ x GX (close_nth v _ eq_refl HC) HB ltac:(rewrite S2; lia) w HW) as [A _].
  destruct (A ltac:(rewrite S2; lia)) as (a & w2 & E2 & _ & GA).
  assert (SM : shares_of s [] [top] m).
  { eapply rep_shares; [exact GM|reflexivity|]. intros e He. cbn beta. rewrite S1. change (numel []) with 1%nat in He.
    replace e with 0%nat by lia. cbn [nth]. lia. }
  assert (SA : shares_of s [] [Z.of_nat at_] a).
  { eapply rep_shares; [exact GA|reflexivity|]. intros e He. cbn beta. rewrite S2. change (numel []) with 1%nat in He.
    replace e with 0%nat by lia. cbn [nth]. lia. }
  exists m, a, w1, w2. split; [exact E1|]. split; [exact SM|].
  split; [apply (shares_reconstruct s); auto; constructor; [|constructor]; rewrite Forall_forall in HV; apply HV, HM|].
  split; [exact E2|]. split; [exact SA|]. apply (shares_reconstruct s); auto. constructor; [lia|constructor].
Qed.
Print Assumptions C40_flat_partial.

(** Without a dimension, ties included: max is the largest value times the number of its
    places; argmax raises ValueError exactly if the sum of the places reaches the length of the
    list (or 2), else it returns that sum. *)
Theorem C40_flat_ties : forall K alpha ev (gen : fop -> nat -> nat -> result (list (list K))) s su n keep oh v x w top,
  setting alpha ev gen s su [n] v x w -> is_maximum top v ->
  let sum := zsum (map Z.of_nat (places v top)) in 0 <= sum < 2^31 - 1 ->
  (exists m w1, max_mpc alpha ev gen s su x None keep oh w = (Ok (m, None), w1) /\
     shares_of s [] [Z.of_nat (length (places v top)) * top] m) /\
  (sum < Z.max (Z.of_nat n) 2 -> exists a w2, argmax alpha ev gen s su x None keep w = (Ok a, w2) /\ shares_of s [] [sum] a) /\
  (Z.max (Z.of_nat n) 2 <= sum -> exists w2, argmax alpha ev gen s su x None keep w = (Err ValueError, w2)).
Proof.
  intros K alpha ev gen s su n keep oh v x w top (HG & HI & (HT & HR) & HX & HC & HB & HW) HM sum HS.
  destruct (shares_rep _ _ _ _ HX) as [GX LV]. assert (LN : length v = n) by (rewrite LV; cbn; lia). subst n.
  change (numel [length v]) with (length v * 1)%nat in *. rewrite Nat.mul_1_r in *.
  destruct (max_flat alpha ev gen s su HG HI HR (length v) _ x GX (close_nth v _ eq_refl HC) HB HT keep oh w HW) as ([m oi] & w1 & E1 & _ & GM & EO).
  cbn [fst snd] in *. subst oi. destruct (flat_sums v top HM) as [S1 S2]. fold sum in S2.
  destruct (argmax_flat alpha ev gen s su HG HI HR (length v) _ x GX (close_nth v _ eq_refl HC) HB ltac:(rewrite S2; lia) w HW) as [A B].
  rewrite S2 in A, B.
  assert (ON : forall c y, rep s [] (fun _ => c) y -> shares_of s [] [c] y).
  { intros c y GY. eapply rep_shares; [exact GY|reflexivity|]. intros e He. change (numel []) with 1%nat in He.
    replace e with 0%nat by lia. reflexivity. }
  split; [|split].
  - exists m, w1. split; [exact E1|]. apply ON. rewrite <- S1. exact GM.
  - intros HL. destruct (A HL) as (a & w2 & E2 & _ & GA). exists a, w2. split; [exact E2|]. apply ON, GA.
  - intros HL. exact (B HL).
Qed.
Print Assumptions C40_flat_ties.

(* ----------------------------------------------------------------------- witnesses *)
Definition two (sh : list nat) (a b : list Z) : mpc := mkM 3 sh [mkT sh a; mkT sh b].
Definition w0 : mpcw := (fw0, 0%nat).
Definition C40_max (x : mpc) (d : option nat) (keep : bool) : result (mpc * option mpc) :=
  fst (max_mpc t_alpha t_ev toy int_s toy_supply x d keep false w0).
Definition C40_argmax (x : mpc) (d : option nat) (keep : bool) : result mpc :=
  fst (argmax t_alpha t_ev toy int_s toy_supply x d keep w0).
Definition opened (r : result (mpc * option mpc)) : result (tensor * option tensor) :=
  do p <- r; do m <- reconstruct (fst p);
  match snd p with None => Ok (m, None) | Some i => do i <- reconstruct i; Ok (m, Some i) end.


Ltac concrete_setting va vb :=
  split; [exact toy_good|]; split; [repeat split; cbn; lia|];
  split; [split; [intros k; split; [reflexivity|]; exists va, vb;
                  repeat split; try discriminate; repeat constructor; try reflexivity; discriminate
                 |intros k; split; [reflexivity|]; repeat constructor; discriminate]|];
  split; [repeat (split; [reflexivity|]); split; [discriminate|]; split; [repeat constructor|reflexivity]|];
  split; [intros a b Ha Hb; cbn in Ha, Hb; repeat match goal with H : _ \/ _ |- _ => destruct H end; try contradiction; subst; cbn; lia|];
  split; [cbn; lia|exact fw0_none].

(** 3 9 4 / 7 2 5 *)
Definition C40_x : mpc := two [2; 3]%nat [100; 2^62; -7; 12; 1; 5] [-97; - 2^62 + 9; 11; -5; 1; 0].

Example C40_dim_witness :
  setting t_alpha t_ev toy int_s toy_supply [2; 3]%nat [3; 9; 4; 7; 2; 5] C40_x w0 /\
  (forall e, (e < numel (reduced false [2; 3]%nat 1))%nat ->
     is_maximum (nth e [9; 7] 0) (line_at false [2; 3]%nat 1 [3; 9; 4; 7; 2; 5] e) /\
     places (line_at false [2; 3]%nat 1 [3; 9; 4; 7; 2; 5] e) (nth e [9; 7] 0) = [nth e [1; 0]%nat 0%nat]) /\
  opened (C40_max C40_x (Some 1%nat) false) = Ok (mkT [2%nat] [9; 7], Some (mkT [2%nat] [1; 0])) /\
  opened (C40_max C40_x (Some 0%nat) true) = Ok (mkT [1; 3]%nat [7; 9; 5], Some (mkT [1; 3]%nat [1; 0; 1])) /\
  (do z <- C40_argmax C40_x (Some 1%nat) true; reconstruct z) = Ok (mkT [2; 1]%nat [1; 0]) /\
  (do z <- fst (argmax_one_hot t_alpha t_ev toy int_s toy_supply C40_x (Some 1%nat) w0); reconstruct z) = Ok (mkT [2; 3]%nat [0; 1; 0; 1; 0; 0]).
Proof.
  split; [concrete_setting [3; 3; 3; 3; 3; 3] [5; 5; 5; 5; 5; 5]|].
  split; [|repeat split; vm_compute; reflexivity].
  intros e He. change (numel (reduced false [2; 3]%nat 1)) with 2%nat in He.
  destruct e as [|[|e]]; [| |lia]; (split; [split; [cbn; tauto|intros q Hq; vm_compute in Hq; cbn [nth]; lia]|reflexivity]).
Qed.

Example C40_flat_witness :
  setting t_alpha t_ev toy int_s toy_supply [3%nat] [3; -4; 20] (two [3%nat] [1; 2; 3] [2; -6; 17]) w0 /\
  is_maximum 20 [3; -4; 20] /\ places [3; -4; 20] 20 = [2%nat] /\
  opened (C40_max (two [3%nat] [1; 2; 3] [2; -6; 17]) None false) = Ok (mkT [] [20], None) /\
  (do z <- C40_argmax (two [3%nat] [1; 2; 3] [2; -6; 17]) None false; reconstruct z) = Ok (mkT [] [2]).
Proof.
  split; [concrete_setting [3; 3; 3] [5; 5; 5]|]. split; [split; [cbn; tauto|intros q Hq; cbn in Hq; lia]|].
  repeat split; vm_compute; reflexivity.
Qed.

(** a list with two largest values whose places add up to its length: argmax raises *)
Example C40_ties_witness :
  setting t_alpha t_ev toy int_s toy_supply [4%nat] [0; 1; 5; 5] (two [4%nat] [0; 1; 5; 5] [0; 0; 0; 0]) w0 /\
  is_maximum 5 [0; 1; 5; 5] /\ places [0; 1; 5; 5] 5 = [2; 3]%nat /\
  C40_argmax (two [4%nat] [0; 1; 5; 5] [0; 0; 0; 0]) None false = Err ValueError.
Proof.
  split; [concrete_setting [3; 3; 3; 3] [5; 5; 5; 5]|]. split; [split; [cbn; tauto|intros q Hq; cbn in Hq; lia]|].
  repeat split; vm_compute; reflexivity.
Qed.

(* -------------------------------------------------------------------------- refuted *)
(** C40 refuted: the maximum of 5 and 5 is 10, with and without a dimension *)
Theorem C40_max_ties_refuted : exists (gen : fop -> nat -> nat -> result (list (list tkey))) s su x w m m' i w1 w2,
  setting t_alpha t_ev gen s su [2%nat] [5; 5] x w /\
  max_mpc t_alpha t_ev gen s su x None false false w = (Ok (m, None), w1) /\ reconstruct m = Ok (mkT [] [10]) /\
  max_mpc t_alpha t_ev gen s su x (Some 0%nat) false false w = (Ok (m', Some i), w2) /\ reconstruct m' = Ok (mkT [] [10]) /\
  is_maximum 5 [5; 5].
Proof.
  set (x := two [2%nat] [5; 5] [0; 0]).
  assert (S1 : setting t_alpha t_ev toy int_s toy_supply [2%nat] [5; 5] x w0) by (concrete_setting [3; 3] [5; 5]).
  destruct (max_mpc t_alpha t_ev toy int_s toy_supply x None false false w0) as [[[m [i0|]]|] w1] eqn:E1; [vm_compute in E1; discriminate| |vm_compute in E1; discriminate].
  destruct (max_mpc t_alpha t_ev toy int_s toy_supply x (Some 0%nat) false false w0) as [[[m' [i|]]|] w2] eqn:E2; [|vm_compute in E2; discriminate|vm_compute in E2; discriminate].
  exists toy, int_s, toy_supply, x, w0, m, m', i, w1, w2.
  split; [exact S1|]. split; [exact E1|].
  split; [vm_compute in E1; injection E1 as <- _; vm_compute; reflexivity|]. split; [exact E2|].
  split; [vm_compute in E2; injection E2 as <- _ _; vm_compute; reflexivity|].
  split; [cbn; tauto|intros q Hq; clear - Hq; cbn in Hq; lia].
Qed.
Print Assumptions C40_max_ties_refuted.

(** C40 refuted: argmax of 0, 5, 5, 1 is 3, where the smallest but one stands; nothing is raised *)
Theorem C40_argmax_ties_refuted : exists (gen : fop -> nat -> nat -> result (list (list tkey))) s su x w z w',
  setting t_alpha t_ev gen s su [4%nat] [0; 5; 5; 1] x w /\
  argmax t_alpha t_ev gen s su x None false w = (Ok z, w') /\ reconstruct z = Ok (mkT [] [3]) /\
  is_maximum 5 [0; 5; 5; 1] /\ ~ In 3%nat (places [0; 5; 5; 1] 5).
Proof.
  set (x := two [4%nat] [0; 5; 5; 1] [0; 0; 0; 0]).
  assert (S1 : setting t_alpha t_ev toy int_s toy_supply [4%nat] [0; 5; 5; 1] x w0) by (concrete_setting [3; 3; 3; 3] [5; 5; 5; 5]).
  destruct (argmax t_alpha t_ev toy int_s toy_supply x None false w0) as [[z|] w1] eqn:E1; [|vm_compute in E1; discriminate].
  exists toy, int_s, toy_supply, x, w0, z, w1.
  split; [exact S1|]. split; [exact E1|].
  split; [vm_compute in E1; injection E1 as <- _; vm_compute; reflexivity|].
  split; [split; [cbn; tauto|intros q Hq; clear - Hq; cbn in Hq; lia]|]. clear. cbn. lia.
Qed.
Print Assumptions C40_argmax_ties_refuted.

(** C40 refuted for tensors of several dimensions without dim: the row length of the second
    comparison is that of the last dimension.  argmax of the column 3, 2, 1 is 1 although 3 is
    the only largest value; max of a 2 x 2 tensor raises. *)
Theorem C40_none_dim_refuted : exists (gen : fop -> nat -> nat -> result (list (list tkey))) s su x w z w' x' w1,
  setting t_alpha t_ev gen s su [3; 1]%nat [3; 2; 1] x w /\
  argmax t_alpha t_ev gen s su x None false w = (Ok z, w') /\ reconstruct z = Ok (mkT [] [1]) /\
  is_maximum 3 [3; 2; 1] /\ places [3; 2; 1] 3 = [0%nat] /\
  setting t_alpha t_ev gen s su [2; 2]%nat [4; 3; 2; 1] x' w /\
  max_mpc t_alpha t_ev gen s su x' None false false w = (Err RuntimeError, w1).
Proof.
  set (x := two [3; 1]%nat [3; 2; 1] [0; 0; 0]). set (x' := two [2; 2]%nat [4; 3; 2; 1] [0; 0; 0; 0]).
  assert (S1 : setting t_alpha t_ev toy int_s toy_supply [3; 1]%nat [3; 2; 1] x w0) by (concrete_setting [3; 3; 3] [5; 5; 5]).
  assert (S2 : setting t_alpha t_ev toy int_s toy_supply [2; 2]%nat [4; 3; 2; 1] x' w0) by (concrete_setting [3; 3; 3; 3] [5; 5; 5; 5]).
  destruct (argmax t_alpha t_ev toy int_s toy_supply x None false w0) as [[z|] w1] eqn:E1; [|vm_compute in E1; discriminate].
  destruct (max_mpc t_alpha t_ev toy int_s toy_supply x' None false false w0) as [[p|e] w2] eqn:E2; [vm_compute in E2; discriminate|].
  exists toy, int_s, toy_supply, x, w0, z, w1, x', w2.
  split; [exact S1|]. split; [exact E1|].
  split; [vm_compute in E1; injection E1 as <- _; vm_compute; reflexivity|].
  split; [split; [cbn; tauto|intros q Hq; clear - Hq; cbn in Hq; lia]|]. split; [reflexivity|].
  split; [exact S2|].
  vm_compute in E2 |- *. injection E2 as <- <-. reflexivity.
Qed.
Print Assumptions C40_none_dim_refuted.
