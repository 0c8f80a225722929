(** Property C87: whole programs on fixed-point numbers, compared with the same programs on real
    numbers.  Specification: S_FixProg. *)
From Coq Require Import QArith Reals Qreals Lra.
From Verif Require Import Util Modular S_Ring S_Tensor S_Wraps S_Div S_Bil S_Spdz S_View S_Circuit S_Fixed S_Real S_FixProg
  M_Torch M_Encoder M_Float M_Tensor M_Share M_Spdz M_Circuit
  L_Torch L_Tensor L_Encoder L_Share L_Spdz L_Div L_Bil L_Mul L_View L_Circuit L_FixProg L_FixProg2.
Local Open Scope Z_scope.
Local Open Scope list_scope.

(** C87: the result of a program (sums, differences, products, matrix products, convolutions, powers,
    public operands, divisions by public integers, shape methods, in any nesting) lies within the
    bound [b] of what the program computes on real numbers, whatever the number of parties, the
    base and the precision, provided every intermediate number fits and every rescaling is an
    accurate division ([steady]).  Missing from the full statement: public operands that enlarge
    the shape of a sum, public minus a shared tensor without dimensions; the runs whose divisions
    carry (C14, C87_carry_refuted: there the error is not bounded). *)
Theorem C87_fixed_programs_partial : forall s env ins sup, 0 < c_base (s_cfg s) -> (2 <= s_n s)%nat ->
  (forall i, known s (fst (ins i)) (fst (snd (ins i))) (snd (snd (ins i))) (env i)) ->
  forall e sh r b, approx (s_cfg s) (s_n s) ins sup [] e sh r b -> steady s env sup [] e ->
  exists z v, eval s env sup [] e = Ok z /\ m_shape z = sh /\ length (m_shares z) = s_n s /\
    shared (2^64) sh v (m_shares z) /\ reconstruct z = Ok (mkT sh v) /\ length r = numel sh /\
    forall k, (k < numel sh)%nat -> (Rabs (fixed (s_cfg s) (nth k v 0%Z) - nth k r 0) <= nth k b 0)%R.
Proof.
  intros s env ins sup Hb Hn HI e sh r b HA HS.
  destruct (eval_near s Hb Hn env ins sup) with (path := @nil bool) (e := e) (sh := sh) (r := r) (b := b)
    as (z & E & v & (G1 & G2 & G3 & G4) & N1 & N2 & N3 & N4); auto.
  - intros i. apply known_near; auto.
  - exists z, v. split; [exact E|]. split; [exact G2|]. split; [exact G3|]. split; [exact G4|].
    split; [unfold reconstruct; apply shared_tsum; auto using supR|]. split; [exact N2|]. intros k Hk. apply N4.
Qed.
Print Assumptions C87_fixed_programs_partial.

(** (x @ w + 0.25) / 3 with x = (1.5, -2), w = (0.5, 3): -5/3, two parties, default configuration *)
Definition w_ins (i : nat) : list nat * (list R * list R) :=
  match i with O => ([1; 2]%nat, ([3/2; -2]%R, [0; 0]%R)) | _ => ([2; 1]%nat, ([1/2; 3]%R, [0; 0]%R)) end.
Definition w_env (i : nat) : mpc :=
  match i with
  | O => mkM 0 [1; 2]%nat [mkT [1; 2]%nat [98304 + 777; - 131072 - 5]; mkT [1; 2]%nat [- 777; 5]]
  | _ => mkM 0 [2; 1]%nat [mkT [2; 1]%nat [32768 - 1000; 196608 + 4]; mkT [2; 1]%nat [1000; - 4]]
  end.
Definition w_triples : list triple :=
  [(mkT [1; 2]%nat [1; 1], mkT [2; 1]%nat [3; 4], mkT [1; 1]%nat [30]);
   (mkT [1; 2]%nat [2; 0], mkT [2; 1]%nat [4; - 2], mkT [1; 1]%nat [- 7])].
Definition w_sup (path : list bool) : list triple * (list tensor * list tensor) := (w_triples, ([], [])).
Definition w_prog : expr := EDiv (ELinPub LAdd (EMatmul (EInput 0) (EInput 1)) (PNum (NFloat (1#4)))) 3.

Ltac share_ok := do 3 (split; [reflexivity|]); split; [split; [discriminate|]; split; [repeat constructor|vm_compute; reflexivity]|];
  do 2 (split; [reflexivity|]).
Lemma w_fixed z : fixed default_config z = (IZR z / 65536)%R.
Proof. unfold fixed. f_equal. Qed.

Ltac abs := repeat match goal with |- context [Rabs ?x] => first [rewrite (Rabs_right x) by lra | rewrite (Rabs_left x) by lra] end.

Lemma w_slack : slack 2 65536 = 131070 /\ slack 2 3 = 4.
Proof. split; reflexivity. Qed.
Ltac tidy := unfold room, mag, rat, rounding; cbn -[slack]; unfold Q2R; cbn -[slack];
  change (0 / 1)%nat with 0%nat; change (0 mod 1)%nat with 0%nat; cbn -[slack];
  change (IZR (2^63)) with 9223372036854775808%R; unfold ulp; change (scale default_config) with 65536%Z;
  rewrite ?(proj1 w_slack), ?(proj2 w_slack).

Example C87_witness : let s := mkS 0 2 default_config in
  (forall i, known s (fst (w_ins i)) (fst (snd (w_ins i))) (snd (snd (w_ins i))) (w_env i)) /\
  (exists r b, approx (s_cfg s) 2 w_ins w_sup [] w_prog [1; 1]%nat r b /\ r = [(-5/3)%R] /\ (nth 0 b 0 <= 3 / 65536)%R) /\
  steady s w_env w_sup [] w_prog /\
  (do z <- eval s w_env w_sup [] w_prog; reconstruct z) = Ok (mkT [1; 1]%nat [-109227]).
Proof.
  cbn zeta. split; [|split; [|split; [|vm_compute; reflexivity]]].
  - assert (A0 : forall x y, x = y -> (Rabs (x - y) <= 0)%R) by (intros x y ->; rewrite Rminus_eq_0, Rabs_R0; lra).
    intros [|i]; [exists [98304; -131072]|exists [32768; 196608]]; share_ok;
      intros [|[|k]] Hk; try (cbn in Hk; lia); cbn [rat nth fst snd w_ins s_cfg]; unfold rat; cbn [nth]; rewrite w_fixed; apply A0; lra.
  - eexists. eexists. split; [|split].
    + apply ap_div; [|lia]. apply ap_linpub.
      * apply (ap_matmul _ _ _ _ _ _ _ [1; 2]%nat [2; 1]%nat [1; 1]%nat).
        -- apply ap_in.
        -- exact (ap_in default_config 2 w_ins w_sup _ 1%nat).
        -- apply (tm_mm [] [] [] 1 2 1). split; [reflexivity|]. intros i Hi. cbn in Hi. lia.
        -- split; [reflexivity|]. exists [3; 1], [7; 2]. repeat split; try discriminate; repeat constructor.
        -- intros e He. destruct e as [|e]; [|cbn in He; lia]. tidy. abs. lra.
      * split; [exact I|]. repeat constructor. cbn [num_R]. tidy. abs. lra.
      * apply bshape_scalar. discriminate.
      * intros e He. destruct e as [|e]; [|cbn in He; lia]. tidy. abs. lra.
    + tidy. f_equal. lra.
    + tidy. abs. lra.
  - cbn [steady w_prog]. split; [split; [exact I|split; [exact I|]]|].
    + intros x y ws Hx Hy Hw. vm_compute in Hx, Hy. injection Hx as <-. injection Hy as <-. vm_compute in Hw. injection Hw as <-.
      exists [1; 1]%nat. eexists. split; [split; [discriminate|]; split; [repeat constructor; vm_compute; reflexivity|vm_compute; reflexivity]|].
      left. split; [reflexivity|]. intros [|e] He; [reflexivity|cbn in He; lia].
    + intros x Hx. vm_compute in Hx. injection Hx as <-.
      exists [1; 1]%nat. eexists. split; [split; [discriminate|]; split; [repeat constructor; vm_compute; reflexivity|vm_compute; reflexivity]|].
      left. split; [reflexivity|]. intros [|e] He; [reflexivity|cbn in He; lia].
Qed.

(** 1 - x * y / 8 with x = 1.5, y = -2, three parties: 11/8 *)
Definition w3_ins (i : nat) : list nat * (list R * list R) :=
  match i with O => ([1]%nat, ([3/2]%R, [0]%R)) | _ => ([1]%nat, ([-2]%R, [0]%R)) end.
Definition w3_env (i : nat) : mpc :=
  match i with
  | O => mkM 0 [1]%nat [mkT [1]%nat [98304 + 70]; mkT [1]%nat [- 50]; mkT [1]%nat [- 20]]
  | _ => mkM 0 [1]%nat [mkT [1]%nat [- 131072]; mkT [1]%nat [2^62]; mkT [1]%nat [- 2^62]]
  end.
Definition w3_triples : list triple :=
  [(mkT [1]%nat [1], mkT [1]%nat [3], mkT [1]%nat [30]);
   (mkT [1]%nat [2], mkT [1]%nat [4], mkT [1]%nat [- 9]);
   (mkT [1]%nat [1], mkT [1]%nat [- 6], mkT [1]%nat [- 17])].
Definition w3_masks : list tensor * list tensor :=
  ([mkT [1]%nat [2^62]; mkT [1]%nat [2^62]; mkT [1]%nat [- 2^62 + 5]], [mkT [1]%nat [7]; mkT [1]%nat [- 4]; mkT [1]%nat [- 3]]).
Definition w3_sup (path : list bool) : list triple * (list tensor * list tensor) := (w3_triples, w3_masks).
Definition w3_prog : expr := ERsub (PNum (NInt 1)) (EDiv (EMul (EInput 0) (EInput 1)) 8).

Lemma w3_slack : slack 3 65536 = 196605 /\ slack 3 8 = 21.
Proof. split; reflexivity. Qed.
Ltac tidy3 := unfold room, mag, rat, rounding, real_dot, dot_err, bpos; cbn -[slack];
  change (IZR (2^63)) with 9223372036854775808%R; unfold ulp; change (scale default_config) with 65536%Z;
  rewrite ?(proj1 w3_slack), ?(proj2 w3_slack).

Example C87_three_witness : let s := mkS 0 3 default_config in
  (forall i, known s (fst (w3_ins i)) (fst (snd (w3_ins i))) (snd (snd (w3_ins i))) (w3_env i)) /\
  (exists r b, approx (s_cfg s) 3 w3_ins w3_sup [] w3_prog [1]%nat r b /\ r = [(11/8)%R] /\ (nth 0 b 0 <= 7 / 65536)%R) /\
  steady s w3_env w3_sup [] w3_prog /\
  (do z <- eval s w3_env w3_sup [] w3_prog; reconstruct z) = Ok (mkT [1]%nat [90111]).
Proof.
  cbn zeta. split; [|split; [|split; [|vm_compute; reflexivity]]].
  - assert (A0 : forall x y, x = y -> (Rabs (x - y) <= 0)%R) by (intros x y ->; rewrite Rminus_eq_0, Rabs_R0; lra).
    intros [|i]; [exists [98304]|exists [-131072]]; share_ok;
      intros [|k] Hk; try (cbn in Hk; lia); unfold rat; cbn [nth fst snd w3_ins s_cfg]; rewrite w_fixed; apply A0; lra.
  - eexists. eexists. split; [|split].
    + apply ap_rsub; [apply ap_div; [apply (ap_mul _ _ _ _ _ _ _ [1]%nat [1]%nat [1]%nat)|lia]|..].
      * apply ap_in.
      * exact (ap_in default_config 3 w3_ins w3_sup _ 1%nat).
      * apply tm_mul. apply bshape_same.
      * split; [reflexivity|]. exists [4], [1]. repeat split; try discriminate; repeat constructor.
      * intros e He. destruct e as [|e]; [|cbn in He; lia]. tidy3. abs. lra.
      * discriminate.
      * split; [exact I|]. repeat constructor. cbn [num_R]. tidy3. abs. lra.
      * tidy3. lra.
      * apply bshape_scalar. discriminate.
      * intros e He. destruct e as [|e]; [|cbn in He; lia]. tidy3. abs. lra.
    + tidy3. f_equal. lra.
    + tidy3. abs. lra.
  - assert (EV : forall ws v k p, 0 <= p <= 62 -> k = 2^p -> 4 < k -> shared (2^64) [1%nat] [v] ws ->
      (- 2^63 <= v + (2^62 + 5) < 2^63) ->
      (forall j, (j < 3)%nat -> to_ring (2^64) (nth 0 (tdat (nth j (fst w3_masks) (mkT [] []))) 0 + nth 0 (tdat (nth j ws (mkT [] []))) 0) <> - 2^63) ->
      evenly (mkS 0 3 default_config) ws k w3_masks).
    { intros ws v k p Hp Hk Hk4 HS HV HW. exists [1%nat], [v]. split; [exact HS|]. right.
      split; [cbn; lia|]. split; [reflexivity|]. split.
      - right. split; [reflexivity|]. split; [cbn; lia|]. split; [reflexivity|]. exists p. cbn. split; [lia|]. split; [exact Hk|lia].
      - split; [reflexivity|]. split; [reflexivity|]. exists [2^62 + 5].
        split; [repeat split; try discriminate; repeat constructor|].
        split; [repeat split; try discriminate; repeat constructor|].
        split; [intros [|e] He; [exact HV|cbn in He; lia]|].
        split; [intros t [<-|[<-|[<-|[]]]]; repeat constructor; discriminate|].
        intros j [|e] Hj He; [apply HW; exact Hj|cbn in He; lia]. }
    cbn [steady w3_prog]. split; [split; [split; [exact I|split; [exact I|]]|]|].
    + intros x y ws Hx Hy Hw. vm_compute in Hx, Hy. injection Hx as <-. injection Hy as <-. vm_compute in Hw. injection Hw as <-.
      eapply (EV _ _ _ 16); [lia|reflexivity|reflexivity|split; [discriminate|split; [repeat constructor|vm_compute; reflexivity]]| |].
      * split; vm_compute; congruence.
      * intros [|[|[|j]]] Hj; [vm_compute; discriminate ..|lia].
    + intros x Hx. vm_compute in Hx. injection Hx as <-.
      eapply (EV _ _ _ 3); [lia|reflexivity|reflexivity|split; [discriminate|split; [repeat constructor|vm_compute; reflexivity]]| |].
      * split; vm_compute; congruence.
      * intros [|[|[|j]]] Hj; [vm_compute; discriminate ..|lia].
    + intros x d ws Hx Hd Hw. vm_compute in Hx. injection Hx as <-. vm_compute in Hd. injection Hd as <-. vm_compute in Hw. injection Hw as <-.
      eapply (EV _ _ _ 16); [lia|reflexivity|reflexivity|split; [discriminate|split; [repeat constructor|vm_compute; reflexivity]]| |].
      * split; vm_compute; congruence.
      * intros [|[|[|j]]] Hj; [vm_compute; discriminate ..|lia].
Qed.

(** C87 refuted without [steady]: two shares whose sum is not an int64 are divided separately,
    0 / 4 comes out as -2^46. *)
Theorem C87_carry_refuted : exists s env ins sup e r b z v,
  s_cfg s = default_config /\ s_n s = 2%nat /\
  (forall i, known s (fst (ins i)) (fst (snd (ins i))) (snd (snd (ins i))) (env i)) /\
  approx (s_cfg s) (s_n s) ins sup [] e [1%nat] r b /\ eval s env sup [] e = Ok z /\
  reconstruct z = Ok (mkT [1%nat] v) /\ (b = [3 / 4 * / 65536 + 3 / 4 * / 65536])%R /\
  nth 0 r 0%R = 0%R /\ (fixed (s_cfg s) (nth 0 v 0%Z) = - 2^46)%R.
Proof.
  exists (mkS 0 2 default_config), (fun _ => mkM 0 [1%nat] [mkT [1%nat] [- 2^63]; mkT [1%nat] [- 2^63]]),
    (fun _ => ([1%nat], ([0%R], [0%R]))), (fun _ => ([], ([], []))), (EDiv (EInput 0) 4).
  do 4 eexists. split; [reflexivity|]. split; [reflexivity|]. split.
  { intros i. exists [0]. share_ok.
    intros [|k] Hk; [|cbn in Hk; lia]. unfold rat; cbn [nth fst snd s_cfg]. rewrite w_fixed. unfold Rdiv. rewrite Rmult_0_l, Rminus_0_r, Rabs_R0. lra. }
  split; [apply ap_div; [exact (ap_in default_config 2 (fun _ => ([1%nat], ([0%R], [0%R]))) (fun _ => ([], ([], []))) _ 0%nat)|lia]|].
  split; [vm_compute; reflexivity|]. split; [vm_compute; reflexivity|].
  assert (S4 : slack 2 4 = 6) by reflexivity.
  split; [|split].
  - cbn -[slack]. rewrite S4. unfold ulp. change (scale default_config) with 65536. f_equal. cbn. lra.
  - cbn. lra.
  - cbn [nth s_cfg]. rewrite w_fixed. lra.
Qed.
Print Assumptions C87_carry_refuted.
