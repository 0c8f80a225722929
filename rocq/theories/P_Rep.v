(** Properties C16 to C23: replicated sharings and the three-party multiplication.
    Specifications: S_Rep ([rep_view], [replicated]), S_RepT ([holds]: the parties of a session
    hold the views of one sharing; [pub_in]; [trunc3]; [tampered]) and S_Bil ([product_r]). *)
From Coq Require Import QArith.
From Verif Require Import Util S_Ring S_Tensor S_Bil S_Rep S_RepT M_Torch L_Torch M_Encoder M_Tensor L_Tensor M_Share M_Spdz M_Rep
  S_Spdz L_Bil L_RShare L_Rep L_Rep2 L_Rep3 L_Rep4 L_Rep5 L_Rep6 L_Rep7.
Local Open Scope Z_scope.

(** three parties, fixed point with 16 bits; semi-honest and malicious *)
Definition RS3 : rsess := mkRS 0 3 (2^64) (mkConfig 2 16) false (fun k => k).
Definition RS3m : rsess := mkRS 0 3 (2^64) (mkConfig 2 16) true (fun k => k).
Definition RS4 : rsess := mkRS 0 4 (2^64) (mkConfig 2 16) true (fun k => k).
(** the tensor the parties hold, for the given shares *)
Definition rx (s : rsess) (ring : Z) (c : config) (sh : list nat) (ss : list (list Z)) : rmpc :=
  mkRM (rs_id s) sh (rviews s ring (fun _ => c) (map (mkT sh) ss)).
Definition t1 (l : list Z) : tensor := mkT [length l] l.
Definition c0 : config := mkConfig 1 0.
Definition c16 : config := mkConfig 2 16.

Lemma rx_holds s ring c sh v ss : sharedb ring sh v (map (mkT sh) ss) = true -> length ss = rs_n s -> unscaled ring c ->
  holds s ring c sh v (rx s ring c sh ss).
Proof. intros. apply example_holds; auto. rewrite map_length. auto. Qed.
Ltac rx := apply rx_holds; [vm_compute; reflexivity|reflexivity|intros [?|?]; (reflexivity || discriminate)].
Ltac sup := (left; reflexivity) || (right; sup).

(* ------------------------------------------------------------------ C16 *)
(** party k gets the shares k, ..., k+n-2 (mod n), and parties agree on what they have in common *)
Theorem C16_distribution : forall s ss ring c, length ss = rs_n s -> (1 <= rs_n s)%nat ->
  exists ps, rst_distribute s ss (Some ring) (Some c) = Ok (Sent ps) /\ length ps = rs_n s /\
    (forall k p, nth_error ps k = Some p ->
      r_ring p = ring /\ r_uuid p = Some (rs_uuid s k) /\ length (r_shares p) = (rs_n s - 1)%nat /\
      forall i, (i < rs_n s - 1)%nat -> nth_error (r_shares p) i = nth_error ss ((k + i) mod rs_n s)) /\
    (forall k p k' p' i i', nth_error ps k = Some p -> nth_error ps k' = Some p' ->
      (i < rs_n s - 1)%nat -> (i' < rs_n s - 1)%nat -> ((k + i) mod rs_n s = (k' + i') mod rs_n s)%nat ->
      nth_error (r_shares p) i = nth_error (r_shares p') i').
Proof.
  intros s ss ring c HL Hn. destruct (distribute_views s ss ring c HL Hn) as (ps & E & L & H).
  exists ps. split; [exact E|]. split; [exact L|]. split; [exact H|].
  intros k p k' p' i i' Ek Ek' Hi Hi' EM. destruct (H _ _ Ek) as (_ & _ & _ & E1).
  destruct (H _ _ Ek') as (_ & _ & _ & E2). rewrite E1, E2, EM by auto. reflexivity.
Qed.
Print Assumptions C16_distribution.

Example C16_distribution_witness : (* four parties *)
  length [t1 [1]; t1 [2]; t1 [3]; t1 [4]] = rs_n RS4 /\ (1 <= rs_n RS4)%nat /\
  (do d <- rst_distribute RS4 [t1 [1]; t1 [2]; t1 [3]; t1 [4]] (Some (2^64)) (Some c16);
   do ps <- received d; Ok (map r_shares ps)) =
  Ok [[t1 [1]; t1 [2]; t1 [3]]; [t1 [2]; t1 [3]; t1 [4]]; [t1 [3]; t1 [4]; t1 [1]]; [t1 [4]; t1 [1]; t1 [2]]].
Proof. split; [reflexivity|]. split; [cbn; lia|]. vm_compute; reflexivity. Qed.

(** reconstruction, in both security modes, gives the sum of the shares *)
Theorem C16_reconstruct : forall s ss ring c sh v mal, supported ring -> length ss = rs_n s -> (2 <= rs_n s)%nat ->
  shared ring sh v ss ->
  exists ps, rst_distribute s ss (Some ring) (Some c) = Ok (Sent ps) /\
    replicated ring sh v (map r_shares ps) /\ rst_reconstruct mal ps = Ok (mkT sh v).
Proof. exact distribute_reconstruct. Qed.
Print Assumptions C16_reconstruct.

Example C16_reconstruct_witness : (* wraps: 2^63-1 + 1 + 5 *)
  supported (2^64) /\ shared (2^64) [1%nat] [-2^63 + 5] [t1 [2^63 - 1]; t1 [1]; t1 [5]] /\
  (do d <- rst_distribute RS3 [t1 [2^63 - 1]; t1 [1]; t1 [5]] (Some (2^64)) (Some c16);
   do ps <- received d; rst_reconstruct true ps) = Ok (t1 [-2^63 + 5]).
Proof. split; [sup|]. split; [apply sharedb_ok; vm_compute; reflexivity|]. vm_compute; reflexivity. Qed.

(** a wrong number of shares: nothing is sent; the constructor then raises (TypeError, because
    distribute_shares returns the ValueError object instead of raising it) *)
Theorem C16_wrong_count : forall s ss ring c, length ss <> rs_n s ->
  (forall ps, rst_distribute s ss ring c <> Ok (Sent ps)) /\
  (do d <- rst_distribute s ss ring c; received d) = Err TypeError.
Proof.
  intros s ss ring c H. unfold rst_distribute. destruct (Nat.eqb_spec (length ss) (rs_n s)); [contradiction|].
  cbn [negb rbind received]. split; [discriminate|reflexivity].
Qed.
Print Assumptions C16_wrong_count.
Example C16_wrong_count_witness : length [t1 [1]; t1 [2]] <> rs_n RS3.
Proof. discriminate. Qed.

(* ------------------------------------------------------------------ C17 *)
(** whatever tensors party j puts in place of its shares: refused, or no effect *)
Theorem C17_tampering : forall ring s c sh v x j ts, supported ring -> (3 <= rs_n s)%nat -> (j < rs_n s)%nat ->
  holds s ring c sh v x -> ts <> [] -> Forall (tensor_in ring sh) ts ->
  rst_reconstruct true (tampered j ts (rm_ps x)) = Err ValueError \/
  rst_reconstruct true (tampered j ts (rm_ps x)) = Ok (mkT sh v).
Proof.
  intros ring s c sh v x j ts Hs Hn Hj HX Ht HT. destruct (holds_views _ _ _ _ _ _ HX) as (ss & cf & HS & HL & -> & _).
  cbn [rm_ps]. unfold rst_reconstruct.
  destruct (tampered j ts (rviews s ring cf ss)) as [|p q] eqn:E.
  { left. reflexivity. }
  rewrite <- E. destruct (tampered_sound ring Hs s cf sh v j ts ss HS ltac:(lia) ltac:(lia) HT Ht) as [H|(H & _)]; auto.
Qed.
Print Assumptions C17_tampering.

(** three parties: every change is refused *)
Theorem C17_three_parties : forall ring s c sh v x j p a b, supported ring -> rs_n s = 3%nat ->
  holds s ring c sh v x -> nth_error (rm_ps x) j = Some p -> tensor_in ring sh a -> tensor_in ring sh b ->
  [a; b] <> r_shares p -> rst_reconstruct true (tampered j [a; b] (rm_ps x)) = Err ValueError.
Proof.
  intros ring s c sh v x j p a b Hs Hn HX Hp Ha Hb NE.
  pose proof (nth_error_in_range _ _ _ Hp) as Hj.
  destruct (C17_tampering ring s c sh v x j [a; b] Hs) as [H|H]; auto; try lia; try discriminate.
  { destruct HX as (_ & _ & HL & _). lia. }
  exfalso. destruct (holds_views _ _ _ _ _ _ HX) as (ss & cf & HS & HL & EX & _). subst x. cbn [rm_ps] in *.
  rewrite rviews_length in Hj.
  pose proof (rviews_get s ring cf ss j Hj) as G. unfold get_nth in G. rewrite Hp in G. injection G as ->. apply NE.
  cbn [r_shares]. apply (tampered_three ring Hs s cf sh v j a b ss HS ltac:(lia) ltac:(lia) Ha Hb).
  unfold rst_reconstruct in H. destruct (tampered j [a; b] (rviews s ring cf ss)); [discriminate|]. rewrite H. discriminate.
Qed.
Print Assumptions C17_three_parties.

(** honest parties always succeed *)
Theorem C17_honest : forall ring s c sh v x, supported ring -> holds s ring c sh v x -> (2 <= rs_n s)%nat ->
  rm_reconstruct s x = Ok (mkT sh v).
Proof. intros ring s c sh v x Hs. exact (holds_reconstruct ring Hs s c sh v x). Qed.
Print Assumptions C17_honest.

Example C17_witness : (* four parties: party 2 shifts weight between its shares without effect on the sum,
                         three parties: party 1 changes one bit *)
  holds RS4 (2^64) c16 [2%nat] [10; 20] (rx RS4 (2^64) c16 [2%nat] [[1; 2]; [3; 4]; [5; 6]; [1; 8]]) /\
  rm_reconstruct RS4 (rx RS4 (2^64) c16 [2%nat] [[1; 2]; [3; 4]; [5; 6]; [1; 8]]) = Ok (t1 [10; 20]) /\
  rst_reconstruct true (tampered 2 [t1 [5; 6]; t1 [2; 8]; t1 [0; 2]]
    (rm_ps (rx RS4 (2^64) c16 [2%nat] [[1; 2]; [3; 4]; [5; 6]; [1; 8]]))) = Ok (t1 [10; 20]) /\
  holds RS3m (2^64) c16 [1%nat] [9] (rx RS3m (2^64) c16 [1%nat] [[1]; [3]; [5]]) /\
  rst_reconstruct true (tampered 1 [t1 [3]; t1 [4]] (rm_ps (rx RS3m (2^64) c16 [1%nat] [[1]; [3]; [5]]))) = Err ValueError.
Proof. split; [rx|]. split; [vm_compute; reflexivity|]. split; [vm_compute; reflexivity|]. split; [rx|vm_compute; reflexivity]. Qed.

(** "in any way" fails for tensors of another shape: broadcasting hides the change, and the
    result has the cheating party's shape *)
Theorem C17_shape_refuted : exists s x sh v j ts t, supported (2^64) /\ rs_n s = 3%nat /\
  holds s (2^64) c16 sh v x /\ (j < 3)%nat /\ length ts = 2%nat /\
  rst_reconstruct true (tampered j ts (rm_ps x)) = Ok t /\ tsh t <> sh.
Proof.
  exists RS3m, (rx RS3m (2^64) c16 [1%nat] [[1]; [3]; [5]]), [1%nat], [9], 0%nat, [t1 [1; 1]; t1 [3; 3]], (t1 [9; 9]).
  split; [sup|]. split; [reflexivity|]. split; [rx|]. split; [lia|]. split; [reflexivity|].
  split; [vm_compute; reflexivity|discriminate].
Qed.
Print Assumptions C17_shape_refuted.

(** "any change at all is detected" fails for an additional share of zeros *)
Theorem C17_extra_share_refuted : exists s x sh v j p ts, supported (2^64) /\ rs_n s = 3%nat /\
  holds s (2^64) c16 sh v x /\ nth_error (rm_ps x) j = Some p /\ ts <> r_shares p /\
  rst_reconstruct true (tampered j ts (rm_ps x)) = Ok (mkT sh v).
Proof.
  exists RS3m, (rx RS3m (2^64) c16 [1%nat] [[1]; [3]; [5]]), [1%nat], [9], 0%nat.
  eexists. exists [t1 [1]; t1 [3]; t1 [0]].
  split; [sup|]. split; [reflexivity|]. split; [rx|]. split; [vm_compute; reflexivity|].
  split; [discriminate|vm_compute; reflexivity].
Qed.
Print Assumptions C17_extra_share_refuted.

(* ------------------------------------------------------------------ C18 *)
(** shared and shared *)
Theorem C18_private : forall ring s o c d sx sy so vx vy x y, supported ring ->
  holds s ring c sx vx x -> holds s ring d sy vy y -> bshape sx sy so ->
  exists z, rm_lin o x y = Ok z /\
    holds s ring c so ((match o with LAdd => s_add | LSub => s_sub end) ring (bexpand sx so vx) (bexpand sy so vy)) z.
Proof.
  intros ring s o c d sx sy so vx vy x y Hs HX HY HB.
  destruct (rm_lin_holds ring Hs s o c d sx sy so vx vy x y HX HY HB) as (z & E & H). exists z. split; [exact E|].
  destruct o; exact H.
Qed.
Print Assumptions C18_private.

Example C18_private_witness : (* modulo 67, with broadcasting *)
  holds RS3 67 c0 [2%nat] [5; 66] (rx RS3 67 c0 [2%nat] [[60; 1]; [10; 60]; [2; 5]]) /\
  holds RS3 67 c0 [1%nat] [9] (rx RS3 67 c0 [1%nat] [[66]; [5]; [5]]) /\
  bshape [2%nat] [1%nat] [2%nat] /\
  (do z <- rm_lin LSub (rx RS3 67 c0 [2%nat] [[60; 1]; [10; 60]; [2; 5]]) (rx RS3 67 c0 [1%nat] [[66]; [5]; [5]]);
   rm_reconstruct RS3 z) = Ok (t1 [63; 57]).
Proof. split; [rx|]. split; [rx|]. split; [apply bcast_spec; reflexivity|]. vm_compute; reflexivity. Qed.

(** shared and public *)
Theorem C18_public : forall ring s o c sh vx x y w, supported ring -> (2 <= rs_n s)%nat ->
  holds s ring c sh vx x -> pub_ok y -> pub_in ring c y w -> bshape sh (pub_shape y) sh ->
  exists z, rm_lin_public s o x y = Ok z /\
    holds s ring c sh ((match o with LAdd => s_add | LSub => s_sub end) ring vx (bexpand (pub_shape y) sh w)) z.
Proof.
  intros ring s o c sh vx x y w Hs Hn HX Hy Hw HB.
  destruct (rm_lin_public_holds ring Hs s o c sh vx x y w Hn HX Hy Hw HB) as (z & E & H). exists z. split; [exact E|].
  destruct o; exact H.
Qed.
Print Assumptions C18_public.

Example C18_public_witness : (* four parties, x - 0.5 *)
  holds RS4 (2^64) c16 [2%nat] [10; 20] (rx RS4 (2^64) c16 [2%nat] [[1; 2]; [3; 4]; [5; 6]; [1; 8]]) /\
  pub_in (2^64) c16 (PNum (NFloat (1 # 2))) [32768] /\ bshape [2%nat] (pub_shape (PNum (NFloat (1 # 2)))) [2%nat] /\
  (do z <- rm_lin_public RS4 LSub (rx RS4 (2^64) c16 [2%nat] [[1; 2]; [3; 4]; [5; 6]; [1; 8]]) (PNum (NFloat (1 # 2)));
   rm_reconstruct RS4 z) = Ok (t1 [-32758; -32748]).
Proof.
  split; [rx|]. split; [right; right; split; [discriminate|]; split; [discriminate|]; vm_compute; reflexivity|].
  split; [apply bcast_spec; reflexivity|]. vm_compute; reflexivity.
Qed.

(** product with a public value, at the parties: any number of parties *)
Theorem C18_public_product : forall ring s c sx so vx x y w, supported ring ->
  holds s ring c sx vx x -> pub_ok y -> pub_in ring c y w -> bshape sx (pub_shape y) so ->
  exists ps, at_parties s (fun _ p => rst_mul_public p y) (rm_ps x) = Ok ps /\
    holds s ring c so (mul_vr ring sx (pub_shape y) so vx w) (mkRM (rs_id s) so ps).
Proof. intros ring s c sx so vx x y w Hs. exact (mul_public_local ring Hs s c sx so vx x y w). Qed.
Print Assumptions C18_public_product.

(** x * y with a public y as the user sees it: three parties, unscaled values *)
Theorem C18_public_product_mpc : forall ring s c sx so vx x y w rnd, supported ring -> rs_n s = 3%nat -> cfg_ok c ->
  (ring = 2 \/ ring = 67 \/ c_prec c = 0%nat) ->
  holds s ring c sx vx x -> pub_ok y -> pub_in ring c y w -> bshape sx (pub_shape y) so -> tensor_in ring so rnd ->
  exists z, rm_bil_public s BMul x y rnd = Ok z /\ holds s ring c so (mul_vr ring sx (pub_shape y) so vx w) z.
Proof. intros ring s c sx so vx x y w rnd Hs. exact (rm_mul_public_exact ring Hs s c sx so vx x y w rnd). Qed.
Print Assumptions C18_public_product_mpc.

Example C18_public_product_witness : (* modulo 67 by [-1; 40] *)
  let y := PTensor [2%nat] [NInt (-1); NInt 40] in
  holds RS3 67 c0 [2%nat] [5; 66] (rx RS3 67 c0 [2%nat] [[60; 1]; [10; 60]; [2; 5]]) /\ pub_ok y /\
  pub_in 67 c0 y [66; 40] /\ bshape [2%nat] (pub_shape y) [2%nat] /\ cfg_ok c0 /\ tensor_in 67 [2%nat] (t1 [3; 4]) /\
  (do z <- rm_bil_public RS3 BMul (rx RS3 67 c0 [2%nat] [[60; 1]; [10; 60]; [2; 5]]) y (t1 [3; 4]); rm_reconstruct RS3 z) = Ok (t1 [62; 27]).
Proof.
  cbn zeta. split; [rx|]. split; [reflexivity|]. split.
  { right. left. split; [reflexivity|]. exists [-1; 40]. split; reflexivity. }
  split; [apply bcast_spec; reflexivity|]. split; [unfold cfg_ok; cbn; lia|].
  split; [apply tensor_inb_ok; vm_compute; reflexivity|]. vm_compute; reflexivity.
Qed.

(** public - shared of two MPCTensors; [_partial]: unscaled values (see C18_rsub_scaled for the
    others), tensors of at least one dimension (see C18_zero_dim_refuted) *)
Theorem C18_rsub_partial : forall ring s c sx vx x y w rnd, supported ring -> rs_n s = 3%nat -> cfg_ok c -> sx <> [] ->
  c_prec c = 0%nat ->
  holds s ring c sx vx x -> pub_ok y -> pub_in ring c y w -> bshape sx (pub_shape y) sx -> tensor_in ring sx rnd ->
  exists z, rm_rsub s x y rnd = Ok z /\ holds s ring c sx (s_sub ring (bexpand (pub_shape y) sx w) vx) z.
Proof. intros ring s c sx vx x y w rnd Hs. exact (rm_rsub_ok ring Hs s c sx vx x y w rnd). Qed.
Print Assumptions C18_rsub_partial.

Example C18_rsub_witness :
  holds RS3 (2^64) (mkConfig 2 0) [1%nat] [9] (rx RS3 (2^64) (mkConfig 2 0) [1%nat] [[1]; [3]; [5]]) /\
  pub_in (2^64) (mkConfig 2 0) (PNum (NInt 100)) [100] /\
  (do z <- rm_rsub RS3 (rx RS3 (2^64) (mkConfig 2 0) [1%nat] [[1]; [3]; [5]]) (PNum (NInt 100)) (t1 [77]); rm_reconstruct RS3 z) = Ok (t1 [91]).
Proof.
  split; [rx|]. split; [right; right; split; [discriminate|]; split; [discriminate|]; vm_compute; reflexivity|].
  vm_compute; reflexivity.
Qed.

(** scaled values: the product by -1 is truncated; the result is exact where the parts truncated
    separately do not wrap and the product fits the ring *)
Theorem C18_rsub_scaled : forall ring s c sx vx x y w rnd, supported ring -> ring <> 2 -> ring <> 67 -> rs_n s = 3%nat ->
  c_base c = 2 -> sx <> [] ->
  holds s ring c sx vx x -> pub_ok y -> pub_in ring c y w -> bshape sx (pub_shape y) sx -> tensor_in ring sx rnd ->
  let m := 2 ^ Z.of_nat (c_prec c) in let wy := bexpand (pub_shape y) sx w in
  exists z v z1 z2 z3, rm_rsub s x y rnd = Ok z /\ holds s ring c sx v z /\
    shared ring sx (map2 (fun p q => to_ring ring ((p - q) * m)) wy vx) [z1; z2; z3] /\
    forall e, (e < numel sx)%nat ->
      in_ring ring (nth e (tdat z1) 0 + to_ring ring (nth e (tdat z2) 0 + nth e (tdat z3) 0)) ->
      in_ring ring ((nth e wy 0 - nth e vx 0) * m) ->
      nth e v 0 = nth e wy 0 - nth e vx 0.
Proof. intros ring s c sx vx x y w rnd Hs. exact (rm_rsub_scaled ring Hs s c sx vx x y w rnd). Qed.
Print Assumptions C18_rsub_scaled.

Example C18_rsub_scaled_witness : (* 1.5 - 0.25 and 1.5 - (-3) *)
  let x := rx RS3 (2^64) c16 [2%nat] [[2^40 + 1; -196607]; [16384 - 2^40 - 3; 5]; [2; -6]] in
  let y := PNum (NFloat (3 # 2)) in
  holds RS3 (2^64) c16 [2%nat] [16384; -196608] x /\ pub_ok y /\ pub_in (2^64) c16 y [98304] /\
  bshape [2%nat] (pub_shape y) [2%nat] /\ tensor_in (2^64) [2%nat] (t1 [7; 8]) /\
  (do z <- rm_rsub RS3 x y (t1 [7; 8]); rm_reconstruct RS3 z) = Ok (t1 [81920; 294912]).
Proof.
  cbn zeta. split; [rx|]. split; [reflexivity|]. split; [right; right; split; [discriminate|]; split; [discriminate|]; vm_compute; reflexivity|].
  split; [apply bcast_spec; reflexivity|]. split; [apply tensor_inb_ok; vm_compute; reflexivity|]. vm_compute; reflexivity.
Qed.

(** a secret without dimensions comes back with shape [1]: minus one is a tensor of shape [1] *)
Theorem C18_zero_dim_refuted : exists s c vx x y w rnd z, supported (2^64) /\ rs_n s = 3%nat /\ cfg_ok c /\ c_prec c = 0%nat /\
  holds s (2^64) c [] vx x /\ pub_ok y /\ pub_in (2^64) c y w /\ tensor_in (2^64) [] rnd /\
  rm_rsub s x y rnd = Ok z /\ rm_reconstruct s z = Ok (mkT [1%nat] [91]) /\ vx = [9] /\ w = [100].
Proof.
  exists RS3, (mkConfig 2 0), [9], (rx RS3 (2^64) (mkConfig 2 0) [] [[1]; [3]; [5]]), (PNum (NInt 100)), [100], (mkT [] [77]).
  eexists. split; [now vm_compute; auto 10|]. split; [reflexivity|]. split; [unfold cfg_ok; cbn; lia|]. split; [reflexivity|].
  split; [rx|]. split; [reflexivity|]. split; [right; right; split; [discriminate|]; split; [discriminate|]; vm_compute; reflexivity|].
  split; [apply tensor_inb_ok; vm_compute; reflexivity|]. split; [vm_compute; reflexivity|]. split; [vm_compute; reflexivity|]. auto.
Qed.
Print Assumptions C18_zero_dim_refuted.

(** the method rsub of the share objects computes shared - public *)
Theorem C18_rsub_method_refuted : exists s c sh vx x y w ps, supported (2^64) /\ rs_n s = 3%nat /\
  holds s (2^64) c sh vx x /\ pub_in (2^64) c y w /\
  at_parties s (fun k p => rst_rsub_public k p y) (rm_ps x) = Ok ps /\
  rst_reconstruct false ps <> Ok (mkT sh (s_sub (2^64) (bexpand (pub_shape y) sh w) vx)) /\
  rst_reconstruct false ps = Ok (mkT sh (s_sub (2^64) vx (bexpand (pub_shape y) sh w))).
Proof.
  exists RS3, (mkConfig 2 0), [1%nat], [9], (rx RS3 (2^64) (mkConfig 2 0) [1%nat] [[1]; [3]; [5]]), (PNum (NInt 100)), [100].
  eexists. split; [sup|]. split; [reflexivity|]. split; [rx|].
  split; [right; right; split; [discriminate|]; split; [discriminate|]; vm_compute; reflexivity|].
  split; [vm_compute; reflexivity|]. split; [vm_compute; discriminate|vm_compute; reflexivity].
Qed.
Print Assumptions C18_rsub_method_refuted.

(** with other than three parties, a product with a public value raises *)
Theorem C18_parties_refuted : exists s c sh vx x y w rnd, supported (2^64) /\ (2 <= rs_n s)%nat /\
  holds s (2^64) c sh vx x /\ pub_in (2^64) c y w /\ bshape sh (pub_shape y) sh /\
  rm_bil_public s BMul x y rnd = Err ValueError.
Proof.
  exists RS4, c16, [1%nat], [10], (rx RS4 (2^64) c16 [1%nat] [[1]; [3]; [5]; [1]]), (PNum (NInt 2)), [131072], (t1 [0]).
  split; [sup|]. split; [cbn; lia|]. split; [rx|].
  split; [right; right; split; [discriminate|]; split; [discriminate|]; vm_compute; reflexivity|].
  split; [apply bcast_spec; reflexivity|]. vm_compute; reflexivity.
Qed.
Print Assumptions C18_parties_refuted.

(** matrix products with a public value are not reduced modulo 67 *)
Theorem C18_prime_matmul_refuted : exists s x y rnd z t, rs_n s = 3%nat /\
  holds s 67 c0 [1; 1]%nat [66] x /\ pub_in 67 c0 y [66] /\ product_r 67 SMatmul [1; 1]%nat (pub_shape y) [1; 1]%nat (mm_vr 67 [] [] [] 1 1 1) /\
  rm_bil_public s BMatmul x y rnd = Ok z /\ rm_reconstruct s z = Ok t /\ tdat t <> mm_vr 67 [] [] [] 1 1 1 [66] [66].
Proof.
  exists RS3, (rx RS3 67 c0 [1; 1]%nat [[66]; [0]; [0]]), (PTensor [1; 1]%nat [NInt 66]), (mkT [1; 1]%nat [0]).
  eexists. eexists. split; [reflexivity|]. split; [rx|].
  split; [right; left; split; [reflexivity|]; exists [66]; split; reflexivity|].
  split; [apply (prod_mm_r 67 [] [] [] 1 1 1); apply bcast_spec; reflexivity|].
  split; [vm_compute; reflexivity|]. split; [vm_compute; reflexivity|]. vm_compute. discriminate.
Qed.
Print Assumptions C18_prime_matmul_refuted.

(* ------------------------------------------------------------------ C19 *)
(** the local products, masked by any sharing of zero, add up to the product; re-shared, they
    are a consistent replicated sharing of it *)
Theorem C19_product_shares : forall ring s op sx sy so f c d vx vy x y masks, supported ring -> rs_n s = 3%nat ->
  product_r ring op sx sy so f -> rep_op ring op ->
  holds s ring c sx vx x -> holds s ring d sy vy y ->
  length masks = 3%nat -> shared ring so (repeat 0 (numel so)) masks ->
  exists zs z, falcon_z (bop_of op) x y masks = Ok zs /\ length zs = 3%nat /\ shared ring so (f vx vy) zs /\
    falcon_reshare s zs ring c so = Ok z /\ holds s ring c so (f vx vy) z.
Proof.
  intros ring s op sx sy so f c d vx vy x y masks Hs Hn HP HO HX HY LM HM.
  destruct (holds_views _ _ _ _ _ _ HX) as (xs & cf & Hxs & Lx & -> & _ & HU).
  destruct (holds_views _ _ _ _ _ _ HY) as (ys & cg & Hys & Ly & -> & _).
  destruct (falcon_z_ok ring Hs s op sx sy so f cf cg vx vy xs ys masks HP HO ltac:(lia) ltac:(lia) LM Hxs Hys HM
    (rs_id s) (rs_id s) sx sy) as (zs & EZ & LZ & SZ).
  exists zs. eexists. split; [exact EZ|]. split; [exact LZ|]. split; [exact SZ|].
  unfold falcon_reshare. rewrite rst_distribute_ok by lia. split; [reflexivity|].
  apply views_holds; [auto|lia|]. intros k _. rewrite rst_cfg_idem. apply unscaled_cfg, HU.
Qed.
Print Assumptions C19_product_shares.

(** x * y (and x @ y in the rings 2^k) in either security mode: exact for unscaled values *)
Theorem C19_product_exact : forall ring s op sx sy so f c d vx vy x y u, supported ring ->
  rs_n s = 3%nat -> product_r ring op sx sy so f -> rep_op ring op -> cfg_ok c ->
  (ring = 2 \/ ring = 67 \/ c_prec c = 0%nat) ->
  holds s ring c sx vx x -> holds s ring d sy vy y -> good_sup ring s sx sy so f u ->
  exists z, rm_bil s (bop_of op) x y u = Ok z /\ holds s ring c so (f vx vy) z.
Proof. intros ring s op sx sy so f c d vx vy x y u Hs. exact (rm_bil_exact ring Hs s op sx sy so f c d vx vy x y u). Qed.
Print Assumptions C19_product_exact.

(** and, for scaled values, the truncation (C22) of the product's shares *)
Theorem C19_product_scaled : forall ring s op sx sy so f c d vx vy x y u, supported ring -> ring <> 2 -> ring <> 67 ->
  rs_n s = 3%nat -> product_r ring op sx sy so f -> rep_op ring op -> cfg_ok c ->
  holds s ring c sx vx x -> holds s ring d sy vy y -> good_sup ring s sx sy so f u ->
  exists z zs, rm_bil s (bop_of op) x y u = Ok z /\ falcon_z (bop_of op) x y (su_mask u) = Ok zs /\
    length zs = 3%nat /\ shared ring so (f vx vy) zs /\ holds s ring c so (trunc3 ring c so zs) z.
Proof.
  intros ring s op sx sy so f c d vx vy x y u Hs N2 N67 Hn HP HO HC HX HY HU.
  destruct (rm_bil_ok ring Hs s op sx sy so f c d vx vy x y u Hn HP HO HC HX HY HU) as (z & zs & E & EZ & LZ & SZ & HZ).
  exists z, zs. repeat (split; [assumption|]). unfold trunc_value in HZ.
  apply Z.eqb_neq in N2, N67. rewrite N2, N67 in HZ. exact HZ.
Qed.
Print Assumptions C19_product_scaled.

Definition C19_u : mulsup := (* malicious session, ring 67: a = 7, b = 50, c = 15 *)
  mkSup [t1 [5]; t1 [66]; t1 [63]] (t1 [1])
    (mkRT (rm_ps (rx RS3m 67 c0 [1%nat] [[60]; [10]; [4]])) (rm_ps (rx RS3m 67 c0 [1%nat] [[20]; [25]; [5]]))
          (rm_ps (rx RS3m 67 c0 [1%nat] [[5]; [5]; [5]]))).
Example C19_witness : (* 40 * 30 = 61 modulo 67 *)
  product_r 67 SMul [1%nat] [1%nat] [1%nat] (mul_vr 67 [1%nat] [1%nat] [1%nat]) /\ rep_op 67 SMul /\
  holds RS3m 67 c0 [1%nat] [40] (rx RS3m 67 c0 [1%nat] [[66]; [33]; [8]]) /\
  holds RS3m 67 c0 [1%nat] [30] (rx RS3m 67 c0 [1%nat] [[1]; [2]; [27]]) /\
  good_sup 67 RS3m [1%nat] [1%nat] [1%nat] (mul_vr 67 [1%nat] [1%nat] [1%nat]) C19_u /\
  (do z <- rm_bil RS3m BMul (rx RS3m 67 c0 [1%nat] [[66]; [33]; [8]]) (rx RS3m 67 c0 [1%nat] [[1]; [2]; [27]]) C19_u;
   rm_reconstruct RS3m z) = Ok (t1 [61]).
Proof.
  split; [apply prod_mul_r; apply bcast_spec; reflexivity|]. split; [left; reflexivity|]. split; [rx|]. split; [rx|]. split.
  { split; [apply sharedb_ok; vm_compute; reflexivity|]. split; [reflexivity|].
    split; [apply tensor_inb_ok; vm_compute; reflexivity|]. intros _.
    exists c0, c0, c0, [7], [50]. eexists _, _, _. split; [reflexivity|]. split; [rx|]. split; rx. }
  vm_compute; reflexivity.
Qed.

Definition C19_u2 : mulsup := mkSup [mkT [1;1]%nat [5]; mkT [1;1]%nat [7]; mkT [1;1]%nat [-12]] (mkT [1;1]%nat [123456789]) (mkRT [] [] []).
Example C19_scaled_witness : (* semi-honest, 1.5 * 2 + 2 * 3 = 9, matrices 1x2 and 2x1 *)
  let x := rx RS3 (2^64) c16 [1;2]%nat [[98304; 2^62]; [0; -2^62]; [0; 131072]] in
  let y := rx RS3 (2^64) c16 [2;1]%nat [[0; 1]; [131072; 0]; [0; 196607]] in
  product_r (2^64) SMatmul [1;2]%nat [2;1]%nat [1;1]%nat (mm_vr (2^64) [] [] [] 1 2 1) /\ rep_op (2^64) SMatmul /\ cfg_ok c16 /\
  holds RS3 (2^64) c16 [1;2]%nat [98304; 131072] x /\ holds RS3 (2^64) c16 [2;1]%nat [131072; 196608] y /\
  good_sup (2^64) RS3 [1;2]%nat [2;1]%nat [1;1]%nat (mm_vr (2^64) [] [] [] 1 2 1) C19_u2 /\
  (do z <- rm_bil RS3 BMatmul x y C19_u2; rm_reconstruct RS3 z) = Ok (mkT [1;1]%nat [589824 - 1]).
Proof.
  cbn zeta. split; [apply (prod_mm_r (2^64) [] [] [] 1 2 1); apply bcast_spec; reflexivity|].
  split; [right; repeat split; discriminate|]. split; [unfold cfg_ok; cbn; lia|]. split; [rx|]. split; [rx|]. split.
  { split; [apply sharedb_ok; vm_compute; reflexivity|]. split; [reflexivity|].
    split; [apply tensor_inb_ok; vm_compute; reflexivity|]. discriminate. }
  vm_compute; reflexivity.
Qed.

(* ------------------------------------------------------------------ C20 *)
(** the verification accepts a sharing z exactly when it is one of the product *)
Theorem C20_verification : forall ring s op sx sy so f cx cy cz ca cb cc vx vy vz va vb x y z a b c, supported ring ->
  rs_n s = 3%nat -> product_r ring op sx sy so f -> rep_op ring op ->
  holds s ring cx sx vx x -> holds s ring cy sy vy y -> holds s ring cz so vz z ->
  holds s ring ca sx va a -> holds s ring cb sy vb b -> holds s ring cc so (f va vb) c ->
  falcon_verify s (bop_of op) x y z (mkRT (rm_ps a) (rm_ps b) (rm_ps c)) =
  if list_eq_dec Z.eq_dec vz (f vx vy) then Ok z else Err ValueError.
Proof.
  intros ring s op sx sy so f cx cy cz ca cb cc vx vy vz va vb x y z a b c Hs.
  exact (falcon_verify_ok ring Hs s op sx sy so f cx cy cz ca cb cc vx vy vz va vb x y z a b c).
Qed.
Print Assumptions C20_verification.

(** any error [vm] added to the local products (here: to their masks) makes the
    multiplication raise *)
Theorem C20_error_caught : forall ring s op sx sy so f cx cy ca cb cc vx vy vm va vb x y a b c masks rnd, supported ring ->
  rs_n s = 3%nat -> rs_mal s = true -> product_r ring op sx sy so f -> rep_op ring op ->
  holds s ring cx sx vx x -> holds s ring cy sy vy y ->
  holds s ring ca sx va a -> holds s ring cb sy vb b -> holds s ring cc so (f va vb) c ->
  length masks = 3%nat -> shared ring so vm masks -> vm <> repeat 0 (numel so) ->
  rm_bil s (bop_of op) x y (mkSup masks rnd (mkRT (rm_ps a) (rm_ps b) (rm_ps c))) = Err ValueError.
Proof.
  intros ring s op sx sy so f cx cy ca cb cc vx vy vm va vb x y a b c masks rnd Hs.
  exact (rm_bil_error ring Hs s op sx sy so f cx cy ca cb cc vx vy vm va vb x y a b c masks rnd).
Qed.
Print Assumptions C20_error_caught.

(** without error it succeeds *)
Theorem C20_honest : forall ring s op sx sy so f c d vx vy x y u, supported ring -> rs_mal s = true ->
  rs_n s = 3%nat -> product_r ring op sx sy so f -> rep_op ring op -> cfg_ok c ->
  holds s ring c sx vx x -> holds s ring d sy vy y -> good_sup ring s sx sy so f u ->
  exists z vz, rm_bil s (bop_of op) x y u = Ok z /\ holds s ring c so vz z.
Proof.
  intros ring s op sx sy so f c d vx vy x y u Hs _ Hn HP HO HC HX HY HU.
  destruct (rm_bil_ok ring Hs s op sx sy so f c d vx vy x y u Hn HP HO HC HX HY HU) as (z & zs & E & _ & _ & _ & HZ).
  eauto.
Qed.
Print Assumptions C20_honest.

Example C20_witness : (* the multiplication of C19_witness, with an error of 1 in the last mask *)
  holds RS3m 67 c0 [1%nat] [40] (rx RS3m 67 c0 [1%nat] [[66]; [33]; [8]]) /\
  holds RS3m 67 c0 [1%nat] [30] (rx RS3m 67 c0 [1%nat] [[1]; [2]; [27]]) /\
  shared 67 [1%nat] [1] [t1 [5]; t1 [66]; t1 [64]] /\
  rm_bil RS3m BMul (rx RS3m 67 c0 [1%nat] [[66]; [33]; [8]]) (rx RS3m 67 c0 [1%nat] [[1]; [2]; [27]])
    (mkSup [t1 [5]; t1 [66]; t1 [64]] (t1 [1]) (su_tri C19_u)) = Err ValueError.
Proof. split; [rx|]. split; [rx|]. split; [apply sharedb_ok; vm_compute; reflexivity|]. vm_compute; reflexivity. Qed.

(* ------------------------------------------------------------------ C21 *)
(** [vm]: the error of c against a * b; a triple is refused only if every element is wrong *)
Theorem C21_triples_partial : forall ring s op sx sy so f ca cb va vb vm a b masks, supported ring ->
  rs_n s = 3%nat -> product_r ring op sx sy so f -> rep_op ring op ->
  holds s ring ca sx va a -> holds s ring cb sy vb b -> length masks = 3%nat -> shared ring so vm masks ->
  exists c, holds s ring (rst_cfg ring (mkConfig 2 0)) so (s_add ring (f va vb) vm) c /\
    rep_triples s (bop_of op) a b ring masks =
    if forallb (fun v => negb (v =? 0)) vm then Err ValueError else Ok (mkRT (rm_ps a) (rm_ps b) (rm_ps c)).
Proof.
  intros ring s op sx sy so f ca cb va vb vm a b masks Hs.
  exact (rep_triples_ok ring Hs s op sx sy so f ca cb va vb vm a b masks).
Qed.
Print Assumptions C21_triples_partial.

(** a triple that is wrong in one of two elements is accepted *)
Theorem C21_triples_refuted : exists s a b masks c va vb vc, rs_n s = 3%nat /\
  holds s (2^64) c16 [2%nat] va a /\ holds s (2^64) c16 [2%nat] vb b /\
  holds s (2^64) (mkConfig 2 0) [2%nat] vc c /\
  rep_triples s BMul a b (2^64) masks = Ok (mkRT (rm_ps a) (rm_ps b) (rm_ps c)) /\
  vc <> mul_vr (2^64) [2%nat] [2%nat] [2%nat] va vb.
Proof.
  exists RS3m, (rx RS3m (2^64) c16 [2%nat] [[1; 2]; [3; 4]; [5; 6]]), (rx RS3m (2^64) c16 [2%nat] [[1; 1]; [0; 0]; [1; 0]]),
    [t1 [0; 0]; t1 [0; 0]; t1 [0; 1]], (rx RS3m (2^64) (mkConfig 2 0) [2%nat] [[4; 6]; [3; 0]; [11; 7]]), [9; 12], [2; 1], [18; 13].
  split; [reflexivity|]. split; [rx|]. split; [rx|]. split; [rx|].
  split; [vm_compute; reflexivity|vm_compute; discriminate].
Qed.
Print Assumptions C21_triples_refuted.

Example C21_witness : (* both elements wrong: refused; correct: accepted *)
  shared (2^64) [2%nat] [1; 1] [t1 [0; 0]; t1 [1; 0]; t1 [0; 1]] /\
  rep_triples RS3m BMul (rx RS3m (2^64) c16 [2%nat] [[1; 2]; [3; 4]; [5; 6]]) (rx RS3m (2^64) c16 [2%nat] [[1; 1]; [0; 0]; [1; 0]])
    (2^64) [t1 [0; 0]; t1 [1; 0]; t1 [0; 1]] = Err ValueError /\
  (do t <- rep_triples RS3m BMul (rx RS3m (2^64) c16 [2%nat] [[1; 2]; [3; 4]; [5; 6]]) (rx RS3m (2^64) c16 [2%nat] [[1; 1]; [0; 0]; [1; 0]])
    (2^64) [t1 [1; 0]; t1 [-1; 2]; t1 [0; -2]]; reconstruct_sh (rt_c t)) = Ok (t1 [18; 12]).
Proof. split; [apply sharedb_ok; vm_compute; reflexivity|]. split; vm_compute; reflexivity. Qed.

(* ------------------------------------------------------------------ C22 *)
(** truncating the tensor held by the parties with the shares z1, z2, z3 *)
Theorem C22_truncation : forall ring s c so v x z1 z2 z3 rnd, supported ring -> ring <> 2 -> ring <> 67 ->
  rs_n s = 3%nat -> c_base c = 2 -> holds s ring c so v x -> tensor_in ring so rnd ->
  map r_shares (rm_ps x) = [[z1; z2]; [z2; z3]; [z3; z1]] ->
  exists z vz, aby3_truncate s (PReplicated (rm_ps x)) so ring c rnd = Ok z /\ holds s ring c so vz z /\
    forall e, (e < numel so)%nat ->
      in_ring ring (nth e (tdat z1) 0 + to_ring ring (nth e (tdat z2) 0 + nth e (tdat z3) 0)) ->
      nth e vz 0 = nth e v 0 / 2 ^ Z.of_nat (c_prec c) \/ nth e vz 0 = nth e v 0 / 2 ^ Z.of_nat (c_prec c) - 1.
Proof.
  intros ring s c so v x z1 z2 z3 rnd Hs N2 N67 Hn Hb HX HR EV.
  pose proof N2 as M2. pose proof N67 as M67. apply Z.eqb_neq in M2, M67.
  destruct (holds_views _ _ _ _ _ _ HX) as (ss & cf & HS & HL & -> & Hcf & HU). cbn [rm_ps] in *.
  rewrite rviews_shares in EV. destruct (three ss ltac:(lia)) as (a & b & d & ->).
  change (map (rep_view [a; b; d]) (seq 0 (length [a; b; d]))) with [[a; b]; [b; d]; [d; a]] in EV.
  assert (a = z1 /\ b = z2 /\ d = z3) as (-> & -> & ->) by (injection EV; auto).
  destruct (aby3_replicated ring Hs s (fun _ => c) c so v [z1; z2; z3] rnd) as (z & E & H); auto.
  { intros k _. apply unscaled_cfg, HU. }
  { unfold cfg_ok. lia. }
  exists z, (trunc3 ring c so [z1; z2; z3]). split.
  { rewrite <- E. unfold aby3_truncate. rewrite !rviews3. unfold PRIME. rewrite M2, M67. reflexivity. }
  split.
  { unfold trunc_value in H. rewrite M2, M67 in H. exact H. }
  intros e He Hw. exact (trunc3_accurate ring Hs c so v z1 z2 z3 N2 N67 Hb HS e He Hw).
Qed.
Print Assumptions C22_truncation.

Example C22_witness : (* 3.75 with 16 more bits, negative second element, then a case that wraps *)
  let x := rx RS3 (2^64) c16 [2%nat] [[2^40; -1]; [245760 * 65536 - 2^40; -65537]; [0; 0]] in
  holds RS3 (2^64) c16 [2%nat] [245760 * 65536; -65538] x /\ tensor_in (2^64) [2%nat] (t1 [99; -99]) /\
  (do z <- aby3_truncate RS3 (PReplicated (rm_ps x)) [2%nat] (2^64) c16 (t1 [99; -99]); rm_reconstruct RS3 z) = Ok (t1 [245760; -3]) /\
  (do z <- aby3_truncate RS3 (PReplicated (rm_ps (rx RS3 (2^64) c16 [1%nat] [[2^63 - 1]; [2^63 - 1]; [2]]))) [1%nat] (2^64) c16 (t1 [0]);
   rm_reconstruct RS3 z) = Ok (t1 [-1]) /\
  (do z <- aby3_truncate RS3 (PReplicated (rm_ps (rx RS3 (2^64) c16 [1%nat] [[2^62]; [2^62]; [0]]))) [1%nat] (2^64) c16 (t1 [0]);
   rm_reconstruct RS3 z) = Ok (t1 [2^47]).
Proof.
  cbn zeta. split; [rx|]. split; [apply tensor_inb_ok; vm_compute; reflexivity|]. split; [vm_compute; reflexivity|]. split; vm_compute; reflexivity.
Qed.

(* ------------------------------------------------------------------ C23 *)
(** the three operations on tensors of residues *)
Theorem C23_prime_field : forall xs ys, Forall (fun x => 0 <= x < 67) xs -> Forall (fun y => 0 <= y < 67) ys ->
  modprime_t addmodprime TU8 TU8 xs ys = Ok (map2 (fun x y => (x + y) mod 67) xs ys) /\
  modprime_t submodprime TU8 TU8 xs ys = Ok (map2 (fun x y => (x - y) mod 67) xs ys) /\
  modprime_t mulmodprime TU8 TU8 xs ys = Ok (map2 (fun x y => (x * y) mod 67) xs ys).
Proof.
  intros xs ys HX HY. unfold modprime_t. cbn [dtype_eqb andb].
  assert (G : forall f g : Z -> Z -> Z, (forall x y, 0 <= x < 67 -> 0 <= y < 67 -> f x y = g x y) -> map2 f xs ys = map2 g xs ys).
  { intros f g HF. revert ys HY. induction HX as [|x xs Hx HX IH]; intros [|y ys] HY; cbn [map2]; auto.
    inversion HY; subst. rewrite HF by auto. rewrite IH; auto. }
  split; [|split]; f_equal; apply G.
  - exact addmodprime_spec.
  - exact submodprime_spec.
  - exact mulmodprime_spec.
Qed.
Print Assumptions C23_prime_field.

(** operands of another type are refused, whatever the values *)
Theorem C23_other_types : forall f dx dy xs ys, dx <> TU8 \/ dy <> TU8 -> modprime_t f dx dy xs ys = Err ValueError.
Proof. intros f dx dy xs ys [H|H]; unfold modprime_t; destruct dx, dy; cbn; congruence. Qed.
Print Assumptions C23_other_types.

Example C23_witness : (* the extreme operands *)
  Forall (fun x => 0 <= x < 67) [66; 0; 66; 1] /\
  modprime_t addmodprime TU8 TU8 [66; 0; 66; 1] [66; 66; 1; 1] = Ok [65; 66; 0; 2] /\
  modprime_t submodprime TU8 TU8 [66; 0; 66; 1] [66; 66; 1; 1] = Ok [0; 1; 65; 0] /\
  modprime_t mulmodprime TU8 TU8 [66; 0; 66; 1] [66; 66; 1; 1] = Ok [1; 0; 66; 1] /\
  modprime_t addmodprime TU8 TI64 [66] [66] = Err ValueError.
Proof. split; [repeat constructor; lia|]. repeat split; vm_compute; reflexivity. Qed.
