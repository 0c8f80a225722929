(** Lemmas on what a single party sees of replicated sharings and products. *)
From Coq Require Import QArith Setoid Morphisms.
From Verif Require Import Util Modular S_Ring S_Tensor S_Bil S_Spdz S_Rep S_Priv S_RepPriv M_Torch L_Torch M_Encoder M_Tensor L_Tensor M_Share L_Share M_Spdz L_Spdz L_Bil
  L_RShare L_Mul M_Session L_Session M_Rep S_RepT L_Rep L_Rep2 L_Rep3 M_Float S_Wraps S_Div L_Float L_Div L_Priv M_Store M_Fss M_Opened S_Opened L_Opened.
Local Open Scope Z_scope.

Lemma rep_view_ext ss ss' k : length ss = length ss' -> (k < length ss)%nat -> (2 <= length ss)%nat ->
  (forall i, (i < length ss)%nat -> i <> ((k + (length ss - 1)) mod length ss)%nat -> nth_error ss i = nth_error ss' i) ->
  rep_view ss k = rep_view ss' k.
Proof.
  intros HL Hk H2 H. unfold rep_view. rewrite <- HL. apply map_ext_in. intros i Hi. apply in_seq in Hi.
  assert (M : ((k + i) mod length ss < length ss)%nat) by (apply Nat.mod_upper_bound; lia).
  specialize (H _ M). rewrite (nth_error_nth' ss (mkT [] [])), (nth_error_nth' ss' (mkT [] [])) in H by lia.
  enough (E : ((k + i) mod length ss <> (k + (length ss - 1)) mod length ss)%nat) by (specialize (H E); congruence).
  intros E. set (m := length ss) in *.
  assert (Ei : (k + i)%nat = (m * ((k + i) / m) + (k + i) mod m)%nat) by (apply Nat.div_mod; lia).
  assert (Ej : (k + (m - 1))%nat = (m * ((k + (m - 1)) / m) + (k + (m - 1)) mod m)%nat) by (apply Nat.div_mod; lia).
  set (q := ((k + i) / m)%nat) in *. set (q' := ((k + (m - 1)) / m)%nat) in *. rewrite E in Ei.
  assert (m - 1 - i = m * (q' - q))%nat by nia.
  destruct (q' - q)%nat; nia.
Qed.

Lemma rep_share_private s c k sh v v' : (2 <= rs_n s)%nat -> (k < rs_n s)%nat ->
  tensor_in R64 sh (mkT sh v) -> tensor_in R64 sh (mkT sh v') ->
  exists f g,
    (forall rnd, draws R64 (rs_n s) sh rnd ->
       draws R64 (rs_n s) sh (f rnd) /\ draws R64 (rs_n s) sh (g rnd) /\ g (f rnd) = rnd /\ f (g rnd) = rnd) /\
    (forall rnd, draws R64 (rs_n s) sh rnd -> exists w,
       rep_share_view s c k sh v rnd = Ok w /\ rep_share_view s c k sh v' (f rnd) = Ok w).
Proof.
  intros Hn Hk V V'. set (j := ((k + (rs_n s - 1)) mod rs_n s)%nat).
  assert (Hj : (j < rs_n s)%nat) by (apply Nat.mod_upper_bound; lia).
  destruct (share_privacy (rs_n s) sh v v' j Hn Hj V V') as (f & g & H1 & H2).
  exists f, g. split; [exact H1|]. intros rnd Hr. destruct (H2 rnd Hr) as (ss & ss' & E & E' & L & L' & N).
  unfold rep_share_view. rewrite E, E'. cbn [rbind]. rewrite !rst_distribute_ok by lia. cbn [rbind received].
  rewrite !rviews_get by lia. cbn [rbind r_shares]. eexists. split; [reflexivity|]. f_equal. symmetry.
  apply rep_view_ext; try lia. rewrite L. exact N.
Qed.

Lemma masks_in so cs : length cs = 3%nat -> Forall (fun c => tensor_in R64 so (mkT so c)) cs -> Forall (tensor_in R64 so) (zero_masks so cs).
Proof.
  intros LC FC. unfold zero_masks. apply Forall_map, Forall_forall. intros i Hi. apply in_seq in Hi.
  destruct (Forall_nth_in _ cs [] i FC) as (_ & C1 & C2); [lia|].
  destruct (Forall_nth_in _ cs [] ((i + 1) mod 3)%nat FC) as (_ & C3 & C4); [rewrite LC; apply Nat.mod_upper_bound; lia|].
  cbn [tdat] in *. split; [reflexivity|]. cbn [tdat]. split; [apply map2_length_eq; auto|apply map2_to_ring_in; auto].
Qed.

Section RMul.
  Variables (s : rsess) (c : config) (op : bspec) (sx sy so : list nat) (f : list Z -> list Z -> list Z) (k : nat).
  Hypothesis Hn : rs_n s = 3%nat.
  Hypothesis HP : product_r R64 op sx sy so f.
  Hypothesis HO : rep_op R64 op.
  Hypothesis Hk : (k < 3)%nat.
  Let j := ((k + 2) mod 3)%nat.
  Let k1 := ((k + 1) mod 3)%nat.
  Let dt := mkT [] [].

  (** the local product of the next party *)
  Definition lprod (xs ys : list tensor) : list Z :=
    map (fun e => to_ring R64 (nth e (f (tdat (nth k1 xs dt)) (tdat (nth k1 ys dt))) 0 + nth e (f (tdat (nth j xs dt)) (tdat (nth k1 ys dt))) 0
                               + nth e (f (tdat (nth k1 xs dt)) (tdat (nth j ys dt))) 0)) (seq 0 (numel so)).
  Definition sharesof (sh : list nat) (v : list Z) (rnd : list (list Z)) : list tensor :=
    match generate_shares 3 (mkT sh v) rnd with Ok ss => ss | Err _ => [] end.
  Definition shift_c (d d' : list Z) (cs : list (list Z)) : list (list Z) :=
    map (fun i => if Nat.eqb i j then vadd R64 (nth i cs []) (vsub R64 d' d) else nth i cs []) (seq 0 3).
  Definition rmF (vx vy vx' vy' : list Z) (r : rmulrand) : rmulrand :=
    let rx' := sd j vx vx' (rm_x r) in let ry' := sd j vy vy' (rm_y r) in
    mkRMR rx' ry' (shift_c (lprod (sharesof sx vx (rm_x r)) (sharesof sy vy (rm_y r))) (lprod (sharesof sx vx' rx') (sharesof sy vy' ry')) (rm_c r)).

  Lemma lprod_in xs ys : length (lprod xs ys) = numel so /\ vec_in R64 (lprod xs ys).
  Proof. unfold lprod. split; [rewrite map_length, seq_length; auto|]. apply map_to_ring_in; auto. Qed.

  Lemma shift_c_ok d d' cs : length d = numel so -> length d' = numel so -> vec_in R64 d -> vec_in R64 d' -> length cs = 3%nat ->
    Forall (fun c => tensor_in R64 so (mkT so c)) cs ->
    length (shift_c d d' cs) = 3%nat /\ Forall (fun c => tensor_in R64 so (mkT so c)) (shift_c d d' cs) /\ shift_c d' d (shift_c d d' cs) = cs.
  Proof.
    intros L L' I I' LC FC. assert (LL : length (shift_c d d' cs) = 3%nat) by (unfold shift_c; rewrite map_length, seq_length; auto).
    assert (V1 : length (vsub R64 d' d) = numel so) by (apply vsub_length; auto).
    assert (V2 : length (vsub R64 d d') = numel so) by (apply vsub_length; auto).
    split; [exact LL|]. split.
    - unfold shift_c. apply Forall_map, Forall_forall. intros i Hi. apply in_seq in Hi.
      destruct (Forall_nth_in _ cs [] i FC) as (_ & C1 & C2); [lia|]. cbn [tdat] in *.
      destruct (Nat.eqb i j); (split; [reflexivity|]); cbn [tdat]; auto.
      split; [apply vadd_length; auto|apply vadd_in; auto using vsub_in].
    - apply (nth_ext_len []).
      + unfold shift_c at 1. rewrite map_length, seq_length; auto.
      + intros i Hi. unfold shift_c at 1 in Hi. rewrite map_length, seq_length in Hi.
        destruct (Forall_nth_in _ cs [] i FC) as (_ & C1 & C2); [lia|]. cbn [tdat] in *.
        unfold shift_c. rewrite !map_seq_nth by auto. destruct (Nat.eqb i j); auto.
        assert (A1 : length (vadd R64 (nth i cs []) (vsub R64 d' d)) = numel so) by (apply vadd_length; auto).
        apply vec_eqR; auto using vadd_in, vsub_in.
        * rewrite (vadd_length R64 _ _ (numel so)) by auto. lia.
        * intros e _. rewrite nth_vadd by (auto using vadd_in, vsub_in; lia). rewrite nth_vadd by (auto using vsub_in; lia).
          rewrite !nth_vsub by (auto; lia). apply eqmod_eq; lia.
  Qed.

  Lemma rmF_ok vx vy vx' vy' r :
    tensor_in R64 sx (mkT sx vx) -> tensor_in R64 sy (mkT sy vy) -> tensor_in R64 sx (mkT sx vx') -> tensor_in R64 sy (mkT sy vy') ->
    rmulrand_ok sx sy so r -> rmulrand_ok sx sy so (rmF vx vy vx' vy' r) /\ rmF vx' vy' vx vy (rmF vx vy vx' vy' r) = r.
  Proof.
    intros VX VY VX' VY' (D1 & D2 & LC & FC). destruct r as [rx ry cs]. cbn [rm_x rm_y rm_c] in *.
    unfold rmF. cbn [rm_x rm_y rm_c].
    destruct (lprod_in (sharesof sx vx rx) (sharesof sy vy ry)) as [P1 P2].
    destruct (lprod_in (sharesof sx vx' (sd j vx vx' rx)) (sharesof sy vy' (sd j vy vy' ry))) as [Q1 Q2].
    destruct (shift_c_ok _ _ cs P1 Q1 P2 Q2 LC FC) as (S1 & S2 & S3).
    split.
    - split; [apply sd_ok; auto|]. split; [apply sd_ok; auto|]. split; [exact S1|exact S2].
    - rewrite !(sd_inv 3 sx), !(sd_inv 3 sy) by auto. f_equal. exact S3.
  Qed.

  Lemma nth_near (l l' : list tensor) i : length l = 3%nat -> length l' = 3%nat -> (forall i, (i < 3)%nat -> i <> j -> nth_error l i = nth_error l' i) ->
    (i < 3)%nat -> i <> j -> nth i l dt = nth i l' dt.
  Proof.
    intros L L' H Hi Hij. specialize (H i Hi Hij). rewrite (nth_error_nth' l dt), (nth_error_nth' l' dt) in H by lia. congruence.
  Qed.

  Lemma falcon_get xs ys ms i : length xs = 3%nat -> length ys = 3%nat -> length ms = 3%nat ->
    Forall (tensor_in R64 sx) xs -> Forall (tensor_in R64 sy) ys -> Forall (tensor_in R64 so) ms -> (i < 3)%nat -> forall sid sid' shx shy cf cg,
    exists zs, falcon_z (bop_of op) (mkRM sid shx (rviews s R64 cf xs)) (mkRM sid' shy (rviews s R64 cg ys)) ms = Ok zs /\
      length zs = 3%nat /\ tensor_in R64 so (nth i zs dt) /\
      forall e, nth e (tdat (nth i zs dt)) 0 ==
        nth e (f (tdat (nth i xs dt)) (tdat (nth i ys dt))) 0 + nth e (f (tdat (nth ((i + 1) mod 3) xs dt)) (tdat (nth i ys dt))) 0 +
        nth e (f (tdat (nth i xs dt)) (tdat (nth ((i + 1) mod 3) ys dt))) 0 + nth e (tdat (nth i ms dt)) 0 [mod R64].
  Proof.
    intros LX LY LM X2 Y2 M2 Hi sid sid' shx shy cf cg.
    destruct (three xs LX) as (x0 & x1 & x2 & ->), (three ys LY) as (y0 & y1 & y2 & ->), (three ms LM) as (m0 & m1 & m2 & ->).
    inversion X2 as [|? ? X2a X2']; inversion X2' as [|? ? X2b X2'']; inversion X2'' as [|? ? X2c _]; subst; clear X2 X2' X2''.
    inversion Y2 as [|? ? Y2a Y2']; inversion Y2' as [|? ? Y2b Y2'']; inversion Y2'' as [|? ? Y2c _]; subst; clear Y2 Y2' Y2''.
    inversion M2 as [|? ? M2a M2']; inversion M2' as [|? ? M2b M2'']; inversion M2'' as [|? ? M2c _]; subst; clear M2 M2' M2''.
    unfold falcon_z. cbn [rm_ps]. rewrite !rviews3. cbn [combine rmap fst snd].
    destruct (compute_z_ok R64 supR op sx sy so f (cf 0%nat) (cg 0%nat) (Some (rs_uuid s 0)) (Some (rs_uuid s 0)) x0 x1 y0 y1 m0) as (z0 & E0 & T0 & N0); auto.
    destruct (compute_z_ok R64 supR op sx sy so f (cf 1%nat) (cg 1%nat) (Some (rs_uuid s 1)) (Some (rs_uuid s 1)) x1 x2 y1 y2 m1) as (z1 & E1 & T1 & N1); auto.
    destruct (compute_z_ok R64 supR op sx sy so f (cf 2%nat) (cg 2%nat) (Some (rs_uuid s 2)) (Some (rs_uuid s 2)) x2 x0 y2 y0 m2) as (z2 & E2 & T2 & N2); auto.
    rewrite E0, E1, E2. eexists. split; [reflexivity|]. split; [reflexivity|].
    destruct i as [|[|[|i]]]; [..|lia]; split; auto.
  Qed.

  (** operands that differ only in share j, the generator j shifted: the party's shares of
      the masked local products do not change *)
  Lemma falcon_near xs ys xs' ys' cs :
    length xs = 3%nat -> length ys = 3%nat -> length xs' = 3%nat -> length ys' = 3%nat ->
    Forall (tensor_in R64 sx) xs -> Forall (tensor_in R64 sy) ys -> Forall (tensor_in R64 sx) xs' -> Forall (tensor_in R64 sy) ys' ->
    (forall i, (i < 3)%nat -> i <> j -> nth_error xs i = nth_error xs' i) ->
    (forall i, (i < 3)%nat -> i <> j -> nth_error ys i = nth_error ys' i) ->
    length cs = 3%nat -> Forall (fun c => tensor_in R64 so (mkT so c)) cs ->
    forall sid sid' shx shy cf cg, exists zs zs',
      falcon_z (bop_of op) (mkRM sid shx (rviews s R64 cf xs)) (mkRM sid' shy (rviews s R64 cg ys)) (zero_masks so cs) = Ok zs /\
      falcon_z (bop_of op) (mkRM sid shx (rviews s R64 cf xs')) (mkRM sid' shy (rviews s R64 cg ys'))
        (zero_masks so (shift_c (lprod xs ys) (lprod xs' ys') cs)) = Ok zs' /\
      length zs = 3%nat /\ length zs' = 3%nat /\
      (forall i, (i < 3)%nat -> i <> j -> nth i zs dt = nth i zs' dt) /\
      others j (shift_c (lprod xs ys) (lprod xs' ys') cs) = others j cs.
  Proof.
    intros Lx Ly Lx' Ly' FX FY FX' FY' Nx Ny LC FC sid sid' shx shy cf cg.
    assert (Hj : (j < 3)%nat) by (apply Nat.mod_upper_bound; lia).
    assert (Hk1 : (k1 < 3)%nat) by (apply Nat.mod_upper_bound; lia).
    assert (KJ : k <> j /\ k1 <> j /\ ((k1 + 1) mod 3 = j)%nat) by (assert (K3 : k = 0%nat \/ k = 1%nat \/ k = 2%nat) by lia; unfold k1, j; destruct K3 as [E|[E|E]]; rewrite E; cbn; lia).
    destruct KJ as (KJ & KJ1 & KJ2).
    destruct (lprod_in xs ys) as [P1 P2]. destruct (lprod_in xs' ys') as [Q1 Q2].
    destruct (shift_c_ok _ _ cs P1 Q1 P2 Q2 LC FC) as (LC' & FC' & _).
    set (cs' := shift_c (lprod xs ys) (lprod xs' ys') cs) in *.
    assert (LM : forall cs, length (zero_masks so cs) = 3%nat) by (intros; reflexivity).
    destruct (falcon_get xs ys (zero_masks so cs) k Lx Ly (LM cs) FX FY (masks_in so cs LC FC) Hk sid sid' shx shy cf cg) as (zs & EZ & LZ & T0 & N0).
    destruct (falcon_get xs ys (zero_masks so cs) k1 Lx Ly (LM cs) FX FY (masks_in so cs LC FC) Hk1 sid sid' shx shy cf cg) as (zs2 & EZ2 & _ & T1 & N1).
    assert (zs2 = zs) by congruence. subst zs2.
    destruct (falcon_get xs' ys' (zero_masks so cs') k Lx' Ly' (LM cs') FX' FY' (masks_in so cs' LC' FC') Hk sid sid' shx shy cf cg) as (zs' & EZ' & LZ' & T0' & N0').
    destruct (falcon_get xs' ys' (zero_masks so cs') k1 Lx' Ly' (LM cs') FX' FY' (masks_in so cs' LC' FC') Hk1 sid sid' shx shy cf cg) as (zs2 & EZ2' & _ & T1' & N1').
    assert (zs2 = zs') by congruence. subst zs2.
    assert (MK : forall cs0 i, (i < 3)%nat -> nth i (zero_masks so cs0) dt = mkT so (s_sub R64 (nth i cs0 []) (nth ((i + 1) mod 3) cs0 []))).
    { intros cs0 i Hi. unfold zero_masks. rewrite map_seq_nth by auto. reflexivity. }
    assert (CN : forall i, (i < 3)%nat -> i <> j -> nth i cs' [] = nth i cs []).
    { intros i Hi Hij. unfold cs', shift_c. rewrite map_seq_nth by auto. destruct (Nat.eqb_spec i j); [contradiction|reflexivity]. }
    assert (CC : forall i, (i < 3)%nat -> length (nth i cs []) = numel so /\ vec_in R64 (nth i cs [])).
    { intros i Hi. destruct (Forall_nth_in _ cs [] i FC) as (_ & C1 & C2); [lia|]. auto. }
    assert (CC' : forall i, (i < 3)%nat -> length (nth i cs' []) = numel so /\ vec_in R64 (nth i cs' [])).
    { intros i Hi. destruct (Forall_nth_in _ cs' [] i FC') as (_ & C1 & C2); [lia|]. auto. }
    assert (SS : forall a b e, (e < numel so)%nat -> length a = numel so -> length b = numel so -> nth e (s_sub R64 a b) 0 == nth e a 0 - nth e b 0 [mod R64]).
    { intros a b e He A B. unfold s_sub. rewrite (nth_map2 _ 0 0 0) by lia. apply to_ring_eqmod. apply posR. }
    assert (TE : forall t t', tensor_in R64 so t -> tensor_in R64 so t' -> (forall e, (e < numel so)%nat -> nth e (tdat t) 0 == nth e (tdat t') 0 [mod R64]) -> t = t').
    { intros [h t] [h' t'] (A1 & A2 & A3) (B1 & B2 & B3) H. cbn [tsh tdat] in *. subst h h'. f_equal. apply vec_eqR; auto; [lia|].
      intros e He. apply H. lia. }
    assert (KM : ((k + 1) mod 3)%nat = k1) by reflexivity.
    assert (Z0 : nth k zs dt = nth k zs' dt).
    { apply TE; auto. intros e He. rewrite N0, N0', !MK, KM by auto. cbn [tdat].
      rewrite (CN k), (CN k1) by auto.
      rewrite (nth_near xs xs' k), (nth_near ys ys' k), (nth_near xs xs' k1), (nth_near ys ys' k1) by auto. reflexivity. }
    assert (Z1 : nth k1 zs dt = nth k1 zs' dt).
    { apply TE; auto. intros e He. rewrite N1, N1', !MK, KJ2 by auto. cbn [tdat].
      rewrite !SS by (auto; try apply CC; try apply CC'; auto). rewrite (CN k1) by auto.
      assert (CJ : nth e (nth j cs' []) 0 == nth e (nth j cs []) 0 + (nth e (lprod xs' ys') 0 - nth e (lprod xs ys) 0) [mod R64]).
      { unfold cs', shift_c. rewrite map_seq_nth by auto. rewrite Nat.eqb_refl.
        destruct (CC j Hj) as [C1 C2].
        rewrite nth_vadd by (auto using vsub_in; rewrite (vsub_length R64 _ _ (numel so)); auto).
        rewrite nth_vsub by (auto; lia). reflexivity. }
      rewrite CJ. unfold lprod. rewrite !map_seq_nth by auto. rewrite !to_ring_eqmod by apply posR. apply eqmod_eq. lia. }
    exists zs, zs'. split; [exact EZ|]. split; [exact EZ'|]. split; [exact LZ|]. split; [exact LZ'|]. split.
    { intros i Hi Hij. assert (I : i = k \/ i = k1).
      { assert (K3 : k = 0%nat \/ k = 1%nat \/ k = 2%nat) by lia. unfold j in Hij. unfold k1.
        destruct K3 as [E|[E|E]]; rewrite E in Hij |- *; cbn in Hij |- *; lia. }
      destruct I as [->| ->]; assumption. }
    symmetry. apply others_ext; [lia|]. rewrite LC. intros i Hi Hij.
    rewrite (nth_error_nth' cs []), (nth_error_nth' cs' []) by lia. rewrite CN by auto. reflexivity.
  Qed.

  Lemma rep_view_near zs zs' : length zs = 3%nat -> length zs' = 3%nat ->
    (forall i, (i < 3)%nat -> i <> j -> nth i zs dt = nth i zs' dt) -> rep_view zs' k = rep_view zs k.
  Proof.
    intros L L' H. symmetry. apply rep_view_ext; try lia. rewrite L. intros i Hi Hij.
    rewrite (nth_error_nth' zs dt), (nth_error_nth' zs' dt) by lia. f_equal. apply H; auto.
  Qed.

  Lemma rmul_private vx vy vx' vy' :
    tensor_in R64 sx (mkT sx vx) -> tensor_in R64 sy (mkT sy vy) -> tensor_in R64 sx (mkT sx vx') -> tensor_in R64 sy (mkT sy vy') ->
    exists F G : rmulrand -> rmulrand,
      (forall r, rmulrand_ok sx sy so r -> rmulrand_ok sx sy so (F r) /\ rmulrand_ok sx sy so (G r) /\ G (F r) = r /\ F (G r) = r) /\
      (forall r, rmulrand_ok sx sy so r -> exists w,
         rmul_view s c (bop_of op) k sx sy so vx vy r = Ok w /\ rmul_view s c (bop_of op) k sx sy so vx' vy' (F r) = Ok w).
  Proof.
    intros VX VY VX' VY'. exists (rmF vx vy vx' vy'), (rmF vx' vy' vx vy). split.
    { intros r Hr. destruct (rmF_ok vx vy vx' vy' r VX VY VX' VY' Hr) as [A B].
      destruct (rmF_ok vx' vy' vx vy r VX' VY' VX VY Hr) as [C D]. auto. }
    intros r Hr. destruct (rmF_ok vx vy vx' vy' r VX VY VX' VY' Hr) as [(D1' & D2' & LC' & FC') _].
    destruct Hr as (D1 & D2 & LC & FC). destruct r as [rx ry cs]. unfold rmF in *. cbn [rm_x rm_y rm_c] in *.
    assert (Hj : (j < 3)%nat) by (apply Nat.mod_upper_bound; lia).
    destruct (share_shift 3 sx vx vx' j rx ltac:(lia) Hj VX VX' D1) as (xs & xs' & Ex & Ex' & Lx & Lx' & Nx). fold (sd j vx vx' rx) in Ex'.
    destruct (share_shift 3 sy vy vy' j ry ltac:(lia) Hj VY VY' D2) as (ys & ys' & Ey & Ey' & Ly & Ly' & Ny). fold (sd j vy vy' ry) in Ey'.
    assert (FX : Forall (tensor_in R64 sx) xs) by (destruct (gen_shares 3 sx vx rx ltac:(lia) VX D1) as (q & Q & _ & (_ & S & _)); congruence).
    assert (FX' : Forall (tensor_in R64 sx) xs') by (destruct (gen_shares 3 sx vx' _ ltac:(lia) VX' D1') as (q & Q & _ & (_ & S & _)); congruence).
    assert (FY : Forall (tensor_in R64 sy) ys) by (destruct (gen_shares 3 sy vy ry ltac:(lia) VY D2) as (q & Q & _ & (_ & S & _)); congruence).
    assert (FY' : Forall (tensor_in R64 sy) ys') by (destruct (gen_shares 3 sy vy' _ ltac:(lia) VY' D2') as (q & Q & _ & (_ & S & _)); congruence).
    assert (SX : sharesof sx vx rx = xs) by (unfold sharesof; rewrite Ex; reflexivity).
    assert (SX' : sharesof sx vx' (sd j vx vx' rx) = xs') by (unfold sharesof; rewrite Ex'; reflexivity).
    assert (SY : sharesof sy vy ry = ys) by (unfold sharesof; rewrite Ey; reflexivity).
    assert (SY' : sharesof sy vy' (sd j vy vy' ry) = ys') by (unfold sharesof; rewrite Ey'; reflexivity).
    rewrite SX, SX', SY, SY' in *.
    set (cs' := shift_c (lprod xs ys) (lprod xs' ys') cs) in *.
    unfold rmul_view. cbn [rm_x rm_y rm_c]. rewrite Ex, Ey, Ex', Ey'. cbn [rbind].
    rewrite !rst_distribute_ok by lia. cbn [rbind received]. fold R64.
    destruct (falcon_near xs ys xs' ys' cs Lx Ly Lx' Ly' FX FY FX' FY' Nx Ny LC FC (rs_id s) (rs_id s) sx sy (fun _ => rst_cfg R64 c) (fun _ => rst_cfg R64 c))
      as (zs & zs' & EZ & EZ' & LZ & LZ' & NZ & R4). fold cs' in EZ', R4.
    rewrite EZ, EZ'. cbn [rbind]. unfold falcon_reshare. rewrite !rst_distribute_ok by lia. cbn [rbind received rm_ps].
    rewrite !rviews_get by lia. cbn [rbind r_shares]. eexists. split; [reflexivity|].
    f_equal.
    assert (R1 : rep_view xs' k = rep_view xs k).
    { symmetry. apply rep_view_ext; try lia. rewrite Lx. intros i Hi Hij. apply Nx; auto. }
    assert (R2 : rep_view ys' k = rep_view ys k).
    { symmetry. apply rep_view_ext; try lia. rewrite Ly. intros i Hi Hij. apply Ny; auto. }
    assert (R3 : rep_view zs' k = rep_view zs k) by (apply rep_view_near; auto).
    fold j. rewrite R1, R2, R3, R4. reflexivity.
  Qed.
End RMul.

Lemma zero_masks_shared so cs : length cs = 3%nat -> Forall (fun c => tensor_in R64 so (mkT so c)) cs ->
  shared R64 so (repeat 0 (numel so)) (zero_masks so cs).
Proof.
  intros LC FC. destruct (three cs LC) as (a & b & c & ->).
  inversion FC as [|? ? (_ & A1 & A2) FC']; inversion FC' as [|? ? (_ & B1 & B2) FC'']; inversion FC'' as [|? ? (_ & C1 & C2) _]; subst.
  cbn [tdat] in *. apply shared_intro; auto.
  - discriminate.
  - apply (masks_in so [a; b; c]); auto.
  - apply repeat_length.
  - apply Forall_forall. intros v Hv. apply repeat_spec in Hv. subst. reflexivity.
  - intros e He. rewrite nth_repeat_lt by auto. unfold zero_masks.
    change (seq 0 3) with [0; 1; 2]%nat. cbn [map zsum tdat]. change ((0 + 1) mod 3)%nat with 1%nat. change ((1 + 1) mod 3)%nat with 2%nat.
    change ((2 + 1) mod 3)%nat with 0%nat. cbn [nth]. unfold s_sub.
    rewrite !(nth_map2 _ 0 0 0) by lia. fold R64. rewrite !to_ring_eqmod by apply posR. apply eqmod_eq. lia.
Qed.

Lemma fetched_shared s c op sx sy so f vx vy r : rs_n s = 3%nat -> product_r R64 op sx sy so f -> rep_op R64 op ->
  tensor_in R64 sx (mkT sx vx) -> tensor_in R64 sy (mkT sy vy) -> rmulrand_ok sx sy so r ->
  exists zs, rmul_fetched s c (bop_of op) sx sy so vx vy r = Ok zs /\ shared R64 so (f vx vy) zs.
Proof.
  intros Hn HP HO VX VY (D1 & D2 & LC & FC).
  destruct (gen_shares 3 sx vx (rm_x r) ltac:(lia) VX D1) as (xs & Ex & Lx & SX).
  destruct (gen_shares 3 sy vy (rm_y r) ltac:(lia) VY D2) as (ys & Ey & Ly & SY).
  unfold rmul_fetched. rewrite Ex, Ey. cbn [rbind]. rewrite !rst_distribute_ok by lia. cbn [rbind received].
  destruct (falcon_z_ok R64 supR s op sx sy so f (fun _ => rst_cfg R64 c) (fun _ => rst_cfg R64 c) vx vy xs ys (zero_masks so (rm_c r))
    HP HO Lx Ly eq_refl SX SY (zero_masks_shared so _ LC FC) (rs_id s) (rs_id s) sx sy) as (zs & EZ & _ & SZ).
  exists zs. auto.
Qed.
