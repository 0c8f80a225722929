(** Max pooling: the forward pass. *)
From Coq Require Import QArith String Setoid Morphisms.
From Verif Require Import Util Modular S_Ring S_Tensor S_Wraps S_Div S_Bil S_Spdz S_View S_Circuit S_Fss S_Sort S_Argmax
  M_Torch M_Encoder M_Tensor M_Share M_Spdz M_Store M_Fss M_Engine M_Static M_Argmax M_Pool S_Pool
  L_Torch L_Tensor L_Encoder L_Share L_Div L_Bil L_Mul L_Circuit L_View L_Fss2 L_Fss3 L_Engine L_Algo L_Grad L_Argmax L_Autograd S_Autograd S_Back L_Back L_Pool.
Local Open Scope Z_scope.
Local Open Scope list_scope.

Lemma last2_app bs h w : last2 (bs ++ [h; w]) = Ok (bs, h, w).
Proof. unfold last2. rewrite rev_app_distr. cbn [rev app]. rewrite rev_involutive. reflexivity. Qed.

Lemma count_ok size k st : (1 <= st)%nat -> (k <= size)%nat ->
  count (Z.of_nat size) (Z.of_nat k) (Z.of_nat st) = Ok (Z.of_nat ((size - k) / st + 1)).
Proof.
  intros Hs Hk. unfold count. destruct (Z.eqb_spec (Z.of_nat st) 0); [lia|]. f_equal.
  rewrite Nat2Z.inj_add, Nat2Z.inj_div, Nat2Z.inj_sub by lia. reflexivity.
Qed.

(** a window stays inside the padded input *)
Lemma window_in size k st i a : (1 <= st)%nat -> (k <= size)%nat -> (i < (size - k) / st + 1)%nat -> (a < k)%nat -> (i * st + a < size)%nat.
Proof.
  intros Hs Hk Hi Ha. assert (i <= (size - k) / st)%nat by lia.
  pose proof (Nat.mul_div_le (size - k) st ltac:(lia)). nia.
Qed.

Lemma given_check kernel stride padding dilation g : fits g -> given kernel stride padding dilation g ->
  sanity_check kernel stride padding dilation =
    Ok ((Z.of_nat (g_kh g), Z.of_nat (g_kw g)), (Z.of_nat (g_s0 g), Z.of_nat (g_s1 g)), (Z.of_nat (g_p0 g), Z.of_nat (g_p1 g))).
Proof.
  intros (F1 & F2 & F3 & F4 & F5 & F6 & F7 & F8) (G1 & G2 & G3 & G4).
  assert (MT : forall a x y, means a x y -> as_tuple a = [Z.of_nat x; Z.of_nat y]).
  { intros a x y [[-> ->]| ->]; reflexivity. }
  unfold sanity_check. rewrite (MT _ _ _ G1).
  assert (ES : match stride with None => [Z.of_nat (g_kh g); Z.of_nat (g_kw g)] | Some a => as_tuple a end = [Z.of_nat (g_s0 g); Z.of_nat (g_s1 g)]).
  { destruct stride; [apply MT; auto|]. destruct G2 as [-> ->]. reflexivity. }
  rewrite ES, (MT _ _ _ G3). cbn [get_nth nth_error rbind length Nat.eqb negb].
  destruct (Z.of_nat (g_p0 g) >? Z.of_nat (g_kh g)) eqn:A; [rewrite Z.gtb_ltb, Z.ltb_lt in A; lia|].
  destruct (Z.of_nat (g_p1 g) >? Z.of_nat (g_kw g)) eqn:B; [rewrite Z.gtb_ltb, Z.ltb_lt in B; lia|].
  rewrite (MT _ _ _ G4). reflexivity.
Qed.

(** broadcasting over the last dimensions *)
Lemma bpos_ones pre post e : (e < numel (pre ++ post))%nat ->
  bpos (pre ++ repeat 1%nat (length post)) (pre ++ post) e = (e / numel post)%nat.
Proof.
  intros He. rewrite numel_app in He. assert (0 < numel post)%nat by (destruct (numel post); lia).
  assert (D : (e = e / numel post * numel post + e mod numel post)%nat) by (rewrite Nat.mul_comm; apply Nat.div_mod; lia).
  assert (M : (e mod numel post < numel post)%nat) by (apply Nat.mod_upper_bound; lia).
  assert (Q : (e / numel post < numel pre)%nat) by (apply Nat.div_lt_upper_bound; lia).
  unfold bpos. rewrite !app_length, repeat_length, Nat.sub_diag. cbn [skipn].
  rewrite D at 1. rewrite unravel_app by auto.
  assert (MA : forall a b ia ib, length ia = length a -> map2 (fun d i => if Nat.eqb d 1 then 0%nat else i) (a ++ b) (ia ++ ib) =
    map2 (fun d i => if Nat.eqb d 1 then 0%nat else i) a ia ++ map2 (fun d i => if Nat.eqb d 1 then 0%nat else i) b ib).
  { clear. induction a as [|d a IH]; intros b [|i ia] ib HL; cbn in HL; try discriminate; [reflexivity|]. cbn [app map2]. rewrite IH by lia. reflexivity. }
  rewrite MA by apply unravel_length. rewrite ravel_app by (rewrite map2_length, unravel_length; lia).
  rewrite ones_ravel, ones_numel, Nat.mul_1_r, Nat.add_0_r.
  rewrite <- (ravel_unravel_id pre _ Q) at 2. f_equal.
  pose proof (unravel_lt _ _ Q) as F. clear - F. induction F as [|d i ds is H F IH]; [reflexivity|]. cbn [map2]. rewrite IH.
  destruct (Nat.eqb_spec d 1); [|reflexivity]. f_equal. lia.
Qed.

Lemma bshape_ones pre post : bshape (pre ++ post) (pre ++ repeat 1%nat (length post)) (pre ++ post).
Proof.
  assert (L : length (rev post) = length (repeat 1%nat (length post))) by (rewrite rev_length, repeat_length; auto).
  split; [rewrite !app_length, repeat_length; lia|]. intros i Hi. cbv zeta.
  assert (RR : forall n, rev (repeat 1%nat n) = repeat 1%nat n).
  { clear. induction n as [|n IH]; [reflexivity|]. cbn [repeat rev]. rewrite IH. clear. induction n; cbn; congruence. }
  rewrite !rev_app_distr, RR. destruct (Nat.ltb_spec i (length post)).
  - rewrite !app_nth1 by (rewrite ?rev_length, ?repeat_length; lia). right. right. split; [|reflexivity].
    clear -H. revert i H. induction (length post) as [|n IH]; intros [|i] H; cbn; try lia; auto. apply IH. lia.
  - rewrite !app_nth2 by (rewrite ?rev_length, ?repeat_length; lia). rewrite <- L. left. split; reflexivity.
Qed.

Section Geo.
  Variable g : geo.
  Hypothesis HF : fits g.
  Notation bs := (g_bs g). Notation h := (g_h g). Notation w := (g_w g). Notation kh := (g_kh g). Notation kw := (g_kw g).
  Notation s0 := (g_s0 g). Notation s1 := (g_s1 g). Notation p0 := (g_p0 g). Notation p1 := (g_p1 g).
  Notation oh := (g_oh g). Notation ow := (g_ow g).
  Definition g_n : nat := (numel bs * oh * ow)%nat.

  Definition inside (r c : nat) : bool := (Nat.leb p0 r && Nat.ltb r (p0 + h) && Nat.leb p1 c && Nat.ltb c (p1 + w))%bool.
  Definition entz (z : Z) (f : nat -> Z) (b r c : nat) : Z :=
    if inside r c then f ((b * h + (r - p0)) * w + (c - p1))%nat else z.
  Definition winz (z : Z) (f : nat -> Z) (q a c : nat) : Z :=
    entz z f (q / (oh * ow)) ((q / ow) mod oh * s0 + a) (q mod ow * s1 + c).
  Definition cellz (z : Z) (f : nat -> Z) (e : nat) : Z := winz z f (e / (kh * kw)) ((e / kw) mod kh) (e mod kw).

  Lemma inside_spec r c : inside r c = true <-> (p0 <= r < p0 + h /\ p1 <= c < p1 + w)%nat.
  Proof.
    unfold inside. rewrite !andb_true_iff, !Nat.leb_le, !Nat.ltb_lt. lia.
  Qed.

  Lemma numel_in : numel (g_in g) = (numel bs * h * w)%nat.
  Proof. unfold g_in. rewrite numel_app. cbn [numel fold_right]. lia. Qed.
  Lemma numel_out : numel (g_out g) = g_n.
  Proof. unfold g_out, g_n. rewrite numel_app. cbn [numel fold_right]. lia. Qed.
  Lemma numel_win : numel [g_n; kh; kw] = (g_n * kh * kw)%nat.
  Proof. cbn [numel fold_right]. lia. Qed.

  Lemma pad_nth z d b r c : (b < numel bs)%nat -> (r < h + 2 * p0)%nat -> (c < w + 2 * p1)%nat ->
    nth ((b * (h + 2 * p0) + r) * (w + 2 * p1) + c) (pad2 z p0 p1 bs h w d) 0 = entz z (fun q => nth q d 0) b r c.
  Proof.
    intros Hb' Hr Hc. unfold pad2. rewrite map_seq_nth by (apply lt3; auto).
    destruct (dec3 b _ _ r c Hr Hc) as (-> & -> & ->). reflexivity.
  Qed.

  Lemma reshape_share rank t : tensor_in R64 (g_in g) t ->
    pool_reshape rank t (Z.of_nat kh, Z.of_nat kw) (Z.of_nat s0, Z.of_nat s1) (Z.of_nat p0, Z.of_nat p1) =
    Ok (mkT [g_n; kh; kw] (map (cellz (if Nat.eqb rank 0 then -25 else 0) (fun q => nth q (tdat t) 0)) (seq 0 (g_n * kh * kw)))).
  Proof.
    destruct HF as (F1 & F2 & F3 & F4 & F5 & F6 & F7 & F8). intros (T1 & T2 & T3). unfold pool_reshape. rewrite T1. unfold g_in. rewrite last2_app. cbn [rbind fst snd].
    destruct (Z.ltb_spec (Z.of_nat p0) 0); [lia|]. destruct (Z.ltb_spec (Z.of_nat p1) 0); [lia|]. cbn [orb].
    rewrite !Nat2Z.id. rewrite !count_ok by auto. cbn [rbind].
    fold oh. fold ow. change ((h + 2 * p0 - kh) / s0 + 1)%nat with oh. change ((w + 2 * p1 - kw) / s1 + 1)%nat with ow.
    destruct (Z.ltb_spec (Z.of_nat oh) 0); [lia|]. destruct (Z.ltb_spec (Z.of_nat ow) 0); [lia|].
    destruct (Z.ltb_spec (Z.of_nat kh) 0); [lia|]. destruct (Z.ltb_spec (Z.of_nat kw) 0); [lia|].
    destruct (Z.ltb_spec (Z.of_nat s0) 0); [lia|]. destruct (Z.ltb_spec (Z.of_nat s1) 0); [lia|]. cbn [orb].
    destruct (Z.eqb_spec (Z.of_nat kh) 0); [lia|]. destruct (Z.eqb_spec (Z.of_nat kw) 0); [lia|]. cbn [orb].
    rewrite !Nat2Z.id. fold g_n. do 2 f_equal. unfold windows. apply map_ext_in. intros e He. apply in_seq in He.
    cbv zeta. destruct (enc3 g_n kh kw e ltac:(lia)) as (Q & A & C & _).
    destruct (enc3 (numel bs) oh ow (e / (kh * kw)) ltac:(exact Q)) as (B & I & J & _).
    rewrite pad_nth; [reflexivity|exact B| |].
    - apply (window_in _ kh); auto.
    - apply (window_in _ kw); auto.
  Qed.

  (** every cell is an element of the input or the constant *)
  Lemma cell_in e : (e < g_n * kh * kw)%nat ->
    (exists q, (q < numel (g_in g))%nat /\ forall z f, cellz z f e = f q) \/ (forall z f, cellz z f e = z).
  Proof.
    intros He. destruct (enc3 g_n kh kw e He) as (Q & A & C & _). destruct (enc3 (numel bs) oh ow _ Q) as (B & I & J & _).
    unfold cellz, winz, entz. set (r := (_ * s0 + _)%nat). set (c := (_ * s1 + _)%nat).
    destruct (inside r c) eqn:E; [left|right; auto]. apply inside_spec in E.
    exists ((e / (kh * kw) / (oh * ow) * h + (r - p0)) * w + (c - p1))%nat. split; [|intros; reflexivity].
    rewrite numel_in. clearbody r c. set (b := (e / (kh * kw) / (oh * ow))%nat) in *. clearbody b. clear - B E.
    apply (lt3 (numel bs) h w); [exact B|lia|lia].
  Qed.
End Geo.

Section Forward.
  Context {K : Type} (alpha : K -> Z) (ev : fop -> Z -> Z -> K -> Z)
          (gen : fop -> nat -> nat -> result (list (list K))) (s : sess) (su : tri_supply)
          (mm : nat -> list nat -> list nat -> list triple) (on : nat -> list nat -> list (list Z)).
  Hypothesis HG : backend_ok alpha ev gen.
  Hypothesis HI : int_pair s.
  Hypothesis HS' : supplies su mm on.
  Variable g : geo.
  Hypothesis HF : fits g.
  Let Hn := proj1 HI. Let Hp := proj1 (proj2 HI). Let Hb := proj2 (proj2 HI).
  Let HS : mul_supply su. Proof. split; apply HS'. Qed.
  Notation bs := (g_bs g). Notation h := (g_h g). Notation w := (g_w g). Notation kh := (g_kh g). Notation kw := (g_kw g).
  Notation s0 := (g_s0 g). Notation s1 := (g_s1 g). Notation p0 := (g_p0 g). Notation p1 := (g_p1 g).
  Notation oh := (g_oh g). Notation ow := (g_ow g). Notation N := (g_n g).

  Lemma reshape_ok f x : rep s (g_in g) f x ->
    exists shs, rmap (fun rt => pool_reshape (fst rt) (snd rt) (Z.of_nat kh, Z.of_nat kw) (Z.of_nat s0, Z.of_nat s1) (Z.of_nat p0, Z.of_nat p1))
      (combine (seq 0 (length (m_shares x))) (m_shares x)) = Ok shs /\
      (do t <- get_nth shs 0; Ok (tsh t)) = Ok [N; kh; kw] /\
      rep s [N; kh; kw] (cellz g (-25) f) (mkM (s_id s) [N; kh; kw] shs).
  Proof.
    intros (X1 & X2 & X3 & X4). pose proof (shared_vals R64 supR _ _ _ X4) as (VL & VI & VN). destruct X4 as (NE & F & _).
    destruct (m_shares x) as [|t0 [|t1 [|]]]; try (rewrite Hn in X3; discriminate).
    inversion F as [|? ? T0 F']; subst. inversion F' as [|? ? T1 _]; subst.
    cbn [length seq combine rmap fst snd]. rewrite !(reshape_share g HF) by auto. cbn [rbind Nat.eqb].
    eexists. split; [reflexivity|]. split; [reflexivity|].
    unfold rep, good. cbn [m_sid m_shape m_shares length]. split; [auto|]. split; [auto|]. split; [auto|].
    assert (TI : forall z t, tensor_in R64 (g_in g) t -> in_ring R64 z ->
      tensor_in R64 [N; kh; kw] (mkT [N; kh; kw] (map (cellz g z (fun q => nth q (tdat t) 0)) (seq 0 (N * kh * kw))))).
    { intros z t (A & B & C) Hz. split; [reflexivity|]. cbn [tdat]. split; [rewrite map_length, seq_length, numel_win; auto|].
      apply Forall_map, Forall_forall. intros e He. apply in_seq in He.
      destruct (cell_in g e ltac:(lia)) as [(q & _ & EQ)|EQ]; rewrite EQ; [apply nth_in_ring; auto using supR|exact Hz]. }
    apply shared_intro; auto using supR, vals_len, vals_in.
    - discriminate.
    - constructor; [apply TI; [exact T0|reflexivity]|]. constructor; [apply TI; [exact T1|reflexivity]|constructor].
    - intros e He. rewrite vals_nth_eq by auto. cbn [map tdat zsum]. rewrite numel_win in He. rewrite !map_seq_nth by auto.
      destruct (cell_in g e He) as [(q & Hq & EQ)|EQ]; rewrite !EQ; [|reflexivity].
      rewrite <- (vals_nth_eq (g_in g) f q Hq). rewrite VN by auto. reflexivity.
  Qed.

  (** the selected entries, as assumptions on the cells of the windows *)
  Variables (f : nat -> Z) (ra ca : nat -> nat) (best : nat -> Z).
  Let cell q a c := winz g (-25) f q a c.
  Hypothesis Hsel : forall q, (q < N)%nat -> (ra q < kh)%nat /\ (ca q < kw)%nat /\ cell q (ra q) (ca q) = best q /\
    forall a c, (a < kh)%nat -> (c < kw)%nat -> (a, c) <> (ra q, ca q) -> cell q a c < best q.
  Hypothesis Hrow : forall q a c1 c2, (q < N)%nat -> (a < kh)%nat -> (c1 < kw)%nat -> (c2 < kw)%nat -> 0 < cell q a c1 ->
    cell q a c2 = cell q a c1 -> (forall c, (c < kw)%nat -> cell q a c <= cell q a c1) -> c1 = c2.
  Hypothesis Hbig : forall q a c, (q < N)%nat -> (a < kh)%nat -> (c < kw)%nat -> Z.abs (cell q a c) * Z.of_nat kw < 2^30 - 1.
  Hypothesis Hsize : Z.of_nat (N * kh * kw) < 2^31 - 1.

  Let kpos : (1 <= kh /\ 1 <= kw)%nat. Proof. destruct HF; lia. Qed.

  Let F3 := cellz g (-25) f.
  Lemma F3_at q a c : (a < kh)%nat -> (c < kw)%nat -> F3 ((q * kh + a) * kw + c)%nat = cell q a c.
  Proof. intros Ha Hc. unfold F3, cellz. destruct (dec3 q kh kw a c Ha Hc) as (-> & -> & ->). reflexivity. Qed.

  Let rowv q a := line_val kw (fun c => cell q a c).
  Lemma rowv_F3 q a : (a < kh)%nat -> line_val kw (fun c => F3 ((q * kh + a) * kw + c)%nat) = rowv q a.
  Proof. intros Ha. apply line_val_ext. intros c Hc. apply F3_at; auto. Qed.

  Lemma rowv_sel q : (q < N)%nat -> rowv q (ra q) = best q /\
    (forall c, (c < kw)%nat -> marked kw (fun c => cell q (ra q) c) c = Nat.eqb c (ca q)) /\
    (forall a, (a < kh)%nat -> a <> ra q -> rowv q a < best q).
  Proof.
    intros Hq. destruct (Hsel q Hq) as (A & C & E & M).
    destruct (line_single kw (fun c => cell q (ra q) c) (ca q) C) as [L1 L2].
    { intros c Hc Hn'. rewrite E. apply M; auto. congruence. }
    split; [unfold rowv; rewrite L1; exact E|]. split; [exact L2|]. intros a Ha Hna.
    apply (line_below kw (fun c => cell q a c) (best q) (2^30 - 1)); [lia| | |].
    - intros c Hc. apply M; auto. congruence.
    - intros c1 c2 H1 H2 H3 H4 H5. apply (Hrow q a); auto.
    - intros c Hc. specialize (Hbig q a c Hq Ha Hc). lia.
  Qed.
  Lemma rowv_small q a : (q < N)%nat -> (a < kh)%nat -> Z.abs (rowv q a) <= 2^30 - 1.
  Proof.
    intros Hq Ha. destruct (Hsel q Hq) as (A & C & E & M). destruct (Nat.eq_dec a (ra q)) as [->|Hna].
    - destruct (rowv_sel q Hq) as (-> & _). rewrite <- E. specialize (Hbig q (ra q) (ca q) Hq A C). nia.
    - apply (line_below kw (fun c => cell q a c) (best q) (2^30 - 1)); [lia| | |].
      + intros c Hc. apply M; auto. congruence.
      + intros c1 c2 H1 H2 H3 H4 H5. apply (Hrow q a); auto.
      + intros c Hc. specialize (Hbig q a c Hq Ha Hc). lia.
  Qed.

  Lemma pre2 n : [N; kh; n] = [N; kh] ++ [n]. Proof. reflexivity. Qed.

  (** the two maxima *)
  Lemma maxima_ok x : rep s [N; kh; kw] F3 x ->
    runs (let! mc := max_mpc alpha ev gen s su x (Some 2%nat) false true in
          let! mr := max_mpc alpha ev gen s su (fst mc) (Some 1%nat) false true in cret (mc, mr))
      (fun r => rep s [N] best (fst (snd r)) /\
        exists cols rows, snd (fst r) = Some cols /\ snd (snd r) = Some rows /\
          rep s [N; kh; kw] (fun e => b2z (marked kw (fun c => cell (e / (kh * kw)) ((e / kw) mod kh) c) (e mod kw))) cols /\
          rep s [N; kh] (fun e => b2z (Nat.eqb (e mod kh) (ra (e / kh)))) rows).
  Proof.
    intros GX.
    assert (NW : numel ([N; kh] ++ [kw]) = (N * kh * kw)%nat) by (cbn [app numel fold_right]; lia).
    assert (NR : numel ([N] ++ [kh]) = (N * kh)%nat) by (cbn [app numel fold_right]; lia).
    eapply runs_bind.
    { apply (max_last alpha ev gen s su HG HI HS [N; kh] kw F3 x GX).
      - intros a b Ha Hb'. rewrite NW in Ha, Hb'.
        assert (SM : forall e, (e < N * kh * kw)%nat -> Z.abs (F3 e) < 2^30 - 1).
        { intros e He. destruct (enc3 N kh kw e He) as (Q & A & C & ->). rewrite F3_at by auto.
          specialize (Hbig _ _ _ Q A C). nia. }
        pose proof (SM a Ha). pose proof (SM b Hb'). lia.
      - rewrite NW. lia. }
    intros mc (GM & cols & EC & GC).
    assert (GM' : rep s ([N] ++ [kh]) (fun e => rowv (e / kh) (e mod kh)) (fst mc)).
    { eapply rep_ext; [exact GM|]. intros e He. apply eqmod_eq. cbv beta.
      assert (D : (e = e / kh * kh + e mod kh)%nat) by (rewrite Nat.mul_comm; apply Nat.div_mod; lia).
      rewrite <- (rowv_F3 (e / kh) (e mod kh)) by (apply Nat.mod_upper_bound; lia). rewrite <- D. reflexivity. }
    assert (DM : forall q a, (a < kh)%nat -> ((q * kh + a) / kh = q /\ (q * kh + a) mod kh = a)%nat).
    { intros q a Ha. split; [rewrite Nat.div_add_l, Nat.div_small; lia|rewrite Nat.add_comm, Nat.mod_add, Nat.mod_small; lia]. }
    assert (EB : forall e, (e < N * kh)%nat -> (e / kh < N /\ e mod kh < kh)%nat).
    { intros e He. split; [apply Nat.div_lt_upper_bound; lia|apply Nat.mod_upper_bound; lia]. }
    eapply runs_bind.
    { apply (max_last alpha ev gen s su HG HI HS [N] kh _ (fst mc) GM').
      - intros a b Ha Hb'. rewrite NR in Ha, Hb'. destruct (EB a Ha) as [A1 A2]. destruct (EB b Hb') as [B1 B2].
        pose proof (rowv_small _ _ A1 A2). pose proof (rowv_small _ _ B1 B2). lia.
      - rewrite NR. nia. }
    intros mr (GR & rows & ER & GRo).
    assert (LR : forall q, (q < N)%nat -> line_val kh (fun a => rowv q a) = best q /\ forall a, (a < kh)%nat -> marked kh (fun a => rowv q a) a = Nat.eqb a (ra q)).
    { intros q Hq. destruct (rowv_sel q Hq) as (E1 & _ & E3). destruct (Hsel q Hq) as (A & _).
      destruct (line_single kh (fun a => rowv q a) (ra q) A) as [L1 L2].
      - intros a Ha Hna. rewrite E1. auto.
      - split; [rewrite L1; auto|auto]. }
    assert (RX : forall q a, (a < kh)%nat -> rowv ((q * kh + a) / kh) ((q * kh + a) mod kh) = rowv q a).
    { intros q a Ha. destruct (DM q a Ha) as [-> ->]. reflexivity. }
    apply runs_ret. cbn [fst snd]. split.
    - eapply rep_ext; [exact GR|]. intros q Hq. cbn [numel fold_right] in Hq. apply eqmod_eq. cbv beta.
      rewrite (line_val_ext kh _ (fun a => rowv q a)); [apply LR; lia|]. intros a Ha. apply RX; auto.
    - exists cols, rows. split; [exact EC|]. split; [exact ER|]. split.
      + eapply rep_ext; [exact GC|]. intros e He. change (e < numel ([N; kh] ++ [kw]))%nat in He. rewrite NW in He. apply eqmod_eq. cbv beta. f_equal.
        destruct (enc3 N kh kw e He) as (Q & A & C & E).
        assert (EQ : (e / kw = e / (kh * kw) * kh + (e / kw) mod kh)%nat).
        { rewrite (Nat.mul_comm kh kw), <- Nat.div_div by lia. rewrite (Nat.mul_comm (e / kw / kh) kh). apply Nat.div_mod. lia. }
        apply marked_ext; [auto|]. intros c Hc. rewrite EQ at 1. apply F3_at; auto.
      + eapply rep_ext; [exact GRo|]. intros e He. change (e < numel ([N] ++ [kh]))%nat in He. rewrite NR in He. apply eqmod_eq. cbv beta. f_equal. destruct (EB e He) as [E1 E2].
        rewrite (marked_ext kh _ (fun a => rowv (e / kh) a)); [apply LR; auto|auto|]. intros a Ha. apply RX; auto.
  Qed.


  (** the forward pass; [onehot] is 1 at the selected entry of the window *)
  Definition onehot (e : nat) : Z :=
    b2z (Nat.eqb ((e / kw) mod kh) (ra (e / (kh * kw))) && Nat.eqb (e mod kw) (ca (e / (kh * kw)))).

  Lemma marks_onehot e : (e < N * kh * kw)%nat ->
    b2z (marked kw (fun c => cell (e / (kh * kw)) ((e / kw) mod kh) c) (e mod kw)) * b2z (Nat.eqb ((e / kw) mod kh) (ra ((e / kw) / kh))) = onehot e.
  Proof.
    intros He. destruct (enc3 N kh kw e He) as (Q & A & C & E).
    replace ((e / kw) / kh)%nat with (e / (kh * kw))%nat by (rewrite Nat.div_div, (Nat.mul_comm kw kh) by lia; reflexivity).
    unfold onehot. destruct (Nat.eqb_spec ((e / kw) mod kh) (ra (e / (kh * kw)))) as [EA|]; cbn [andb b2z]; [|lia].
    destruct (rowv_sel _ Q) as (_ & M & _). rewrite EA, M by auto. lia.
  Qed.

  Lemma forward_ok kernel stride padding dilation ri x : given kernel stride padding dilation g -> rep s (g_in g) f x ->
    runs (max_pool2d alpha ev gen s su x kernel stride padding dilation ri)
      (fun r => rep s (g_out g) best (fst r) /\ if ri then exists i, snd r = Some i /\ rep s (g_out g ++ [kh; kw]) onehot i else snd r = None).
  Proof.
    intros HV GX. unfold max_pool2d. rewrite Hn. cbn [Nat.eqb negb]. rewrite (given_check _ _ _ _ g HF HV).
    eapply runs_bind; [apply runs_lift; eexists; split; [reflexivity|apply eq_refl]|]. intros ? <-.
    pose proof GX as (_ & X2 & _). rewrite X2. unfold g_in at 1. rewrite last2_app.
    eapply runs_bind; [apply runs_lift; eexists; split; [reflexivity|apply eq_refl]|]. intros ? <-.
    cbn [fst snd]. pose proof HF as (F1 & F2 & F3' & F4 & F5 & F6 & F7 & F8).
    destruct (Z.ltb_spec (Z.of_nat h + 2 * Z.of_nat p0) (Z.of_nat kh)); [lia|].
    destruct (Z.ltb_spec (Z.of_nat w + 2 * Z.of_nat p1) (Z.of_nat kw)); [lia|]. cbn [orb].
    destruct (reshape_ok f x GX) as (shs & E1 & E2 & G3).
    eapply runs_bind; [apply runs_lift; exists shs; split; [exact E1|apply eq_refl]|]. intros ? <-.
    eapply runs_bind; [apply runs_lift; eexists; split; [exact E2|apply eq_refl]|]. intros ? <-.
    intros wd Hwd. pose proof (maxima_ok _ G3 wd Hwd) as (r & w' & ER & W' & GB & cols & rows & EC & ERo & GC & GR).
    revert ER. unfold cbind at 1 2, cbind at 1 2.
    destruct (max_mpc alpha ev gen s su (mkM (s_id s) [N; kh; kw] shs) (Some 2%nat) false true wd) as [[mc|] w1]; [|discriminate].
    destruct (max_mpc alpha ev gen s su (fst mc) (Some 1%nat) false true w1) as [[mr|] w2]; [|discriminate].
    unfold cret at 1. intros ER. injection ER as <- <-. cbn [fst snd] in *. revert w2 W'.
    replace (Z.of_nat h + 2 * Z.of_nat p0) with (Z.of_nat (h + 2 * p0)) by lia.
    replace (Z.of_nat w + 2 * Z.of_nat p1) with (Z.of_nat (w + 2 * p1)) by lia.
    rewrite !count_ok by auto. change ((h + 2 * p0 - kh) / s0 + 1)%nat with oh. change ((w + 2 * p1 - kw) / s1 + 1)%nat with ow.
    match goal with |- forall w2, _ -> exists a w', ?m w2 = _ /\ _ => change (runs m (fun r => rep s (g_out g) best (fst r) /\
        if ri then exists i, snd r = Some i /\ rep s (g_out g ++ [kh; kw]) onehot i else snd r = None)) end.
    eapply runs_bind; [apply runs_lift; eexists; split; [reflexivity|apply eq_refl]|]. intros ? <-.
    eapply runs_bind; [apply runs_lift; eexists; split; [reflexivity|apply eq_refl]|]. intros ? <-.
    rewrite !Nat2Z.id. fold (g_out g).
    eapply runs_bind.
    { apply runs_lift. apply (rep_view s (VReshape (g_out g)) [N] (g_out g) (fun v => v) best _ best); [apply vw_reshape; rewrite numel_out; cbn; lia|exact GB|].
      intros e He. rewrite numel_out in He. apply vals_nth_eq. cbn. lia. }
    intros r Gr. destruct ri; [|apply runs_ret; auto]. rewrite EC, ERo.
    pose proof GR as (_ & R2 & _). rewrite R2. cbn [app].
    eapply runs_bind.
    { apply runs_lift. eapply (rep_view s (VReshape [N; kh; 1%nat]) [N; kh] [N; kh; 1%nat] (fun v => v) _ _ (fun e => b2z (Nat.eqb (e mod kh) (ra (e / kh)))) ); [apply vw_reshape; cbn; lia|exact GR|].
      intros e He. apply vals_nth_eq. cbn in *. lia. }
    intros u GU. eapply runs_bind.
    { apply (rep_mul s su mm on HI HS' [N; kh; kw] [N; kh; 1%nat] [N; kh; kw] cols u _ _ GC GU). apply (bshape_ones [N; kh] [kw]). }
    intros i Gi. eapply runs_bind.
    { apply runs_lift. eapply (rep_view s (VReshape (g_out g ++ [kh; kw])) [N; kh; kw] (g_out g ++ [kh; kw]) (fun v => v) _ _ onehot).
      - apply vw_reshape. rewrite numel_app, numel_out, numel_win. cbn [numel fold_right]. lia.
      - exact Gi.
      - intros e He. rewrite numel_app, numel_out in He. cbn [numel fold_right] in He.
        assert (He' : (e < numel [N; kh; kw])%nat) by (rewrite numel_win; lia).
        rewrite vals_nth_eq by exact He'. cbv beta. rewrite (bpos_self s HI) by exact He'.
        rewrite (bpos_ones [N; kh] [kw]) by exact He'. cbn [numel fold_right]. rewrite Nat.mul_1_r.
        apply eqmod_eq. apply marks_onehot. rewrite numel_win in He'. exact He'. }
    intros i' Gi'. apply runs_ret. cbn [fst snd]. split; [exact Gr|]. exists i'. auto.
  Qed.
End Forward.
