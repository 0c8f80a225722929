(** Max pooling and its gradient (properties C46 and C47). *)
From Coq Require Import QArith String Lia.
From Verif Require Import Util Modular S_Ring S_Tensor S_Bil S_Spdz S_Fss S_Sort S_Argmax S_View S_Autograd
  M_Torch M_Encoder M_Tensor M_Share M_Spdz M_Store M_Fss M_Engine M_Static M_Argmax M_Autograd M_Pool S_Pool S_Back
  L_Torch L_Tensor L_Share L_Div L_Bil L_Circuit L_Engine L_Grad L_Argmax P_Fss P_Sort P_Argmax P_Autograd L_Pool L_Pool2 L_Pool3.
Local Open Scope Z_scope.
Local Open Scope list_scope.

(** What the theorems below need: a correct backend, two parties with integer encoding, triples,
    an input of the described size, values (and the padding) that stay below 2^30 when multiplied
    by the width of the kernel, and not more than 2^31 - 2 entries in all windows together. *)
Definition pool_setting {K} (alpha : K -> Z) ev gen (s : sess) (su : tri_supply) (g : geo) v x (w : mpcw (K:=K)) : Prop :=
  backend_ok alpha ev gen /\ int_pair s /\ mul_supply su /\ fits g /\ shares_of s (g_in g) v x /\
  Forall (fun a => Z.abs a * Z.of_nat (g_kw g) < 2^30 - 1) (-25 :: v) /\
  Z.of_nat (numel (g_out g) * g_kh g * g_kw g) < 2^31 - 1 /\ none_waiting (fst w).

(** every window selects its entry at [row], [col] with the value [best] *)
Definition selection (g : geo) (v : list Z) (row col : nat -> nat -> nat -> nat) (best : nat -> nat -> nat -> Z) : Prop :=
  forall b i j, (b < numel (g_bs g))%nat -> (i < g_oh g)%nat -> (j < g_ow g)%nat ->
    selects g v b i j (row b i j) (col b i j) (best b i j) /\ above_padding g v b i j (best b i j) /\ rows_clear g v b i j.

Lemma mul_supplies su : mul_supply su -> supplies su g_mm g_on.
Proof. intros [A B]. destruct g_supplies as (_ & C & _ & D). split; [exact A|]. split; [exact C|]. split; [exact B|exact D]. Qed.

Section Facts.
  Variables (g : geo) (v : list Z) (row col : nat -> nat -> nat -> nat) (best : nat -> nat -> nat -> Z).
  Hypothesis HF : fits g.
  Hypothesis HL : length v = numel (g_in g).
  Hypothesis HV : Forall (fun a => Z.abs a * Z.of_nat (g_kw g) < 2^30 - 1) (-25 :: v).
  Hypothesis HS : selection g v row col best.
  Let q3 {A} (F : nat -> nat -> nat -> A) q := F (q / (g_oh g * g_ow g))%nat ((q / g_ow g) mod g_oh g)%nat (q mod g_ow g)%nat.
  Let f := fun q => nth q v 0.

  Lemma winz_entry q a c : winz g (-25) f q a c =
    match in_window g v (q / (g_oh g * g_ow g)) ((q / g_ow g) mod g_oh g) (q mod g_ow g) a c with Some z => z | None => -25 end.
  Proof. unfold winz, entz, in_window, entry, inside. destruct (_ && _)%bool; reflexivity. Qed.

  Lemma facts :
    (forall q, (q < g_n g)%nat -> (q3 row q < g_kh g)%nat /\ (q3 col q < g_kw g)%nat /\ winz g (-25) f q (q3 row q) (q3 col q) = q3 best q /\
      forall a c, (a < g_kh g)%nat -> (c < g_kw g)%nat -> (a, c) <> (q3 row q, q3 col q) -> winz g (-25) f q a c < q3 best q) /\
    (forall q a c1 c2, (q < g_n g)%nat -> (a < g_kh g)%nat -> (c1 < g_kw g)%nat -> (c2 < g_kw g)%nat -> 0 < winz g (-25) f q a c1 ->
      winz g (-25) f q a c2 = winz g (-25) f q a c1 -> (forall c, (c < g_kw g)%nat -> winz g (-25) f q a c <= winz g (-25) f q a c1) -> c1 = c2) /\
    (forall q a c, (q < g_n g)%nat -> (a < g_kh g)%nat -> (c < g_kw g)%nat -> Z.abs (winz g (-25) f q a c) * Z.of_nat (g_kw g) < 2^30 - 1).
  Proof.
    split; [|split].
    - intros q Hq. destruct (enc3 (numel (g_bs g)) (g_oh g) (g_ow g) q Hq) as (B & I & J & _).
      destruct (HS _ _ _ B I J) as ((S1 & S2 & S3 & S4) & AP & _). unfold q3. split; [exact S1|]. split; [exact S2|].
      split; [rewrite winz_entry, S3; reflexivity|]. intros a c Ha Hc Hne. rewrite winz_entry.
      destruct (in_window g v _ _ _ a c) as [y|] eqn:E; [apply (S4 a c y); auto|apply (AP a c); auto].
    - intros q a c1 c2 Hq Ha H1 H2. rewrite !winz_entry. intros HP HE HM.
      destruct (enc3 (numel (g_bs g)) (g_oh g) (g_ow g) q Hq) as (B & I & J & _).
      destruct (HS _ _ _ B I J) as (_ & _ & RC).
      destruct (in_window g v _ _ _ a c1) as [y|] eqn:E1; [|lia].
      destruct (in_window g v _ _ _ a c2) as [z|] eqn:E2; [|lia]. subst z.
      apply (RC a c1 c2 y); auto. intros c z Hc Ez. specialize (HM c Hc). rewrite winz_entry, Ez in HM. exact HM.
    - intros q a c Hq Ha Hc. rewrite Forall_forall in HV. apply HV. rewrite winz_entry.
      destruct (enc3 (numel (g_bs g)) (g_oh g) (g_ow g) q Hq) as (B & I & J & _).
      unfold in_window, entry. fold (inside g ((q / g_ow g) mod g_oh g * g_s0 g + a) (q mod g_ow g * g_s1 g + c)).
      destruct (inside g _ _) eqn:E; [|left; reflexivity]. right. apply nth_In. rewrite HL, numel_in.
      apply inside_spec in E. apply lt3; [exact B|lia|lia].
  Qed.

  Lemma best_small : Forall (fun a => - 2^63 <= a < 2^63) (grid (numel (g_bs g)) (g_oh g) (g_ow g) best).
  Proof.
    rewrite grid_flat. apply Forall_map, Forall_forall. intros q Hq. apply in_seq in Hq.
    destruct facts as (F1 & _ & F3). destruct (F1 q ltac:(unfold g_n; lia)) as (A & B & E & _).
    specialize (F3 q _ _ ltac:(unfold g_n; lia) A B). rewrite E in F3. unfold q3 in F3. destruct HF as (_ & H2 & _). nia.
  Qed.
End Facts.

Lemma rep_grid s bs h w F x : rep s (bs ++ [h; w]) (fun q => F (q / (h * w))%nat ((q / w) mod h)%nat (q mod w)%nat) x ->
  shares_of s (bs ++ [h; w]) (grid (numel bs) h w F) x.
Proof.
  intros G. assert (NE : numel (bs ++ [h; w]) = (numel bs * h * w)%nat) by (rewrite numel_app; cbn [numel fold_right]; lia).
  eapply rep_shares; [exact G|rewrite grid_length; auto|]. intros e He. rewrite grid_flat, map_seq_nth by lia. reflexivity.
Qed.

(** C46 for two parties and integer secrets: max_pool2d returns the largest real entry of every
    window, for every size, kernel, stride and padding (however the arguments are written) and any
    number of dimensions before the last two.  Conditions on every window: its largest entry stands
    once in it, it is larger than -25 if padding lies in the window, no row of the window has its
    largest value twice if that is positive.
    Missing from the full statement: windows outside the conditions (refuted below: C46_tie,
    C46_row, C46_padding), fixed-point secrets, the refusal of paddings above half the kernel and
    of negative strides (C46_arguments_refuted). *)
Theorem C46_pool_partial : forall K alpha ev (gen : fop -> nat -> nat -> result (list (list K))) s su g v x w kernel stride padding dilation row col best,
  pool_setting alpha ev gen s su g v x w -> given kernel stride padding dilation g -> selection g v row col best ->
  let out := grid (numel (g_bs g)) (g_oh g) (g_ow g) best in
  exists r w', max_pool2d alpha ev gen s su x kernel stride padding dilation false w = (Ok (r, None), w') /\ none_waiting (fst w') /\
    shares_of s (g_out g) out r /\ reconstruct r = Ok (mkT (g_out g) out).
Proof.
  intros K alpha ev gen s su g v x w kernel stride padding dilation row col best (HG & HI & HSu & HF & HX & HV & HN & HW) HA HS out.
  destruct (shares_rep _ _ _ _ HX) as [GX LV]. destruct (facts g v row col best LV HV HS) as (F1 & F2 & F3). rewrite numel_out in HN.
  destruct (forward_ok alpha ev gen s su g_mm g_on HG HI (mul_supplies su HSu) g HF _ _ _ _ F1 F2 F3 HN kernel stride padding dilation false x HA GX w HW)
    as ([r o] & w' & E & W' & GR & EO). cbn [fst snd] in *. subst o.
  assert (SR : shares_of s (g_out g) out r) by (apply rep_grid; exact GR).
  exists r, w'. split; [exact E|]. split; [exact W'|]. split; [exact SR|]. apply (shares_reconstruct s); auto.
  eapply best_small; eauto.
Qed.
Print Assumptions C46_pool_partial.

(** C47 for two parties and integer secrets, with the gradient function of max_pool2d: the forward
    pass returns the pooled tensor, and whatever gradient then arrives for it, the gradient passed
    on has the shape of the input and at every entry the sum of the gradients of the windows that
    selected that entry.  For inputs of three dimensions with any padding and inputs of four
    dimensions without padding.
    Missing from the full statement: four dimensions with padding (refuted below), other numbers of
    dimensions (the code raises ValueError: C47_dimensions), windows outside the conditions of C46 (refuted),
    fixed-point secrets. *)
Theorem C47_gradient_partial : forall K alpha ev (gen : fop -> nat -> nat -> result (list (list K))) s su g v x w kernel stride padding dilation row col best,
  pool_setting alpha ev gen s su g v x w -> given kernel stride padding dilation g -> selection g v row col best ->
  length (g_in g) = 3%nat \/ (length (g_in g) = 4%nat /\ g_p0 g = 0%nat /\ g_p1 g = 0%nat) ->
  exists r c w', grad_pool_forward alpha ev gen s su x kernel stride padding dilation w = (Ok (r, c), w') /\ none_waiting (fst w') /\
    shares_of s (g_out g) (grid (numel (g_bs g)) (g_oh g) (g_ow g) best) r /\
    forall G gr w2, shares_of s (g_out g) (grid (numel (g_bs g)) (g_oh g) (g_ow g) G) gr -> none_waiting (fst w2) ->
      exists z w3, grad_pool_backward alpha ev gen s su c gr w2 = (Ok z, w3) /\ none_waiting (fst w3) /\
        shares_of s (g_in g) (grid (numel (g_bs g)) (g_h g) (g_w g) (routed g row col G)) z.
Proof.
  intros K alpha ev gen s su g v x w kernel stride padding dilation row col best (HG & HI & HSu & HF & HX & HV & HN & HW) HA HS HD.
  assert (HC : good_slice g).
  { unfold good_slice. unfold g_in in HD. rewrite app_length in HD. cbn [length] in HD. destruct HD as [HD|(HD & A & B)]; [left; lia|right; split; [lia|auto]]. }
  destruct (shares_rep _ _ _ _ HX) as [GX LV]. destruct (facts g v row col best LV HV HS) as (F1 & F2 & F3). rewrite numel_out in HN.
  destruct (forward_ok alpha ev gen s su g_mm g_on HG HI (mul_supplies su HSu) g HF _ _ _ _ F1 F2 F3 HN kernel stride padding dilation true x HA GX w HW)
    as ([r o] & w' & E & W' & GR & i & EO & GI). cbn [fst snd] in *. subst o.
  exists r, (mkPoolCtx (m_shape x) kernel stride padding dilation i), w'.
  assert (DI : (match dilation with
                | AInt z => Ok (negb (z =? 1))
                | ATup l => do a <- get_nth l 0; if a =? 1 then Ok false else do b <- get_nth l 1; Ok (negb (b =? 1))
                end : result bool) = Ok false).
  { destruct HA as (_ & _ & _ & [[-> _]| ->]); reflexivity. }
  split; [|split; [exact W'|split; [apply rep_grid; exact GR|]]].
  { unfold grad_pool_forward. rewrite DI. unfold cbind, lift. rewrite E. reflexivity. }
  intros G gr w2 HGr HW2. unfold grad_pool_backward. cbn [pc_shape pc_indices pc_kernel pc_stride pc_padding pc_dilation].
  destruct GX as (_ & X2 & _). rewrite X2. destruct (shares_rep _ _ _ _ HGr) as [GG _].
  destruct (backward_ok alpha ev gen s su g_mm g_on HI (mul_supplies su HSu) g HF HC kernel stride padding dilation _ _ gr i HA GG GI w2 HW2) as (z & w3 & EZ & W3 & GZ).
  exists z, w3. split; [exact EZ|]. split; [exact W3|].
  apply rep_grid. eapply rep_ext; [exact GZ|]. intros e He. unfold at3. change (e < numel (g_in g))%nat in He. rewrite numel_in in He.
  destruct (enc3 (numel (g_bs g)) (g_h g) (g_w g) e He) as (B & U & T & _). apply eqmod_eq. cbv beta.
  rewrite <- (spread_routed ev gen s HI g G row col); [|intros b i' j Hb Hi Hj; destruct (HS b i' j Hb Hi Hj) as ((S1 & S2 & _) & _); auto|exact B].
  unfold spread. apply sumn_ext. intros i' Hi. apply sumn_ext. intros j Hj. unfold gives.
  destruct (inwin g i' j _ _) eqn:EW; [|reflexivity]. f_equal. apply inwin_spec in EW.
  rewrite grid_flat, map_seq_nth; [reflexivity|].
  match goal with |- (?q / _ < _)%nat => destruct (enc3 (g_n g) (g_kh g) (g_kw g) q) as (Q & _); [|exact Q] end.
  apply lt3; [|clear - EW; lia|clear - EW; lia]. unfold g_n. apply lt3; auto.
Qed.
Print Assumptions C47_gradient_partial.

(** The refusals of C46: whatever the sharing and the arguments, if max_pool2d returns then there
    are two parties, kernel, stride and padding are (or stand for) pairs with kernels and strides of
    at least 1 and paddings between 0 and the kernel, the dilation is 1, and the kernel is not larger
    than the padded input. *)
Theorem C46_refusals : forall K alpha ev (gen : fop -> nat -> nat -> result (list (list K))) s su x w kernel stride padding dilation ri r w',
  m_shares x <> [] -> Forall (fun t => tsh t = m_shape x) (m_shares x) ->
  max_pool2d alpha ev gen s su x kernel stride padding dilation ri w = (Ok r, w') ->
  s_n s = 2%nat /\ exists g, g_in g = m_shape x /\ given kernel stride padding dilation g /\ fits g.
Proof.
  intros K alpha ev gen s su x w kernel stride padding dilation ri r w' HN HT E. unfold max_pool2d in E.
  destruct (Nat.eqb_spec (s_n s) 2) as [E2|]; [|discriminate]. cbn [negb] in E. split; [exact E2|].
  unfold cbind at 1, lift at 1 in E. destruct (sanity_check kernel stride padding dilation) as [[[[k0 k1] [s0 s1]] [p0 p1]]|] eqn:EC; [|discriminate].
  unfold cbind at 1, lift at 1 in E. destruct (last2 (m_shape x)) as [[[bs h] wd]|] eqn:EL; [|discriminate]. cbn [fst snd] in E.
  destruct (Z.ltb_spec (Z.of_nat h + 2 * p0) k0) as [|G0]; [discriminate|]. destruct (Z.ltb_spec (Z.of_nat wd + 2 * p1) k1) as [|G1]; [discriminate|]. cbn [orb] in E.
  destruct (m_shares x) as [|t ts]; [contradiction|]. inversion HT as [|? ? T0 _]; subst.
  cbn [length seq combine rmap fst snd] in E. unfold cbind at 1, lift at 1 in E.
  destruct (pool_reshape 0 t (k0, k1) (s0, s1) (p0, p1)) as [t'|] eqn:EP; [|discriminate]. clear E.
  unfold pool_reshape in EP. rewrite T0, EL in EP. cbn [rbind fst snd] in EP.
  destruct (Z.ltb_spec p0 0) as [|P0]; [discriminate|]. destruct (Z.ltb_spec p1 0) as [|P1]; [discriminate|]. cbn [orb] in EP.
  unfold count in EP.
  destruct (Z.eqb_spec s0 0) as [|S0]; [discriminate|]. destruct (Z.eqb_spec s1 0) as [|S1]; [discriminate|]. cbn [rbind] in EP.
  destruct (_ <? 0) in EP; [discriminate|]. cbn [orb] in EP. destruct (_ <? 0) in EP; [discriminate|]. cbn [orb] in EP.
  destruct (Z.ltb_spec k0 0) as [|K0]; [discriminate|]. destruct (Z.ltb_spec k1 0) as [|K1]; [discriminate|].
  destruct (Z.ltb_spec s0 0) as [|S0']; [discriminate|]. destruct (Z.ltb_spec s1 0) as [|S1']; [discriminate|]. cbn [orb] in EP.
  destruct (Z.eqb_spec k0 0) as [|K0']; [discriminate|]. destruct (Z.eqb_spec k1 0) as [|K1']; [discriminate|]. clear EP.
  assert (EX : bs ++ [h; wd] = m_shape x).
  { unfold last2 in EL. destruct (rev (m_shape x)) as [|a [|b l]] eqn:ER; try discriminate. injection EL as <- <- <-.
    rewrite <- (rev_involutive (m_shape x)), ER. cbn [rev]. rewrite <- app_assoc. reflexivity. }
  exists (mkGeo bs h wd (Z.to_nat k0) (Z.to_nat k1) (Z.to_nat s0) (Z.to_nat s1) (Z.to_nat p0) (Z.to_nat p1)).
  split; [exact EX|]. unfold sanity_check in EC.
  destruct (as_tuple kernel) as [|k0' [|k1' [|]]] eqn:AK; try discriminate.
  destruct (match stride with None => [k0'; k1'] | Some a => as_tuple a end) as [|s0' [|s1' [|]]] eqn:AS; try discriminate.
  destruct (as_tuple padding) as [|p0' [|p1' [|]]] eqn:AP; try discriminate;
    cbn [get_nth nth_error rbind length Nat.eqb negb] in EC; destruct (Z.gtb_spec p0' k0') as [|Q0] in EC; try discriminate;
    destruct (Z.gtb_spec p1' k1') as [|Q1] in EC; try discriminate.
  destruct (as_tuple dilation) as [|d0 [|d1 [|]]] eqn:AD; try discriminate.
  destruct (Z.eqb_spec d0 1) as [->|]; [|discriminate]. destruct (Z.eqb_spec d1 1) as [->|]; [|discriminate]. cbn [negb orb] in EC.
  injection EC as -> -> -> -> -> ->.
  assert (MM : forall a y z, as_tuple a = [y; z] -> 0 <= y -> 0 <= z -> means a (Z.to_nat y) (Z.to_nat z)).
  { intros a y z A Hy Hz. unfold means. rewrite !Z2Nat.id by auto. destruct a as [i|l]; cbn [as_tuple] in A.
    - injection A as <- <-. left. auto.
    - right. rewrite A. reflexivity. }
  split; [|unfold fits; cbn [g_kh g_kw g_s0 g_s1 g_p0 g_p1 g_h g_w]; clear - K0 K1 K0' K1' S0 S1 S0' S1' P0 P1 Q0 Q1 G0 G1; lia].
  unfold given. cbn [g_kh g_kw g_s0 g_s1 g_p0 g_p1]. split; [apply MM; auto|]. split; [|split; [apply MM; auto|apply (MM dilation 1 1); auto; lia]].
  destruct stride as [a|]; [apply MM; auto|]. injection AS as -> ->. auto.
Qed.
Print Assumptions C46_refusals.

(** C47 for other numbers of dimensions: the gradient function refuses them. *)
Theorem C47_dimensions : forall K alpha ev (gen : fop -> nat -> nat -> result (list (list K))) s su c gr w z w',
  grad_pool_backward alpha ev gen s su c gr w = (Ok z, w') -> length (m_shape gr) = 3%nat \/ length (m_shape gr) = 4%nat.
Proof.
  intros K alpha ev gen s su c gr w z w' E. unfold grad_pool_backward, max_pool2d_backward in E.
  unfold cbind at 1, lift at 1 in E. destruct (sanity_check _ _ _ _) as [[[k st] p]|]; [|discriminate].
  destruct (Nat.eqb_spec (length (m_shape gr)) 4) as [|]; [auto|]. destruct (Nat.eqb_spec (length (m_shape gr)) 3) as [|]; [auto|]. discriminate.
Qed.
Print Assumptions C47_dimensions.

(** *** Concrete cases *)
Definition range (n : nat) : list nat := seq 0 n.
(** the largest real entry of a window and its place, by looking at all entries *)
Definition look_at (g : geo) (v : list Z) (b i j : nat) : nat * nat * Z :=
  fold_right (fun ac m => match in_window g v b i j (fst ac) (snd ac) with
                          | Some y => if y >? snd m then (fst ac, snd ac, y) else m
                          | None => m end) (0%nat, 0%nat, -1000) (list_prod (range (g_kh g)) (range (g_kw g))).
Definition row_of g v b i j := fst (fst (look_at g v b i j)).
Definition col_of g v b i j := snd (fst (look_at g v b i j)).
Definition best_of g v b i j := snd (look_at g v b i j).
Definition window_check (g : geo) (v : list Z) (b i j : nat) : bool :=
  let '(a, c, m) := look_at g v b i j in
  Nat.ltb a (g_kh g) && Nat.ltb c (g_kw g) && match in_window g v b i j a c with Some y => y =? m | None => false end &&
  forallb (fun ac => match in_window g v b i j (fst ac) (snd ac) with
                     | Some y => (y <? m) || (Nat.eqb (fst ac) a && Nat.eqb (snd ac) c)
                     | None => -25 <? m end) (list_prod (range (g_kh g)) (range (g_kw g))) &&
  forallb (fun a => forallb (fun c1 => forallb (fun c2 => Nat.eqb c1 c2 ||
     match in_window g v b i j a c1, in_window g v b i j a c2 with
     | Some y, Some y' => negb (y =? y') || (y <=? 0) ||
         existsb (fun c => match in_window g v b i j a c with Some z => y <? z | None => false end) (range (g_kw g))
     | _, _ => true end) (range (g_kw g))) (range (g_kw g))) (range (g_kh g)).
Definition selection_check (g : geo) (v : list Z) : bool :=
  forallb (fun b => forallb (fun i => forallb (window_check g v b i) (range (g_ow g))) (range (g_oh g))) (range (numel (g_bs g))).

Lemma selection_check_ok g v : selection_check g v = true -> selection g v (row_of g v) (col_of g v) (best_of g v).
Proof.
  intros H b i j Hb Hi Hj. unfold selection_check in H. rewrite forallb_forall in H. specialize (H b ltac:(apply in_seq; lia)).
  rewrite forallb_forall in H. specialize (H i ltac:(apply in_seq; lia)). rewrite forallb_forall in H. specialize (H j ltac:(apply in_seq; lia)).
  unfold window_check in H. unfold row_of, col_of, best_of. destruct (look_at g v b i j) as [[a c] m]. cbn [fst snd].
  rewrite !andb_true_iff in H. destruct H as ((((H1 & H2) & H3) & H4) & H5). apply Nat.ltb_lt in H1, H2.
  assert (EM : in_window g v b i j a c = Some m) by (destruct (in_window g v b i j a c); [apply Z.eqb_eq in H3; subst; auto|discriminate]).
  rewrite forallb_forall in H4.
  assert (IN : forall a' c', (a' < g_kh g)%nat -> (c' < g_kw g)%nat -> In (a', c') (list_prod (range (g_kh g)) (range (g_kw g)))).
  { intros a' c' A C. apply in_prod; apply in_seq; lia. }
  split; [|split].
  - split; [exact H1|]. split; [exact H2|]. split; [exact EM|]. intros a' c' y A C NE EY. specialize (H4 _ (IN a' c' A C)). cbn [fst snd] in H4. rewrite EY in H4.
    apply orb_true_iff in H4. destruct H4 as [H4|H4]; [apply Z.ltb_lt; exact H4|]. apply andb_true_iff in H4. rewrite !Nat.eqb_eq in H4. destruct H4 as [-> ->]. contradiction.
  - intros a' c' A C EY. specialize (H4 _ (IN a' c' A C)). cbn [fst snd] in H4. rewrite EY in H4. apply Z.ltb_lt. exact H4.
  - intros a' c1 c2 y A C1 C2 HP E1 E2 HM. rewrite forallb_forall in H5. specialize (H5 a' ltac:(apply in_seq; lia)).
    rewrite forallb_forall in H5. specialize (H5 c1 ltac:(apply in_seq; lia)). rewrite forallb_forall in H5. specialize (H5 c2 ltac:(apply in_seq; lia)).
    rewrite E1, E2, Z.eqb_refl in H5. cbn [negb orb] in H5. apply orb_true_iff in H5. destruct H5 as [H5|H5]; [apply Nat.eqb_eq; exact H5|].
    apply orb_true_iff in H5. destruct H5 as [H5|H5]; [apply Z.leb_le in H5; lia|]. apply existsb_exists in H5. destruct H5 as (c' & I' & H5). apply in_seq in I'.
    destruct (in_window g v b i j a' c') as [z|] eqn:EZ; [|discriminate]. specialize (HM c' z ltac:(lia) EZ). apply Z.ltb_lt in H5. lia.
Qed.

Definition pair_m (sh : list nat) (v : list Z) : mpc := mkM 3 sh (pair_of sh v).
Lemma pair_shares sh v : length v = numel sh -> vec_in (2^64) v -> shares_of int_s sh v (pair_m sh v).
Proof.
  intros L V. split; [reflexivity|]. split; [reflexivity|]. split; [reflexivity|].
  replace (map (to_ring (2^64)) v) with v; [exact (pair_shared sh v L V)|].
  symmetry. rewrite <- (map_id v) at 2. apply map_ext_in. intros a Ha. unfold vec_in in V. rewrite Forall_forall in V. exact (V a Ha).
Qed.
Lemma g_mul_supply : mul_supply g_su.
Proof. destruct g_supplies as (A & _ & B & _). split; auto. Qed.
Lemma pool_concrete g v : fits g -> length v = numel (g_in g) -> forallb (fun a => Z.abs a * Z.of_nat (g_kw g) <? 2^30 - 1) (-25 :: v) = true ->
  Z.of_nat (numel (g_out g) * g_kh g * g_kw g) < 2^31 - 1 -> pool_setting t_alpha t_ev toy int_s g_su g v (pair_m (g_in g) v) w0.
Proof.
  intros F L V N. assert (V' : Forall (fun a => Z.abs a * Z.of_nat (g_kw g) < 2^30 - 1) (-25 :: v)).
  { apply Forall_forall. intros a Ha. rewrite forallb_forall in V. apply Z.ltb_lt, V, Ha. }
  split; [exact toy_good|]. split; [repeat split; cbn; lia|]. split; [exact g_mul_supply|]. split; [exact F|].
  split; [|split; [exact V'|split; [exact N|exact fw0_none]]].
  apply pair_shares; [exact L|]. inversion V'; subst. eapply Forall_impl; [|eassumption]. intros a Ha. cbv beta in Ha.
  destruct F as (_ & F & _). apply in_ring64. nia.
Qed.

(** 2 inputs of 3 x 3 with negative values, kernel 2 x 2, stride 1 (overlapping windows), padding 1
    in the rows. *)
Definition ex_g := mkGeo [2%nat] 3 3 2 2 1 1 1 0.
Definition ex_v : list Z := [4; -3; 7; 2; 9; -1; 5; 0; 6;   -8; -2; -9; -7; -1; -3; 11; 12; 10].
Lemma ex_fits : fits ex_g. Proof. unfold fits. cbn. lia. Qed.
Lemma ex_given : given (AInt 2) (Some (AInt 1)) (ATup [1; 0]) (AInt 1) ex_g.
Proof. unfold given, means. cbn. repeat split; auto. Qed.
Example C46_witness :
  pool_setting t_alpha t_ev toy int_s g_su ex_g ex_v (pair_m (g_in ex_g) ex_v) w0 /\
  given (AInt 2) (Some (AInt 1)) (ATup [1; 0]) (AInt 1) ex_g /\
  selection ex_g ex_v (row_of ex_g ex_v) (col_of ex_g ex_v) (best_of ex_g ex_v) /\
  g_out ex_g = [2; 4; 2]%nat /\
  grid 2 4 2 (best_of ex_g ex_v) = [4; 7; 9; 9; 9; 9; 5; 6;   -2; -2; -1; -1; 12; 12; 12; 12].
Proof.
  split; [apply pool_concrete; [exact ex_fits|reflexivity|reflexivity|reflexivity]|]. split; [exact ex_given|].
  split; [apply selection_check_ok; reflexivity|]. split; reflexivity.
Qed.
(** the model run on it *)
Definition pool_run (g : geo) v k st p d : result (result tensor) :=
  match fst (max_pool2d t_alpha t_ev toy int_s g_su (pair_m (g_in g) v) k st p d false w0) with Ok (r, _) => Ok (reconstruct r) | Err e => Err e end.
Example C46_run : pool_run ex_g ex_v (AInt 2) (Some (AInt 1)) (ATup [1; 0]) (AInt 1) =
  Ok (Ok (mkT [2; 4; 2]%nat [4; 7; 9; 9; 9; 9; 5; 6;   -2; -2; -1; -1; 12; 12; 12; 12])).
Proof. vm_compute. reflexivity. Qed.
(** refusals on the same input *)
Example C46_refusals_run :
  map (fun a => match a with (k, st, p, d) => pool_run ex_g ex_v k st p d end)
    [(AInt 0, Some (AInt 1), AInt 0, AInt 1); (AInt 2, Some (AInt 0), AInt 0, AInt 1); (AInt 2, Some (AInt (-1)), AInt 0, AInt 1);
     (AInt 2, None, AInt 3, AInt 1); (AInt 2, None, AInt (-1), AInt 1); (AInt 4, None, AInt 0, AInt 1); (AInt 2, None, AInt 0, AInt 2);
     (ATup [2; 2; 2], None, AInt 0, AInt 1)]
  = [Err RuntimeError; Err ZeroDivision; Err ValueError; Err ValueError; Err ValueError; Err ValueError; Err ValueError; Err ValueError].
Proof. vm_compute. reflexivity. Qed.

(** *** C46 outside the conditions *)
Lemma pool_runs g v k st p d t : pool_run g v k st p d = Ok (Ok t) ->
  exists r o w', max_pool2d t_alpha t_ev toy int_s g_su (pair_m (g_in g) v) k st p d false w0 = (Ok (r, o), w') /\ reconstruct r = Ok t.
Proof.
  unfold pool_run. destruct (max_pool2d _ _ _ _ _ _ _ _ _ _ _ _) as [[[r o]|e] w']; cbn [fst]; [|discriminate].
  intros E. injection E as E. exists r, o, w'. auto.
Qed.
(** The window [[4, 1], [3, 4]] has the maximum 4 twice: the result is 8. *)
Theorem C46_tie_refuted : exists g v w,
  pool_setting t_alpha t_ev toy int_s g_su g v (pair_m (g_in g) v) w /\ given (AInt 2) None (AInt 0) (AInt 1) g /\
  (v = [4; 1; 3; 4] /\ g_in g = [1; 2; 2]%nat) /\
  exists r o w', max_pool2d t_alpha t_ev toy int_s g_su (pair_m (g_in g) v) (AInt 2) None (AInt 0) (AInt 1) false w = (Ok (r, o), w') /\
    reconstruct r = Ok (mkT [1; 1; 1]%nat [8]).
Proof.
  exists (mkGeo [1%nat] 2 2 2 2 2 2 0 0), [4; 1; 3; 4], w0.
  split; [apply pool_concrete; [unfold fits; cbn; lia|reflexivity|reflexivity|reflexivity]|].
  split; [unfold given, means; cbn; repeat split; auto|]. split; [split; reflexivity|].
  apply (pool_runs (mkGeo [1%nat] 2 2 2 2 2 2 0 0)). vm_compute. reflexivity.
Qed.
Print Assumptions C46_tie_refuted.

(** The window [[3, 3], [5, 4]] has the maximum 5 once, but a row with two equal maxima: the result
    is 6, which is not an entry of the input. *)
Theorem C46_row_refuted : exists g v w,
  pool_setting t_alpha t_ev toy int_s g_su g v (pair_m (g_in g) v) w /\ given (AInt 2) None (AInt 0) (AInt 1) g /\
  selects g v 0 0 0 1 0 5 /\
  exists r o w', max_pool2d t_alpha t_ev toy int_s g_su (pair_m (g_in g) v) (AInt 2) None (AInt 0) (AInt 1) false w = (Ok (r, o), w') /\
    reconstruct r = Ok (mkT [1; 1; 1]%nat [6]).
Proof.
  exists (mkGeo [1%nat] 2 2 2 2 2 2 0 0), [3; 3; 5; 4], w0.
  split; [apply pool_concrete; [unfold fits; cbn; lia|reflexivity|reflexivity|reflexivity]|].
  split; [unfold given, means; cbn; repeat split; auto|]. split.
  - split; [cbn; lia|]. split; [cbn; lia|]. split; [reflexivity|]. cbn [g_kh g_kw]. intros a c y A C NE E.
    destruct a as [|[|]]; [| |lia]; (destruct c as [|[|]]; [| |lia]); cbn in E; try injection E as <-; try lia. contradiction.
  - apply (pool_runs (mkGeo [1%nat] 2 2 2 2 2 2 0 0)). vm_compute. reflexivity.
Qed.
Print Assumptions C46_row_refuted.

(** The window has one real entry, -30, and three of padding: the result is that of the padding. *)
Theorem C46_padding_refuted : exists g v w,
  pool_setting t_alpha t_ev toy int_s g_su g v (pair_m (g_in g) v) w /\ given (AInt 2) (Some (AInt 2)) (AInt 1) (AInt 1) g /\
  selects g v 0 0 0 1 1 (-30) /\
  exists r o w', max_pool2d t_alpha t_ev toy int_s g_su (pair_m (g_in g) v) (AInt 2) (Some (AInt 2)) (AInt 1) (AInt 1) false w = (Ok (r, o), w') /\
    reconstruct r = Ok (mkT [1; 1; 1]%nat [-25]).
Proof.
  exists (mkGeo [1%nat] 1 1 2 2 2 2 1 1), [-30], w0.
  split; [apply pool_concrete; [unfold fits; cbn; lia|reflexivity|reflexivity|reflexivity]|].
  split; [unfold given, means; cbn; repeat split; auto|]. split.
  - split; [cbn; lia|]. split; [cbn; lia|]. split; [reflexivity|]. cbn [g_kh g_kw]. intros a c y A C NE E.
    destruct a as [|[|]]; [| |lia]; (destruct c as [|[|]]; [| |lia]); cbn in E; try discriminate. contradiction.
  - apply (pool_runs (mkGeo [1%nat] 1 1 2 2 2 2 1 1)). vm_compute. reflexivity.
Qed.
Print Assumptions C46_padding_refuted.

(** Paddings above half the kernel are accepted: with kernel 1 and padding 1 the windows in the
    corners have no real entry and the result has the padding there. *)
Theorem C46_arguments_refuted : exists g v w,
  pool_setting t_alpha t_ev toy int_s g_su g v (pair_m (g_in g) v) w /\ given (AInt 1) None (ATup [0; 1]) (AInt 1) g /\
  in_window g v 0 0 0 0 0 = None /\
  exists r o w', max_pool2d t_alpha t_ev toy int_s g_su (pair_m (g_in g) v) (AInt 1) None (ATup [0; 1]) (AInt 1) false w = (Ok (r, o), w') /\
    reconstruct r = Ok (mkT [1; 1; 4]%nat [-25; 7; 8; -25]).
Proof.
  exists (mkGeo [1%nat] 1 2 1 1 1 1 0 1), [7; 8], w0.
  split; [apply pool_concrete; [unfold fits; cbn; lia|reflexivity|reflexivity|reflexivity]|].
  split; [unfold given, means; cbn; repeat split; auto|]. split; [reflexivity|].
  apply (pool_runs (mkGeo [1%nat] 1 2 1 1 1 1 0 1)). vm_compute. reflexivity.
Qed.
Print Assumptions C46_arguments_refuted.

(** *** C47 *)
Definition grad_run (g : geo) v gv k st p d : result (result tensor) :=
  match grad_pool_forward t_alpha t_ev toy int_s g_su (pair_m (g_in g) v) k st p d w0 with
  | (Ok (_, c), w) => match fst (grad_pool_backward t_alpha t_ev toy int_s g_su c (pair_m (g_out g) gv) w) with
                      | Ok z => Ok (reconstruct z)
                      | Err e => Err e
                      end
  | (Err e, _) => Err e
  end.
Definition ex_G (b i j : nat) : Z := Z.of_nat (100 * b + 10 * i + j + 1).
Example C47_witness :
  pool_setting t_alpha t_ev toy int_s g_su ex_g ex_v (pair_m (g_in ex_g) ex_v) w0 /\
  given (AInt 2) (Some (AInt 1)) (ATup [1; 0]) (AInt 1) ex_g /\
  selection ex_g ex_v (row_of ex_g ex_v) (col_of ex_g ex_v) (best_of ex_g ex_v) /\ length (g_in ex_g) = 3%nat /\
  shares_of int_s (g_out ex_g) (grid 2 4 2 ex_G) (pair_m (g_out ex_g) (grid 2 4 2 ex_G)) /\
  grid 2 3 3 (routed ex_g (row_of ex_g ex_v) (col_of ex_g ex_v) ex_G) =
    [1; 0; 2; 0; 11 + 12 + 21 + 22; 0; 31; 0; 32;   0; 101 + 102; 0; 0; 111 + 112; 0; 0; 121 + 122 + 131 + 132; 0].
Proof.
  destruct C46_witness as (A & B & C & _). split; [exact A|]. split; [exact B|]. split; [exact C|]. split; [reflexivity|].
  split; [apply pair_shares; [reflexivity|repeat constructor]|reflexivity].
Qed.
Example C47_run : grad_run ex_g ex_v (grid 2 4 2 ex_G) (AInt 2) (Some (AInt 1)) (ATup [1; 0]) (AInt 1) =
  Ok (Ok (mkT [2; 3; 3]%nat [1; 0; 2; 0; 66; 0; 31; 0; 32;   0; 203; 0; 0; 223; 0; 0; 506; 0])).
Proof. vm_compute. reflexivity. Qed.

(** Four dimensions and padding: the slices [p : H] and [p : W] cut too much, the gradient does not
    have the shape of the input (the tensor announces [1; 1; 3; 3], its shares are of [1; 1; 2; 2]). *)
Theorem C47_padding_refuted : exists g v w gr,
  pool_setting t_alpha t_ev toy int_s g_su g v (pair_m (g_in g) v) w /\ given (AInt 2) (Some (AInt 1)) (AInt 1) (AInt 1) g /\
  selection g v (row_of g v) (col_of g v) (best_of g v) /\ length (g_in g) = 4%nat /\
  shares_of int_s (g_out g) (map (fun _ => 1) (seq 0 (numel (g_out g)))) gr /\
  exists r c w' z w'', grad_pool_forward t_alpha t_ev toy int_s g_su (pair_m (g_in g) v) (AInt 2) (Some (AInt 1)) (AInt 1) (AInt 1) w = (Ok (r, c), w') /\
    grad_pool_backward t_alpha t_ev toy int_s g_su c gr w' = (Ok z, w'') /\
    m_shape z = [1; 1; 3; 3]%nat /\ map tsh (m_shares z) = [[1; 1; 2; 2]; [1; 1; 2; 2]]%nat.
Proof.
  set (g := mkGeo [1; 1]%nat 3 3 2 2 1 1 1 1). set (v := [4; -3; 7; 2; 9; -1; 5; 0; 6]).
  exists g, v, w0, (pair_m (g_out g) (map (fun _ => 1) (seq 0 (numel (g_out g))))).
  split; [apply pool_concrete; [unfold fits; cbn; lia|reflexivity|reflexivity|reflexivity]|].
  split; [unfold given, means; cbn; repeat split; auto|]. split; [apply selection_check_ok; reflexivity|]. split; [reflexivity|].
  split; [apply pair_shares; [reflexivity|repeat constructor]|].
  set (gr := pair_m (g_out g) _).
  assert (C : match grad_pool_forward t_alpha t_ev toy int_s g_su (pair_m (g_in g) v) (AInt 2) (Some (AInt 1)) (AInt 1) (AInt 1) w0 with
              | (Ok (_, c), w') => match fst (grad_pool_backward t_alpha t_ev toy int_s g_su c gr w') with
                                   | Ok z => Ok (m_shape z, map tsh (m_shares z)) | Err e => Err e end
              | (Err e, _) => Err e
              end = Ok ([1; 1; 3; 3], [[1; 1; 2; 2]; [1; 1; 2; 2]])%nat) by (vm_compute; reflexivity).
  destruct (grad_pool_forward _ _ _ _ _ _ _ _ _ _ _) as [[[r c]|e] w']; [|discriminate C].
  destruct (grad_pool_backward _ _ _ _ _ c gr w') as [[z|e] w''] eqn:EB; cbn [fst] in C; [|discriminate C].
  injection C as C1 C2. exists r, c, w', z, w''. split; [reflexivity|]. split; [exact EB|]. auto.
Qed.
Print Assumptions C47_padding_refuted.

Lemma grad_runs g v gv k st p d t : grad_run g v gv k st p d = Ok (Ok t) ->
  exists r c w' z w'', grad_pool_forward t_alpha t_ev toy int_s g_su (pair_m (g_in g) v) k st p d w0 = (Ok (r, c), w') /\
    grad_pool_backward t_alpha t_ev toy int_s g_su c (pair_m (g_out g) gv) w' = (Ok z, w'') /\ reconstruct z = Ok t.
Proof.
  unfold grad_run. destruct (grad_pool_forward _ _ _ _ _ _ _ _ _ _ _) as [[[r c]|e] w']; [|discriminate].
  destruct (grad_pool_backward _ _ _ _ _ c _ w') as [[z|e] w''] eqn:EB; cbn [fst]; [|discriminate].
  intros E. injection E as E. exists r, c, w', z, w''. auto.
Qed.

(** The window [[4, 1], [3, 4]] and the gradient 5: both entries 4 receive all of it. *)
Theorem C47_tie_refuted : exists g v w gr,
  pool_setting t_alpha t_ev toy int_s g_su g v (pair_m (g_in g) v) w /\ given (AInt 2) None (AInt 0) (AInt 1) g /\
  (v = [4; 1; 3; 4] /\ g_in g = [1; 2; 2]%nat) /\ shares_of int_s (g_out g) [5] gr /\
  exists r c w' z w'', grad_pool_forward t_alpha t_ev toy int_s g_su (pair_m (g_in g) v) (AInt 2) None (AInt 0) (AInt 1) w = (Ok (r, c), w') /\
    grad_pool_backward t_alpha t_ev toy int_s g_su c gr w' = (Ok z, w'') /\ reconstruct z = Ok (mkT [1; 2; 2]%nat [5; 0; 0; 5]).
Proof.
  set (g := mkGeo [1%nat] 2 2 2 2 2 2 0 0). exists g, [4; 1; 3; 4], w0, (pair_m (g_out g) [5]).
  split; [apply pool_concrete; [unfold fits; cbn; lia|reflexivity|reflexivity|reflexivity]|].
  split; [unfold given, means; cbn; repeat split; auto|]. split; [split; reflexivity|].
  split; [apply pair_shares; [reflexivity|repeat constructor]|].
  apply (grad_runs g). vm_compute. reflexivity.
Qed.
Print Assumptions C47_tie_refuted.

(** The window [[3, 3], [5, 4]] and the gradient 5: the largest entry 5 stands once, but the two
    entries 3 of the other row receive the gradient. *)
Theorem C47_row_refuted : exists g v w gr,
  pool_setting t_alpha t_ev toy int_s g_su g v (pair_m (g_in g) v) w /\ given (AInt 2) None (AInt 0) (AInt 1) g /\
  g_in g = [1; 2; 2]%nat /\ selects g v 0 0 0 1 0 5 /\ shares_of int_s (g_out g) [5] gr /\
  exists r c w' z w'', grad_pool_forward t_alpha t_ev toy int_s g_su (pair_m (g_in g) v) (AInt 2) None (AInt 0) (AInt 1) w = (Ok (r, c), w') /\
    grad_pool_backward t_alpha t_ev toy int_s g_su c gr w' = (Ok z, w'') /\ reconstruct z = Ok (mkT [1; 2; 2]%nat [5; 5; 0; 0]).
Proof.
  set (g := mkGeo [1%nat] 2 2 2 2 2 2 0 0). exists g, [3; 3; 5; 4], w0, (pair_m (g_out g) [5]).
  split; [apply pool_concrete; [unfold fits; cbn; lia|reflexivity|reflexivity|reflexivity]|].
  split; [unfold given, means; cbn; repeat split; auto|]. split; [reflexivity|]. split.
  - split; [cbn; lia|]. split; [cbn; lia|]. split; [reflexivity|]. cbn [g g_kh g_kw]. intros a c y A C NE E.
    destruct a as [|[|]]; [| |lia]; (destruct c as [|[|]]; [| |lia]); cbn in E; try injection E as <-; try lia. contradiction.
  - split; [apply pair_shares; [reflexivity|repeat constructor]|].
    apply (grad_runs g). vm_compute. reflexivity.
Qed.
Print Assumptions C47_row_refuted.
