(** Lemmas on stack and cat. *)
From Verif Require Import Util S_Ring S_Tensor S_Static S_Rep S_RepT M_Encoder M_Torch L_Torch M_Tensor L_Tensor M_Share M_Rep L_RShare L_Rep M_Static.
Local Open Scope Z_scope.

Lemma shape_eqb_refl s : shape_eqb s s = true.
Proof. unfold shape_eqb. destruct (list_eq_dec Nat.eq_dec s s); congruence. Qed.

Lemma s_sum_app ring m1 m2 {A} (f g : A -> list Z) (ks : list A) :
  (forall k, In k ks -> length (f k) = m1) -> 
  s_sum ring (m1 + m2) (map (fun k => f k ++ g k) ks) = s_sum ring m1 (map f ks) ++ s_sum ring m2 (map g ks).
Proof.
  intros H. unfold s_sum. rewrite seq_app, map_app. f_equal.
  - apply map_ext_in. intros e He. apply in_seq in He. f_equal. f_equal. rewrite !map_map.
    apply map_ext_in. intros k Hk. rewrite app_nth1; auto. rewrite H; auto. lia.
  - rewrite map_seq_shift. apply map_ext_in. intros e _. f_equal. f_equal. rewrite !map_map.
    apply map_ext_in. intros k Hk. rewrite app_nth2; rewrite H; auto; [f_equal|]; lia.
Qed.

(** several sharings among the same parties, side by side *)
Definition sharings (ring : Z) (n : nat) (shs : list (list nat)) (vs : list (list Z)) (sss : list (list tensor)) : Prop :=
  Forall2 (fun p ss => shared ring (fst p) (snd p) ss /\ length ss = n) (combine shs vs) sss /\ length shs = length vs.

Definition col (sss : list (list tensor)) (k : nat) : list tensor := map (fun l => nth k l (mkT [] [])) sss.

Lemma map_nth_seq' {A} (d : A) l n : length l = n -> map (fun k => nth k l d) (seq 0 n) = l.
Proof. intros <-. apply map_nth_seq. Qed.

Section R.
  Context (ring : Z) (Hs : supported ring).

  Lemma sharings_join n shs vs sss : sharings ring n shs vs sss ->
    s_sum ring (list_sum (map numel shs)) (map (fun k => concat (map tdat (col sss k))) (seq 0 n)) = concat vs /\
    (forall k, (k < n)%nat -> map tsh (col sss k) = shs /\ length (concat (map tdat (col sss k))) = list_sum (map numel shs) /\
       vec_in ring (concat (map tdat (col sss k)))).
  Proof.
    intros [H L]. revert shs vs H L. induction sss as [|ss sss IH]; intros shs vs H L.
    - inversion H as [E|]. destruct shs, vs; cbn in *; try discriminate. split; [reflexivity|]. intros k _. repeat split. constructor.
    - destruct shs as [|sh shs], vs as [|v vs]; cbn in L; try discriminate; [inversion H|].
      cbn [combine] in H. inversion H as [|p l q r [HS HL] HR]; subst. cbn [fst snd] in *.
      destruct (IH shs vs HR ltac:(lia)) as [E1 E2].
      assert (T : forall k, (k < length ss)%nat -> tensor_in ring sh (nth k ss (mkT [] []))).
      { intros k Hk. destruct HS as (_ & F & _). rewrite Forall_forall in F. apply F. apply nth_In. auto. }
      split.
      + unfold col in *. cbn [map concat list_sum fold_right]. change (fold_right Nat.add 0%nat (map numel shs)) with (list_sum (map numel shs)).
        rewrite s_sum_app by (intros k Hk; apply in_seq in Hk; apply T; lia).
        rewrite E1. f_equal. destruct HS as (_ & _ & ->). f_equal.
        rewrite <- (map_map (fun k => nth k ss (mkT [] [])) tdat). f_equal. apply map_nth_seq.
      + intros k Hk. destruct (E2 k Hk) as (A1 & A2 & A3). destruct (T k Hk) as (B1 & B2 & B3).
        unfold col in *. cbn [map concat list_sum fold_right]. split; [congruence|]. split.
        * rewrite app_length, A2, B2. reflexivity.
        * apply Forall_app. split; auto.
  Qed.

  (** the shares put together party by party share the tensors put together *)
  Lemma join_shared n so shs vs sss (f : list tensor -> result tensor) : sharings ring n shs vs sss ->
    (0 < n)%nat -> numel so = list_sum (map numel shs) ->
    (forall ts, map tsh ts = shs -> f ts = Ok (mkT so (concat (map tdat ts)))) ->
    exists rs, rmap (fun k => f (col sss k)) (seq 0 n) = Ok rs /\ length rs = n /\ shared ring so (concat vs) rs /\
      rs = map (fun k => mkT so (concat (map tdat (col sss k)))) (seq 0 n).
  Proof.
    intros HJ Hn HN Hf. destruct (sharings_join n shs vs sss HJ) as [E1 E2].
    exists (map (fun k => mkT so (concat (map tdat (col sss k)))) (seq 0 n)). split.
    - assert (G : forall l, (forall k, In k l -> (k < n)%nat) ->
        rmap (fun k => f (col sss k)) l = Ok (map (fun k => mkT so (concat (map tdat (col sss k)))) l)).
      { induction l as [|k l IH]; intros Hl; cbn [rmap map]; [reflexivity|].
        rewrite (Hf _ (proj1 (E2 k (Hl k (or_introl eq_refl))))). rewrite IH by (intros; apply Hl; right; auto). reflexivity. }
      apply G. intros k Hk. apply in_seq in Hk. lia.
    - split; [rewrite map_length, seq_length; reflexivity|]. split; [|reflexivity]. split; [|split].
      + destruct n; [lia|]. discriminate.
      + apply Forall_map, Forall_forall. intros k Hk. apply in_seq in Hk. destruct (E2 k ltac:(lia)) as (A1 & A2 & A3).
        split; [reflexivity|]. split; cbn [tdat]; [congruence|exact A3].
      + rewrite map_map. cbn [tdat]. rewrite HN. symmetry. exact E1.
  Qed.
End R.

Lemma columns_ok n sss : Forall (fun ss => length ss = n) sss -> columns n sss = map (col sss) (seq 0 n).
Proof.
  intros H. unfold columns, col. f_equal. f_equal. induction H as [|ss sss E _ IH]; cbn; [reflexivity|]. rewrite IH, E. lia.
Qed.

Lemma sharings_lengths ring n shs vs sss : sharings ring n shs vs sss -> Forall (fun ss => length ss = n) sss.
Proof.
  intros [H _]. apply Forall_forall. intros ss Hss. induction H as [|p ss' ps sss' [_ E] _ IH]; cbn in Hss; [contradiction|].
  destruct Hss as [<-|Hss]; auto.
Qed.

(** shapes *)
Lemma stack_shape0 sh k : (0 < k)%nat -> stack_shape 0 (repeat sh k) = Ok (k :: sh).
Proof.
  intros H. destruct k; [lia|]. cbn [repeat stack_shape].
  assert (E : forallb (shape_eqb sh) (repeat sh k) = true).
  { apply forallb_forall. intros x Hx. apply repeat_spec in Hx. subst. apply shape_eqb_refl. }
  rewrite E. unfold norm_dim. destruct (Z.leb_spec (- Z.of_nat (S (length sh))) 0); [|lia].
  destruct (Z.ltb_spec 0 (Z.of_nat (S (length sh)))); [|lia]. cbn [andb rbind]. cbn. rewrite repeat_length. reflexivity.
Qed.

Lemma list_sum_cons a l : list_sum (a :: l) = (a + list_sum l)%nat.
Proof. reflexivity. Qed.

Lemma list_sum_repeat a k : list_sum (repeat a k) = (k * a)%nat.
Proof. induction k; [reflexivity|]. cbn [repeat]. rewrite list_sum_cons, IHk. reflexivity. Qed.

Lemma cat_shape0 post ns : ns <> [] -> cat_shape 0 (map (fun n => n :: post) ns) = Ok (list_sum ns :: post).
Proof.
  intros Hne. unfold cat_shape.
  assert (F : forall l, exists l', filter (fun s => negb (shape_eqb s [0%nat])) (map (fun n => n :: post) l) = map (fun n => n :: post) l' /\
    list_sum l' = list_sum l /\ (l' = [] -> l = [] \/ post = [])).
  { induction l as [|n l (l' & A & B & C)]; [exists []; auto|]. cbn [map filter].
    unfold shape_eqb at 1. destruct (list_eq_dec Nat.eq_dec (n :: post) [0%nat]) as [e|ne]; cbn [negb].
    - injection e as -> ->. exists l'. split; [exact A|]. split; [cbn; exact B|]. auto.
    - exists (n :: l'). split; [cbn; f_equal; exact A|]. split; [cbn; f_equal; exact B|]. discriminate. }
  destruct (F ns) as (l' & -> & B & C). destruct l' as [|n l']; cbn [map].
  - destruct ns as [|n ns]; [congruence|]. destruct C as [C| ->]; auto; [discriminate|]. cbn [map].
    unfold norm_dim. cbn. cbn in B. rewrite <- B. reflexivity.
  - unfold norm_dim. destruct (Z.leb_spec (- Z.of_nat (length (n :: post))) 0); [|lia].
    destruct (Z.ltb_spec 0 (Z.of_nat (length (n :: post)))); [|cbn in *; lia]. cbn [andb rbind]. change (Z.to_nat (if 0 <? 0 then _ else 0)) with 0%nat.
    assert (E : forallb (cat_agree 0 (n :: post)) (map (fun n0 => n0 :: post) l') = true).
    { apply forallb_forall. intros x Hx. apply in_map_iff in Hx. destruct Hx as (m & <- & _). unfold cat_agree. cbn [length set_nth].
      rewrite Nat.eqb_refl, shape_eqb_refl. reflexivity. }
    cbn [Z.ltb Z.compare Z.to_nat]. rewrite E. cbn [set_nth map nth]. rewrite map_map. cbn [nth]. rewrite map_id.
    f_equal. f_equal. rewrite <- B. reflexivity.
Qed.

(** data along dimension 0 *)
Lemma nth_concat (ms : list nat) : forall (vs : list (list Z)), Forall2 (fun m v => length v = m) ms vs -> forall i r,
  (i < length ms)%nat -> (r < nth i ms 0)%nat -> nth (list_sum (firstn i ms) + r) (concat vs) 0 = nth r (nth i vs []) 0.
Proof.
  induction ms as [|m ms IH]; intros vs H i r Hi Hr; [cbn in Hi; lia|].
  inversion H as [|? v ? vs' E H']; subst. destruct i as [|i]; cbn [firstn list_sum fold_right nth concat].
  - cbn in Hr. rewrite app_nth1 by lia. reflexivity.
  - cbn in Hr, Hi. rewrite app_nth2 by lia. change (fold_right Nat.add 0%nat (firstn i ms)) with (list_sum (firstn i ms)).
    replace (length v + list_sum (firstn i ms) + r - length v)%nat with (list_sum (firstn i ms) + r)%nat by lia. apply IH; auto. lia.
Qed.

Lemma concat_length_sum (vs : list (list Z)) : length (concat vs) = list_sum (map (@length Z) vs).
Proof. induction vs; [reflexivity|]. cbn [map concat]. rewrite list_sum_cons, app_length, IHvs. reflexivity. Qed.

Lemma ravel_within sh : forall ix, within sh ix -> (ravel sh ix < numel sh)%nat.
Proof.
  intros ix H. induction H as [|i d ix sh Hi _ IH]; cbn; [lia|]. change (fold_right Nat.mul 1%nat sh) with (numel sh). nia.
Qed.

Lemma list_sum_map_mul a l : list_sum (map (fun n => n * a)%nat l) = (list_sum l * a)%nat.
Proof. induction l; [reflexivity|]. cbn [map]. rewrite !list_sum_cons, IHl. lia. Qed.

Lemma cat0_is_cat post ns vs : Forall2 (fun n v => length v = (n * numel post)%nat) ns vs ->
  is_cat [] post ns vs (mkT (list_sum ns :: post) (concat vs)).
Proof.
  intros H. split; [reflexivity|]. cbn [tsh tdat].
  assert (H' : Forall2 (fun m v => length v = m) (map (fun n => n * numel post)%nat ns) vs) by (induction H; constructor; auto).
  split.
  - rewrite concat_length_sum. cbn. change (fold_right Nat.mul 1%nat post) with (numel post). rewrite <- list_sum_map_mul. f_equal.
    clear H'. induction H; cbn; f_equal; auto.
  - intros i j p q Hi Hj Hp Hq. inversion Hp; subst. cbn [app]. unfold at_pos. cbn [tsh tdat ravel app].
    pose proof (ravel_within _ _ Hq) as B.
    replace ((list_sum (firstn i ns) + j) * numel post + ravel post q)%nat
      with (list_sum (firstn i (map (fun n => n * numel post)%nat ns)) + (j * numel post + ravel post q))%nat
      by (rewrite firstn_map, list_sum_map_mul; lia).
    apply nth_concat; auto; [rewrite map_length; auto|].
    rewrite (nth_indep _ 0%nat (0 * numel post)%nat) by (rewrite map_length; auto).
    rewrite (map_nth (fun n => (n * numel post)%nat)). nia.
Qed.

Lemma stack0_is_stack sh vs : Forall (fun v => length v = numel sh) vs ->
  is_stack [] sh vs (mkT (length vs :: sh) (concat vs)).
Proof.
  intros H. split; [reflexivity|]. cbn [tsh tdat].
  assert (H' : Forall2 (fun m v => length v = m) (repeat (numel sh) (length vs)) vs) by (induction H; cbn; constructor; auto).
  split.
  - rewrite concat_length_sum. cbn. change (fold_right Nat.mul 1%nat sh) with (numel sh). rewrite <- list_sum_repeat. f_equal.
    clear H'. induction H; cbn; f_equal; auto.
  - intros i p q Hi Hp Hq. inversion Hp; subst. cbn [app]. unfold at_pos. cbn [tsh tdat ravel app].
    pose proof (ravel_within _ _ Hq) as B.
    assert (F : forall i k, (i <= k)%nat -> list_sum (firstn i (repeat (numel sh) k)) = (i * numel sh)%nat).
    { induction i0 as [|i0 IH]; intros [|k] Hk; cbn; try lia. change (fold_right Nat.add 0%nat (firstn i0 (repeat (numel sh) k))) with (list_sum (firstn i0 (repeat (numel sh) k))). rewrite IH by lia. reflexivity. }
    replace (i * numel sh)%nat with (list_sum (firstn i (repeat (numel sh) (length vs)))) by (apply F; lia).
    apply nth_concat; auto; [rewrite repeat_length; auto|]. rewrite nth_repeat_lt by auto. exact B.
Qed.

(** dimension [length pre] of a longer shape *)
Lemma norm_dim_nat r k : (k < r)%nat -> norm_dim r (Z.of_nat k) = Ok k.
Proof.
  intros H. unfold norm_dim. destruct (Z.leb_spec (- Z.of_nat r) (Z.of_nat k)); [|lia].
  destruct (Z.ltb_spec (Z.of_nat k) (Z.of_nat r)); [|lia]. destruct (Z.ltb_spec (Z.of_nat k) 0); [lia|]. cbn [andb]. rewrite Nat2Z.id. reflexivity.
Qed.

Lemma stack_shape_at pre post k : (0 < k)%nat -> stack_shape (Z.of_nat (length pre)) (repeat (pre ++ post) k) = Ok (pre ++ k :: post).
Proof.
  intros H. destruct k; [lia|]. cbn [repeat stack_shape].
  assert (E : forallb (shape_eqb (pre ++ post)) (repeat (pre ++ post) k) = true).
  { apply forallb_forall. intros x Hx. apply repeat_spec in Hx. subst. apply shape_eqb_refl. }
  rewrite E, norm_dim_nat by (rewrite app_length; lia). cbn [rbind]. unfold insert_nth. cbn [length]. rewrite repeat_length.
  rewrite firstn_app, firstn_all, Nat.sub_diag, skipn_app, skipn_all, Nat.sub_diag. cbn. rewrite app_nil_r. reflexivity.
Qed.

Lemma set_nth_app (pre : list nat) (x y : nat) (post : list nat) : set_nth (length pre) x (pre ++ y :: post) = pre ++ x :: post.
Proof. induction pre as [|a pre IH]; cbn [length app set_nth]; [reflexivity|]. rewrite IH. reflexivity. Qed.

Lemma cat_shape_at (a : nat) (pre post ns : list nat) : ns <> [] ->
  cat_shape (Z.of_nat (length (a :: pre))) (map (fun n => (a :: pre) ++ n :: post) ns) = Ok ((a :: pre) ++ list_sum ns :: post).
Proof.
  intros Hne. unfold cat_shape. set (p := a :: pre).
  assert (F : filter (fun s => negb (shape_eqb s [0%nat])) (map (fun n => p ++ n :: post) ns) = map (fun n => p ++ n :: post) ns).
  { clear Hne. induction ns as [|n ns IH]; cbn [map filter]; [reflexivity|]. unfold shape_eqb at 1.
    destruct (list_eq_dec Nat.eq_dec (p ++ n :: post) [0%nat]) as [e|ne].
    - exfalso. apply (f_equal (@length nat)) in e. rewrite app_length in e. unfold p in e. cbn in e. lia.
    - cbn [negb]. rewrite IH. reflexivity. }
  rewrite F. destruct ns as [|n ns]; [congruence|]. cbn [map]. unfold p at 1. cbn [app]. fold p. change (a :: pre ++ n :: post) with (p ++ n :: post).
  rewrite norm_dim_nat by (rewrite app_length; cbn; lia). cbn [rbind].
  assert (E : forallb (cat_agree (length p) (p ++ n :: post)) (map (fun n0 => p ++ n0 :: post) ns) = true).
  { apply forallb_forall. intros x Hx. apply in_map_iff in Hx. destruct Hx as (m & <- & _). unfold cat_agree.
    rewrite !app_length. cbn [length]. rewrite Nat.eqb_refl, !set_nth_app, shape_eqb_refl. reflexivity. }
  assert (M : map (fun t => nth (length p) t 0%nat) (map (fun n0 => p ++ n0 :: post) (n :: ns)) = n :: ns).
  { rewrite map_map. rewrite <- (map_id (n :: ns)) at 2. apply map_ext. intros m. rewrite app_nth2, Nat.sub_diag by lia. reflexivity. }
  cbn [map] in M. rewrite E, set_nth_app. cbn [map]. rewrite M. reflexivity.
Qed.

(** replicated shares *)
Lemma cat_onto_acc post ts : forall a d ns, map tsh ts = map (fun n => n :: post) ns ->
  cat_onto (mkT (a :: post) d) ts = Ok (mkT ((a + list_sum ns)%nat :: post) (d ++ concat (map tdat ts))).
Proof.
  induction ts as [|t ts IH]; intros a d ns E.
  - destruct ns; [|discriminate]. cbn. rewrite Nat.add_0_r, app_nil_r. reflexivity.
  - destruct ns as [|n ns]; [discriminate|]. cbn [map] in E. injection E as E1 E2. cbn [cat_onto]. unfold torch_cat. cbn [map tsh].
    rewrite E1. change [a :: post; n :: post] with (map (fun n => n :: post) [a; n]). rewrite cat_shape0 by discriminate. cbn [rbind].
    rewrite (IH _ _ ns E2). cbn [map concat tdat].
    replace (list_sum [a; n] + list_sum ns)%nat with (a + list_sum (n :: ns))%nat by (rewrite !list_sum_cons; cbn; lia).
    rewrite app_nil_r, app_assoc. reflexivity.
Qed.

Lemma cat_onto_ok post ts ns : ts <> [] -> map tsh ts = map (fun n => n :: post) ns ->
  cat_onto (mkT [0%nat] []) ts = Ok (mkT (list_sum ns :: post) (concat (map tdat ts))).
Proof.
  destruct ts as [|t ts]; [congruence|]. intros _ E. destruct ns as [|n ns]; [discriminate|]. cbn [map] in E. injection E as E1 E2.
  cbn [cat_onto]. unfold torch_cat. cbn [map tsh]. rewrite E1.
  assert (C : cat_shape 0 [[0%nat]; n :: post] = Ok (n :: post)).
  { destruct (list_eq_dec Nat.eq_dec (n :: post) [0%nat]) as [e|ne].
    - rewrite e. reflexivity.
    - rewrite <- (Nat.add_0_r n) at 2. change (n + 0)%nat with (list_sum [n]). rewrite <- (cat_shape0 post [n]) by discriminate. unfold cat_shape. cbn [filter map].
      replace (shape_eqb [0%nat] [0%nat]) with true by reflexivity. cbn [negb].
      unfold shape_eqb at 1 2. destruct (list_eq_dec Nat.eq_dec (n :: post) [0%nat]); [contradiction|]. reflexivity. }
  rewrite C. cbn [rbind concat map tdat]. rewrite (cat_onto_acc post ts n _ ns E2). rewrite list_sum_cons. rewrite app_nil_r. cbn [app]. reflexivity.
Qed.
