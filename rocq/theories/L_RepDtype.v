(** Replicated sharings with tensors of different dtypes. *)
From Coq Require Import Lia List Bool Setoid.
From Verif Require Import Util Modular S_Ring S_Tensor M_Torch M_Dtype M_RepDtype M_Share L_Torch L_Rep2 L_Dtype.
Import ListNotations.
Local Open Scope Z_scope.
Local Open Scope list_scope.

Definition tot (e : nat) (l : list dten) : Z := zsum (map (fun t => nth e (snd t) 0) l).

Lemma fold64 m : forall l a, length a = m -> Forall (fun t => length (snd t) = m) l -> typed TI64 a ->
  exists b, fold_left dadd l (TI64, a) = (TI64, b) /\ length b = m /\ typed TI64 b /\
    forall e, (e < m)%nat -> nth e b 0 == nth e a 0 + tot e l [mod 2^64].
Proof.
  induction l as [|t l IH]; intros a La HL Ta; cbn [fold_left].
  - exists a. repeat split; auto. intros e He. unfold tot. cbn. rewrite Z.add_0_r. reflexivity.
  - inversion HL as [|? ? Lt HL']; subst. destruct t as [d v]. cbn [snd] in Lt.
    assert (E : dadd (TI64, a) (d, v) = (TI64, cadd TI64 a v)) by (unfold dadd; cbn [fst snd]; rewrite promote_64; reflexivity).
    rewrite E. destruct (IH (cadd TI64 a v)) as (b & E' & Lb & Tb & Hb).
    + unfold cadd. rewrite map2_length, Lt. apply Nat.min_id.
    + exact HL'.
    + unfold cadd, typed. apply Forall_forall. intros z Hz.
      destruct (In_nth _ _ 0 Hz) as (i & Hi & <-). rewrite map2_length, Lt, Nat.min_id in Hi.
      rewrite (nth_map2 _ 0 0 0) by lia. apply (cast_cong TI64); [discriminate|]. apply (cast_eqmod TI64). discriminate.
    + exists b. repeat split; auto. intros e He. rewrite (Hb e He). rewrite nth_cadd by lia.
      pose proof (cast_eqmod TI64 (nth e a 0 + nth e v 0) ltac:(discriminate)) as C. change (width TI64) with (2^64) in C.
      rewrite C. unfold tot. cbn [map zsum snd]. rewrite Z.add_assoc. reflexivity.
Qed.

Lemma skipn_diffs d : forall j t p, (j <= length t)%nat -> skipn j (diffs d p t) = diffs d (nth j (p :: t) []) (skipn j t).
Proof.
  induction j as [|j IH]; intros [|r t] p H; cbn [skipn diffs nth length] in *; auto; try lia.
  rewrite IH by lia. reflexivity.
Qed.

(** differences of draws from the lower half of the type are exact *)
Definition low (d : dtype) (m : nat) (r : list Z) : Prop := length r = m /\ Forall (fun z => 0 <= z /\ forall y, 0 <= y <= z -> cast d y = y /\ cast d (- y) = - y) r.

Lemma low_nth d m r e : low d m r -> (e < m)%nat -> 0 <= nth e r 0 /\ forall y, 0 <= y <= nth e r 0 -> cast d y = y /\ cast d (- y) = - y.
Proof. intros [L F] H. rewrite Forall_forall in F. apply F. apply nth_In. lia. Qed.

Lemma low_diff d m a b e : low d m a -> low d m b -> (e < m)%nat -> nth e (csub d a b) 0 = nth e a 0 - nth e b 0.
Proof.
  intros Ha Hb H. rewrite nth_csub by (destruct Ha, Hb; lia).
  destruct (low_nth d m a e Ha H) as [A1 A2]. destruct (low_nth d m b e Hb H) as [B1 B2].
  destruct (Z.le_ge_cases (nth e b 0) (nth e a 0)) as [C|C].
  - apply A2. lia.
  - replace (nth e a 0 - nth e b 0) with (- (nth e b 0 - nth e a 0)) by lia. apply B2. lia.
Qed.

Lemma tot_diffs d m e : (e < m)%nat -> forall j t p, (j <= length t)%nat -> Forall (low d m) (p :: t) ->
  zsum (map (fun r => nth e r 0) (firstn j (diffs d p t))) = nth e (nth j (p :: t) []) 0 - nth e p 0.
Proof.
  intros He. induction j as [|j IH]; intros [|r t] p Hj HF; cbn [firstn diffs map zsum nth length] in *; try lia.
  inversion HF as [|? ? Hp HF']; subst. inversion HF' as [|? ? Hr _]; subst.
  rewrite (IH t r) by (auto; lia). rewrite (low_diff d m) by auto. lia.
Qed.

Lemma fold_diffs d m : d <> TBool -> forall t r p, Forall (fun x => length x = m) (p :: r :: t) ->
  fold_left dadd (map (fun x => (d, x)) (diffs d r t)) (d, csub d r p) = (d, csub d (last t r) p).
Proof.
  intros Hd. induction t as [|q t IH]; intros r p HF; cbn [diffs map fold_left]; [reflexivity|].
  inversion HF as [|? ? Lp HF1]; subst. inversion HF1 as [|? ? Lr HF2]; subst. inversion HF2 as [|? ? Lq HF3]; subst.
  rewrite dadd_same.
  assert (E : cadd d (csub d r p) (csub d q r) = csub d q p).
  { unfold cadd, csub. apply (nth_ext _ _ 0 0).
    - rewrite !map2_length. lia.
    - intros i Hi. rewrite !map2_length in Hi. rewrite !(nth_map2 _ 0 0 0) by (rewrite ?map2_length; lia).
      apply cast_cong; [exact Hd|]. rewrite (cast_eqmod d (nth i r 0 - nth i p 0) Hd), (cast_eqmod d (nth i q 0 - nth i r 0) Hd).
      replace (nth i r 0 - nth i p 0 + (nth i q 0 - nth i r 0)) with (nth i q 0 - nth i p 0) by lia. reflexivity. }
  rewrite E, (IH q p) by (constructor; auto). rewrite last_cons_any. reflexivity.
Qed.

Lemma typed_csub64 a b : typed TI64 (csub TI64 a b).
Proof.
  unfold typed, csub. apply Forall_forall. intros z Hz. destruct (In_nth _ _ 0 Hz) as (i & Hi & <-). rewrite map2_length in Hi.
  rewrite (nth_map2 _ 0 0 0) by lia. apply (cast_cong TI64); [discriminate|]. apply (cast_eqmod TI64). discriminate.
Qed.

Lemma typed_eq64 m a b : length a = m -> length b = m -> typed TI64 a -> typed TI64 b ->
  (forall e, (e < m)%nat -> nth e a 0 == nth e b 0 [mod 2^64]) -> a = b.
Proof.
  intros La Lb Ta Tb H. apply (nth_ext _ _ 0 0); [lia|]. intros e He. unfold typed in *. rewrite Forall_forall in Ta, Tb.
  rewrite <- (Ta (nth e a 0)) by (apply nth_In; lia). rewrite <- (Tb (nth e b 0)) by (apply nth_In; lia).
  apply (cast_cong TI64); [discriminate|]. apply H. lia.
Qed.

(** the shares added up in any rotation give the secret *)
Lemma rotation_sum d m v r0 t k : d <> TBool -> length v = m -> typed TI64 v -> Forall (low d m) (r0 :: t) ->
  let shs := (d, r0) :: map (fun r => (d, r)) (diffs d r0 t) ++ [(TI64, csub TI64 v (last t r0))] in
  (k < length shs)%nat -> d_reconstruct (skipn k shs ++ firstn k shs) = (TI64, v).
Proof.
  intros Hd Lv Tv HF shs Hk.
  set (D := r0 :: diffs d r0 t). set (w := (TI64, csub TI64 v (last t r0))) in *.
  assert (ES : shs = map (fun r => (d, r)) D ++ [w]) by reflexivity.
  assert (LD : length D = S (length t)) by (unfold D; cbn; rewrite diffs_length; reflexivity).
  assert (LS : length shs = S (S (length t))) by (rewrite ES, app_length, map_length, LD; cbn; lia).
  assert (HL : Forall (fun x => length x = m) (r0 :: t)).
  { eapply Forall_impl; [|exact HF]. intros x [Hx _]. exact Hx. }
  assert (LL : low d m (last t r0)). { inversion HF; subst. apply Forall_last; auto. }
  assert (HDl : Forall (fun x => length x = m) D).
  { unfold D. constructor; [inversion HL; auto|]. clear - HL. revert r0 HL. induction t as [|q t IH]; intros r0 HL; cbn [diffs]; constructor.
    - inversion HL as [|? ? H1 H2]; subst. inversion H2; subst. unfold csub. rewrite map2_length. lia.
    - apply IH. inversion HL; auto. }
  assert (Lw : length (snd w) = m). { unfold w. cbn [snd]. unfold csub. rewrite map2_length. destruct LL. lia. }
  assert (TF : forall j e, (e < m)%nat -> (j <= S (length t))%nat ->
     tot e (map (fun r => (d, r)) (firstn j D)) = if Nat.eqb j 0 then 0 else nth e (nth (j - 1) (r0 :: t) []) 0).
  { intros j e He Hj. unfold tot. rewrite map_map. cbn [snd]. destruct j as [|j]; [reflexivity|].
    cbn [Nat.eqb]. unfold D. cbn [firstn map zsum]. rewrite (tot_diffs d m e He j t r0) by (auto; lia).
    replace (S j - 1)%nat with j by lia. lia. }
  assert (W64 : forall e, (e < m)%nat -> nth e (snd w) 0 == nth e v 0 - nth e (last t r0) 0 [mod 2^64]).
  { intros e He. unfold w. cbn [snd]. rewrite nth_csub by (destruct LL; lia). apply (cast_eqmod TI64). discriminate. }
  assert (LAST : forall e, nth e (nth (length t) (r0 :: t) []) 0 = nth e (last t r0) 0).
  { intros e. f_equal. clear. revert r0. induction t as [|q t IH]; intros r0; [reflexivity|]. rewrite last_cons_any. rewrite <- (IH q). reflexivity. }
  assert (FL : Forall (fun u : dten => length (snd u) = m) (map (fun r => (d, r)) (firstn k D))).
  { apply Forall_forall. intros u Hu. apply in_map_iff in Hu. destruct Hu as (x & <- & Hx). cbn [snd].
    rewrite Forall_forall in HDl. apply HDl. rewrite <- (firstn_skipn k D). apply in_or_app. auto. }
  destruct (Nat.eq_dec k (S (length t))) as [EK|NK].
  - (* the rotation starts with the int64 share *)
    assert (E1 : skipn k shs ++ firstn k shs = w :: map (fun r => (d, r)) (firstn k D)).
    { rewrite ES, skipn_app, firstn_app, map_length, LD, EK, Nat.sub_diag. rewrite skipn_all2 by (rewrite map_length; lia).
      rewrite skipn_O, firstn_O, app_nil_r, firstn_map. reflexivity. }
    rewrite E1. cbn [d_reconstruct]. unfold w at 1. cbn [dtype_eqb].
    destruct (fold64 m (map (fun r => (d, r)) (firstn k D)) (snd w) Lw FL) as (b & Eb & Lb & Tb & Hb); [apply typed_csub64|].
    cbn [snd w] in Eb. rewrite Eb. f_equal. apply (typed_eq64 m); auto. intros e He. rewrite (Hb e He).
    rewrite (TF k e He) by lia. subst k. cbn [Nat.eqb]. replace (S (length t) - 1)%nat with (length t) by lia.
    rewrite LAST, (W64 e He). replace (nth e v 0 - nth e (last t r0) 0 + nth e (last t r0) 0) with (nth e v 0) by lia. reflexivity.
  - assert (Hk' : (k <= length t)%nat) by lia.
    assert (E1 : skipn k shs ++ firstn k shs = map (fun r => (d, r)) (skipn k D) ++ w :: map (fun r => (d, r)) (firstn k D)).
    { rewrite ES, skipn_app, firstn_app, map_length, LD. replace (k - S (length t))%nat with 0%nat by lia.
      rewrite skipn_O, firstn_O, app_nil_r, skipn_map, firstn_map, <- app_assoc. reflexivity. }
    rewrite E1.
    assert (PRE : exists c, length c = m /\ d_reconstruct (map (fun r => (d, r)) (skipn k D) ++ w :: map (fun r => (d, r)) (firstn k D)) =
        fold_left dadd (map (fun r => (d, r)) (firstn k D)) (dadd (d, c) w) /\
        forall e, (e < m)%nat -> nth e c 0 = nth e (last t r0) 0 - (if Nat.eqb k 0 then 0 else nth e (nth (k - 1) (r0 :: t) []) 0)).
    { destruct k as [|j].
      - exists (last t r0). split; [apply LL|]. split; [|intros e He; cbn [Nat.eqb]; lia].
        unfold D. cbn [skipn map app]. cbn [d_reconstruct]. rewrite dtype_eqb_bool by auto. rewrite fold_left_app.
        rewrite (sum_diffs d m); auto; [inversion HL; auto|].
        inversion HF as [|? ? _ HF']; subst. eapply Forall_impl; [|exact HF']. intros x [Lx Hx]. split; [exact Lx|].
        unfold typed. eapply Forall_impl; [|exact Hx]. intros z [Hz1 Hz2]. apply Hz2. lia.
      - unfold D. cbn [skipn]. rewrite skipn_diffs by lia.
        assert (Hj : (j < length t)%nat) by lia.
        destruct (skipn j t) as [|r t'] eqn:ET.
        { assert (length (skipn j t) = 0%nat) by (rewrite ET; reflexivity). rewrite skipn_length in H. lia. }
        set (p := nth j (r0 :: t) []).
        assert (LT : last t r0 = last t' r).
        { rewrite <- (firstn_skipn j t), ET. clear. generalize (firstn j t). intros l. revert r0. induction l as [|x l IH]; intros r0.
          - cbn [app]. apply last_cons_any.
          - cbn [app]. rewrite last_cons_any. apply IH. }
        assert (Hp : low d m p). { rewrite Forall_forall in HF. apply HF. apply nth_In. cbn [length]. lia. }
        assert (Hrt : Forall (low d m) (r :: t')).
        { rewrite <- ET. rewrite Forall_forall in *. intros x Hx. apply HF. right. rewrite <- (firstn_skipn j t). apply in_or_app. auto. }
        exists (csub d (last t r0) p). split; [unfold csub; rewrite map2_length; destruct LL, Hp; lia|]. split.
        + cbn [diffs map app d_reconstruct]. rewrite dtype_eqb_bool by auto. rewrite fold_left_app.
          match goal with |- fold_left dadd _ ?A = _ => assert (EA : A = (d, csub d (last t' r) p)) end.
          { apply (fold_diffs d m Hd). constructor; [apply Hp|]. eapply Forall_impl; [|exact Hrt]. intros x [Hx _]. exact Hx. }
          rewrite EA.
          rewrite LT. reflexivity.
        + intros e He. rewrite (low_diff d m) by auto. cbn [Nat.eqb]. replace (S j - 1)%nat with j by lia. reflexivity. }
    destruct PRE as (c & Lc & -> & Hc).
    assert (E2 : dadd (d, c) w = (TI64, cadd TI64 c (snd w))) by (unfold dadd, w; cbn [fst snd]; rewrite promote_64'; reflexivity).
    rewrite E2. destruct (fold64 m (map (fun r => (d, r)) (firstn k D)) (cadd TI64 c (snd w))) as (b & Eb & Lb & Tb & Hb); auto.
    { unfold cadd. rewrite map2_length. lia. }
    { unfold cadd, typed. apply Forall_forall. intros z Hz. destruct (In_nth _ _ 0 Hz) as (i & Hi & <-). rewrite map2_length in Hi.
      rewrite (nth_map2 _ 0 0 0) by lia. apply (cast_cong TI64); [discriminate|]. apply (cast_eqmod TI64). discriminate. }
    rewrite Eb. f_equal. apply (typed_eq64 m); auto. intros e He. rewrite (Hb e He), nth_cadd by lia.
    rewrite (TF k e He) by lia. pose proof (cast_eqmod TI64 (nth e c 0 + nth e (snd w) 0) ltac:(discriminate)) as C.
    change (width TI64) with (2^64) in C. rewrite C, (Hc e He), (W64 e He).
    match goal with |- ?x == _ [mod _] => replace x with (nth e v 0) by lia end. reflexivity.
Qed.

(* ------------------------------------------------------------------ views *)
Lemma rotation_list shs k : (1 <= length shs)%nat -> (k < length shs)%nat ->
  exists a, nth_error (d_view shs k) 0 = (if Nat.eqb (length shs) 1 then None else Some a) /\
    (length shs <> 1%nat -> a :: d_view shs ((k + 1) mod length shs) = skipn k shs ++ firstn k shs).
Proof.
  intros H1 Hk. exists (nth k shs (TI64, [])). set (n := length shs) in *.
  unfold d_view. fold n. split.
  - destruct n as [|[|n']]; [lia|reflexivity|]. replace (S (S n') - 1)%nat with (S n') by lia. cbn [seq map nth_error Nat.eqb].
    rewrite Nat.add_0_r, Nat.mod_small by lia. reflexivity.
  - intros Hn. assert (LR : length (skipn k shs ++ firstn k shs) = n) by (rewrite app_length, skipn_length, firstn_length; fold n; lia).
    apply (@nth_ext dten _ _ (TI64, []) (TI64, [])).
    + rewrite LR. cbn [length]. rewrite map_length, seq_length. lia.
    + cbn [length]. rewrite map_length, seq_length. intros i Hi.
      assert (ER : nth i (skipn k shs ++ firstn k shs) (TI64, []) = nth ((k + i) mod n) shs (TI64, [])).
      { destruct (Nat.lt_ge_cases i (n - k)) as [C|C].
        - rewrite app_nth1 by (rewrite skipn_length; fold n; lia). rewrite Nat.mod_small by lia.
          rewrite <- (firstn_skipn k shs) at 2. rewrite app_nth2 by (rewrite firstn_length; fold n; lia).
          f_equal. rewrite firstn_length. fold n. lia.
        - rewrite app_nth2 by (rewrite skipn_length; fold n; lia). rewrite skipn_length. fold n.
          replace ((k + i) mod n)%nat with (k + i - n)%nat.
          2:{ replace (k + i)%nat with (k + i - n + 1 * n)%nat at 2 by lia. rewrite Nat.mod_add by lia. rewrite Nat.mod_small by lia. reflexivity. }
          rewrite <- (firstn_skipn k shs) at 2. rewrite app_nth1 by (rewrite firstn_length; fold n; lia).
          f_equal. lia. }
      rewrite ER. destruct i as [|i].
      * cbn [nth]. rewrite Nat.add_0_r, Nat.mod_small by lia. reflexivity.
      * cbn [nth]. etransitivity.
        { etransitivity; [apply nth_indep; rewrite map_length, seq_length; lia|].
          apply (map_nth (fun i => nth (((k + 1) mod n + i) mod n) shs (TI64, [])) (seq 0 (n - 1)) 0%nat i). }
        rewrite seq_nth by lia. cbn [Nat.add]. rewrite Nat.add_mod_idemp_l by lia. f_equal. f_equal. lia.
Qed.

Lemma views_nth shs k : (k < length shs)%nat -> nth_error (map (d_view shs) (seq 0 (length shs))) k = Some (d_view shs k).
Proof.
  intros H. rewrite nth_error_map. assert (E : nth_error (seq 0 (length shs)) k = Some k).
  { rewrite (nth_error_nth' _ 0%nat) by (rewrite seq_length; exact H). rewrite seq_nth by exact H. reflexivity. }
  rewrite E. reflexivity.
Qed.

Lemma d_differ_same (t : dten) : d_differ t t = false.
Proof. destruct t as [d v]. unfold d_differ. cbn [snd]. induction v; cbn; [reflexivity|]. rewrite Z.eqb_refl. exact IHv. Qed.

(** if the shares added up in every rotation give one value, it is reconstructed in both modes *)
Lemma views_reconstruct ring shs v mal : ring <> 2 -> ring <> PRIME -> (2 <= length shs)%nat ->
  (forall k, (k < length shs)%nat -> d_reconstruct (skipn k shs ++ firstn k shs) = v) ->
  rd_reconstruct mal ring (map (d_view shs) (seq 0 (length shs))) = Ok v.
Proof.
  intros R2 RP Hn H. set (x := map (d_view shs) (seq 0 (length shs))).
  assert (Lx : length x = length shs) by (unfold x; rewrite map_length, seq_length; reflexivity).
  assert (SUM : forall k, (k < length shs)%nat -> exists a, get_nth (d_view shs k) 0 = Ok a /\
            d_shares_sum ring (a :: d_view shs ((k + 1) mod length shs)) = Ok v).
  { intros k Hk. destruct (rotation_list shs k ltac:(lia) Hk) as (a & E1 & E2). exists a.
    destruct (Nat.eqb_spec (length shs) 1); [lia|]. unfold get_nth. rewrite E1. split; [reflexivity|].
    unfold d_shares_sum. destruct (Z.eqb_spec ring 2); [congruence|]. destruct (Z.eqb_spec ring PRIME); [congruence|].
    rewrite E2 by lia. rewrite H by exact Hk. reflexivity. }
  assert (NX : forall k, (k < length shs)%nat -> get_nth x k = Ok (d_view shs k)).
  { intros k Hk. unfold get_nth. unfold x. rewrite views_nth by exact Hk. reflexivity. }
  unfold rd_reconstruct. destruct x as [|p0 x'] eqn:EX; [cbn in Lx; lia|]. rewrite <- EX in *. clear EX p0 x'.
  destruct mal.
  - assert (LOOP : forall ranks val, Forall (fun k => (k < length shs)%nat) ranks -> (val = None \/ val = Some v) ->
       rd_loop ring x ranks val = Ok (match ranks with [] => val | _ => Some v end)).
    { induction ranks as [|k ranks IH]; intros val HF HV; [reflexivity|]. inversion HF as [|? ? Hk HF']; subst. cbn [rd_loop].
      rewrite Lx. rewrite (NX k Hk). cbn [rbind].
      rewrite (NX ((k + 1) mod length shs)%nat) by (apply Nat.mod_upper_bound; lia). cbn [rbind].
      destruct (SUM k Hk) as (a & -> & E). cbn [rbind]. rewrite E. cbn [rbind].
      destruct HV as [->| ->].
      - rewrite IH by auto. destruct ranks; reflexivity.
      - rewrite d_differ_same, IH by auto. destruct ranks; reflexivity. }
    rewrite LOOP; [| |left; reflexivity].
    2:{ apply Forall_forall. intros k Hk. apply in_seq in Hk. lia. }
    cbn [rbind]. rewrite Lx. destruct (length shs) as [|n]; [lia|]. reflexivity.
  - unfold rd_reconstruct_sh. rewrite (NX 0%nat), (NX 1%nat) by lia. cbn [rbind].
    destruct (SUM 0%nat ltac:(lia)) as (a & -> & E). cbn [rbind]. rewrite Nat.mod_small in E by lia. exact E.
Qed.

Lemma low_of ring d m r : get_type_from_ring ring = Ok d -> In ring [2^8; 2^16; 2^32; 2^64] -> length r = m ->
  Forall (fun z => 0 <= z < ring / 2) r -> low d m r.
Proof.
  intros E HR L F. split; [exact L|]. eapply Forall_impl; [|exact F]. intros z [H1 H2]. split; [exact H1|]. intros y Hy.
  assert (W : forall w u, 0 < w -> - 2^(w-1) <= u < 2^(w-1) -> wrap w u = u).
  { intros w u Hw Hu. unfold wrap. assert (2^w = 2 * 2^(w-1)) by (rewrite <- Z.pow_succ_r by lia; f_equal; lia).
    rewrite Z.mod_small by lia. lia. }
  destruct HR as [<-|[<-|[<-|[<-|[]]]]]; vm_compute in E; injection E as <-; cbn [cast];
    match goal with H : _ < ?q / 2 |- _ => let v := eval vm_compute in (q / 2) in change (q / 2) with v in H end;
    split; apply W; lia.
Qed.

Lemma rd_share_ok ring d v rs m mal : get_type_from_ring ring = Ok d -> In ring [2^8; 2^16; 2^32; 2^64] -> rs <> [] ->
  length v = m -> typed TI64 v -> Forall (fun r => length r = m /\ Forall (fun z => 0 <= z < ring / 2) r) rs ->
  exists x, rd_share ring v rs = Ok x /\ length x = S (length rs) /\ rd_reconstruct mal ring x = Ok (TI64, v).
Proof.
  intros E HR Hrs Lv Tv HF. destruct rs as [|r0 t]; [congruence|].
  assert (Hd : d <> TBool) by (destruct HR as [<-|[<-|[<-|[<-|[]]]]]; vm_compute in E; injection E as <-; discriminate).
  assert (LO : Forall (low d m) (r0 :: t)).
  { eapply Forall_impl; [|exact HF]. intros r [H1 H2]. apply (low_of ring); auto. }
  unfold rd_share, d_share. rewrite E. cbn [rbind]. rewrite generate_ok by auto. cbn [rbind].
  pose proof (rotation_sum d m v r0 t) as ROT. cbv zeta in ROT.
  set (shs := (d, r0) :: map (fun r => (d, r)) (diffs d r0 t) ++ [(TI64, csub TI64 v (last t r0))]) in *.
  assert (LS : length shs = S (S (length t))) by (unfold shs; cbn [length]; rewrite app_length, map_length, diffs_length; cbn; lia).
  eexists. split; [reflexivity|]. split; [rewrite map_length, seq_length; exact LS|].
  change (list (dtype * list Z)) with (list dten) in shs. apply (views_reconstruct ring shs).
  - intros ->. vm_compute in HR. intuition discriminate.
  - intros ->. vm_compute in HR. intuition discriminate.
  - apply (Nat.le_trans _ (S (S (length t)))); [lia|]. rewrite <- LS. apply le_n.
  - intros k Hk. apply ROT; auto.
Qed.

(* ------------------------------------------------------------------ sums *)
Lemma views_add ring xs ys : ring <> 2 -> ring <> PRIME -> length xs = length ys ->
  rd_add ring (map (d_view xs) (seq 0 (length xs))) (map (d_view ys) (seq 0 (length ys))) =
  Ok (map (d_view (map2 dadd xs ys)) (seq 0 (length xs))).
Proof.
  intros R2 RP HL. unfold rd_add.
  assert (EF : forall p : list dten * list dten, rmap (fun q => d_op_add ring (fst q) (snd q)) (combine (fst p) (snd p)) = Ok (map2 dadd (fst p) (snd p))).
  { intros [a b]. cbn [fst snd]. unfold d_op_add. destruct (Z.eqb_spec ring 2); [congruence|]. destruct (Z.eqb_spec ring PRIME); [congruence|].
    rewrite (rmap_ok (fun q => dadd (fst q) (snd q))). f_equal. rewrite combine_map2, map_map2. reflexivity. }
  transitivity (rmap (fun p : list dten * list dten => Ok (map2 dadd (fst p) (snd p)))
    (combine (map (d_view xs) (seq 0 (length xs))) (map (d_view ys) (seq 0 (length ys))))).
  { generalize (combine (map (d_view xs) (seq 0 (length xs))) (map (d_view ys) (seq 0 (length ys)))). intros l.
    induction l as [|p l IH]; [reflexivity|]. cbn [rmap]. rewrite EF, IH. reflexivity. }
  rewrite (rmap_ok (fun p : list dten * list dten => map2 dadd (fst p) (snd p))). f_equal.
  rewrite <- HL. rewrite combine_map2, map_map2, map2_map_l, map2_map_r, map2_same. apply map_ext. intros k. cbn [fst snd].
  assert (LM : length (map2 dadd xs ys) = length xs) by (rewrite map2_length, HL; apply Nat.min_id).
  unfold d_view. rewrite LM, <- HL, map2_map_l, map2_map_r, map2_same. apply map_ext_in. intros i Hi. apply in_seq in Hi.
  symmetry. apply (nth_map2 dadd); try (apply Nat.mod_upper_bound; lia). rewrite <- HL. apply Nat.mod_upper_bound. lia.
Qed.

Lemma csub_sum d m a b p q : d <> TBool -> length a = m -> length b = m -> length p = m -> length q = m ->
  cadd d (csub d a p) (csub d b q) = csub d (map2 Z.add a b) (map2 Z.add p q).
Proof.
  intros Hd La Lb Lp Lq. unfold cadd, csub. apply (nth_ext _ _ 0 0).
  - rewrite !map2_length. lia.
  - intros i Hi. rewrite !map2_length in Hi. rewrite !(nth_map2 _ 0 0 0) by (rewrite ?map2_length; lia).
    apply cast_cong; [exact Hd|]. rewrite (cast_eqmod d (nth i a 0 - nth i p 0) Hd), (cast_eqmod d (nth i b 0 - nth i q 0) Hd).
    replace (nth i a 0 - nth i p 0 + (nth i b 0 - nth i q 0)) with (nth i a 0 + nth i b 0 - (nth i p 0 + nth i q 0)) by lia. reflexivity.
Qed.

Lemma diffs_sum d m : d <> TBool -> forall t u p q, length t = length u -> Forall (fun r => length r = m) (p :: t) ->
  Forall (fun r => length r = m) (q :: u) ->
  map2 (cadd d) (diffs d p t) (diffs d q u) = diffs d (map2 Z.add p q) (map2 (map2 Z.add) t u).
Proof.
  intros Hd. induction t as [|r t IH]; intros [|s u] p q HL H1 H2; try discriminate; [reflexivity|]. cbn [diffs map2].
  inversion H1 as [|? ? Lp H1']; subst. inversion H2 as [|? ? Lq H2']; subst. inversion H1' as [|? ? Lr _]; subst. inversion H2' as [|? ? Ls _]; subst.
  rewrite (csub_sum d (length p)) by auto. f_equal. apply IH; auto.
Qed.

Lemma last_map2 {A B C} (f : A -> B -> C) : forall l k a b, length l = length k -> last (map2 f l k) (f a b) = f (last l a) (last k b).
Proof.
  induction l as [|x l IH]; intros [|y k] a b H; try discriminate; [reflexivity|]. cbn [map2]. rewrite !last_cons_any. apply IH.
  injection H. auto.
Qed.

(** the sum of two sharings is the sharing of the sum made with the sums of the draws, if these stay
    in the lower half of the ring *)
Lemma rd_share_add ring x y rs qs m : In ring [2^8; 2^16; 2^32; 2^64] -> rs <> [] -> length rs = length qs ->
  length x = m -> length y = m ->
  Forall (fun r => length r = m) rs -> Forall (fun r => length r = m) qs ->
  Forall (Forall (fun z => 0 <= z < ring / 2)) (map2 (map2 Z.add) rs qs) ->
  exists xs ys, rd_share ring x rs = Ok xs /\ rd_share ring y qs = Ok ys /\
    rd_add ring xs ys = rd_share ring (cadd TI64 x y) (map2 (map2 Z.add) rs qs).
Proof.
  intros HR Hrs HL Lx Ly HF HG HS. destruct rs as [|r0 t]; [congruence|]. destruct qs as [|q0 u]; [discriminate|]. injection HL as HL.
  assert (ED : exists d, get_type_from_ring ring = Ok d /\ d <> TBool).
  { destruct HR as [<-|[<-|[<-|[<-|[]]]]]; eexists; (split; [reflexivity|discriminate]). }
  destruct ED as (d & E & Hd).
  assert (R2 : ring <> 2) by (intros ->; vm_compute in HR; intuition discriminate).
  assert (RP : ring <> PRIME) by (intros ->; vm_compute in HR; intuition discriminate).
  unfold rd_share, d_share. rewrite E. cbn [rbind]. rewrite !generate_ok by auto. cbn [rbind map2].
  rewrite generate_ok by auto. cbn [rbind].
  do 2 eexists. split; [reflexivity|]. split; [reflexivity|].
  rewrite views_add; auto.
  2:{ cbn [length]. rewrite !app_length, !map_length, !diffs_length, HL. reflexivity. }
  assert (LLx : length (last t r0) = m) by (inversion HF; subst; apply (Forall_last (fun r => length r = length x)); auto).
  assert (LLy : length (last u q0) = m) by (inversion HG; subst; apply (Forall_last (fun r => length r = length x)); auto).
  assert (EQ : map2 dadd ((d, r0) :: map (fun r => (d, r)) (diffs d r0 t) ++ [(TI64, csub TI64 x (last t r0))])
                         ((d, q0) :: map (fun r => (d, r)) (diffs d q0 u) ++ [(TI64, csub TI64 y (last u q0))]) =
               (d, map2 Z.add r0 q0) :: map (fun r => (d, r)) (diffs d (map2 Z.add r0 q0) (map2 (map2 Z.add) t u)) ++
               [(TI64, csub TI64 (cadd TI64 x y) (last (map2 (map2 Z.add) t u) (map2 Z.add r0 q0)))]).
  { cbn [map2]. rewrite dadd_same, map2_app by (rewrite !map_length, !diffs_length; auto). rewrite add_diffs.
    rewrite (diffs_sum d m) by auto. cbn [map2]. rewrite dadd_same. rewrite (last_map2 (map2 Z.add)) by auto.
    f_equal; [|f_equal; f_equal; f_equal].
    - f_equal. cbn [map2] in HS. inversion HS as [|? ? H0 _]; subst. unfold cadd.
      assert (Lrq : length r0 = length q0) by (inversion HF; inversion HG; subst; lia).
      apply (nth_ext _ _ 0 0); [rewrite !map2_length; reflexivity|]. intros i Hi. rewrite map2_length in Hi.
      rewrite !(nth_map2 _ 0 0 0) by lia.
      destruct (low_of ring d _ (map2 Z.add r0 q0) E HR eq_refl H0) as [_ LO]. rewrite Forall_forall in LO.
      destruct (LO (nth i r0 0 + nth i q0 0)) as [P1 P2].
      { rewrite <- (nth_map2 Z.add 0 0 0 r0 q0 i) by lia. apply nth_In. rewrite map2_length. lia. }
      apply P2. lia.
    - rewrite (csub_sum TI64 m) by (auto; discriminate). unfold csub, cadd. apply (nth_ext _ _ 0 0).
      + rewrite !map2_length. reflexivity.
      + intros i Hi. rewrite !map2_length in Hi. rewrite !(nth_map2 _ 0 0 0) by (rewrite ?map2_length; lia).
        apply (cast_cong TI64); [discriminate|].
        pose proof (cast_eqmod TI64 (nth i x 0 + nth i y 0) ltac:(discriminate)) as C. rewrite C. reflexivity. }
  match goal with |- Ok (map (d_view ?a) (seq 0 ?n)) = Ok (map (d_view ?b) (seq 0 ?k)) => assert (EA : a = b) by exact EQ; assert (EN : n = k) end.
  { cbn [length]. rewrite !app_length, !map_length, !diffs_length, map2_length, <- HL, Nat.min_id. reflexivity. }
  rewrite EA, EN. reflexivity.
Qed.

(* ------------------------------------------------------------------ the prime field *)
Lemma reduce_prime l : forall acc, Exists (fun t : dten => fst t = TI64) l -> d_reduce d_addmodprime acc l = Err ValueError.
Proof.
  induction l as [|t l IH]; intros acc H; [inversion H|]. cbn [d_reduce]. unfold d_addmodprime at 1.
  destruct (dtype_eqb (fst acc) TU8 && dtype_eqb (fst t) TU8)%bool eqn:C; [|reflexivity]. cbn [rbind]. apply IH.
  inversion H as [? ? H0|? ? H0]; subst; [|exact H0]. rewrite H0 in C. rewrite andb_false_r in C. discriminate.
Qed.
Lemma prime_never v rs x mal : rs <> [] -> rd_share PRIME v rs = Ok x -> rd_reconstruct mal PRIME x = Err ValueError.
Proof.
  intros Hrs HX. destruct rs as [|r0 t]; [congruence|]. unfold rd_share, d_share in HX. change (get_type_from_ring PRIME) with (Ok TU8) in HX.
  cbn [rbind] in HX. rewrite generate_ok in HX by discriminate. cbn [rbind] in HX.
  match type of HX with Ok (map (d_view ?a) _) = _ => set (shs := a) in * end.
  assert (LS : length shs = S (S (length t))) by (unfold shs; cbn [length]; rewrite app_length, map_length, diffs_length; cbn; lia).
  change (list (dtype * list Z)) with (list dten) in shs.
  assert (Hn : (2 <= @length dten shs)%nat) by (apply (Nat.le_trans _ (S (S (length t)))); [lia|rewrite <- LS; apply le_n]).
  destruct (rotation_list shs 0 ltac:(lia) ltac:(lia)) as (a & E1 & E2).
  destruct (Nat.eqb_spec (@length dten shs) 1); [lia|]. specialize (E2 n). rewrite firstn_O, skipn_O, app_nil_r in E2.
  assert (SUM : d_shares_sum PRIME (a :: d_view shs ((0 + 1) mod @length dten shs)) = Err ValueError).
  { rewrite E2. unfold shs. cbn [d_shares_sum]. change (PRIME =? 2) with false. change (PRIME =? PRIME) with true. cbn iota.
    apply reduce_prime. apply Exists_exists. eexists. split; [apply in_or_app; right; left; reflexivity|reflexivity]. }
  assert (OI : forall A (p q : A), Ok p = Ok q -> p = q) by (intros ? ? ? H; injection H; auto). apply OI in HX.
  assert (Lx : length x = @length dten shs) by (rewrite <- HX, map_length, seq_length; reflexivity).
  assert (N0 : get_nth x 0 = Ok (d_view shs 0)) by (unfold get_nth; rewrite <- HX, (views_nth shs 0) by lia; reflexivity).
  assert (N1 : get_nth x ((0 + 1) mod @length dten shs) = Ok (d_view shs ((0 + 1) mod @length dten shs))).
  { unfold get_nth. rewrite <- HX, (views_nth shs) by (apply Nat.mod_upper_bound; lia). reflexivity. }
  assert (EM : ((0 + 1) mod @length dten shs)%nat = 1%nat) by (apply Nat.mod_small; lia).
  unfold rd_reconstruct. destruct x as [|p0 x'] eqn:EX; [cbn in Lx; lia|]. rewrite <- EX in *. clear EX p0 x'.
  assert (G : get_nth (d_view shs 0) 0 = Ok a) by (unfold get_nth; rewrite E1; reflexivity).
  destruct mal.
  - rewrite Lx. destruct (@length dten shs) as [|n'] eqn:EL; [lia|]. cbn [seq rd_loop]. rewrite N0. cbn [rbind].
    rewrite Lx. rewrite N1. cbn [rbind]. rewrite G. cbn [rbind]. rewrite SUM. reflexivity.
  - unfold rd_reconstruct_sh. rewrite N0. cbn [rbind]. rewrite EM in N1, SUM. rewrite N1. cbn [rbind]. rewrite G. cbn [rbind]. exact SUM.
Qed.
