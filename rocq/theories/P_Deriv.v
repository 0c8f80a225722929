(** The derivatives in the specification of back-propagation (property C44). *)
From Coq Require Import QArith String Lia.
From Verif Require Import Util Modular S_Ring S_Tensor S_Bil S_Spdz S_Fss S_Sort S_Autograd M_Torch M_Encoder M_Tensor M_Share M_Spdz
  M_Store M_Fss M_Engine M_Approx M_Grad M_Static M_Autograd S_Back L_Torch L_Tensor L_Share L_Bil L_Circuit L_Engine L_Grad L_Argmax P_Fss P_Sort P_Argmax L_Autograd L_Back L_Back2 P_Autograd.
Local Open Scope Z_scope.
Local Open Scope list_scope.

(* --------------------------------------------- the derivatives of the specification *)
(** tensor [j] with element [e] changed by [h], the others as before *)
Definition nudged (env env' : tensors) (j e : nat) (h : Z) : Prop :=
  forall y, fst (look env' y) = fst (look env y) /\
    forall q, snd (look env' y) q = snd (look env y) q + b2z (match y with inl i => (Nat.eqb i j && Nat.eqb e q)%bool | inr _ => false end) * h.

Lemma pow_step a h k : exists c, (a + h) ^ Zpos k = a ^ Zpos k + h * (Zpos k * a ^ (Zpos k - 1)) + h * h * c.
Proof.
  revert k. apply Pos.peano_ind.
  - exists 0. rewrite !Z.pow_1_r. change (1 - 1) with 0. rewrite Z.pow_0_r. ring.
  - intros k (c & IH). exists (c * (a + h) + Zpos k * a ^ (Zpos k - 1)).
    rewrite Pos2Z.inj_succ, !Z.pow_succ_r by lia. rewrite IH. replace (Z.succ (Zpos k) - 1) with (Z.succ (Zpos k - 1)) by lia.
    rewrite Z.pow_succ_r by lia. assert (E : a ^ Zpos k = a * a ^ (Zpos k - 1)).
    { rewrite <- Z.pow_succ_r by lia. f_equal. lia. }
    rewrite E. unfold Z.succ. ring.
Qed.

Lemma sumn_one n r k (f : nat -> Z) e : (e < r * k + k)%nat -> (r * k <= e)%nat -> n = k ->
  sumn n (fun t => b2z (Nat.eqb e (r * k + t)) * f t) = f (e - r * k)%nat.
Proof.
  intros H1 H2 ->. rewrite <- (sumn_pick k (e - r * k) f) by lia. apply sumn_ext. intros t Ht. f_equal. f_equal.
  destruct (Nat.eqb_spec e (r * k + t)), (Nat.eqb_spec t (e - r * k)); try reflexivity; lia.
Qed.
Lemma sumn_zero n (f : nat -> Z) : (forall t, (t < n)%nat -> f t = 0) -> sumn n f = 0.
Proof. intros H. rewrite (sumn_ext n f (fun _ => 0 * 0)) by auto. rewrite sumn_scale. reflexivity. Qed.
Lemma sumn_plus n (f g : nat -> Z) : sumn n (fun t => f t + g t) = sumn n f + sumn n g.
Proof. unfold sumn. apply zsum_map_add. Qed.

(** what [jac] calls derivatives: changing element [e] of tensor [j] by [h] changes the result by
    [h] times the sum of the derivatives for the operands that are [j], up to a multiple of [h * h]
    (for relu: exactly, if the sign stays the same) *)
Theorem C44_derivatives : forall s env env' st so v v' j e h,
  yields s env st so v -> yields s env' st so v' -> nudged env env' j e h -> (e < numel (fst (look env (inl j))))%nat ->
  (match st with PLeaf _ _ => False | PUn FRelu _ => 0 < snd (look env (inl j)) e * (snd (look env (inl j)) e + h) | _ => True end) ->
  forall p, (p < numel so)%nat -> exists c,
    v' p = v p + h * zsum (map (fun k => match nth_error (operands st) k with Some i => if Nat.eqb i j then jac env so st k p e else 0 | None => 0 end)
                               (seq 0 (length (operands st)))) + h * h * c.
Proof.
  intros s env env' st so v v' j e h HY HY' HN He HR p Hp.
  destruct st as [x b|f i|f i y]; [contradiction| |].
  - (* one operand *)
    destruct (HN (inl i)) as [NS NV]. cbn [operands length seq map nth_error zsum].
    inversion HY; subst; inversion HY'; subst; cbn [jac].
    + (* sum *)
      exists 0. rewrite NS. rewrite (sumn_ext _ _ _ (fun q _ => NV q)), sumn_plus. cbv beta. destruct (Nat.eqb_spec i j) as [->|NE]; cbn [andb b2z].
      * rewrite (sumn_pick' _ e (fun _ => h)) by auto. ring.
      * rewrite (sumn_zero _ (fun q => 0 * h)) by (intros; ring). ring.
    + (* t *)
      exists 0. rewrite NV. match goal with A : fst (look env (inl i)) = [?m; ?n] |- _ => rewrite A end. destruct (Nat.eqb_spec i j) as [->|NE]; cbn [andb b2z]; ring.
    + (* reshape *)
      exists 0. rewrite NV. destruct (Nat.eqb_spec i j) as [->|NE]; cbn [andb b2z]; ring.
    + (* pow *)
      rewrite NV. destruct (Nat.eqb_spec i j) as [->|NE]; cbn [andb b2z].
      * destruct (Nat.eqb_spec e p) as [->|NE']; cbn [b2z].
        -- destruct (pow_step (snd (look env (inl j)) p) h k) as (c & E). exists c. rewrite Z.mul_1_l, E. ring.
        -- exists 0. rewrite Z.mul_0_l, Z.add_0_r. ring.
      * exists 0. rewrite Z.mul_0_l, Z.add_0_r. ring.
    + (* relu *)
      exists 0. rewrite NV. destruct (Nat.eqb_spec i j) as [->|NE]; cbn [andb b2z].
      * destruct (Nat.eqb_spec e p) as [->|NE']; cbn [b2z]; [|rewrite Z.mul_0_l, Z.add_0_r; ring].
        rewrite !Z.mul_1_l. set (a := snd (look env (inl j)) p) in *. destruct (Z.ltb_spec 0 a) as [L|L]; cbn [b2z].
        -- assert (0 < a + h) by (apply (Z.mul_pos_cancel_l a); lia). lia.
        -- assert (a + h < 0) by nia. lia.
      * rewrite Z.mul_0_l, Z.add_0_r. ring.
  - (* two operands *)
    destruct (HN (inl i)) as [NS NV]. destruct (HN y) as [MS MV].
    set (di := Nat.eqb i j) in *. set (dy := match y with inl i => Nat.eqb i j | inr _ => false end).
    assert (VI : forall q, snd (look env' (inl i)) q = snd (look env (inl i)) q + b2z di * b2z (Nat.eqb e q) * h).
    { intros q. rewrite NV. destruct di, (Nat.eqb e q); reflexivity. }
    assert (VY : forall q, snd (look env' y) q = snd (look env y) q + b2z dy * b2z (Nat.eqb e q) * h).
    { intros q. rewrite MV. unfold dy. destruct y as [j'|]; [|reflexivity]. destruct (Nat.eqb j' j), (Nat.eqb e q); reflexivity. }
    assert (SUM : zsum (map (fun k => match nth_error (operands (PBin f i y)) k with Some i0 => if Nat.eqb i0 j then jac env so (PBin f i y) k p e else 0 | None => 0 end)
             (seq 0 (length (operands (PBin f i y))))) = b2z di * jac env so (PBin f i y) 0 p e + b2z dy * jac env so (PBin f i y) 1 p e).
    { unfold di, dy. destruct y as [j'|q]; cbn [operands length seq map nth_error zsum].
      - destruct (Nat.eqb i j), (Nat.eqb j' j); cbn [b2z]; ring.
      - destruct (Nat.eqb i j); cbn [b2z]; ring. }
    rewrite SUM. clear SUM NV MV.
    inversion HY; subst; inversion HY'; subst; cbn [jac]; rewrite ?NS, ?MS.
    + exists 0. rewrite VI, VY. ring.
    + exists 0. rewrite VI, VY. ring.
    + eexists (b2z di * b2z dy * b2z (Nat.eqb e (bpos (fst (look env (inl i))) so p)) * b2z (Nat.eqb e (bpos (fst (look env y)) so p))). rewrite VI, VY. ring.
    + (* matmul *)
      match goal with A : fst (look env (inl i)) = [m; k] |- _ => rename A into HX end.
      match goal with A : fst (look env y) = [k; n] |- _ => rename A into HYS end.
      assert (EQ : [k0; n] = [k; n]) by congruence. injection EQ as ->.
      cbn [numel fold_right] in Hp. rewrite Nat.mul_1_r in Hp. assert (n <> 0)%nat by (intros ->; lia).
      set (r := (p / n)%nat). set (c := (p mod n)%nat). assert (Hc : (c < n)%nat) by (apply Nat.mod_upper_bound; auto).
      exists (sumn k (fun t => b2z di * b2z dy * b2z (Nat.eqb e (r * k + t)) * b2z (Nat.eqb e (t * n + c)))).
      rewrite (sumn_ext k _ (fun t => snd (look env (inl i)) (r * k + t)%nat * snd (look env y) (t * n + c)%nat +
        (h * b2z di * (b2z (Nat.eqb e (r * k + t)) * snd (look env y) (t * n + c)%nat) +
        (h * b2z dy * (b2z (Nat.eqb e (t * n + c)) * snd (look env (inl i)) (r * k + t)%nat) +
         h * h * (b2z di * b2z dy * b2z (Nat.eqb e (r * k + t)) * b2z (Nat.eqb e (t * n + c)))))))
        by (intros t Ht; rewrite VI, VY; ring).
      rewrite !sumn_plus, !sumn_scale. rewrite HYS.
      assert (A0 : di = true -> sumn k (fun t => b2z (Nat.eqb e (r * k + t)) * snd (look env y) (t * n + c)%nat) =
                   b2z (Nat.eqb (e / k) r) * snd (look env y) (e mod k * n + c)%nat).
      { intros Di. apply Nat.eqb_eq in Di. subst j. rewrite HX in He. cbn [numel fold_right] in He. assert (k <> 0)%nat by (intros ->; lia).
        pose proof (Nat.div_mod e k H0) as DM. pose proof (Nat.mod_upper_bound e k H0) as MU. destruct (Nat.eqb_spec (e / k) r) as [ER|NE]; cbn [b2z].
        - rewrite (sumn_one k r k (fun t => snd (look env y) (t * n + c)%nat)) by nia. replace (e - r * k)%nat with (e mod k)%nat by nia. ring.
        - rewrite sumn_zero; [ring|]. intros t Ht. destruct (Nat.eqb_spec e (r * k + t)) as [EE|]; cbn [b2z]; [|ring]. exfalso. apply NE.
          rewrite EE, Nat.div_add_l, Nat.div_small by auto. lia. }
      assert (A1 : dy = true -> sumn k (fun t => b2z (Nat.eqb e (t * n + c)) * snd (look env (inl i)) (r * k + t)%nat) =
                   b2z (Nat.eqb (e mod n) c) * snd (look env (inl i)) (r * k + e / n)%nat).
      { intros Dy. unfold dy in Dy. destruct y as [j'|]; [|discriminate]. apply Nat.eqb_eq in Dy. subst j'. rewrite HYS in He. cbn [numel fold_right] in He.
        pose proof (Nat.div_mod e n H) as DM. pose proof (Nat.mod_upper_bound e n H) as MU. destruct (Nat.eqb_spec (e mod n) c) as [EC|NE]; cbn [b2z].
        - assert (LT : (e / n < k)%nat) by (apply Nat.div_lt_upper_bound; lia).
          rewrite <- (sumn_pick' k (e / n) (fun t => snd (look env (inl i)) (r * k + t)%nat) LT) at 1. rewrite <- sumn_scale. apply sumn_ext. intros t Ht.
          replace (Nat.eqb e (t * n + c)) with (Nat.eqb (e / n) t); [ring|]. destruct (Nat.eqb_spec (e / n) t) as [ET|NT], (Nat.eqb_spec e (t * n + c)) as [EE|NEE]; try reflexivity; exfalso.
          + apply NEE. nia.
          + apply NT. rewrite EE, Nat.div_add_l, Nat.div_small by auto. lia.
        - rewrite sumn_zero; [ring|]. intros t Ht. destruct (Nat.eqb_spec e (t * n + c)) as [EE|]; cbn [b2z]; [|ring]. exfalso. apply NE.
          rewrite EE, Nat.add_comm, Nat.mod_add, Nat.mod_small by auto. reflexivity. }
      fold r c. destruct di; cbn [b2z]; [rewrite A0 by reflexivity|]; (destruct dy; cbn [b2z]; [rewrite A1 by reflexivity|]); ring.
Qed.
Print Assumptions C44_derivatives.

(** x x for x = 3, 4 and for x = 3, 4 + 2 *)
Example C44_derivatives_witness :
  let env := [([2%nat], fun q => nth q [3; 4] 0)] in
  let env' := [([2%nat], fun q => nth q [3; 4] 0 + b2z (Nat.eqb 1 q) * 2)] in
  nudged env env' 0 1 2 /\
  exists v v', yields int_s env (PBin FMul 0 (inl 0%nat)) [2%nat] v /\ yields int_s env' (PBin FMul 0 (inl 0%nat)) [2%nat] v' /\
    v 1%nat = 16 /\ v' 1%nat = 36 /\ jac env [2%nat] (PBin FMul 0 (inl 0%nat)) 0 1 1 = 4 /\ jac env [2%nat] (PBin FMul 0 (inl 0%nat)) 1 1 1 = 4.
Proof.
  intros env env'. split.
  - intros [[|[|i]]|q]; (split; [reflexivity|]); intros q'; cbn [look nth snd env env' Nat.eqb andb b2z]; [|ring|ring|ring].
    destruct q' as [|[|q']]; reflexivity.
  - do 2 eexists. split; [eapply (y_mul _ _ 0 (inl 0%nat) [2%nat]); [cbn; lia|cbn; lia|brd|dims]|].
    split; [eapply (y_mul _ _ 0 (inl 0%nat) [2%nat]); [cbn; lia|cbn; lia|brd|dims]|]. repeat split; vm_compute; reflexivity.
Qed.
