(** sign, modulus, relu, hardtanh and sort on integer secrets. *)
From Coq Require Import QArith String Setoid Morphisms Sorted Permutation.
From Verif Require Import Util Modular S_Ring S_Tensor S_Wraps S_Div S_Bil S_Spdz S_Circuit S_Fss S_Sort M_Torch M_Encoder M_Tensor M_Share M_Spdz M_Store M_Fss M_Engine M_Approx
  L_Torch L_Tensor L_Encoder L_Share L_Div L_Bil L_Mul L_Circuit L_Fss2 L_Fss3 L_Engine.
Local Open Scope Z_scope.
Local Open Scope list_scope.

(** bubble sort of integers *)
Fixpoint bub (m : nat) (l : list Z) : list Z :=
  match m, l with
  | S m, a :: b :: r => Z.min a b :: bub m (Z.max a b :: r)
  | _, _ => l
  end.
Fixpoint bubs (m : nat) (l : list Z) : list Z :=
  match m with O => l | S m' => bubs m' (bub m l) end.

Lemma bub_perm m : forall l, Permutation l (bub m l).
Proof.
  induction m as [|m IH]; intros [|a [|b r]]; cbn [bub]; auto.
  rewrite <- IH. destruct (Z.le_ge_cases a b).
  - rewrite Z.min_l, Z.max_r by lia. reflexivity.
  - rewrite Z.min_r, Z.max_l by lia. apply perm_swap.
Qed.

Lemma bubs_perm m : forall l, Permutation l (bubs m l).
Proof. induction m; intros l; cbn [bubs]; auto. rewrite <- IHm. apply bub_perm. Qed.

Lemma bub_split m : forall l r, length l = S m -> exists l' x, bub m (l ++ r) = l' ++ x :: r /\
  Permutation l (l' ++ [x]) /\ (forall y, In y l -> y <= x).
Proof.
  induction m as [|m IH]; intros l r HL.
  - destruct l as [|a [|]]; try discriminate. exists [], a. cbn. split; [reflexivity|]. split; [reflexivity|]. intros y [<-|[]]. lia.
  - destruct l as [|a [|b l]]; try discriminate. cbn [app bub].
    destruct (IH (Z.max a b :: l) r) as (l' & x & E & HP & HM); [cbn in *; lia|].
    cbn [app] in E. rewrite E. exists (Z.min a b :: l'), x. split; [reflexivity|]. split.
    + cbn [app]. rewrite <- HP. destruct (Z.le_ge_cases a b).
      * rewrite Z.min_l, Z.max_r by lia. reflexivity.
      * rewrite Z.min_r, Z.max_l by lia. apply perm_swap.
    + assert (Z.max a b <= x) by (apply HM; left; auto). intros y [<-|[<-|Hy]]; [lia|lia|apply HM; right; auto].
Qed.

Lemma bubs_sorted m : forall l r, length l = S m -> StronglySorted Z.le r -> (forall x y, In x l -> In y r -> x <= y) ->
  StronglySorted Z.le (bubs m (l ++ r)).
Proof.
  induction m as [|m IH]; intros l r HL HS HB; cbn [bubs].
  - destruct l as [|a [|]]; try discriminate. cbn. constructor; auto. apply Forall_forall. intros y Hy. apply HB; auto. left; auto.
  - destruct (bub_split (S m) l r HL) as (l' & x & E & HP & HM).
    rewrite E. assert (L' : length l = length (l' ++ [x])) by (apply Permutation_length; auto).
    rewrite app_length in L'. cbn in L'.
    apply IH; [lia| |].
    + constructor; auto. apply Forall_forall. intros y Hy. apply HB; auto.
      apply (Permutation_in _ (Permutation_sym HP)). apply in_or_app. right. left. auto.
    + assert (HI : forall u, In u l' -> In u l).
      { intros u Hu. apply (Permutation_in _ (Permutation_sym HP)). apply in_or_app. auto. }
      intros u y Hu [<-|Hy]; auto.
Qed.

Lemma bubs_sorts l : StronglySorted Z.le (bubs (length l - 1) l).
Proof.
  destruct l as [|a l]; [constructor|]. pose proof (bubs_sorted (length (a :: l) - 1) (a :: l) []) as H.
  rewrite app_nil_r in H. apply H; [cbn; lia|constructor|]. intros x y _ [].
Qed.

Lemma sorted_app (R : Z -> Z -> Prop) l1 : forall l2, StronglySorted R l1 -> StronglySorted R l2 ->
  (forall x y, In x l1 -> In y l2 -> R x y) -> StronglySorted R (l1 ++ l2).
Proof.
  induction l1 as [|a l1 IH]; intros l2 H1 H2 H; cbn [app]; auto. inversion H1; subst. constructor.
  - apply IH; auto. intros x y Hx Hy. apply H; auto. right; auto.
  - apply Forall_app. split; auto. apply Forall_forall. intros y Hy. apply H; auto. left; auto.
Qed.

Lemma sorted_rev l : StronglySorted Z.le l -> StronglySorted (fun a b => b <= a) (rev l).
Proof.
  induction 1 as [|a l HS IH HF]; cbn [rev]; [constructor|]. apply sorted_app; auto.
  - constructor; [constructor|constructor].
  - intros x y Hx [<-|[]]. apply in_rev in Hx. rewrite Forall_forall in HF. auto.
Qed.

Lemma close_perm l l' : Permutation l l' -> close l -> close l'.
Proof. intros HP H a b Ha Hb. apply H; eapply Permutation_in; try apply Permutation_sym; eauto. Qed.

Section Algo.
  Context {K : Type} (alpha : K -> Z) (ev : fop -> Z -> Z -> K -> Z)
          (gen : fop -> nat -> nat -> result (list (list K))) (s : sess) (su : tri_supply) (sh : list nat).
  Hypothesis HG : backend_ok alpha ev gen.
  Hypothesis HI : int_pair s.
  Hypothesis Hsh : sh <> [].
  Hypothesis HS : supply_ok sh su.
  Let E := mpc_engine alpha ev gen s su.
  Let rep := rep s sh.
  Let Hn := proj1 HI. Let Hp := proj1 (proj2 HI). Let Hb := proj2 (proj2 HI).

  Lemma e_lin_ok o x y f g : rep f x -> rep g y -> runs (e_lin E o x y) (rep (fun e => linz o (f e) (g e))).
  Proof. intros. apply runs_lift. apply r_lin; auto. Qed.
  Lemma e_linp_ok o x f c : rep f x -> runs (e_linp E o x (NInt c)) (rep (fun e => linz o (f e) c)).
  Proof. intros. apply runs_lift. apply r_linp; auto. Qed.
  Lemma e_mulp_ok x f c : rep f x -> runs (e_mulp E x (NInt c)) (rep (fun e => f e * c)).
  Proof. intros. apply runs_lift. apply r_mulp; auto. Qed.
  Lemma e_rsub_ok x f c : rep f x -> runs (e_rsub E (NInt c) x) (rep (fun e => c - f e)).
  Proof. intros. apply runs_lift. apply r_rsub; auto. Qed.
  Lemma e_mul_ok x y f g : rep f x -> rep g y -> runs (e_mul E x y) (rep (fun e => f e * g e)).
  Proof. intros. apply r_mul with (su := su); auto; try apply HS. Qed.
  Lemma e_rel_ok r x y f g : r <> Rne -> rep f x -> rep g y -> runs (e_rel E (rop_of r) x y) (rep (fun e => b2z (relates32 r (f e) (g e)))).
  Proof. intros. apply r_rel; auto. Qed.
  Lemma e_relp_ok r x f c : r <> Rne -> rep f x -> runs (e_relp E (rop_of r) x (NInt c)) (rep (fun e => b2z (relates32 r (f e) c))).
  Proof. intros. apply r_relp with (su := su); auto; try apply HS. Qed.

  Lemma sign_ok x f : rep f x -> (forall e, (e < numel sh)%nat -> Z.abs (f e) < 2^31 - 1) -> runs (sign E x) (rep (fun e => Z.sgn (f e))).
  Proof.
    intros GX HF. unfold sign.
    eapply runs_bind; [apply (e_relp_ok Rgt); eauto; discriminate|]. intros p GP.
    eapply runs_bind; [apply (e_relp_ok Rlt); eauto; discriminate|]. intros n GN.
    eapply runs_bind; [apply e_mulp_ok; eauto|]. intros n' GN'.
    eapply runs_weaken; [apply e_lin_ok; eauto|]. intros z GZ. eapply rep_ext; [exact GZ|].
    intros e He. specialize (HF e He). cbn [linz]. rewrite !relates32_small by lia. apply eqmod_eq. cbn [relates].
    destruct (Z.ltb_spec 0 (f e)), (Z.ltb_spec (f e) 0); cbn [b2z]; lia.
  Qed.

  Lemma modulus_ok x f : rep f x -> (forall e, (e < numel sh)%nat -> Z.abs (f e) < 2^31 - 1) -> runs (modulus E x) (rep (fun e => Z.abs (f e))).
  Proof.
    intros GX HF. unfold modulus. eapply runs_bind; [apply sign_ok; eauto|]. intros sg GS.
    eapply runs_weaken; [apply e_mul_ok; eauto|]. intros z GZ. eapply rep_ext; [exact GZ|].
    intros e He. apply eqmod_eq. cbn beta. lia.
  Qed.

  Lemma relu_ok x f : rep f x -> (forall e, (e < numel sh)%nat -> Z.abs (f e) < 2^31 - 1) -> runs (relu E x) (rep (fun e => Z.max 0 (f e))).
  Proof.
    intros GX HF. unfold relu. eapply runs_bind; [apply (e_relp_ok Rge); eauto; discriminate|]. intros b GB.
    eapply runs_weaken; [apply e_mul_ok; eauto|]. intros z GZ. eapply rep_ext; [exact GZ|].
    intros e He. specialize (HF e He). cbn beta. rewrite relates32_small by lia. apply eqmod_eq. cbn [relates].
    destruct (Z.leb_spec 0 (f e)); cbn [b2z]; lia.
  Qed.

  Lemma hardtanh_ok lo hi x f : lo <= hi -> rep f x ->
    (forall e, (e < numel sh)%nat -> Z.abs (f e - lo) < 2^31 - 1 /\ Z.abs (f e - hi) < 2^31 - 1) ->
    runs (hardtanh E (NInt lo) (NInt hi) x) (rep (fun e => Z.max lo (Z.min hi (f e)))).
  Proof.
    intros HL GX HF. unfold hardtanh.
    eapply runs_bind; [apply e_linp_ok; eauto|]. intros a GA.
    eapply runs_bind; [apply relu_ok; eauto; intros e He; cbn [linz]; apply HF; auto|]. intros a' GA'.
    eapply runs_bind; [apply e_linp_ok; eauto|]. intros b GB.
    eapply runs_bind; [apply relu_ok; eauto; intros e He; cbn [linz]; apply HF; auto|]. intros b' GB'.
    eapply runs_bind; [apply e_lin_ok; eauto|]. intros i GI'.
    eapply runs_weaken; [apply e_linp_ok; eauto|]. intros z GZ. eapply rep_ext; [exact GZ|].
    intros e He. cbn [linz]. apply eqmod_eq. lia.
  Qed.

  (** sorting: every element has one value *)
  Let cst (a : Z) : mpc -> Prop := rep (fun _ => a).

  Lemma exchange_ok x y a b : cst a x -> cst b y -> Z.abs (a - b) < 2^31 - 1 ->
    runs (exchange E x y) (fun p => cst (Z.min a b) (fst p) /\ cst (Z.max a b) (snd p)).
  Proof.
    intros GX GY H. unfold exchange.
    eapply runs_bind; [apply (e_rel_ok Rgt); eauto; discriminate|]. intros c GC.
    eapply runs_bind; [apply e_rsub_ok; eauto|]. intros n GN.
    eapply runs_bind; [apply e_mul_ok; eauto|]. intros p1 G1.
    eapply runs_bind; [apply e_mul_ok; eauto|]. intros q1 G2.
    eapply runs_bind; [apply e_lin_ok; eauto|]. intros r1 G3.
    eapply runs_bind; [apply e_mul_ok; eauto|]. intros p2 G4.
    eapply runs_bind; [apply e_mul_ok; eauto|]. intros q2 G5.
    eapply runs_bind; [apply e_lin_ok; eauto|]. intros r2 G6.
    apply runs_ret. cbn [fst snd]. split; (eapply rep_ext; [eassumption|]); intros e He; cbn [linz];
      rewrite relates32_small by lia; apply eqmod_eq; cbn [relates]; destruct (Z.ltb_spec b a); cbn [b2z]; lia.
  Qed.

  Lemma bubble_ok m : forall l v, Forall2 cst v l -> close v -> runs (bubble E m l) (Forall2 cst (bub m v)).
  Proof.
    induction m as [|m IH]; intros l v H HC.
    - cbn. apply runs_ret. exact H.
    - destruct H as [|a x v l Hx H]; [apply runs_ret; constructor|].
      destruct H as [|b y v l Hy H]; [apply runs_ret; constructor; auto|]. cbn [bubble bub].
      eapply runs_bind; [apply exchange_ok; eauto; apply HC; cbn; auto|]. intros [x' y'] [G1 G2]. cbn [fst snd] in *.
      eapply runs_bind; [apply (IH (y' :: l) (Z.max a b :: v))|].
      + constructor; auto.
      + intros u t Hu Ht. apply HC.
        * destruct Hu as [<-|Hu]; [|cbn; auto]. destruct (Z.max_spec a b) as [[_ ->]|[_ ->]]; cbn; auto.
        * destruct Ht as [<-|Ht]; [|cbn; auto]. destruct (Z.max_spec a b) as [[_ ->]|[_ ->]]; cbn; auto.
      + intros r Hr. apply runs_ret. constructor; auto.
  Qed.

  Lemma bubbles_ok m : forall l v, Forall2 cst v l -> close v -> runs (bubbles E m l) (Forall2 cst (bubs m v)).
  Proof.
    induction m as [|m IH]; intros l v H HC; cbn [bubbles bubs]; [apply runs_ret; auto|].
    eapply runs_bind; [apply bubble_ok; eauto|]. intros l' H'. apply IH; auto.
    eapply close_perm; [apply bub_perm|auto].
  Qed.
End Algo.
