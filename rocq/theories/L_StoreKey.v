(** Lemmas: the keys of the triple stores determine operation and shapes. *)
From Coq Require Import String Ascii Decimal DecimalString DecimalNat DecimalFacts.
From Verif Require Import Util M_Tensor M_Store.
Local Open Scope string_scope.

Fixpoint sall (p : ascii -> bool) (s : string) : bool :=
  match s with EmptyString => true | String c r => (p c && sall p r)%bool end.
Definition stops (p : ascii -> bool) (s : string) : Prop :=
  match s with EmptyString => True | String c _ => p c = false end.

Lemma split_at p a : forall b s t, sall p a = true -> sall p b = true -> stops p s -> stops p t ->
  a ++ s = b ++ t -> a = b /\ s = t.
Proof.
  induction a as [|c a IH]; intros [|c' b] s t Ha Hb Hs Ht E; cbn in *; auto.
  - subst s. cbn in Hs. apply andb_true_iff in Hb as [Hb _]. congruence.
  - subst t. cbn in Ht. apply andb_true_iff in Ha as [Ha _]. congruence.
  - injection E as -> E. apply andb_true_iff in Ha as [_ Ha]. apply andb_true_iff in Hb as [_ Hb].
    destruct (IH b s t Ha Hb Hs Ht E) as [-> ->]. auto.
Qed.

Definition digit (c : ascii) : bool := (Nat.leb 48 (nat_of_ascii c) && Nat.leb (nat_of_ascii c) 57)%bool.
Definition plain (c : ascii) : bool := negb (Ascii.eqb c "_").

Lemma uint_digits d : sall digit (NilEmpty.string_of_uint d) = true.
Proof. induction d; cbn [NilEmpty.string_of_uint sall]; auto. Qed.
Lemma dec_digits n : sall digit (dec n) = true.
Proof. apply uint_digits. Qed.
Lemma dec_inj n m : dec n = dec m -> n = m.
Proof.
  unfold dec. intros E. apply (f_equal NilEmpty.uint_of_string) in E.
  rewrite !NilEmpty.usu in E. injection E as E.
  apply (f_equal Nat.of_uint) in E. rewrite !Unsigned.of_to in E. exact E.
Qed.

Lemma sall_app p a b : sall p (a ++ b) = (sall p a && sall p b)%bool.
Proof. induction a as [|c a IH]; cbn; auto. rewrite IH. apply andb_assoc. Qed.

Lemma digit_plain s : sall digit s = true -> sall plain s = true.
Proof.
  induction s as [|c s IH]; cbn [sall]; auto. intros H. apply andb_true_iff in H as [H1 H2].
  apply andb_true_iff. split; [|auto]. unfold plain. destruct (Ascii.eqb_spec c "_"); [|reflexivity].
  subst c. discriminate H1.
Qed.
Lemma dec_plain n : sall plain (dec n) = true.
Proof. apply digit_plain, dec_digits. Qed.

Definition ctail (l : list nat) : string := match l with [] => "" | _ => ", " ++ commas l end.
Lemma commas_cons n l : commas (n :: l) = dec n ++ ctail l.
Proof. destruct l; cbn [commas ctail]; auto. induction (dec n) as [|c s IH]; cbn; congruence. Qed.

Lemma commas_plain l : sall plain (commas l) = true.
Proof.
  induction l as [|n l IH]; auto. rewrite commas_cons, sall_app, dec_plain.
  destruct l; auto.
Qed.

Lemma pystr_plain l : sall plain (pystr (PTuple l)) = true.
Proof.
  destruct l as [|n [|m l]]; [reflexivity| |].
  - cbn [pystr]. rewrite !sall_app, dec_plain. reflexivity.
  - change (pystr (PTuple (n :: m :: l))) with ("(" ++ commas (n :: m :: l) ++ ")").
    rewrite !sall_app, commas_plain. reflexivity.
Qed.

Lemma append_assoc' a b c : ((a ++ b) ++ c)%string = (a ++ (b ++ c))%string.
Proof. induction a as [|x a IH]; cbn; congruence. Qed.

Lemma commas_inj l : forall l' s t, stops digit s -> stops digit t ->
  match s with String "," _ => False | _ => True end ->
  match t with String "," _ => False | _ => True end ->
  l <> [] -> l' <> [] ->
  commas l ++ s = commas l' ++ t -> l = l' /\ s = t.
Proof.
  induction l as [|n l IH]; intros [|m l'] s t Hs Ht Cs Ct N N' E; try congruence.
  rewrite !commas_cons, !append_assoc' in E.
  assert (St : forall l s, stops digit s -> stops digit (ctail l ++ s)).
  { intros [|a l0] s0 H0; cbn; auto. }
  destruct (split_at digit _ _ _ _ (dec_digits n) (dec_digits m) (St _ _ Hs) (St _ _ Ht) E) as [E1 E2].
  apply dec_inj in E1. subst m.
  destruct l as [|a l], l' as [|b l']; cbn [ctail] in E2; cbn in E2.
  - auto.
  - subst s. cbn in Cs. contradiction.
  - subst t. cbn in Ct. contradiction.
  - injection E2 as E2. destruct (IH (b :: l') s t Hs Ht Cs Ct) as [E3 E4]; try discriminate; auto.
    split; congruence.
Qed.

Lemma pystr_inj l l' : pystr (PTuple l) = pystr (PTuple l') -> l = l'.
Proof.
  assert (D : forall n m s t, dec n ++ s = dec m ++ t -> stops digit s -> stops digit t -> n = m /\ s = t).
  { intros n m s t E Hs Ht.
    destruct (split_at digit _ _ _ _ (dec_digits n) (dec_digits m) Hs Ht E) as [E1 E2].
    apply dec_inj in E1. auto. }
  assert (Z : forall n s, ~ String ")" "" = dec n ++ s).
  { intros n s E. pose proof (dec_digits n) as H. destruct (dec n) as [|c d] eqn:En.
    - apply (f_equal NilEmpty.uint_of_string) in En. unfold dec in En. rewrite NilEmpty.usu in En.
      destruct n; cbn in En; [discriminate|].
      injection En as En. apply (f_equal Nat.of_uint) in En.
      change (Nat.of_uint (Nat.to_uint (S n)) = Nat.of_uint Nil) in En.
      rewrite Unsigned.of_to in En. discriminate En.
    - cbn in E. injection E as <- _. discriminate H. }
  destruct l as [|n [|n2 l]], l' as [|m [|m2 l']]; intros E; auto;
    unfold pystr in E; rewrite ?commas_cons in E; cbn [ctail] in E; cbn [append] in E;
    injection E as E; rewrite ?append_assoc' in E; cbn [append] in E.
  - exfalso; eapply Z; exact E.
  - exfalso; eapply Z; exact E.
  - exfalso; eapply Z; symmetry; exact E.
  - apply D in E as [-> _]; cbn; auto.
  - apply D in E as [_ E]; cbn; auto. discriminate E.
  - exfalso; eapply Z; symmetry; exact E.
  - apply D in E as [_ E]; cbn; auto. discriminate E.
  - apply D in E as [-> E]; cbn; auto. injection E as E.
    destruct (commas_inj (n2 :: l) (m2 :: l') ")" ")") as [-> _]; try exact I; try reflexivity; try discriminate; auto.
Qed.

Lemma config_key_inj k k' a a' b b' :
  config_key k (PTuple a) (PTuple b) = config_key k' (PTuple a') (PTuple b') -> k = k' /\ a = a' /\ b = b'.
Proof.
  unfold config_key, op_key. intros E.
  assert (K : k = k').
  { revert E. generalize (pystr (PTuple a)) (pystr (PTuple b)) (pystr (PTuple a')) (pystr (PTuple b')).
    intros s1 s2 s3 s4 E. destruct k, k'; try reflexivity; cbn in E; inversion E. }
  subst k'. split; auto. rewrite !append_assoc' in E.
  assert (C : forall p s t, (p ++ s = p ++ t)%string -> s = t).
  { intros p s t. induction p as [|c p IH]; cbn; auto. intros H. injection H as H. auto. }
  apply C, C, C in E.
  destruct (split_at plain (pystr (PTuple a)) (pystr (PTuple a')) ("_" ++ pystr (PTuple b)) ("_" ++ pystr (PTuple b')))
    as [E1 E2]; try reflexivity; auto using pystr_plain.
  apply C in E2.
  apply pystr_inj in E1. apply pystr_inj in E2. auto.
Qed.

(** the keys of the comparison stacks are never keys of triples *)
Lemma fss_key_other o k a b : fkey o <> config_key k a b.
Proof. destruct o, k; cbn; discriminate. Qed.
