(** Congruence of integers modulo [N], with rewriting. *)
From Coq Require Import Setoid Morphisms.
From Verif Require Import Util.
Local Open Scope Z_scope.

Definition eqmod (N a b : Z) : Prop := exists k, a = b + k * N.
Notation "a == b [mod N ]" := (eqmod N a b) (at level 70, b at next level, N at next level,
  format "a  ==  b  [mod  N ]").

Lemma eqmod_refl N a : a == a [mod N].
Proof. exists 0; lia. Qed.
Lemma eqmod_sym N a b : a == b [mod N] -> b == a [mod N].
Proof. intros [k H]; exists (-k); lia. Qed.
Lemma eqmod_trans N a b c : a == b [mod N] -> b == c [mod N] -> a == c [mod N].
Proof. intros [k H] [j G]; exists (k + j); lia. Qed.

#[global] Instance eqmod_equiv N : Equivalence (eqmod N).
Proof.
  split; [intros a; apply eqmod_refl | intros a b; apply eqmod_sym
         | intros a b c; apply eqmod_trans].
Qed.
#[global] Instance eqmod_add N : Proper (eqmod N ==> eqmod N ==> eqmod N) Z.add.
Proof. intros a a' [k H] b b' [j G]; exists (k + j); lia. Qed.
#[global] Instance eqmod_sub N : Proper (eqmod N ==> eqmod N ==> eqmod N) Z.sub.
Proof. intros a a' [k H] b b' [j G]; exists (k - j); lia. Qed.
#[global] Instance eqmod_opp N : Proper (eqmod N ==> eqmod N) Z.opp.
Proof. intros a a' [k H]; exists (- k); lia. Qed.
#[global] Instance eqmod_mul N : Proper (eqmod N ==> eqmod N ==> eqmod N) Z.mul.
Proof. intros a a' [k H] b b' [j G]. exists (a' * j + b' * k + k * j * N). subst. ring. Qed.

Lemma eqmod_eq N a b : a = b -> a == b [mod N].
Proof. intros ->; reflexivity. Qed.

Lemma eqmod_mod N a b : N <> 0 -> a == b [mod N] <-> a mod N = b mod N.
Proof.
  intros HN; split.
  - intros [k ->]. apply Z.mod_add; auto.
  - intros H. exists (a / N - b / N). rewrite (Z.div_mod a N), (Z.div_mod b N) at 1 by auto. lia.
Qed.

Lemma mod_eqmod N a : N <> 0 -> a mod N == a [mod N].
Proof. intros HN. apply eqmod_mod; auto. apply Z.mod_mod; auto. Qed.

Lemma eqmod_zero N : N == 0 [mod N].
Proof. exists 1; lia. Qed.

Lemma eqmod_add_cancel_l N a b c : a + b == a + c [mod N] -> b == c [mod N].
Proof. intros [k H]; exists k; lia. Qed.
Lemma eqmod_add_cancel_r N a b c : b + a == c + a [mod N] -> b == c [mod N].
Proof. intros [k H]; exists k; lia. Qed.

Lemma eqmod_small N a b : a == b [mod N] -> - N < a - b < N -> a = b.
Proof. intros [k H] G. assert (k = 0) by nia. subst; lia. Qed.

Lemma zsum_eqmod {A} N (f g : A -> Z) l : (forall a, In a l -> f a == g a [mod N]) ->
  zsum (map f l) == zsum (map g l) [mod N].
Proof.
  induction l as [|a l IH]; intros H; cbn [map zsum]; [reflexivity|].
  rewrite (H a) by (simpl; auto). rewrite IH by (intros; apply H; simpl; auto). reflexivity.
Qed.
