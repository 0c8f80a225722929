(** Specification: binary digits of integers. *)
From Coq Require Import ZArith Lia.
Local Open Scope Z_scope.

(** the binary digit number [i] of [v] (two's complement for negative numbers) *)
Definition bit (v : Z) (i : nat) : Z := (v / 2 ^ Z.of_nat i) mod 2.

(** the number with the digits [d 0], …, [d (n-1)] *)
Fixpoint digits (d : nat -> Z) (n : nat) : Z :=
  match n with O => 0 | S n => digits d n + d n * 2 ^ Z.of_nat n end.

(** sanity: the digits of a number determine it modulo [2^n] *)
Lemma digits_bit v n : digits (bit v) n = v mod 2 ^ Z.of_nat n.
Proof.
  induction n as [|n IH].
  - cbn. rewrite Z.mod_1_r. reflexivity.
  - cbn [digits]. rewrite IH. unfold bit. rewrite Nat2Z.inj_succ, Z.pow_succ_r by lia.
    rewrite (Z.mul_comm 2), Z.rem_mul_r by (try lia; apply Z.pow_nonzero; lia). lia.
Qed.

(** an integer of at most 24 significant binary digits (a float32) *)
Definition rep_int (x : Z) : Prop := exists m e, Z.abs m < 2^24 /\ 0 <= e /\ x = m * 2^e.
