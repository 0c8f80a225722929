(** Real arithmetic for the fixed-point error bounds, continued: the initial guess and Newton's
    iteration for 1/a with an error in every step. *)
From Coq Require Import Reals Lra Lia.
From Verif Require Import S_Real L_Real L_Sigmoid L_FixedR.
Local Open Scope R_scope.

Lemma pow_up y n q q' : 0 <= y -> 0 <= q -> y ^ (2 ^ n) <= q -> q * q <= q' -> y ^ (2 ^ S n) <= q'.
Proof. intros Hy Hq A B. rewrite pow_dbl. assert (0 <= y ^ (2 ^ n)) by (apply pow_le; lra). nra. Qed.
Lemma pow_lo y n q q' : 0 <= y -> 0 <= q -> q <= y ^ (2 ^ n) -> q' <= q * q -> q' <= y ^ (2 ^ S n).
Proof. intros Hy Hq A B. rewrite pow_dbl. nra. Qed.

(** the residual 1 - a * r of Newton's iteration, squared in every step with an error [nu] *)
Definition newton (d : nat -> R) (nu : R) : Prop :=
  forall i, (i < 10)%nat -> Rabs (d i) <= 1 -> Rabs (d (S i) - d i * d i) <= nu.
Lemma newton_step d nu i B B' : newton d nu -> (i < 10)%nat -> Rabs (d i) <= B -> B <= 1 -> B * B + nu <= B' -> Rabs (d (S i)) <= B'.
Proof.
  intros HN Hi H1 H2 H3. specialize (HN i Hi ltac:(lra)). pose proof (Rabs_pos (d i)).
  replace (d (S i)) with ((d (S i) - d i * d i) + d i * d i) by ring. eapply Rle_trans; [apply Rabs_triang|].
  rewrite (Rabs_mult (d i)). nra.
Qed.

Lemma lim_m15_lo : 2199171 / 10000000 <= (1 + (-151 / 100) / 256) ^ (2 ^ 8).
Proof.
  assert (H0 : 1988203 / 2000000 <= (1 + (-151 / 100) / 256) ^ (2 ^ 0)) by (change (2 ^ 0)%nat with 1%nat; rewrite pow_1; lra).
  assert (H1 := pow_lo (1 + (-151 / 100) / 256) 0 (1988203 / 2000000) (9882377 / 10000000) ltac:(lra) ltac:(lra) H0 ltac:(lra)).
  assert (H2 := pow_lo (1 + (-151 / 100) / 256) 1 (9882377 / 10000000) (9766137 / 10000000) ltac:(lra) ltac:(lra) H1 ltac:(lra)).
  assert (H3 := pow_lo (1 + (-151 / 100) / 256) 2 (9766137 / 10000000) (9537743 / 10000000) ltac:(lra) ltac:(lra) H2 ltac:(lra)).
  assert (H4 := pow_lo (1 + (-151 / 100) / 256) 3 (9537743 / 10000000) (4548427 / 5000000) ltac:(lra) ltac:(lra) H3 ltac:(lra)).
  assert (H5 := pow_lo (1 + (-151 / 100) / 256) 4 (4548427 / 5000000) (331011 / 400000) ltac:(lra) ltac:(lra) H4 ltac:(lra)).
  assert (H6 := pow_lo (1 + (-151 / 100) / 256) 5 (331011 / 400000) (6848017 / 10000000) ltac:(lra) ltac:(lra) H5 ltac:(lra)).
  assert (H7 := pow_lo (1 + (-151 / 100) / 256) 6 (6848017 / 10000000) (4689533 / 10000000) ltac:(lra) ltac:(lra) H6 ltac:(lra)).
  exact (pow_lo (1 + (-151 / 100) / 256) 7 (4689533 / 10000000) (2199171 / 10000000) ltac:(lra) ltac:(lra) H7 ltac:(lra)).
Qed.

Lemma lim_m35_lo : 36473 / 1250000 <= (1 + (-351 / 100) / 256) ^ (2 ^ 8).
Proof.
  assert (H0 : 986289 / 1000000 <= (1 + (-351 / 100) / 256) ^ (2 ^ 0)) by (change (2 ^ 0)%nat with 1%nat; rewrite pow_1; lra).
  assert (H1 := pow_lo (1 + (-351 / 100) / 256) 0 (986289 / 1000000) (9727659 / 10000000) ltac:(lra) ltac:(lra) H0 ltac:(lra)).
  assert (H2 := pow_lo (1 + (-351 / 100) / 256) 1 (9727659 / 10000000) (4731367 / 5000000) ltac:(lra) ltac:(lra) H1 ltac:(lra)).
  assert (H3 := pow_lo (1 + (-351 / 100) / 256) 2 (4731367 / 5000000) (8954333 / 10000000) ltac:(lra) ltac:(lra) H2 ltac:(lra)).
  assert (H4 := pow_lo (1 + (-351 / 100) / 256) 3 (8954333 / 10000000) (8018007 / 10000000) ltac:(lra) ltac:(lra) H3 ltac:(lra)).
  assert (H5 := pow_lo (1 + (-351 / 100) / 256) 4 (8018007 / 10000000) (6428843 / 10000000) ltac:(lra) ltac:(lra) H4 ltac:(lra)).
  assert (H6 := pow_lo (1 + (-351 / 100) / 256) 5 (6428843 / 10000000) (2066501 / 5000000) ltac:(lra) ltac:(lra) H5 ltac:(lra)).
  assert (H7 := pow_lo (1 + (-351 / 100) / 256) 6 (2066501 / 5000000) (170817 / 1000000) ltac:(lra) ltac:(lra) H6 ltac:(lra)).
  exact (pow_lo (1 + (-351 / 100) / 256) 7 (170817 / 1000000) (36473 / 1250000) ltac:(lra) ltac:(lra) H7 ltac:(lra)).
Qed.

Lemma lim_m15_up : (1 + (-149 / 100) / 256) ^ (2 ^ 8) <= 2243973 / 10000000.
Proof.
  assert (H0 : (1 + (-149 / 100) / 256) ^ (2 ^ 0) <= 9941797 / 10000000) by (change (2 ^ 0)%nat with 1%nat; rewrite pow_1; lra).
  assert (H1 := pow_up (1 + (-149 / 100) / 256) 0 (9941797 / 10000000) (9883933 / 10000000) ltac:(lra) ltac:(lra) H0 ltac:(lra)).
  assert (H2 := pow_up (1 + (-149 / 100) / 256) 1 (9883933 / 10000000) (4884607 / 5000000) ltac:(lra) ltac:(lra) H1 ltac:(lra)).
  assert (H3 := pow_up (1 + (-149 / 100) / 256) 2 (4884607 / 5000000) (1908751 / 2000000) ltac:(lra) ltac:(lra) H2 ltac:(lra)).
  assert (H4 := pow_up (1 + (-149 / 100) / 256) 3 (1908751 / 2000000) (4554163 / 5000000) ltac:(lra) ltac:(lra) H3 ltac:(lra)).
  assert (H5 := pow_up (1 + (-149 / 100) / 256) 4 (4554163 / 5000000) (8296161 / 10000000) ltac:(lra) ltac:(lra) H4 ltac:(lra)).
  assert (H6 := pow_up (1 + (-149 / 100) / 256) 5 (8296161 / 10000000) (6882629 / 10000000) ltac:(lra) ltac:(lra) H5 ltac:(lra)).
  assert (H7 := pow_up (1 + (-149 / 100) / 256) 6 (6882629 / 10000000) (4737059 / 10000000) ltac:(lra) ltac:(lra) H6 ltac:(lra)).
  exact (pow_up (1 + (-149 / 100) / 256) 7 (4737059 / 10000000) (2243973 / 10000000) ltac:(lra) ltac:(lra) H7 ltac:(lra)).
Qed.

Lemma lim_m22_up : (1 + (-209 / 100) / 256) ^ (2 ^ 8) <= 153293 / 1250000.
Proof.
  assert (H0 : (1 + (-209 / 100) / 256) ^ (2 ^ 0) <= 247959 / 250000) by (change (2 ^ 0)%nat with 1%nat; rewrite pow_1; lra).
  assert (H1 := pow_up (1 + (-209 / 100) / 256) 0 (247959 / 250000) (9837387 / 10000000) ltac:(lra) ltac:(lra) H0 ltac:(lra)).
  assert (H2 := pow_up (1 + (-209 / 100) / 256) 1 (9837387 / 10000000) (9677419 / 10000000) ltac:(lra) ltac:(lra) H1 ltac:(lra)).
  assert (H3 := pow_up (1 + (-209 / 100) / 256) 2 (9677419 / 10000000) (2341311 / 2500000) ltac:(lra) ltac:(lra) H2 ltac:(lra)).
  assert (H4 := pow_up (1 + (-209 / 100) / 256) 3 (2341311 / 2500000) (438539 / 500000) ltac:(lra) ltac:(lra) H3 ltac:(lra)).
  assert (H5 := pow_up (1 + (-209 / 100) / 256) 4 (438539 / 500000) (7692659 / 10000000) ltac:(lra) ltac:(lra) H4 ltac:(lra)).
  assert (H6 := pow_up (1 + (-209 / 100) / 256) 5 (7692659 / 10000000) (5917701 / 10000000) ltac:(lra) ltac:(lra) H5 ltac:(lra)).
  assert (H7 := pow_up (1 + (-209 / 100) / 256) 6 (5917701 / 10000000) (3501919 / 10000000) ltac:(lra) ltac:(lra) H6 ltac:(lra)).
  exact (pow_up (1 + (-209 / 100) / 256) 7 (3501919 / 10000000) (153293 / 1250000) ltac:(lra) ltac:(lra) H7 ltac:(lra)).
Qed.

Lemma lim_m35_up : (1 + (-349 / 100) / 256) ^ (2 ^ 8) <= 14889 / 500000.
Proof.
  assert (H0 : (1 + (-349 / 100) / 256) ^ (2 ^ 0) <= 1232959 / 1250000) by (change (2 ^ 0)%nat with 1%nat; rewrite pow_1; lra).
  assert (H1 := pow_up (1 + (-349 / 100) / 256) 0 (1232959 / 1250000) (9729203 / 10000000) ltac:(lra) ltac:(lra) H0 ltac:(lra)).
  assert (H2 := pow_up (1 + (-349 / 100) / 256) 1 (9729203 / 10000000) (473287 / 500000) ltac:(lra) ltac:(lra) H1 ltac:(lra)).
  assert (H3 := pow_up (1 + (-349 / 100) / 256) 2 (473287 / 500000) (1120003 / 1250000) ltac:(lra) ltac:(lra) H2 ltac:(lra)).
  assert (H4 := pow_up (1 + (-349 / 100) / 256) 3 (1120003 / 1250000) (2007051 / 2500000) ltac:(lra) ltac:(lra) H3 ltac:(lra)).
  assert (H5 := pow_up (1 + (-349 / 100) / 256) 4 (2007051 / 2500000) (3222603 / 5000000) ltac:(lra) ltac:(lra) H4 ltac:(lra)).
  assert (H6 := pow_up (1 + (-349 / 100) / 256) 5 (3222603 / 5000000) (4154069 / 10000000) ltac:(lra) ltac:(lra) H5 ltac:(lra)).
  assert (H7 := pow_up (1 + (-349 / 100) / 256) 6 (4154069 / 10000000) (1725629 / 10000000) ltac:(lra) ltac:(lra) H6 ltac:(lra)).
  exact (pow_up (1 + (-349 / 100) / 256) 7 (1725629 / 10000000) (14889 / 500000) ltac:(lra) ltac:(lra) H7 ltac:(lra)).
Qed.

Lemma newton_a d nu : newton d nu -> nu <= 3357 / 5000000 -> Rabs (d 0%nat) <= 19 / 20 -> Rabs (d 9%nat) <= 21 / 31250 /\ Rabs (d 10%nat) <= 21 / 31250.
Proof.
  intros HN HV H0.
  assert (H1 : Rabs (d 1%nat) <= 225793 / 250000) by (apply (newton_step d nu 0 (19 / 20)); [exact HN|lia|exact H0|lra|lra]).
  assert (H2 : Rabs (d 2%nat) <= 102049 / 125000) by (apply (newton_step d nu 1 (225793 / 250000)); [exact HN|lia|exact H1|lra|lra]).
  assert (H3 : Rabs (d 3%nat) <= 20849 / 31250) by (apply (newton_step d nu 2 (102049 / 125000)); [exact HN|lia|exact H2|lra|lra]).
  assert (H4 : Rabs (d 4%nat) <= 89157 / 200000) by (apply (newton_step d nu 3 (20849 / 31250)); [exact HN|lia|exact H3|lra|lra]).
  assert (H5 : Rabs (d 5%nat) <= 49849 / 250000) by (apply (newton_step d nu 4 (89157 / 200000)); [exact HN|lia|exact H4|lra|lra]).
  assert (H6 : Rabs (d 6%nat) <= 40431 / 1000000) by (apply (newton_step d nu 5 (49849 / 250000)); [exact HN|lia|exact H5|lra|lra]).
  assert (H7 : Rabs (d 7%nat) <= 2307 / 1000000) by (apply (newton_step d nu 6 (40431 / 1000000)); [exact HN|lia|exact H6|lra|lra]).
  assert (H8 : Rabs (d 8%nat) <= 677 / 1000000) by (apply (newton_step d nu 7 (2307 / 1000000)); [exact HN|lia|exact H7|lra|lra]).
  assert (H9 : Rabs (d 9%nat) <= 21 / 31250) by (apply (newton_step d nu 8 (677 / 1000000)); [exact HN|lia|exact H8|lra|lra]).
  assert (H10 : Rabs (d 10%nat) <= 21 / 31250) by (apply (newton_step d nu 9 (21 / 31250)); [exact HN|lia|exact H9|lra|lra]).
  split; assumption.
Qed.

Lemma newton_b d nu : newton d nu -> nu <= 721 / 250000 -> Rabs (d 0%nat) <= 49433 / 50000 -> Rabs (d 9%nat) <= 2207 / 125000 /\ Rabs (d 10%nat) <= 799 / 250000.
Proof.
  intros HN HV H0.
  assert (H1 : Rabs (d 1%nat) <= 980333 / 1000000) by (apply (newton_step d nu 0 (49433 / 50000)); [exact HN|lia|exact H0|lra|lra]).
  assert (H2 : Rabs (d 2%nat) <= 963937 / 1000000) by (apply (newton_step d nu 1 (980333 / 1000000)); [exact HN|lia|exact H1|lra|lra]).
  assert (H3 : Rabs (d 3%nat) <= 932059 / 1000000) by (apply (newton_step d nu 2 (963937 / 1000000)); [exact HN|lia|exact H2|lra|lra]).
  assert (H4 : Rabs (d 4%nat) <= 435809 / 500000) by (apply (newton_step d nu 3 (932059 / 1000000)); [exact HN|lia|exact H3|lra|lra]).
  assert (H5 : Rabs (d 5%nat) <= 381301 / 500000) by (apply (newton_step d nu 4 (435809 / 500000)); [exact HN|lia|exact H4|lra|lra]).
  assert (H6 : Rabs (d 6%nat) <= 292223 / 500000) by (apply (newton_step d nu 5 (381301 / 500000)); [exact HN|lia|exact H5|lra|lra]).
  assert (H7 : Rabs (d 7%nat) <= 172231 / 500000) by (apply (newton_step d nu 6 (292223 / 500000)); [exact HN|lia|exact H6|lra|lra]).
  assert (H8 : Rabs (d 8%nat) <= 121539 / 1000000) by (apply (newton_step d nu 7 (172231 / 500000)); [exact HN|lia|exact H7|lra|lra]).
  assert (H9 : Rabs (d 9%nat) <= 2207 / 125000) by (apply (newton_step d nu 8 (121539 / 1000000)); [exact HN|lia|exact H8|lra|lra]).
  assert (H10 : Rabs (d 10%nat) <= 799 / 250000) by (apply (newton_step d nu 9 (2207 / 125000)); [exact HN|lia|exact H9|lra|lra]).
  split; assumption.
Qed.

Lemma newton_c d nu : newton d nu -> nu <= 1709 / 200000 -> Rabs (d 0%nat) <= 48723 / 50000 -> Rabs (d 9%nat) <= 577 / 62500 /\ Rabs (d 10%nat) <= 8631 / 1000000.
Proof.
  intros HN HV H0.
  assert (H1 : Rabs (d 1%nat) <= 479059 / 500000) by (apply (newton_step d nu 0 (48723 / 50000)); [exact HN|lia|exact H0|lra|lra]).
  assert (H2 : Rabs (d 2%nat) <= 115817 / 125000) by (apply (newton_step d nu 1 (479059 / 500000)); [exact HN|lia|exact H1|lra|lra]).
  assert (H3 : Rabs (d 3%nat) <= 433507 / 500000) by (apply (newton_step d nu 2 (115817 / 125000)); [exact HN|lia|exact H2|lra|lra]).
  assert (H4 : Rabs (d 4%nat) <= 760259 / 1000000) by (apply (newton_step d nu 3 (433507 / 500000)); [exact HN|lia|exact H3|lra|lra]).
  assert (H5 : Rabs (d 5%nat) <= 586539 / 1000000) by (apply (newton_step d nu 4 (760259 / 1000000)); [exact HN|lia|exact H4|lra|lra]).
  assert (H6 : Rabs (d 6%nat) <= 352573 / 1000000) by (apply (newton_step d nu 5 (586539 / 1000000)); [exact HN|lia|exact H5|lra|lra]).
  assert (H7 : Rabs (d 7%nat) <= 132853 / 1000000) by (apply (newton_step d nu 6 (352573 / 1000000)); [exact HN|lia|exact H6|lra|lra]).
  assert (H8 : Rabs (d 8%nat) <= 5239 / 200000) by (apply (newton_step d nu 7 (132853 / 1000000)); [exact HN|lia|exact H7|lra|lra]).
  assert (H9 : Rabs (d 9%nat) <= 577 / 62500) by (apply (newton_step d nu 8 (5239 / 200000)); [exact HN|lia|exact H8|lra|lra]).
  assert (H10 : Rabs (d 10%nat) <= 8631 / 1000000) by (apply (newton_step d nu 9 (577 / 62500)); [exact HN|lia|exact H9|lra|lra]).
  split; assumption.
Qed.

Lemma newton_d d nu : newton d nu -> nu <= 36049 / 1250000 -> Rabs (d 0%nat) <= 95459 / 100000 -> Rabs (d 9%nat) <= 1351 / 40000 /\ Rabs (d 10%nat) <= 1499 / 50000.
Proof.
  intros HN HV H0.
  assert (H1 : Rabs (d 1%nat) <= 470041 / 500000) by (apply (newton_step d nu 0 (95459 / 100000)); [exact HN|lia|exact H0|lra|lra]).
  assert (H2 : Rabs (d 2%nat) <= 456297 / 500000) by (apply (newton_step d nu 1 (470041 / 500000)); [exact HN|lia|exact H1|lra|lra]).
  assert (H3 : Rabs (d 3%nat) <= 215417 / 250000) by (apply (newton_step d nu 2 (456297 / 500000)); [exact HN|lia|exact H2|lra|lra]).
  assert (H4 : Rabs (d 4%nat) <= 771311 / 1000000) by (apply (newton_step d nu 3 (215417 / 250000)); [exact HN|lia|exact H3|lra|lra]).
  assert (H5 : Rabs (d 5%nat) <= 7797 / 12500) by (apply (newton_step d nu 4 (771311 / 1000000)); [exact HN|lia|exact H4|lra|lra]).
  assert (H6 : Rabs (d 6%nat) <= 104479 / 250000) by (apply (newton_step d nu 5 (7797 / 12500)); [exact HN|lia|exact H5|lra|lra]).
  assert (H7 : Rabs (d 7%nat) <= 203493 / 1000000) by (apply (newton_step d nu 6 (104479 / 250000)); [exact HN|lia|exact H6|lra|lra]).
  assert (H8 : Rabs (d 8%nat) <= 70249 / 1000000) by (apply (newton_step d nu 7 (203493 / 1000000)); [exact HN|lia|exact H7|lra|lra]).
  assert (H9 : Rabs (d 9%nat) <= 1351 / 40000) by (apply (newton_step d nu 8 (70249 / 1000000)); [exact HN|lia|exact H8|lra|lra]).
  assert (H10 : Rabs (d 10%nat) <= 1499 / 50000) by (apply (newton_step d nu 9 (1351 / 40000)); [exact HN|lia|exact H9|lra|lra]).
  split; assumption.
Qed.

Lemma newton_e d nu : newton d nu -> nu <= 557557 / 10000000 -> Rabs (d 0%nat) <= 45743 / 50000 -> Rabs (d 9%nat) <= 7741 / 125000 /\ Rabs (d 10%nat) <= 59591 / 1000000.
Proof.
  intros HN HV H0.
  assert (H1 : Rabs (d 1%nat) <= 35709 / 40000) by (apply (newton_step d nu 0 (45743 / 50000)); [exact HN|lia|exact H0|lra|lra]).
  assert (H2 : Rabs (d 2%nat) <= 426357 / 500000) by (apply (newton_step d nu 1 (35709 / 40000)); [exact HN|lia|exact H1|lra|lra]).
  assert (H3 : Rabs (d 3%nat) <= 782877 / 1000000) by (apply (newton_step d nu 2 (426357 / 500000)); [exact HN|lia|exact H2|lra|lra]).
  assert (H4 : Rabs (d 4%nat) <= 668653 / 1000000) by (apply (newton_step d nu 3 (782877 / 1000000)); [exact HN|lia|exact H3|lra|lra]).
  assert (H5 : Rabs (d 5%nat) <= 502853 / 1000000) by (apply (newton_step d nu 4 (668653 / 1000000)); [exact HN|lia|exact H4|lra|lra]).
  assert (H6 : Rabs (d 6%nat) <= 308617 / 1000000) by (apply (newton_step d nu 5 (502853 / 1000000)); [exact HN|lia|exact H5|lra|lra]).
  assert (H7 : Rabs (d 7%nat) <= 151001 / 1000000) by (apply (newton_step d nu 6 (308617 / 1000000)); [exact HN|lia|exact H6|lra|lra]).
  assert (H8 : Rabs (d 8%nat) <= 39279 / 500000) by (apply (newton_step d nu 7 (151001 / 1000000)); [exact HN|lia|exact H7|lra|lra]).
  assert (H9 : Rabs (d 9%nat) <= 7741 / 125000) by (apply (newton_step d nu 8 (39279 / 500000)); [exact HN|lia|exact H8|lra|lra]).
  assert (H10 : Rabs (d 10%nat) <= 59591 / 1000000) by (apply (newton_step d nu 9 (7741 / 125000)); [exact HN|lia|exact H9|lra|lra]).
  split; assumption.
Qed.

Lemma newton_f d nu : newton d nu -> nu <= 817109 / 10000000 -> Rabs (d 0%nat) <= 1101 / 1250 -> Rabs (d 9%nat) <= 47737 / 500000 /\ Rabs (d 10%nat) <= 90827 / 1000000.
Proof.
  intros HN HV H0.
  assert (H1 : Rabs (d 1%nat) <= 10719 / 12500) by (apply (newton_step d nu 0 (1101 / 1250)); [exact HN|lia|exact H0|lra|lra]).
  assert (H2 : Rabs (d 2%nat) <= 204263 / 250000) by (apply (newton_step d nu 1 (10719 / 12500)); [exact HN|lia|exact H1|lra|lra]).
  assert (H3 : Rabs (d 3%nat) <= 149857 / 200000) by (apply (newton_step d nu 2 (204263 / 250000)); [exact HN|lia|exact H2|lra|lra]).
  assert (H4 : Rabs (d 4%nat) <= 643139 / 1000000) by (apply (newton_step d nu 3 (149857 / 200000)); [exact HN|lia|exact H3|lra|lra]).
  assert (H5 : Rabs (d 5%nat) <= 495339 / 1000000) by (apply (newton_step d nu 4 (643139 / 1000000)); [exact HN|lia|exact H4|lra|lra]).
  assert (H6 : Rabs (d 6%nat) <= 10221 / 31250) by (apply (newton_step d nu 5 (495339 / 1000000)); [exact HN|lia|exact H5|lra|lra]).
  assert (H7 : Rabs (d 7%nat) <= 188687 / 1000000) by (apply (newton_step d nu 6 (10221 / 31250)); [exact HN|lia|exact H6|lra|lra]).
  assert (H8 : Rabs (d 8%nat) <= 58657 / 500000) by (apply (newton_step d nu 7 (188687 / 1000000)); [exact HN|lia|exact H7|lra|lra]).
  assert (H9 : Rabs (d 9%nat) <= 47737 / 500000) by (apply (newton_step d nu 8 (58657 / 500000)); [exact HN|lia|exact H8|lra|lra]).
  assert (H10 : Rabs (d 10%nat) <= 90827 / 1000000) by (apply (newton_step d nu 9 (47737 / 500000)); [exact HN|lia|exact H9|lra|lra]).
  split; assumption.
Qed.

Lemma limexp8 x : limexp 8 x = (1 + x / 256) ^ (2 ^ 8).
Proof. unfold limexp. do 2 f_equal. lra. Qed.
Lemma limexp_mono x y : -256 <= x <= y -> limexp 8 x <= limexp 8 y.
Proof. intros H. rewrite !limexp8. apply pow_incr. lra. Qed.

(** the initial guess 3 * exp(1/2 - a) + 0.003 as computed *)
Lemma guess_fixed a x E g : 49 / 100 <= a <= 51 -> Rabs (x - (1 / 2 - a)) <= U ->
  Rabs (E - limexp 8 x) <= 1042 * U -> - (3 * U) <= E -> (x <= - (15 / 2) -> E <= 57 / 100000) ->
  Rabs (g - (3 * E + 196 * U)) <= U ->
  (a <= 4 -> Rabs (1 - a * g) <= 95 / 100) /\ (4 <= a <= 9 -> Rabs (1 - a * g) <= 98866 / 100000) /\
  (9 <= a -> 186 * U <= g <= 49 / 10000).
Proof.
  intros Ha Hx HE HL HU Hg. apply abs_in in Hx, HE, Hg.
  assert (Lo : forall y, -256 <= y <= x -> limexp 8 y <= limexp 8 x) by (intros; apply limexp_mono; lra).
  assert (Up : forall y, x <= y -> limexp 8 x <= limexp 8 y) by (intros; apply limexp_mono; lra).
  split; [|split].
  - intros H4. apply Rabs_le. destruct (Rle_dec a 2) as [H2|H2].
    + pose proof (Lo (- 151 / 100) ltac:(lra)) as L. rewrite (limexp8 (- 151 / 100)) in L. pose proof lim_m15_lo as N.
      replace ((-151 / 100) / 256) with (- 151 / 100 / 256) in N by lra.
      assert (G1 : 6 / 10 <= g) by lra.
      assert (P : exp x <= exp (1 / 2 - a) * (1001 / 1000)).
      { replace x with ((1 / 2 - a) + (x - (1 / 2 - a))) by ring. rewrite exp_plus. apply Rmult_le_compat_l; [left; apply exp_pos|].
        pose proof (exp_below 0 (- (x - (1 / 2 - a)))) as [_ Q]; [cbn [pow]; lra|]. unfold limexp in Q. cbn [pow Nat.pow] in Q.
        rewrite exp_Ropp in Q. pose proof (exp_pos (x - (1 / 2 - a))) as EP. set (q := exp (x - (1 / 2 - a))) in *. clearbody q.
        assert (q * / q = 1) by (field; lra). assert (9998 / 10000 * q <= 1); [|lra]. apply Rle_trans with (/ q * q); [|lra]. apply Rmult_le_compat_r; lra. }
      assert (E1 : a * exp (1 / 2 - a) <= exp (- (1 / 2))).
      { replace (- (1 / 2)) with ((a - 1) + (1 / 2 - a)) by lra. rewrite exp_plus. apply Rmult_le_compat_r; [left; apply exp_pos|].
        pose proof (exp_ineq1_le (a - 1)). lra. }
      assert (E2 : exp (- (1 / 2)) < 612 / 1000).
      { rewrite exp_Ropp. apply (Rmult_lt_reg_r (exp (1 / 2))); [apply exp_pos|]. rewrite Rinv_l by (apply Rgt_not_eq, exp_pos).
        pose proof (exp_below 4 (1 / 2)) as [_ Q]; [lra|]. unfold limexp in Q. cbn [Nat.pow Nat.mul Nat.add] in Q.
        assert (1635 / 1000 < (1 + 1 / 2 / 2 ^ 4) ^ 16) by lra. lra. }
      pose proof (exp_below 8 x ltac:(lra)) as [_ EB].
      assert (E3 : a * limexp 8 x <= 613 / 1000).
      { apply Rle_trans with (a * (exp (1 / 2 - a) * (1001 / 1000))); [apply Rmult_le_compat_l; lra|]. nra. }
      assert (a * g <= a * (3 * limexp 8 x + 3323 * U)) by (apply Rmult_le_compat_l; lra). split; nra.
    + pose proof (Lo (- 351 / 100) ltac:(lra)) as L. rewrite (limexp8 (- 351 / 100)) in L. pose proof lim_m35_lo as N.
      assert (G1 : 4 / 100 <= g) by lra.
      destruct (Rle_dec a (26 / 10)) as [H3|H3].
      * pose proof (Up (- 149 / 100) ltac:(lra)) as M. rewrite (limexp8 (- 149 / 100)) in M. pose proof lim_m15_up as N'.
        assert (G2 : g <= 73 / 100) by lra. split; nra.
      * pose proof (Up (- 209 / 100) ltac:(lra)) as M. rewrite (limexp8 (- 209 / 100)) in M. pose proof lim_m22_up as N'.
        assert (G2 : g <= 43 / 100) by lra. split; nra.
  - intros H4. apply Rabs_le. pose proof (Up (- 349 / 100) ltac:(lra)) as M. rewrite (limexp8 (- 349 / 100)) in M. pose proof lim_m35_up as N'.
    assert (G2 : g <= 15 / 100) by lra. assert (G1 : 186 * U <= g) by lra. split; nra.
  - intros H9. specialize (HU ltac:(lra)). lra.
Qed.

(** ten steps *)
Lemma newton_end a d r : 49 / 100 <= a <= 51 -> newton d (a * (3 + 2 * a) * U) -> d 10%nat = 1 - a * r ->
  (a <= 4 -> Rabs (d 0%nat) <= 95 / 100) -> (4 <= a <= 9 -> Rabs (d 0%nat) <= 98866 / 100000) ->
  (9 <= a -> exists g, d 0%nat = 1 - a * g /\ 186 * U <= g <= 49 / 10000) ->
  Rabs (r - 1 / a) <= 22 / 10000 /\ (a <= 4 -> Rabs (r - 1 / a) <= 12 * U).
Proof.
  intros Ha HN HD H1 H2 H3.
  assert (ER : Rabs (r - 1 / a) = Rabs (d 10%nat) / a).
  { rewrite HD. replace (r - 1 / a) with (- ((1 - a * r) / a)) by (field; lra). rewrite Rabs_Ropp. unfold Rdiv. rewrite Rabs_mult.
    rewrite (Rabs_right (/ a)); [reflexivity|]. left. apply Rinv_0_lt_compat. lra. }
  assert (DV : forall B C, Rabs (d 10%nat) <= B -> B <= C * a -> Rabs (r - 1 / a) <= C).
  { intros B C A Q. rewrite ER. apply (Rmult_le_reg_r a); [lra|]. unfold Rdiv. rewrite Rmult_assoc, Rinv_l by lra. lra. }
  assert (S4 : a <= 4 -> Rabs (r - 1 / a) <= 12 * U).
  { intros H4. destruct (newton_a d _ HN) as [A B]; [nra|specialize (H1 H4); lra|].
    assert (C : Rabs (d 10%nat) <= 1 / 1000000 + a * (3 + 2 * a) * U) by (clear - HN A; set (nu := a * (3 + 2 * a) * U) in *; clearbody nu; apply (newton_step d nu 9 (673 / 1000000)); [exact HN|lia|lra|lra|lra]).
    eapply DV; [exact C|]. nra. }
  split; [|exact S4].
  destruct (Rle_dec a 4) as [Q4|Q4]; [specialize (S4 Q4); lra|].
  destruct (Rle_dec a 9) as [Q9|Q9].
  { destruct (newton_b d _ HN) as [_ B]; [nra|specialize (H2 ltac:(lra)); lra|]. eapply DV; [exact B|]. lra. }
  destruct (H3 ltac:(lra)) as (g & D0 & G). 
  assert (D : forall lo B, lo <= a -> 1 - lo * (186 * U) <= B -> 0 <= lo -> 0 <= B -> Rabs (d 0%nat) <= B).
  { intros lo B A C P Q. rewrite D0. apply Rabs_le. split; [nra|]. assert (lo * (186 * U) <= a * g) by (apply Rmult_le_compat; lra). lra. }
  destruct (Rle_dec a 16) as [Q16|Q16].
  { destruct (newton_c d _ HN) as [_ B]; [nra|apply (D 9); lra|]. eapply DV; [exact B|]. lra. }
  destruct (Rle_dec a 30) as [Q30|Q30].
  { destruct (newton_d d _ HN) as [_ B]; [nra|apply (D 16); lra|]. eapply DV; [exact B|]. lra. }
  destruct (Rle_dec a 42) as [Q42|Q42].
  { destruct (newton_e d _ HN) as [_ B]; [nra|apply (D 30); lra|]. eapply DV; [exact B|]. lra. }
  destruct (newton_f d _ HN) as [_ B]; [nra|apply (D 42); lra|]. eapply DV; [exact B|]. lra.
Qed.
