(** Lemmas on sharings and products whose random numbers are drawn as the code draws them. *)
From Coq Require Import Setoid Morphisms.
From Verif Require Import Util Modular S_Ring S_Tensor S_Bil S_Spdz S_Priv S_Draw M_Torch L_Torch M_Encoder M_Tensor L_Tensor M_Share L_Share M_Spdz.
Local Open Scope Z_scope.

Lemma drawn_in l : drawn l -> vec_in R64 l.
Proof.
  intros H. apply Forall_forall. intros z Hz. unfold drawn in H. rewrite Forall_forall in H. specialize (H z Hz).
  apply in_ring64. change (2^63) with 9223372036854775808 in *. lia.
Qed.

Lemma code_draws_in n sh rnd : code_draws n sh rnd -> draws R64 n sh rnd.
Proof.
  intros [L F]. split; [exact L|]. revert F. apply Forall_impl. intros r [A B]. auto using drawn_in.
Qed.

Lemma drawn_nth l e : drawn l -> (e < length l)%nat -> 0 <= nth e l 0 < 2^63.
Proof. intros H He. exact (Forall_nth_in _ l 0 e H He). Qed.

Section Half.
  Variables (n : nat) (sh : list nat) (v v' : list Z) (j : nat).
  Hypothesis Hn : (2 <= n)%nat.
  Hypothesis Hj : (j < n)%nat.
  Hypothesis Hv : tensor_in R64 sh (mkT sh v).
  Hypothesis Hv' : tensor_in R64 sh (mkT sh v').

  Lemma half_shift rnd : code_draws n sh rnd ->
    (forall i e, (j <= i < n - 1)%nat -> (e < numel sh)%nat -> 0 <= nth e (nth i rnd []) 0 + (nth e v' 0 - nth e v 0) < 2^63) ->
    exists rnd' ss ss', code_draws n sh rnd' /\
      (forall i e, (i < n - 1)%nat -> (e < numel sh)%nat ->
         nth e (nth i rnd' []) 0 = if (i <? j)%nat then nth e (nth i rnd []) 0 else nth e (nth i rnd []) 0 + (nth e v' 0 - nth e v 0)) /\
      generate_shares n (mkT sh v) rnd = Ok ss /\ generate_shares n (mkT sh v') rnd' = Ok ss' /\
      length ss = n /\ length ss' = n /\ forall k, (k < n)%nat -> k <> j -> nth_error ss k = nth_error ss' k.
  Proof.
    intros HC HR. pose proof (code_draws_in _ _ _ HC) as HD. destruct HC as [HL HF].
    destruct (share_shift n sh v v' j rnd Hn Hj Hv Hv' HD) as (ss & ss' & E & E' & L & L' & N).
    set (rnd' := shift_draws j (vsub R64 v' v) true rnd) in *.
    destruct Hv as (_ & V1 & V2), Hv' as (_ & W1 & W2). cbn [tdat] in *.
    assert (NS : forall i, (i < n - 1)%nat -> nth i rnd' [] = if (i <? j)%nat then nth i rnd [] else vadd R64 (nth i rnd []) (vsub R64 v' v)).
    { intros i Hi. unfold rnd', shift_draws. rewrite (nth_map_in _ 0%nat) by (rewrite seq_length; lia).
      rewrite seq_nth by lia. reflexivity. }
    assert (LD : length (vsub R64 v' v) = numel sh) by (apply vsub_length; auto).
    assert (RO : forall i, (i < n - 1)%nat -> length (nth i rnd []) = numel sh /\ drawn (nth i rnd []))
      by (intros i Hi; apply (Forall_nth_in _ rnd [] i HF); lia).
    assert (NE : forall i e, (i < n - 1)%nat -> (e < numel sh)%nat ->
         nth e (nth i rnd' []) 0 = if (i <? j)%nat then nth e (nth i rnd []) 0 else nth e (nth i rnd []) 0 + (nth e v' 0 - nth e v 0)).
    { intros i e Hi He. rewrite NS by auto. destruct (Nat.ltb_spec i j); auto. destruct (RO i Hi) as [A B].
      apply (in_ring_eq R64); auto.
      - apply Forall_nth_in; [apply vadd_in; auto using drawn_in, vsub_in|]. rewrite (vadd_length R64 _ _ (numel sh)); auto.
      - specialize (HR i e ltac:(lia) He). apply in_ring64. change (2^63) with 9223372036854775808 in *. lia.
      - rewrite nth_vadd by (auto using drawn_in, vsub_in; lia). rewrite nth_vsub by (auto; lia). reflexivity. }
    exists rnd', ss, ss'. split; [|auto 10].
    split. { unfold rnd', shift_draws. rewrite map_length, seq_length. exact HL. }
    assert (LR : length rnd' = (n - 1)%nat) by (unfold rnd', shift_draws; rewrite map_length, seq_length; exact HL).
    apply Forall_forall. intros r Hr. destruct (In_nth _ _ [] Hr) as (i & Hi & <-). rewrite LR in Hi.
    destruct (RO i Hi) as [A B].
    assert (LI : length (nth i rnd' []) = numel sh).
    { rewrite NS by auto. destruct (i <? j)%nat; auto. apply vadd_length; auto. }
    split; [exact LI|]. apply Forall_forall. intros z Hz. destruct (In_nth _ _ 0 Hz) as (e & He & <-). rewrite LI in He.
    rewrite NE by auto. destruct (Nat.ltb_spec i j); [apply drawn_nth; auto; lia|]. apply HR; auto.
  Qed.
End Half.

(* two parties, one element *)
Lemma gen2 v r : generate_shares 2 (mkT [1%nat] [v]) [[r]] = Ok [mkT [1%nat] [r]; mkT [1%nat] [rsub R64 v r]].
Proof. reflexivity. Qed.

Lemma one_elt (l : list Z) : length l = numel [1%nat] -> exists z, l = [z].
Proof. destruct l as [|z [|]]; try discriminate. eauto. Qed.

Lemma code_draws2 rnd : code_draws 2 [1%nat] rnd -> exists r, rnd = [[r]] /\ 0 <= r < 2^63.
Proof.
  intros [L F]. destruct rnd as [|l [|]]; try discriminate L. inversion F as [|? ? [A B] _]; subst.
  destruct (one_elt l A) as (r & ->). exists r. inversion B; subst. auto.
Qed.

Lemma mulrand2 r : code_mulrand 2 [1%nat] [1%nat] [1%nat] r -> exists rx ry a b ra rb rc,
  r = mkMR [[rx]] [[ry]] [a] [b] [[ra]] [[rb]] [[rc]] /\
  0 <= a < 2^63 /\ 0 <= b < 2^63 /\ 0 <= rc < 2^63 /\ 0 <= rx < 2^63 /\ 0 <= ry < 2^63 /\ 0 <= ra < 2^63 /\ 0 <= rb < 2^63.
Proof.
  destruct r as [x y a b ra rb rc]. intros (H1 & H2 & [A1 A2] & [B1 B2] & H3 & H4 & H5). cbn [mr_x mr_y mr_a mr_b mr_ra mr_rb mr_rc] in *.
  destruct (code_draws2 _ H1) as (z1 & -> & ?), (code_draws2 _ H2) as (z2 & -> & ?), (code_draws2 _ H3) as (z3 & -> & ?),
    (code_draws2 _ H4) as (z4 & -> & ?), (code_draws2 _ H5) as (z5 & -> & ?).
  destruct (one_elt a A1) as (za & ->), (one_elt b B1) as (zb & ->). inversion A2; inversion B2; subst.
  exists z1, z2, za, zb, z3, z4, z5. auto 12.
Qed.

Lemma mul_view2 x y rx ry a b ra rb rc :
  mul_view BMul 2 0 [1%nat] [1%nat] [x] [y] (mkMR [[rx]] [[ry]] [a] [b] [[ra]] [[rb]] [[rc]]) =
  Ok ([mkT [1%nat] [rsub R64 x rx]], [mkT [1%nat] [rsub R64 y ry]],
      [(mkT [1%nat] [rsub R64 a ra], mkT [1%nat] [rsub R64 b rb], mkT [1%nat] [rsub R64 (rmul R64 a b) rc])],
      (mkT [1%nat] [radd R64 (rsub R64 rx ra) (rsub R64 (rsub R64 x rx) (rsub R64 a ra))],
       mkT [1%nat] [radd R64 (rsub R64 ry rb) (rsub R64 (rsub R64 y ry) (rsub R64 b rb))])).
Proof. reflexivity. Qed.

Lemma half_in z : 0 <= z < 2^63 -> in_ring R64 z.
Proof. intros H. apply in_ring64. change (2^63) with 9223372036854775808 in *. lia. Qed.

Lemma masked2 x rx a ra : in_ring R64 x -> in_ring R64 rx -> in_ring R64 a -> in_ring R64 ra ->
  radd R64 (rsub R64 rx ra) (rsub R64 (rsub R64 x rx) (rsub R64 a ra)) == x - a [mod R64].
Proof.
  intros. rewrite radd_eqmod by (auto using rsub_in). rewrite (rsub_eqmod R64 supR (rsub R64 x rx)) by (auto using rsub_in).
  rewrite !rsub_eqmod by auto. apply eqmod_eq. lia.
Qed.

Lemma half_eq a b k : 0 <= a < 2^63 -> 0 <= b < 2^63 -> a = b + k * R64 -> a = b.
Proof. unfold R64. change (2^63) with 9223372036854775808. intros. nia. Qed.

Lemma product_leak x y r : in_ring R64 x -> in_ring R64 (x - 1) -> in_ring R64 y ->
  code_mulrand 2 [1%nat] [1%nat] [1%nat] r -> nth 0 (nth 0 (mr_rc r) []) 0 < nth 0 (mr_b r) 0 ->
  forall r', code_mulrand 2 [1%nat] [1%nat] [1%nat] r' ->
  mul_view BMul 2 0 [1%nat] [1%nat] [x] [y] r <> mul_view BMul 2 0 [1%nat] [1%nat] [x - 1] [y] r'.
Proof.
  intros X X' Y Hr LT r' Hr' E.
  destruct (mulrand2 r Hr) as (rx & ry & a & b & ra & rb & rc & -> & A & B & C & RX & RY & RA & RB).
  destruct (mulrand2 r' Hr') as (rx' & ry' & a' & b' & ra' & rb' & rc' & -> & A' & B' & C' & RX' & RY' & RA' & RB').
  cbn [mr_b mr_rc nth] in LT. rewrite !mul_view2 in E.
  injection E as _ _ _ _ Ec Ee Ed.
  assert (Me : x - a == x - 1 - a' [mod R64]).
  { rewrite <- (masked2 x rx a ra), Ee by auto using half_in. apply masked2; auto using half_in. }
  assert (Md : y - b == y - b' [mod R64]).
  { rewrite <- (masked2 y ry b rb), Ed by auto using half_in. apply masked2; auto using half_in. }
  assert (Mc : a * b - rc == a' * b' - rc' [mod R64]).
  { rewrite <- (rmul_eqmod R64 supR a b), <- (rmul_eqmod R64 supR a' b') by auto using half_in.
    rewrite <- !(rsub_eqmod R64 supR) by auto using half_in, rmul_in. rewrite Ec. reflexivity. }
  destruct Me as [k1 K1], Md as [k2 K2], Mc as [k3 K3].
  assert (b = b') by (apply (half_eq _ _ (- k2)); auto; lia). subst b'.
  assert (EA : a' = a - 1 + k1 * R64) by lia.
  assert (rc' == rc - b [mod R64]).
  { exists (k1 * b + k3). rewrite EA in K3. clear - K3. rewrite Z.mul_add_distr_r in K3. lia. }
  destruct H as [k K]. clear - K LT B C C'. unfold R64 in *. change (2^63) with 9223372036854775808 in *.
  change (2^64) with 18446744073709551616 in *. nia.
Qed.
