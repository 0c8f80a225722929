(** Property C81: what sessions with replicated shares (protocols Falcon and ABY3) do not offer raises
    an exception; it never returns a value. *)
From Coq Require Import QArith Lia List.
From Verif Require Import Util S_Ring S_Tensor M_Torch M_Encoder M_Tensor M_Share M_Spdz M_Fss M_Engine M_Approx M_Softmax
  L_Share S_Rep M_Rep M_RepView M_RepEngine L_RepEngine.
Import ListNotations.
Local Open Scope Z_scope.
Local Open Scope list_scope.

(** the computation returns a value from some state *)
Definition can_return {W A} (m : comp W A) : Prop := exists w a w', m w = (Ok a, w').
Lemma stuck_cannot {W A} (m : comp W A) : stuck m -> ~ can_return m.
Proof. intros H (w & a & w' & E). destruct (H w) as (e & w'' & E'). rewrite E in E'. discriminate. Qed.

(** a secret is shared in a Falcon session of any number of parties (ring 2^64): every party gets
    consistent shares of the encoded secret, and they reconstruct to it *)
Theorem C81_sharing : forall s p rnd, (2 <= rs_n s)%nat -> rs_ring s = 2^64 -> pub_ok p ->
  draws (2^64) (rs_n s) (pub_shape p) rnd ->
  exists x, rm_secret PFalcon s p rnd = Ok x /\ rm_sid x = rs_id s /\ rm_shape x = pub_shape p /\
    replicated (2^64) (pub_shape p) (encode (rs_cfg s) (pub_vals p)) (map r_shares (rm_ps x)) /\
    rm_reconstruct s x = Ok (mkT (pub_shape p) (encode (rs_cfg s) (pub_vals p))).
Proof. exact rm_secret_ok. Qed.
Print Assumptions C81_sharing.

Definition rse : rsess := mkRS 7 3 (2^64) (mkConfig 2 16) true (fun k => k).
Definition rsp : pub := PTensor [2%nat] [NFloat (3 # 2); NInt (-7)].
Definition rsd : list (list Z) := [[2^63 - 1; -4]; [9; 11]].
Example C81_sharing_witness : (* [1.5; -7] among three parties *)
  (2 <= rs_n rse)%nat /\ rs_ring rse = 2^64 /\ pub_ok rsp /\ draws (2^64) (rs_n rse) (pub_shape rsp) rsd /\
  (do x <- rm_secret PFalcon rse rsp rsd; rm_reconstruct rse x) = Ok (mkT [2%nat] [98304; -458752]).
Proof.
  split; [cbn; lia|]. split; [reflexivity|]. split; [reflexivity|].
  split; [|vm_compute; reflexivity]. split; [reflexivity|]. repeat constructor; cbn; lia.
Qed.

(** in an ABY3 session no secret held by the orchestrator can be shared *)
Theorem C81_no_aby3_sharing : forall s p rnd, (2 <= rs_n s)%nat -> pub_ok p ->
  draws (2^64) (rs_n s) (pub_shape p) rnd -> rm_secret PAby3 s p rnd = Err AttributeError.
Proof.
  intros s p rnd Hn Hp Hd. unfold rm_secret. destruct (Nat.eqb_spec (rs_n s) 0); [lia|].
  destruct (share_init_in (rs_cfg s) p Hp) as [HI EI]. rewrite EI in *.
  destruct (L_Mul.gen_shares (rs_n s) _ _ rnd Hn HI Hd) as (ss & E & _). rewrite E. reflexivity.
Qed.
Print Assumptions C81_no_aby3_sharing.
Theorem C81_aby3_sharing_refuted : exists s p rnd,
  (2 <= rs_n s)%nat /\ pub_ok p /\ draws (2^64) (rs_n s) (pub_shape p) rnd /\ rm_secret PAby3 s p rnd = Err AttributeError.
Proof.
  exists rse, rsp, rsd. destruct C81_sharing_witness as (H1 & _ & H3 & H4 & _).
  repeat (split; [assumption|]). apply C81_no_aby3_sharing; assumption.
Qed.
Print Assumptions C81_aby3_sharing_refuted.

(** no relational operator returns, for no number of parties and no operands *)
Theorem C81_comparisons : forall pr s r x y rnd,
  (forall z, rm_rel pr s r x y rnd <> Ok z) /\
  (r <> RGt -> forall y', y = inl y' -> rm_rel pr s r x y rnd = Err AttributeError) /\
  (forall p, y = inr p -> (2 <= rs_n s)%nat -> pub_ok p -> draws (2^64) (rs_n s) (pub_shape p) rnd -> rs_ring s = 2^64 ->
     r <> RGt -> rm_rel pr s r x y rnd = Err AttributeError).
Proof.
  intros pr s r x y rnd. split; [intros z; apply rel_never|]. split.
  - intros H y' ->. unfold rm_rel. cbn [rm_convert rbind]. destruct r; congruence.
  - intros p -> Hn Hp Hd Hr H. unfold rm_rel. cbn [rm_convert]. destruct pr.
    + destruct (rm_secret_ok s p rnd Hn Hr Hp Hd) as (x' & -> & _). cbn [rbind]. destruct r; congruence.
    + rewrite C81_no_aby3_sharing by assumption. reflexivity.
Qed.
Print Assumptions C81_comparisons.

(** the functions of approximations/, sort and max: none of them ever returns *)
Theorem C81_functions : forall pr s u, let E := rep_engine pr s u in
  (forall x, ~ can_return (sign E x)) /\
  (forall x, ~ can_return (modulus E x)) /\
  (forall x, ~ can_return (relu E x)) /\
  (forall lo hi x, ~ can_return (hardtanh E lo hi x)) /\
  (forall it x, ~ can_return (exp_a E it x)) /\
  (forall it ei x, ~ can_return (log_a E it ei x)) /\
  (forall m n x, ~ can_return (reciprocal E m n x)) /\
  (forall x y, ~ can_return (rep_div pr s u x y)) /\
  (forall m cs x, m <> SMaclaurin -> ~ can_return (sigmoid E m cs x)) /\
  (forall m cs x, ~ can_return (tanh_a E m cs x)) /\
  (forall xs d, length xs <> 1%nat -> ~ can_return (line_max E xs d)) /\
  (forall z xs, length xs <> 1%nat -> ~ can_return (softmax E z xs) /\ ~ can_return (log_softmax E z xs)) /\
  (forall sh l asc, (2 <= length l)%nat -> ~ can_return (sort E sh l asc)).
Proof.
  intros pr s u E.
  pose proof (rep_rel_stuck pr s u) as NR. pose proof (rep_relp_stuck pr s u) as NP. pose proof (rep_exp_stuck pr s u) as NX.
  repeat match goal with |- _ /\ _ => split end; intros; try (split; intros); apply stuck_cannot.
  - apply sign_stuck; assumption.
  - apply modulus_stuck; assumption.
  - apply relu_stuck; assumption.
  - apply hardtanh_stuck; assumption.
  - apply NX.
  - apply log_stuck; assumption.
  - apply reciprocal_stuck; assumption.
  - apply rep_div_stuck.
  - apply sigmoid_stuck; assumption.
  - apply tanh_stuck; assumption.
  - apply max_stuck; assumption.
  - apply softmax_stuck; assumption.
  - apply log_softmax_stuck; assumption.
  - apply sort_stuck; assumption.
Qed.
Print Assumptions C81_functions.

(** the excluded cases do return: the Maclaurin sigmoid, which needs sums and products only, and the
    one-entry cases of softmax and sort *)
Definition rse1 : rsess := mkRS 7 3 (2^64) (mkConfig 2 16) false (fun k => k).
Definition zero1 : tensor := mkT [1%nat] [0].
Definition rsu : rep_supply :=
  mkRSup (fun k => mkSup [mkT [1%nat] [5]; mkT [1%nat] [-7]; mkT [1%nat] [2]] (mkT [1%nat] [Z.of_nat k]) (mkRT [] [] [])) (fun _ => []).
Definition rs_x (v : Z) : rmpc :=
  mkRM 7 [1%nat] (map (fun k => mkR (2^64) (mkConfig 2 16) (Some k)
    (map (fun i => nth ((k + i) mod 3)%nat [mkT [1%nat] [v - 300]; mkT [1%nat] [100]; mkT [1%nat] [200]] zero1) [0; 1]%nat)) [0; 1; 2]%nat).
Theorem C81_maclaurin_witness : (* sigmoid(1.5) = 0.7714..., the value of the polynomial *)
  exists r w, sigmoid (rep_engine PFalcon rse1 rsu) SMaclaurin [] (rs_x 98304) 0%nat = (Ok r, w) /\
    exists v, rm_reconstruct rse1 r = Ok (mkT [1%nat] [v]) /\ 50520 <= v <= 50600.
Proof.
  remember (sigmoid (rep_engine PFalcon rse1 rsu) SMaclaurin [] (rs_x 98304) 0%nat) as z eqn:Ez.
  vm_compute in Ez. subst z. do 2 eexists. split; [reflexivity|]. eexists. split; [vm_compute; reflexivity|]. lia.
Qed.
Print Assumptions C81_maclaurin_witness.
Example C81_one_entry_witness :
  can_return (softmax (rep_engine PFalcon rse1 rsu) (rs_x 0) [rs_x 5]) /\
  can_return (sort (rep_engine PAby3 rse1 rsu) rm_shape [rs_x 5] true).
Proof.
  split; exists 0%nat.
  - remember (softmax (rep_engine PFalcon rse1 rsu) (rs_x 0) [rs_x 5] 0%nat) as z eqn:Ez. vm_compute in Ez. subst z. do 2 eexists. reflexivity.
  - do 2 eexists. reflexivity.
Qed.
(** two parties: the division of exp is computed, its power then raises *)
Definition rse2 : rsess := mkRS 7 2 (2^64) (mkConfig 2 16) false (fun k => k).
Example C81_exp_witness :
  fst (exp_a (rep_engine PFalcon rse1 rsu) 8 (rs_x 65536) 0%nat) = Err AttributeError /\
  fst (exp_a (rep_engine PFalcon rse2 rsu) 8 (rs_x 65536) 0%nat) = Err ValueError /\
  fst (relu (rep_engine PAby3 rse1 rsu) (rs_x 5) 0%nat) = Err IndexError.
Proof. vm_compute. auto. Qed.
