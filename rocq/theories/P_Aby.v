(** Properties C24 to C27: bit injection, bit decomposition, selection and private comparison.
    Specifications: S_RepT ([holds]: the parties of a session hold the views of one sharing) and
    S_Bits ([bit v i]: the i-th binary digit of v).
    The randomness of the multiplications is a supply [u]; [good] (L_Aby) says that its zero
    masks are sharings of zero, its random tensors are ring elements and, for a malicious
    session, its triples are correct; nothing else is assumed about it. *)
From Coq Require Import QArith.
From Verif Require Import Util Modular S_Ring S_Bits S_Tensor S_Bil S_Rep S_RepT M_Torch L_Torch M_Encoder M_Tensor L_Tensor M_Share M_Spdz M_Rep
  S_Spdz L_Bil L_RShare L_Rep L_Rep2 L_Rep3 L_Rep4 L_Rep5 L_Rep6 L_Rep7 P_Rep M_Aby3 L_Aby L_Aby2 L_Aby3 L_Aby4 L_Aby5 L_Aby6 L_Aby7.
Local Open Scope Z_scope.

(** example supplies for tensors of the shape [2] *)
Definition sup2 : sup := fun _ => mkSup [t1 [1; 0]; t1 [1; 1]; t1 [0; 1]] (t1 [1; 0]) (mkRT [] [] []).
Definition sup67 : sup := fun _ => mkSup [t1 [1; 2]; t1 [3; 4]; t1 [63; 61]] (t1 [5; 66]) (mkRT [] [] []).
Definition sup64 : sup := fun _ => mkSup [t1 [1; 2]; t1 [3; 2^63 - 1]; t1 [-4; 2^63 - 1]] (t1 [5; -66]) (mkRT [] [] []).
(** with triples, for a malicious session *)
Definition sup67m : sup := fun _ => mkSup [t1 [1; 2]; t1 [3; 4]; t1 [63; 61]] (t1 [5; 66])
  (mkRT (rm_ps (rx RS3m 67 c0 [2%nat] [[1; 2]; [3; 4]; [5; 60]])) (rm_ps (rx RS3m 67 c0 [2%nat] [[7; 8]; [9; 10]; [60; 3]]))
        (rm_ps (rx RS3m 67 c0 [2%nat] [[1; 1]; [2; 2]; [11; 43]]))).

Ltac good_semi := intros q; split; [apply sharedb_ok; vm_compute; reflexivity|]; split; [reflexivity|]; split; [apply tensor_inb_ok; vm_compute; reflexivity|discriminate].

(* ------------------------------------------------------------------ C24 *)
(** a shared bit, converted to any ring: the parties hold a sharing of the same 0 or 1.
    Missing from the full statement: tensors without dimensions (see C24_zero_dim_refuted). *)
Theorem C24_bit_injection_partial : forall ring s sh v x u, supported ring -> rs_n s = 3%nat -> sh <> [] ->
  holds s 2 (mkConfig 1 0) sh v x -> good ring s sh u ->
  exists z, bit_injection s x ring u = Ok z /\ holds s ring (mkConfig 1 0) sh v z /\
    Forall (fun b => b = 0 \/ b = 1) v /\ rm_reconstruct s z = Ok (mkT sh v).
Proof.
  intros ring s sh v x u Hs Hn Hsh HX HU. destruct (bit_injection_ok ring Hs s Hn sh Hsh x v u HX HU) as (z & E & HZ).
  destruct (holds_len _ _ _ _ _ _ supported_2 HX) as (LV & IV2).
  assert (HB : Forall (fun b => b = 0 \/ b = 1) v).
  { apply Forall_forall. intros b Hb. apply in_ring2. unfold vec_in in IV2. rewrite Forall_forall in IV2. auto. }
  assert (HZ' : holds s ring cfg10 sh v z).
  { rewrite (vt_self ring Hs s Hn sh v) by (auto; apply Forall_forall; intros b Hb; rewrite Forall_forall in HB; apply bits_in_ring; auto).
    exact HZ. }
  exists z. split; [exact E|]. split; [exact HZ'|]. split; [exact HB|]. apply (holds_reconstruct ring Hs s _ _ _ _ HZ'). lia.
Qed.
Print Assumptions C24_bit_injection_partial.

Example C24_witness : (* the bits 1 and 0 with shares 1,1,1 and 1,0,1, to the field of 67 elements, malicious
                         session; and to the ring 2^64 *)
  rs_n RS3m = 3%nat /\ holds RS3m 2 (mkConfig 1 0) [2%nat] [1; 0] (rx RS3m 2 c0 [2%nat] [[1; 1]; [1; 0]; [1; 1]]) /\
  good 67 RS3m [2%nat] sup67m /\ good (2^64) RS3 [2%nat] sup64 /\
  (do z <- bit_injection RS3m (rx RS3m 2 c0 [2%nat] [[1; 1]; [1; 0]; [1; 1]]) 67 sup67m; rm_reconstruct RS3m z) = Ok (t1 [1; 0]) /\
  (do z <- bit_injection RS3 (rx RS3 2 c0 [2%nat] [[1; 1]; [1; 0]; [1; 1]]) (2^64) sup64; rm_reconstruct RS3 z) = Ok (t1 [1; 0]).
Proof.
  split; [reflexivity|]. split; [rx|]. split.
  { intros q. split; [apply sharedb_ok; vm_compute; reflexivity|]. split; [reflexivity|]. split; [apply tensor_inb_ok; vm_compute; reflexivity|].
    intros _. exists c0, c0, c0, [9; 66], [9; 21], (rx RS3m 67 c0 [2%nat] [[1; 2]; [3; 4]; [5; 60]]), (rx RS3m 67 c0 [2%nat] [[7; 8]; [9; 10]; [60; 3]]),
      (rx RS3m 67 c0 [2%nat] [[1; 1]; [2; 2]; [11; 43]]).
    split; [reflexivity|]. split; [rx|]. split; [rx|]. rx. }
  split; [good_semi|]. split; vm_compute; reflexivity.
Qed.

(** a bit without dimensions comes back with the shape [1] of the public numbers, although the
    tensor's record says shape []; the value is right *)
Definition t0 (v : Z) : tensor := mkT [] [v].
Definition sup64_0 : sup := fun _ => mkSup [t0 1; t0 3; t0 (-4)] (t0 5) (mkRT [] [] []).
Theorem C24_zero_dim_refuted : exists s v x u z, rs_n s = 3%nat /\ holds s 2 (mkConfig 1 0) [] [v] x /\ good (2^64) s [] u /\
  bit_injection s x (2^64) u = Ok z /\ rm_shape z = [] /\ rm_reconstruct s z = Ok (mkT [1%nat] [v]) /\
  rm_reconstruct s x = Ok (mkT [] [v]).
Proof.
  exists RS3, 1, (rx RS3 2 c0 [] [[1]; [0]; [0]]), sup64_0. eexists.
  split; [reflexivity|]. split; [rx|]. split; [good_semi|]. split; [vm_compute; reflexivity|]. split; [reflexivity|].
  split; vm_compute; reflexivity.
Qed.
Print Assumptions C24_zero_dim_refuted.

(** only bits can be injected *)
Theorem C24_wrong_ring : forall ring s sh c v x r u, rs_n s = 3%nat -> holds s r c sh v x -> r <> 2 ->
  bit_injection s x ring u = Err ValueError.
Proof.
  intros ring s sh c v x r u Hn HX Hr. destruct (holds_views _ _ _ _ _ _ HX) as (ss & cf & _ & HL & -> & _).
  unfold bit_injection, first_ring. cbn [rm_ps]. rewrite rviews_get by lia. cbn [rbind fst r_ring].
  destruct (Z.eqb_spec r 2); [contradiction|reflexivity].
Qed.
Print Assumptions C24_wrong_ring.
Example C24_wrong_ring_witness :
  holds RS3 67 c0 [2%nat] [9; 66] (rx RS3 67 c0 [2%nat] [[1; 2]; [3; 4]; [5; 60]]) /\ (67 <> 2)%Z.
Proof. split; [rx|lia]. Qed.

(* ------------------------------------------------------------------ C25 *)
Lemma nr_bits_pow n ring : supported ring -> ring = 2 ^ Z.of_nat n -> get_nr_bits ring = n /\ ring <> 67.
Proof.
  intros Hs E.
  assert (N : ring <> 67).
  { intros E67. rewrite E67 in E. destruct n as [|n]; [discriminate|]. rewrite Nat2Z.inj_succ, Z.pow_succ_r in E by lia. lia. }
  split; [|exact N]. pose proof (pow2_ring ring Hs N) as EP. rewrite E in EP at 1. apply Z.pow_inj_r in EP; lia.
Qed.

(** a session of ring 2^n: n sharings, the i-th of the i-th two's complement digit *)
Theorem C25_bit_decomposition : forall s n sh c v x u, rs_n s = 3%nat -> supported (rs_ring s) -> rs_ring s = 2 ^ Z.of_nat n ->
  sh <> [] -> holds s (rs_ring s) c sh v x -> good 2 s sh u ->
  exists l, bit_decomposition s x u = Ok l /\ length l = n /\
    forall i b, nth_error l i = Some b ->
      holds s 2 (mkConfig 1 0) sh (map (fun w => bit w i) v) b /\ rm_reconstruct s b = Ok (mkT sh (map (fun w => bit w i) v)).
Proof.
  intros s n sh c v x u Hn Hs E Hsh HX HU. destruct (nr_bits_pow n _ Hs E) as (EN & N67).
  destruct (bit_decomposition_ok s Hn Hs N67 sh Hsh x c v u HX HU) as (l & EL & HL & HB). rewrite EN in *.
  exists l. split; [exact EL|]. split; [exact HL|]. intros i b Hi. pose proof (nth_error_in_range _ _ _ Hi) as Hlt.
  specialize (HB i b ltac:(lia)). rewrite (nth_error_nth l i b Hi) in HB.
  destruct (holds_len _ _ _ _ _ _ Hs HX) as (LV & _).
  assert (HB' : holds s 2 cfg10 sh (map (fun w => bit w i) v) b).
  { apply hv_self in HB; [|exact Hn|intros e _; apply in_ring2, bit_01].
    refine (eq_rect _ (fun w => holds s 2 cfg10 sh w b) HB _ _). rewrite <- LV.
    transitivity (map (fun w => bit w i) (map (fun e => nth e v 0) (seq 0 (length v)))); [rewrite map_map; reflexivity|f_equal; apply map_nth_seq]. }
  split; [exact HB'|]. apply (holds_reconstruct 2 supported_2 s _ _ _ _ HB'). lia.
Qed.
Print Assumptions C25_bit_decomposition.

(** the digits determine the value *)
Theorem C25_digits : forall v n, digits (bit v) n = v mod 2 ^ Z.of_nat n.
Proof. exact digits_bit. Qed.
Print Assumptions C25_digits.

Definition rec (s : rsess) (r : result (list rmpc)) : result (list (list Z)) :=
  do l <- r; rmap (fun z => do t <- rm_reconstruct s z; Ok (tdat t)) l.
Definition bits64 (a b : Z) : list (list Z) := map (fun i => [bit a i; bit b i]) (seq 0 64).

Example C25_witness : (* -6 and 2^62 + 5 with wrapping shares *)
  rs_ring RS3 = 2 ^ Z.of_nat 64 /\ supported (rs_ring RS3) /\
  holds RS3 (2^64) c16 [2%nat] [-6; 2^62 + 5] (rx RS3 (2^64) c16 [2%nat] [[2^63 - 1; 2^62]; [2^63 - 1; 7]; [-4; -2]]) /\
  good 2 RS3 [2%nat] sup2 /\
  rec RS3 (bit_decomposition RS3 (rx RS3 (2^64) c16 [2%nat] [[2^63 - 1; 2^62]; [2^63 - 1; 7]; [-4; -2]]) sup2) = Ok (bits64 (-6) (2^62 + 5)) /\
  firstn 4 (bits64 (-6) (2^62 + 5)) = [[0; 1]; [1; 0]; [0; 1]; [1; 0]] /\ skipn 61 (bits64 (-6) (2^62 + 5)) = [[1; 0]; [1; 1]; [1; 0]].
Proof.
  split; [reflexivity|]. split; [sup|]. split; [rx|]. split; [good_semi|]. split; [vm_compute; reflexivity|]. split; vm_compute; reflexivity.
Qed.

(** the variant in which the orchestrator opens the value: any ring, any shape *)
Theorem C25_ttp : forall s n ring sh c v x rnd, rs_n s = 3%nat -> supported (rs_ring s) -> rs_ring s = 2 ^ Z.of_nat n ->
  supported ring -> holds s ring c sh v x ->
  (forall i, (i < n)%nat -> tensor_in 2 sh (mkT sh (fst (rnd i))) /\ tensor_in 2 sh (mkT sh (snd (rnd i)))) ->
  exists l, bit_decomposition_ttp s x rnd = Ok l /\ length l = n /\
    forall i b, nth_error l i = Some b -> holds s 2 (mkConfig 1 0) sh (map (fun w => bit w i) v) b.
Proof.
  intros s n ring sh c v x rnd Hn Hs E Hr HX HR. destruct (nr_bits_pow n _ Hs E) as (EN & N67). rewrite <- EN in HR.
  destruct (ttp_ok s Hn sh ring c v x rnd Hr HX HR) as (l & EL & HL & HB). rewrite EN in *.
  exists l. split; [exact EL|]. split; [exact HL|]. intros i b Hi. pose proof (nth_error_in_range _ _ _ Hi) as Hlt.
  specialize (HB i b ltac:(lia)). rewrite (nth_error_nth l i b Hi) in HB.
  destruct (holds_len _ _ _ _ _ _ Hr HX) as (LV & _).
  apply hv_self in HB; [|exact Hn|intros e _; apply in_ring2, bit_01].
  refine (eq_rect _ (fun w => holds s 2 cfg10 sh w b) HB _ _). rewrite <- LV.
    transitivity (map (fun w => bit w i) (map (fun e => nth e v 0) (seq 0 (length v)))); [rewrite map_map; reflexivity|f_equal; apply map_nth_seq].
Qed.
Print Assumptions C25_ttp.
Example C25_ttp_witness :
  holds RS3 (2^64) c16 [2%nat] [-6; 2^62 + 5] (rx RS3 (2^64) c16 [2%nat] [[2^63 - 1; 2^62]; [2^63 - 1; 7]; [-4; -2]]) /\
  (forall i, (i < 64)%nat -> tensor_in 2 [2%nat] (mkT [2%nat] [1; 0]) /\ tensor_in 2 [2%nat] (mkT [2%nat] [1; 1])) /\
  rec RS3 (bit_decomposition_ttp RS3 (rx RS3 (2^64) c16 [2%nat] [[2^63 - 1; 2^62]; [2^63 - 1; 7]; [-4; -2]]) (fun _ => ([1; 0], [1; 1]))) = Ok (bits64 (-6) (2^62 + 5)).
Proof. split; [rx|]. split; [intros i _; split; apply tensor_inb_ok; vm_compute; reflexivity|vm_compute; reflexivity]. Qed.

(* ------------------------------------------------------------------ C26 *)
(** element by element: x where the bit is 0, y where it is 1; the bits may have to be broadcast.
    Missing from the full statement: bits without dimensions (see C26_zero_dim_refuted). *)
Theorem C26_selection_partial : forall s sb sx c d vx vy vb vc x y b cp u,
  rs_n s = 3%nat -> supported (rs_ring s) -> sb <> [] -> bshape sb sx sx -> 1 <= c_base c ->
  holds s (rs_ring s) c sx vx x -> holds s (rs_ring s) d sx vy y -> holds s 2 (mkConfig 1 0) sb vb b ->
  holds s 2 (mkConfig 1 0) sb vc (mkRM (rs_id s) sb cp) ->
  good (rs_ring s) s sb (subsup u 0) -> (forall k, (2 <= k <= 4)%nat -> tensor_in (rs_ring s) sb (su_rand (u [k]))) ->
  good_sup (rs_ring s) s sb sx sx (mul_vr (rs_ring s) sb sx sx) (u [5%nat]) ->
  exists z v, select_shares s x y b cp u = Ok z /\ holds s (rs_ring s) c sx v z /\ length v = numel sx /\
    forall e, (e < numel sx)%nat ->
      (bget sb sx vb e = 0 -> nth e v 0 = nth e vx 0) /\ (bget sb sx vb e = 1 -> nth e v 0 = nth e vy 0) /\
      (bget sb sx vb e = 0 \/ bget sb sx vb e = 1).
Proof.
  intros s sb sx c d vx vy vb vc x y b cp u Hn Hs Hsb Hb Hc HX HY HB HCP HU HR HU5.
  destruct (select_ok s Hn Hs sb sx Hsb Hb c d vx vy vb vc x y b cp u Hc HX HY HB HCP HU HR HU5) as (z & E & HZ).
  exists z. eexists. split; [exact E|]. split; [exact HZ|]. split; [rewrite map_length, seq_length; reflexivity|].
  intros e He. rewrite (nth_map_in _ 0%nat) by (rewrite seq_length; auto). rewrite nth_seq_lt by auto. cbn [plus].
  split; [intros ->; reflexivity|]. split; [intros ->; reflexivity|].
  destruct (holds_len _ _ _ _ _ _ supported_2 HB) as (LB & IB). apply in_ring2. rewrite <- bexpand_nth by auto.
  apply (nth_in_ring 2); [exact supported_2|]. apply bexpand_in; auto using supported_2.
Qed.
Print Assumptions C26_selection_partial.

Definition C26_x := rx RS3 (2^64) c16 [2%nat] [[1; 2]; [3; 4]; [5; 60]].
Definition C26_y := rx RS3 (2^64) c16 [2%nat] [[100; 2^63 - 1]; [30; 2^63 - 1]; [0; 9]].
Definition C26_b := rx RS3 2 c0 [2%nat] [[1; 1]; [1; 0]; [0; 0]].
Example C26_witness : (* the bits 0 and 1 *)
  bshape [2%nat] [2%nat] [2%nat] /\
  holds RS3 (2^64) c16 [2%nat] [9; 66] C26_x /\ holds RS3 (2^64) c16 [2%nat] [130; 7] C26_y /\ holds RS3 2 c0 [2%nat] [0; 1] C26_b /\
  holds RS3 2 c0 [2%nat] [1; 1] (mkRM 0 [2%nat] (rm_ps (rx RS3 2 c0 [2%nat] [[0; 1]; [1; 0]; [0; 0]]))) /\
  good (2^64) RS3 [2%nat] (subsup sup64 0) /\
  (forall k, (2 <= k <= 4)%nat -> tensor_in (2^64) [2%nat] (su_rand (sup64 [k]))) /\
  good_sup (2^64) RS3 [2%nat] [2%nat] [2%nat] (mul_vr (2^64) [2%nat] [2%nat] [2%nat]) (sup64 [5%nat]) /\
  (do z <- select_shares RS3 C26_x C26_y C26_b (rm_ps (rx RS3 2 c0 [2%nat] [[0; 1]; [1; 0]; [0; 0]])) sup64; rm_reconstruct RS3 z) = Ok (t1 [9; 7]).
Proof.
  split; [apply bshape_same|]. split; [rx|]. split; [rx|]. split; [rx|]. split; [rx|]. split; [good_semi|].
  split; [intros k _; apply tensor_inb_ok; vm_compute; reflexivity|]. split; [apply (ltac:(good_semi) : good (2^64) RS3 [2%nat] sup64)|].
  vm_compute; reflexivity.
Qed.

(** a session over the ring 2 *)
Definition RS3_2 := mkRS 0 3 2 c0 false (fun k => k).
Example C26_ring2_witness :
  holds RS3_2 2 c0 [2%nat] [0; 0] (rx RS3_2 2 c0 [2%nat] [[1; 0]; [1; 0]; [0; 0]]) /\ holds RS3_2 2 c0 [2%nat] [1; 1] (rx RS3_2 2 c0 [2%nat] [[1; 0]; [1; 0]; [1; 1]]) /\
  holds RS3_2 2 c0 [2%nat] [0; 1] (rx RS3_2 2 c0 [2%nat] [[1; 1]; [1; 0]; [0; 0]]) /\
  holds RS3_2 2 c0 [2%nat] [1; 1] (mkRM 0 [2%nat] (rm_ps (rx RS3_2 2 c0 [2%nat] [[0; 1]; [1; 0]; [0; 0]]))) /\
  good 2 RS3_2 [2%nat] (subsup sup2 0) /\ good 2 RS3_2 [2%nat] sup2 /\
  (do z <- select_shares RS3_2 (rx RS3_2 2 c0 [2%nat] [[1; 0]; [1; 0]; [0; 0]]) (rx RS3_2 2 c0 [2%nat] [[1; 0]; [1; 0]; [1; 1]])
     (rx RS3_2 2 c0 [2%nat] [[1; 1]; [1; 0]; [0; 0]]) (rm_ps (rx RS3_2 2 c0 [2%nat] [[0; 1]; [1; 0]; [0; 0]])) sup2;
   rm_reconstruct RS3_2 z) = Ok (t1 [0; 1]).
Proof. split; [rx|]. split; [rx|]. split; [rx|]. split; [rx|]. split; [good_semi|]. split; [good_semi|]. vm_compute; reflexivity. Qed.

(** bits without dimensions: the right value, but with shape [1] *)
Theorem C26_zero_dim_refuted : exists s c vx vy vb x y b cp u z, rs_n s = 3%nat /\ rs_ring s = 2^64 /\
  holds s (2^64) c [] [vx] x /\ holds s (2^64) c [] [vy] y /\ holds s 2 (mkConfig 1 0) [] [vb] b /\
  holds s 2 (mkConfig 1 0) [] [1] (mkRM (rs_id s) [] cp) /\ good (2^64) s [] u /\
  select_shares s x y b cp u = Ok z /\ vb = 1 /\ rm_reconstruct s y = Ok (mkT [] [vy]) /\ rm_reconstruct s z = Ok (mkT [1%nat] [vy]).
Proof.
  exists RS3, c16, 9, 130, 1, (rx RS3 (2^64) c16 [] [[1]; [3]; [5]]), (rx RS3 (2^64) c16 [] [[100]; [30]; [0]]),
    (rx RS3 2 c0 [] [[1]; [0]; [0]]), (rm_ps (rx RS3 2 c0 [] [[1]; [1]; [1]])), sup64_0. eexists.
  split; [reflexivity|]. split; [reflexivity|]. split; [rx|]. split; [rx|]. split; [rx|]. split; [rx|]. split; [good_semi|].
  split; [vm_compute; reflexivity|]. split; [reflexivity|]. split; vm_compute; reflexivity.
Qed.
Print Assumptions C26_zero_dim_refuted.

(* ------------------------------------------------------------------ C27 *)
(** the mask is the first non-zero draw; the loop goes on for ever only while every draw is zero *)
Theorem C27_mask : forall s sh dr vs u, rs_n s = 3%nat -> sh <> [] -> (0 < numel sh)%nat -> good 67 s sh u ->
  Forall2 (fun ps v => holds s 67 (mkConfig 1 0) [] [v] (mkRM (rs_id s) [] ps)) dr vs ->
  (exists m v, In v vs /\ v mod 67 <> 0 /\ random_prime_group s sh dr u 0 = Done (Ok m) /\
     holds s 67 (mkConfig 1 0) sh (repeat v (numel sh)) m) \/
  (random_prime_group s sh dr u 0 = Running /\ forall v, In v vs -> v mod 67 = 0).
Proof.
  intros s sh dr vs u Hn Hsh Hne HU HF.
  destruct (prime_group_ok s Hn sh Hsh u HU dr vs 0%nat HF) as [(m & v & Hin & [HV|HV] & E & HM)|(E & _ & H)]; [|lia|right; auto].
  left. exists m, v. split; [exact Hin|]. split; [exact HV|]. split; [exact E|].
  assert (IV67 : in_ring 67 v).
  { clear -HF Hin. induction HF as [|ps w dr vs Hw HF IH]; [destruct Hin|]. destruct Hin as [<-|Hin]; [|auto].
    destruct (holds_len _ _ _ _ _ _ supported_67 Hw) as (_ & HV). inversion HV; auto. }
  apply hv_self in HM; [|exact Hn|auto].
  refine (eq_rect _ (fun w => holds s 67 cfg10 sh w m) HM _ _). clear. generalize 0%nat as i. induction (numel sh); intros; cbn; f_equal; auto.
Qed.
Print Assumptions C27_mask.

Definition C27_draws : list (list rst) := [rm_ps (rx RS3 67 c0 [] [[1]; [2]; [64]]); rm_ps (rx RS3 67 c0 [] [[1]; [2]; [5]])].
Example C27_mask_witness : (* the draws 0 and 8 *)
  good 67 RS3 [2%nat] sup67 /\
  Forall2 (fun ps v => holds RS3 67 (mkConfig 1 0) [] [v] (mkRM (rs_id RS3) [] ps)) C27_draws [0; 8] /\
  match random_prime_group RS3 [2%nat] C27_draws sup67 0 with Done (Ok m) => rm_reconstruct RS3 m = Ok (t1 [8; 8]) | _ => False end.
Proof. split; [good_semi|]. split; [constructor; [rx|constructor; [rx|constructor]]|vm_compute; reflexivity]. Qed.

(** numbers of up to 65 bits, x given by sharings of its bits in the field of 67 elements, r
    public: the exact result.  At equality it is the negated random bit. *)
Theorem C27_exact : forall s sh n xs xv rsh r beta bv dr vs u,
  rs_n s = 3%nat -> sh <> [] -> (1 <= n <= 65)%nat ->
  length xs = n -> (forall i b, nth_error xs i = Some b -> holds s 67 (mkConfig 1 0) sh (map (fun w => bit w i) xv) b) ->
  length r = numel rsh -> bshape sh rsh sh ->
  holds s 2 (mkConfig 1 0) sh bv (mkRM (rs_id s) sh beta) ->
  Forall2 (fun ps v => holds s 67 (mkConfig 1 0) [] [v] (mkRM (rs_id s) [] ps)) dr vs -> (exists v, In v vs /\ v mod 67 <> 0) ->
  good 67 s sh u ->
  exists z v, private_compare s xs rsh r beta dr u = Done (Ok z) /\ holds s 2 (mkConfig 1 0) sh v z /\ length v = numel sh /\
    forall e, (e < numel sh)%nat -> nth e v 0 =
      match nth e xv 0 mod 2 ^ Z.of_nat n ?= bget rsh sh r e mod 2 ^ Z.of_nat n with Lt => 0 | Gt => 1 | Eq => 1 - nth e bv 0 end.
Proof.
  intros s sh n xs xv rsh r beta bv dr vs u Hn Hsh Hk Lx Hx Hr Hb HB HF Hv HU.
  assert (LXV : length xv = numel sh).
  { destruct xs as [|x0 xr]; [cbn in Lx; lia|]. specialize (Hx 0%nat x0 eq_refl). destruct (holds_len _ _ _ _ _ _ supported_67 Hx) as (L & _).
    rewrite map_length in L. exact L. }
  assert (Hx' : forall i d, (i < n)%nat -> hv 67 s sh (nth i xs d) (fun e => bit (nth e xv 0) i)).
  { intros i d Hi. assert (EI : nth_error xs i = Some (nth i xs d)) by (apply nth_error_nth'; lia). specialize (Hx i _ EI).
    refine (hv_ext 67 supported_67 s Hn sh _ _ _ _ (hv_holds 67 supported_67 s Hn sh _ _ Hx)). intros e He. cbn beta.
    rewrite (nth_map_in _ 0) by lia. reflexivity. }
  destruct (private_compare_ok s Hn sh Hsh n xs (fun e => nth e xv 0) rsh r beta bv dr vs u Hk Lx Hx' Hr Hb HB HF Hv HU) as (z & E & HZ).
  apply hv_self in HZ; [|exact Hn|].
  2:{ intros e He. apply in_ring2. destruct (_ ?= _); auto. destruct (holds_bit _ _ _ _ e HB He) as [->| ->]; auto. }
  exists z. eexists. split; [exact E|]. split; [exact HZ|]. split; [rewrite map_length, seq_length; reflexivity|].
  intros e He. rewrite (nth_map_in _ 0%nat) by (rewrite seq_length; auto). rewrite nth_seq_lt by auto. cbn [plus].
  rewrite !digits_bit. reflexivity.
Qed.
Print Assumptions C27_exact.

(** x >= r is decided correctly wherever x and r differ or the random bit is 0.  Missing for the full
    claim: equal numbers and the random bit 1 (where the claim is false). *)
Theorem C27_compare_partial : forall s sh n xs xv rsh r beta bv dr vs u,
  rs_n s = 3%nat -> sh <> [] -> (1 <= n <= 65)%nat ->
  length xs = n -> (forall i b, nth_error xs i = Some b -> holds s 67 (mkConfig 1 0) sh (map (fun w => bit w i) xv) b) ->
  Forall (fun w => 0 <= w < 2 ^ Z.of_nat n) xv -> Forall (fun w => 0 <= w < 2 ^ Z.of_nat n) r ->
  length r = numel rsh -> bshape sh rsh sh ->
  holds s 2 (mkConfig 1 0) sh bv (mkRM (rs_id s) sh beta) ->
  Forall2 (fun ps v => holds s 67 (mkConfig 1 0) [] [v] (mkRM (rs_id s) [] ps)) dr vs -> (exists v, In v vs /\ v mod 67 <> 0) ->
  good 67 s sh u ->
  exists z v, private_compare s xs rsh r beta dr u = Done (Ok z) /\ holds s 2 (mkConfig 1 0) sh v z /\
    forall e, (e < numel sh)%nat -> nth e xv 0 <> bget rsh sh r e \/ nth e bv 0 = 0 ->
      (nth e v 0 = 1 <-> bget rsh sh r e <= nth e xv 0) /\ (nth e v 0 = 0 <-> nth e xv 0 < bget rsh sh r e).
Proof.
  intros s sh n xs xv rsh r beta bv dr vs u Hn Hsh Hk Lx Hx Bx Br Hr Hb HB HF Hv HU.
  destruct (C27_exact s sh n xs xv rsh r beta bv dr vs u Hn Hsh Hk Lx Hx Hr Hb HB HF Hv HU) as (z & v & E & HZ & LV & HE).
  exists z, v. split; [exact E|]. split; [exact HZ|]. intros e He HD. rewrite (HE e He).
  assert (Z0 : 0 <= 0 < 2 ^ Z.of_nat n) by (pose proof (pow2_pos n); lia).
  assert (B1 : 0 <= nth e xv 0 < 2 ^ Z.of_nat n).
  { destruct (Nat.lt_ge_cases e (length xv)); [rewrite Forall_forall in Bx; apply Bx, nth_In; auto|rewrite nth_overflow by auto; exact Z0]. }
  assert (B2 : 0 <= bget rsh sh r e < 2 ^ Z.of_nat n).
  { unfold bget. match goal with |- context [nth ?k r 0] => destruct (Nat.lt_ge_cases k (length r)); [rewrite Forall_forall in Br; apply Br, nth_In; auto|rewrite nth_overflow by auto; exact Z0] end. }
  rewrite !Z.mod_small by auto. destruct (Z.compare_spec (nth e xv 0) (bget rsh sh r e)) as [EQ|LT|GT]; lia.
Qed.
Print Assumptions C27_compare_partial.

(** 3 bits: x = 5 and 2, r = 3 and 6, then r = 5 and 2 *)
Definition C27_x : list rmpc :=
  [rx RS3 67 c0 [2%nat] [[1; 2]; [3; 4]; [64; 61]]; rx RS3 67 c0 [2%nat] [[1; 2]; [3; 4]; [63; 62]]; rx RS3 67 c0 [2%nat] [[1; 2]; [3; 4]; [64; 61]]].
Definition C27_beta (b : Z) : list rst := rm_ps (rx RS3 2 c0 [2%nat] [[1; 0]; [1; 0]; [b; b]]).
Definition C27_run (b : Z) (r : list Z) : option (result tensor) :=
  match private_compare RS3 C27_x [2%nat] r (C27_beta b) C27_draws sup67 with
  | Done o => Some (do z <- o; rm_reconstruct RS3 z) | Running => None end.

Lemma C27_x_bits : forall i b, nth_error C27_x i = Some b -> holds RS3 67 (mkConfig 1 0) [2%nat] (map (fun w => bit w i) [5; 2]) b.
Proof. intros [|[|[|i]]] b H; cbn in H; try (destruct i; discriminate); injection H as <-; vm_compute (map _ _); rx. Qed.

Example C27_witness :
  length C27_x = 3%nat /\ (forall i b, nth_error C27_x i = Some b -> holds RS3 67 (mkConfig 1 0) [2%nat] (map (fun w => bit w i) [5; 2]) b) /\
  bshape [2%nat] [2%nat] [2%nat] /\ holds RS3 2 (mkConfig 1 0) [2%nat] [1; 1] (mkRM (rs_id RS3) [2%nat] (C27_beta 1)) /\
  Forall2 (fun ps v => holds RS3 67 (mkConfig 1 0) [] [v] (mkRM (rs_id RS3) [] ps)) C27_draws [0; 8] /\ good 67 RS3 [2%nat] sup67 /\
  C27_run 1 [3; 6] = Some (Ok (t1 [1; 0])) /\ C27_run 0 [3; 6] = Some (Ok (t1 [1; 0])).
Proof.
  split; [reflexivity|]. split; [exact C27_x_bits|]. split; [apply bshape_same|]. split; [rx|].
  split; [constructor; [rx|constructor; [rx|constructor]]|]. split; [good_semi|]. split; vm_compute; reflexivity.
Qed.

Lemma C27_run_inv b r t : C27_run b r = Some (Ok t) ->
  exists z, private_compare RS3 C27_x [2%nat] r (C27_beta b) C27_draws sup67 = Done (Ok z) /\ rm_reconstruct RS3 z = Ok t.
Proof.
  unfold C27_run. destruct (private_compare RS3 C27_x [2%nat] r (C27_beta b) C27_draws sup67) as [[z|e]|]; try discriminate.
  intro H. injection H as H. exists z. auto.
Qed.

(** the result for equal numbers depends on the internal random bit *)
Theorem C27_equality_refuted : exists s xs xv r b0 b1 dr u z0 z1,
  rs_n s = 3%nat /\ r = xv /\
  (forall i b, nth_error xs i = Some b -> holds s 67 (mkConfig 1 0) [2%nat] (map (fun w => bit w i) xv) b) /\
  holds s 2 (mkConfig 1 0) [2%nat] [0; 0] (mkRM (rs_id s) [2%nat] b0) /\ holds s 2 (mkConfig 1 0) [2%nat] [1; 1] (mkRM (rs_id s) [2%nat] b1) /\
  private_compare s xs [2%nat] r b0 dr u = Done (Ok z0) /\ rm_reconstruct s z0 = Ok (t1 [1; 1]) /\
  private_compare s xs [2%nat] r b1 dr u = Done (Ok z1) /\ rm_reconstruct s z1 = Ok (t1 [0; 0]).
Proof.
  destruct (C27_run_inv 0 [5; 2] (t1 [1; 1])) as (z0 & E0 & R0); [vm_compute; reflexivity|].
  destruct (C27_run_inv 1 [5; 2] (t1 [0; 0])) as (z1 & E1 & R1); [vm_compute; reflexivity|].
  exists RS3, C27_x, [5; 2], [5; 2], (C27_beta 0), (C27_beta 1), C27_draws, sup67, z0, z1.
  split; [reflexivity|]. split; [reflexivity|]. split; [exact C27_x_bits|]. split; [rx|]. split; [rx|]. auto.
Qed.
Print Assumptions C27_equality_refuted.
