(** Lemmas: the local decomposition of ABY3, bit injection. *)
From Coq Require Import QArith Setoid Morphisms.
From Verif Require Import Util Modular S_Ring S_Tensor S_Bil S_Spdz S_Rep M_Torch L_Torch M_Encoder M_Tensor L_Tensor M_Share L_Share M_Spdz L_Spdz L_Bil
  L_RShare L_Mul M_Session L_Session M_Rep S_RepT L_Rep L_Rep2 L_Rep3 L_Rep4 L_Rep5 L_Rep6 M_Aby3 L_Aby.
Local Open Scope Z_scope.

(** share number [j] alone *)
Definition onehot (ss : list tensor) (zero : tensor) (f : tensor -> tensor) (j : nat) : list tensor :=
  map (fun i => if Nat.eqb i j then f (nth i ss dT) else zero) (seq 0 3).

Definition castT (d : dtype) (t : tensor) : tensor := mkT (tsh t) (map (cast d) (tdat t)).
Definition bitT (i : nat) (t : tensor) : tensor := mkT (tsh t) (map (fun v => cast TBool (Z.land v (2 ^ Z.of_nat i))) (tdat t)).
Definition zeroT (sh : list nat) : tensor := mkT sh (repeat 0 (numel sh)).

Lemma rmap_all {A B} (f : A -> result B) (g : A -> B) l : (forall a, In a l -> f a = Ok (g a)) -> rmap f l = Ok (map g l).
Proof. intros H. apply rmap_pointwise. exact H. Qed.

Lemma get_nth_map_seq {A} (f : nat -> A) n i : (i < n)%nat -> get_nth (map f (seq 0 n)) i = Ok (f i).
Proof.
  intros H. unfold get_nth. rewrite (map_nth_error f i (seq 0 n) (d := i)); auto.
  rewrite (nth_error_nth' _ 0%nat) by (rewrite seq_length; auto). rewrite seq_nth by auto. reflexivity.
Qed.

Section Dec.
  Variable s : rsess.
  Hypothesis Hn : rs_n s = 3%nat.
  Variables (r0 ring : Z) (d : dtype) (cf : nat -> config) (a b c : tensor) (sh : list nat).
  Hypothesis Hd : get_type_from_ring ring = Ok d.
  Hypothesis Sa : tsh a = sh.
  Hypothesis Sb : tsh b = sh.
  Hypothesis Sc : tsh c = sh.
  Let x := mkRM (rs_id s) sh (rviews s r0 cf [a; b; c]).
  Let cf' k := rst_cfg r0 (cf k).

  Lemma decompose_plain : exists ds, decompose_all s x ring false = Ok ds /\
    forall j, (j < 3)%nat -> decomposed s x ds 0 j = Ok (mkRM (rs_id s) sh (rviews s ring cf' (onehot [a; b; c] (zeroT sh) (castT d) j))).
  Proof.
    unfold decompose_all, x. cbn [rm_ps]. rewrite rviews3. cbn [length seq combine rmap fst snd].
    unfold local_decomposition. cbn [r_uuid r_shares r_ring r_cfg pc_nr pc_rank]. rewrite Hn, Hd. cbn [Nat.eqb negb rbind get_nth nth_error].
    rewrite Sa, Sb, Sc. cbn [rmap rbind get_nth nth_error r_shares]. eexists. split; [reflexivity|].
    intros j Hj. unfold decomposed. cbn [rmap rbind get_nth nth_error rm_shape].
    destruct j as [|[|[|j]]]; [..|lia]; cbn [seq map rbind nth_error];
      unfold rviews, onehot, castT, zeroT, rep_view; cbn; rewrite ?Sa, ?Sb, ?Sc; reflexivity.
  Qed.

  Lemma decompose_bits : (get_nr_bits (rs_ring s) <= get_nr_bits r0)%nat ->
    exists ds, decompose_all s x ring true = Ok ds /\ (exists d0 dr, ds = d0 :: dr /\ length d0 = get_nr_bits (rs_ring s)) /\
    forall i j, (i < get_nr_bits (rs_ring s))%nat -> (j < 3)%nat ->
      decomposed s x ds i j = Ok (mkRM (rs_id s) sh (rviews s ring cf' (onehot [a; b; c] (zeroT sh) (fun t => castT d (bitT i t)) j))).
  Proof.
    intros HB. set (nb := get_nr_bits (rs_ring s)) in *.
    set (inst := fun (k : nat) (t1 t2 : tensor) i => map (fun j => mkR ring (cf' k) (Some (rs_uuid s k))
      [if Nat.eqb j k then castT d (bitT i t1) else zeroT sh;
       if Nat.eqb j ((k + 1) mod 3) then castT d (bitT i t2) else zeroT sh]) (seq 0 3)).
    assert (HL : forall k t1 t2, tsh t1 = sh ->
      local_decomposition (mkPC (Z.of_nat k) 3) (rs_ring s) (mkR r0 (cf k) (Some (rs_uuid s k)) [t1; t2]) ring true =
      Ok (map (inst k t1 t2) (seq 0 nb))).
    { intros k t1 t2 H1. unfold local_decomposition. cbn [r_uuid r_shares r_ring r_cfg pc_nr pc_rank].
      cbn [Nat.eqb negb]. rewrite Hd. cbn [rbind get_nth nth_error]. rewrite H1. fold nb.
      rewrite (rmap_all _ (fun i => rst_make 2 (mkConfig 1 0) (Some (rs_uuid s k)) [bitT i t1; bitT i t2])).
      2:{ intros i Hi. apply in_seq in Hi. unfold rst_bit. cbn [r_ring r_uuid r_shares map].
          destruct (Nat.ltb_spec i (get_nr_bits r0)); [reflexivity|lia]. }
      cbn [rbind]. rewrite rmap_map.
      apply rmap_all. intros i _. cbn [rst_make r_shares rbind get_nth nth_error]. rewrite Nat2Z.id. reflexivity. }
    unfold decompose_all, x. cbn [rm_ps]. rewrite rviews3. cbn [length seq combine rmap fst snd]. rewrite Hn.
    rewrite !HL by auto. cbn [rbind]. eexists. split; [reflexivity|]. split.
    { eexists _, _. split; [reflexivity|]. rewrite map_length, seq_length. reflexivity. }
    intros i j Hi Hj. unfold decomposed. cbn [rmap rbind rm_shape]. rewrite !get_nth_map_seq by auto. cbn [rbind].
    unfold inst. rewrite !get_nth_map_seq by auto. cbn [rbind].
    destruct j as [|[|[|j]]]; [..|lia]; reflexivity.
  Qed.
End Dec.

Section Hot.
  Variable ring : Z.
  Hypothesis Hs : supported ring.
  Let Hp : 0 < ring := supported_pos ring Hs.
  Variable s : rsess.
  Hypothesis Hn : rs_n s = 3%nat.
  Variable sh : list nat.

  Lemma zeroT_in : tensor_in ring sh (zeroT sh).
  Proof.
    split; [reflexivity|]. split; [cbn; apply repeat_length|]. cbn. apply Forall_forall. intros v Hv. apply repeat_spec in Hv. subst v.
    destruct (supported_cases _ Hs) as [->|[->|[->|[->|[->| ->]]]]]; reflexivity.
  Qed.

  Lemma onehot_holds ss f j cf g : length ss = 3%nat -> (j < 3)%nat -> tensor_in ring sh (f (nth j ss dT)) ->
    (forall e, (e < numel sh)%nat -> nth e (tdat (f (nth j ss dT))) 0 = g e) ->
    (forall k, (k < 3)%nat -> rst_cfg ring (cf k) = cfg10) ->
    hv ring s sh (mkRM (rs_id s) sh (rviews s ring cf (onehot ss (zeroT sh) f j))) g.
  Proof.
    intros HL Hj HI HG HC. unfold hv. apply views_holds.
    - assert (L3 : length (onehot ss (zeroT sh) f j) = 3%nat) by (unfold onehot; rewrite map_length, seq_length; reflexivity).
      split; [destruct (onehot ss (zeroT sh) f j); [discriminate|discriminate]|]. split.
      + apply Forall_forall. intros t Ht. unfold onehot in Ht. apply in_map_iff in Ht. destruct Ht as (i & <- & _).
        destruct (Nat.eqb_spec i j) as [->|]; [exact HI|apply zeroT_in].
      + unfold vt, s_sum. apply map_ext_in. intros e He. apply in_seq in He. f_equal.
        rewrite <- HG by lia. unfold onehot. rewrite !map_map. cbn [seq map zsum].
        assert (Z0 : nth e (tdat (zeroT sh)) 0 = 0) by (cbn; apply nth_repeat).
        destruct j as [|[|[|j]]]; [..|lia]; cbn [Nat.eqb]; rewrite ?Z0; lia.
    - unfold onehot. rewrite map_length, seq_length. auto.
    - unfold onehot. rewrite map_length, seq_length. auto.
  Qed.
End Hot.

Lemma cast_bit d v : v = 0 \/ v = 1 -> cast d v = v.
Proof. intros [->| ->]; destruct d; reflexivity. Qed.
Lemma castT_bits d t : Forall (fun v => v = 0 \/ v = 1) (tdat t) -> castT d t = t.
Proof.
  intros H. destruct t as [h l]. unfold castT. cbn [tsh tdat] in *. f_equal.
  rewrite <- (map_id l) at 2. apply map_ext_in. intros v Hv. rewrite Forall_forall in H. apply cast_bit, H, Hv.
Qed.
Lemma in_ring2 v : in_ring 2 v <-> v = 0 \/ v = 1.
Proof.
  unfold in_ring, to_ring. change ((2 =? 2) || (2 =? 67)) with true. cbn iota.
  split; [intros H; pose proof (Z.mod_pos_bound v 2 ltac:(lia)); lia|intros [->| ->]; reflexivity].
Qed.
Lemma tensor_in2_bits sh t : tensor_in 2 sh t -> Forall (fun v => v = 0 \/ v = 1) (tdat t).
Proof. intros (_ & _ & H). apply Forall_forall. intros v Hv. apply in_ring2. unfold vec_in in H. rewrite Forall_forall in H. apply H, Hv. Qed.
Lemma bits_in_ring ring v : supported ring -> v = 0 \/ v = 1 -> in_ring ring v.
Proof. intros Hs [->| ->]; destruct (supported_cases _ Hs) as [->|[->|[->|[->|[->| ->]]]]]; reflexivity. Qed.
Lemma bits_tensor_in ring sh t : supported ring -> tensor_in 2 sh t -> tensor_in ring sh t.
Proof.
  intros Hs HT. pose proof (tensor_in2_bits _ _ HT) as HB. destruct HT as (H1 & H2 & _). split; [exact H1|]. split; [exact H2|].
  apply Forall_forall. intros v Hv. rewrite Forall_forall in HB. apply bits_in_ring; auto.
Qed.
Lemma supported_type ring : supported ring -> exists d, get_type_from_ring ring = Ok d.
Proof. intros Hs. destruct (supported_cases _ Hs) as [->|[->|[->|[->|[->| ->]]]]]; eexists; reflexivity. Qed.
Lemma supported_2 : supported 2. Proof. left. reflexivity. Qed.
Lemma supported_67 : supported 67. Proof. right. right. left. reflexivity. Qed.

Lemma xor3 ring f g h v : f = 0 \/ f = 1 -> g = 0 \/ g = 1 -> h = 0 \/ h = 1 -> v = 0 \/ v = 1 -> v == f + g + h [mod 2] ->
  f + g - 2 * (f * g) + h - 2 * ((f + g - 2 * (f * g)) * h) == v [mod ring].
Proof.
  intros Hf Hg Hh Hv (k & E). apply eqmod_eq.
  destruct Hf as [->| ->], Hg as [->| ->], Hh as [->| ->], Hv as [->| ->]; cbn; lia.
Qed.

Section Inj.
  Variable ring : Z.
  Hypothesis Hs : supported ring.
  Variable s : rsess.
  Hypothesis Hn : rs_n s = 3%nat.
  Variable sh : list nat.
  Hypothesis Hsh : sh <> [].

  Lemma bit_injection_ok x v u : holds s 2 cfg10 sh v x -> good ring s sh u ->
    exists z, bit_injection s x ring u = Ok z /\ hv ring s sh z (fun e => nth e v 0).
  Proof.
    intros HX HU. destruct (holds_views _ _ _ _ _ _ HX) as (ss & cf & HS & HL & -> & Hcf & _).
    destruct (three ss ltac:(lia)) as (a & b & c & ->).
    unfold bit_injection, first_ring. cbn [rm_ps]. rewrite rviews_get by (cbn; lia). cbn [rbind fst r_ring].
    change (2 =? 2) with true. rewrite Hn. cbn [negb Nat.eqb].
    destruct (supported_type ring Hs) as (d & Hd).
    pose proof HS as (_ & HF & _). inversion HF as [|? ? Ta HF1]; inversion HF1 as [|? ? Tb HF2]; inversion HF2 as [|? ? Tc _]; subst.
    destruct (decompose_plain s Hn 2 ring d cf a b c sh Hd (proj1 Ta) (proj1 Tb) (proj1 Tc)) as (ds & -> & HD). cbn [rbind].
    rewrite (HD 0%nat), (HD 1%nat), (HD 2%nat) by lia. cbn [rbind].
    assert (HJ : forall j, (j < 3)%nat -> hv ring s sh (mkRM (rs_id s) sh (rviews s ring (fun k => rst_cfg 2 (cf k))
        (onehot [a; b; c] (zeroT sh) (castT d) j))) (fun e => nth e (tdat (nth j [a; b; c] dT)) 0)).
    { intros j Hj. assert (TJ : tensor_in 2 sh (nth j [a; b; c] dT)).
      { destruct j as [|[|[|j]]]; auto; lia. }
      apply onehot_holds; auto.
      - rewrite castT_bits by (apply (tensor_in2_bits sh); auto). apply bits_tensor_in; auto.
      - intros e _. rewrite castT_bits by (apply (tensor_in2_bits sh); auto). reflexivity.
      - intros k Hk. rewrite (Hcf k) by (cbn; lia). unfold rst_cfg, cfg10. destruct ((ring =? 2) || (ring =? PRIME)); reflexivity. }
    destruct (hv_xor ring Hs s Hn sh Hsh _ _ _ _ (subsup u 0) (HJ 0%nat ltac:(lia)) (HJ 1%nat ltac:(lia)) (good_sub ring s sh u 0 HU)) as (x12 & -> & H12).
    cbn [rbind].
    destruct (hv_xor ring Hs s Hn sh Hsh _ _ _ _ (subsup u 1) H12 (HJ 2%nat ltac:(lia)) (good_sub ring s sh u 1 HU)) as (z & -> & HZ).
    exists z. split; [reflexivity|]. refine (hv_ext ring Hs s Hn sh z _ _ _ HZ). intros e He. cbn [nth].
    pose proof (shared_vals 2 supported_2 _ _ _ HS) as (VL & VI & VN).
    assert (BT : forall t, tensor_in 2 sh t -> nth e (tdat t) 0 = 0 \/ nth e (tdat t) 0 = 1).
    { intros t HT. pose proof (tensor_in2_bits _ _ HT) as HB. rewrite Forall_forall in HB. apply HB, nth_In. destruct HT as (_ & HT & _). lia. }
    apply xor3; auto.
    - apply in_ring2. apply (nth_in_ring 2); auto using supported_2.
    - rewrite (VN e). cbn [map zsum]. apply eqmod_eq. lia.
  Qed.
End Inj.
