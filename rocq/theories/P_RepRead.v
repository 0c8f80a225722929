(** Property C90: a replicated share object gives its holder back what it was made of.
    Specification used: the rational value of a number, the interval of encoded values a ring
    can hold, Q's order and distance. *)
From Coq Require Import QArith Qabs String DecimalString DecimalZ Decimal.
From Verif Require Import Util S_Ring S_Tensor M_Torch M_Tensor M_Encoder M_Share M_Spdz M_Rep M_RepObj L_Encoder.
Local Open Scope Z_scope.

(** (specification) the number an element denotes *)
Definition numQ (v : num) : Q := match v with NInt z => inject_Z z | NFloat q => q end.
(** (specification) the rings there are, each with the least encoded value it can hold and the
    first it cannot *)
Definition holds (ring lo hi : Z) : Prop :=
  ring = 2 /\ lo = 0 /\ hi = 2 \/ ring = 67 /\ lo = 0 /\ hi = 67 \/
  exists k, (k = 8 \/ k = 16 \/ k = 32 \/ k = 64) /\ ring = 2^k /\ lo = - 2^(k-1) /\ hi = 2^(k-1).
(** (specification) the scale: bits and the prime field are not scaled *)
Definition eff_scale (ring base : Z) (prec : nat) : Z :=
  if (ring =? 2) || (ring =? 67) then 1 else base ^ Z.of_nat prec.
(** (specification) the numbers in a decoded tensor *)
Definition readings (t : ttensor) : list Q :=
  match t with TLong l => map inject_Z l | TFloat l => l end.

(** the scaled value of [v] lies in the interval *)
Definition fits (s lo hi : Z) (v : Q) : Prop :=
  (inject_Z lo <= v * inject_Z s)%Q /\ (v * inject_Z s < inject_Z hi)%Q.
(** [q] is [v] truncated toward zero to a multiple of 1/s *)
Definition near (s : Z) (q v : Q) : Prop :=
  (Qabs (q - v) < 1 / inject_Z s)%Q /\ (0 <= v -> 0 <= q <= v)%Q /\ (v <= 0 -> v <= q <= 0)%Q /\
  (forall k, v == inject_Z k / inject_Z s -> q == v)%Q.

Lemma rst_cfg_scale ring c : scale (rst_cfg ring c) = eff_scale ring (c_base c) (c_prec c).
Proof.
  unfold rst_cfg, eff_scale, PRIME. destruct ((ring =? 2) || (ring =? 67)); reflexivity.
Qed.

Lemma rst_cfg_base ring c : 1 <= c_base c -> 1 <= c_base (rst_cfg ring c).
Proof. intros H. unfold rst_cfg. destruct (_ || _); simpl; lia. Qed.

Lemma holds_type ring lo hi : holds ring lo hi -> exists d, get_type_from_ring ring = Ok d /\
  - 2^63 <= lo /\ lo <= 0 < hi /\ hi <= 2^63 /\ forall z, lo <= z < hi -> cast d z = z.
Proof.
  intros [(-> & -> & ->)|[(-> & -> & ->)|(k & Hk & -> & -> & ->)]].
  - exists TBool. split; [reflexivity|]. repeat split; try lia. intros z Hz. simpl.
    destruct (Z.eqb_spec z 0); lia.
  - exists TU8. split; [reflexivity|]. repeat split; try lia. intros z Hz. simpl.
    apply Z.mod_small. lia.
  - destruct Hk as [->|[->|[->| ->]]].
    + exists TI8. split; [reflexivity|]. repeat split; try lia. intros z Hz. simpl. 
      unfold wrap. simpl in *. rewrite Z.mod_small; lia.
    + exists TI16. split; [reflexivity|]. repeat split; try lia. intros z Hz. simpl.
      unfold wrap. simpl in *. rewrite Z.mod_small; lia.
    + exists TI32. split; [reflexivity|]. repeat split; try lia. intros z Hz. simpl.
      unfold wrap. simpl in *. rewrite Z.mod_small; lia.
    + exists TI64. split; [reflexivity|]. repeat split; try lia. intros z Hz. simpl.
      unfold wrap. simpl in *. rewrite Z.mod_small; lia.
Qed.

(** the encoded value is the truncated scaled one *)
Lemma encode_fits c lo hi v : 1 <= c_base c -> - 2^63 <= lo -> lo <= 0 < hi -> hi <= 2^63 ->
  fits (scale c) lo hi (numQ v) ->
  lo <= encode1 c v < hi /\ encode1 c v = encode1 c (NFloat (numQ v)) /\
  - 2^63 <= Qtrunc (numQ v * inject_Z (scale c)) < 2^63.
Proof.
  intros Hb H1 H2 H3 [Hlo Hhi]. set (P := (numQ v * inject_Z (scale c))%Q) in *.
  assert (Hr : lo <= Qtrunc P < hi).
  { destruct (Qlt_le_dec P 0) as [Hn|Hn].
    - destruct (proj2 (Qtrunc_toward_zero P) (Qlt_le_weak _ _ Hn)) as [A B].
      split; [|change 0%Q with (inject_Z 0) in B; rewrite <- Zle_Qle in B; lia].
      rewrite Zle_Qle. eapply Qle_trans; [apply Hlo|exact A].
    - destruct (proj1 (Qtrunc_toward_zero P) Hn) as [A B].
      split; [change 0%Q with (inject_Z 0) in A; rewrite <- Zle_Qle in A; lia|].
      rewrite Zlt_Qlt. eapply Qle_lt_trans; [exact B|exact Hhi]. }
  assert (E : encode1 c (NFloat (numQ v)) = Qtrunc P) by (apply flong_in_range; fold P; lia).
  destruct v as [z|q].
  - assert (Et : Qtrunc P = z * scale c).
    { apply Qtrunc_inject. unfold P. cbn [numQ]. rewrite inject_Z_mult. reflexivity. }
    assert (Ez : encode1 c (NInt z) = z * scale c).
    { cbn [encode1 cast]. unfold wrap. rewrite Z.mod_small; rewrite Et in Hr; cbn [Z.sub]; lia. }
    rewrite E, Ez, Et in *. split; [lia|]. split; [reflexivity|lia].
  - cbn [numQ] in *. rewrite E. split; [lia|]. split; [reflexivity|lia].
Qed.

Lemma near_decode c lo hi v : 1 <= c_base c -> - 2^63 <= lo -> lo <= 0 < hi -> hi <= 2^63 ->
  fits (scale c) lo hi (numQ v) -> near (scale c) (decode1 c (encode1 c v)) (numQ v).
Proof.
  intros Hb H1 H2 H3 Hf. destruct (encode_fits c lo hi v Hb H1 H2 H3 Hf) as (_ & E & Hr).
  rewrite E. destruct (encode_float_bound c (numQ v) Hb Hr) as (A & B & C).
  split; [exact A|]. split; [exact B|]. split; [exact C|].
  intros k Hk. apply (encode_exact c k); auto.
  assert (Et : Qtrunc (numQ v * inject_Z (scale c)) = k).
  { apply Qtrunc_inject. rewrite Hk. field.
    intros X. unfold Qeq in X; simpl in X. pose proof (scale_pos c Hb). lia. }
  rewrite <- Et. exact Hr.
Qed.

Lemma near_eq s q q' v : (q' == q)%Q -> near s q v -> near s q' v.
Proof.
  intros E (A & B & C & D). unfold near. setoid_rewrite E. repeat split; auto.
  all: try (apply B; auto); try (apply C; auto).
Qed.

Lemma decode_reads c ts : 1 <= c_base c -> exists t, decode c (TLong ts) = Ok t /\
  Forall2 (fun q z => q == decode1 c z)%Q (readings t) ts.
Proof.
  intros Hb. cbn [decode]. destruct (Nat.eqb_spec (c_prec c) 0) as [E|E].
  - exists (TLong ts). split; [reflexivity|]. cbn [readings]. apply Forall2_map_self. intros z _.
    rewrite decode1_correct by auto. unfold scale. rewrite E. change (inject_Z (c_base c ^ Z.of_nat 0)) with 1%Q. field.
  - eexists; split; [reflexivity|]. cbn [readings]. apply Forall2_map_self. intros z _. reflexivity.
Qed.

Lemma share_reads ring lo hi c p : holds ring lo hi -> 1 <= c_base c ->
  Forall (fun v => fits (eff_scale ring (c_base c) (c_prec c)) lo hi (numQ v)) (pub_vals p) ->
  exists t rd, rst_encode ring c p = Ok t /\
    decode (rst_cfg ring c) (TLong (map (cast TI64) (tdat t))) = Ok rd /\
    tsh t = pub_shape p /\
    Forall2 (fun q v => near (eff_scale ring (c_base c) (c_prec c)) q (numQ v)) (readings rd) (pub_vals p).
Proof.
  intros Hh Hb Hv. destruct (holds_type ring lo hi Hh) as (d & Hd & H1 & H2 & H3 & Hc).
  rewrite <- rst_cfg_scale in *. set (c' := rst_cfg ring c) in *.
  pose proof (rst_cfg_base ring c Hb) as Hb'. fold c' in Hb'.
  assert (Hs : share_init c' p = mkT (pub_shape p) (map (encode1 c') (pub_vals p))) by (destruct p; reflexivity).
  unfold rst_encode. rewrite Hd. cbn [rbind]. fold c'. rewrite Hs. cbn [tsh tdat].
  eexists. destruct (decode_reads c' (map (cast TI64) (map (cast d) (map (encode1 c') (pub_vals p)))) Hb')
    as (rd & Er & Hrd).
  exists rd. split; [reflexivity|]. cbn [tdat tsh]. split; [exact Er|]. split; [reflexivity|].
  clear Er. revert Hrd. generalize (readings rd) as qs. clear Hs rd.
  induction (pub_vals p) as [|v vs IH]; intros qs Hq; cbn [map] in Hq; inversion Hq; subst; constructor.
  - pose proof (Forall_inv Hv) as Hf.
    destruct (encode_fits c' lo hi v Hb' H1 H2 H3 Hf) as (Hr & _).
    rewrite (Hc _ Hr) in *.
    assert (Ew : wrap 64 (encode1 c' v) = encode1 c' v)
      by (unfold wrap; rewrite Z.mod_small; simpl; lia).
    match goal with H : (_ == _)%Q |- _ => cbn [cast] in H; rewrite Ew in H end.
    eapply near_eq; [eassumption|]. apply (near_decode c' lo hi); auto.
  - apply IH; auto. apply (Forall_inv_tail Hv).
Qed.

(** C90: an object made of any list of shares whose scaled values the ring can hold is decoded
    to tensors of the same shapes, every element being the value truncated toward zero by less
    than 1/scale (and exact for the multiples of 1/scale); an unknown ring is refused, and an
    object made of no shares decodes to none.
    Missing from the full statement: values a ring cannot hold (refuted below). *)
Theorem C90_roundtrip_partial : forall ring c u,
  (forall lo hi ps, holds ring lo hi -> 1 <= c_base c ->
     Forall (fun p => Forall (fun v => fits (eff_scale ring (c_base c) (c_prec c)) lo hi (numQ v))
                             (pub_vals p)) ps ->
     exists x rds, rst_new ring c u (Some ps) = Ok x /\ rst_decode x = Ok rds /\
       r_ring x = ring /\ r_uuid x = u /\
       Forall2 (fun rd p => fst rd = pub_shape p /\
                  Forall2 (fun q v => near (eff_scale ring (c_base c) (c_prec c)) q (numQ v))
                          (readings (snd rd)) (pub_vals p)) rds ps) /\
  (forall sh, (forall lo hi, ~ holds ring lo hi) -> rst_new ring c u sh = Err ValueError) /\
  (forall lo hi, holds ring lo hi ->
     exists x, rst_new ring c u None = Ok x /\ rst_decode x = Ok [] /\ rst_get_shares x = []).
Proof.
  intros ring c u. split; [|split].
  - intros lo hi ps Hh Hb Hps. destruct (holds_type ring lo hi Hh) as (d & Hd & _).
    unfold rst_new. rewrite Hd. cbn [rbind].
    assert (H : exists ts rds, rmap (rst_encode ring c) ps = Ok ts /\
      rmap (fun t => do v <- decode (rst_cfg ring c) (TLong (map (cast TI64) (tdat t))); Ok (tsh t, v)) ts = Ok rds /\
      Forall2 (fun rd p => fst rd = pub_shape p /\
                  Forall2 (fun q v => near (eff_scale ring (c_base c) (c_prec c)) q (numQ v))
                          (readings (snd rd)) (pub_vals p)) rds ps).
    { induction ps as [|p ps IH].
      - exists [], []. repeat split; constructor.
      - destruct (share_reads ring lo hi c p Hh Hb (Forall_inv Hps)) as (t & rd & E1 & E2 & E3 & E4).
        destruct (IH (Forall_inv_tail Hps)) as (ts & rds & E5 & E6 & E7).
        exists (t :: ts), ((tsh t, rd) :: rds). cbn [rmap]. rewrite E1, E2, E5. cbn [rbind]. rewrite E6.
        repeat split. constructor; auto. }
    destruct H as (ts & rds & E1 & E2 & E3). rewrite E1. cbn [rbind].
    eexists; exists rds. split; [reflexivity|]. unfold rst_decode. cbn [r_cfg r_shares r_ring r_uuid].
    repeat split; auto.
  - intros sh Hn. unfold rst_new.
    assert (E : get_type_from_ring ring = Err ValueError); [|rewrite E; reflexivity].
    unfold get_type_from_ring.
    destruct (Z.eqb_spec ring 2) as [X|]; [exfalso; apply (Hn 0 2); left; auto|].
    destruct (Z.eqb_spec ring (2^8)) as [X|];
      [exfalso; apply (Hn (-2^7) (2^7)); right; right; exists 8; auto|].
    destruct (Z.eqb_spec ring 67) as [X|]; [exfalso; apply (Hn 0 67); right; left; auto|].
    destruct (Z.eqb_spec ring (2^16)) as [X|];
      [exfalso; apply (Hn (-2^15) (2^15)); right; right; exists 16; auto|].
    destruct (Z.eqb_spec ring (2^32)) as [X|];
      [exfalso; apply (Hn (-2^31) (2^31)); right; right; exists 32; auto|].
    destruct (Z.eqb_spec ring (2^64)) as [X|];
      [exfalso; apply (Hn (-2^63) (2^63)); right; right; exists 64; auto 6|].
    reflexivity.
  - intros lo hi Hh. destruct (holds_type ring lo hi Hh) as (d & Hd & _).
    unfold rst_new. rewrite Hd. cbn [rbind]. eexists; split; [reflexivity|]. split; reflexivity.
Qed.
Print Assumptions C90_roundtrip_partial.

Example C90_roundtrip_witness :
  holds (2^32) (-2^31) (2^31) /\
  Forall (fun p => Forall (fun v => fits (eff_scale (2^32) 2 16) (-2^31) (2^31) (numQ v)) (pub_vals p))
         [PTensor [2%nat] [NFloat (-5#3); NFloat (3#2)]; PNum (NInt 7)] /\
  (exists x rds, rst_new (2^32) default_config (Some 4%nat)
       (Some [PTensor [2%nat] [NFloat (-5#3); NFloat (3#2)]; PNum (NInt 7)]) = Ok x /\
     map tdat (r_shares x) = [[-109226; 98304]; [458752]] /\ rst_decode x = Ok rds /\
     map fst rds = [[2%nat]; [1%nat]] /\
     map (map Qred) (map (fun r => readings (snd r)) rds) = [[(-54613#32768)%Q; (3#2)%Q]; [7%Q]]) /\
  (forall lo hi, ~ holds 100 lo hi) /\
  (exists x, rst_new 67 default_config None (Some [PTensor [2%nat] [NInt 66; NFloat (5#2)]]) = Ok x /\
     rst_decode x = Ok [([2%nat], TLong [66; 2])]).
Proof.
  split; [right; right; exists 32; auto|].
  split; [repeat constructor; vm_compute; congruence|].
  split; [eexists; eexists; split; [vm_compute; reflexivity|]; split; [reflexivity|];
          split; [vm_compute; reflexivity|]; split; vm_compute; reflexivity|].
  split.
  - intros lo hi [(H & _)|[(H & _)|(k & Hk & H & _)]]; try discriminate.
    destruct Hk as [->|[->|[->| ->]]]; discriminate.
  - eexists; split; [vm_compute; reflexivity|]. vm_compute. reflexivity.
Qed.

(** C90: the full statement, without the bounds on the values, fails: with the default configuration the number 1 is kept as 0 in the rings 2^8 and
    2^16, and -1 in the prime field is kept, and read, as 255, which is not even below 67. *)
Theorem C90_small_ring_refuted :
  exists x y z, rst_new (2^8) default_config None (Some [PTensor [1%nat] [NFloat 1]]) = Ok x /\
    rst_new (2^16) default_config None (Some [PTensor [1%nat] [NInt 1]]) = Ok y /\
    (exists q, rst_decode x = Ok [([1%nat], TFloat [q])] /\ q == 0)%Q /\
    (exists q, rst_decode y = Ok [([1%nat], TFloat [q])] /\ q == 0)%Q /\
    rst_new 67 default_config None (Some [PTensor [1%nat] [NInt (-1)]]) = Ok z /\
    rst_decode z = Ok [([1%nat], TLong [255])].
Proof.
  do 3 eexists. split; [vm_compute; reflexivity|]. split; [vm_compute; reflexivity|].
  split; [eexists; split; [vm_compute; reflexivity|reflexivity]|].
  split; [eexists; split; [vm_compute; reflexivity|reflexivity]|].
  split; [vm_compute; reflexivity|]. vm_compute. reflexivity.
Qed.
Print Assumptions C90_small_ring_refuted.

(** C90: what the protocols read back from a share through get_ring_size and get_config is the
    ring and the configuration the object works with, for every object; the latter is the given
    one unless the ring is 2 or 67, where it is base 1 with precision 0. *)
Theorem C90_attributes : forall ring c u sh x, rst_new ring c u sh = Ok x ->
  int_of_text (rst_get_ring_size x) = Ok ring /\
  config_of_dict (rst_get_config x) =
    Ok (if (ring =? 2) || (ring =? 67) then mkConfig 1 0 else c) /\
  (forall x', rst_get_ring_size x' = rst_get_ring_size x -> r_ring x' = ring).
Proof.
  intros ring c u sh x H.
  assert (E : r_ring x = ring /\ r_cfg x = if (ring =? 2) || (ring =? 67) then mkConfig 1 0 else c).
  { unfold rst_new in H. destruct (get_type_from_ring ring); [|discriminate]. cbn [rbind] in H.
    destruct sh as [ps|]; [destruct (rmap _ ps); [|discriminate]; cbn [rbind] in H|];
    injection H as <-; split; reflexivity. }
  destruct E as [E1 E2].
  assert (Ht : forall z, NilZero.int_of_string (NilZero.string_of_int (Z.to_int z)) = Some (Z.to_int z)).
  { intros z. apply NilZero.isi.
    all: intros X; pose proof (f_equal Z.of_int X) as Y; rewrite DecimalZ.of_to in Y; cbn in Y;
      subst z; discriminate. }
  split; [|split].
  - unfold int_of_text, rst_get_ring_size. rewrite Ht, DecimalZ.of_to, E1. reflexivity.
  - unfold config_of_dict, rst_get_config. cbn [forallb fst dict_get]. rewrite E2.
    simpl. rewrite Nat2Z.id. destruct (_ || _); [reflexivity|]. destruct c; reflexivity.
  - intros x' Hx. unfold rst_get_ring_size in Hx.
    apply (f_equal NilZero.int_of_string) in Hx. rewrite !Ht in Hx. injection Hx as Hx.
    apply (f_equal Z.of_int) in Hx. rewrite !DecimalZ.of_to in Hx. congruence.
Qed.
Print Assumptions C90_attributes.

Example C90_attributes_witness :
  exists x, rst_new (2^64) (mkConfig 10 4) None (Some [PNum (NInt 3)]) = Ok x /\
    rst_get_ring_size x = "18446744073709551616"%string /\
    rst_get_config x = [("encoder_precision"%string, 4); ("encoder_base"%string, 10)].
Proof. eexists. split; [vm_compute; reflexivity|]. split; vm_compute; reflexivity. Qed.
