(** The operators of a fixed-point session of two parties, one position of the tensors at a
    time, in real numbers. *)
From Coq Require Import QArith Reals Qreals Lra String Setoid Morphisms.
From Verif Require Import Util Modular S_Ring S_Tensor S_Wraps S_Div S_Bil S_Spdz S_Circuit S_Fss S_Sort S_Real S_Fixed
  M_Torch M_Encoder M_Tensor M_Share M_Spdz M_Store M_Fss M_Engine
  L_Torch L_Tensor L_Encoder L_Share L_Div L_Bil L_Mul L_Rsub L_Circuit L_Fss2 L_Fss3 L_Engine.
Local Open Scope Z_scope.
Local Open Scope list_scope.

Lemma small64 v : - 2^63 <= v < 2^63 -> to_ring R64 v = v.
Proof. exact (in_ring64 v). Qed.

Lemma linop_vals' sh o v1 v2 f g : length v1 = numel sh -> length v2 = numel sh ->
  (forall e, (e < numel sh)%nat -> nth e v1 0 == f e [mod R64] /\ nth e v2 0 == g e [mod R64]) ->
  s_linop o v1 v2 = vals sh (fun e => linz o (f e) (g e)).
Proof.
  intros L1 L2 H. apply vals_eq.
  - destruct o; apply map2_to_ring_in; auto.
  - destruct o; cbn [s_linop]; unfold s_add, s_sub; rewrite map2_length; lia.
  - intros e He. destruct (H e He) as [A B].
    destruct o; cbn [s_linop linz]; unfold s_add, s_sub; rewrite (nth_map2 _ 0 0 0) by lia;
      rewrite to_ring_eqmod by apply posR; rewrite A, B; reflexivity.
Qed.

Lemma r_lin' s sh o x y f g : rep s sh f x -> rep s sh g y -> exists z, mpc_lin o x y = Ok z /\ rep s sh (fun e => linz o (f e) (g e)) z.
Proof.
  intros (X1 & X2 & X3 & X4) (Y1 & Y2 & Y3 & Y4).
  destruct (mpc_lin_shared o x y sh (vals sh f) (vals sh g)) as (z & E & Z1 & Z2 & Z3 & Z4); rewrite ?X2, ?Y2; auto using bshape_same; try congruence.
  exists z. split; [exact E|]. split; [congruence|]. split; [congruence|]. split; [congruence|].
  rewrite X2, Y2 in Z4. rewrite !bexpand_self in Z4 by apply vals_len. rewrite (linop_vals' sh o _ _ f g) in Z4; auto using vals_len.
  intros; split; apply vals_nth_eq; auto.
Qed.

Lemma quot_near n z k : 0 < k -> Z.abs (z - Z.quot n k) <= 1 -> - 2 * k <= z * k - n <= 2 * k.
Proof.
  intros Hk H. pose proof (Z.quot_rem' n k) as E. pose proof (Z.rem_bound_abs n k ltac:(lia)) as B. nia.
Qed.

Lemma int64_R n : (Rabs (IZR n) < 9223372036854775808)%R -> - 2^63 <= n < 2^63.
Proof.
  intros H. apply Rabs_def2 in H. destruct H as [A B]. change (2^63) with 9223372036854775808.
  apply lt_IZR in A. change (-(9223372036854775808))%R with (- IZR 9223372036854775808)%R in B. rewrite <- opp_IZR in B. apply lt_IZR in B. lia.
Qed.

(** squares of squares *)
Fixpoint pow2p (n : nat) : positive := match n with O => xH | S n => xO (pow2p n) end.
Lemma pow2p_pow n : Z.to_pos (2 ^ Z.of_nat n) = pow2p n.
Proof.
  induction n as [|n IH]; [reflexivity|]. rewrite Nat2Z.inj_succ, Z.pow_succ_r by lia. cbn [pow2p]. rewrite <- IH.
  assert (H : 0 < 2 ^ Z.of_nat n) by (apply Z.pow_pos_nonneg; lia). destruct (2 ^ Z.of_nat n); try lia; reflexivity.
Qed.

Section Pos.
  Context {K : Type} (alpha : K -> Z) (ev : fop -> Z -> Z -> K -> Z)
          (gen : fop -> nat -> nat -> result (list (list K))) (s : sess) (su : tri_supply) (sh : list nat) (e : nat).
  Hypothesis HG : good_gen (fun o k0 k1 => keys_ok alpha ev o k0 k1 /\ no_carry ev o k0) gen.
  Hypothesis Hn : s_n s = 2%nat.
  Hypothesis Hb : 1 <= c_base (s_cfg s).
  Hypothesis Hsh : sh <> [].
  Hypothesis HT : forall k, valid_triples sh sh sh (mul_val sh sh sh) 2 (su_tri su k sh sh).
  Hypothesis HR : forall k, draws (2^64) 2 [1%nat] (su_rnd su k).
  Hypothesis He : (e < numel sh)%nat.
  Notation ME := (mpc_engine alpha ev gen s su).
  Notation NE := (noted_engine alpha ev gen s su).
  Notation SC := (scale (s_cfg s)).

  Lemma scale_ge1 : 1 <= SC.
  Proof. clear - Hb. unfold scale. assert (0 < c_base (s_cfg s) ^ Z.of_nat (c_prec (s_cfg s))) by (apply Z.pow_pos_nonneg; lia). lia. Qed.

  (** the computation and the noted one end with the same result, which is in [W]; if nothing
      was noted it is in [P] *)
  Definition frun {A} (m0 : comp (mpcw (K:=K)) A) (m : comp (notedw (K:=K)) A) (W P : A -> Prop) : Prop :=
    forall w b, none_waiting (fst w) -> exists a w' b', m0 w = (Ok a, w') /\ m (w, b) = (Ok a, (w', b')) /\ none_waiting (fst w') /\
      (b = true -> b' = true) /\ W a /\ (b' = false -> P a).

  Lemma f_ret {A} (a : A) (W P : A -> Prop) : W a -> P a -> frun (cret a) (cret a) W P.
  Proof. clear. intros HW HP w b Hw. exists a, w, b. repeat (split; [auto|]). auto. Qed.

  Lemma f_bind {A B} (m0 : comp _ A) (m : comp _ A) (k0 : A -> comp _ B) (k : A -> comp _ B) (W P : A -> Prop) (W' Q : B -> Prop) :
    frun m0 m W P -> (forall a, W a -> frun (k0 a) (k a) W' (fun z => P a -> Q z)) -> frun (cbind m0 k0) (cbind m k) W' Q.
  Proof.
    clear. intros H1 H2 w b Hw. destruct (H1 w b Hw) as (a & w1 & b1 & E0 & E & N1 & M1 & WA & PA).
    destruct (H2 a WA w1 b1 N1) as (z & w2 & b2 & F0 & F & N2 & M2 & WZ & PZ).
    exists z, w2, b2. unfold cbind. rewrite E0, E. split; [exact F0|]. split; [exact F|]. split; [exact N2|].
    split; [intros Hb0; auto|]. split; [exact WZ|]. intros HB. apply PZ; auto. apply PA.
    destruct b1; auto. rewrite M2 in HB by reflexivity. discriminate.
  Qed.

  Lemma f_weaken {A} (m0 : comp _ A) (m : comp _ A) (W P Q : A -> Prop) : frun m0 m W P -> (forall a, W a -> P a -> Q a) -> frun m0 m W Q.
  Proof.
    clear. intros H HPQ w b Hw. destruct (H w b Hw) as (a & w1 & b1 & E0 & E & N1 & M1 & WA & PA).
    exists a, w1, b1. repeat (split; [assumption|]). auto.
  Qed.

  Lemma f_quiet {A} (m : comp _ A) (P : A -> Prop) : runs m P -> frun m (quiet m) P P.
  Proof.
    clear. intros H w b Hw. destruct (H w Hw) as (a & w' & E & N & PA).
    exists a, w', (b || carries [])%bool. unfold quiet, noting. cbn [fst snd]. rewrite E. split; [reflexivity|]. split; [reflexivity|]. split; [exact N|].
    split; [intros ->; reflexivity|]. auto.
  Qed.

  (** a sharing of some values; the value at the position *)
  Definition sharing (x : mpc) : Prop := exists v, good s sh v x.
  Definition at_ (x : mpc) : Z := to_ring R64 (zsum (col e (m_shares x))).
  Definition dec (x : mpc) : R := fixed (s_cfg s) (at_ x).

  Lemma good_at v x : good s sh v x -> at_ x = nth e v 0.
  Proof.
    clear - He. intros (_ & _ & _ & H). unfold at_. rewrite (shared_nth _ _ _ _ H He). reflexivity.
  Qed.
  Lemma rep_at f x : rep s sh f x -> at_ x = to_ring R64 (f e).
  Proof. clear - He. intros H. rewrite (good_at _ _ H). apply vals_nth. exact He. Qed.
  Lemma rep_sharing f x : rep s sh f x -> sharing x.
  Proof. clear. intros H. exists (vals sh f). exact H. Qed.
  Lemma sharing_rep x : sharing x -> exists f, rep s sh f x /\ at_ x = f e /\ forall i, - 2^63 <= f i < 2^63.
  Proof.
    clear - He. intros (v & H). pose proof H as (_ & _ & _ & S). pose proof (shared_vals R64 supR _ _ _ S) as (L & I & _).
    assert (RG : forall i, - 2^63 <= nth i v 0 < 2^63).
    { intros i. destruct (Nat.lt_ge_cases i (length v)) as [Hi|Hi].
      - apply in_ring64_range. exact (proj1 (Forall_forall _ _) I _ (nth_In v 0 Hi)).
      - rewrite nth_overflow by lia. lia. }
    exists (fun i => nth i v 0). split; [|split; [apply good_at; exact H|exact RG]].
    unfold rep. replace (vals sh (fun i => nth i v 0)) with v; [exact H|]. apply vals_eq; auto. intros. apply eqmod_eq. reflexivity.
  Qed.
  Lemma at_range x : - 2^63 <= at_ x < 2^63.
  Proof. clear. unfold at_. pose proof (in_to_ring R64 (zsum (col e (m_shares x))) posR) as H. apply in_ring64_range in H. exact H. Qed.

  Lemma quiet_div0 : carries [] = false. Proof. reflexivity. Qed.

  Lemma carries_no ts : length (tdat (hd (mkT [] []) ts)) = numel sh -> carries ts = false ->
    - 2^63 <= zsum (col e ts) < 2^63.
  Proof.
    clear - He. intros L H. unfold carries in H. rewrite L in H.
    destruct ((- 2^63 <=? zsum (col e ts)) && (zsum (col e ts) <? 2^63))%bool eqn:E.
    - apply andb_prop in E. destruct E as [A B]. apply Z.leb_le in A. apply Z.ltb_lt in B. auto.
    - exfalso. assert (X : existsb (fun e => negb ((- 2^63 <=? zsum (col e ts)) && (zsum (col e ts) <? 2^63))) (seq 0 (numel sh)) = true).
      { apply existsb_exists. exists e. split; [apply in_seq; lia|]. rewrite E. reflexivity. }
      congruence.
  Qed.

  Lemma shared_first v ts : shared R64 sh v ts -> length (tdat (hd (mkT [] []) ts)) = numel sh.
  Proof.
    clear. intros (A & B & _). destruct ts as [|t r]; [congruence|]. cbn [hd]. inversion B as [|? ? T _]; subst.
    destruct T as (T1 & T2 & T3). congruence.
  Qed.

  (** dividing the shares *)
  Lemma divided x y v prim : 0 < y -> good s sh v x ->
    exists z, public_divide s x y prim = Ok (z, m_shares x) /\ sharing z /\
      (carries (m_shares x) = false -> Z.abs (at_ z - Z.quot (at_ x) y) <= 1).
  Proof.
    clear HT HR HG. intros Hy G. pose proof G as (X1 & X2 & X3 & X4).
    destruct (two_party_divide s x y prim sh v) as (z & vz & E & Z1 & Z2 & Z3); auto; [congruence|].
    destruct (public_divide_two s x y prim sh v) as [E2 _]; auto. rewrite E2 in E. injection E as E.
    assert (GZ : good s sh vz z).
    { subst z. cbn [m_sid m_shape m_shares] in *. split; [exact X1|]. split; [reflexivity|]. split; [unfold div_shares; cbn [m_shares]; rewrite map_length; congruence|exact Z2]. }
    exists z. split; [rewrite E2, E; reflexivity|]. split; [exists vz; exact GZ|]. intros HC.
    rewrite (good_at _ _ GZ), (good_at _ _ G). apply Z3; auto.
    pose proof (carries_no _ (shared_first _ _ X4) HC) as RG. rewrite <- (good_at _ _ G). unfold at_.
    symmetry. apply (in_ring64 _ RG).
  Qed.

  Lemma times_public_ok x v c : good s sh v x -> exists ws, times_public s x c = Ok ws /\ good s sh (mul_val sh [1%nat] sh v [encode1 (s_cfg s) c]) (mkM (s_id s) sh ws) /\
    mpc_bil_public s BMul x (PNum c) ([], []) = (do r <- public_divide s (mkM (s_id s) sh ws) SC ([], []); Ok (fst r)).
  Proof.
    clear HT HR HG. intros (X1 & X2 & X3 & X4).
    assert (HP : product SMul sh [1%nat] sh (mul_val sh [1%nat] sh)) by (apply prod_mul, bshape_scalar; auto).
    destruct (share_init_in (s_cfg s) (PNum c) I) as [HI EI]. cbn [pub_shape] in HI, EI.
    destruct (bil_shares_l SMul sh [1%nat] sh _ (m_shares x) v _ HP X4 HI) as (ws & E & L & S). cbn [tdat bop_of] in *.
    exists ws. unfold times_public. rewrite EI, E. split; [reflexivity|]. split.
    - repeat (split; [try reflexivity; cbn [m_shares]; congruence|]). exact S.
    - unfold mpc_bil_public. rewrite EI, E. cbn [rbind]. rewrite X2. cbn [pub_shape].
      pose proof (shape_of_product _ _ _ _ _ HP) as ESH. cbn [bop_of] in ESH. rewrite ESH. cbn [rbind]. unfold truncate. cbn [negb orb]. rewrite X1. reflexivity.
  Qed.

  Lemma mul_at x v y vy : good s sh v x -> good s sh vy y -> nth e (mul_val sh sh sh v vy) 0 = to_ring R64 (at_ x * at_ y).
  Proof.
    clear HT HR HG. intros GX GY. rewrite (good_at _ _ GX), (good_at _ _ GY).
    pose proof GX as (_ & _ & _ & SX). pose proof GY as (_ & _ & _ & SY).
    pose proof (shared_vals R64 supR _ _ _ SX) as (L1 & _). pose proof (shared_vals R64 supR _ _ _ SY) as (L2 & _).
    rewrite mul_val_self by auto. unfold s_mul. rewrite (nth_map2 _ 0 0 0) by lia. reflexivity.
  Qed.
  Lemma mulp_at x v c : good s sh v x -> nth e (mul_val sh [1%nat] sh v [c]) 0 = to_ring R64 (at_ x * c).
  Proof.
    clear HT HR HG. intros GX. rewrite (good_at _ _ GX).
    pose proof GX as (_ & _ & _ & SX). pose proof (shared_vals R64 supR _ _ _ SX) as (L1 & _).
    unfold mul_vr. rewrite bexpand_self by auto. unfold s_mul. rewrite (nth_map2 _ 0 0 0) by (rewrite ?bexpand_length; lia).
    rewrite (bexpand_nth [1%nat] sh) by auto. rewrite bget_one by auto. reflexivity.
  Qed.

  (** x * y *)
  Lemma z_mul x y : sharing x -> sharing y ->
    frun (e_mul ME x y) (e_mul NE x y) sharing
      (fun z => - 2^63 <= at_ x * at_ y < 2^63 -> Z.abs (at_ z - Z.quot (at_ x * at_ y) SC) <= 1).
  Proof.
    clear HR HG. intros (vx & GX) (vy & GY) w b Hw. cbn [e_mul mpc_engine noted_engine]. unfold n_mul, noting, m_mul, cbind, tick, lift. cbn [fst snd].
    pose proof GX as (X1 & X2 & X3 & X4). pose proof GY as (Y1 & Y2 & Y3 & Y4).
    set (ts := su_tri su (snd w) (m_shape x) (m_shape y)).
    destruct (mpc_bil_raw s SMul sh sh sh sh (mul_val sh sh sh) (mul_val sh sh sh)) with (x := x) (y := y) (vx := vx) (vy := vy) (ts := ts) (prim := ([] : list tensor, [] : list tensor))
      as (ws & L & S & R & E); auto; try lia; try apply prod_mul, bshape_same.
    { unfold ts. rewrite X2, Y2, Hn. apply HT. }
    assert (GW : good s sh (mul_val sh sh sh vx vy) (mkM (s_id s) sh ws)) by (repeat (split; [try reflexivity; cbn [m_shares]; congruence|]); exact S).
    cbn [bop_of] in R, E. pose proof scale_ge1 as S1.
    destruct (divided (mkM (s_id s) sh ws) SC _ ([], []) ltac:(lia) GW) as (z & D & SZ & DZ).
    rewrite E, R, D. cbn [rbind fst]. eexists z, _, _. split; [reflexivity|]. split; [reflexivity|]. split; [exact Hw|].
    split; [intros ->; reflexivity|]. split; [exact SZ|]. intros HC HB. apply orb_false_elim in HC. destruct HC as [_ HC].
    specialize (DZ HC). rewrite (good_at _ _ GW) in DZ. rewrite (mul_at x vx y vy GX GY) in DZ.
    rewrite (small64 _ HB) in DZ. exact DZ.
  Qed.

  Lemma public_times x c : sharing x ->
    exists z ws, mpc_bil_public s BMul x (PNum c) ([], []) = Ok z /\ times_public s x c = Ok ws /\ sharing z /\
      (carries ws = false -> - 2^63 <= at_ x * encode1 (s_cfg s) c < 2^63 ->
       Z.abs (at_ z - Z.quot (at_ x * encode1 (s_cfg s) c) SC) <= 1).
  Proof.
    clear HR HG HT. intros (vx & GX). destruct (times_public_ok x vx c GX) as (ws & E & GW & EM).
    pose proof scale_ge1 as S1.
    destruct (divided _ SC _ ([], []) ltac:(lia) GW) as (z & D & SZ & DZ).
    rewrite D in EM. cbn [rbind fst] in EM. exists z, ws. split; [exact EM|]. split; [exact E|]. split; [exact SZ|]. intros HC HB.
    specialize (DZ HC). rewrite (good_at _ _ GW) in DZ. rewrite (mulp_at x vx _ GX) in DZ.
    rewrite (small64 _ HB) in DZ. exact DZ.
  Qed.

  (** x * c *)
  Lemma z_mulp x c : sharing x ->
    frun (e_mulp ME x c) (e_mulp NE x c) sharing
      (fun z => - 2^63 <= at_ x * encode1 (s_cfg s) c < 2^63 -> Z.abs (at_ z - Z.quot (at_ x * encode1 (s_cfg s) c) SC) <= 1).
  Proof.
    clear HR HG HT. intros SX w b Hw. cbn [e_mulp mpc_engine noted_engine]. unfold n_mulp, noting, lift. cbn [fst snd].
    destruct (public_times x c SX) as (z & ws & -> & -> & SZ & P).
    eexists z, _, _. split; [reflexivity|]. split; [reflexivity|]. split; [exact Hw|]. split; [intros ->; reflexivity|]. split; [exact SZ|].
    intros HC. apply orb_false_elim in HC. apply P, HC.
  Qed.

  (** x + y, x - y *)
  Lemma z_lin o x y : sharing x -> sharing y ->
    frun (e_lin ME o x y) (e_lin NE o x y) sharing (fun z => at_ z = to_ring R64 (linz o (at_ x) (at_ y))).
  Proof.
    clear HR HG HT. intros SX SY. destruct (sharing_rep x SX) as (f & GF & EF & _). destruct (sharing_rep y SY) as (g & GG & EG & _).
    destruct (r_lin' s sh o x y f g GF GG) as (z & E & GZ).
    intros w b Hw. cbn [e_lin mpc_engine noted_engine]. unfold quiet, noting, lift. rewrite E. eexists z, _, _.
    split; [reflexivity|]. split; [reflexivity|]. split; [exact Hw|]. split; [intros ->; reflexivity|].
    split; [eapply rep_sharing; exact GZ|]. intros _. rewrite (rep_at _ _ GZ), EF, EG. reflexivity.
  Qed.

  Lemma public_lin o x c : sharing x -> exists z, mpc_lin_public s o x (PNum c) = Ok z /\ sharing z /\
    at_ z = to_ring R64 (linz o (at_ x) (encode1 (s_cfg s) c)).
  Proof.
    clear HR HG HT. intros SX. destruct (sharing_rep x SX) as (f & (X1 & X2 & X3 & X4) & EF & _).
    destruct (mpc_lin_public_value s o x (PNum c) (vals sh f) sh) as (z & E & Z1 & Z2 & Z3 & _ & Z5); rewrite ?X2; auto.
    { exact I. } { apply bshape_scalar. auto. }
    exists z. split; [exact E|]. specialize (Z5 (eq_sym X2)). rewrite X2 in Z5. cbn [pub_shape pub_vals] in Z5. change (encode (s_cfg s) [c]) with [encode1 (s_cfg s) c] in Z5.
    rewrite bexpand_self in Z5 by apply vals_len.
    rewrite (linop_vals' sh o _ _ f (fun _ => encode1 (s_cfg s) c)) in Z5; auto using vals_len.
    - assert (GZ : rep s sh (fun i => linz o (f i) (encode1 (s_cfg s) c)) z) by (repeat (split; [congruence|]); exact Z5).
      split; [eapply rep_sharing; exact GZ|]. rewrite (rep_at _ _ GZ), EF. reflexivity.
    - apply bexpand_length.
    - intros i Hi; split; [apply vals_nth_eq; auto|]. rewrite bexpand_nth by auto. rewrite bget_one by auto. apply eqmod_eq. reflexivity.
  Qed.

  (** x + c, x - c *)
  Lemma z_linp o x c : sharing x ->
    frun (e_linp ME o x c) (e_linp NE o x c) sharing (fun z => at_ z = to_ring R64 (linz o (at_ x) (encode1 (s_cfg s) c))).
  Proof.
    clear HR HG HT. intros SX. destruct (public_lin o x c SX) as (z & E & SZ & P).
    intros w b Hw. cbn [e_linp mpc_engine noted_engine]. unfold quiet, noting, lift. rewrite E. eexists z, _, _.
    split; [reflexivity|]. split; [reflexivity|]. split; [exact Hw|]. split; [intros ->; reflexivity|]. split; [exact SZ|auto].
  Qed.

  (** c - x *)
  Lemma z_rsub c x : sharing x ->
    frun (e_rsub ME c x) (e_rsub NE c x) sharing
      (fun z => - 2^63 <= at_ x - encode1 (s_cfg s) c < 2^63 ->
                - 2^63 <= (at_ x - encode1 (s_cfg s) c) * encode1 (s_cfg s) (NInt (-1)) < 2^63 ->
                Z.abs (at_ z - Z.quot ((at_ x - encode1 (s_cfg s) c) * encode1 (s_cfg s) (NInt (-1))) SC) <= 1).
  Proof.
    clear HR HG HT. intros SX w b Hw. cbn [e_rsub mpc_engine noted_engine]. unfold noting, lift, mpc_rsub. cbn [fst snd].
    destruct (public_lin LSub x c SX) as (d & -> & SD & PD). cbn [rbind linz] in *.
    destruct (public_times d (NInt (-1)) SD) as (z & ws & -> & -> & SZ & P).
    eexists z, _, _. split; [reflexivity|]. split; [reflexivity|]. split; [exact Hw|]. split; [intros ->; reflexivity|]. split; [exact SZ|].
    intros HC. apply orb_false_elim in HC. destruct HC as [_ HC]. specialize (P HC). rewrite PD in P. intros HB. rewrite (small64 _ HB) in P. exact P.
  Qed.

  (** x / k *)
  Lemma z_div x k : 0 < k -> sharing x ->
    frun (e_div ME x k) (e_div NE x k) sharing (fun z => Z.abs (at_ z - Z.quot (at_ x) k) <= 1).
  Proof.
    clear HR HG HT. intros Hk (v & G). destruct (divided x k v ([], []) Hk G) as (z & E & SZ & P).
    intros w b Hw. cbn [e_div mpc_engine noted_engine]. unfold noting, lift, mpc_truediv. cbn [fst snd]. rewrite E. cbn [rbind fst]. eexists z, _, _.
    split; [reflexivity|]. split; [reflexivity|]. split; [exact Hw|]. split; [intros ->; reflexivity|]. split; [exact SZ|].
    intros HC. apply orb_false_elim in HC. apply P, HC.
  Qed.

  (** the product that a power computes and drops *)
  Lemma z_dropped x : sharing x -> frun (m_mul s su x x) (quiet (m_mul s su x x)) sharing (fun _ => True).
  Proof.
    clear HR HG. intros SX w b Hw. destruct (z_mul x x SX SX w b Hw) as (a & w' & b' & E0 & _ & N & _ & SA & _).
    cbn [e_mul mpc_engine] in E0. exists a, w', (b || carries [])%bool. unfold quiet, noting. cbn [fst snd]. rewrite E0.
    split; [reflexivity|]. split; [reflexivity|]. split; [exact N|]. split; [intros ->; reflexivity|]. auto.
  Qed.

  (** x <= c, x < c, ... *)
  Lemma z_relp r x c : r <> Rne -> sharing x ->
    frun (e_relp ME (rop_of r) x c) (e_relp NE (rop_of r) x c) sharing
      (fun z => Z.abs (at_ x - encode1 (s_cfg s) c) < 2^31 - 1 -> at_ z = to_ring R64 (b2z (relates r (at_ x) (encode1 (s_cfg s) c)) * SC)).
  Proof.
    clear HT. intros Hr SX. destruct (sharing_rep x SX) as (f & (X1 & X2 & X3 & X4) & EF & RF).
    cbn [e_relp noted_engine].
    assert (H : runs (e_relp ME (rop_of r) x c) (fun z => sharing z /\ (Z.abs (at_ x - encode1 (s_cfg s) c) < 2^31 - 1 -> at_ z = to_ring R64 (b2z (relates r (at_ x) (encode1 (s_cfg s) c)) * SC)))).
    { cbn [e_relp mpc_engine].
      eapply runs_bind; [apply (runs_tick (fun _ => True)); auto|]. intros k _. unfold check_or_convert.
      eapply runs_bind; [apply runs_lift|].
      { destruct (mpc_secret_reconstruct s (PNum c) (su_rnd su k)) as (y & E & Y1 & Y2 & Y3 & Y4 & _); [lia|exact I|rewrite Hn; apply HR|].
        exists y. split; [exact E|]. exact (conj Y1 (conj Y2 (conj Y3 Y4))). }
      intros y (Y1 & Y2 & Y3 & Y4) [w j] Hw. cbn [fst] in Hw. unfold m_rel. cbn [fst snd].
      cbn [pub_shape pub_vals] in Y2, Y4. change (encode (s_cfg s) [c]) with [encode1 (s_cfg s) c] in Y4.
      destruct (rel_ok alpha ev gen HG s r x y sh (vals sh f) [encode1 (s_cfg s) c] ([], []) w) as (z & w' & E & W' & Z1 & Z2 & Z3 & Z4);
        rewrite ?X2, ?Y2; auto using bshape_scalar; try congruence.
      { destruct r; cbn; auto; try congruence; split; auto; discriminate. }
      rewrite E. exists z, (w', j). split; [reflexivity|]. split; [exact W'|].
      assert (GZ : good s sh (truth (s_cfg s) sh (fun e0 => relates32 r (bget (m_shape x) sh (vals sh f) e0) (bget (m_shape y) sh [encode1 (s_cfg s) c] e0))) z)
        by (repeat (split; [congruence|]); exact Z4).
      split; [eexists; exact GZ|]. intros HD. rewrite (good_at _ _ GZ). unfold truth. rewrite map_seq_nth by auto.
      rewrite X2, Y2, bget_vals, bget_one by auto. rewrite (small64 (f e)) by apply RF. rewrite <- EF.
      rewrite relates32_small by exact HD. reflexivity. }
    eapply f_weaken with (P := fun z => sharing z /\ (Z.abs (at_ x - encode1 (s_cfg s) c) < 2^31 - 1 -> at_ z = to_ring R64 (b2z (relates r (at_ x) (encode1 (s_cfg s) c)) * SC)));
      [|intros z _ [_ P]; exact P].
    intros w b Hw. destruct (f_quiet _ _ H w b Hw) as (a & w' & b' & E0 & E & N & M & WA & PA). exists a, w', b'.
    repeat (split; [assumption|]). split; [apply WA|exact PA].
  Qed.

  Open Scope R_scope.
  Notation S_ := (IZR SC).
  Notation u := (ulp (s_cfg s)).
  Notation BD := 9223372036854775808%R.
  Definition enc (c : num) : R := fixed (s_cfg s) (encode1 (s_cfg s) c).

  Lemma S_pos : 1 <= S_. Proof. clear - Hb. apply IZR_le. apply scale_ge1; auto. Qed.
  Lemma fixed_S n : IZR n = fixed (s_cfg s) n * S_.
  Proof. clear - Hb. pose proof S_pos. unfold fixed. field. lra. Qed.
  Lemma at_dec x : IZR (at_ x) = dec x * S_.
  Proof. clear - Hb. apply fixed_S. Qed.
  Lemma u_S : u * S_ = 1.
  Proof. clear - Hb. pose proof S_pos. unfold ulp. field. lra. Qed.
  Lemma u_pos : 0 < u.
  Proof. clear - Hb. pose proof S_pos. unfold ulp. apply Rinv_0_lt_compat. lra. Qed.

  Lemma abs_S r : Rabs r * S_ = Rabs (r * S_).
  Proof. clear - Hb. pose proof S_pos. rewrite Rabs_mult, (Rabs_right S_); lra. Qed.
  Lemma abs_SS r : Rabs r * (S_ * S_) = Rabs (r * (S_ * S_)).
  Proof. clear - Hb. pose proof S_pos. rewrite Rabs_mult, (Rabs_right (S_ * S_)); nra. Qed.

  Lemma quot_R n z : (Z.abs (z - Z.quot n SC) <= 1)%Z -> Rabs (fixed (s_cfg s) z - IZR n / (S_ * S_)) <= 2 * u.
  Proof.
    clear - Hb. intros H. apply quot_near in H; [|pose proof scale_ge1; lia]. destruct H as [A B].
    apply IZR_le in A, B. rewrite ?minus_IZR, ?mult_IZR in A, B. pose proof S_pos as SP. pose proof u_S as US. pose proof u_pos as UP.
    assert (E : fixed (s_cfg s) z - IZR n / (S_ * S_) = (IZR z * S_ - IZR n) * (u * u)).
    { unfold fixed, ulp. field. lra. }
    rewrite E. apply Rabs_le. split.
    - replace (- (2 * u)) with ((-2 * S_) * (u * u)) by (replace ((-2 * S_) * (u * u)) with (-2 * (u * S_) * u) by ring; rewrite US; ring). apply Rmult_le_compat_r; nra.
    - replace (2 * u) with ((2 * S_) * (u * u)) by (replace ((2 * S_) * (u * u)) with (2 * (u * S_) * u) by ring; rewrite US; ring). apply Rmult_le_compat_r; nra.
  Qed.
  Lemma quot_exact k z : (Z.abs (z - Z.quot (k * SC) SC) <= 1)%Z -> Rabs (fixed (s_cfg s) z - fixed (s_cfg s) k) <= u.
  Proof.
    clear - Hb. intros H. rewrite Z.quot_mul in H by (pose proof scale_ge1; lia).
    pose proof u_pos as UP. assert (A : (-1 <= z - k <= 1)%Z) by lia. destruct A as [A B]. apply IZR_le in A, B. rewrite minus_IZR in A, B.
    assert (E : fixed (s_cfg s) z - fixed (s_cfg s) k = (IZR z - IZR k) * u) by (unfold fixed, ulp; pose proof S_pos; field; lra).
    rewrite E. apply Rabs_le. nra.
  Qed.

  Lemma dec_int x k : dec x = IZR k -> at_ x = (k * SC)%Z.
  Proof. clear - Hb. intros H. apply eq_IZR. rewrite mult_IZR, at_dec, H. reflexivity. Qed.
  Lemma enc_S c : IZR (encode1 (s_cfg s) c) = enc c * S_.
  Proof. clear - Hb. apply fixed_S. Qed.
  Lemma enc_int_Z k : Rabs (IZR k) * S_ < BD -> encode1 (s_cfg s) (NInt k) = (k * SC)%Z.
  Proof.
    clear - Hb. rewrite abs_S. intros H. rewrite <- mult_IZR in H. apply int64_R in H. cbn [encode1]. exact (small64 _ H).
  Qed.
  Lemma enc_int_R k : Rabs (IZR k) * S_ < BD -> enc (NInt k) = IZR k.
  Proof. clear - Hb. intros H. unfold enc. rewrite (enc_int_Z k H). unfold fixed. rewrite mult_IZR. pose proof S_pos. field. lra. Qed.

  Lemma f_lin o x y : sharing x -> sharing y ->
    frun (e_lin ME o x y) (e_lin NE o x y) sharing (fun z => Rabs (lin_R o (dec x) (dec y)) * S_ < BD -> dec z = lin_R o (dec x) (dec y)).
  Proof.
    clear HR HG HT. intros SX SY. eapply f_weaken; [apply z_lin; auto|]. intros z _ E HB.
    assert (EZ : IZR (linz o (at_ x) (at_ y)) = lin_R o (dec x) (dec y) * S_).
    { destruct o; cbn [linz lin_R]; rewrite ?plus_IZR, ?minus_IZR, !at_dec; ring. }
    rewrite abs_S, <- EZ in HB. apply int64_R in HB. rewrite small64 in E by exact HB.
    apply (Rmult_eq_reg_r S_); [|pose proof S_pos; lra]. rewrite <- at_dec, E. exact EZ.
  Qed.

  Lemma f_linp o x c : sharing x ->
    frun (e_linp ME o x c) (e_linp NE o x c) sharing (fun z => Rabs (lin_R o (dec x) (enc c)) * S_ < BD -> dec z = lin_R o (dec x) (enc c)).
  Proof.
    clear HR HG HT. intros SX. eapply f_weaken; [apply z_linp; auto|]. intros z _ E HB.
    assert (EZ : IZR (linz o (at_ x) (encode1 (s_cfg s) c)) = lin_R o (dec x) (enc c) * S_).
    { destruct o; cbn [linz lin_R]; rewrite ?plus_IZR, ?minus_IZR, !at_dec, enc_S; ring. }
    rewrite abs_S, <- EZ in HB. apply int64_R in HB. rewrite small64 in E by exact HB.
    apply (Rmult_eq_reg_r S_); [|pose proof S_pos; lra]. rewrite <- at_dec, E. exact EZ.
  Qed.

  Lemma f_mul x y : sharing x -> sharing y ->
    frun (e_mul ME x y) (e_mul NE x y) sharing
      (fun z => Rabs (dec x * dec y) * (S_ * S_) < BD -> Rabs (dec z - dec x * dec y) <= 2 * u /\
                (forall k, dec x = IZR k \/ dec y = IZR k -> Rabs (dec z - dec x * dec y) <= u)).
  Proof.
    clear HR HG. intros SX SY. eapply f_weaken; [apply z_mul; auto|]. intros z _ E HB.
    assert (EZ : IZR (at_ x * at_ y) = dec x * dec y * (S_ * S_)) by (rewrite mult_IZR, !at_dec; ring).
    pose proof S_pos as SP. rewrite abs_SS, <- EZ in HB. apply int64_R in HB. specialize (E HB). split.
    - apply quot_R in E. rewrite EZ in E. replace (dec x * dec y * (S_ * S_) / (S_ * S_)) with (dec x * dec y) in E by (field; lra). exact E.
    - intros k [HK|HK]; pose proof (dec_int _ _ HK) as KZ.
      + rewrite KZ in E. replace (k * SC * at_ y)%Z with ((k * at_ y) * SC)%Z in E by ring. apply quot_exact in E.
        replace (dec x * dec y) with (fixed (s_cfg s) (k * at_ y)); [exact E|]. rewrite HK. unfold dec, fixed. rewrite mult_IZR. field. lra.
      + rewrite KZ in E. replace (at_ x * (k * SC))%Z with ((k * at_ x) * SC)%Z in E by ring. apply quot_exact in E.
        replace (dec x * dec y) with (fixed (s_cfg s) (k * at_ x)); [exact E|]. rewrite HK. unfold dec, fixed. rewrite mult_IZR. field. lra.
  Qed.

  Lemma f_mulp x c : sharing x ->
    frun (e_mulp ME x c) (e_mulp NE x c) sharing
      (fun z => Rabs (dec x * enc c) * (S_ * S_) < BD -> Rabs (dec z - dec x * enc c) <= 2 * u /\
                (forall k, enc c = IZR k -> Rabs (dec z - dec x * enc c) <= u)).
  Proof.
    clear HR HG HT. intros SX. eapply f_weaken; [apply z_mulp; auto|]. intros z _ E HB.
    assert (EZ : IZR (at_ x * encode1 (s_cfg s) c) = dec x * enc c * (S_ * S_)) by (rewrite mult_IZR, !at_dec, enc_S; ring).
    pose proof S_pos as SP. rewrite abs_SS, <- EZ in HB. apply int64_R in HB. specialize (E HB). split.
    - apply quot_R in E. rewrite EZ in E. replace (dec x * enc c * (S_ * S_) / (S_ * S_)) with (dec x * enc c) in E by (field; lra). exact E.
    - intros k HK. assert (KZ : encode1 (s_cfg s) c = (k * SC)%Z) by (apply eq_IZR; rewrite mult_IZR, enc_S, HK; reflexivity).
      rewrite KZ in E. replace (at_ x * (k * SC))%Z with ((k * at_ x) * SC)%Z in E by ring. apply quot_exact in E.
      replace (dec x * enc c) with (fixed (s_cfg s) (k * at_ x)); [exact E|]. rewrite HK. unfold dec, fixed. rewrite mult_IZR. field. lra.
  Qed.

  Lemma f_mulp_int x k : sharing x -> Rabs (IZR k) * S_ < BD ->
    frun (e_mulp ME x (NInt k)) (e_mulp NE x (NInt k)) sharing
      (fun z => Rabs (dec x * IZR k) * (S_ * S_) < BD -> Rabs (dec z - dec x * IZR k) <= u).
  Proof.
    clear HR HG HT. intros SX HK. eapply f_weaken; [apply f_mulp; auto|]. intros z _ E HB.
    rewrite <- (enc_int_R k HK) in *. apply (proj2 (E HB) k). apply enc_int_R. exact HK.
  Qed.

  Lemma f_rsub c x : S_ < BD -> sharing x ->
    frun (e_rsub ME c x) (e_rsub NE c x) sharing
      (fun z => Rabs (dec x - enc c) * (S_ * S_) < BD -> Rabs (dec z - (enc c - dec x)) <= u).
  Proof.
    clear HR HG HT. intros HS SX. eapply f_weaken; [apply z_rsub; auto|]. intros z _ E HB. pose proof S_pos as SP.
    assert (EM : encode1 (s_cfg s) (NInt (-1)) = (-1 * SC)%Z).
    { apply enc_int_Z. rewrite Rabs_left by lra. lra. }
    assert (ED : IZR (at_ x - encode1 (s_cfg s) c) = (dec x - enc c) * S_) by (rewrite minus_IZR, at_dec, enc_S; ring).
    rewrite EM in E.
    assert (B1 : (- 2^63 <= at_ x - encode1 (s_cfg s) c < 2^63)%Z).
    { apply int64_R. rewrite ED, <- abs_S. eapply Rle_lt_trans; [|exact HB]. pose proof (Rabs_pos (dec x - enc c)).
      apply Rmult_le_compat_l; [lra|]. nra. }
    assert (B2 : (- 2^63 <= (at_ x - encode1 (s_cfg s) c) * (-1 * SC) < 2^63)%Z).
    { apply int64_R. rewrite mult_IZR, ED, mult_IZR. replace ((dec x - enc c) * S_ * (-1 * S_)) with (- ((dec x - enc c) * (S_ * S_))) by ring.
      rewrite Rabs_Ropp, <- abs_SS. exact HB. }
    specialize (E B1 B2). replace ((at_ x - encode1 (s_cfg s) c) * (-1 * SC))%Z with ((encode1 (s_cfg s) c - at_ x) * SC)%Z in E by ring.
    apply quot_exact in E. replace (enc c - dec x) with (fixed (s_cfg s) (encode1 (s_cfg s) c - at_ x)); [exact E|].
    unfold enc, dec, fixed. rewrite minus_IZR. field. lra.
  Qed.

  Lemma f_div x k : (0 < k)%Z -> sharing x ->
    frun (e_div ME x k) (e_div NE x k) sharing (fun z => Rabs (dec z - dec x / IZR k) <= 2 * u).
  Proof.
    clear HR HG HT. intros Hk SX. eapply f_weaken; [apply z_div; auto|]. intros z _ E. apply quot_near in E; auto.
    destruct E as [A B]. apply IZR_le in A, B. rewrite ?minus_IZR, ?mult_IZR in A, B. rewrite !at_dec in A, B. apply IZR_lt in Hk.
    pose proof S_pos as SP. pose proof u_S as US.
    assert (E : dec z - dec x / IZR k = (dec z * S_ * IZR k - dec x * S_) * (u * / IZR k)).
    { replace (dec z * S_ * IZR k - dec x * S_) with (S_ * (dec z * IZR k - dec x)) by ring.
      replace (S_ * (dec z * IZR k - dec x) * (u * / IZR k)) with ((u * S_) * ((dec z * IZR k - dec x) * / IZR k)) by ring. rewrite US. field. lra. }
    assert (P : 0 < u * / IZR k) by (apply Rmult_lt_0_compat; [apply u_pos|apply Rinv_0_lt_compat; lra]).
    rewrite E. apply Rabs_le. replace (2 * u) with (2 * IZR k * (u * / IZR k)) by (field; lra). split.
    - replace (- (2 * IZR k * (u * / IZR k))) with (-2 * IZR k * (u * / IZR k)) by ring. apply Rmult_le_compat_r; lra.
    - apply Rmult_le_compat_r; lra.
  Qed.

  Lemma f_relp r x c : r <> Rne -> S_ < BD -> sharing x ->
    frun (e_relp ME (rop_of r) x c) (e_relp NE (rop_of r) x c) sharing
      (fun z => Rabs (dec x - enc c) * S_ < 2147483647 -> dec z = rel_R (rop_of r) (dec x) (enc c)).
  Proof.
    clear HT. intros Hr HS SX. eapply f_weaken; [apply z_relp; auto|]. intros z _ E HB. pose proof S_pos as SP.
    assert (B1 : (Z.abs (at_ x - encode1 (s_cfg s) c) < 2^31 - 1)%Z).
    { apply lt_IZR. rewrite abs_IZR, minus_IZR, at_dec, enc_S. rewrite abs_S in HB. replace (dec x * S_ - enc c * S_) with ((dec x - enc c) * S_) by ring. exact HB. }
    specialize (E B1).
    assert (EZ : at_ z = (b2z (relates r (at_ x) (encode1 (s_cfg s) c)) * SC)%Z).
    { rewrite E. apply small64. apply int64_R. rewrite mult_IZR. destruct (relates _ _ _); cbn [b2z]; rewrite ?Rmult_1_l, ?Rmult_0_l, ?Rabs_R0; [rewrite Rabs_right; lra|lra]. }
    assert (DZ : dec z = if relates r (at_ x) (encode1 (s_cfg s) c) then 1 else 0).
    { unfold dec. rewrite EZ. unfold fixed. rewrite mult_IZR. destruct (relates _ _ _); cbn [b2z]; field; lra. }
    rewrite DZ. pose proof (at_dec x) as AX. pose proof (enc_S c) as EC.
    assert (LE : forall a b : Z, forall p q, IZR a = p * S_ -> IZR b = q * S_ -> ((a <= b)%Z <-> p <= q)).
    { intros a b p q Ha Hb'. split; intros H.
      - apply IZR_le in H. rewrite Ha, Hb' in H. apply Rmult_le_reg_r in H; lra.
      - apply le_IZR. rewrite Ha, Hb'. apply Rmult_le_compat_r; lra. }
    pose proof (LE _ _ _ _ AX EC) as L1. pose proof (LE _ _ _ _ EC AX) as L2.
    destruct r; cbn [relates rop_of rel_R]; try congruence.
    - destruct (Z.leb_spec (at_ x) (encode1 (s_cfg s) c)); destruct (Rle_dec (dec x) (enc c)); auto; exfalso; [tauto|]. apply L1 in r. lia.
    - destruct (Z.ltb_spec (at_ x) (encode1 (s_cfg s) c)); destruct (Rlt_dec (dec x) (enc c)); auto; exfalso.
      + apply n, Rnot_le_lt. intros Q. apply L2 in Q. lia.
      + apply L2 in H. lra.
    - destruct (Z.leb_spec (encode1 (s_cfg s) c) (at_ x)); destruct (Rle_dec (enc c) (dec x)); auto; exfalso; [tauto|]. apply L2 in r. lia.
    - destruct (Z.ltb_spec (encode1 (s_cfg s) c) (at_ x)); destruct (Rlt_dec (enc c) (dec x)); auto; exfalso.
      + apply n, Rnot_le_lt. intros Q. apply L1 in Q. lia.
      + apply L1 in H. lra.
    - destruct (Z.eqb_spec (at_ x) (encode1 (s_cfg s) c)); destruct (Req_EM_T (dec x) (enc c)); auto; exfalso.
      + apply n. apply (Rmult_eq_reg_r S_); [|lra]. congruence.
      + apply n. apply eq_IZR. congruence.
  Qed.

  (** x ^ (2^n) *)
  Lemma f_pow2 n : forall x, S_ < BD -> sharing x ->
    frun (e_pow ME x (pow2p n)) (e_pow NE x (pow2p n)) sharing
      (fun z => exists b : nat -> R, b 0%nat = dec x /\
         (forall i, (i < n)%nat -> Rabs (b i * b i) * (S_ * S_) < BD -> Rabs (b (S i) - b i * b i) <= 2 * u) /\
         (Rabs (b n) * (S_ * S_) < BD -> Rabs (dec z - b n) <= u)).
  Proof.
    clear HR HG. cbn [e_pow mpc_engine noted_engine]. induction n as [|n IH]; intros x HS SX; cbn [pow2p m_pow n_pow].
    - eapply f_bind; [apply (f_mulp_int x 1); auto; rewrite Rabs_right; lra|]. intros r SR.
      eapply f_bind; [apply z_dropped; auto|]. intros d SD. apply f_ret; auto. intros _ E. exists (fun _ => dec x). split; [reflexivity|].
      split; [intros; lia|]. rewrite Rmult_1_r in E. exact E.
    - eapply f_bind; [apply (f_mul x x); auto|]. intros b SB. eapply f_weaken; [apply IH; auto|].
      intros z _ (c & C0 & C1 & C2) E. exists (fun i => match i with O => dec x | S i => c i end). split; [reflexivity|]. split; [|exact C2].
      intros [|i] Hi HB; [rewrite C0; apply E, HB|]. apply C1; [lia|exact HB].
  Qed.
  Close Scope R_scope.
End Pos.
