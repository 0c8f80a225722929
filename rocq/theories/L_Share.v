(** Lemmas on additive sharing: splitting, privacy, linear operations. *)
From Coq Require Import Setoid Morphisms.
From Verif Require Import Util Modular S_Ring S_Tensor M_Torch L_Torch M_Encoder M_Tensor L_Tensor M_Share.
Local Open Scope Z_scope.

Ltac Zify.zify_post_hook ::= Z.div_mod_to_equations.

Lemma supR : supported R64. Proof. apply sup64. Qed.
Lemma posR : 0 < R64. Proof. reflexivity. Qed.
#[global] Hint Resolve supR posR : core.

Lemma rmap_pointwise {A B} (f : A -> result B) (g : A -> B) l :
  (forall a, In a l -> f a = Ok (g a)) -> rmap f l = Ok (map g l).
Proof.
  induction l as [|a l IH]; intros H; cbn [rmap map]; auto.
  rewrite H by (simpl; auto). rewrite IH; auto. intros; apply H; simpl; auto.
Qed.

Lemma telescope (c : nat -> Z) n :
  zsum (map (fun i => c (S i) - c i) (seq 0 n)) = c n - c 0%nat.
Proof.
  induction n as [|n IH]; [cbn; lia|]. rewrite seq_S, map_app, zsum_app, IH. cbn [map zsum plus]. lia.
Qed.

(* ------------------------------------------------------------ splitting *)
Section Gen.
  Variables (n : nat) (sh : list nat) (v : list Z) (rnd : list (list Z)).
  Hypothesis Hn : (2 <= n)%nat.
  Hypothesis Hv : tensor_in R64 sh (mkT sh v).
  Hypothesis Hr : draws R64 n sh rnd.

  Definition gshare (i : nat) : list Z :=
    if Nat.eqb i 0 then nth 0 rnd []
    else if Nat.ltb i (n - 1) then vsub R64 (nth i rnd []) (nth (i - 1) rnd [])
    else vsub R64 v (nth (i - 1) rnd []).

  Lemma rnd_ok i : (i < n - 1)%nat -> length (nth i rnd []) = numel sh /\ vec_in R64 (nth i rnd []).
  Proof. intros H. destruct Hr as [HL HF]. apply (Forall_nth_in _ rnd [] i HF). lia. Qed.

  Lemma get_rnd i : (i < n - 1)%nat ->
    get_nth (map (mkT sh) (firstn (n - 1) rnd)) i = Ok (mkT sh (nth i rnd [])).
  Proof.
    intros H. destruct Hr as [HL HF]. unfold get_nth.
    rewrite firstn_all2 by lia.
    rewrite (nth_error_nth' _ (mkT sh [])) by (rewrite map_length; lia).
    rewrite (nth_map_in _ []) by lia. reflexivity.
  Qed.

  Lemma generate_shares_eq :
    generate_shares n (mkT sh v) rnd = Ok (map (fun i => mkT sh (gshare i)) (seq 0 n)).
  Proof.
    unfold generate_shares. cbn [tsh]. apply rmap_pointwise. intros i Hi. apply in_seq in Hi.
    unfold gshare. destruct Hv as (_ & V2 & V3). cbn [tdat] in *.
    destruct (Nat.eqb_spec i 0) as [->|H0]; [apply get_rnd; lia|].
    destruct (Nat.ltb_spec i (n - 1)) as [H1|H1].
    - rewrite !get_rnd by lia. cbn [rbind]. unfold sh_lin. cbn [lin_elt].
      destruct (rnd_ok i) as [A1 A2]; [lia|]. destruct (rnd_ok (i - 1)) as [B1 B2]; [lia|].
      rewrite (tbin_same _ _ _ sh); auto.
    - rewrite get_rnd by lia. cbn [rbind]. unfold sh_lin. cbn [lin_elt].
      destruct (rnd_ok (i - 1)) as [B1 B2]; [lia|].
      rewrite (tbin_same _ _ _ sh); auto.
  Qed.

  Lemma gshare_ok i : (i < n)%nat -> length (gshare i) = numel sh /\ vec_in R64 (gshare i).
  Proof.
    intros Hi. unfold gshare. destruct Hv as (_ & V2 & V3). cbn [tdat] in *.
    destruct (Nat.eqb_spec i 0); [apply rnd_ok; lia|].
    destruct (Nat.ltb_spec i (n - 1)) as [H1|H1].
    - destruct (rnd_ok i) as [A1 A2]; [lia|]. destruct (rnd_ok (i - 1)) as [B1 B2]; [lia|].
      split; [apply vsub_length; auto | apply vsub_in; auto].
    - destruct (rnd_ok (i - 1)) as [B1 B2]; [lia|].
      split; [apply vsub_length; auto | apply vsub_in; auto].
  Qed.

  Lemma gshare_coord i e : (i < n)%nat ->
    nth e (gshare i) 0 ==
      (let c k := if Nat.eqb k 0 then 0 else if Nat.ltb k n then nth e (nth (k - 1) rnd []) 0 else nth e v 0 in
       c (S i) - c i) [mod R64].
  Proof.
    intros Hi. destruct Hv as (_ & V2 & V3). cbn [tdat] in *. unfold gshare.
    destruct (Nat.eqb_spec i 0) as [->|H0].
    - cbn [Nat.eqb]. destruct (Nat.ltb_spec 1 n); [|lia]. cbn [Nat.sub]. apply eqmod_eq; lia.
    - cbn [Nat.eqb]. destruct (Nat.eqb_spec i 0); [lia|]. destruct (Nat.ltb_spec i n); [|lia].
      destruct (rnd_ok (i - 1)) as [B1 B2]; [lia|].
      destruct (Nat.ltb_spec i (n - 1)) as [H1|H1], (Nat.ltb_spec (S i) n) as [H2|H2]; try lia.
      + destruct (rnd_ok i) as [A1 A2]; [lia|].
        rewrite nth_vsub by (auto; lia). replace (S i - 1)%nat with i by lia. reflexivity.
      + rewrite nth_vsub by (auto; lia). reflexivity.
  Qed.

  Lemma generate_shares_shared :
    shared R64 sh v (map (fun i => mkT sh (gshare i)) (seq 0 n)).
  Proof.
    destruct Hv as (_ & V2 & V3). cbn [tdat] in *.
    apply shared_intro; auto.
    - destruct n; [lia|discriminate].
    - apply Forall_map, Forall_forall. intros i Hi. apply in_seq in Hi.
      destruct (gshare_ok i) as [A B]; [lia|]. repeat split; auto.
    - intros e He. rewrite map_map. cbn [tdat].
      pose (c := fun k => if Nat.eqb k 0 then 0 else if Nat.ltb k n then nth e (nth (k - 1) rnd []) 0
                          else nth e v 0).
      transitivity (zsum (map (fun i => c (S i) - c i) (seq 0 n))).
      + rewrite (telescope c). unfold c. cbn [Nat.eqb].
        destruct (Nat.eqb_spec n 0); [lia|]. rewrite Nat.ltb_irrefl. apply eqmod_eq; lia.
      + symmetry. apply zsum_eqmod. intros i Hi. apply in_seq in Hi. apply gshare_coord. lia.
  Qed.
End Gen.

Lemma split_reconstruct n sh v rnd : (2 <= n)%nat -> tensor_in R64 sh (mkT sh v) ->
  draws R64 n sh rnd ->
  exists ss, generate_shares n (mkT sh v) rnd = Ok ss /\ length ss = n /\
             shared R64 sh v ss /\ tsum R64 ss = Ok (mkT sh v).
Proof.
  intros Hn Hv Hr. exists (map (fun i => mkT sh (gshare n v rnd i)) (seq 0 n)).
  pose proof (generate_shares_shared n sh v rnd Hn Hv Hr) as HS.
  repeat split; auto.
  - apply generate_shares_eq; auto.
  - rewrite map_length, seq_length; auto.
  - apply HS.
  - apply HS.
  - apply HS.
  - apply shared_tsum; auto.
Qed.

Lemma distribute_from_ok rank parties uuids shares :
  (rank + length shares <= length parties)%nat -> (rank + length shares <= length uuids)%nat ->
  exists ptrs, distribute_from rank parties uuids shares = Ok ptrs /\
    map p_share ptrs = shares /\
    map p_party ptrs = firstn (length shares) (skipn rank parties) /\
    map p_uuid ptrs = firstn (length shares) (skipn rank uuids).
Proof.
  revert rank; induction shares as [|s shares IH]; intros rank HP HU; cbn [distribute_from].
  - exists []. auto.
  - simpl in HP, HU. destruct (IH (S rank)) as (ptrs & E & E1 & E2 & E3); try lia.
    destruct (nth_error uuids rank) as [u|] eqn:EU.
    2:{ apply nth_error_None in EU. lia. }
    unfold get_nth. destruct (nth_error parties rank) as [p|] eqn:EP.
    2:{ apply nth_error_None in EP. lia. }
    cbn [rbind]. rewrite E. cbn [rbind]. exists (mkPtr p u s :: ptrs).
    split; [reflexivity|]. cbn [map p_share p_party p_uuid length].
    rewrite E1, E2, E3.
    assert (G : forall l (a : nat), nth_error l rank = Some a ->
              firstn (S (length shares)) (skipn rank l) = a :: firstn (length shares) (skipn (S rank) l)).
    { clear. intros l a. revert l. induction rank as [|r IH]; intros [|x l] H; cbn in H; try discriminate.
      - injection H as ->. reflexivity.
      - cbn [skipn]. apply IH in H. rewrite H. reflexivity. }
    rewrite (G _ _ EU), (G _ _ EP). auto.
Qed.

Lemma distribute_ok parties uuids shares :
  length parties = length shares -> length uuids = length shares ->
  exists ptrs, distribute_shares parties uuids shares = Ok ptrs /\
    map p_share ptrs = shares /\ map p_party ptrs = parties /\ map p_uuid ptrs = uuids.
Proof.
  intros HP HU. destruct (distribute_from_ok 0 parties uuids shares) as (ptrs & E & E1 & E2 & E3); try lia.
  exists ptrs. cbn [skipn] in *. rewrite firstn_all2 in E2, E3 by lia. auto.
Qed.

Lemma encode_in c vs : vec_in R64 (encode c vs).
Proof.
  unfold encode, vec_in. apply Forall_map, Forall_forall. intros x _. unfold encode1.
  destruct x as [z|q].
  - cbn [cast]. rewrite wrap_to_ring64. apply in_to_ring; auto.
  - unfold flong. set (t := Qtrunc _).
    destruct ((- 2 ^ 63 <=? t) && (t <? 2 ^ 63))%bool eqn:E.
    + apply andb_prop in E. destruct E as [E1 E2]. apply Z.leb_le in E1. apply Z.ltb_lt in E2.
      apply in_ring64; lia.
    + apply in_ring64. lia.
Qed.

Lemma share_init_in c p : pub_ok p ->
  tensor_in R64 (pub_shape p) (mkT (pub_shape p) (encode c (pub_vals p))) /\
  share_init c p = mkT (pub_shape p) (encode c (pub_vals p)).
Proof.
  destruct p as [v|sh vs]; intros H; cbn [pub_shape pub_vals share_init pub_ok] in *.
  - split; [|reflexivity]. repeat split. apply encode_in.
  - split; [|reflexivity]. repeat split; [cbn [tdat]; unfold encode; rewrite map_length; auto | apply encode_in].
Qed.

Lemma mpc_secret_reconstruct s p rnd : (2 <= s_n s)%nat -> pub_ok p ->
  draws R64 (s_n s) (pub_shape p) rnd ->
  exists x, mpc_secret s p rnd = Ok x /\ m_sid x = s_id s /\ m_shape x = pub_shape p /\
    length (m_shares x) = s_n s /\
    shared R64 (pub_shape p) (encode (s_cfg s) (pub_vals p)) (m_shares x) /\
    reconstruct x = Ok (mkT (pub_shape p) (encode (s_cfg s) (pub_vals p))) /\
    reconstruct_decode s x = decode (s_cfg s) (TLong (encode (s_cfg s) (pub_vals p))).
Proof.
  intros Hn Hp Hr. unfold mpc_secret. destruct (Nat.eqb_spec (s_n s) 0); [lia|].
  destruct (share_init_in (s_cfg s) p Hp) as [H1 H2]. rewrite H2.
  destruct (split_reconstruct (s_n s) _ _ rnd Hn H1 Hr) as (ss & E1 & E2 & E3 & E4).
  rewrite E1. cbn [rbind tsh]. eexists. split; [reflexivity|].
  unfold reconstruct_decode, reconstruct. cbn [m_sid m_shape m_shares]. rewrite E4. auto 10.
Qed.

Lemma mpc_secret_few s p rnd :
  (s_n s = 0%nat -> mpc_secret s p rnd = Err ValueError) /\
  (s_n s = 1%nat -> mpc_secret s p rnd = Err IndexError).
Proof.
  unfold mpc_secret. split; intros ->; cbn [Nat.eqb]; reflexivity.
Qed.

(* -------------------------------------------------------------- privacy *)
Definition shift_draws (j : nat) (d : list Z) (sgn : bool) (rnd : list (list Z)) : list (list Z) :=
  map (fun i => if Nat.ltb i j then nth i rnd []
                else if sgn then vadd R64 (nth i rnd []) d else vsub R64 (nth i rnd []) d)
      (seq 0 (length rnd)).

Lemma shift_draws_ok n sh j d b rnd : draws R64 n sh rnd -> length d = numel sh -> vec_in R64 d ->
  draws R64 n sh (shift_draws j d b rnd).
Proof.
  intros [HL HF] Hd1 Hd2. split.
  - unfold shift_draws. rewrite map_length, seq_length. exact HL.
  - unfold shift_draws. apply Forall_map, Forall_forall. intros i Hi. apply in_seq in Hi.
    destruct (Forall_nth_in _ rnd [] i HF) as [A1 A2]; [lia|].
    destruct (Nat.ltb i j); [auto|]. destruct b.
    + split; [apply vadd_length; auto | apply vadd_in; auto].
    + split; [apply vsub_length; auto | apply vsub_in; auto].
Qed.

Lemma vec_eqR x y : vec_in R64 x -> vec_in R64 y -> length x = length y ->
  (forall e, (e < length x)%nat -> nth e x 0 == nth e y 0 [mod R64]) -> x = y.
Proof. apply vec_eq; auto. Qed.

Lemma vadd_vsub x d : vec_in R64 x -> vec_in R64 d -> length x = length d ->
  vsub R64 (vadd R64 x d) d = x.
Proof.
  intros Hx Hd HL.
  assert (L1 : length (vadd R64 x d) = length x) by (apply vadd_length; auto).
  apply vec_eqR; auto using vsub_in, vadd_in.
  - apply vsub_length; auto; lia.
  - intros e _. rewrite nth_vsub, nth_vadd by (auto using vadd_in; lia). apply eqmod_eq; lia.
Qed.
Lemma vsub_vadd x d : vec_in R64 x -> vec_in R64 d -> length x = length d ->
  vadd R64 (vsub R64 x d) d = x.
Proof.
  intros Hx Hd HL.
  assert (L1 : length (vsub R64 x d) = length x) by (apply vsub_length; auto).
  apply vec_eqR; auto using vsub_in, vadd_in.
  - apply vadd_length; auto; lia.
  - intros e _. rewrite nth_vadd, nth_vsub by (auto using vsub_in; lia). apply eqmod_eq; lia.
Qed.

Lemma shift_draws_inv n sh j d b rnd : draws R64 n sh rnd -> length d = numel sh -> vec_in R64 d ->
  shift_draws j d (negb b) (shift_draws j d b rnd) = rnd.
Proof.
  intros [HL HF] Hd1 Hd2.
  assert (HL2 : length (shift_draws j d b rnd) = length rnd)
    by (unfold shift_draws; rewrite map_length, seq_length; auto).
  apply (nth_ext_len []).
  - unfold shift_draws at 1. rewrite map_length, seq_length. exact HL2.
  - intros i Hi. unfold shift_draws at 1 in Hi. rewrite map_length, seq_length, HL2 in Hi.
    unfold shift_draws at 1. rewrite (nth_map_in _ 0%nat) by (rewrite seq_length; lia).
    rewrite seq_nth by lia. cbn [plus]. unfold shift_draws.
    rewrite (nth_map_in _ 0%nat) by (rewrite seq_length; lia). rewrite seq_nth by lia. cbn [plus].
    destruct (Forall_nth_in _ rnd [] i HF) as [A1 A2]; [lia|].
    destruct (Nat.ltb i j); auto. destruct b; cbn [negb].
    + apply vadd_vsub; auto; lia.
    + apply vsub_vadd; auto; lia.
Qed.

Lemma share_shift n sh v v' j rnd : (2 <= n)%nat -> (j < n)%nat ->
  tensor_in R64 sh (mkT sh v) -> tensor_in R64 sh (mkT sh v') -> draws R64 n sh rnd ->
  exists ss ss',
    generate_shares n (mkT sh v) rnd = Ok ss /\
    generate_shares n (mkT sh v') (shift_draws j (vsub R64 v' v) true rnd) = Ok ss' /\
    length ss = n /\ length ss' = n /\
    forall k, (k < n)%nat -> k <> j -> nth_error ss k = nth_error ss' k.
Proof.
  intros Hn Hj Hv Hv' Hr. pose (d := vsub R64 v' v). fold d.
  pose proof Hv as (_ & V2 & V3). pose proof Hv' as (_ & W2 & W3). cbn [tdat] in V2, V3, W2, W3.
  assert (Hd1 : length d = numel sh) by (apply vsub_length; auto).
  assert (Hd2 : vec_in R64 d) by (apply vsub_in; auto).
  pose proof (shift_draws_ok n sh j d true rnd Hr Hd1 Hd2) as Hr'.
    exists (map (fun i => mkT sh (gshare n v rnd i)) (seq 0 n)).
    exists (map (fun i => mkT sh (gshare n v' (shift_draws j d true rnd) i)) (seq 0 n)).
    split; [apply generate_shares_eq; auto|]. split; [apply generate_shares_eq; auto|].
    split; [rewrite map_length, seq_length; auto|]. split; [rewrite map_length, seq_length; auto|].
    intros k Hk Hkj.
    rewrite !(nth_error_nth' _ (mkT sh [])) by (rewrite map_length, seq_length; auto).
    rewrite !(nth_map_in _ 0%nat) by (rewrite seq_length; auto). rewrite seq_nth by auto. cbn [plus].
    f_equal. f_equal.
    destruct Hr as [HL HF].
    assert (NS : forall i, (i < n - 1)%nat -> nth i (shift_draws j d true rnd) [] =
        if Nat.ltb i j then nth i rnd [] else vadd R64 (nth i rnd []) d).
    { intros i Hi. unfold shift_draws. rewrite (nth_map_in _ 0%nat) by (rewrite seq_length; lia).
      rewrite seq_nth by lia. reflexivity. }
    assert (RO : forall i, (i < n - 1)%nat -> length (nth i rnd []) = numel sh /\ vec_in R64 (nth i rnd []))
      by (intros i Hi; apply (Forall_nth_in _ rnd [] i HF); lia).
    unfold gshare. destruct (Nat.eqb_spec k 0) as [->|Hk0].
    + rewrite NS by lia. destruct (Nat.ltb_spec 0 j); [auto|lia].
    + destruct (Nat.ltb_spec k (n - 1)) as [H1|H1].
      * rewrite !NS by lia. destruct (RO k) as [A1 A2]; [lia|]. destruct (RO (k - 1)%nat) as [B1 B2]; [lia|].
        destruct (Nat.ltb_spec k j), (Nat.ltb_spec (k - 1) j); try lia; auto.
        assert (L1 : length (vadd R64 (nth k rnd []) d) = numel sh) by (apply vadd_length; auto).
        assert (L2 : length (vadd R64 (nth (k-1) rnd []) d) = numel sh) by (apply vadd_length; auto).
        apply vec_eqR; auto using vsub_in, vadd_in.
        -- unfold vsub at 1 2. rewrite !map2_length. lia.
        -- intros e _. rewrite !nth_vsub, !nth_vadd by (auto using vadd_in; lia). apply eqmod_eq; lia.
      * rewrite !NS by lia. destruct (RO (k - 1)%nat) as [B1 B2]; [lia|].
        destruct (Nat.ltb_spec (k - 1) j); [lia|].
        assert (L2 : length (vadd R64 (nth (k-1) rnd []) d) = numel sh) by (apply vadd_length; auto).
        apply vec_eqR; auto using vsub_in, vadd_in.
        -- unfold vsub at 1 2. rewrite !map2_length. lia.
        -- intros e _. rewrite !nth_vsub, !nth_vadd by (auto using vadd_in; lia).
           unfold d. rewrite nth_vsub by (auto; lia). apply eqmod_eq; lia.
Qed.

Lemma share_privacy n sh v v' j : (2 <= n)%nat -> (j < n)%nat ->
  tensor_in R64 sh (mkT sh v) -> tensor_in R64 sh (mkT sh v') ->
  exists f g,
    (forall rnd, draws R64 n sh rnd ->
       draws R64 n sh (f rnd) /\ draws R64 n sh (g rnd) /\ g (f rnd) = rnd /\ f (g rnd) = rnd) /\
    (forall rnd, draws R64 n sh rnd -> exists ss ss',
       generate_shares n (mkT sh v) rnd = Ok ss /\
       generate_shares n (mkT sh v') (f rnd) = Ok ss' /\
       length ss = n /\ length ss' = n /\
       forall k, (k < n)%nat -> k <> j -> nth_error ss k = nth_error ss' k).
Proof.
  intros Hn Hj Hv Hv'. pose (d := vsub R64 v' v).
  pose proof Hv as (_ & V2 & V3). pose proof Hv' as (_ & W2 & W3). cbn [tdat] in V2, V3, W2, W3.
  assert (Hd1 : length d = numel sh) by (apply vsub_length; auto).
  assert (Hd2 : vec_in R64 d) by (apply vsub_in; auto).
  exists (shift_draws j d true), (shift_draws j d false). split.
  - intros rnd Hr. split; [apply shift_draws_ok; auto|]. split; [apply shift_draws_ok; auto|]. split.
    + apply (shift_draws_inv n sh j d true); auto.
    + apply (shift_draws_inv n sh j d false); auto.
  - intros rnd Hr. apply share_shift; auto.
Qed.

(* ---------------------------------------------------- linear operations *)
Definition s_linop (o : linop) := match o with LAdd => s_add R64 | LSub => s_sub R64 end.

Lemma lin_elt_map2 o x y : vec_in R64 x -> vec_in R64 y ->
  map2 (lin_elt o) x y = s_linop o x y.
Proof. destruct o; intros; [apply vadd_spec | apply vsub_spec]; auto. Qed.

Lemma s_linop_in o x y : vec_in R64 (s_linop o x y).
Proof. destruct o; apply map2_to_ring_in; auto. Qed.

Lemma s_linop_length o x y m : length x = m -> length y = m -> length (s_linop o x y) = m.
Proof. destruct o; apply map2_length_eq. Qed.

Lemma sh_lin_spec o a b so : bshape (tsh a) (tsh b) so -> vec_in R64 (tdat a) -> vec_in R64 (tdat b) ->
  sh_lin o a b = Ok (mkT so (s_linop o (bexpand (tsh a) so (tdat a)) (bexpand (tsh b) so (tdat b)))).
Proof.
  intros H Ha Hb. unfold sh_lin. rewrite (tbin_spec _ _ _ _ H), lin_elt_map2; auto using bexpand_in.
Qed.

Lemma Forall_map2 {A B C} (P : C -> Prop) (f : A -> B -> C) l1 : forall l2,
  (forall a b, In a l1 -> In b l2 -> P (f a b)) -> Forall P (map2 f l1 l2).
Proof.
  induction l1 as [|a l1 IH]; intros [|b l2] H; cbn [map2]; constructor.
  - apply H; simpl; auto.
  - apply IH. intros; apply H; simpl; auto.
Qed.

Lemma mpc_lin_shared o x y so vx vy :
  m_sid x = m_sid y -> length (m_shares x) = length (m_shares y) ->
  shared R64 (m_shape x) vx (m_shares x) -> shared R64 (m_shape y) vy (m_shares y) ->
  bshape (m_shape x) (m_shape y) so ->
  exists z, mpc_lin o x y = Ok z /\ m_sid z = m_sid x /\ m_shape z = so /\
    length (m_shares z) = length (m_shares x) /\
    shared R64 so (s_linop o (bexpand (m_shape x) so vx) (bexpand (m_shape y) so vy)) (m_shares z).
Proof.
  intros Hid HL HX HY Hso. unfold mpc_lin. rewrite Hid, Nat.eqb_refl. cbn [negb].
  destruct HX as (X1 & X2 & X3), HY as (Y1 & Y2 & Y3).
  rewrite Forall_forall in X2, Y2.
  rewrite (rmap_pointwise _ (fun p => mkT so (s_linop o (bexpand (m_shape x) so (tdat (fst p)))
                                                        (bexpand (m_shape y) so (tdat (snd p)))))).
  2:{ intros [a b] Hab. cbn [fst snd]. pose proof (in_combine_l _ _ _ _ Hab) as Ha.
      pose proof (in_combine_r _ _ _ _ Hab) as Hb.
      destruct (X2 a Ha) as (A1 & A2 & A3), (Y2 b Hb) as (B1 & B2 & B3).
      rewrite (sh_lin_spec o a b so) by (try rewrite A1, B1; auto). rewrite A1, B1. reflexivity. }
  cbn [rbind]. unfold shape_bin. rewrite (bcast_complete _ _ _ Hso). cbn [rbind].
  eexists. split; [reflexivity|]. cbn [m_sid m_shape m_shares].
  split; [auto|]. split; [auto|]. split.
  { rewrite map_length, combine_length. lia. }
  rewrite combine_map2, map_map2. cbn [fst snd].
  split; [|split].
  - destruct (m_shares x), (m_shares y); simpl in *; try congruence; discriminate.
  - apply Forall_map2. intros a b Ha Hb. split; [reflexivity|]. split; cbn [tdat].
    + apply s_linop_length; apply bexpand_length.
    + apply s_linop_in.
  - rewrite map_map2. cbn [tdat].
    rewrite <- (map2_map_r (fun a b => s_linop o (bexpand (m_shape x) so (tdat a)) b)
                 (fun b => bexpand (m_shape y) so (tdat b))).
    rewrite <- (map2_map_l (fun a b => s_linop o a b) (fun a => bexpand (m_shape x) so (tdat a))).
    rewrite <- (map_map tdat (bexpand (m_shape x) so)), <- (map_map tdat (bexpand (m_shape y) so)).
    assert (HXL : Forall (fun t => length t = numel (m_shape x)) (map tdat (m_shares x))).
    { apply Forall_map, Forall_forall. intros a Ha. apply (X2 a Ha). }
    assert (HYL : Forall (fun t => length t = numel (m_shape y)) (map tdat (m_shares y))).
    { apply Forall_map, Forall_forall. intros a Ha. apply (Y2 a Ha). }
    assert (GX : Forall (fun t => vec_in R64 t /\ length t = numel so) (map (bexpand (m_shape x) so) (map tdat (m_shares x)))).
    { rewrite map_map. apply Forall_map, Forall_forall. intros a Ha.
      split; [apply bexpand_in; auto; apply (X2 a Ha) | apply bexpand_length]. }
    assert (GY : Forall (fun t => vec_in R64 t /\ length t = numel so) (map (bexpand (m_shape y) so) (map tdat (m_shares y)))).
    { rewrite map_map. apply Forall_map, Forall_forall. intros a Ha.
      split; [apply bexpand_in; auto; apply (Y2 a Ha) | apply bexpand_length]. }
    rewrite X3, Y3. rewrite <- !s_sum_bexpand by auto.
    assert (EL : length (map (bexpand (m_shape x) so) (map tdat (m_shares x))) =
                 length (map (bexpand (m_shape y) so) (map tdat (m_shares y))))
      by (rewrite !map_length; auto).
    destruct o; cbn [s_linop].
    + rewrite <- s_sum_vadd by auto. reflexivity.
    + rewrite <- s_sum_vsub by auto. reflexivity.
Qed.

Lemma mpc_lin_sid o x y : m_sid x <> m_sid y -> mpc_lin o x y = Err ValueError.
Proof. intros H. unfold mpc_lin. apply Nat.eqb_neq in H. rewrite H. reflexivity. Qed.

Lemma mpc_lin_badshape o x y vx vy :
  m_sid x = m_sid y -> length (m_shares x) = length (m_shares y) ->
  shared R64 (m_shape x) vx (m_shares x) -> shared R64 (m_shape y) vy (m_shares y) ->
  (forall so, ~ bshape (m_shape x) (m_shape y) so) -> mpc_lin o x y = Err RuntimeError.
Proof.
  intros Hid HL (X1 & X2 & X3) (Y1 & Y2 & Y3) Hso. unfold mpc_lin. rewrite Hid, Nat.eqb_refl. cbn [negb].
  destruct (m_shares x) as [|a xs]; [congruence|]. destruct (m_shares y) as [|b ys]; [congruence|].
  cbn [combine rmap fst snd].
  inversion X2 as [|? ? (A1 & _) _]; inversion Y2 as [|? ? (B1 & _) _]; subst.
  unfold sh_lin. rewrite tbin_err; [reflexivity|]. rewrite A1, B1. exact Hso.
Qed.

(** reconstruction when only the first share was broadcast to a larger shape *)
Lemma tsum_first_larger sh so t ts : Forall (tensor_in R64 sh) ts -> tensor_in R64 so t ->
  bshape so sh so ->
  tsum R64 (t :: ts) =
  Ok (mkT so (s_sum R64 (numel so) (tdat t :: map (fun u => bexpand sh so (tdat u)) ts))).
Proof.
  intros Hts Ht Hb. unfold tsum.
  assert (G : forall us a, Forall (tensor_in R64 sh) us -> tensor_in R64 so a ->
      fold_left (fun acc u => do a0 <- acc; tbin (radd R64) a0 u) us (Ok a) =
      Ok (mkT so (fold_left (vadd R64) (map (fun u => bexpand sh so (tdat u)) us) (tdat a)))).
  { induction us as [|u us IH]; intros a Hus (A1 & A2 & A3); cbn [fold_left map].
    - destruct a as [s d]. simpl in *. subst. reflexivity.
    - inversion Hus as [|? ? (U1 & U2 & U3) Hus']; subst. cbn [rbind].
      rewrite (tbin_spec _ a u (tsh a)) by (rewrite ?A1; auto).
      rewrite bexpand_self by auto. apply IH; auto.
      assert (LE : length (bexpand (tsh u) (tsh a) (tdat u)) = numel (tsh a)) by apply bexpand_length.
      split; [reflexivity|]. cbn [tdat]. split.
      + apply map2_length_eq; auto.
      + apply vadd_in; auto. apply bexpand_in; auto. }
  rewrite (G ts t Hts Ht). f_equal. f_equal.
  change (fold_left (vadd R64) (map (fun u => bexpand sh so (tdat u)) ts) (tdat t))
    with (vsum R64 (tdat t :: map (fun u => bexpand sh so (tdat u)) ts)).
  destruct Ht as (T1 & T2 & T3).
  apply vsum_spec; auto; [discriminate|]. constructor; [auto|].
  apply Forall_map. eapply Forall_impl; [|apply Hts]. intros u (U1 & U2 & U3).
  split; [apply bexpand_in; auto | apply bexpand_length].
Qed.

Lemma bshape_idem a b so : bshape a b so -> bshape so a so.
Proof.
  intros [H1 H2]. split; [lia|]. intros i Hi. specialize (H2 i Hi). cbn in *.
  destruct H2 as [[E F]|[[E F]|[E F]]]; auto.
Qed.

(** value of a sharing whose first share is changed *)
Lemma mpc_lin_public_value s o x y vx so :
  pub_ok y -> shared R64 (m_shape x) vx (m_shares x) -> bshape (m_shape x) (pub_shape y) so ->
  exists z, mpc_lin_public s o x y = Ok z /\ m_sid z = m_sid x /\ m_shape z = so /\
    length (m_shares z) = length (m_shares x) /\
    reconstruct z = Ok (mkT so (s_linop o (bexpand (m_shape x) so vx)
                                  (bexpand (pub_shape y) so (encode (s_cfg s) (pub_vals y))))) /\
    (so = m_shape x ->
     shared R64 so (s_linop o (bexpand (m_shape x) so vx)
                       (bexpand (pub_shape y) so (encode (s_cfg s) (pub_vals y)))) (m_shares z)).
Proof.
  intros Hy HX Hso. destruct (share_init_in (s_cfg s) y Hy) as [HI EI].
  pose proof (shared_vals R64 supR _ _ _ HX) as (VL & VI & VN).
  destruct HX as (X1 & X2 & X3).
  unfold mpc_lin_public. destruct (m_shares x) as [|s0 rest] eqn:ES; [congruence|].
  cbn [get_nth nth_error rbind]. rewrite EI.
  inversion X2 as [|? ? (S1 & S2 & S3) X2']; subst.
  destruct HI as (_ & I2 & I3). cbn [tdat] in I2, I3.
  unfold get_nth; cbn [nth_error rbind].
  rewrite (sh_lin_spec o _ _ so) by (cbn [tsh tdat]; try rewrite S1; auto). cbn [rbind tsh tdat].
  unfold shape_bin. rewrite (bcast_complete _ _ _ Hso). cbn [rbind set_nth].
  eexists. split; [reflexivity|]. cbn [m_sid m_shape m_shares]. split; [auto|]. split; [auto|].
  split; [reflexivity|]. rewrite S1.
  set (ey := encode (s_cfg s) (pub_vals y)) in *.
  set (sh := m_shape x) in *.
  assert (T0 : tensor_in R64 so (mkT so (s_linop o (bexpand sh so (tdat s0)) (bexpand (pub_shape y) so ey)))).
  { split; [reflexivity|]. cbn [tdat]. split.
    - apply s_linop_length; apply bexpand_length.
    - apply s_linop_in. }
  assert (NV : forall e, (e < numel so)%nat ->
     nth e (s_linop o (bexpand sh so (s_sum R64 (numel sh) (map tdat (s0 :: rest)))) (bexpand (pub_shape y) so ey)) 0 ==
     nth e (s_linop o (bexpand sh so (tdat s0)) (bexpand (pub_shape y) so ey)) 0 +
     zsum (map (fun u => nth e (bexpand sh so (tdat u)) 0) rest) [mod R64]).
  { intros e He. rewrite <- s_sum_bexpand; auto.
    2:{ apply Forall_map. eapply Forall_impl; [|apply X2]. intros u (U1 & U2 & U3); auto. }
    assert (NE : nth e (s_sum R64 (numel so) (map (bexpand sh so) (map tdat (s0 :: rest)))) 0 ==
       nth e (bexpand sh so (tdat s0)) 0 + zsum (map (fun u => nth e (bexpand sh so (tdat u)) 0) rest) [mod R64]).
    { rewrite s_sum_nth by auto. rewrite to_ring_eqmod by auto. rewrite !map_map. reflexivity. }
    destruct o; cbn [s_linop]; unfold s_add, s_sub;
      rewrite !(nth_map2 _ 0 0 0) by (rewrite ?s_sum_length, ?bexpand_length; auto);
      rewrite !to_ring_eqmod by auto; rewrite NE; apply eqmod_eq; lia. }
  split.
  - unfold reconstruct. cbn [m_shares]. rewrite (tsum_first_larger sh so); auto.
    + f_equal. f_equal. apply vec_eqR.
      * apply s_sum_in; auto.
      * apply s_linop_in.
      * rewrite s_sum_length. symmetry. apply s_linop_length; apply bexpand_length.
      * intros e He. rewrite s_sum_length in He. rewrite s_sum_nth by auto.
        rewrite to_ring_eqmod by auto. rewrite NV by auto. cbn [map zsum tdat]. rewrite map_map. reflexivity.
    + eapply bshape_idem; eauto.
  - intros Eso. apply shared_intro; auto.
    + discriminate.
    + constructor; [exact T0|]. rewrite Eso. exact X2'.
    + apply s_linop_length; apply bexpand_length.
    + apply s_linop_in.
    + intros e He. rewrite NV by auto. cbn [map zsum tdat].
      apply eqmod_eq. f_equal. apply zsum_ext. intros u Hu.
      rewrite Forall_forall in X2'. destruct (X2' u Hu) as (U1 & U2 & U3).
      rewrite Eso. rewrite bexpand_self; auto.
Qed.

(* ----------------------------------------------------------- shape methods *)
Lemma view_length v s so ix : view_index v s = Ok (so, ix) -> length ix = numel so.
Proof.
  destruct v; cbn [view_index].
  - destruct s as [|a [|b [|c s]]]; intros H; inversion H; subst; cbn [numel fold_right]; 
      rewrite ?map_length, ?seq_length; try lia; reflexivity.
  - destruct (Nat.ltb a (length s) && Nat.ltb b (length s))%bool; intros H; inversion H; subst.
    rewrite map_length, seq_length. reflexivity.
  - destruct (Nat.eqb_spec (numel s0) (numel s)); intros H; inversion H; subst.
    rewrite map_length, seq_length. auto.
  - destruct s as [|a r]; intros H; inversion H; subst; cbn [numel fold_right]; rewrite map_length, seq_length;
      [|fold (numel r)]; lia.
  - destruct s; intros H; [discriminate|]. destruct (Nat.leb (start + len) n); inversion H; subst.
    rewrite map_length, seq_length. reflexivity.
  - destruct s; intros H; inversion H; subst. rewrite map_length, seq_length. reflexivity.
  - intros H; inversion H; subst. reflexivity.
  - destruct (nth_error s d); intros H; inversion H; subst. rewrite map_length, seq_length. reflexivity.
  - destruct (Nat.leb k (length s)); intros H; inversion H; subst. rewrite map_length, seq_length. reflexivity.
  - destruct (nth_error s d); intros H; inversion H; subst. rewrite map_length, seq_length. reflexivity.
  - intros H; inversion H; subst. rewrite map_length, seq_length. reflexivity.
Qed.

Lemma mpc_view_commutes v x vx u : shared R64 (m_shape x) vx (m_shares x) ->
  tview R64 v (mkT (m_shape x) vx) = Ok u ->
  exists y, mpc_view v x = Ok y /\ m_sid y = m_sid x /\ m_shape y = tsh u /\
    length (m_shares y) = length (m_shares x) /\
    shared R64 (tsh u) (tdat u) (m_shares y) /\ reconstruct y = Ok u.
Proof.
  intros HX HU. pose proof (shared_vals R64 supR _ _ _ HX) as (VL & VI & VN).
  destruct HX as (X1 & X2 & X3). unfold tview in HU. cbn [tsh tdat] in HU.
  destruct (view_index v (m_shape x)) as [[so ix]|e] eqn:EV; [|discriminate].
  cbn [rbind fst snd] in HU. injection HU as <-. cbn [tsh tdat].
  unfold mpc_view. rewrite Forall_forall in X2.
  rewrite (rmap_pointwise _ (fun t => mkT so (rlin R64 ix (tdat t)))).
  2:{ intros t Ht. unfold tview. destruct (X2 t Ht) as (T1 & T2 & T3). rewrite T1, EV. reflexivity. }
  cbn [rbind]. rewrite EV. cbn [rbind fst].
  pose proof (view_length _ _ _ _ EV) as LI.
  assert (SH : shared R64 so (rlin R64 ix vx) (map (fun t => mkT so (rlin R64 ix (tdat t))) (m_shares x))).
  { split; [|split].
    - destruct (m_shares x); [congruence|discriminate].
    - apply Forall_map, Forall_forall. intros t Ht. destruct (X2 t Ht) as (T1 & T2 & T3).
      split; [reflexivity|]. cbn [tdat]. split; [rewrite rlin_length; auto | apply rlin_in; auto].
    - rewrite rlin_spec by auto. rewrite map_map. cbn [tdat].
      rewrite <- (map_map tdat (rlin R64 ix)). rewrite <- LI. subst vx. symmetry. apply s_sum_lin; auto.
      + apply Forall_map, Forall_forall. intros t Ht. apply (X2 t Ht).
      + apply Forall_map, Forall_forall. intros t Ht. apply (X2 t Ht). }
  eexists. split; [reflexivity|]. cbn [m_sid m_shape m_shares].
  split; [auto|]. split; [auto|]. split; [rewrite map_length; auto|]. split; [exact SH|].
  unfold reconstruct. cbn [m_shares]. apply shared_tsum; auto.
Qed.

(* -------------------------------------------------------- remote secrets *)
Lemma add_at_owner_spec owner sec sh : tensor_in R64 sh sec ->
  forall parties shs, In owner parties -> NoDup parties ->
  length parties = length shs -> Forall (tensor_in R64 sh) shs ->
  exists ys j, add_at_owner parties owner sec shs = Ok ys /\ length ys = length shs /\
    nth_error parties j = Some owner /\
    Forall (tensor_in R64 sh) ys /\
    (forall k, k <> j -> nth_error ys k = nth_error shs k) /\
    forall e, zsum (map (fun t => nth e (tdat t) 0) ys) ==
              zsum (map (fun t => nth e (tdat t) 0) shs) + nth e (tdat sec) 0 [mod R64].
Proof.
  intros (C1 & C2 & C3). induction parties as [|p ps IH]; intros [|x xs] Hin Hnd HL HF; cbn [add_at_owner];
    try (simpl in *; tauto || lia).
  inversion HF as [|? ? (D1 & D2 & D3) HF']; subst. inversion Hnd as [|? ? Hn1 Hnd']; subst.
  destruct (Nat.eqb_spec p owner) as [->|Hpo].
  - assert (Hb : bshape (tsh x) (tsh sec) (tsh sec)) by (rewrite D1; apply bcast_spec, bcast_refl).
    rewrite (sh_lin_spec LAdd x sec (tsh sec) Hb D3 C3). cbn [rbind s_linop].
    rewrite D1, !bexpand_self by auto.
    eexists. exists 0%nat. split; [reflexivity|]. split; [reflexivity|]. split; [reflexivity|].
    split; [|split].
    + constructor; auto. split; [reflexivity|]. cbn [tdat]. split.
      * apply s_add_length; auto.
      * apply map2_to_ring_in; auto.
    + intros [|k] Hk; [congruence|reflexivity].
    + intros e. cbn [map zsum tdat]. rewrite <- vadd_spec, nth_vadd by (auto; lia). apply eqmod_eq; lia.
  - destruct Hin as [->|Hin]; [congruence|]. simpl in HL.
    destruct (IH xs) as (ys & j & E & L & N & F & K & Z); auto.
    rewrite E. cbn [rbind]. exists (x :: ys), (S j). split; [reflexivity|]. split; [simpl; lia|].
    split; [exact N|]. split; [constructor; auto; repeat split; auto|]. split.
    + intros [|k] Hk; [reflexivity|]. cbn [nth_error]. apply K. congruence.
    + intros e. cbn [map zsum]. rewrite Z. apply eqmod_eq; lia.
Qed.

Lemma mpc_remote_value s parties owner value przs :
  s_n s <> 0%nat -> pub_ok value -> In owner parties -> NoDup parties ->
  length parties = length przs ->
  shared R64 (pub_shape value) (repeat 0 (numel (pub_shape value))) przs ->
  exists x j, mpc_remote s parties owner (Some (pub_shape value)) value przs = Ok x /\
    nth_error parties j = Some owner /\
    m_shape x = pub_shape value /\
    reconstruct x = Ok (mkT (pub_shape value) (encode (s_cfg s) (pub_vals value))) /\
    shared R64 (pub_shape value) (encode (s_cfg s) (pub_vals value)) (m_shares x) /\
    forall k, k <> j -> nth_error (m_shares x) k = nth_error przs k.
Proof.
  intros Hn Hp Hin Hnd HL HS. destruct (share_init_in (s_cfg s) value Hp) as [HI EI].
  pose proof (shared_vals R64 supR _ _ _ HS) as (VL & VI & VN).
  destruct HS as (S1 & S2 & S3).
  destruct (add_at_owner_spec owner _ _ HI parties przs Hin Hnd HL S2) as (ys & j & E & L & N & F & K & Zs).
  unfold mpc_remote. destruct (Nat.eqb_spec (s_n s) 0); [lia|]. rewrite EI, E. cbn [rbind].
  assert (SH : shared R64 (pub_shape value) (encode (s_cfg s) (pub_vals value)) ys).
  { destruct HI as (_ & I2 & I3). apply shared_intro; auto.
    - destruct ys, przs; simpl in *; try congruence; lia.
    - intros i Hi. rewrite Zs. rewrite <- VN. rewrite nth_repeat_lt by auto. cbn [tdat]. apply eqmod_eq; lia. }
  eexists; exists j. split; [reflexivity|]. cbn [m_shape m_shares]. split; [auto|]. split; [auto|].
  split; [unfold reconstruct; cbn [m_shares]; apply shared_tsum; auto|]. split; auto.
Qed.

Lemma add_at_owner_absent owner sec parties : ~ In owner parties -> forall shs,
  add_at_owner parties owner sec shs = Ok shs.
Proof.
  induction parties as [|p ps IH]; intros Hn [|x xs]; cbn [add_at_owner]; auto.
  destruct (Nat.eqb_spec p owner) as [->|]; [elim Hn; simpl; auto|].
  rewrite IH by (simpl in Hn; tauto). reflexivity.
Qed.
