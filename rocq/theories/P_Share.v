(** Properties C03, C04, C05, C08, C09: additive sharing.
    Specifications: S_Ring (ring 2^64 as signed 64-bit representatives) and S_Tensor
    (broadcasting, [shared]: the shares have the tensor's shape and add up to it). *)
From Verif Require Import Util S_Ring S_Tensor M_Torch M_Encoder M_Tensor M_Share L_Torch L_Tensor L_Share.
Local Open Scope Z_scope.

(** C03: splitting among n >= 2 parties and reconstructing gives back the encoded secret,
    whatever was drawn; one share per party. *)
Theorem C03_split_reconstruct : forall s p rnd, (2 <= s_n s)%nat -> pub_ok p ->
  draws (2^64) (s_n s) (pub_shape p) rnd ->
  exists x, mpc_secret s p rnd = Ok x /\ m_sid x = s_id s /\ m_shape x = pub_shape p /\
    length (m_shares x) = s_n s /\
    shared (2^64) (pub_shape p) (encode (s_cfg s) (pub_vals p)) (m_shares x) /\
    reconstruct x = Ok (mkT (pub_shape p) (encode (s_cfg s) (pub_vals p))) /\
    reconstruct_decode s x = decode (s_cfg s) (TLong (encode (s_cfg s) (pub_vals p))).
Proof. exact mpc_secret_reconstruct. Qed.
Print Assumptions C03_split_reconstruct.

Example C03_witness :
  let s := mkS 7 3 default_config in
  let p := PTensor [2%nat] [NInt 5; NInt (-7)] in
  let rnd := [[2^63 - 1; -4]; [9; 11]] in
  (2 <= s_n s)%nat /\ pub_ok p /\ draws (2^64) 3 [2%nat] rnd /\
  mpc_secret s p rnd = Ok (mkM 7 [2%nat] [mkT [2%nat] [2^63 - 1; -4];
     mkT [2%nat] [-2^63 + 10; 15]; mkT [2%nat] [5 * 65536 - 9; -7 * 65536 - 11]]).
Proof.
  cbn zeta. split; [cbn; lia|]. split; [reflexivity|]. split.
  - split; [reflexivity|]. repeat constructor.
  - vm_compute. reflexivity.
Qed.

(** C03: share k goes to the party of rank k. *)
Theorem C03_distribution : forall parties uuids shares,
  length parties = length shares -> length uuids = length shares ->
  exists ptrs, distribute_shares parties uuids shares = Ok ptrs /\
    map p_share ptrs = shares /\ map p_party ptrs = parties /\ map p_uuid ptrs = uuids.
Proof. exact distribute_ok. Qed.
Print Assumptions C03_distribution.

Example C03_distribution_witness :
  distribute_shares [31; 32]%nat [101; 102]%nat [mkT [1%nat] [4]; mkT [1%nat] [-3]] =
  Ok [mkPtr 31 101 (mkT [1%nat] [4]); mkPtr 32 102 (mkT [1%nat] [-3])].
Proof. reflexivity. Qed.

(** C03: fewer than two parties is an error. *)
Theorem C03_few_parties : forall s p rnd,
  (s_n s = 0%nat -> mpc_secret s p rnd = Err ValueError) /\
  (s_n s = 1%nat -> mpc_secret s p rnd = Err IndexError).
Proof. exact mpc_secret_few. Qed.
Print Assumptions C03_few_parties.

(** C04: for any two secrets and any party j there is a bijection on the random draws under
    which all other parties hold exactly the same shares. *)
Theorem C04_privacy : forall n sh v v' j, (2 <= n)%nat -> (j < n)%nat ->
  tensor_in (2^64) sh (mkT sh v) -> tensor_in (2^64) sh (mkT sh v') ->
  exists f g,
    (forall rnd, draws (2^64) n sh rnd ->
       draws (2^64) n sh (f rnd) /\ draws (2^64) n sh (g rnd) /\ g (f rnd) = rnd /\ f (g rnd) = rnd) /\
    (forall rnd, draws (2^64) n sh rnd -> exists ss ss',
       generate_shares n (mkT sh v) rnd = Ok ss /\
       generate_shares n (mkT sh v') (f rnd) = Ok ss' /\
       length ss = n /\ length ss' = n /\
       forall k, (k < n)%nat -> k <> j -> nth_error ss k = nth_error ss' k).
Proof. exact share_privacy. Qed.
Print Assumptions C04_privacy.

Example C04_witness : (* party 1 of 3 left out: secrets 5 and 1000, second draw shifted by 995 *)
  tensor_in (2^64) [1%nat] (mkT [1%nat] [5]) /\ draws (2^64) 3 [1%nat] [[42]; [77]] /\
  generate_shares 3 (mkT [1%nat] [5]) [[42]; [77]] =
    Ok [mkT [1%nat] [42]; mkT [1%nat] [35]; mkT [1%nat] [-72]] /\
  generate_shares 3 (mkT [1%nat] [1000]) [[42]; [77 + 995]] =
    Ok [mkT [1%nat] [42]; mkT [1%nat] [1030]; mkT [1%nat] [-72]].
Proof. repeat split; repeat constructor. Qed.

(** C05: a secret held by party [owner] of the session is shared correctly, and every other
    party's share is its zero share, independent of the secret. *)
Theorem C05_remote_secret : forall s parties owner value przs,
  s_n s <> 0%nat -> pub_ok value -> In owner parties -> NoDup parties ->
  length parties = length przs ->
  shared (2^64) (pub_shape value) (repeat 0 (numel (pub_shape value))) przs ->
  exists x j, mpc_remote s parties owner (Some (pub_shape value)) value przs = Ok x /\
    nth_error parties j = Some owner /\
    m_shape x = pub_shape value /\
    reconstruct x = Ok (mkT (pub_shape value) (encode (s_cfg s) (pub_vals value))) /\
    shared (2^64) (pub_shape value) (encode (s_cfg s) (pub_vals value)) (m_shares x) /\
    forall k, k <> j -> nth_error (m_shares x) k = nth_error przs k.
Proof. exact mpc_remote_value. Qed.
Print Assumptions C05_remote_secret.

Example C05_witness :
  let przs := [mkT [2%nat] [10; -3]; mkT [2%nat] [5; 3]; mkT [2%nat] [-15; 0]] in
  shared (2^64) [2%nat] (repeat 0 2) przs /\
  mpc_remote (mkS 1 3 default_config) [4; 5; 6]%nat 5 (Some [2%nat])
     (PTensor [2%nat] [NInt 1; NInt (-2)]) przs =
  Ok (mkM 1 [2%nat] [mkT [2%nat] [10; -3]; mkT [2%nat] [5 + 65536; 3 - 131072]; mkT [2%nat] [-15; 0]]).
Proof.
  cbn zeta. split; [|vm_compute; reflexivity]. split; [discriminate|]. split.
  - repeat constructor.
  - reflexivity.
Qed.

(** C05, last clause refuted: a holder outside the session is not refused; the result is a
    sharing of zero whatever the secret is. *)
Theorem C05_foreign_holder_refuted : exists s parties owner value przs x,
  ~ In owner parties /\ pub_ok value /\ length parties = length przs /\
  shared (2^64) (pub_shape value) (repeat 0 (numel (pub_shape value))) przs /\
  mpc_remote s parties owner (Some (pub_shape value)) value przs = Ok x /\
  reconstruct x = Ok (mkT (pub_shape value) (repeat 0 (numel (pub_shape value)))) /\
  encode (s_cfg s) (pub_vals value) <> repeat 0 (numel (pub_shape value)).
Proof.
  exists (mkS 1 2 default_config), [4; 5]%nat, 9%nat, (PTensor [1%nat] [NInt 3]),
         [mkT [1%nat] [8]; mkT [1%nat] [-8]].
  eexists. split; [simpl; lia|]. split; [reflexivity|]. split; [reflexivity|]. split.
  { split; [discriminate|]. split; [repeat constructor | reflexivity]. }
  split; [reflexivity|]. split; [reflexivity | vm_compute; discriminate].
Qed.
Print Assumptions C05_foreign_holder_refuted.

(** C08: sums and differences of two shared tensors, with broadcasting. *)
Theorem C08_add_sub_private : forall x y so vx vy,
  m_sid x = m_sid y -> length (m_shares x) = length (m_shares y) ->
  shared (2^64) (m_shape x) vx (m_shares x) -> shared (2^64) (m_shape y) vy (m_shares y) ->
  bshape (m_shape x) (m_shape y) so ->
  let bx := bexpand (m_shape x) so vx in
  let b_y := bexpand (m_shape y) so vy in
  (exists z, mpc_lin LAdd x y = Ok z /\ m_sid z = m_sid x /\ m_shape z = so /\
     length (m_shares z) = length (m_shares x) /\ shared (2^64) so (s_add (2^64) bx b_y) (m_shares z)) /\
  (exists z, mpc_lin LSub x y = Ok z /\ m_sid z = m_sid x /\ m_shape z = so /\
     length (m_shares z) = length (m_shares x) /\ shared (2^64) so (s_sub (2^64) bx b_y) (m_shares z)).
Proof.
  exact (fun x y so vx vy H1 H2 H3 H4 H5 =>
    conj (mpc_lin_shared LAdd x y so vx vy H1 H2 H3 H4 H5)
         (mpc_lin_shared LSub x y so vx vy H1 H2 H3 H4 H5)).
Qed.
Print Assumptions C08_add_sub_private.

Example C08_witness : (* (2,1) + (3,) broadcast to (2,3), second element overflowing *)
  let x := mkM 0 [2;1]%nat [mkT [2;1]%nat [5; 2^63 - 1]; mkT [2;1]%nat [1; 0]] in
  let y := mkM 0 [3]%nat [mkT [3]%nat [10; 20; 1]; mkT [3]%nat [0; 0; 0]] in
  shared (2^64) [2;1]%nat [6; 2^63 - 1] (m_shares x) /\ shared (2^64) [3]%nat [10; 20; 1] (m_shares y) /\
  bshape [2;1]%nat [3]%nat [2;3]%nat /\
  (do z <- mpc_lin LAdd x y; reconstruct z) =
  Ok (mkT [2;3]%nat [16; 26; 7; -2^63 + 9; -2^63 + 19; -2^63]).
Proof.
  cbn zeta. split; [|split; [|split]].
  - split; [discriminate|]. split; [repeat constructor | reflexivity].
  - split; [discriminate|]. split; [repeat constructor | reflexivity].
  - apply bcast_spec. reflexivity.
  - vm_compute. reflexivity.
Qed.

(** C08: adding or subtracting a public value; the result reconstructs correctly and is again
    a sharing when the public operand does not enlarge the shape. *)
Theorem C08_add_sub_public : forall s x y vx so,
  pub_ok y -> shared (2^64) (m_shape x) vx (m_shares x) -> bshape (m_shape x) (pub_shape y) so ->
  let bx := bexpand (m_shape x) so vx in
  let b_y := bexpand (pub_shape y) so (encode (s_cfg s) (pub_vals y)) in
  (exists z, mpc_lin_public s LAdd x y = Ok z /\ m_sid z = m_sid x /\ m_shape z = so /\
    length (m_shares z) = length (m_shares x) /\
    reconstruct z = Ok (mkT so (s_add (2^64) bx b_y)) /\
    (so = m_shape x -> shared (2^64) so (s_add (2^64) bx b_y) (m_shares z))) /\
  (exists z, mpc_lin_public s LSub x y = Ok z /\ m_sid z = m_sid x /\ m_shape z = so /\
    length (m_shares z) = length (m_shares x) /\
    reconstruct z = Ok (mkT so (s_sub (2^64) bx b_y)) /\
    (so = m_shape x -> shared (2^64) so (s_sub (2^64) bx b_y) (m_shares z))).
Proof.
  exact (fun s x y vx so H1 H2 H3 =>
    conj (mpc_lin_public_value s LAdd x y vx so H1 H2 H3)
         (mpc_lin_public_value s LSub x y vx so H1 H2 H3)).
Qed.
Print Assumptions C08_add_sub_public.

Example C08_public_witness :
  let x := mkM 0 [2]%nat [mkT [2]%nat [5; 2^63 - 1]; mkT [2]%nat [1; 0]] in
  shared (2^64) [2]%nat [6; 2^63 - 1] (m_shares x) /\ bshape [2]%nat [1]%nat [2]%nat /\
  (do z <- mpc_lin_public (mkS 0 2 default_config) LSub x (PNum (NInt 2)); reconstruct z) =
  Ok (mkT [2]%nat [6 - 131072; 2^63 - 1 - 131072]).
Proof.
  cbn zeta. split; [|split].
  - split; [discriminate|]. split; [repeat constructor | reflexivity].
  - apply bcast_spec. reflexivity.
  - vm_compute. reflexivity.
Qed.

(** C08: tensors of different sessions and shapes that do not broadcast are refused. *)
Theorem C08_refused : forall o x y vx vy,
  (m_sid x <> m_sid y -> mpc_lin o x y = Err ValueError) /\
  (m_sid x = m_sid y -> length (m_shares x) = length (m_shares y) ->
   shared (2^64) (m_shape x) vx (m_shares x) -> shared (2^64) (m_shape y) vy (m_shares y) ->
   (forall so, ~ bshape (m_shape x) (m_shape y) so) -> mpc_lin o x y = Err RuntimeError).
Proof. exact (fun o x y vx vy => conj (mpc_lin_sid o x y) (mpc_lin_badshape o x y vx vy)). Qed.
Print Assumptions C08_refused.

Example C08_refused_witness :
  mpc_lin LAdd (mkM 0 [2]%nat [mkT [2]%nat [1;2]]) (mkM 0 [3]%nat [mkT [3]%nat [1;2;3]]) = Err RuntimeError /\
  mpc_lin LAdd (mkM 0 [2]%nat [mkT [2]%nat [1;2]]) (mkM 1 [2]%nat [mkT [2]%nat [1;2]]) = Err ValueError.
Proof. split; reflexivity. Qed.

(** C09: shape methods commute with reconstruction. *)
Theorem C09_shape_methods : forall v x vx u, shared (2^64) (m_shape x) vx (m_shares x) ->
  tview (2^64) v (mkT (m_shape x) vx) = Ok u ->
  exists y, mpc_view v x = Ok y /\ m_sid y = m_sid x /\ m_shape y = tsh u /\
    length (m_shares y) = length (m_shares x) /\
    shared (2^64) (tsh u) (tdat u) (m_shares y) /\ reconstruct y = Ok u.
Proof. exact mpc_view_commutes. Qed.
Print Assumptions C09_shape_methods.

Example C09_witness :
  let x := mkM 0 [2;3]%nat [mkT [2;3]%nat [1;2;3;4;5;6]; mkT [2;3]%nat [10;0;0;0;0;-6]] in
  shared (2^64) [2;3]%nat [11;2;3;4;5;0] (m_shares x) /\
  tview (2^64) VT (mkT [2;3]%nat [11;2;3;4;5;0]) = Ok (mkT [3;2]%nat [11;4;2;5;3;0]) /\
  tview (2^64) (VSumDim 1) (mkT [2;3]%nat [11;2;3;4;5;0]) = Ok (mkT [2]%nat [16;9]) /\
  (do y <- mpc_view VT x; reconstruct y) = Ok (mkT [3;2]%nat [11;4;2;5;3;0]).
Proof.
  cbn zeta. split; [split; [discriminate|]; split; [repeat constructor | reflexivity]|].
  split; [|split]; vm_compute; reflexivity.
Qed.

(** C09 refuted for the tensors that adding a public value of a larger shape produces: the
    shape attribute and the reconstruction are those of the enlarged tensor, but only the
    first share was enlarged, so summing (here 3 + 3 elements) goes wrong. *)
Theorem C09_after_public_broadcast_refuted : exists s x y z t w u,
  shared (2^64) (m_shape x) [3] (m_shares x) /\ pub_ok y /\
  mpc_lin_public s LAdd x y = Ok z /\ reconstruct z = Ok t /\ m_shape z = tsh t /\
  mpc_view VSum z = Ok w /\ tview (2^64) VSum t = Ok u /\ reconstruct w <> Ok u.
Proof.
  exists (mkS 0 2 (mkConfig 2 0)), (mkM 0 [1%nat] [mkT [1%nat] [8]; mkT [1%nat] [-5]]),
         (PTensor [3%nat] [NInt 1; NInt 2; NInt 3]),
         (mkM 0 [3%nat] [mkT [3%nat] [9;10;11]; mkT [1%nat] [-5]]),
         (mkT [3%nat] [4;5;6]), (mkM 0 [] [mkT [] [30]; mkT [] [-5]]), (mkT [] [15]).
  split; [|split; [|split; [|split; [|split; [|split; [|split]]]]]].
  - split; [discriminate|]. split; [repeat constructor | reflexivity].
  - reflexivity.
  - vm_compute; reflexivity.
  - vm_compute; reflexivity.
  - reflexivity.
  - vm_compute; reflexivity.
  - vm_compute; reflexivity.
  - intros H. vm_compute in H. discriminate H.
Qed.
Print Assumptions C09_after_public_broadcast_refuted.
