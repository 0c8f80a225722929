(** Specification: what sharing a module and taking it back should do to its layers. *)
From Coq Require Import QArith Qabs String.
From Verif Require Import Util S_Ring S_Tensor M_Torch M_Encoder M_Tensor M_Share M_Module.
Local Open Scope Z_scope.

Definition num_q (v : num) : Q := match v with NInt z => inject_Z z | NFloat q => q end.
Definition unit_of (c : config) : Q := (1 / inject_Z (c_base c ^ Z.of_nat (c_prec c)))%Q.

(** the scaled value fits 64 bits *)
Definition fits (c : config) (v : num) : Prop :=
  (inject_Z (- 2^63) <= num_q v * inject_Z (c_base c ^ Z.of_nat (c_prec c)) /\
   num_q v * inject_Z (c_base c ^ Z.of_nat (c_prec c)) < inject_Z (2^63))%Q.
(** [q] is [v] rounded toward zero to a multiple of the unit *)
Definition rounded (c : config) (v q : num) : Prop :=
  (Qabs (num_q q - num_q v) < unit_of c)%Q /\ (0 <= num_q v -> 0 <= num_q q <= num_q v)%Q /\
  (num_q v <= 0 -> num_q v <= num_q q <= 0)%Q /\
  (forall k, num_q v == inject_Z k * unit_of c -> num_q q == num_q v)%Q /\
  exists k, (num_q q == inject_Z k * unit_of c)%Q.

Definition bias_rel (R : num -> num -> Prop) (b b' : option (list num)) : Prop :=
  match b, b' with None, None => True | Some v, Some v' => Forall2 R v v' | _, _ => False end.
(** the same class and attributes, every parameter rounded *)
Definition same_layer (c : config) (l l' : tlayer) : Prop :=
  match l, l' with
  | TLinear o i w b, TLinear o' i' w' b' => o = o' /\ i = i' /\ Forall2 (rounded c) w w' /\ bias_rel (rounded c) b b'
  | TConv a w b, TConv a' w' b' => a = a' /\ Forall2 (rounded c) w w' /\ bias_rel (rounded c) b b'
  | TFlatten, TFlatten => True
  | _, _ => False
  end.

(** a layer torch can have built, whose parameters can be encoded *)
Definition params_ok (c : config) (sh : list nat) (v : list num) : Prop := length v = numel sh /\ Forall (fits c) v.
Definition layer_ok (c : config) (l : tlayer) : Prop :=
  match l with
  | TLinear o i w b => params_ok c [o; i] w /\ match b with None => True | Some v => params_ok c [o] v end
  | TConv a w b =>
      (0 < ca_groups a)%nat /\ (ca_in a mod ca_groups a)%nat = 0%nat /\ (ca_out a mod ca_groups a)%nat = 0%nat /\
      (0 < ca_in a)%nat /\
      params_ok c [ca_out a; ca_in a / ca_groups a; ca_kh a; ca_kw a]%nat w /\
      match b with None => True | Some v => params_ok c [ca_out a] v end
  | _ => True
  end.

(** the randomness for a parameter of shape [sh]: drawn numbers, or zero shares of the parties, the
    owner being one of them *)
Definition psup_ok (s : sess) (parties : list nat) (pl : place) (sh : list nat) (u : psup) : Prop :=
  match pl with
  | Local => draws (2^64) (s_n s) sh (ps_draws u)
  | At owner => In owner parties /\ NoDup parties /\ length parties = length (ps_przs u) /\
                shared (2^64) sh (repeat 0 (numel sh)) (ps_przs u)
  end.
Definition lsup_ok (s : sess) (parties : list nat) (pl : place) (l : tlayer) (u : psup * psup) : Prop :=
  match l with
  | TLinear o i _ _ => psup_ok s parties pl [o; i] (fst u) /\ psup_ok s parties pl [o] (snd u)
  | TConv a _ _ => psup_ok s parties pl [ca_out a; ca_in a / ca_groups a; ca_kh a; ca_kw a]%nat (fst u) /\
                   psup_ok s parties pl [ca_out a] (snd u)
  | _ => True
  end.

(** layers that survive: every Linear; a Conv2d with a bias in one group, and at a party only with the
    default stride, padding and dilation *)
Definition carried (pl : place) (l : tlayer) : Prop :=
  match l with
  | TLinear _ _ _ _ => True
  | TConv a _ b => b <> None /\ ca_groups a = 1%nat /\
      (pl = Local \/ ca_stride a = 1%nat /\ ca_pad a = 0%nat /\ ca_dil a = 1%nat)
  | _ => False
  end.

(** [x] is a sharing, in the session, of the tensor of shape [sh] with the ring elements [v] *)
Definition sharing_of (s : sess) (sh : list nat) (v : list Z) (x : mpc) : Prop :=
  m_sid x = s_id s /\ m_shape x = sh /\ length (m_shares x) = s_n s /\ shared (2^64) sh v (m_shares x).
(** the same for the bias of a layer with [o] outputs, which may be missing *)
Definition bias_sharing (s : sess) (o : nat) (vb : option (list Z)) (b : option mpc) : Prop :=
  match b, vb with None, None => True | Some y, Some v => sharing_of s [o] v y | _, _ => False end.
Definition bias_at (b : option (list Z)) (o : nat) : Z := match b with Some v => nth o v 0 | None => 0 end.
