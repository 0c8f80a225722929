(** Specification: what a session of two parties needs for algorithms on integer secrets, and
    sorted lists. *)
From Coq Require Import Sorted Permutation.
From Verif Require Import Util S_Ring S_Tensor S_Bil S_Spdz S_Fss M_Encoder M_Share M_Store M_Engine.
Local Open Scope Z_scope.

(** two parties, integer encoding *)
Definition int_pair (s : sess) : Prop := s_n s = 2%nat /\ c_prec (s_cfg s) = 0%nat /\ 1 <= c_base (s_cfg s).

(** a correct backend *)
Definition backend_ok {K} (alpha : K -> Z) (ev : fop -> Z -> Z -> K -> Z) (gen : fop -> nat -> nat -> result (list (list K))) : Prop :=
  good_gen (fun o k0 k1 => keys_ok alpha ev o k0 k1 /\ no_carry ev o k0) gen.

(** every request is answered with a valid triple for the element-wise product of two tensors of
    shape [sh], and with randomness for a number *)
Definition supply_ok (sh : list nat) (su : tri_supply) : Prop :=
  (forall k, valid_triples sh sh sh (mul_val sh sh sh) 2 (su_tri su k sh sh)) /\
  (forall k, draws (2^64) 2 [1%nat] (su_rnd su k)).

(** [x] is a sharing, in the session, of the tensor of shape [sh] with the values [v] *)
Definition shares_of (s : sess) (sh : list nat) (v : list Z) (x : mpc) : Prop :=
  m_sid x = s_id s /\ m_shape x = sh /\ length (m_shares x) = s_n s /\
  shared (2^64) sh (map (to_ring (2^64)) v) (m_shares x).

(** sorted in the requested direction *)
Definition sorted (ascending : bool) (l : list Z) : Prop :=
  StronglySorted (fun a b => if ascending then a <= b else b <= a) l.

(** any two of the values can be compared: closer than 2^31 - 1 *)
Definition close (l : list Z) : Prop := forall a b, In a l -> In b l -> Z.abs (a - b) < 2^31 - 1.
