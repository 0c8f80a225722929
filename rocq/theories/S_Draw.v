(** Specification: the random tensors as the code draws them.  [tensor.random_(generator=g)]
    without bounds gives a 64-bit integer tensor values from 0 to 2^63 - 1 only (mpc_tensor.py:338-345,
    beaver.py:80-98 and 527-530, mpc_utils.py:104-107). *)
From Verif Require Import Util S_Ring S_Tensor M_Tensor S_Priv.
Local Open Scope Z_scope.

Definition drawn (l : list Z) : Prop := Forall (fun z => 0 <= z < 2^63) l.

(** the random tensors drawn to split a secret of shape [sh] among [n] parties *)
Definition code_draws (n : nat) (sh : list nat) (rnd : list (list Z)) : Prop :=
  length rnd = (n - 1)%nat /\ Forall (fun r => length r = numel sh /\ drawn r) rnd.

(** everything drawn for a multiplication *)
Definition code_mulrand (n : nat) (sx sy so : list nat) (r : mulrand) : Prop :=
  code_draws n sx (mr_x r) /\ code_draws n sy (mr_y r) /\
  (length (mr_a r) = numel sx /\ drawn (mr_a r)) /\ (length (mr_b r) = numel sy /\ drawn (mr_b r)) /\
  code_draws n sx (mr_ra r) /\ code_draws n sy (mr_rb r) /\ code_draws n so (mr_rc r).
