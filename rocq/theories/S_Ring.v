(** Specification: the rings in which SyMPC computes, as plain mathematics.
    A ring element is an integer modulo [ring]; its machine representative is the
    signed (two's complement) one for the power-of-two rings of at least 8 bits and
    the one in [0, ring) for the bits (ring 2) and the prime field (ring 67). *)
From Verif Require Import Util.
Local Open Scope Z_scope.

(** the ring sizes a user may choose *)
Definition ring_sizes : list Z := [2; 2^8; 67; 2^16; 2^32; 2^64].
Definition supported (ring : Z) : Prop := In ring ring_sizes.

(** machine representative of the integer [v] in the ring *)
Definition to_ring (ring v : Z) : Z :=
  if (ring =? 2) || (ring =? 67) then v mod ring
  else (v + ring / 2) mod ring - ring / 2.

(** [v] is a machine representative *)
Definition in_ring (ring v : Z) : Prop := to_ring ring v = v.

(** a tensor (flat list) of machine representatives *)
Definition vec_in (ring : Z) (v : list Z) : Prop := Forall (in_ring ring) v.

(** element-wise ring operations on tensors of equal length *)
Definition s_add (ring : Z) (x y : list Z) : list Z := map2 (fun a b => to_ring ring (a + b)) x y.
Definition s_sub (ring : Z) (x y : list Z) : list Z := map2 (fun a b => to_ring ring (a - b)) x y.
Definition s_mul (ring : Z) (x y : list Z) : list Z := map2 (fun a b => to_ring ring (a * b)) x y.

(** element [e] of the ring sum of a list of tensors of length [m] *)
Definition s_sum (ring : Z) (m : nat) (ts : list (list Z)) : list Z :=
  map (fun e => to_ring ring (zsum (map (fun t => nth e t 0) ts))) (seq 0 m).

(** a linear tensor operation (transpose, reshape, slice, roll, repeat, sum over a
    dimension ...): output element [o] is the sum of the input elements listed in
    [nth o ix []]; a bilinear one (product with broadcasting, matrix product,
    convolution): the sum of the products of the listed pairs of elements *)
Definition s_lin (ring : Z) (ix : list (list nat)) (x : list Z) : list Z :=
  map (fun is => to_ring ring (zsum (map (fun i => nth i x 0) is))) ix.
Definition s_bil (ring : Z) (ix : list (list (nat * nat))) (x y : list Z) : list Z :=
  map (fun ps => to_ring ring (zsum (map (fun p => nth (fst p) x 0 * nth (snd p) y 0) ps))) ix.

(** indices stay inside tensors of [m] (and [k]) elements *)
Definition lin_within (m : nat) (ix : list (list nat)) : Prop :=
  Forall (fun is => Forall (fun i => (i < m)%nat) is) ix.
Definition bil_within (m k : nat) (ix : list (list (nat * nat))) : Prop :=
  Forall (fun ps => Forall (fun p => (fst p < m)%nat /\ (snd p < k)%nat) ps) ix.
