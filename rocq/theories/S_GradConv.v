(** Specification: the gradient of a linear function of tensors. *)
From Verif Require Import Util S_Ring S_Tensor S_Bil.
Local Open Scope Z_scope.

(** sum of the products of the elements *)
Definition dot (a b : list Z) : Z := zsum (map2 Z.mul a b).

(** [v] is the gradient, with respect to its argument of shape [sh], of the sum of the elements of
    the linear function [f] weighted by [g]: [g . f dx = v . dx] for every [dx], in the ring *)
Definition gradient (sh : list nat) (f : list Z -> list Z) (g v : list Z) : Prop :=
  length v = numel sh /\ vec_in (2^64) v /\
  forall dx, length dx = numel sh -> dot g (f dx) mod 2^64 = dot v dx mod 2^64.

(** a convolution of one image with one channel by [o] kernels of size kh x kw, stride [st],
    dilation [d], without padding, that uses every row and column of the image; the result has
    size oh x ow *)
Definition conv1 (st d o kh kw oh ow : nat) (vx vw : list Z) : list Z :=
  conv_val st 0 d 1 1 1 ((oh - 1) * st + d * (kh - 1) + 1) ((ow - 1) * st + d * (kw - 1) + 1) o 1 kh kw oh ow vx vw.
