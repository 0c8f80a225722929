(** Specification: the bilinear tensor operations (product with broadcasting, matrix product,
    two-dimensional convolution and transposed convolution), element by element. *)
From Verif Require Import Util S_Ring S_Tensor.
Local Open Scope Z_scope.

(** the tensor whose element at the multi-index [i] is [f i] *)
Definition tabulate (sh : list nat) (f : list nat -> Z) : list Z :=
  map (fun e => f (unravel sh e)) (seq 0 (numel sh)).

(** sum for 0 <= i < n *)
Definition sumn (n : nat) (f : nat -> Z) : Z := zsum (map f (seq 0 n)).

(** element (i, j, k, l) of a tensor of four dimensions *)
Definition at4 (sh : list nat) (v : list Z) (i j k l : nat) : Z := nth (ravel sh [i; j; k; l]) v 0.

(** position in a tensor of shape [sh] of the element used at position [e] of its broadcast to [so] *)
Definition bpos (sh so : list nat) (e : nat) : nat :=
  ravel sh (map2 (fun d i => if Nat.eqb d 1 then 0%nat else i) sh (skipn (length so - length sh) (unravel so e))).

Section Ring.
Variable ring : Z.

(** element-wise product *)
Definition mul_vr (sx sy so : list nat) (vx vy : list Z) : list Z :=
  s_mul ring (bexpand sx so vx) (bexpand sy so vy).

(** matrix products of the m x k by the k x n matrices of two stacks of shapes [b1], [b2] *)
Definition mm_vr (b1 b2 bs : list nat) (m k n : nat) (vx vy : list Z) : list Z :=
  map (fun e => let c := (e mod n)%nat in let r := ((e / n) mod m)%nat in let b := (e / (m * n))%nat in
         to_ring ring (sumn k (fun t =>
           nth ((bpos b1 bs b * m + r) * k + t) vx 0 * nth ((bpos b2 bs b * k + t) * n + c) vy 0)))
      (seq 0 (numel bs * (m * n))).

(** convolution: stride [s], zero padding [p], dilation [d], [g] groups *)
Definition conv_vr (s p d g nb c h w o cg kh kw oh ow : nat) (vx vw : list Z) : list Z :=
  let xpad n ch (r q : Z) :=
    if ((0 <=? r) && (r <? Z.of_nat h) && (0 <=? q) && (q <? Z.of_nat w))%bool
    then at4 [nb; c; h; w] vx n ch (Z.to_nat r) (Z.to_nat q) else 0 in
  tabulate [nb; o; oh; ow] (fun ix => match ix with
    | [n; f; y; x] => to_ring ring
        (sumn cg (fun ch => sumn kh (fun i => sumn kw (fun j =>
           xpad n (f / (o / g) * cg + ch)%nat
                (Z.of_nat (y * s + i * d) - Z.of_nat p) (Z.of_nat (x * s + j * d) - Z.of_nat p)
           * at4 [o; cg; kh; kw] vw f ch i j))))
    | _ => 0 end).

(** transposed convolution: input element (u, v) adds to the output at (u*s + i*d - p, v*s + j*d - p) *)
Definition convT_vr (s p d g nb c h w og kh kw oh ow : nat) (vx vw : list Z) : list Z :=
  let cg := (c / g)%nat in
  tabulate [nb; (g * og)%nat; oh; ow] (fun ix => match ix with
    | [n; f; y; x] => to_ring ring
        (sumn cg (fun ch => sumn h (fun u => sumn w (fun v => sumn kh (fun i => sumn kw (fun j =>
           if (Nat.eqb (y + p) (u * s + i * d) && Nat.eqb (x + p) (v * s + j * d))%bool then
             at4 [nb; c; h; w] vx n (f / og * cg + ch) u v * at4 [c; og; kh; kw] vw (f / og * cg + ch) (f mod og) i j
           else 0))))))
    | _ => 0 end).

(** which operation, with the parameters of the convolutions *)
Inductive bspec :=
| SMul | SMatmul
| SConv (s p d g : nat) | SConvT (s p d g : nat).

(** [product_r ring op sx sy so f]: the operation applies to tensors of shapes [sx] and [sy], gives
    one of shape [so], and its values are [f vx vy] *)
Inductive product_r : bspec -> list nat -> list nat -> list nat -> (list Z -> list Z -> list Z) -> Prop :=
| prod_mul_r sx sy so : bshape sx sy so -> product_r SMul sx sy so (mul_vr sx sy so)
| prod_mm_r b1 b2 bs m k n : bshape b1 b2 bs ->
    product_r SMatmul (b1 ++ [m; k]) (b2 ++ [k; n]) (bs ++ [m; n]) (mm_vr b1 b2 bs m k n)
| prod_vm_r b2 k n : product_r SMatmul [k] (b2 ++ [k; n]) (b2 ++ [n]) (mm_vr [] b2 b2 1 k n)
| prod_mv_r b1 m k : product_r SMatmul (b1 ++ [m; k]) [k] (b1 ++ [m]) (mm_vr b1 [] b1 m k 1)
| prod_vv_r k : product_r SMatmul [k] [k] [] (mm_vr [] [] [] 1 k 1)
| prod_conv_r s p d g nb h w og cg kh kw oh ow :
    (0 < s -> 0 < d -> 0 < g -> 0 < kh -> 0 < kw ->
    (* the last kernel position that fits *)
    d * (kh - 1) + 1 <= h + 2 * p -> d * (kw - 1) + 1 <= w + 2 * p ->
    (oh - 1) * s + d * (kh - 1) + 1 <= h + 2 * p < oh * s + d * (kh - 1) + 1 ->
    (ow - 1) * s + d * (kw - 1) + 1 <= w + 2 * p < ow * s + d * (kw - 1) + 1 ->
    product_r (SConv s p d g) [nb; g * cg; h; w] [g * og; cg; kh; kw] [nb; g * og; oh; ow]
      (conv_vr s p d g nb (g * cg) h w (g * og) cg kh kw oh ow))%nat
| prod_convT_r s p d g nb h w og cg kh kw oh ow :
    (0 < s -> 0 < d -> 0 < g -> 0 < kh -> 0 < kw -> 0 < h -> 0 < w -> 0 < oh -> 0 < ow ->
    oh + 2 * p = (h - 1) * s + d * (kh - 1) + 1 -> ow + 2 * p = (w - 1) * s + d * (kw - 1) + 1 ->
    product_r (SConvT s p d g) [nb; g * cg; h; w] [g * cg; og; kh; kw] [nb; g * og; oh; ow]
      (convT_vr s p d g nb (g * cg) h w og kh kw oh ow))%nat.

End Ring.

(** the same in the default ring *)
Notation mul_val := (mul_vr (2^64)).
Notation mm_val := (mm_vr (2^64)).
Notation conv_val := (conv_vr (2^64)).
Notation convT_val := (convT_vr (2^64)).
Notation product := (product_r (2^64)).
Notation prod_mul := (prod_mul_r (2^64)).
Notation prod_mm := (prod_mm_r (2^64)).
Notation prod_conv := (prod_conv_r (2^64)).
