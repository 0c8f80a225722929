(** Specification: the shape methods, element by element. *)
From Verif Require Import Util S_Ring S_Tensor S_Bil M_Tensor.
Local Open Scope Z_scope.

(** element at a multi-index *)
Definition elt (sh : list nat) (v : list Z) (ix : list nat) : Z := nth (ravel sh ix) v 0.

(** the list with positions [a] and [b] exchanged *)
Definition exchange (a b : nat) (l : list nat) : list nat :=
  map (fun i => nth (if Nat.eqb i a then b else if Nat.eqb i b then a else i) l 0%nat) (seq 0 (length l)).

(** insert / remove position [d] *)
Definition insert_at (d k : nat) (l : list nat) : list nat := firstn d l ++ k :: skipn d l.
Definition remove_at (d : nat) (l : list nat) : list nat := firstn d l ++ skipn (S d) l.

(** [viewed m s so f]: the method applies to tensors of shape [s], gives one of shape [so]
    and its values are [f v] *)
Inductive viewed : viewop -> list nat -> list nat -> (list Z -> list Z) -> Prop :=
| vw_t m n : viewed VT [m; n] [n; m]
    (fun v => tabulate [n; m] (fun ix => match ix with [i; j] => elt [m; n] v [j; i] | _ => 0 end))
| vw_transpose a b s : (a < length s)%nat -> (b < length s)%nat ->
    viewed (VTranspose a b) s (exchange a b s)
      (fun v => tabulate (exchange a b s) (fun ix => elt s v (exchange a b ix)))
| vw_reshape s so : numel so = numel s -> viewed (VReshape so) s so (fun v => v)
| vw_repeat k n r : viewed (VRepeat0 k) (n :: r) ((k * n)%nat :: r) (fun v => concat (repeat v k))
| vw_narrow start len n r : (start + len <= n)%nat -> viewed (VNarrow0 start len) (n :: r) (len :: r)
    (fun v => firstn (len * numel r) (skipn (start * numel r) v))
| vw_roll k n r : (k < n)%nat -> viewed (VRoll0 k) (n :: r) (n :: r)
    (fun v => skipn ((n - k) * numel r) v ++ firstn ((n - k) * numel r) v)
| vw_sum s : viewed VSum s [] (fun v => [to_ring (2^64) (zsum v)])
| vw_sumdim d s : (d < length s)%nat -> viewed (VSumDim d) s (remove_at d s)
    (fun v => tabulate (remove_at d s) (fun ix =>
       to_ring (2^64) (sumn (nth d s 0%nat) (fun k => elt s v (insert_at d k ix)))))
| vw_sumfirst k s : (k <= length s)%nat -> viewed (VSumFirst k) s (skipn k s)
    (fun v => tabulate (skipn k s) (fun ix =>
       to_ring (2^64) (sumn (numel (firstn k s)) (fun p => elt s v (unravel (firstn k s) p ++ ix)))))
| vw_sumkeep d s : (d < length s)%nat -> viewed (VSumKeep d) s (firstn d s ++ 1%nat :: skipn (S d) s)
    (fun v => tabulate (firstn d s ++ 1%nat :: skipn (S d) s) (fun ix =>
       to_ring (2^64) (sumn (nth d s 0%nat) (fun k => elt s v (firstn d ix ++ k :: skipn (S d) ix)))))
| vw_clone s : viewed VClone s s (fun v => v).
