(** Specification: what the methods of replicated tensors have to compute, element by element;
    exact sums of integers. *)
From Verif Require Import Util S_Ring S_Tensor S_Bil S_View M_Tensor M_RepView.
Local Open Scope Z_scope.

(** methods that move elements: the method, shape before, shape after, values *)
Inductive moved : meth -> list nat -> list nat -> (list Z -> list Z) -> Prop :=
| mv_t m n : moved Mt [m; n] [n; m]
    (fun v => tabulate [n; m] (fun ix => match ix with [i; j] => elt [m; n] v [j; i] | _ => 0 end))
| mv_T m n : moved MTprop [m; n] [n; m]
    (fun v => tabulate [n; m] (fun ix => match ix with [i; j] => elt [m; n] v [j; i] | _ => 0 end))
| mv_unsqueeze d s : (d <= length s)%nat -> moved (MUnsqueeze d) s (insert_at d 1 s) (fun v => v)
| mv_view s so : numel so = numel s -> moved (MView so) s so (fun v => v)
| mv_clone s : moved MClone s s (fun v => v)
| mv_repeat k n r : moved (MRepeat k) (n :: r) ((k * n)%nat :: r) (fun v => concat (repeat v k)).

(** methods that add elements, in the integers *)
Inductive summed : meth -> list nat -> list nat -> (list Z -> list Z) -> Prop :=
| sm_all s : summed MSum s [] (fun v => [zsum v])
| sm_dim d s : (d < length s)%nat -> summed (MSumDim d) s (remove_at d s)
    (fun v => tabulate (remove_at d s) (fun ix => sumn (nth d s 0%nat) (fun k => elt s v (insert_at d k ix))))
| sm_keep d s : (d < length s)%nat -> summed (MSumKeep d) s (firstn d s ++ 1%nat :: skipn (S d) s)
    (fun v => tabulate (firstn d s ++ 1%nat :: skipn (S d) s)
                (fun ix => sumn (nth d s 0%nat) (fun k => elt s v (firstn d ix ++ k :: skipn (S d) ix)))).

(** a tensor of shape [sh] with as many elements as its shape says *)
Definition whole (sh : list nat) (t : tensor) : Prop := tsh t = sh /\ length (tdat t) = numel sh.
