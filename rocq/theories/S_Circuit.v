(** Specification: the value of a program, computed in the ring 2^64 without any sharing. *)
From Verif Require Import Util S_Ring S_Tensor S_Bil S_View S_Div M_Encoder M_Tensor M_Share M_Spdz M_Circuit S_Spdz.
Local Open Scope Z_scope.

(** a public operand made of integers, as ring elements; a number has the shape [1] *)
Definition int_pub (p : pub) (vs : list Z) : Prop :=
  match p with
  | PNum v => exists z, v = NInt z /\ vs = [to_ring (2^64) z]
  | PTensor sh l => length l = numel sh /\ exists zs, l = map NInt zs /\ vs = map (to_ring (2^64)) zs
  end.
Definition shape_of (p : pub) : list nat := match p with PNum _ => [1%nat] | PTensor sh _ => sh end.

Definition lin_val (o : linop) (sa sb so : list nat) (va vb : list Z) : list Z :=
  (match o with LAdd => s_add | LSub => s_sub end) (2^64) (bexpand sa so va) (bexpand sb so vb).

(** a supply of primitives fit for the program: where the program multiplies, a valid triple
    for the shapes; where it rescales, masks of the right shape when there are more than two
    parties; convolutions must also exist with the default stride, padding, dilation and groups
    (C52).  [means env sup n path e sh v]: with inputs [env] of the given shapes and values the
    program denotes the tensor [v] of shape [sh]. *)
Inductive means (env : nat -> list nat * list Z) (sup : supply) (n : nat) :
  list bool -> expr -> list nat -> list Z -> Prop :=
| mn_in path i : means env sup n path (EInput i) (fst (env i)) (snd (env i))
| mn_lin path o a b sa sb so va vb :
    means env sup n (false :: path) a sa va -> means env sup n (true :: path) b sb vb -> bshape sa sb so ->
    means env sup n path (ELin o a b) so (lin_val o sa sb so va vb)
| mn_linpub path o a p sa va vp :
    means env sup n (false :: path) a sa va -> int_pub p vp -> bshape sa (shape_of p) sa ->
    means env sup n path (ELinPub o a p) sa (lin_val o sa (shape_of p) sa va vp)
| mn_rsub path a p sa va vp :
    means env sup n (false :: path) a sa va -> sa <> [] -> int_pub p vp -> bshape sa (shape_of p) sa ->
    any_masks n sa (fst (snd (sup path))) (snd (snd (sup path))) ->
    means env sup n path (ERsub p a) sa (lin_val LSub (shape_of p) sa sa vp va)
| mn_mul path a b sa sb so va vb f :
    means env sup n (false :: path) a sa va -> means env sup n (true :: path) b sb vb ->
    product SMul sa sb so f -> valid_triples sa sb so f n (fst (sup path)) ->
    any_masks n so (fst (snd (sup path))) (snd (snd (sup path))) ->
    means env sup n path (EMul a b) so (f va vb)
| mn_matmul path a b sa sb so va vb f :
    means env sup n (false :: path) a sa va -> means env sup n (true :: path) b sb vb ->
    product SMatmul sa sb so f -> valid_triples sa sb so f n (fst (sup path)) ->
    any_masks n so (fst (snd (sup path))) (snd (snd (sup path))) ->
    means env sup n path (EMatmul a b) so (f va vb)
| mn_mulpub path a p sa so va vp f :
    means env sup n (false :: path) a sa va -> int_pub p vp -> product SMul sa (shape_of p) so f ->
    any_masks n so (fst (snd (sup path))) (snd (snd (sup path))) ->
    means env sup n path (EMulPub a p) so (f va vp)
| mn_matmulpub path a p sa so va vp f :
    means env sup n (false :: path) a sa va -> int_pub p vp -> product SMatmul sa (shape_of p) so f ->
    any_masks n so (fst (snd (sup path))) (snd (snd (sup path))) ->
    means env sup n path (EMatmulPub a p) so (f va vp)
| mn_rmatmul path a p sa so va vp f :
    means env sup n (false :: path) a sa va -> int_pub p vp -> product SMatmul (shape_of p) sa so f ->
    any_masks n so (fst (snd (sup path))) (snd (snd (sup path))) ->
    means env sup n path (ERmatmul p a) so (f vp va)
| mn_conv path st pd dl g a b sa sb so so' va vb f f' :
    means env sup n (false :: path) a sa va -> means env sup n (true :: path) b sb vb ->
    product (SConv st pd dl g) sa sb so f -> product (SConv 1 0 1 1) sa sb so' f' ->
    valid_triples sa sb so f n (fst (sup path)) ->
    any_masks n so (fst (snd (sup path))) (snd (snd (sup path))) ->
    means env sup n path (EConv (mkConv st pd dl g) a b) so (f va vb)
| mn_convT path st pd dl g a b sa sb so so' va vb f f' :
    means env sup n (false :: path) a sa va -> means env sup n (true :: path) b sb vb ->
    product (SConvT st pd dl g) sa sb so f -> product (SConvT 1 0 1 1) sa sb so' f' ->
    valid_triples sa sb so f n (fst (sup path)) ->
    any_masks n so (fst (snd (sup path))) (snd (snd (sup path))) ->
    means env sup n path (EConvT (mkConv st pd dl g) a b) so (f va vb)
| mn_pow path a k sa va :
    means env sup n (false :: path) a sa va -> sa <> [] ->
    (forall i, valid_triples sa sa sa (mul_val sa sa sa) n (fst (sup (pow_at path i)))) ->
    (forall i, any_masks n sa (fst (snd (sup (pow_at path i)))) (snd (snd (sup (pow_at path i))))) ->
    means env sup n path (EPow a k) sa (map (fun v => to_ring (2^64) (v ^ Zpos k)) va)
| mn_view path m a sa so va f :
    means env sup n (false :: path) a sa va -> viewed m sa so f ->
    means env sup n path (EView m a) so (f va).
