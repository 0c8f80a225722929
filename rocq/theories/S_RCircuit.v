(** Specification: the value of a program over replicated tensors, computed in the ring without
    any sharing. *)
From Coq Require Import QArith.
From Verif Require Import Util S_Ring S_Tensor S_Bil S_Rep M_Encoder M_Torch M_Tensor M_Share M_Spdz M_Rep S_RepT M_RepView S_RepView M_RCircuit.
Local Open Scope Z_scope.

Definition lin_vr (ring : Z) (o : linop) (sa sb so : list nat) (va vb : list Z) : list Z :=
  (match o with LAdd => s_add | LSub => s_sub end) ring (bexpand sa so va) (bexpand sb so vb).

(** randomness fit for a product of tensors of shapes [sx], [sy] with values [f]: the parties'
    zero shares add up to zero, the truncation's random tensor has the result's shape, and in a
    malicious session the triple is one of the product *)
Definition fit (ring : Z) (s : rsess) (sx sy so : list nat) (f : list Z -> list Z -> list Z) (u : mulsup) : Prop :=
  shared ring so (repeat 0 (numel so)) (su_mask u) /\ length (su_mask u) = 3%nat /\ tensor_in ring so (su_rand u) /\
  (rs_mal s = true -> exists ca cb cc va vb a b c, su_tri u = mkRT (rm_ps a) (rm_ps b) (rm_ps c) /\
     holds s ring ca sx va a /\ holds s ring cb sy vb b /\ holds s ring cc so (f va vb) c).

(** [rmeans ... path e sh v]: with inputs of the given shapes and values the program denotes the
    tensor [v] of shape [sh] *)
Inductive rmeans (ring : Z) (c : config) (s : rsess) (env : nat -> list nat * list Z) (sup : rsupply) :
  list bool -> rexpr -> list nat -> list Z -> Prop :=
| rn_in path i : rmeans ring c s env sup path (RInput i) (fst (env i)) (snd (env i))
| rn_lin path o a b sa sb so va vb :
    rmeans ring c s env sup (false :: path) a sa va -> rmeans ring c s env sup (true :: path) b sb vb -> bshape sa sb so ->
    rmeans ring c s env sup path (RLin o a b) so (lin_vr ring o sa sb so va vb)
| rn_linpub path o a p sa va vp :
    rmeans ring c s env sup (false :: path) a sa va -> pub_ok p -> pub_in ring c p vp -> bshape sa (pub_shape p) sa ->
    rmeans ring c s env sup path (RLinPub o a p) sa (lin_vr ring o sa (pub_shape p) sa va vp)
| rn_rsub path a p sa va vp : sa <> [] ->
    rmeans ring c s env sup (false :: path) a sa va -> pub_ok p -> pub_in ring c p vp -> bshape sa (pub_shape p) sa ->
    tensor_in ring sa (su_rand (sup path)) ->
    rmeans ring c s env sup path (RRsub p a) sa (lin_vr ring LSub (pub_shape p) sa sa vp va)
| rn_mul path a b sa sb so va vb f :
    rmeans ring c s env sup (false :: path) a sa va -> rmeans ring c s env sup (true :: path) b sb vb ->
    product_r ring SMul sa sb so f -> fit ring s sa sb so f (sup path) ->
    rmeans ring c s env sup path (RMul a b) so (f va vb)
| rn_matmul path a b sa sb so va vb f : ring <> 2 -> ring <> 67 ->
    rmeans ring c s env sup (false :: path) a sa va -> rmeans ring c s env sup (true :: path) b sb vb ->
    product_r ring SMatmul sa sb so f -> fit ring s sa sb so f (sup path) ->
    rmeans ring c s env sup path (RMatmul a b) so (f va vb)
| rn_mulpub path a p sa so va vp f :
    rmeans ring c s env sup (false :: path) a sa va -> pub_ok p -> pub_in ring c p vp ->
    product_r ring SMul sa (pub_shape p) so f -> tensor_in ring so (su_rand (sup path)) ->
    rmeans ring c s env sup path (RMulPub a p) so (f va vp)
| rn_matmulpub path a p sa so va vp f : ring <> 2 -> ring <> 67 ->
    rmeans ring c s env sup (false :: path) a sa va -> pub_ok p -> pub_in ring c p vp ->
    product_r ring SMatmul sa (pub_shape p) so f -> tensor_in ring so (su_rand (sup path)) ->
    rmeans ring c s env sup path (RMatmulPub a p) so (f va vp)
| rn_moved path m a sa so va f :
    rmeans ring c s env sup (false :: path) a sa va -> moved m sa so f ->
    rmeans ring c s env sup path (RMeth m a) so (f va)
| rn_summed path m a sa so va f : ring = 2^64 ->
    rmeans ring c s env sup (false :: path) a sa va -> summed m sa so f ->
    rmeans ring c s env sup path (RMeth m a) so (map (to_ring ring) (f va))
| rn_pow path a k sa va : sa <> [] -> rmeans ring c s env sup (false :: path) a sa va ->
    (forall i, fit ring s sa sa sa (mul_vr ring sa sa sa) (sup (rpow_at path i))) ->
    rmeans ring c s env sup path (RPow a k) sa (map (fun v => to_ring ring (v ^ Zpos k)) va).
