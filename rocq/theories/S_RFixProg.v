(** Specification: programs on fixed-point numbers in replicated sessions of three parties.  A
    program of replicated tensors (M_RCircuit.v) is compared with the same program on real
    numbers, with a bound for the error of every element; the real numbers and the bounds of sums
    and products are those of S_FixProg.v. *)
From Coq Require Import QArith Reals Qreals.
From Verif Require Import Util S_Ring S_Tensor S_Bil S_Rep S_Fixed S_Real S_Circuit S_FixProg M_Encoder M_Tensor M_Share M_Spdz M_Rep S_RepT S_RepNN S_View M_RepView M_RCircuit S_RCircuit.
Local Open Scope Z_scope.
Local Open Scope list_scope.

(** what a truncation may be off: below two units *)
Definition rrounding (c : config) : R := (2 * ulp c)%R.

(** the shape method (S_FixProg.v) that a method of replicated tensors of shape [s] stands for *)
Inductive stands : meth -> list nat -> viewop -> Prop :=
| st_t s : stands Mt s VT
| st_T s : stands MTprop s VT
| st_unsqueeze d s : (d <= length s)%nat -> stands (MUnsqueeze d) s (VReshape (insert_at d 1 s))
| st_view s so : stands (MView so) s (VReshape so)
| st_sum s : stands MSum s VSum
| st_sumdim d s : stands (MSumDim d) s (VSumDim d)
| st_sumkeep d s : stands (MSumKeep d) s (VSumKeep d)
| st_clone s : stands MClone s VClone
| st_repeat k s : stands (MRepeat k) s (VRepeat0 k).

(** powers by repeated squaring, as in S_FixProg.v with the error of a truncation *)
Definition rerr_times (c : config) (sh : list nat) (rx bx ry by_ : list R) : list R :=
  build sh (fun e => Rabs (rat rx e) * rat by_ e + rat bx e * Rabs (rat ry e) + rat bx e * rat by_ e + rrounding c)%R.
Definition rpow_factor (c : config) (sh : list nat) (rb bb : list R) (acc : option (list R * list R)) : list R * list R :=
  match acc with
  | None => (rb, build sh (fun e => rat bb e + rrounding c)%R)
  | Some (ra, ba) => (real_times sh ra rb, rerr_times c sh ra ba rb bb)
  end.
Fixpoint rpow_bound (c : config) (sh : list nat) (p : positive) (rb bb : list R) (acc : option (list R * list R)) : list R :=
  match p with
  | xH => snd (rpow_factor c sh rb bb acc)
  | xO p => rpow_bound c sh p (real_times sh rb rb) (rerr_times c sh rb bb rb bb) acc
  | xI p => rpow_bound c sh p (real_times sh rb rb) (rerr_times c sh rb bb rb bb) (Some (rpow_factor c sh rb bb acc))
  end.
Fixpoint rpow_room (c : config) (sh : list nat) (p : positive) (rb bb : list R) (acc : option (list R * list R)) : Prop :=
  match p with
  | xH => step_room c sh rb bb acc
  | xO p => times_room c sh rb bb rb bb /\ rpow_room c sh p (real_times sh rb rb) (rerr_times c sh rb bb rb bb) acc
  | xI p => step_room c sh rb bb acc /\ times_room c sh rb bb rb bb /\
            rpow_room c sh p (real_times sh rb rb) (rerr_times c sh rb bb rb bb) (Some (rpow_factor c sh rb bb acc))
  end.

(** [rapprox c s ins sup path e sh r b]: with inputs [ins] (shape, real values, error bounds) the
    program [e] denotes the real tensor [r] of shape [sh]; running it in the ring 2^64 is off by at
    most [b].  The randomness fits the products; the numbers fit (sums below 2^63 units, products
    below 2^63 units before they are rescaled). *)
Inductive rapprox (c : config) (s : rsess) (ins : nat -> list nat * (list R * list R)) (sup : rsupply) :
  list bool -> rexpr -> list nat -> list R -> list R -> Prop :=
| ra_in path i : rapprox c s ins sup path (RInput i) (fst (ins i)) (fst (snd (ins i))) (snd (snd (ins i)))
| ra_lin path o a b sa sb so ra ba rb bb :
    rapprox c s ins sup (false :: path) a sa ra ba -> rapprox c s ins sup (true :: path) b sb rb bb -> bshape sa sb so ->
    (forall e, (e < numel so)%nat -> room c (mag ra ba (bpos sa so e) + mag rb bb (bpos sb so e))) ->
    rapprox c s ins sup path (RLin o a b) so
      (build so (fun e => real_lin o (rat ra (bpos sa so e)) (rat rb (bpos sb so e))))
      (build so (fun e => rat ba (bpos sa so e) + rat bb (bpos sb so e))%R)
| ra_linpub path o a p sa ra ba :
    rapprox c s ins sup (false :: path) a sa ra ba -> pub_fits c p -> bshape sa (shape_of p) sa ->
    (forall e, (e < numel sa)%nat -> room c (mag ra ba e + mag (pub_real p) (pub_err c p) (bpos (shape_of p) sa e))) ->
    rapprox c s ins sup path (RLinPub o a p) sa
      (build sa (fun e => real_lin o (rat ra e) (rat (pub_real p) (bpos (shape_of p) sa e))))
      (build sa (fun e => rat ba e + rat (pub_err c p) (bpos (shape_of p) sa e))%R)
| ra_rsub path a p sa ra ba :
    rapprox c s ins sup (false :: path) a sa ra ba -> sa <> [] -> pub_fits c p -> room c 1 -> bshape sa (shape_of p) sa ->
    tensor_in (2^64) sa (su_rand (sup path)) ->
    (forall e, (e < numel sa)%nat ->
       room c ((mag ra ba e + mag (pub_real p) (pub_err c p) (bpos (shape_of p) sa e)) * IZR (scale c))) ->
    rapprox c s ins sup path (RRsub p a) sa
      (build sa (fun e => rat (pub_real p) (bpos (shape_of p) sa e) - rat ra e)%R)
      (build sa (fun e => rat ba e + rat (pub_err c p) (bpos (shape_of p) sa e) + rrounding c)%R)
| ra_mul path a b sa sb so ra ba rb bb ps :
    rapprox c s ins sup (false :: path) a sa ra ba -> rapprox c s ins sup (true :: path) b sb rb bb ->
    terms SMul sa sb so ps -> fit (2^64) s sa sb so (ring_dot so ps) (sup path) ->
    (forall e, (e < numel so)%nat -> room c (real_sum (map (fun p => mag ra ba (fst p) * mag rb bb (snd p))%R (ps e)) * IZR (scale c))) ->
    rapprox c s ins sup path (RMul a b) so (real_dot so ps ra rb) (dot_err so ps ra ba rb bb (rrounding c))
| ra_matmul path a b sa sb so ra ba rb bb ps :
    rapprox c s ins sup (false :: path) a sa ra ba -> rapprox c s ins sup (true :: path) b sb rb bb ->
    terms SMatmul sa sb so ps -> fit (2^64) s sa sb so (ring_dot so ps) (sup path) ->
    (forall e, (e < numel so)%nat -> room c (real_sum (map (fun p => mag ra ba (fst p) * mag rb bb (snd p))%R (ps e)) * IZR (scale c))) ->
    rapprox c s ins sup path (RMatmul a b) so (real_dot so ps ra rb) (dot_err so ps ra ba rb bb (rrounding c))
| ra_mulpub path a p sa so ra ba ps :
    rapprox c s ins sup (false :: path) a sa ra ba -> pub_fits c p -> terms SMul sa (shape_of p) so ps ->
    tensor_in (2^64) so (su_rand (sup path)) ->
    (forall e, (e < numel so)%nat ->
       room c (real_sum (map (fun q => mag ra ba (fst q) * mag (pub_real p) (pub_err c p) (snd q))%R (ps e)) * IZR (scale c))) ->
    rapprox c s ins sup path (RMulPub a p) so (real_dot so ps ra (pub_real p)) (dot_err so ps ra ba (pub_real p) (pub_err c p) (rrounding c))
| ra_matmulpub path a p sa so ra ba ps :
    rapprox c s ins sup (false :: path) a sa ra ba -> pub_fits c p -> terms SMatmul sa (shape_of p) so ps ->
    tensor_in (2^64) so (su_rand (sup path)) ->
    (forall e, (e < numel so)%nat ->
       room c (real_sum (map (fun q => mag ra ba (fst q) * mag (pub_real p) (pub_err c p) (snd q))%R (ps e)) * IZR (scale c))) ->
    rapprox c s ins sup path (RMatmulPub a p) so (real_dot so ps ra (pub_real p)) (dot_err so ps ra ba (pub_real p) (pub_err c p) (rrounding c))
| ra_meth path m vo a sa so ra ba ps :
    rapprox c s ins sup (false :: path) a sa ra ba -> stands m sa vo -> picks vo sa so ps ->
    (forall e, (e < numel so)%nat -> room c (real_sum (map (mag ra ba) (ps e)))) ->
    rapprox c s ins sup path (RMeth m a) so (real_gather so ps ra) (real_gather so ps ba)
| ra_pow path a k sa ra ba :
    rapprox c s ins sup (false :: path) a sa ra ba -> sa <> [] -> room c 1 ->
    (forall i, fit (2^64) s sa sa sa (mul_vr (2^64) sa sa sa) (sup (rpow_at path i))) ->
    rpow_room c sa k ra ba None ->
    rapprox c s ins sup path (RPow a k) sa (build sa (fun e => rat ra e ^ Pos.to_nat k)%R) (rpow_bound c sa k ra ba None).

(** the shares [zs] of a product do not carry when they are truncated: for every element the first
    share plus the wrapped sum of the two others stays in the ring *)
Definition quiet (zs : list tensor) : Prop :=
  forall e, (e < length (tdat (hd (mkT [] []) zs)))%nat -> no_carry3 (2^64) e zs.

(** the parties' products with the public [p] are views of shares that do not carry *)
Definition quiet_public (s : rsess) (op : bop) (x : rmpc) (p : pub) : Prop :=
  forall ps zs, at_parties s (fun _ q => match op with BMul => rst_mul_public q p | _ => rst_matmul_public q p end) (rm_ps x) = Ok ps ->
    length zs = 3%nat -> map r_shares ps = map (rep_view zs) (seq 0 3) -> quiet zs.

(** ... of the products of a power (the last squaring is not used) *)
Fixpoint rpow_steady (s : rsess) (p : positive) (base : rmpc) (acc : option rmpc) (u : nat -> mulsup) (k : nat) : Prop :=
  let calm x y i := forall zs, falcon_z BMul x y (su_mask (u i)) = Ok zs -> quiet zs in
  let step_ok := match acc with None => quiet_public s BMul base (PNum (NInt 1)) | Some r => calm r base k end in
  match p with
  | xH => step_ok
  | xO p => calm base base k /\ forall b, rm_bil s BMul base base (u k) = Ok b -> rpow_steady s p b acc u (S k)
  | xI p => step_ok /\ calm base base (S k) /\
      forall r b, match acc with
                  | None => rm_bil_public s BMul base (PNum (NInt 1)) (su_rand (u k))
                  | Some a => rm_bil s BMul a base (u k)
                  end = Ok r ->
        rm_bil s BMul base base (u (S k)) = Ok b -> rpow_steady s p b (Some r) u (S (S k))
  end.

(** every truncation of the run is one of those *)
Fixpoint rsteady (s : rsess) (env : nat -> rmpc) (sup : rsupply) (path : list bool) (e : rexpr) : Prop :=
  let val a b := reval s env sup (a :: path) b in
  let private op a b := rsteady s env sup (false :: path) a /\ rsteady s env sup (true :: path) b /\
    forall x y zs, val false a = Ok x -> val true b = Ok y -> falcon_z op x y (su_mask (sup path)) = Ok zs -> quiet zs in
  match e with
  | RInput _ => True
  | RLin _ a b => rsteady s env sup (false :: path) a /\ rsteady s env sup (true :: path) b
  | RLinPub _ a _ | RRmatmul _ a | RMeth _ a => rsteady s env sup (false :: path) a
  | RRsub p a => rsteady s env sup (false :: path) a /\
      forall x d, val false a = Ok x -> rm_lin_public s LSub x p = Ok d -> quiet_public s BMul d (PNum (NInt (-1)))
  | RMul a b => private BMul a b
  | RMatmul a b => private BMatmul a b
  | RMulPub a p => rsteady s env sup (false :: path) a /\ forall x, val false a = Ok x -> quiet_public s BMul x p
  | RMatmulPub a p => rsteady s env sup (false :: path) a /\ forall x, val false a = Ok x -> quiet_public s BMatmul x p
  | RPow a k => rsteady s env sup (false :: path) a /\
      forall x, val false a = Ok x -> rpow_steady s k x None (fun i => sup (rpow_at path i)) 0
  end.

(** [x] is a replicated tensor of shape [sh] within [b] of the real tensor [r] *)
Definition rknown (s : rsess) (c : config) (sh : list nat) (r b : list R) (x : rmpc) : Prop :=
  exists v, holds s (2^64) c sh v x /\ length r = numel sh /\ length b = numel sh /\
    forall e, (e < numel sh)%nat -> (Rabs (fixed c (nth e v 0%Z) - rat r e) <= rat b e)%R.
