(** Specification: programs on fixed-point numbers.  A program of shared tensors (M_Circuit.v)
    is compared with the same program on real numbers, with a bound for the error of every
    element. *)
From Coq Require Import QArith Reals Qreals.
From Verif Require Import Util S_Ring S_Tensor S_Bil S_View S_Div S_Real M_Encoder M_Tensor M_Share M_Spdz M_Circuit S_Spdz S_Circuit S_Fixed.
Local Open Scope Z_scope.
Local Open Scope list_scope.

Definition real_sum (l : list R) : R := fold_right Rplus 0%R l.

(** the tensor of shape [so] whose element [e] is [f e] *)
Definition build (so : list nat) (f : nat -> R) : list R := map f (seq 0 (numel so)).
(** element [i]; a bound for the modulus of what lies within [b] of [r] *)
Definition rat (r : list R) (i : nat) : R := nth i r 0%R.
Definition mag (r b : list R) (i : nat) : R := (Rabs (rat r i) + rat b i)%R.

(* ------------------------------------------------------------------ *)
(** products: element [e] of the result is the sum of the products of the pairs of elements at
    the positions [ps e] *)
Inductive terms : bspec -> list nat -> list nat -> list nat -> (nat -> list (nat * nat)) -> Prop :=
| tm_mul sx sy so : bshape sx sy so -> terms SMul sx sy so (fun e => [(bpos sx so e, bpos sy so e)])
| tm_mm b1 b2 bs m k n : bshape b1 b2 bs ->
    terms SMatmul (b1 ++ [m; k]) (b2 ++ [k; n]) (bs ++ [m; n]) (fun e =>
      let c := (e mod n)%nat in let r := ((e / n) mod m)%nat in let b := (e / (m * n))%nat in
      map (fun t => ((bpos b1 bs b * m + r) * k + t, (bpos b2 bs b * k + t) * n + c)%nat) (seq 0 k))
| tm_vm b2 k n : terms SMatmul [k] (b2 ++ [k; n]) (b2 ++ [n]) (fun e =>
      map (fun t => (t, (bpos b2 b2 (e / n) * k + t) * n + e mod n)%nat) (seq 0 k))
| tm_mv b1 m k : terms SMatmul (b1 ++ [m; k]) [k] (b1 ++ [m]) (fun e =>
      map (fun t => ((bpos b1 b1 (e / m) * m + e mod m) * k + t, t)%nat) (seq 0 k))
| tm_vv k : terms SMatmul [k] [k] [] (fun _ => map (fun t => (t, t)) (seq 0 k))
| tm_conv s p d g nb h w og cg kh kw oh ow :
    (0 < s -> 0 < d -> 0 < g -> 0 < kh -> 0 < kw ->
    d * (kh - 1) + 1 <= h + 2 * p -> d * (kw - 1) + 1 <= w + 2 * p ->
    (oh - 1) * s + d * (kh - 1) + 1 <= h + 2 * p < oh * s + d * (kh - 1) + 1 ->
    (ow - 1) * s + d * (kw - 1) + 1 <= w + 2 * p < ow * s + d * (kw - 1) + 1 ->
    terms (SConv s p d g) [nb; g * cg; h; w] [g * og; cg; kh; kw] [nb; g * og; oh; ow] (fun e =>
      match unravel [nb; g * og; oh; ow] e with
      | [n; f; y; x] =>
          flat_map (fun ch => flat_map (fun i => flat_map (fun j =>
            (* row and column of the image, counted without the padding *)
            let r := (y * s + i * d)%nat in let q := (x * s + j * d)%nat in
            if (Nat.leb p r && Nat.ltb r (p + h) && Nat.leb p q && Nat.ltb q (p + w))%bool
            then [(ravel [nb; g * cg; h; w] [n; f / (g * og / g) * cg + ch; r - p; q - p],
                   ravel [g * og; cg; kh; kw] [f; ch; i; j])]
            else []) (seq 0 kw)) (seq 0 kh)) (seq 0 cg)
      | _ => [] end))%nat
| tm_convT s p d g nb h w og cg kh kw oh ow :
    (0 < s -> 0 < d -> 0 < g -> 0 < kh -> 0 < kw -> 0 < h -> 0 < w -> 0 < oh -> 0 < ow ->
    oh + 2 * p = (h - 1) * s + d * (kh - 1) + 1 -> ow + 2 * p = (w - 1) * s + d * (kw - 1) + 1 ->
    terms (SConvT s p d g) [nb; g * cg; h; w] [g * cg; og; kh; kw] [nb; g * og; oh; ow] (fun e =>
      match unravel [nb; g * og; oh; ow] e with
      | [n; f; y; x] =>
          flat_map (fun ch => flat_map (fun u => flat_map (fun v => flat_map (fun i => flat_map (fun j =>
            if (Nat.eqb (y + p) (u * s + i * d) && Nat.eqb (x + p) (v * s + j * d))%bool
            then [(ravel [nb; g * cg; h; w] [n; f / og * (g * cg / g) + ch; u; v],
                   ravel [g * cg; og; kh; kw] [f / og * (g * cg / g) + ch; f mod og; i; j])]
            else []) (seq 0 kw)) (seq 0 kh)) (seq 0 w)) (seq 0 h)) (seq 0 (g * cg / g))
      | _ => [] end))%nat.

(** the product in the ring 2^64 and in the real numbers *)
Definition ring_dot (so : list nat) (ps : nat -> list (nat * nat)) (vx vy : list Z) : list Z :=
  map (fun e => to_ring (2^64) (zsum (map (fun p => nth (fst p) vx 0 * nth (snd p) vy 0) (ps e)))) (seq 0 (numel so)).
Definition real_dot (so : list nat) (ps : nat -> list (nat * nat)) (x y : list R) : list R :=
  build so (fun e => real_sum (map (fun p => rat x (fst p) * rat y (snd p))%R (ps e))).
(** error of such a product of numbers known up to [bx], [by] *)
Definition dot_err (so : list nat) (ps : nat -> list (nat * nat)) (rx bx ry by_ : list R) (rounding : R) : list R :=
  build so (fun e => (real_sum (map (fun p => Rabs (rat rx (fst p)) * rat by_ (snd p) + rat bx (fst p) * Rabs (rat ry (snd p))
                                          + rat bx (fst p) * rat by_ (snd p)) (ps e)) + rounding)%R).

(* ------------------------------------------------------------------ *)
(** shape methods: element [e] of the result is the sum of the elements at the positions [ps e] *)
Inductive picks : viewop -> list nat -> list nat -> (nat -> list nat) -> Prop :=
| pk_t m n : picks VT [m; n] [n; m] (fun e => match unravel [n; m] e with [i; j] => [ravel [m; n] [j; i]] | _ => [] end)
| pk_transpose a b s : (a < length s)%nat -> (b < length s)%nat ->
    picks (VTranspose a b) s (exchange a b s) (fun e => [ravel s (exchange a b (unravel (exchange a b s) e))])
| pk_reshape s so : numel so = numel s -> picks (VReshape so) s so (fun e => [e])
| pk_repeat k n r : picks (VRepeat0 k) (n :: r) ((k * n)%nat :: r) (fun e => [e mod (n * numel r)]%nat)
| pk_narrow start len n r : (start + len <= n)%nat ->
    picks (VNarrow0 start len) (n :: r) (len :: r) (fun e => [start * numel r + e]%nat)
| pk_roll k n r : (k < n)%nat ->
    picks (VRoll0 k) (n :: r) (n :: r) (fun e => [if Nat.ltb e (k * numel r) then ((n - k) * numel r + e)%nat else (e - k * numel r)%nat])
| pk_sum s : picks VSum s [] (fun _ => seq 0 (numel s))
| pk_sumdim d s : (d < length s)%nat -> picks (VSumDim d) s (remove_at d s)
    (fun e => map (fun k => ravel s (insert_at d k (unravel (remove_at d s) e))) (seq 0 (nth d s 0%nat)))
| pk_sumfirst k s : (k <= length s)%nat -> picks (VSumFirst k) s (skipn k s)
    (fun e => map (fun p => ravel s (unravel (firstn k s) p ++ unravel (skipn k s) e)) (seq 0 (numel (firstn k s))))
| pk_sumkeep d s : (d < length s)%nat -> picks (VSumKeep d) s (firstn d s ++ 1%nat :: skipn (S d) s)
    (fun e => let ix := unravel (firstn d s ++ 1%nat :: skipn (S d) s) e in
              map (fun k => ravel s (firstn d ix ++ k :: skipn (S d) ix)) (seq 0 (nth d s 0%nat)))
| pk_clone s : picks VClone s s (fun e => [e]).

Definition real_gather (so : list nat) (ps : nat -> list nat) (x : list R) : list R :=
  build so (fun e => real_sum (map (rat x) (ps e))).

(* ------------------------------------------------------------------ *)
(** public operands: the real numbers they stand for; floats are encoded up to one unit *)
Definition pub_real (p : pub) : list R := map num_R (pub_vals p).
Definition pub_err (c : config) (p : pub) : list R :=
  map (fun v => match v with NInt _ => 0%R | NFloat _ => ulp c end) (pub_vals p).
(** [m] times the scale is below 2^63 *)
Definition room (c : config) (m : R) : Prop := (m * IZR (scale c) < IZR (2^63))%R.
Definition pub_fits (c : config) (p : pub) : Prop :=
  pub_ok p /\ Forall (fun v => room c (Rabs (num_R v))) (pub_vals p).

(** what a division by [k] among [n] parties may be off, times [k]: n (k - 1) for two parties and
    for powers of two *)
Definition slack (n : nat) (k : Z) : Z :=
  Z.of_nat n * (k - 1) + (if Nat.eqb n 2 then 0 else 2 * (Z.of_nat n + 1) * (2^62 mod k)).
(** the rounding error of a product, in real numbers; below n units for two parties and for powers of two *)
Definition rounding (c : config) (n : nat) : R := (IZR (slack n (scale c)) * ulp c * ulp c)%R.

Definition real_lin (o : linop) (x y : R) : R := match o with LAdd => (x + y)%R | LSub => (x - y)%R end.

(** powers by repeated squaring ([p] from its lowest binary digit): the error of the result, for a
    base [rb] known up to [bb] and a product so far [acc]; the first factor is multiplied by 1 *)
Definition real_times (sh : list nat) (x y : list R) : list R := build sh (fun e => rat x e * rat y e)%R.
Definition err_times (c : config) (n : nat) (sh : list nat) (rx bx ry by_ : list R) : list R :=
  build sh (fun e => Rabs (rat rx e) * rat by_ e + rat bx e * Rabs (rat ry e) + rat bx e * rat by_ e + rounding c n)%R.
Definition pow_factor (c : config) (n : nat) (sh : list nat) (rb bb : list R) (acc : option (list R * list R)) : list R * list R :=
  match acc with
  | None => (rb, build sh (fun e => rat bb e + rounding c n)%R)
  | Some (ra, ba) => (real_times sh ra rb, err_times c n sh ra ba rb bb)
  end.
Fixpoint pow_bound (c : config) (n : nat) (sh : list nat) (p : positive) (rb bb : list R) (acc : option (list R * list R)) : list R :=
  match p with
  | xH => snd (pow_factor c n sh rb bb acc)
  | xO p => pow_bound c n sh p (real_times sh rb rb) (err_times c n sh rb bb rb bb) acc
  | xI p => pow_bound c n sh p (real_times sh rb rb) (err_times c n sh rb bb rb bb) (Some (pow_factor c n sh rb bb acc))
  end.
(** its products fit before they are rescaled *)
Definition times_room (c : config) (sh : list nat) (rx bx ry by_ : list R) : Prop :=
  forall e, (e < numel sh)%nat -> room c (mag rx bx e * mag ry by_ e * IZR (scale c)).
Definition step_room (c : config) (sh : list nat) (rb bb : list R) (acc : option (list R * list R)) : Prop :=
  match acc with
  | None => forall e, (e < numel sh)%nat -> room c (mag rb bb e * IZR (scale c))
  | Some (ra, ba) => times_room c sh ra ba rb bb
  end.
Fixpoint pow_room (c : config) (n : nat) (sh : list nat) (p : positive) (rb bb : list R) (acc : option (list R * list R)) : Prop :=
  match p with
  | xH => step_room c sh rb bb acc
  | xO p => times_room c sh rb bb rb bb /\ pow_room c n sh p (real_times sh rb rb) (err_times c n sh rb bb rb bb) acc
  | xI p => step_room c sh rb bb acc /\ times_room c sh rb bb rb bb /\
            pow_room c n sh p (real_times sh rb rb) (err_times c n sh rb bb rb bb) (Some (pow_factor c n sh rb bb acc))
  end.

(** [approx c n ins sup path e sh r b]: with inputs [ins] (shape, real values, error bounds) the
    program [e] denotes the real tensor [r] of shape [sh]; running it on shares is off by at most
    [b].  The supply has valid triples where the program multiplies; the numbers fit (sums below
    2^63 units, products below 2^63 units before they are rescaled). *)
Inductive approx (c : config) (n : nat) (ins : nat -> list nat * (list R * list R)) (sup : supply) :
  list bool -> expr -> list nat -> list R -> list R -> Prop :=
| ap_in path i : approx c n ins sup path (EInput i) (fst (ins i)) (fst (snd (ins i))) (snd (snd (ins i)))
| ap_lin path o a b sa sb so ra ba rb bb :
    approx c n ins sup (false :: path) a sa ra ba -> approx c n ins sup (true :: path) b sb rb bb -> bshape sa sb so ->
    (forall e, (e < numel so)%nat -> room c (mag ra ba (bpos sa so e) + mag rb bb (bpos sb so e))) ->
    approx c n ins sup path (ELin o a b) so
      (build so (fun e => real_lin o (rat ra (bpos sa so e)) (rat rb (bpos sb so e))))
      (build so (fun e => rat ba (bpos sa so e) + rat bb (bpos sb so e))%R)
| ap_linpub path o a p sa ra ba :
    approx c n ins sup (false :: path) a sa ra ba -> pub_fits c p -> bshape sa (shape_of p) sa ->
    (forall e, (e < numel sa)%nat -> room c (mag ra ba e + mag (pub_real p) (pub_err c p) (bpos (shape_of p) sa e))) ->
    approx c n ins sup path (ELinPub o a p) sa
      (build sa (fun e => real_lin o (rat ra e) (rat (pub_real p) (bpos (shape_of p) sa e))))
      (build sa (fun e => rat ba e + rat (pub_err c p) (bpos (shape_of p) sa e))%R)
| ap_rsub path a p sa ra ba :
    approx c n ins sup (false :: path) a sa ra ba -> sa <> [] -> pub_fits c p -> room c 1 -> bshape sa (shape_of p) sa ->
    (forall e, (e < numel sa)%nat ->
       room c ((mag ra ba e + mag (pub_real p) (pub_err c p) (bpos (shape_of p) sa e)) * IZR (scale c))) ->
    approx c n ins sup path (ERsub p a) sa
      (build sa (fun e => rat (pub_real p) (bpos (shape_of p) sa e) - rat ra e)%R)
      (build sa (fun e => rat ba e + rat (pub_err c p) (bpos (shape_of p) sa e) + rounding c n)%R)
| ap_mul path a b sa sb so ra ba rb bb ps :
    approx c n ins sup (false :: path) a sa ra ba -> approx c n ins sup (true :: path) b sb rb bb ->
    terms SMul sa sb so ps -> valid_triples sa sb so (ring_dot so ps) n (fst (sup path)) ->
    (forall e, (e < numel so)%nat -> room c (real_sum (map (fun p => mag ra ba (fst p) * mag rb bb (snd p))%R (ps e)) * IZR (scale c))) ->
    approx c n ins sup path (EMul a b) so (real_dot so ps ra rb) (dot_err so ps ra ba rb bb (rounding c n))
| ap_matmul path a b sa sb so ra ba rb bb ps :
    approx c n ins sup (false :: path) a sa ra ba -> approx c n ins sup (true :: path) b sb rb bb ->
    terms SMatmul sa sb so ps -> valid_triples sa sb so (ring_dot so ps) n (fst (sup path)) ->
    (forall e, (e < numel so)%nat -> room c (real_sum (map (fun p => mag ra ba (fst p) * mag rb bb (snd p))%R (ps e)) * IZR (scale c))) ->
    approx c n ins sup path (EMatmul a b) so (real_dot so ps ra rb) (dot_err so ps ra ba rb bb (rounding c n))
| ap_conv path st pd dl g a b sa sb so so' ra ba rb bb ps ps' :
    approx c n ins sup (false :: path) a sa ra ba -> approx c n ins sup (true :: path) b sb rb bb ->
    terms (SConv st pd dl g) sa sb so ps -> terms (SConv 1 0 1 1) sa sb so' ps' ->
    valid_triples sa sb so (ring_dot so ps) n (fst (sup path)) ->
    (forall e, (e < numel so)%nat -> room c (real_sum (map (fun p => mag ra ba (fst p) * mag rb bb (snd p))%R (ps e)) * IZR (scale c))) ->
    approx c n ins sup path (EConv (mkConv st pd dl g) a b) so (real_dot so ps ra rb) (dot_err so ps ra ba rb bb (rounding c n))
| ap_convT path st pd dl g a b sa sb so so' ra ba rb bb ps ps' :
    approx c n ins sup (false :: path) a sa ra ba -> approx c n ins sup (true :: path) b sb rb bb ->
    terms (SConvT st pd dl g) sa sb so ps -> terms (SConvT 1 0 1 1) sa sb so' ps' ->
    valid_triples sa sb so (ring_dot so ps) n (fst (sup path)) ->
    (forall e, (e < numel so)%nat -> room c (real_sum (map (fun p => mag ra ba (fst p) * mag rb bb (snd p))%R (ps e)) * IZR (scale c))) ->
    approx c n ins sup path (EConvT (mkConv st pd dl g) a b) so (real_dot so ps ra rb) (dot_err so ps ra ba rb bb (rounding c n))
| ap_mulpub path a p sa so ra ba ps :
    approx c n ins sup (false :: path) a sa ra ba -> pub_fits c p -> terms SMul sa (shape_of p) so ps ->
    (forall e, (e < numel so)%nat ->
       room c (real_sum (map (fun q => mag ra ba (fst q) * mag (pub_real p) (pub_err c p) (snd q))%R (ps e)) * IZR (scale c))) ->
    approx c n ins sup path (EMulPub a p) so (real_dot so ps ra (pub_real p)) (dot_err so ps ra ba (pub_real p) (pub_err c p) (rounding c n))
| ap_matmulpub path a p sa so ra ba ps :
    approx c n ins sup (false :: path) a sa ra ba -> pub_fits c p -> terms SMatmul sa (shape_of p) so ps ->
    (forall e, (e < numel so)%nat ->
       room c (real_sum (map (fun q => mag ra ba (fst q) * mag (pub_real p) (pub_err c p) (snd q))%R (ps e)) * IZR (scale c))) ->
    approx c n ins sup path (EMatmulPub a p) so (real_dot so ps ra (pub_real p)) (dot_err so ps ra ba (pub_real p) (pub_err c p) (rounding c n))
| ap_rmatmul path a p sa so ra ba ps :
    approx c n ins sup (false :: path) a sa ra ba -> pub_fits c p -> terms SMatmul (shape_of p) sa so ps ->
    (forall e, (e < numel so)%nat ->
       room c (real_sum (map (fun q => mag (pub_real p) (pub_err c p) (fst q) * mag ra ba (snd q))%R (ps e)) * IZR (scale c))) ->
    approx c n ins sup path (ERmatmul p a) so (real_dot so ps (pub_real p) ra) (dot_err so ps (pub_real p) (pub_err c p) ra ba (rounding c n))
| ap_div path a k sa ra ba :
    approx c n ins sup (false :: path) a sa ra ba -> 0 < k ->
    approx c n ins sup path (EDiv a k) sa
      (build sa (fun e => rat ra e / IZR k)%R)
      (build sa (fun e => (rat ba e + IZR (slack n k) * ulp c) / IZR k)%R)
| ap_pow path a k sa ra ba :
    approx c n ins sup (false :: path) a sa ra ba -> sa <> [] -> room c 1 ->
    (forall i, valid_triples sa sa sa (mul_val sa sa sa) n (fst (sup (pow_at path i)))) ->
    (forall i, any_masks n sa (fst (snd (sup (pow_at path i)))) (snd (snd (sup (pow_at path i))))) ->
    pow_room c n sa k ra ba None ->
    approx c n ins sup path (EPow a k) sa (build sa (fun e => rat ra e ^ Pos.to_nat k)%R) (pow_bound c n sa k ra ba None)
| ap_view path m a sa so ra ba ps :
    approx c n ins sup (false :: path) a sa ra ba -> picks m sa so ps ->
    (forall e, (e < numel so)%nat -> room c (real_sum (map (mag ra ba) (ps e)))) ->
    approx c n ins sup path (EView m a) so (real_gather so ps ra) (real_gather so ps ba).

(* ------------------------------------------------------------------ *)
(** the shares [ws] can be divided by [k] accurately (two parties: they do not carry; more:
    good masks), see S_Div.v *)
Definition evenly (s : sess) (ws : list tensor) (k : Z) (prim : list tensor * list tensor) : Prop :=
  exists so v, shared (2^64) so v ws /\
    divisible (c_base (s_cfg s)) (c_prec (s_cfg s)) (s_n s) so v ws k (fst prim) (snd prim).

(** ... of the products of a power (the last squaring is not used) *)
Fixpoint pow_steady (s : sess) (p : positive) (base : mpc) (acc : option mpc) (k : nat)
  (tri : nat -> list triple) (msk : nat -> list tensor * list tensor) : Prop :=
  let sc := scale (s_cfg s) in
  let rescaled x y i := forall ws, run_mul (mul_parties_raw BMul) x y (tri i) = Ok ws -> evenly s ws sc (msk i) in
  let step_ok := match acc with
                 | None => forall ws, rmap (fun t => sh_bil BMul t (share_init (s_cfg s) (PNum (NInt 1)))) (m_shares base) = Ok ws ->
                             evenly s ws sc (msk k)
                 | Some r => rescaled r base k
                 end in
  match p with
  | xH => step_ok
  | xO p => rescaled base base k /\
      forall b, mpc_bil s BMul base base (tri k) (msk k) = Ok b -> pow_steady s p b acc (S k) tri msk
  | xI p => step_ok /\ rescaled base base (S k) /\
      forall r b, match acc with
                  | None => mpc_bil_public s BMul base (PNum (NInt 1)) (msk k)
                  | Some a => mpc_bil s BMul a base (tri k) (msk k)
                  end = Ok r ->
        mpc_bil s BMul base base (tri (S k)) (msk (S k)) = Ok b -> pow_steady s p b (Some r) (S (S k)) tri msk
  end.

(** every division of the run is one of those: the rescaling of the products and the divisions
    by a public number *)
Fixpoint steady (s : sess) (env : nat -> mpc) (sup : supply) (path : list bool) (e : expr) : Prop :=
  let ts := fst (sup path) in
  let prim := snd (sup path) in
  let val a b := eval s env sup (a :: path) b in
  let private op a b := steady s env sup (false :: path) a /\ steady s env sup (true :: path) b /\
    forall x y ws, val false a = Ok x -> val true b = Ok y -> run_mul (mul_parties_raw op) x y ts = Ok ws ->
      evenly s ws (scale (s_cfg s)) prim in
  match e with
  | EInput _ => True
  | ELin _ a b => steady s env sup (false :: path) a /\ steady s env sup (true :: path) b
  | ELinPub _ a _ | EView _ a => steady s env sup (false :: path) a
  | EMul a b => private BMul a b
  | EMatmul a b => private BMatmul a b
  | EConv p a b => private (BConv2d p) a b
  | EConvT p a b => private (BConvT p) a b
  | EMulPub a p => steady s env sup (false :: path) a /\
      forall x ws, val false a = Ok x -> rmap (fun t => sh_bil BMul t (share_init (s_cfg s) p)) (m_shares x) = Ok ws ->
        evenly s ws (scale (s_cfg s)) prim
  | EMatmulPub a p => steady s env sup (false :: path) a /\
      forall x ws, val false a = Ok x -> rmap (fun t => sh_bil BMatmul t (share_init (s_cfg s) p)) (m_shares x) = Ok ws ->
        evenly s ws (scale (s_cfg s)) prim
  | ERmatmul p a => steady s env sup (false :: path) a /\
      forall x ws, val false a = Ok x -> rmap (fun t => sh_bil BMatmul (share_init (s_cfg s) p) t) (m_shares x) = Ok ws ->
        evenly s ws (scale (s_cfg s)) prim
  | ERsub p a => steady s env sup (false :: path) a /\
      forall x d ws, val false a = Ok x -> mpc_lin_public s LSub x p = Ok d ->
        rmap (fun t => sh_bil BMul t (share_init (s_cfg s) (PNum (NInt (-1))))) (m_shares d) = Ok ws ->
        evenly s ws (scale (s_cfg s)) prim
  | EDiv a k => steady s env sup (false :: path) a /\ forall x, val false a = Ok x -> evenly s (m_shares x) k prim
  | EPow a k => steady s env sup (false :: path) a /\
      forall x, val false a = Ok x ->
        pow_steady s k x None 0 (fun i => fst (sup (pow_at path i))) (fun i => snd (sup (pow_at path i)))
  end.

(** [x] is a sharing of a tensor of shape [sh] within [b] of the real tensor [r] *)
Definition known (s : sess) (sh : list nat) (r b : list R) (x : mpc) : Prop :=
  exists v, m_sid x = s_id s /\ m_shape x = sh /\ length (m_shares x) = s_n s /\ shared (2^64) sh v (m_shares x) /\
    length r = numel sh /\ length b = numel sh /\
    forall e, (e < numel sh)%nat -> (Rabs (fixed (s_cfg s) (nth e v 0%Z) - rat r e) <= rat b e)%R.
