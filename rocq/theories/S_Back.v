(** Specification: programs over integers, the partial derivatives of every step, and the
    gradients that calls of backward leave. *)
From Verif Require Import Util Modular S_Ring S_Tensor S_Bil S_Spdz S_Fss S_Sort S_Autograd M_Torch M_Encoder M_Tensor M_Share M_Spdz M_Store M_Fss M_Engine M_Autograd.
Local Open Scope Z_scope.
Local Open Scope list_scope.

(** shapes and values of the tensors made so far *)
Definition tensors : Type := list (list nat * vec).

(** shape and value of an operand; a public operand is made of integers, a number has no dimensions *)
Definition look (env : tensors) (y : nat + pub) : list nat * vec :=
  match y with
  | inl j => nth j env ([], fun _ => 0)
  | inr p => (match p with PNum _ => [] | PTensor sh _ => sh end,
              fun e => match nth e (pub_vals p) (NInt 0) with NInt z => z | _ => 0 end)
  end.
Definition known (env : tensors) (y : nat + pub) : Prop :=
  match y with
  | inl j => (j < length env)%nat
  | inr p => pub_ok p /\ Forall (fun v => exists z, v = NInt z) (pub_vals p)
  end.

Section Env.
  Variables (s : sess) (env : tensors).
  Notation shp i := (fst (look env i)).
  Notation val i := (snd (look env i)).

  (** [yields st sh v]: the step makes a tensor of shape [sh] with the values [v] *)
  Inductive yields : pstep -> list nat -> vec -> Prop :=
  | y_leaf x b sh v : shares_of s sh (map v (seq 0 (numel sh))) x -> yields (PLeaf x b) sh v
  | y_sum i : known env (inl i) -> yields (PUn FSum i) [] (fun _ => sumn (numel (shp (inl i))) (val (inl i)))
  | y_t i m n : known env (inl i) -> shp (inl i) = [m; n] ->
      yields (PUn FT i) [n; m] (fun e => val (inl i) (e mod m * n + e / m)%nat)
  | y_reshape i so : known env (inl i) -> numel so = numel (shp (inl i)) ->
      yields (PUn (FReshape so) i) so (val (inl i))
  | y_pow i k : known env (inl i) -> shp (inl i) <> [] ->
      yields (PUn (FPow (Zpos k)) i) (shp (inl i)) (fun e => val (inl i) e ^ Zpos k)
  | y_relu i : known env (inl i) -> shp (inl i) <> [] ->
      (forall e, (e < numel (shp (inl i)))%nat -> Z.abs (val (inl i) e) < 2^31 - 1) ->
      yields (PUn FRelu i) (shp (inl i)) (fun e => Z.max 0 (val (inl i) e))
  (* sums and differences with a public operand must have the shape of the tensor; a shared operand
     without dimensions must not be subtracted; no dimension of size 0 *)
  | y_add i y so : known env (inl i) -> known env y -> bshape (shp (inl i)) (shp y) so -> Forall (fun d => d <> 0%nat) so ->
      (match y with inl _ => True | inr _ => so = shp (inl i) end) ->
      yields (PBin FAdd i y) so (fun e => val (inl i) (bpos (shp (inl i)) so e) + val y (bpos (shp y) so e))
  | y_sub i y so : known env (inl i) -> known env y -> bshape (shp (inl i)) (shp y) so -> Forall (fun d => d <> 0%nat) so ->
      (match y with inl _ => shp y <> [] | inr _ => so = shp (inl i) end) ->
      yields (PBin FSub i y) so (fun e => val (inl i) (bpos (shp (inl i)) so e) - val y (bpos (shp y) so e))
  | y_mul i y so : known env (inl i) -> known env y -> bshape (shp (inl i)) (shp y) so -> Forall (fun d => d <> 0%nat) so ->
      yields (PBin FMul i y) so (fun e => val (inl i) (bpos (shp (inl i)) so e) * val y (bpos (shp y) so e))
  | y_matmul i y m k n : known env (inl i) -> known env y -> shp (inl i) = [m; k] -> shp y = [k; n] ->
      yields (PBin FMatmul i y) [m; n]
        (fun e => sumn k (fun t => val (inl i) (e / n * k + t)%nat * val y (t * n + e mod n)%nat)).

  (** the partial derivative of element [p] of the result of a step, of shape [so], for element [e]
      of its operand number [k] *)
  Definition jac (so : list nat) (st : pstep) (k p e : nat) : Z :=
    match st with
    | PLeaf _ _ => 0
    | PUn f i =>
        match f with
        | FSum => 1
        | FT => match shp (inl i) with [m; n] => b2z (Nat.eqb e (p mod m * n + p / m)) | _ => 0 end
        | FReshape _ => b2z (Nat.eqb e p)
        | FPow k => b2z (Nat.eqb e p) * (k * val (inl i) e ^ (k - 1))
        | FRelu => b2z (Nat.eqb e p) * b2z (0 <? val (inl i) e)
        | _ => 0
        end
    | PBin f i y =>
        let here x := b2z (Nat.eqb e (bpos (shp x) so p)) in
        match f, k with
        | FAdd, O | FSub, O => here (inl i)
        | FAdd, _ => here y
        | FSub, _ => - here y
        | FMul, O => here (inl i) * val y (bpos (shp y) so p)
        | FMul, _ => here y * val (inl i) (bpos (shp (inl i)) so p)
        | FMatmul, O =>   (* result (p / n, p mod n), operand (e / l, e mod l) *)
            match shp y with [l; n] => b2z (Nat.eqb (e / l) (p / n)) * val y (e mod l * n + p mod n)%nat | _ => 0 end
        | FMatmul, _ =>   (* operand (e / n, e mod n) *)
            match shp y with [l; n] => b2z (Nat.eqb (e mod n) (p mod n)) * val (inl i) (p / n * l + e / n)%nat | _ => 0 end
        | _, _ => 0
        end
    end.
End Env.

(** the tensors a step uses *)
Definition operands (st : pstep) : list nat :=
  match st with PLeaf _ _ => [] | PUn _ i => [i] | PBin _ i (inl j) => [i; j] | PBin _ i (inr _) => [i] end.
Definition pars (prog : list pstep) (i : nat) : list nat :=
  match nth_error prog i with Some st => operands st | None => [] end.

(** gradients are wanted: for a leaf by its flag, else if for some operand *)
Inductive needs (prog : list pstep) : nat -> Prop :=
| need_leaf i x : nth_error prog i = Some (PLeaf x true) -> needs prog i
| need_op i j : In j (pars prog i) -> needs prog j -> needs prog i.

(** how often a tensor is used *)
Definition uses (prog : list pstep) (i : nat) : nat := count_occ Nat.eq_dec (flat_map operands prog) i.

(** the derivative of node [i] for operand [k], applied (transposed) to a vector *)
Definition deriv (prog : list pstep) (env : tensors) (i k : nat) (g : vec) : vec :=
  fun e => match nth_error prog i with
           | Some st => sumn (numel (fst (look env (inl i)))) (fun p => jac env (fst (look env (inl i))) st k p e * g p)
           | None => 0
           end.

(** a call of backward on [root] that the code handles: the root is computed, gradients are wanted
    for it, it is used at most once; no computed tensor below it has been visited by an earlier call
    ([visited]), or is used by something not below the root *)
Definition clean (prog : list pstep) (visited : nat -> Prop) (root : nat) : Prop :=
  pars prog root <> [] /\ needs prog root /\ (uses prog root <= 1)%nat /\
  (forall i, below (pars prog) root i -> pars prog i <> [] -> ~ visited i) /\
  (forall i c, below (pars prog) root i -> i <> root -> pars prog i <> [] -> In i (pars prog c) -> below (pars prog) root c).

(** [history evs prog env visited acc]: the events make the tensors [env] by the steps [prog], and
    the sum of what the calls of backward should leave at each tensor is [acc]: for every call, the
    sum over all paths from its root of the product of the derivatives along the path *)
Inductive history (s : sess) : list event -> list pstep -> tensors -> (nat -> Prop) -> (nat -> vec) -> Prop :=
| h_nil : history s [] [] [] (fun _ => False) (fun _ _ => 0)
| h_step evs prog env visited acc st sh v : history s evs prog env visited acc -> yields s env st sh v ->
    history s (evs ++ [EvStep st]) (prog ++ [st]) (env ++ [(sh, v)]) visited acc
| h_back evs prog env visited acc root gradient g0 paths : history s evs prog env visited acc ->
    clean prog visited root ->
    (match gradient with
     | Some x => shares_of s (fst (look env (inl root))) (map g0 (seq 0 (numel (fst (look env (inl root)))))) x
     | None => (length (fst (look env (inl root))) <= 1)%nat /\ g0 = (fun _ => 1)
     end) ->
    (forall i, all_paths (pars prog) root i (paths i)) ->
    history s (evs ++ [EvBack root gradient]) prog env
      (fun i => visited i \/ below (pars prog) root i)
      (fun i e => acc i e + path_sum (deriv prog env) (paths i) g0 e).

(** valid triples for the products of every shape, fresh randomness *)
Definition supplies (su : tri_supply) (mm : nat -> list nat -> list nat -> list triple) (on : nat -> list nat -> list (list Z)) : Prop :=
  (forall k sa sb so, bshape sa sb so -> valid_triples sa sb so (mul_val sa sb so) 2 (su_tri su k sa sb)) /\
  (forall t m k n, valid_triples [m; k] [k; n] [m; n] (mm_val [] [] [] m k n) 2 (mm t [m; k] [k; n])) /\
  (forall k, draws (2^64) 2 [1%nat] (su_rnd su k)) /\
  (forall k sh, draws (2^64) 2 sh (on k sh)).
