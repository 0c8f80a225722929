(** Model of /repo/src/sympc/approximations/*.py, of relu in
    /repo/src/sympc/module/nn/functional.py and of sort in
    /repo/src/sympc/algorithms/algorithms.py, over an [engine].  The autograd branches
    (functional.py:47-49) are modelled in M_Autograd.v. *)
From Coq Require Import QArith.
From Verif Require Import Util M_Encoder M_Share M_Fss M_Engine.
Local Open Scope Z_scope.
Local Open Scope list_scope.

Section Algorithms.
  Context {W T : Type} (E : engine W T).
  Notation "x +! y" := (e_lin E LAdd x y) (at level 50).
  Notation "x -! y" := (e_lin E LSub x y) (at level 50).
  Notation "x *! y" := (e_mul E x y) (at level 40).
  Notation "x +c c" := (e_linp E LAdd x c) (at level 50).
  Notation "x -c c" := (e_linp E LSub x c) (at level 50).
  Notation "c c- x" := (e_rsub E c x) (at level 50).
  Notation "x *c c" := (e_mulp E x c) (at level 40).

  (** approximations/utils.py:4-13 (sign): (data > 0) + (data < 0) * (-1) *)
  Definition sign (x : T) : comp W T :=
    let! p := e_relp E RGt x (NInt 0) in
    let! n := e_relp E RLt x (NInt 0) in
    let! n := n *c NInt (-1) in
    p +! n.

  (** approximations/utils.py:16-26 (modulus): sign(data) * data *)
  Definition modulus (x : T) : comp W T := let! s := sign x in s *! x.

  (** functional.py:38-51 (relu): x * (x >= 0) *)
  Definition relu (x : T) : comp W T := let! b := e_relp E RGe x (NInt 0) in x *! b.

  (** tanh.py:60-79 (hardtanh); the bounds are python numbers *)
  Definition hardtanh (lo hi : num) (x : T) : comp W T :=
    let! a := x -c lo in let! a := relu a in
    let! b := x -c hi in let! b := relu b in
    let! i := a -! b in i +c lo.

  (** exponential.py:4-20 (exp): (1 + value / 2**iterations) ** (2**iterations); [2 ^ it] is
      positive *)
  Definition exp_a (it : nat) (x : T) : comp W T :=
    let! q := e_div E x (2 ^ Z.of_nat it) in
    let! q := q +c NInt 1 in
    e_pow E q (Z.to_pos (2 ^ Z.of_nat it)).

  (** a float literal p/q *)
  Definition lit (p : Z) (q : positive) : num := NFloat (p # q).

  (** log.py:29-35, one Householder step: h holds h, h^2, ..., h^5 *)
  Definition log_step (ei : nat) (x y : T) : comp W T :=
    let! m := y *c NInt (-1) in
    let! e := exp_a ei m in
    let! p := x *! e in
    let! h0 := NInt 1 c- p in
    let! h1 := h0 *! h0 in let! h2 := h1 *! h0 in let! h3 := h2 *! h0 in let! h4 := h3 *! h0 in
    let! a0 := e_div E h0 2 in let! q := a0 +c NInt 1 in
    let! a1 := e_div E h1 3 in let! q := q +! a1 in
    let! a2 := e_div E h2 4 in let! q := q +! a2 in
    let! a3 := e_div E h3 5 in let! q := q +! a3 in
    let! a4 := e_div E h4 6 in let! q := q +! a4 in
    let! q := h0 *! q in
    y -! q.
  Fixpoint log_loop (n ei : nat) (x y : T) : comp W T :=
    match n with O => cret y | S n => let! y := log_step ei x y in log_loop n ei x y end.

  (** log.py:6-37 (log): the initial guess self / 31 + 1.59 - 20 * exp(-2 * self - 1.4) *)
  Definition log_a (it ei : nat) (x : T) : comp W T :=
    let! a := e_div E x 31 in
    let! a := a +c lit 159 100 in
    let! b := x *c NInt (-2) in
    let! b := b -c lit 14 10 in
    let! b := exp_a ei b in
    let! b := b *c NInt 20 in
    let! y := a -! b in
    log_loop it ei x y.

  (** reciprocal.py:35-36, Newton-Raphson: result = 2 * result - result * result * self *)
  Fixpoint nr_loop (n : nat) (x r : T) : comp W T :=
    match n with
    | O => cret r
    | S n => let! a := r *c NInt 2 in
             let! b := r *! r in let! b := b *! x in
             let! r := a -! b in nr_loop n x r
    end.

  (** reciprocal.py:9-42 (reciprocal), methods "nr" and "log"; the string [method] after
      lower() is the constructor, an unknown one raises ValueError *)
  Inductive rmethod := RNewton | RLog | RBad.
  Definition reciprocal (m : rmethod) (n : nat) (x : T) : comp W T :=
    match m with
    | RNewton =>
        let! a := modulus x in
        let! g := lit 5 10 c- a in
        let! g := exp_a 8 g in
        let! g := g *c NInt 3 in
        let! g := g +c lit 3 1000 in
        let! r := nr_loop n a g in
        let! s := sign x in
        r *! s
    | RLog =>
        let! a := modulus x in
        let! l := log_a 2 8 a in
        let! l := l *c NInt (-1) in
        let! e := exp_a 8 l in
        let! s := sign x in
        e *! s
    | RBad => cerr ValueError
    end.

  (** tanh.py:106-134 (_chebyshev_polynomials), the list before stacking; [k] rounds of the loop
      in lines 130-132 starting from the last two polynomials *)
  Fixpoint cheb_loop (k : nat) (y p q : T) : comp W (list T) :=
    match k with
    | O => cret []
    | S k => let! a := y *! q in let! r := a -! p in
             let! l := cheb_loop k y q r in cret (r :: l)
    end.
  Definition chebyshev (terms : nat) (x : T) : comp W (list T) :=
    if negb (Nat.even terms) || Nat.ltb terms 6 then cerr ValueError
    else
      let! y := x *c NInt 4 in let! y := y *! x in let! y := y -c NInt 2 in
      let! z := y -c NInt 1 in
      let! p1 := z *! x in
      let! l := cheb_loop (Nat.div terms 2 - 2) y x p1 in
      cret (x :: p1 :: l).

  (** tanh.py:48-52: the polynomials stacked, transposed and multiplied with the vector of
      coefficients.  Simplification: written element-wise as sum of polynomial * coefficient;
      the coefficients (torch.cos, torch.tanh) are an argument. *)
  Fixpoint dot (ps : list T) (cs : list num) (acc : T) : comp W T :=
    match ps, cs with
    | p :: ps, c :: cs => let! t := p *c c in let! a := acc +! t in dot ps cs a
    | _, _ => cret acc
    end.
  Definition tanh_cheb (coeffs : list num) (x : T) : comp W T :=
    let! ps := chebyshev 10 x in
    let! z := x *c NInt 0 in
    let! o := dot ps coeffs z in
    hardtanh (NInt (-1)) (NInt 1) o.

  (** factorial(mu + q) / (factorial(mu) * factorial(q)) of sigmoid.py:63-71 with q = 4 *)
  Definition aliter_coeff (mu : nat) : num :=
    NFloat (Z.of_nat (fact (mu + 4)) # Z.to_pos (Z.of_nat (fact mu * fact 4))).

  (** sigmoid.py:69-73: the loop over mu = 0 .. p; for mu = 0 the power is the int 1, so the
      float a_n itself is added *)
  Definition aliter_term (v acc : T) (mu : nat) : comp W T :=
    let! d := NInt 1 c- v in
    let! d := e_div E d 2 in
    match mu with
    | O => acc +c aliter_coeff 0
    | S m => let! t := e_pow E d (Pos.of_succ_nat m) in
             let! t := t *c aliter_coeff mu in acc +! t
    end.
  Fixpoint aliter_loop (v acc : T) (l : list nat) : comp W T :=
    match l with [] => cret acc | mu :: l => let! a := aliter_term v acc mu in aliter_loop v a l end.

  (** sigmoid.py:13-80 (sigmoid).  Simplification: the weights of the Maclaurin method are a
      float32 tensor of zero dimensions each (line 38); here they are the decimal literals.
      [coeffs] are the coefficients of tanh.py:49, used by the Chebyshev method only. *)
  Inductive smethod := SExp | SMaclaurin | SCheb | SAliter | SBad.
  Definition sigmoid (m : smethod) (coeffs : list num) (x : T) : comp W T :=
    match m with
    | SExp =>
        let! s := sign x in
        let! v := x *! s in
        let! ones := x *c NInt 0 in let! ones := ones +c NInt 1 in
        let! half := e_div E ones 2 in
        let! e := ones *c NInt (-1) in let! e := e *! v in
        let! e := exp_a 8 e in
        let! d := ones +! e in
        let! r := reciprocal RNewton 10 d in
        let! r := r -! half in
        let! r := r *! s in
        r +! half
    | SMaclaurin =>
        let! one := x *c NInt 0 in let! one := one +c NInt 1 in
        let! r := one *c lit 5 10 in
        let! t := e_pow E x 1 in let! t := t *c lit 191204779 1000000000 in let! r := r +! t in
        let! t := e_pow E x 3 in let! t := t *c lit (-458667307) 100000000000 in let! r := r +! t in
        let! t := e_pow E x 5 in let! t := t *c lit 420690803 10000000000000 in r +! t
    | SCheb =>
        let! h := e_div E x 2 in
        let! t := tanh_cheb coeffs h in
        let! t := e_div E t 2 in
        t +c lit 5 10
    | SAliter =>
        let! s := sign x in
        let! v := x *! s in let! v := e_div E v 8 in
        let! sc := v +c NInt 1 in let! sc := e_div E sc 2 in let! sc := e_pow E sc 5 in
        let! p := v *c NInt 0 in
        let! p := aliter_loop v p [0; 1; 2; 3; 4]%nat in
        let! r := sc *! p in
        let! a := NInt 1 c- s in let! b := NInt 1 c- r in let! a := a *! b in
        let! c := s +c NInt 1 in let! c := c *! r in
        let! t := a +! c in
        e_div E t 2
    | SBad => cerr ValueError
    end.

  (** tanh.py:18-57 (tanh) *)
  Inductive tmethod := TSigmoid | TCheb | TBad.
  Definition tanh_a (m : tmethod) (coeffs : list num) (x : T) : comp W T :=
    match m with
    | TSigmoid => let! d := x *c NInt 2 in let! g := sigmoid SExp coeffs d in
                  let! g := g *c NInt 2 in g -c NInt 1
    | TCheb => tanh_cheb coeffs x
    | TBad => cerr ValueError
    end.

  (** algorithms.py:46-51: one exchange; lines 48-51 use the old input_list[j] as [temp] *)
  Definition exchange (a b : T) : comp W (T * T) :=
    let! c := e_rel E RGt a b in
    let! n := NInt 1 c- c in
    let! p := n *! a in let! q := c *! b in let! a' := p +! q in
    let! p := n *! b in let! q := c *! a in let! b' := p +! q in
    cret (a', b').

  (** the inner loop: j = 0 .. m-1 over the list *)
  Fixpoint bubble (m : nat) (l : list T) : comp W (list T) :=
    match m, l with
    | S m, a :: b :: r =>
        let! ab := exchange a b in
        let! r' := bubble m (snd ab :: r) in cret (fst ab :: r')
    | _, _ => cret l
    end.
  (** the outer loop: i = 0 .. n-2, inner bound n - i - 1 *)
  Fixpoint bubbles (m : nat) (l : list T) : comp W (list T) :=
    match m with O => cret l | S m' => let! l := bubble m l in bubbles m' l end.

  (** algorithms.py:12-55 (sort).  [shape_of] reads the shape attribute.  The list handed in
      is overwritten in place: the second component is the caller's list afterwards. *)
  Definition sort (shape_of : T -> list nat) (l : list T) (ascending : bool) : comp W (list T * list T) :=
    if forallb (fun x => if list_eq_dec Nat.eq_dec (shape_of x) [1%nat] then true else false) l
    then let! l' := bubbles (length l - 1) l in
         cret (if ascending then l' else rev l', l')
    else cerr ValueError.
End Algorithms.
