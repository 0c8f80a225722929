(** Model of the ABY3 conversions (/repo/src/sympc/protocol/aby3/aby3.py:166-428), of the Falcon
    comparison and selection (/repo/src/sympc/protocol/falcon/falcon.py:410-555) and of the
    operations of shared tensors they use.
    The randomness of the multiplications inside a protocol is a tree of supplies [sup]: the
    subtree [k] of [u] serves step number [k]; a multiplication takes the supply at the root. *)
From Coq Require Import QArith.
From Verif Require Import Util S_Ring S_Tensor M_Torch M_Tensor M_Encoder M_Share M_Spdz M_Rep.
Local Open Scope Z_scope.

Definition sup := list nat -> mulsup.
Definition subsup (u : sup) (k : nat) : sup := fun q => u (k :: q).

(** mpc_tensor.py:654-717 ("xor" of two shared tensors), 827-862 *)
Definition rm_xor (s : rsess) (x y : rmpc) (u : sup) : result rmpc :=
  if negb (Nat.eqb (rm_sid x) (rm_sid y)) then Err ValueError
  else
    do rc <- first_ring x;
    do r <- (if fst rc =? 2 then rm_lin LAdd x y
             else
               do a <- rm_lin LAdd x y;
               do m <- rm_bil s BMul x y (subsup u 0 []);
               do m2 <- rm_bil_public s BMul m (PNum (NInt 2)) (su_rand (subsup u 1 []));
               rm_lin LSub a m2);
    do so <- shape_bin (rm_shape x) (rm_shape y);
    Ok (mkRM (rm_sid r) so (rm_ps r)).

(** mpc_tensor.py:621-652 (pow) for a positive exponent given by its binary digits *)
Fixpoint rm_pow_loop (s : rsess) (p : positive) (base : rmpc) (acc : option rmpc) (u : sup) (k : nat) : result rmpc :=
  let step := match acc with
              | None => rm_bil_public s BMul base (PNum (NInt 1)) (su_rand (subsup u k []))
              | Some r => rm_bil s BMul r base (subsup u k [])
              end in
  match p with
  | xH => do r <- step; do _ <- rm_bil s BMul base base (subsup u (S k) []); Ok r
  | xO p => do b <- rm_bil s BMul base base (subsup u k []); rm_pow_loop s p b acc u (S k)
  | xI p => do r <- step;
            do b <- rm_bil s BMul base base (subsup u (S k) []);
            rm_pow_loop s p b (Some r) u (S (S k))
  end.

(* ------------------------------------------------------------------ *)
(** ABY3 *)

(** aby3.py:166-187 (truncation_algorithm2): its first line refers to ABY3.get_truncation_pair, which
    does not exist (the function is called _get_truncation_pair) *)
Definition truncation_algorithm2 (x : rmpc) : result rmpc := Err AttributeError.

(** aby3.py:214-270 (local_decomposition) at one party; [sring] is the ring size of the session.
    For every instance (the object itself, or its bits) three objects: the sharings of the
    first, second and third share.  x.clone() keeps the config; the ring size is then
    overwritten. *)
Definition local_decomposition (c : pctx) (sring : Z) (x : rst) (ring : Z) (bitwise : bool) : result (list (list rst)) :=
  match r_uuid x with
  | None => Err ValueError
  | Some _ =>
      if negb (Nat.eqb (pc_nr c) 3) then Err ValueError
      else
        do d <- get_type_from_ring ring;
        let rank := Z.to_nat (pc_rank c) in
        do s0 <- get_nth (r_shares x) 0;
        let zero := mkT (tsh s0) (repeat 0 (numel (tsh s0))) in
        do inputs <- (if bitwise then rmap (rst_bit x) (seq 0 (get_nr_bits sring)) else Ok [x]);
        rmap (fun sh =>
          do a <- get_nth (r_shares sh) 0;
          do b <- get_nth (r_shares sh) 1;
          Ok (map (fun i => mkR ring (rst_cfg (r_ring x) (r_cfg x)) (r_uuid x)
                              [if Nat.eqb i rank then mkT (tsh a) (map (cast d) (tdat a)) else zero;
                               if Nat.eqb i ((rank + 1) mod 3) then mkT (tsh b) (map (cast d) (tdat b)) else zero])
                  (seq 0 3))) inputs
  end.

(** local_decomposition run at every party (parallel_execution) *)
Definition decompose_all (s : rsess) (x : rmpc) (ring : Z) (bitwise : bool) : result (list (list (list rst))) :=
  rmap (fun p => local_decomposition (mkPC (Z.of_nat (fst p)) (rs_n s)) (rs_ring s) (snd p) ring bitwise)
       (combine (seq 0 (length (rm_ps x))) (rm_ps x)).

(** instance [i], sharing of share [j]: the objects of the parties (aby3.py:302-314, 374-389) *)
Definition decomposed (s : rsess) (x : rmpc) (ds : list (list (list rst))) (i j : nat) : result rmpc :=
  do ps <- rmap (fun l => do inst <- get_nth l i; get_nth inst j) ds;
  Ok (mkRM (rs_id s) (rm_shape x) ps).

(** aby3.py:273-319 (bit_injection) *)
Definition bit_injection (s : rsess) (x : rmpc) (ring : Z) (u : sup) : result rmpc :=
  do rc <- first_ring x;
  if negb (fst rc =? 2) then Err ValueError
  else if negb (Nat.eqb (rs_n s) 3) then Err ValueError
  else
    do ds <- decompose_all s x ring false;
    do x1 <- decomposed s x ds 0 0;
    do x2 <- decomposed s x ds 0 1;
    do x3 <- decomposed s x ds 0 2;
    do x12 <- rm_xor s x1 x2 (subsup u 0);
    rm_xor s x12 x3 (subsup u 1).

(** aby3.py:322-345 (full_adder); [c] is the carry, None for the initial int 0 *)
Fixpoint adder_loop (s : rsess) (a b : list rmpc) (idxs : list nat) (c : option rmpc) (u : sup) : result (list rmpc) :=
  match idxs with
  | [] => Ok []
  | i :: r =>
      do x <- get_nth a i;
      do y <- get_nth b i;
      do xy <- rm_lin LAdd x y;
      do sm <- match c with None => rm_lin_public s LAdd xy (PNum (NInt 0)) | Some c => rm_lin LAdd xy c end;
      do m1 <- rm_bil s BMul x y (subsup (subsup u i) 0 []);
      do xy' <- rm_lin LAdd x y;
      do m2 <- match c with
               | None => rm_bil_public s BMul xy' (PNum (NInt 0)) (su_rand (subsup (subsup u i) 1 []))
               | Some c => rm_bil s BMul c xy' (subsup (subsup u i) 1 [])
               end;
      do c' <- rm_lin LAdd m1 m2;
      do rest <- adder_loop s a b r (Some c') u;
      Ok (sm :: rest)
  end.
Definition full_adder (s : rsess) (a b : list rmpc) (u : sup) : result (list rmpc) :=
  adder_loop s a b (seq 0 (get_nr_bits (rs_ring s))) None u.

(** aby3.py:348-392 (bit_decomposition) *)
Definition bit_decomposition (s : rsess) (x : rmpc) (u : sup) : result (list rmpc) :=
  do ds <- decompose_all s x 2 true;
  do n <- match ds with [] => Err ValueError | d :: _ => Ok (length d) end;
  do x1 <- rmap (fun i => decomposed s x ds i 0) (seq 0 n);
  do x2 <- rmap (fun i => decomposed s x ds i 1) (seq 0 n);
  do x3 <- rmap (fun i => decomposed s x ds i 2) (seq 0 n);
  do x12 <- full_adder s x1 x2 (subsup u 0);
  full_adder s x12 x3 (subsup u 1).

(** aby3.py:395-428 (bit_decomposition_ttp); [rnd i] are the two bit tensors drawn for bit [i].
    (For the highest bit the mask is the smallest integer; masking with it or with 2^63 gives
    the same bit.) *)
Definition bit_decomposition_ttp (s : rsess) (x : rmpc) (rnd : nat -> list Z * list Z) : result (list rmpc) :=
  do t <- rm_reconstruct s x;
  rmap (fun i =>
    let secret := mkT (tsh t) (map (fun v => cast TBool (Z.land v (2 ^ Z.of_nat i))) (tdat t)) in
    let r1 := mkT (tsh t) (fst (rnd i)) in
    let r2 := mkT (tsh t) (snd (rnd i)) in
    do r3 <- shares_sum 2 [secret; r1; r2];
    do d <- rst_distribute s [r1; r2; r3] (Some 2) (Some (mkConfig 1 0));
    do ps <- received d;
    Ok (mkRM (rs_id s) (tsh t) ps)) (seq 0 (get_nr_bits (rs_ring s))).

(* ------------------------------------------------------------------ *)
(** Falcon *)

(** falcon.py:410-456 (select_shares); [c_ptrs]: the random bit sharing of lines 436-443 *)
Definition select_shares (s : rsess) (x y b : rmpc) (c_ptrs : list rst) (u : sup) : result rmpc :=
  do rc <- first_ring b;
  if negb (fst rc =? 2) then Err ValueError
  else
    let c := mkRM (rs_id s) (rm_shape b) c_ptrs in
    do c_r <- bit_injection s c (rs_ring s) (subsup u 0);
    do d <- get_type_from_ring (rs_ring s);
    do bc <- rm_xor s b c (subsup u 1);
    do m <- rm_reconstruct s bc;
    let mask := PTensor (tsh m) (map NInt (map (cast d) (tdat m))) in
    let nmask := PTensor (tsh m) (map NInt (map (fun v => Z.lxor (cast d v) 1) (tdat m))) in
    do cm <- rm_bil_public s BMul c_r mask (su_rand (subsup u 2 []));
    do d1 <- rm_rsub s cm mask (su_rand (subsup u 3 []));
    do d2 <- rm_bil_public s BMul c_r nmask (su_rand (subsup u 4 []));
    do dd <- rm_lin LAdd d1 d2;
    do yx <- rm_lin LSub y x;
    do dyx <- rm_bil s BMul dd yx (subsup u 5 []);
    rm_lin LAdd x dyx.

(** RST.repeat of the 0-dimensional shares of falcon.py:482-485 (replicatedshare_tensor.py:1025-1040) *)
Definition rst_repeat0 (sh : list nat) (x : rst) : rst :=
  rst_like x (map (fun t => mkT sh (repeat (nth 0 (tdat t) 0) (numel sh))) (r_shares x)).

(** a loop that may go on for ever *)
Inductive outcome (A : Type) := Done (r : result A) | Running.
Arguments Done {A}. Arguments Running {A}.

(** falcon.py:459-495 (_random_prime_group); [draws]: the random sharings (0-dimensional tensors) of the
    successive rounds.  Running: no draw was accepted so far. *)
Fixpoint random_prime_group (s : rsess) (sh : list nat) (draws : list (list rst)) (u : sup) (k : nat) : outcome rmpc :=
  match draws with
  | [] => Running
  | ps :: rest =>
      let m := mkRM (rs_id s) sh (map (rst_repeat0 sh) ps) in
      match (do e <- rm_pow_loop s 66 m None (subsup u k) 0; rm_reconstruct s e) with
      | Err e => Done (Err e)
      | Ok t => if forallb (fun v => v =? 1) (tdat t) then Done (Ok m) else random_prime_group s sh rest u (S k)
      end
  end.

(** a python int or a shared tensor: the entries of the lists u, c and the variables w, d of
    falcon.py:534-546 *)
Inductive ival := IV (z : Z) | IM (m : rmpc).
Definition ival_mul (s : rsess) (a b : ival) (u : sup) : result ival :=
  match a, b with
  | IV p, IV q => Ok (IV (p * q))
  | IV p, IM m | IM m, IV p => do r <- rm_bil_public s BMul m (PNum (NInt p)) (su_rand (u [])); Ok (IM r)
  | IM m, IM m' => do r <- rm_bil s BMul m m' (u []); Ok (IM r)
  end.
Definition add_ival (s : rsess) (m : rmpc) (w : ival) : result rmpc :=
  match w with IV z => rm_lin_public s LAdd m (PNum (NInt z)) | IM m' => rm_lin LAdd m m' end.
Definition ival_add (s : rsess) (w : ival) (m : rmpc) : result rmpc :=
  match w with IV z => rm_lin_public s LAdd m (PNum (NInt z)) | IM m' => rm_lin LAdd m' m end.

(** math.prod *)
Fixpoint prod_loop (s : rsess) (acc : ival) (cs : list ival) (u : sup) (k : nat) : result ival :=
  match cs with
  | [] => Ok acc
  | c :: r => do a <- ival_mul s acc c (subsup u k); prod_loop s a r u (S k)
  end.

(** falcon.py:534-546: the loop over the bits, from the highest; [cs] is the list c, [w] the
    number of differing bits so far; the value is d *)
Fixpoint compare_loop (s : rsess) (beta_p m : rmpc) (x : list rmpc) (rsh : list nat) (r : list Z) (idxs : list nat)
  (cs : list ival) (w d : ival) (u : sup) : result ival :=
  match idxs with
  | [] => Ok d
  | i :: rest =>
      let r_i := PTensor rsh (map (fun v => NInt (Z.land (Z.shiftr v (Z.of_nat i)) 1)) r) in
      do x_i <- get_nth x i;
      do b2 <- rm_bil_public s BMul beta_p (PNum (NInt 2)) (su_rand (subsup (subsup u i) 0 []));
      do b1 <- rm_rsub s b2 (PNum (NInt 1)) (su_rand (subsup (subsup u i) 1 []));
      do dx <- rm_lin_public s LSub x_i r_i;
      do u_i <- rm_bil s BMul b1 dx (subsup (subsup u i) 2 []);
      do u1 <- rm_lin_public s LAdd u_i (PNum (NInt 1));
      do c_i <- add_ival s u1 w;
      let cs := set_nth i (IM c_i) cs in
      do x_r <- rm_xor_public s x_i r_i;
      do w <- ival_add s w x_r;
      do p <- prod_loop s (IV 1) cs (subsup (subsup u i) 3) 0;
      do d <- ival_mul s (IM m) p (subsup (subsup u i) 4);
      compare_loop s beta_p m x rsh r rest cs (IM w) d u
  end.

(** falcon.py:498-555 (private_compare); [beta_ptrs]: the random bit sharing; [draws]: the rounds of
    _random_prime_group *)
Definition private_compare (s : rsess) (x : list rmpc) (rsh : list nat) (r : list Z)
  (beta_ptrs : list rst) (draws : list (list rst)) (u : sup) : outcome rmpc :=
  match get_nth x 0 with
  | Err e => Done (Err e)
  | Ok x0 =>
      let sh := rm_shape x0 in
      let beta_2 := mkRM (rs_id s) sh beta_ptrs in
      match bit_injection s beta_2 PRIME (subsup u 0) with
      | Err e => Done (Err e)
      | Ok beta_p =>
          match random_prime_group s sh draws (subsup u 1) 0 with
          | Running => Running
          | Done (Err e) => Done (Err e)
          | Done (Ok m) => Done (
              let n := length x in
              do d <- compare_loop s beta_p m x rsh r (rev (seq 0 n)) (repeat (IV 0) n) (IV 0) (IV 0) (subsup u 2);
              match d with
              | IV _ => Err AttributeError
              | IM d =>
                  do dv <- rm_reconstruct s d;
                  rm_lin_public s LAdd beta_2 (PTensor (tsh dv) (map (fun v => NInt (if v =? 0 then 0 else 1)) (tdat dv)))
              end)
          end
      end
  end.
