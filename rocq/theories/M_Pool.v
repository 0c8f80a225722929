(** Model of max pooling, /repo/src/sympc/module/nn/functional.py:84-440, and of its gradient
    function, /repo/src/sympc/grads/grad_functions.py:679-763, for additive shares in the ring of
    2^64 elements.  Tensors are row-major: with the last two dimensions H and W and B positions
    in the dimensions before, element (b, r, c) stands at (b * H + r) * W + c. *)
From Coq Require Import QArith String.
From Verif Require Import Util S_Ring S_Tensor M_Torch M_Encoder M_Tensor M_Share M_Spdz M_Store M_Fss M_Engine M_Static M_Argmax.
Local Open Scope Z_scope.
Local Open Scope list_scope.

(** an argument given as an int or a tuple of ints (lists are not modelled) *)
Inductive iarg := AInt (z : Z) | ATup (l : list Z).
Definition as_tuple (a : iarg) : list Z := match a with AInt z => [z; z] | ATup l => l end.

(** functional.py:84-141 (_sanity_check_max_pool2d): kernel, stride and padding as pairs.  The
    first two paddings are compared with the kernel before their number is checked. *)
Definition sanity_check (kernel : iarg) (stride : option iarg) (padding dilation : iarg) : result ((Z * Z) * (Z * Z) * (Z * Z)) :=
  match as_tuple kernel with
  | [k0; k1] =>
      match match stride with None => [k0; k1] | Some a => as_tuple a end with
      | [s0; s1] =>
          let p := as_tuple padding in
          do p0 <- get_nth p 0;
          if p0 >? k0 then Err ValueError else
          do p1 <- get_nth p 1;
          if p1 >? k1 then Err ValueError else
          if negb (Nat.eqb (length p) 2) then Err ValueError else
          match as_tuple dilation with
          | [d0; d1] => if negb (d0 =? 1) || negb (d1 =? 1) then Err ValueError else Ok ((k0, k1), (s0, s1), (p0, p1))
          | _ => Err ValueError
          end
      | _ => Err ValueError
      end
  | _ => Err ValueError
  end.

(** shape[:-2], shape[-2], shape[-1] *)
Definition last2 (sh : list nat) : result (list nat * nat * nat) :=
  match rev sh with w :: h :: r => Ok (rev r, h, w) | _ => Err IndexError end.

(** python's a // b + 1, the number of windows along a dimension *)
Definition count (size kernel stride : Z) : result Z :=
  if stride =? 0 then Err ZeroDivision else Ok ((size - kernel) / stride + 1).

(** np.pad of the last two dimensions with a constant (functional.py:199-212) *)
Definition pad2 (z : Z) (p0 p1 : nat) (bs : list nat) (H W : nat) (d : list Z) : list Z :=
  let H' := (H + 2 * p0)%nat in let W' := (W + 2 * p1)%nat in
  map (fun e => let b := (e / (H' * W'))%nat in let r := ((e / W') mod H')%nat in let c := (e mod W')%nat in
                if Nat.leb p0 r && Nat.ltb r (p0 + H) && Nat.leb p1 c && Nat.ltb c (p1 + W)
                then nth ((b * H + (r - p0)) * W + (c - p1)) d 0 else z)
      (seq 0 (numel bs * H' * W')).

(** as_strided and reshape(-1, kh, kw) (functional.py:214-230): the windows one after another *)
Definition windows (H' W' oh ow kh kw s0 s1 n : nat) (d : list Z) : list Z :=
  map (fun e => let q := (e / (kh * kw))%nat in let a := ((e / kw) mod kh)%nat in let c := (e mod kw)%nat in
                let b := (q / (oh * ow))%nat in let i := ((q / ow) mod oh)%nat in let j := (q mod ow)%nat in
                nth ((b * H' + (i * s0 + a)) * W' + (j * s1 + c)) d 0)
      (seq 0 (n * kh * kw)).

(** functional.py:173-234 (helper_max_pool2d_reshape) for the share of party [rank].  np.pad
    refuses negative paddings, as_strided negative sizes, torch.tensor arrays with negative strides,
    reshape(-1, ...) kernels without elements. *)
Definition pool_reshape (rank : nat) (t : tensor) (k st p : Z * Z) : result tensor :=
  do l <- last2 (tsh t); let '(bs, H, W) := l in
  if (fst p <? 0) || (snd p <? 0) then Err ValueError else
  let p0 := Z.to_nat (fst p) in let p1 := Z.to_nat (snd p) in
  let H' := (H + 2 * p0)%nat in let W' := (W + 2 * p1)%nat in
  do oh <- count (Z.of_nat H') (fst k) (fst st);
  do ow <- count (Z.of_nat W') (snd k) (snd st);
  if (oh <? 0) || (ow <? 0) || (fst k <? 0) || (snd k <? 0) || (fst st <? 0) || (snd st <? 0) then Err ValueError else
  if (fst k =? 0) || (snd k =? 0) then Err RuntimeError else
  let n := (numel bs * Z.to_nat oh * Z.to_nat ow)%nat in
  Ok (mkT [n; Z.to_nat (fst k); Z.to_nat (snd k)]
        (windows H' W' (Z.to_nat oh) (Z.to_nat ow) (Z.to_nat (fst k)) (Z.to_nat (snd k)) (Z.to_nat (fst st)) (Z.to_nat (snd st)) n
           (pad2 (if Nat.eqb rank 0 then -25 else 0) p0 p1 bs H W (tdat t)))).

(** functional.py:359-381, tensor[..., r:r+kh, c:c+kw] += grads[..., i, j], element by element;
    grads has the dimensions gbs, goh, gow, gkh, gkw and is broadcast *)
Definition add_window (bs : list nat) (H' W' kh kw s0 s1 : nat) (gbs : list nat) (goh gow gkh gkw : nat) (g : list Z)
    (acc : list Z) (ij : nat * nat) : result (list Z) :=
  let '(i, j) := ij in
  if Nat.leb goh i || Nat.leb gow j then Err IndexError else
  let sel := map (fun e => let b := (e / (gkh * gkw))%nat in let a := ((e / gkw) mod gkh)%nat in let c := (e mod gkw)%nat in
                           nth ((((b * goh + i) * gow + j) * gkh + a) * gkw + c) g 0) (seq 0 (numel (gbs ++ [gkh; gkw]))) in
  match bcast (gbs ++ [gkh; gkw]) (bs ++ [kh; kw]) with
  | Some so =>
      if shape_eqb so (bs ++ [kh; kw]) then
        let x := expand so (gbs ++ [gkh; gkw]) sel in
        Ok (map (fun e => let b := (e / (H' * W'))%nat in let r := ((e / W') mod H')%nat in let c := (e mod W')%nat in
                          if Nat.leb (i * s0) r && Nat.ltb r (i * s0 + kh) && Nat.leb (j * s1) c && Nat.ltb c (j * s1 + kw)
                          then wrap 64 (nth e acc 0 + nth ((b * kh + (r - i * s0)) * kw + (c - j * s1)) x 0)
                          else nth e acc 0)
                (seq 0 (numel bs * H' * W')))
      else Err RuntimeError
  | None => Err RuntimeError
  end.

(** slices [r0:r1] and [c0:c1] of the last two dimensions *)
Definition crop (bs : list nat) (H' W' r0 r1 c0 c1 : nat) (d : list Z) : tensor :=
  let h := (r1 - r0)%nat in let w := (c1 - c0)%nat in
  mkT (bs ++ [h; w]) (map (fun e => let b := (e / (h * w))%nat in let r := ((e / w) mod h)%nat in let c := (e mod w)%nat in
                                   nth ((b * H' + (r0 + r)) * W' + (c0 + c)) d 0) (seq 0 (numel bs * h * w))).

Fixpoint rfold {A B} (f : A -> B -> result A) (l : list B) (a : A) : result A :=
  match l with [] => Ok a | b :: r => do a' <- f a b; rfold f r a' end.

(** functional.py:313-381 (max_pool2d_backward_helper).  Not modelled (reported as
    NotImplementedErr, the code does something else there): shapes of other than 3 or 4
    dimensions, gradients that do not have two dimensions more than the input, negative paddings
    and kernels without elements; max_pool2d refuses or never produces them. *)
Definition backward_helper (input : list nat) (g : tensor) (k st p : Z * Z) : result tensor :=
  do l <- last2 input; let '(bs, H, W) := l in
  if (fst p <? 0) || (snd p <? 0) || (fst k <? 1) || (snd k <? 1) then Err NotImplementedErr else
  let p0 := Z.to_nat (fst p) in let p1 := Z.to_nat (snd p) in
  let kh := Z.to_nat (fst k) in let kw := Z.to_nat (snd k) in
  let H' := (H + 2 * p0)%nat in let W' := (W + 2 * p1)%nat in
  if Nat.ltb H' kh || Nat.ltb W' kw then Err ValueError else
  do oh <- count (Z.of_nat H') (fst k) (fst st);
  do ow <- count (Z.of_nat W') (snd k) (snd st);
  if negb (Nat.eqb (length (tsh g)) (length input + 2)) then Err NotImplementedErr else
  do l2 <- last2 (tsh g); let '(gr, gkh, gkw) := l2 in
  do l3 <- last2 gr; let '(gbs, goh, gow) := l3 in
  do d <- rfold (add_window bs H' W' kh kw (Z.to_nat (fst st)) (Z.to_nat (snd st)) gbs goh gow gkh gkw (tdat g))
            (list_prod (seq 0 (Z.to_nat oh)) (seq 0 (Z.to_nat ow))) (repeat 0 (numel bs * H' * W'));
  if Nat.eqb (length input) 4 then Ok (crop bs H' W' p0 H p1 W d)
  else if Nat.eqb (length input) 3 then Ok (crop bs H' W' p0 (H' - p0) p1 (W' - p1) d)
  else Err NotImplementedErr.

Section Pool.
  Context {K : Type} (alpha : K -> Z) (ev : fop -> Z -> Z -> K -> Z)
          (gen : fop -> nat -> nat -> result (list (list K))) (s : sess) (su : tri_supply).

  (** functional.py:237-310 (max_pool2d) without autograd; the dimension -1 of the windows is
      dimension 2, that of the row maxima dimension 1 *)
  Definition max_pool2d (x : mpc) (kernel : iarg) (stride : option iarg) (padding dilation : iarg) (return_indices : bool)
      : comp (mpcw (K:=K)) (mpc * option mpc) :=
    if negb (Nat.eqb (s_n s) 2) then cerr ValueError else
    let! a := lift (sanity_check kernel stride padding dilation) in
    let '(k, st, p) := a in
    let! l := lift (last2 (m_shape x)) in
    let '(bs, H, W) := l in
    let H' := Z.of_nat H + 2 * fst p in let W' := Z.of_nat W + 2 * snd p in
    if (H' <? fst k) || (W' <? snd k) then cerr ValueError else
    let! shs := lift (rmap (fun rt => pool_reshape (fst rt) (snd rt) k st p) (combine (seq 0 (length (m_shares x))) (m_shares x))) in
    let! sh0 := lift (do t <- get_nth shs 0; Ok (tsh t)) in
    let! mc := max_mpc alpha ev gen s su (mkM (s_id s) sh0 shs) (Some 2%nat) false true in
    let! mr := max_mpc alpha ev gen s su (fst mc) (Some 1%nat) false true in
    let! oh := lift (count H' (fst k) (fst st)) in
    let! ow := lift (count W' (snd k) (snd st)) in
    let so := bs ++ [Z.to_nat oh; Z.to_nat ow] in
    let! r := lift (mpc_view (VReshape so) (fst mr)) in
    if return_indices then
      match snd mc, snd mr with
      | Some columns, Some rows =>
          let! u := lift (mpc_view (VReshape (m_shape rows ++ [1%nat])) rows) in
          let! i := e_mul (mpc_engine alpha ev gen s su) columns u in
          let! i := lift (mpc_view (VReshape (so ++ [Z.to_nat (fst k); Z.to_nat (snd k)])) i) in
          cret (r, Some i)
      | _, _ => cerr TypeError
      end
    else cret (r, None).

  (** functional.py:384-440 (max_pool2d_backward) *)
  Definition max_pool2d_backward (grad : mpc) (input : list nat) (indices : mpc) (kernel : iarg) (stride : option iarg)
      (padding dilation : iarg) : comp (mpcw (K:=K)) mpc :=
    let! a := lift (sanity_check kernel stride padding dilation) in
    let '(k, st, p) := a in
    let n := length (m_shape grad) in
    if negb (Nat.eqb n 4) && negb (Nat.eqb n 3) then cerr ValueError else
    if negb (Nat.eqb (length (m_shape indices)) (n + 2)) then cerr ValueError else
    let! g := lift (mpc_view (VReshape (m_shape grad ++ [1; 1]%nat)) grad) in
    let! m := e_mul (mpc_engine alpha ev gen s su) g indices in
    let! shs := lift (rmap (fun t => backward_helper input t k st p) (m_shares m)) in
    cret (mkM (s_id s) input shs).

  (** what GradMaxPool2D keeps for the backward pass *)
  Record pool_ctx := mkPoolCtx { pc_shape : list nat; pc_kernel : iarg; pc_stride : option iarg; pc_padding : iarg; pc_dilation : iarg; pc_indices : mpc }.

  (** grad_functions.py:683-739 (GradMaxPool2D.forward): a tuple is refused here only if both
      dilations are not 1 *)
  Definition grad_pool_forward (x : mpc) (kernel : iarg) (stride : option iarg) (padding dilation : iarg)
      : comp (mpcw (K:=K)) (mpc * pool_ctx) :=
    let! bad := lift match dilation with
                     | AInt z => Ok (negb (z =? 1))
                     | ATup l => do a <- get_nth l 0; if a =? 1 then Ok false else do b <- get_nth l 1; Ok (negb (b =? 1))
                     end in
    if bad : bool then cerr ValueError else
    let! r := max_pool2d x kernel stride padding dilation true in
    match snd r with
    | Some i => cret (fst r, mkPoolCtx (m_shape x) kernel stride padding dilation i)
    | None => cerr TypeError
    end.

  (** grad_functions.py:742-763 (GradMaxPool2D.backward) *)
  Definition grad_pool_backward (c : pool_ctx) (grad : mpc) : comp (mpcw (K:=K)) mpc :=
    max_pool2d_backward grad (pc_shape c) (pc_indices c) (pc_kernel c) (pc_stride c) (pc_padding c) (pc_dilation c).
End Pool.
