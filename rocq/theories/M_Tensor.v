(** Model of shaped torch integer tensors: broadcasting binary operations, the forwarded
    shape methods and the bilinear operations.  torch semantics (not repo code); the
    places where SyMPC calls them are cited in M_Share.v and M_Spdz.v. *)
From Verif Require Import Util S_Ring S_Tensor M_Torch.
Local Open Scope Z_scope.

(** binary element-wise operator with torch broadcasting (RuntimeError when the shapes are
    incompatible); [f] is the element operation of the tensor's type *)
Definition tbin (f : Z -> Z -> Z) (a b : tensor) : result tensor :=
  match bcast (tsh a) (tsh b) with
  | None => Err RuntimeError
  | Some so => Ok (mkT so (map2 f (expand so (tsh a) (tdat a)) (expand so (tsh b) (tdat b))))
  end.

(** python [sum(list)] of tensors: 0 + t0 + t1 + ... *)
Definition tsum (ring : Z) (ts : list tensor) : result tensor :=
  match ts with
  | [] => Err AttributeError (* sum([]) is the int 0, on which the tensor methods fail *)
  | t :: r => fold_left (fun acc u => do a <- acc; tbin (radd ring) a u) r (Ok t)
  end.

(** forwarded methods of torch tensors (share_tensor.py:83-100): the ones returning tensors *)
Inductive viewop :=
| VT                              (* t(), T on matrices *)
| VTranspose (a b : nat)          (* transpose(a, b) *)
| VReshape (s : list nat)         (* view / reshape / flatten / squeeze / unsqueeze: same elements *)
| VRepeat0 (k : nat)              (* repeat(k, 1, ..., 1) *)
| VNarrow0 (start len : nat)      (* narrow(0, start, len) *)
| VRoll0 (k : nat)                (* roll(k, 0) *)
| VSum                            (* sum() *)
| VSumDim (d : nat)               (* sum(d) *)
| VSumFirst (k : nat)             (* sum([0, ..., k-1]), k > 0 *)
| VSumKeep (d : nat)              (* sum(d, keepdim=True) *)
| VClone.

Definition swap_nth (a b : nat) (l : list nat) : list nat :=
  set_nth a (nth b l 0%nat) (set_nth b (nth a l 0%nat) l).

Definition drop_nth (d : nat) (l : list nat) : list nat := firstn d l ++ skipn (S d) l.

(** output shape and, for every output element, the input elements that are added up *)
Definition view_index (v : viewop) (s : list nat) : result (list nat * list (list nat)) :=
  match v with
  | VT =>
      match s with
      | [] => Ok (s, [[0%nat]])
      | [n] => Ok (s, map (fun e => [e]) (seq 0 n))
      | [m; n] => Ok ([n; m], map (fun e => [((e mod m) * n + e / m)%nat]) (seq 0 (n * m)))
      | _ => Err RuntimeError
      end
  | VTranspose a b =>
      if (Nat.ltb a (length s) && Nat.ltb b (length s))%bool then
        let so := swap_nth a b s in
        Ok (so, map (fun e => [ravel s (swap_nth a b (unravel so e))]) (seq 0 (numel so)))
      else Err IndexError
  | VReshape so =>
      if Nat.eqb (numel so) (numel s) then Ok (so, map (fun e => [e]) (seq 0 (numel s)))
      else Err RuntimeError
  | VRepeat0 k =>
      match s with
      | [] => Ok ([k], map (fun _ => [0%nat]) (seq 0 k))
      | n :: r => Ok ((k * n)%nat :: r, map (fun e => [(e mod (n * numel r))%nat]) (seq 0 (k * n * numel r)))
      end
  | VNarrow0 start len =>
      match s with
      | [] => Err RuntimeError
      | n :: r => if Nat.leb (start + len) n
                  then Ok (len :: r, map (fun e => [(start * numel r + e)%nat]) (seq 0 (len * numel r)))
                  else Err RuntimeError
      end
  | VRoll0 k =>
      match s with
      | [] => Err IndexError
      | n :: r => Ok (s, map (fun e => [(((e / numel r + (n - k mod n)) mod n) * numel r + e mod numel r)%nat])
                             (seq 0 (n * numel r)))
      end
  | VSum => Ok ([], [seq 0 (numel s)])
  | VSumDim d =>
      match nth_error s d with
      | None => Err IndexError
      | Some n =>
          let so := drop_nth d s in
          Ok (so, map (fun e => map (fun k => let ix := unravel so e in
                                              ravel s (firstn d ix ++ k :: skipn d ix))
                                    (seq 0 n)) (seq 0 (numel so)))
      end
  | VSumFirst k =>
      if Nat.leb k (length s) then
        let so := skipn k s in
        Ok (so, map (fun e => map (fun p => ravel s (unravel (firstn k s) p ++ unravel so e)) (seq 0 (numel (firstn k s))))
                    (seq 0 (numel so)))
      else Err IndexError
  | VSumKeep d =>
      match nth_error s d with
      | None => Err IndexError
      | Some n =>
          let so := set_nth d 1%nat s in
          Ok (so, map (fun e => map (fun k => ravel s (set_nth d k (unravel so e))) (seq 0 n)) (seq 0 (numel so)))
      end
  | VClone => Ok (s, map (fun e => [e]) (seq 0 (numel s)))
  end.

(** apply such a method to one tensor *)
Definition tview (ring : Z) (v : viewop) (t : tensor) : result tensor :=
  do p <- view_index v (tsh t); Ok (mkT (fst p) (rlin ring (snd p) (tdat t))).

(** parameters of a convolution; python ints (tuples are not modelled) *)
Record convp := mkConv { cv_stride : nat; cv_pad : nat; cv_dil : nat; cv_groups : nat }.
Definition conv_default : convp := mkConv 1 0 1 1.

(** bilinear operations used by the multiplication protocols *)
Inductive bop := BMul | BMatmul | BConv2d (p : convp) | BConvT (p : convp).

(** torch.matmul on at least two-dimensional operands, batch dimensions broadcast *)
Definition mm_index (s1 s2 : list nat) : option (list nat * list (list (nat * nat))) :=
  match rev s1, rev s2 with
  | k :: m :: b1, n :: k' :: b2 =>
      if Nat.eqb k k' then
        match bcast (rev b1) (rev b2) with
        | None => None
        | Some bs =>
            Some (bs ++ [m; n],
                  flat_map (fun p => map (map (fun q => (fst p * (m * k) + fst q, snd p * (k * n) + snd q)%nat))
                                         (ix_matmul m k n))
                           (combine (bcast_idx bs (rev b1)) (bcast_idx bs (rev b2))))
        end
      else None
  | _, _ => None
  end.

(** torch.matmul with vectors promoted to matrices *)
Definition matmul_index (s1 s2 : list nat) : option (list nat * list (list (nat * nat))) :=
  match s1, s2 with
  | [], _ | _, [] => None
  | [k], [k'] => option_map (fun p => (@nil nat, snd p)) (mm_index [1%nat; k] [k'; 1%nat])
  | [k], _ => option_map (fun p => (drop_nth (length (fst p) - 2) (fst p), snd p)) (mm_index [1%nat; k] s2)
  | _, [k'] => option_map (fun p => (removelast (fst p), snd p)) (mm_index s1 [k'; 1%nat])
  | _, _ => mm_index s1 s2
  end.

(** output length of a convolution along one dimension *)
Definition conv_out (h k s p d : nat) : nat := ((h + 2 * p - d * (k - 1) - 1) / s + 1)%nat.

(** torch.conv2d(input (N,C,H,W), weight (O,C/g,kh,kw), stride, padding, dilation, groups) *)
Definition conv2d_index (cp : convp) (sa sb : list nat) : option (list nat * list (list (nat * nat))) :=
  match sa, sb with
  | [nb; c; h; w], [o; cg; kh; kw] =>
      let s := cv_stride cp in let p := cv_pad cp in let d := cv_dil cp in let g := cv_groups cp in
      if (Nat.ltb 0 s && Nat.ltb 0 d && Nat.ltb 0 g && Nat.ltb 0 kh && Nat.ltb 0 kw &&
          Nat.eqb c (g * cg) && Nat.eqb (o mod g) 0 &&
          Nat.leb (d * (kh - 1) + 1) (h + 2 * p) && Nat.leb (d * (kw - 1) + 1) (w + 2 * p))%bool then
        let oh := conv_out h kh s p d in
        let ow := conv_out w kw s p d in
        let og := (o / g)%nat in
        Some ([nb; o; oh; ow],
          flat_map (fun n => flat_map (fun f => flat_map (fun y => map (fun x =>
            flat_map (fun ch => flat_map (fun i => flat_map (fun j =>
              let iy := (y * s + i * d)%nat in
              let ix := (x * s + j * d)%nat in
              if (Nat.leb p iy && Nat.ltb iy (p + h) && Nat.leb p ix && Nat.ltb ix (p + w))%bool then
                [((((n * c + (f / og) * cg + ch) * h + (iy - p)) * w + (ix - p))%nat,
                  (((f * cg + ch) * kh + i) * kw + j)%nat)]
              else []) (seq 0 kw)) (seq 0 kh)) (seq 0 cg))
            (seq 0 ow)) (seq 0 oh)) (seq 0 o)) (seq 0 nb))
      else None
  | _, _ => None
  end.

(** torch.conv_transpose2d(input (N,C,H,W), weight (C,O/g,kh,kw), ...): output element (y,x)
    collects the products with y + p = h*s + i*d *)
Definition convT_index (cp : convp) (sa sb : list nat) : option (list nat * list (list (nat * nat))) :=
  match sa, sb with
  | [nb; c; h; w], [c'; og; kh; kw] =>
      let s := cv_stride cp in let p := cv_pad cp in let d := cv_dil cp in let g := cv_groups cp in
      if (Nat.ltb 0 s && Nat.ltb 0 d && Nat.ltb 0 g && Nat.ltb 0 kh && Nat.ltb 0 kw &&
          Nat.ltb 0 h && Nat.ltb 0 w &&
          Nat.eqb c c' && Nat.eqb (c mod g) 0 &&
          Nat.ltb (2 * p) ((h - 1) * s + d * (kh - 1) + 1) &&
          Nat.ltb (2 * p) ((w - 1) * s + d * (kw - 1) + 1))%bool then
        let oh := ((h - 1) * s + d * (kh - 1) + 1 - 2 * p)%nat in
        let ow := ((w - 1) * s + d * (kw - 1) + 1 - 2 * p)%nat in
        let cg := (c / g)%nat in
        Some ([nb; (g * og)%nat; oh; ow],
          flat_map (fun n => flat_map (fun f => flat_map (fun y => map (fun x =>
            flat_map (fun ch => flat_map (fun hh => flat_map (fun ww =>
              flat_map (fun i => flat_map (fun j =>
                if (Nat.eqb (y + p) (hh * s + i * d) && Nat.eqb (x + p) (ww * s + j * d))%bool then
                  [((((n * c + (f / og) * cg + ch) * h + hh) * w + ww)%nat,
                    (((((f / og) * cg + ch) * og + f mod og) * kh + i) * kw + j)%nat)]
                else []) (seq 0 kw)) (seq 0 kh)) (seq 0 w)) (seq 0 h)) (seq 0 cg))
            (seq 0 ow)) (seq 0 oh)) (seq 0 (g * og))) (seq 0 nb))
      else None
  | _, _ => None
  end.

(** output shape and, for every output element, the pairs of elements multiplied *)
Definition bil_index (op : bop) (sa sb : list nat) : option (list nat * list (list (nat * nat))) :=
  match op with
  | BMul => match bcast sa sb, ix_mul sa sb with Some so, Some ix => Some (so, ix) | _, _ => None end
  | BMatmul => matmul_index sa sb
  | BConv2d p => conv2d_index p sa sb
  | BConvT p => convT_index p sa sb
  end.

(** the operation on two tensors *)
Definition tbil (ring : Z) (op : bop) (a b : tensor) : result tensor :=
  match bil_index op (tsh a) (tsh b) with
  | None => Err RuntimeError
  | Some (so, ix) => Ok (mkT so (rbil ring ix (tdat a) (tdat b)))
  end.
