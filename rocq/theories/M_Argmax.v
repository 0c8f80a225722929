(** Model of argmax and max, /repo/src/sympc/tensor/static.py:155-319, for additive shares of two
    parties (the comparisons are those of the FSS protocol).  The argument dim is None or a
    dimension counted from the front; negative ones (counted from the end) are the same as
    those, tuples are not modelled (they raise). *)
From Coq Require Import QArith String.
From Verif Require Import Util S_Ring S_Tensor M_Torch M_Encoder M_Tensor M_Share M_Spdz M_Store M_Fss M_Engine M_Static.
Local Open Scope Z_scope.
Local Open Scope list_scope.

(** torch.roll(t, k, dims=d): the element of [t] that moves to position [e] *)
Definition roll_src (sh : list nat) (d k e : nat) : nat :=
  let n := nth d sh 0%nat in let ix := unravel sh e in
  ravel sh (set_nth d ((nth d ix 0 + (n - k mod n)) mod n)%nat ix).
Definition torch_roll (d k : nat) (t : tensor) : tensor :=
  mkT (tsh t) (map (fun e => nth (roll_src (tsh t) d k e) (tdat t) 0) (seq 0 (numel (tsh t)))).

(** static.py:196 and 307: row_length *)
Definition row_length (sh : list nat) (d : nat) : result nat :=
  match nth_error sh d with None => Err IndexError | Some n => Ok (if Nat.ltb 1 n then n else 2%nat) end.

(** static.py:289-319 (helper_argmax_pairwise) on one party's share: the share minus its
    rotations by 1, 2, ... along the dimension *)
Definition argmax_pairwise (d : nat) (t : tensor) : result tensor :=
  do l <- row_length (tsh t) d;
  let a := mkT ((l - 1)%nat :: tsh t) (concat (repeat (tdat t) (l - 1))) in
  do b <- torch_stack (map (fun i => torch_roll d (S i) t) (seq 0 (l - 1)));
  sh_lin LSub a b.

(** torch.Tensor([i for i in range(n)]), floats *)
Definition float_range (n : nat) : list num := map (fun i => NFloat (inject_Z (Z.of_nat i))) (seq 0 n).

(** last dimension, python index -1 *)
Definition last_dim (sh : list nat) : result nat :=
  match sh with [] => Err IndexError | _ => Ok (length sh - 1)%nat end.

Section Argmax.
  Context {K : Type} (alpha : K -> Z) (ev : fop -> Z -> Z -> K -> Z)
          (gen : fop -> nat -> nat -> result (list (list K))) (s : sess) (su : tri_supply).
  Let E := mpc_engine alpha ev gen s su.

  (** sum(dim=d, keepdim=...) *)
  Definition sum_along (d : nat) (keepdim : bool) : viewop := if keepdim then VSumKeep d else VSumDim d.

  (** the index vector shaped for dimension [d] (lines 206-210, 276-280) *)
  Definition index_vector (sh : list nat) (d : nat) : pub :=
    PTensor (set_nth d (nth d sh 0%nat) (repeat 1%nat (length sh))) (float_range (nth d sh 0%nat)).

  (** static.py:183-200: the one-hot result.  For dim=None the tensor is flattened but the row
      length of the second comparison is the last dimension of the tensor before. *)
  Definition argmax_one_hot (x : mpc) (dim : option nat) : comp (mpcw (K:=K)) mpc :=
    let! prep := lift match dim with None => mpc_view (VReshape [numel (m_shape x)]) x | Some _ => Ok x end in
    let! d := lift match dim with None => last_dim (m_shape prep) | Some d => Ok d end in
    let! shs := lift (rmap (argmax_pairwise d) (m_shares prep)) in
    let! sh0 := lift (do t <- get_nth shs 0; Ok (tsh t)) in
    let! c := e_relp E RGe (mkM (s_id s) sh0 shs) (NInt 0) in
    let! d' := lift match dim with None => last_dim (m_shape x) | Some d => Ok d end in
    let! l := lift (row_length (m_shape x) d') in
    let! r := lift (mpc_view (VSumDim 0) c) in
    e_relp E RGe r (NInt (Z.of_nat l - 1)).

  (** static.py:155-250 (helper_argmax with one_hot=False; argmax).  [if (...).reconstruct()]:
      the tensor of one element is true if it is not zero (decoding keeps that). *)
  Definition argmax (x : mpc) (dim : option nat) (keepdim : bool) : comp (mpcw (K:=K)) mpc :=
    let! r := argmax_one_hot x dim in
    match dim with
    | None =>
        let! check := lift (mpc_bil_public s BMul r (PTensor [numel (m_shape r)] (float_range (numel (m_shape r)))) ([], [])) in
        let! am := lift (mpc_view VSum check) in
        let! d' := lift (last_dim (m_shape x)) in
        let! l := lift (row_length (m_shape x) d') in
        let! c := e_relp E RGe am (NInt (Z.of_nat l)) in
        let! t := lift (reconstruct c) in
        if nth 0 (tdat t) 0 =? 0 then cret am else cerr ValueError
    | Some d =>
        let! check := lift (mpc_bil_public s BMul r (index_vector (m_shape r) d) ([], [])) in
        lift (mpc_view (sum_along d keepdim) check)
    end.

  (** static.py:252-286 (max_mpc): the maximum and, with a dimension, the position too *)
  Definition max_mpc (x : mpc) (dim : option nat) (keepdim one_hot : bool) : comp (mpcw (K:=K)) (mpc * option mpc) :=
    let! am := argmax_one_hot x dim in
    let! m := e_mul E am x in
    match dim with
    | None => let! r := lift (mpc_view VSum m) in cret (r, None)
    | Some d =>
        let! am := (if one_hot then cret am
                    else let! p := lift (mpc_bil_public s BMul am (index_vector (m_shape am) d) ([], [])) in
                         lift (mpc_view (sum_along d keepdim) p)) in
        let! m := lift (mpc_view (sum_along d keepdim) m) in
        cret (m, Some am)
    end.
End Argmax.
