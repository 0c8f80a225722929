(** Model of the comparisons of shared tensors by function secret sharing:
    /repo/src/sympc/protocol/fss/fss.py:45-258 and the relational operators of
    /repo/src/sympc/tensor/mpc_tensor.py:1069-1155.
    The library sycret is external: [ev o b x k] is the word that the evaluation of the party
    [b] returns for the masked value [x] and the key [k] ([o]: dpf or dif), and [alpha k] the
    share of the mask in the key (its first four bytes as an unsigned word, fss.py:70-71).
    Keys come from the stores of M_Store.v. *)
From Coq Require Import QArith String.
From Verif Require Import Util S_Ring S_Tensor M_Torch M_Encoder M_Tensor M_Share M_Spdz M_Store.
Local Open Scope Z_scope.
Local Open Scope list_scope.

(** fss.py:38: n = 32 bits *)
Definition W32 : Z := 2^32.

Section Backend.
  Context {K : Type} (alpha : K -> Z) (ev : fop -> Z -> Z -> K -> Z).

  (** fss.py:45-75 (mask_builder) at one party, [keys] being what its store returned: the
      difference of the shares plus the share of the mask (int64 addition) *)
  Definition mask_builder (x1 x2 : tensor) (keys : list K) : result tensor :=
    do x <- sh_lin LSub x1 x2;
    if Nat.eqb (List.length keys) (List.length (tdat x))
    then Ok (mkT (tsh x) (map2 (fun v k => cast TI64 (v + alpha k)) (tdat x) keys))
    else Err RuntimeError.

  (** fss.py:79-115 (evaluate) at the party [b]: the words are read as int32, widened to
      int64 and encoded as a fixed-point share *)
  Definition evaluate (c : config) (o : fop) (b : Z) (sh : list nat) (x_masked : list Z) (keys : list K) : tensor :=
    mkT sh (encode c (map2 (fun x k => NInt (cast TI32 (ev o b x k))) x_masked keys)).

  (** fss.py:147-172: masks at all parties, opening modulo 2^32 (python %: never negative),
      evaluation at the parties 0 and 1 *)
  Definition fss_core (s : sess) (o : fop) (so : list nat) (x1 x2 : mpc) (masks keys : list (list K)) : result mpc :=
    do ms <- rmap (fun p => mask_builder (fst (fst p)) (snd (fst p)) (snd p))
                  (combine (combine (m_shares x1) (m_shares x2)) masks);
    do m <- tsum R64 ms;
    let x_masked := map (fun v => v mod W32) (tdat m) in
    do k0 <- get_nth keys 0; do k1 <- get_nth keys 1;
    Ok (mkM (s_id s) so [evaluate (s_cfg s) o 0 (tsh m) x_masked k0; evaluate (s_cfg s) o 1 (tsh m) x_masked k1]).

  (** fss.py:118-180 (fss_op): the keys are generated and taken from the stores as in
      [fss_take]; the CUDA branches are left out *)
  Definition fss_op (gen : fop -> nat -> nat -> result (list (list K))) (s : sess) (o : fop)
    (x1 x2 : mpc) (w : fworld K) : result mpc * fworld K :=
    match shape_bin (m_shape x1) (m_shape x2) with
    | Err e => (Err e, w)
    | Ok so =>
        match fss_take gen o (numel so) w with
        | (Err e, w') => (Err e, w')
        | (Ok (masks, keys), w') => (fss_core s o so x1 x2 masks keys, w')
        end
    end.

  (** mpc_tensor.py:1107-1110, 1125-1128: fp_encoder.decode(1), a tensor of one element *)
  Definition one_ulp (c : config) : pub :=
    PTensor [1%nat] [if Nat.eqb (c_prec c) 0 then NInt 1 else NFloat (decode1 c 1)].

  (** mpc_tensor.py:1069-1155: the six relational operators; fss.py:201-226 (FSS.eq, FSS.le).
      [prim] are the masks of the rescaling in "1 - eq" *)
  Inductive relop := RLe | RLt | RGe | RGt | REq | RNe.
  Definition mpc_rel (gen : fop -> nat -> nat -> result (list (list K))) (s : sess) (r : relop)
    (x y : mpc) (prim : list tensor * list tensor) (w : fworld K) : result mpc * fworld K :=
    match r with
    | RLe => fss_op gen s FComp x y w
    | RGe => fss_op gen s FComp y x w
    | RLt => match mpc_lin_public s LAdd x (one_ulp (s_cfg s)) with
             | Ok x' => fss_op gen s FComp x' y w | Err e => (Err e, w) end
    | RGt => match mpc_lin_public s LAdd y (one_ulp (s_cfg s)) with
             | Ok y' => fss_op gen s FComp y' x w | Err e => (Err e, w) end
    | REq => fss_op gen s FEq x y w
    | RNe => let (e, w') := fss_op gen s FEq x y w in
             (do e <- e; mpc_rsub s e (PNum (NInt 1)) prim, w')
    end.

  (** mpc_tensor.py:975-980 (__check_or_convert): a public operand is shared first *)
  Definition check_or_convert (s : sess) (y : mpc + pub) (rnd : list (list Z)) : result mpc :=
    match y with inl y => Ok y | inr p => mpc_secret s p rnd end.
End Backend.
