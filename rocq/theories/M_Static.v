(** Model of the static functions stack and cat, /repo/src/sympc/tensor/static.py:26-152. *)
From Verif Require Import Util S_Ring S_Tensor M_Encoder M_Torch M_Tensor M_Share M_Rep.
Local Open Scope Z_scope.

(** torch: a dimension argument in [-r, r), negative ones counted from the end *)
Definition norm_dim (r : nat) (d : Z) : result nat :=
  if (- Z.of_nat r <=? d) && (d <? Z.of_nat r) then Ok (Z.to_nat (if d <? 0 then d + Z.of_nat r else d))
  else Err IndexError.
Definition shape_eqb (a b : list nat) : bool := if list_eq_dec Nat.eq_dec a b then true else false.
Definition insert_nth (k x : nat) (l : list nat) : list nat := firstn k l ++ x :: skipn k l.

(** torch.stack(..., dim=d).shape *)
Definition stack_shape (d : Z) (shapes : list (list nat)) : result (list nat) :=
  match shapes with
  | [] => Err RuntimeError
  | s :: r =>
      if forallb (shape_eqb s) r then do k <- norm_dim (S (length s)) d; Ok (insert_nth k (length shapes) s)
      else Err RuntimeError
  end.
(** torch.stack(...), dimension 0 *)
Definition torch_stack (ts : list tensor) : result tensor :=
  do sh <- stack_shape 0 (map tsh ts); Ok (mkT sh (concat (map tdat ts))).

(** torch.cat(..., dim=d).shape; tensors of shape (0,) are skipped by torch *)
Definition cat_agree (k : nat) (s t : list nat) : bool :=
  Nat.eqb (length s) (length t) && shape_eqb (set_nth k 0%nat s) (set_nth k 0%nat t).
Definition cat_shape (d : Z) (shapes : list (list nat)) : result (list nat) :=
  match filter (fun s => negb (shape_eqb s [0%nat])) shapes with
  | [] => match shapes with [] => Err RuntimeError | _ => do _k <- norm_dim 1 d; Ok [0%nat] end
  | s :: r =>
      match s with
      | [] => Err RuntimeError (* zero-dimensional tensors cannot be concatenated *)
      | _ => do k <- norm_dim (length s) d;
             if forallb (cat_agree k s) r
             then Ok (set_nth k (list_sum (map (fun t => nth k t 0%nat) (s :: r))) s)
             else Err RuntimeError
      end
  end.
(** torch.cat(...), dimension 0 *)
Definition torch_cat (ts : list tensor) : result tensor :=
  do sh <- cat_shape 0 (map tsh ts); Ok (mkT sh (concat (map tdat ts))).

(** lines 39-44, 88-93: zip of the parties' session uuids with the tensors' share pointers;
    the arguments of party k are the k-th shares (zip stops at the shortest list) *)
Definition columns (n : nat) (ls : list (list tensor)) : list (list tensor) :=
  map (fun k => map (fun l => nth k l (mkT [] [])) ls) (seq 0 (fold_right Nat.min n (map (@length tensor) ls))).

(** lines 26-73 (stack, stack_share_tensor): the shares are stacked along dimension 0 whatever
    [dim]; [dim] is used for the shape attribute only.  Simplification: the session is that
    of every tensor (the code takes the one of the first). *)
Definition mpc_stack (s : sess) (dim : Z) (xs : list mpc) : result mpc :=
  match xs with
  | [] => Err IndexError
  | _ => do shs <- rmap torch_stack (columns (s_n s) (map m_shares xs));
         do so <- stack_shape dim (map m_shape xs);
         Ok (mkM (s_id s) so shs)
  end.

(** lines 76-124 (cat, cat_share_tensor), protocol FSS *)
Definition mpc_cat (s : sess) (dim : Z) (xs : list mpc) : result mpc :=
  match xs with
  | [] => Err IndexError
  | _ => do shs <- rmap torch_cat (columns (s_n s) (map m_shares xs));
         do so <- cat_shape dim (map m_shape xs);
         Ok (mkM (s_id s) so shs)
  end.

(** lines 57-73 on replicated shares: they have no attribute "tensor" *)
Definition rm_stack (s : rsess) (dim : Z) (xs : list rmpc) : result rmpc :=
  match xs with [] => Err IndexError | _ => Err AttributeError end.

(** line 148: the i-th shares are appended one by one to an empty tensor *)
Fixpoint cat_onto (acc : tensor) (ts : list tensor) : result tensor :=
  match ts with [] => Ok acc | t :: r => do a <- torch_cat [acc; t]; cat_onto a r end.
(** lines 127-152 (cat_replicatedShare_tensor) at the party of rank [k]; the new object has the
    default ring 2^64 *)
Definition cat_replicated (s : rsess) (k : nat) (xs : list rst) : result rst :=
  do x <- get_nth xs 0;
  do shs <- rmap (fun i => do ts <- rmap (fun y => get_nth (r_shares y) i) xs; cat_onto (mkT [0%nat] []) ts)
                 (seq 0 (length (r_shares x)));
  Ok (rst_make (2^64) (rs_cfg s) (Some (rs_uuid s k)) shs).

(** lines 76-107 (cat), protocol Falcon *)
Definition rm_cat (s : rsess) (dim : Z) (xs : list rmpc) : result rmpc :=
  match xs with
  | [] => Err IndexError
  | _ =>
    let n := fold_right Nat.min (rs_n s) (map (fun x => length (rm_ps x)) xs) in
    do ps <- rmap (fun k => do l <- rmap (fun x => get_nth (rm_ps x) k) xs; cat_replicated s k l) (seq 0 n);
    do so <- cat_shape dim (map rm_shape xs);
    Ok (mkRM (rs_id s) so ps)
  end.
