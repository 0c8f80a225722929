(** Model of the stores of precomputed primitives and of the provider that fills them:
    /repo/src/sympc/store/__init__.py, crypto_store.py, crypto_primitive_provider.py, the
    store functions of /repo/src/sympc/protocol/beaver/beaver.py and of
    /repo/src/sympc/protocol/fss/fss.py, and the use spdz.py makes of them.
    Python lists and dictionaries are values here: the aliasing of a list handed to
    [mul_store_add] with the list kept in the store (beaver.py:207) is not modelled. *)
From Coq Require Import String Decimal DecimalString.
From Verif Require Import Util S_Ring S_Tensor M_Torch M_Tensor M_Share M_Spdz.
Local Open Scope string_scope.
Local Open Scope list_scope.

(* ---------------------------------------------------------------- dictionaries *)
(** python dict with string keys, in insertion order: d.get(k) *)
Fixpoint dget {V} (d : list (string * V)) (k : string) : option V :=
  match d with [] => None | (k', v) :: r => if string_dec k k' then Some v else dget r k end.
(** d[k] = v: replaces the value in place or appends the pair *)
Fixpoint dset {V} (d : list (string * V)) (k : string) (v : V) : list (string * V) :=
  match d with
  | [] => [(k, v)]
  | (k', v') :: r => if string_dec k k' then (k', v) :: r else (k', v') :: dset r k v
  end.

(* ---------------------------------------------------------------- store keys *)
(** str(n) *)
Definition dec (n : nat) : string := NilEmpty.string_of_uint (Nat.to_uint n).
(** ", ".join of the entries *)
Fixpoint commas (l : list nat) : string :=
  match l with
  | [] => "" | [n] => dec n
  | n :: r => (dec n ++ ", " ++ commas r)%string
  end.

(** the objects used as shapes: a tuple, a torch.Size (x.shape), a list *)
Inductive pyshape := PTuple (l : list nat) | PSize (l : list nat) | PList (l : list nat).
Definition dims (s : pyshape) : list nat := match s with PTuple l | PSize l | PList l => l end.

(** what formatting such an object with f"{...}" gives: "(2, 3)", "(2,)", "torch.Size([2, 3])",
    "[2, 3]" *)
Definition pystr (s : pyshape) : string :=
  match s with
  | PTuple [n] => "(" ++ dec n ++ ",)"
  | PTuple l => "(" ++ commas l ++ ")"
  | PSize l => "torch.Size([" ++ commas l ++ "])"
  | PList l => "[" ++ commas l ++ "]"
  end%string.

(** the four operations with triples (spdz.py:31 EXPECTED_OPS) and their names *)
Inductive kind := KMul | KMatmul | KConv2d | KConvT.
Definition kname (k : kind) : string :=
  match k with KMul => "mul" | KMatmul => "matmul" | KConv2d => "conv2d" | KConvT => "conv_transpose2d" end.
Definition kind_of (op : bop) : kind :=
  match op with BMul => KMul | BMatmul => KMatmul | BConv2d _ => KConv2d | BConvT _ => KConvT end.
(** f"beaver_{op_str}" (spdz.py:61, 115, 147) *)
Definition op_key (k : kind) : string := ("beaver_" ++ kname k)%string.
(** config_key: beaver.py:203, 233, 287, 317, 370, 400, 453, 483 *)
Definition config_key (k : kind) (a b : pyshape) : string :=
  (op_key k ++ "_" ++ pystr a ++ "_" ++ pystr b)%string.

(* ---------------------------------------------------------------- triple stores *)
(** the part of CryptoStore.store (crypto_store.py:28) holding queues of triples *)
Definition store (P : Type) : Type := list (string * list P).

(** beaver.py:189-207 (mul_store_add), 272-291 (matmul), 356-374 (conv2d), 439-457
    (conv_transpose2d): the key is made from the shape objects as given *)
Definition store_add {P} (k : kind) (st : store P) (ps : list P) (ab : pyshape * pyshape) : store P :=
  let key := config_key k (fst ab) (snd ab) in
  match dget st key with
  | Some q => dset st key (q ++ ps)
  | None => dset st key ps
  end.

(** beaver.py:211-248 (mul_store_get), 295-332, 378-415, 461-498: the key is made from
    tuple(a_shape), tuple(b_shape); returns the primitive and the store afterwards *)
Definition store_get {P} (k : kind) (st : store P) (a b : pyshape) (remove : bool)
  : result P * store P :=
  let key := config_key k (PTuple (dims a)) (PTuple (dims b)) in
  match dget st key with
  | None => (Err EmptyPrimitiveStore, st)
  | Some [] => (Err EmptyPrimitiveStore, st)
  | Some (p :: q) => (Ok p, if remove then dset st key q else st)
  end.

(* ---------------------------------------------------------------- registries *)
(** store/__init__.py:7-22, 25-40, 43-58: the three decorators register a function under a name *)
Definition register {F} (reg : list (string * F)) (name : string) (f : F)
  : result unit * list (string * F) :=
  match dget reg name with
  | Some _ => (Err ValueError, reg)
  | None => (Ok tt, dset reg name f)
  end.

(* ---------------------------------------------------------------- the provider *)
(** State of a session's primitives: the store of every party in party order, the provider's
    _LOGGING flag and _ops_list (crypto_primitive_provider.py:17-20), and the number of
    generator calls so far (it stands for the state of the random generator).
    [S]: a store; [A]: populate arguments (p_kwargs); [G]: generator arguments (g_kwargs). *)
Record provider (S A G : Type) := mkW {
  w_stores : list S;
  w_logging : bool;
  w_log : list (string * list (option A * G));
  w_calls : nat }.
Arguments mkW {S A G}. Arguments w_stores {S A G}. Arguments w_logging {S A G}.
Arguments w_log {S A G}. Arguments w_calls {S A G}.

(** _ops_list[op_str].append((p_kwargs, g_kwargs)): lines 63-64; _ops_list is a defaultdict *)
Definition log_add {A G} (log : list (string * list (option A * G))) (op : string) (e : option A * G)
  : list (string * list (option A * G)) :=
  dset log op ((match dget log op with Some l => l | None => [] end) ++ [e]).

(** crypto_primitive_provider.py:78-95 (_transfer_primitives_to_parties); [adders] is
    CryptoStore._func_add_store, an operation missing there is a KeyError raised by the first
    party (crypto_store.py:44).  All generators return lists, so the type check of line 84 is
    left out. *)
Definition transfer {S A X} (adders : list (string * (S -> X -> A -> S)))
  (op : string) (prims : list X) (stores : list S) (a : A) : result (list S) :=
  if negb (Nat.eqb (List.length prims) (List.length stores)) then Err ValueError
  else match stores with
       | [] => Ok []
       | _ => match dget adders op with
              | None => Err KeyError
              | Some add => Ok (map2 (fun st x => add st x a) stores prims)
              end
       end.

(** crypto_primitive_provider.py:27-75 (generate_primitives); [gens] is _func_providers, a
    generator receives the number of the call (its randomness) and g_kwargs and returns the
    primitives of every party.  Setting share.session_uuid (lines 53-61) is not modelled. *)
Definition generate_primitives {S A G X}
  (gens : list (string * (nat -> G -> result (list X))))
  (adders : list (string * (S -> X -> A -> S)))
  (op : string) (g : G) (a : option A) (w : provider S A G)
  : result (list X) * provider S A G :=
  match dget gens op with
  | None => (Err ValueError, w)
  | Some gen =>
      let calls := Datatypes.S (w_calls w) in
      match gen (w_calls w) g with
      | Err e => (Err e, mkW (w_stores w) (w_logging w) (w_log w) calls)
      | Ok prims =>
          let log := if w_logging w then log_add (w_log w) op (a, g) else w_log w in
          match a with
          | None => (Ok prims, mkW (w_stores w) (w_logging w) log calls)
          | Some pa =>
              match transfer adders op prims (w_stores w) pa with
              | Err e => (Err e, mkW (w_stores w) (w_logging w) log calls)
              | Ok sts => (Ok prims, mkW sts (w_logging w) log calls)
              end
          end
      end
  end.

(** crypto_primitive_provider.py:108-111 *)
Definition start_logging {S A G} (w : provider S A G) : provider S A G :=
  mkW (w_stores w) true (w_log w) (w_calls w).

(** crypto_primitive_provider.py:113-129; [serial] says whether json.dumps accepts the
    arguments of an entry: it raises TypeError otherwise, after the log has been cleared *)
Definition stop_logging {S A G} (serial : G -> bool) (generate_file : bool) (w : provider S A G)
  : result (list (string * list (option A * G))) * provider S A G :=
  let w' := mkW (w_stores w) false [] (w_calls w) in
  if generate_file && negb (forallb (fun oe => forallb (fun e => serial (snd e)) (snd oe)) (w_log w))
  then (Err TypeError, w')
  else (Ok (w_log w), w').

(** crypto_primitive_provider.py:132-154 (generate_primitive_from_dict), inner and outer loop;
    stops at the first exception *)
Fixpoint replay_op {S A G X} (gens : list (string * (nat -> G -> result (list X))))
  (adders : list (string * (S -> X -> A -> S))) (op : string) (l : list (option A * G))
  (w : provider S A G) : result unit * provider S A G :=
  match l with
  | [] => (Ok tt, w)
  | (a, g) :: r => match generate_primitives gens adders op g a w with
                   | (Err e, w') => (Err e, w')
                   | (Ok _, w') => replay_op gens adders op r w'
                   end
  end.
Fixpoint replay {S A G X} (gens : list (string * (nat -> G -> result (list X))))
  (adders : list (string * (S -> X -> A -> S))) (log : list (string * list (option A * G)))
  (w : provider S A G) : result unit * provider S A G :=
  match log with
  | [] => (Ok tt, w)
  | (op, l) :: r => match replay_op gens adders op l w with
                    | (Err e, w') => (Err e, w')
                    | (Ok _, w') => replay gens adders r w'
                    end
  end.

(* ---------------------------------------------------------------- triples of a session *)
(** g_kwargs of a triple: operation with its keyword arguments, and the two shapes
    (spdz.py:63-69; the session and the number of parties do not change) *)
Definition treq : Type := bop * (list nat * list nat).
Definition tworld (P : Type) : Type := provider (store P) (pyshape * pyshape) treq.

(** CryptoStore._func_add_store for the triples (beaver.py:188, 271, 355, 438) *)
Definition beaver_adders {P} : list (string * (store P -> list P -> pyshape * pyshape -> store P)) :=
  [(op_key KMul, store_add KMul); (op_key KMatmul, store_add KMatmul);
   (op_key KConv2d, store_add KConv2d); (op_key KConvT, store_add KConvT)].
(** CryptoPrimitiveProvider._func_providers for the triples (beaver.py:171, 254, 338, 421):
    all four call _get_triples *)
Definition beaver_gens {P} (gen : nat -> treq -> result (list (list P)))
  : list (string * (nat -> treq -> result (list (list P)))) :=
  [(op_key KMul, gen); (op_key KMatmul, gen); (op_key KConv2d, gen); (op_key KConvT, gen)].

(** get_primitives_from_store of every party (crypto_store.py:47-62); parallel_execution runs
    all of them and then raises the first exception *)
Definition get_all {P} (k : kind) (a b : pyshape) (remove : bool) (sts : list (store P))
  : result (list P) * list (store P) :=
  let rs := map (fun st => store_get k st a b remove) sts in
  (rseq (map fst rs), map snd rs).

(** The store accesses of one product, spdz.py:57-75 and 146-148: the triples read by
    spdz_mask, generated first if a party has none, and the triples then removed by
    mul_parties.  Simplification: the shares of the operands and the opened values have the
    shapes [a], [b] of the tensors. *)
Definition take {P} (gen : nat -> treq -> result (list (list P))) (op : bop) (a b : list nat)
  (w : tworld P) : result (list P * list P) * tworld P :=
  let k := kind_of op in
  let peek w := fst (get_all k (PSize a) (PSize b) false (w_stores w)) in
  let finish masks (w : tworld P) :=
    let (r, sts) := get_all k (PTuple a) (PTuple b) true (w_stores w) in
    (do ts <- r; Ok (masks, ts), mkW sts (w_logging w) (w_log w) (w_calls w)) in
  match peek w with
  | Ok masks => finish masks w
  | Err EmptyPrimitiveStore =>
      match generate_primitives (beaver_gens gen) beaver_adders (op_key k) (op, (a, b))
              (Some (PTuple a, PTuple b)) w with
      | (Err e, w') => (Err e, w')
      | (Ok _, w') => match peek w' with
                      | Ok masks => finish masks w'
                      | Err e => (Err e, w')
                      end
      end
  | Err e => (Err e, w)
  end.

(** beaver.py:163: the primitives of the parties are lists of one triple each *)
Definition triple_rows (ts : list triple) : list (list triple) := map (fun t => [t]) ts.

(** spdz.py:36-96 (mul_master) with the stores: masks from the triples read, result from the
    triples removed *)
Definition mul_master_store (s : sess) (gen : nat -> treq -> result (list (list triple))) (op : bop)
  (x y : mpc) (w : tworld triple) : result (list tensor) * tworld triple :=
  match take gen op (m_shape x) (m_shape y) w with
  | (Err e, w') => (Err e, w')
  | (Ok (masks, ts), w') =>
      (do ed <- open_masks x y masks;
       rmap (fun p => mul_parties s op (fst p) (fst ed) (snd ed) (snd p))
            (combine (seq 0 (List.length ts)) ts), w')
  end.

(* ---------------------------------------------------------------- comparison keys *)
(** the part of CryptoStore.store holding stacks of arrays of comparison keys *)
Definition fstore (K : Type) : Type := list (string * list (list K)).

Inductive fop := FEq | FComp.
Definition fkey (o : fop) : string := match o with FEq => "fss_eq" | FComp => "fss_comp" end.

(** fss.py:264-272 (_ensure_fss_store) *)
Definition fss_ensure {K} (st : fstore K) : fstore K :=
  fold_left (fun st k => match dget st k with None => dset st k [[]] | Some _ => st end)
            ["fss_eq"; "fss_comp"] st.

(** fss.py:298-319 (_add_primitive) *)
Definition fss_add {K} (o : fop) (st : fstore K) (keys : list K) (_ : unit) : fstore K :=
  let st := fss_ensure st in
  match dget st (fkey o) with
  | Some (((_ :: _) :: _) as cur) => dset st (fkey o) (cur ++ [keys])
  | _ => dset st (fkey o) [keys]
  end.

(** fss.py:322-344 (_get_primitive); slicing takes the first [nr] keys of the first array *)
Definition fss_get {K} (o : fop) (st : fstore K) (nr : nat) (remove : bool)
  : result (list K) * fstore K :=
  let st := fss_ensure st in
  match dget st (fkey o) with
  | Some (ks :: rest) =>
      if Nat.leb nr (List.length ks)
      then (Ok (firstn nr ks), if remove then dset st (fkey o) rest else st)
      else (Err ValueError, st)
  | _ => (Err ValueError, st)
  end.

Definition fworld (K : Type) : Type := provider (fstore K) unit nat.

(** fss.py:345-362: generators and adders of the comparison keys; [gen] stands for
    sycret's keygen of dpf and dif (fss.py:275-295), an external library *)
Definition fss_gens {K} (gen : fop -> nat -> nat -> result (list (list K)))
  : list (string * (nat -> nat -> result (list (list K)))) :=
  [(fkey FEq, gen FEq); (fkey FComp, gen FComp)].
Definition fss_adders {K} : list (string * (fstore K -> list K -> unit -> fstore K)) :=
  [(fkey FEq, fss_add FEq); (fkey FComp, fss_add FComp)].

(** get_primitives_from_store of the parties *)
Definition fss_get_all {K} (o : fop) (nr : nat) (remove : bool) (sts : list (fstore K))
  : result (list (list K)) * list (fstore K) :=
  let rs := map (fun st => fss_get o st nr remove) sts in
  (rseq (map fst rs), map snd rs).

(** The store accesses of one comparison of [nr] elements, fss.py:145-170: keys are generated,
    read by every party's mask_builder (line 66-68), then read and removed by evaluate at the
    parties 0 and 1 (lines 96-98, 168).  Simplification: the shares have the shape of the
    tensors, and the mask and the evaluation do not fail otherwise. *)
Definition fss_take {K} (gen : fop -> nat -> nat -> result (list (list K))) (o : fop) (nr : nat)
  (w : fworld K) : result (list (list K) * list (list K)) * fworld K :=
  match generate_primitives (fss_gens gen) fss_adders (fkey o) nr (Some tt) w with
  | (Err e, w') => (Err e, w')
  | (Ok _, w') =>
      let (m, sts1) := fss_get_all o nr false (w_stores w') in
      let w1 := mkW sts1 (w_logging w') (w_log w') (w_calls w') in
      match m with
      | Err e => (Err e, w1)
      | Ok masks =>
          let (r, sts2) := fss_get_all o nr true (firstn 2 sts1) in
          (do ks <- r; Ok (masks, ks),
           mkW (sts2 ++ skipn 2 sts1) (w_logging w1) (w_log w1) (w_calls w1))
      end
  end.
