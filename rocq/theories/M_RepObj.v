(** Model of what a replicated share object offers to its holder:
    /repo/src/sympc/tensor/replicatedshare_tensor.py:69-165. *)
From Coq Require Import QArith String DecimalString Decimal.
From Verif Require Import Util S_Ring S_Tensor M_Torch M_Tensor M_Encoder M_Share M_Spdz M_Rep.
Local Open Scope Z_scope.

(** replicatedshare_tensor.py:69-107 (__init__) with a list of shares: the type of the ring is
    looked up first (line 100), also when there are no shares; then every share is encoded and
    converted *)
Definition rst_new (ring : Z) (c : config) (u : option nat) (shares : option (list pub)) :
  result rst :=
  do _ <- get_type_from_ring ring;
  match shares with
  | None => Ok (mkR ring (rst_cfg ring c) u [])
  | Some ps =>
      do ts <- rmap (rst_encode ring c) ps;
      Ok (mkR ring (rst_cfg ring c) u ts)
  end.

(** replicatedshare_tensor.py:119-139 (decode, _decode): [share.type(torch.LongTensor)] leaves
    the integers as they are (a bool becomes 0 or 1); a decoded tensor is given by its shape and
    its elements *)
Definition rst_decode (x : rst) : result (list (list nat * ttensor)) :=
  rmap (fun t => do v <- decode (r_cfg x) (TLong (map (cast TI64) (tdat t))); Ok (tsh t, v))
       (r_shares x).

(** replicatedshare_tensor.py:141-147 (get_shares) *)
Definition rst_get_shares (x : rst) : list tensor := r_shares x.

(** replicatedshare_tensor.py:149-157 (get_ring_size): str(ring_size) *)
Definition rst_get_ring_size (x : rst) : string := NilZero.string_of_int (Z.to_int (r_ring x)).

(** "int(x.share_ptrs[0].get_ring_size().get_copy())": mpc_tensor.py:702 and 816,
    falcon.py:114 and 424, aby3.py:288.  Simplification: only plain digits with an optional minus
    sign are read, which is what str() of an integer writes (python would also take blanks,
    underscores and a plus sign) *)
Definition int_of_text (s : string) : result Z :=
  match NilZero.int_of_string s with
  | Some i => Ok (Z.of_int i)
  | None => Err ValueError
  end.

(** replicatedshare_tensor.py:159-165 (get_config): dataclasses.asdict, as the list of the
    field names of config.py:17-18, in their order, with their values *)
Definition rst_get_config (x : rst) : list (string * Z) :=
  [("encoder_precision"%string, Z.of_nat (c_prec (r_cfg x)));
   ("encoder_base"%string, c_base (r_cfg x))].

(** the value of a key of a dictionary *)
Fixpoint dict_get (k : string) (d : list (string * Z)) : option Z :=
  match d with
  | [] => None
  | (k', v) :: r => if String.eqb k k' then Some v else dict_get k r
  end.

(** "Config( ** conf_dict)": mpc_tensor.py:817-818, falcon.py:115-116; a key left out takes its
    default (config.py:20), another key raises TypeError.  Simplification: a negative precision,
    which [rst_get_config] never writes, becomes 0 *)
Definition config_of_dict (d : list (string * Z)) : result config :=
  if forallb (fun kv => String.eqb (fst kv) "encoder_base" || String.eqb (fst kv) "encoder_precision") d
  then Ok (mkConfig (match dict_get "encoder_base" d with Some b => b | None => c_base default_config end)
                    (match dict_get "encoder_precision" d with
                     | Some p => Z.to_nat p | None => c_prec default_config end))
  else Err TypeError.
