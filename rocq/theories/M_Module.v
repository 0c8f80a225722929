(** Model of the neural network layers: /repo/src/sympc/module/__init__.py,
    /repo/src/sympc/module/nn/linear.py, conv.py and smpc_module.py, for sessions with additive
    shares.  The class sy.Module of PySyft (outside the repository) only supplies the ordered
    dictionary of the layers. *)
From Coq Require Import QArith String.
From Verif Require Import Util S_Ring S_Tensor M_Torch M_Encoder M_Tensor M_Share M_Spdz M_Conv.
Local Open Scope Z_scope.

(** the attributes of a torch.nn.Conv2d (module/__init__.py:29-31, conv.py:24-33).  Simplification:
    stride, padding and dilation are the same in both directions. *)
Record cattrs := mkCA { ca_in : nat; ca_out : nat; ca_kh : nat; ca_kw : nat;
                        ca_stride : nat; ca_pad : nat; ca_dil : nat; ca_groups : nat }.

(** layers of a torch module: Linear, Conv2d, Flatten, or of any other class; the parameters as in
    their state_dict, the bias may be missing *)
Inductive tlayer :=
| TLinear (fout fin : nat) (w : list num) (b : option (list num))
| TConv (a : cattrs) (w : list num) (b : option (list num))
| TFlatten
| TOther.

(** the shape of a torch Conv2d's weight *)
Definition conv_wshape (a : cattrs) : list nat := [ca_out a; ca_in a / ca_groups a; ca_kh a; ca_kw a]%nat.

(** linear.py:20-45: a shared Linear layer *)
Record mlinear := mkML { ml_out : nat; ml_in : nat; ml_w : mpc; ml_b : option mpc }.
(** conv.py:24-62: a shared Conv2d layer; [mc_b = None]: the attribute bias was never assigned (the
    constructor does not, unlike the one of Linear) *)
Record mconv := mkMC { mc_a : cattrs; mc_w : mpc; mc_b : option mpc }.
(** what the dictionary of a shared module holds *)
Inductive mlayer := MLinear (l : mlinear) | MConv (l : mconv) | MTorch (l : tlayer).

(** where the parameters live: at the orchestrator, or at a party *)
Inductive place := Local | At (owner : nat).
(** the random draws (local secret) or the zero shares (remote secret) for one parameter *)
Record psup := mkPS { ps_draws : list (list Z); ps_przs : list tensor }.

(** linear.py:95-111, conv.py:139-150: MPCTensor(secret=..., shape=...), mpc_tensor.py:131-253; the
    parameter [shape] replaces the shape attribute *)
Definition share_param (s : sess) (parties : list nat) (pl : place) (sh : list nat) (v : list num) (u : psup) : result mpc :=
  match pl with
  | Local => do x <- mpc_secret s (PTensor sh v) (ps_draws u); Ok (mkM (m_sid x) sh (m_shares x))
  | At owner => mpc_remote s parties owner (Some sh) (PTensor sh v) (ps_przs u)
  end.

(** linear.py:77-113 (share_state_dict) on a new layer (37-45) *)
Definition share_linear (s : sess) (parties : list nat) (pl : place) (fout fin : nat) (w : list num)
  (b : option (list num)) (u : psup * psup) : result mlinear :=
  do mw <- share_param s parties pl [fout; fin] w (fst u);
  do mb <- match b with
           | None => Ok None
           | Some v => do x <- share_param s parties pl [fout] v (snd u); Ok (Some x)
           end;
  Ok (mkML fout fin mw mb).

(** conv.py:47-62: the attributes of a new layer *)
Definition conv_fresh : cattrs := mkCA 0 0 0 0 1 0 1 1.
(** module/__init__.py:36-55 (copy_additional_attributes) and conv.py:86-99: the class of a layer at
    another party is called Conv2dPointer, for which there are no attributes to copy *)
Definition copy_attrs (pl : place) (a : cattrs) : cattrs :=
  match pl with
  | Local => mkCA (ca_in a) (ca_out a) 0 0 (ca_stride a) (ca_pad a) (ca_dil a) (ca_groups a)
  | At _ => conv_fresh
  end.
(** conv.py:101-152 (share_state_dict): the channels and the kernel size are those of the weight *)
Definition share_conv (s : sess) (parties : list nat) (pl : place) (a : cattrs) (w : list num)
  (b : option (list num)) (u : psup * psup) : result mconv :=
  let c := copy_attrs pl a in
  let c := mkCA (ca_in a / ca_groups a) (ca_out a) (ca_kh a) (ca_kw a) (ca_stride c) (ca_pad c) (ca_dil c) (ca_groups c) in
  do mw <- share_param s parties pl (conv_wshape a) w (fst u);
  do mb <- match b with
           | None => Ok None
           | Some v => do x <- share_param s parties pl [ca_out a] v (snd u); Ok (Some x)
           end;
  Ok (mkMC c mw mb).

(** module/__init__.py:22-33 and 69-81: the layer replacing one of the module *)
Definition share_layer (s : sess) (parties : list nat) (pl : place) (l : tlayer) (u : psup * psup) : result mlayer :=
  match l with
  | TFlatten => Ok (MTorch TFlatten)
  | TLinear fout fin w b => do m <- share_linear s parties pl fout fin w b u; Ok (MLinear m)
  | TConv a w b => do m <- share_conv s parties pl a w b u; Ok (MConv m)
  | TOther => Err KeyError
  end.

(** module/__init__.py:58-83 (share); the layers with their names, in order; the supply of layer
    number k is [u k] *)
Fixpoint share_from (k : nat) (s : sess) (parties : list nat) (pl : place) (ls : list (string * tlayer))
  (u : nat -> psup * psup) : result (list (string * mlayer)) :=
  match ls with
  | [] => Ok []
  | (nm, l) :: r =>
      do m <- share_layer s parties pl l (u k);
      do rest <- share_from (S k) s parties pl r u;
      Ok ((nm, m) :: rest)
  end.
Definition module_share := share_from 0.

(** the numbers of a decoded tensor, as load_state_dict copies them into float parameters *)
Definition tt_nums (t : ttensor) : list num :=
  match t with TLong l => map (fun z => NFloat (inject_Z z)) l | TFloat l => map NFloat l end.
(** mpc_tensor.py:359-393 (reconstruct) of a parameter: shape and numbers *)
Definition recon_param (s : sess) (x : mpc) : result (list nat * list num) :=
  do t <- reconstruct x;
  do d <- decode (s_cfg s) (TLong (tdat t));
  Ok (tsh t, tt_nums d).

(** linear.py:115-127 and conv.py:166-178 (reconstruct_state_dict) *)
Definition recon_linear (s : sess) (l : mlinear) : result ((list nat * list num) * option (list nat * list num)) :=
  do w <- recon_param s (ml_w l);
  match ml_b l with
  | None => Ok (w, None)
  | Some b => do v <- recon_param s b; Ok (w, Some v)
  end.
Definition recon_conv (s : sess) (l : mconv) : result ((list nat * list num) * option (list nat * list num)) :=
  do w <- recon_param s (mc_w l);
  match mc_b l with
  | None => Err AttributeError
  | Some b => do v <- recon_param s b; Ok (w, Some v)
  end.

(** torch: load_state_dict refuses parameters of another shape and missing or additional ones *)
Definition shape_eqb (a b : list nat) : bool := if list_eq_dec Nat.eq_dec a b then true else false.
Definition load_bias (fout : nat) (b : option (list nat * list num)) : result (option (list num)) :=
  match b with
  | None => Ok None
  | Some (sh, v) => if shape_eqb sh [fout] then Ok (Some v) else Err RuntimeError
  end.
(** linear.py:130-147 (get_torch_module): the new layer has a bias if the shared one has; then
    module/__init__.py:102 *)
Definition back_linear (s : sess) (l : mlinear) : result tlayer :=
  do sd <- recon_linear s l;
  if shape_eqb (fst (fst sd)) [ml_out l; ml_in l] then
    do b <- load_bias (ml_out l) (snd sd);
    Ok (TLinear (ml_out l) (ml_in l) (snd (fst sd)) b)
  else Err RuntimeError.
(** conv.py:181-203 (get_torch_module); torch.nn.Conv2d checks the channels against the groups *)
Definition back_conv (s : sess) (l : mconv) : result tlayer :=
  do sd <- recon_conv s l;
  let a := mc_a l in
  if negb (Nat.eqb (ca_in a mod ca_groups a) 0) then Err ValueError
  else if negb (Nat.eqb (ca_out a mod ca_groups a) 0) then Err ValueError
  else if shape_eqb (fst (fst sd)) (conv_wshape a) then
    do b <- load_bias (ca_out a) (snd sd);
    Ok (TConv a (snd (fst sd)) b)
  else Err RuntimeError.

(** module/__init__.py:86-105 (reconstruct); a torch layer has no reconstruct_state_dict *)
Definition back_layer (s : sess) (l : mlayer) : result tlayer :=
  match l with
  | MLinear m => back_linear s m
  | MConv m => back_conv s m
  | MTorch _ => Err AttributeError
  end.
Definition module_back (s : sess) (ms : list (string * mlayer)) : result (list (string * tlayer)) :=
  rmap (fun p => do l <- back_layer s (snd p); Ok (fst p, l)) ms.

(** linear.py:65-75, conv.py:154-164 (parameters) *)
Definition layer_params (l : mlayer) : list mpc :=
  match l with
  | MLinear m => ml_w m :: match ml_b m with Some b => [b] | None => [] end
  | MConv m => mc_w m :: match mc_b m with Some b => [b] | None => [] end
  | MTorch _ => []
  end.

(** linear.py:47-61 (forward) *)
Definition linear_forward (s : sess) (l : mlinear) (x : mpc) (ts : list triple) (prim : list tensor * list tensor) : result mpc :=
  do wt <- mpc_view VT (ml_w l);
  do r <- mpc_bil s BMatmul x wt ts prim;
  match ml_b l with
  | None => Ok r
  | Some b => mpc_lin LAdd r b
  end.

(** conv.py:64-82 (forward) *)
Definition conv_forward (s : sess) (l : mconv) (x : mpc) (ts : list triple) (prim : list tensor * list tensor) : result mpc :=
  let a := mc_a l in
  match mc_b l with
  | None => Err AttributeError
  | Some b => mpc_conv s (BConv2d (mkConv (ca_stride a) (ca_pad a) (ca_dil a) (ca_groups a))) x (mc_w l) ts prim (ShBias b)
  end.

(** smpc_module.py:9-35 (eq_close); [close] is torch.allclose, which raises TypeError for None *)
Definition eq_close {A B} (closew : A -> A -> bool) (closeb : B -> B -> bool) (w1 w2 : A) (b1 b2 : option B) : result bool :=
  match b1, b2 with
  | None, Some _ | Some _, None => Ok false
  | _, _ =>
      if negb (closew w1 w2) then Ok false
      else match b1, b2 with
           | Some x, Some y => Ok (closeb x y)
           | _, _ => Err TypeError
           end
  end.
