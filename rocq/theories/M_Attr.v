(** Model of how attributes of tensors are found: the metaclass of the tensor classes
    (/repo/src/sympc/tensor/tensor.py:16-50), MPCTensor.__getattribute__ and the operators
    (/repo/src/sympc/tensor/mpc_tensor.py:46-71, 897-926, 1168-1186). *)
From Coq Require Import String.
From Verif Require Import Util.
Local Open Scope string_scope.
Local Open Scope list_scope.

(** the attributes of a class (its __dict__): what the class statement defines, and the hooks
    added by the metaclass *)
Inductive member := Own (name : string) | HookM (name : string) | HookP (name : string).
Definition attrs : Type := list (string * member).
Definition find_attr (d : attrs) (n : string) : option member :=
  option_map snd (find (fun e => String.eqb (fst e) n) d).

(** tensor.py:34-47, the loops: the names of a set in some order; the error leaves the function *)
Fixpoint add_hooks (mk : string -> member) (d : attrs) (names : list string) : result attrs :=
  match names with
  | [] => Ok d
  | n :: r => match find_attr d n with
              | Some _ => Err ValueError
              | None => add_hooks mk (d ++ [(n, mk n)]) r
              end
  end.
(** tensor.py:16-50 (SyMPCTensor.__new__) *)
Definition sympc_new (d : attrs) (methods properties : list string) : result attrs :=
  do d <- add_hooks HookM d methods; add_hooks HookP d properties.

(** mpc_tensor.py:74-1186: what the class statement of MPCTensor defines, slots included; the
    private functions (names with two leading underscores) and the operators are left out *)
Definition mpc_own : list string :=
  ["share_ptrs"; "session"; "shape"; "grad"; "requires_grad"; "grad_fn"; "ctx"; "parents"; "nr_out_edges";
   "METHODS_FORWARD"; "PROPERTIES_FORWARD"; "__slots__"; "__init__"; "sanity_checks"; "generate_przs"; "generate_shares";
   "reconstruct"; "get"; "get_shares"; "add"; "isub"; "sub"; "rsub"; "mul"; "matmul"; "conv2d"; "conv_transpose2d";
   "rmatmul"; "rtruediv"; "truediv"; "pow"; "_get_shape"; "truncate"; "__len__"; "__str__"; "__repr__";
   "__getattribute__"; "backward"; "hook_property"; "hook_method"; "le"; "ge"; "lt"; "gt"; "eq"; "ne"; "xor"].
(** mpc_tensor.py:113-129 *)
Definition mpc_methods : list string :=
  ["numel"; "t"; "squeeze"; "unsqueeze"; "view"; "sum"; "clone"; "flatten"; "reshape"; "repeat"; "narrow"; "dim"; "transpose"].
Definition mpc_properties : list string := ["T"].
Definition mpc_class : result attrs := sympc_new (map (fun n => (n, Own n)) mpc_own) mpc_methods mpc_properties.

(** grads/grad_functions.py:798-813 (GRAD_FUNCS), tensor/static.py:322-327 (STATIC_FUNCS),
    approximations/__init__.py:8-14 (APPROXIMATIONS): the keys *)
Definition grad_names : list string :=
  ["t"; "mul"; "pow"; "matmul"; "sub"; "add"; "sum"; "truediv"; "sigmoid"; "flatten"; "conv2d"; "reshape"; "relu"; "max_pool2d"].
Definition static_names : list string := ["argmax"; "max"; "stack"; "cat"].
Definition approx_names : list string := ["sigmoid"; "log"; "exp"; "reciprocal"; "sign"].
Definition has (l : list string) (n : string) : bool := existsb (String.eqb n) l.

(** what is found: a recorded call (functools.partial(forward, self, grad_fn)), a function of
    static.py, an approximation, or an attribute of the object *)
Inductive found := Recorded (name : string) | Static (name : string) | Approx (name : string) | Attribute (m : member).
(** mpc_tensor.py:897-926 (__getattribute__); [active] is session.autograd_active.  All slots are
    taken to be set; attributes inherited from object are left out. *)
Definition getattribute (active : bool) (d : attrs) (n : string) : result found :=
  if (has grad_names n && active)%bool then Ok (Recorded n)
  else if has static_names n then Ok (Static n)
  else if has approx_names n then Ok (Approx n)
  else match find_attr d n with Some m => Ok (Attribute m) | None => Err AttributeError end.

(** mpc_tensor.py:1168-1186: the operators and the functions they wrap *)
Definition operators : list (string * string) :=
  [("__add__", "add"); ("__radd__", "add"); ("__sub__", "sub"); ("__isub__", "isub"); ("__rsub__", "rsub");
   ("__mul__", "mul"); ("__rmul__", "mul"); ("__matmul__", "matmul"); ("__rmatmul__", "rmatmul");
   ("__truediv__", "truediv"); ("__rtruediv__", "rtruediv"); ("__pow__", "pow"); ("__le__", "le"); ("__ge__", "ge");
   ("__lt__", "lt"); ("__gt__", "gt"); ("__eq__", "eq"); ("__ne__", "ne"); ("__xor__", "xor")].
(** mpc_tensor.py:46-71 (wrapper_getattribute): the operator looks its function up by name *)
Definition operator_target (active : bool) (d : attrs) (o : string) : result found :=
  match find (fun e => String.eqb (fst e) o) operators with
  | Some e => getattribute active d (snd e)
  | None => Err TypeError
  end.

(** torch.empty(shape).name() for some methods without arguments: the shape of the tensor returned,
    or the number returned *)
Definition torch_method (n : string) (sh : list nat) : result (list nat + nat) :=
  if n =? "clone" then Ok (inl sh)
  else if n =? "flatten" then Ok (inl [fold_right Nat.mul 1%nat sh])
  else if n =? "sum" then Ok (inl [])
  else if n =? "squeeze" then Ok (inl (filter (fun d => negb (Nat.eqb d 1)) sh))
  else if n =? "dim" then Ok (inr (List.length sh))
  else if n =? "numel" then Ok (inr (fold_right Nat.mul 1%nat sh))
  else Err AttributeError.
(** mpc_tensor.py:28-43 (METHODS_FORWARD_ALL_SHARES) *)
Definition all_shares : list string :=
  ["t"; "squeeze"; "unsqueeze"; "view"; "sum"; "clone"; "flatten"; "reshape"; "repeat"; "narrow"; "dim"; "transpose"].
(** mpc_tensor.py:1021-1067 (hook_method), called without arguments on a tensor of [k] shares and
    the given shape: the shape of the new tensor, or the number returned by the first share.  The
    shares themselves are left out (M_Share.v, [mpc_view]).  A number has no shape
    (AttributeError); without shares new_shape is not bound (UnboundLocalError, a NameError;
    RuntimeError here), share_ptrs[0] is an IndexError. *)
Definition hook_call (k : nat) (sh : list nat) (n : string) : result (list nat + nat) :=
  if has all_shares n then
    match k with
    | O => Err RuntimeError
    | S _ => do r <- torch_method n sh; match r with inl so => Ok (inl so) | inr _ => Err AttributeError end
    end
  else match k with O => Err IndexError | S _ => torch_method n sh end.
