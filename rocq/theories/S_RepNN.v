(** Specification: a parameter of a model before and after an optimiser step, replicated shares. *)
From Coq Require Import QArith.
From Verif Require Import Util S_Ring S_Tensor S_Rep M_Encoder M_Torch M_Share M_Rep S_RepT M_RepNN.
Local Open Scope Z_scope.

(** the bias of a layer with [o] outputs, which may be missing *)
Definition rbias (s : rsess) (ring : Z) (o : nat) (vb : option (list Z)) (b : option rmpc) : Prop :=
  match b, vb with None, None => True | Some y, Some v => exists d, holds s ring d [o] v y | _, _ => False end.

(** the first share plus the wrapped sum of the two others does not leave the ring *)
Definition no_carry3 (ring : Z) (e : nat) (zs : list tensor) : Prop :=
  match zs with
  | [z1; z2; z3] => in_ring ring (nth e (tdat z1) 0 + to_ring ring (nth e (tdat z2) 0 + nth e (tdat z3) 0))
  | _ => False
  end.

(** [q] is [v] divided by 2^p, rounded down, or one less *)
Definition shifted (p : nat) (v q : Z) : Prop := q = v / 2 ^ Z.of_nat p \/ q = v / 2 ^ Z.of_nat p - 1.

(** the object [o] is a parameter of the session with value [v] and gradient [g] of shape [sh] *)
Definition rtrainable (s : rsess) (ring : Z) (c : config) (sh : list nat) (o : option robj) (v g : list Z) : Prop :=
  exists p gr, o = Some p /\ ro_grad p = Some gr /\ sh <> [] /\
    holds s ring c sh v (ro_val p) /\ holds s ring c sh g gr.

(** [p'] is [p] with its value moved from [v] to [v - q]; [q] is [g] times the encoded learning rate
    [l], divided by the scale where the parties' shares [zs] of the product do not carry *)
Definition rmoved (s : rsess) (ring : Z) (c : config) (l : Z) (sh : list nat) (v g : list Z) (p p' : robj) : Prop :=
  ro_grad p' = ro_grad p /\
  exists zs q, shared ring sh (map (fun a => to_ring ring (a * l)) g) zs /\
    holds s ring c sh (s_sub ring v q) (ro_val p') /\ length q = numel sh /\
    forall e, (e < numel sh)%nat ->
      (c_prec c = 0%nat -> nth e q 0 = to_ring ring (nth e g 0 * l)) /\
      (c_base c = 2 -> no_carry3 ring e zs -> shifted (c_prec c) (to_ring ring (nth e g 0 * l)) (nth e q 0)).
