(** C56, continued: the parameters of a shared layer. *)
From Coq Require Import QArith Qabs String.
From Verif Require Import Util Modular S_Ring S_Tensor S_Module
  M_Torch M_Encoder M_Float M_Tensor M_Share M_Conv M_Module
  L_Torch L_Tensor L_Encoder L_Share L_Module L_Rep6 P_Module.
Local Open Scope Z_scope.

(** the parameters of a layer, with their shapes: the weight, then the bias if there is one *)
Definition parameters (l : tlayer) : list (list nat * list num) :=
  match l with
  | TLinear o i w b => ([o; i], w) :: match b with Some v => [([o], v)] | None => [] end
  | TConv a w b => ([ca_out a; ca_in a / ca_groups a; ca_kh a; ca_kw a]%nat, w) :: match b with Some v => [([ca_out a], v)] | None => [] end
  | _ => []
  end.

(** C56: the parameters a shared layer yields are, in this order, sharings of the encoded parameters
    of the original, in its session and with the same shapes.  (Holds also for the layers that do not
    come back.) *)
Theorem C56_parameters : forall s parties pl l u m, 1 <= c_base (s_cfg s) -> (2 <= s_n s)%nat ->
  layer_ok (s_cfg s) l -> lsup_ok s parties pl l u -> share_layer s parties pl l u = Ok m ->
  Forall2 (fun x p => m_sid x = s_id s /\ m_shape x = fst p /\ shared (2^64) (fst p) (encode (s_cfg s) (snd p)) (m_shares x))
          (layer_params m) (parameters l).
Proof.
  intros s parties pl l u m Hb Hn HL HU E. destruct l as [o i w b|a w b| |]; cbn [layer_ok lsup_ok share_layer parameters] in *.
  - destruct HL as (HW & HB), HU as (UW & UB). unfold share_linear in E.
    destruct (param_round_trip s parties pl [o; i] w (fst u) Hb Hn HW UW) as (x & v' & X & X1 & X2 & X3 & _). rewrite X in E. cbn [rbind] in E.
    destruct b as [b|].
    + destruct (param_round_trip s parties pl [o] b (snd u) Hb Hn HB UB) as (y & b' & Y & Y1 & Y2 & Y3 & _). rewrite Y in E. cbn [rbind] in E.
      injection E as <-. cbn [layer_params ml_w ml_b]. constructor; [auto|]. constructor; [auto|]. constructor.
    + cbn [rbind] in E. injection E as <-. cbn [layer_params ml_w ml_b]. constructor; [auto|]. constructor.
  - destruct HL as (G1 & G2 & G3 & G4 & HW & HB), HU as (UW & UB). unfold share_conv, conv_wshape in E.
    destruct (param_round_trip s parties pl _ w (fst u) Hb Hn HW UW) as (x & v' & X & X1 & X2 & X3 & _). rewrite X in E. cbn [rbind] in E.
    destruct b as [b|].
    + destruct (param_round_trip s parties pl [ca_out a] b (snd u) Hb Hn HB UB) as (y & b' & Y & Y1 & Y2 & Y3 & _). rewrite Y in E. cbn [rbind] in E.
      injection E as <-. cbn [layer_params mc_w mc_b]. constructor; [auto|]. constructor; [auto|]. constructor.
    + cbn [rbind] in E. injection E as <-. cbn [layer_params mc_w mc_b]. constructor; [auto|]. constructor.
  - injection E as <-. constructor.
  - try discriminate E; injection E as <-; constructor.
Qed.
Print Assumptions C56_parameters.
(* the 2x2 linear layer with a bias of C56_witness *)
Definition C56_l : tlayer := TLinear 2 2 [NFloat (3#2); NFloat (-1#3); NInt 2; NFloat (1#16)] (Some [NFloat (1#3); NInt (-1)]).
Example C56_parameters_witness : layer_ok (s_cfg C56_s) C56_l /\ lsup_ok C56_s [] Local C56_l (C56_u 0) /\
  (do m <- share_layer C56_s [] Local C56_l (C56_u 0); rmap reconstruct (layer_params m)) = Ok [mkT [2; 2]%nat [24; -5; 32; 1]; mkT [2%nat] [5; -16]].
Proof.
  split; [split; (split; [reflexivity|]); repeat (constructor; [apply C56_fits; reflexivity|]); constructor|].
  split; [split; (split; [reflexivity|]); repeat constructor|]. vm_compute. reflexivity.
Qed.
