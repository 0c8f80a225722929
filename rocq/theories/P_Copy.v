(** C73: copies of sessions and equality of protocol objects. *)
From Coq Require Import String.
From Verif Require Import Util S_Ring S_Tensor M_Torch M_Encoder M_Session L_Session L_Calls M_Copy.
Local Open Scope Z_scope.

(** the three attributes that belong to the ring size: the integers of the ring and a tensor type
    that holds exactly them *)
Definition consistent (s : sesscmp) : Prop :=
  get_type_from_ring (sc_ring s) = Ok (sc_type s) /\
  sc_min s = - (sc_ring s / 2) /\ sc_max s = sc_ring s / 2 - 1 /\ 2 * (sc_ring s / 2) = sc_ring s.

Lemma copy_value s : session_copy s = Ok (mkSC None [] (sc_nr s) None (sc_proto s) (sc_cfg s) (-1) (sc_ring s) (- 2^63) (2^63 - 1) TI64 false).
Proof. reflexivity. Qed.

(** C73: a copy keeps the number of parties, the configuration, the protocol and the ring size;
    copying again changes nothing; it never fails; it equals the original exactly if that was never
    set up, has no third party, does not record gradients and has the type and bounds of 2^64. *)
Theorem C73_copy : forall s, exists c, session_copy s = Ok c /\
  sc_nr c = sc_nr s /\ sc_cfg c = sc_cfg s /\ get_protocol c = get_protocol s /\ sc_ring c = sc_ring s /\
  session_copy c = Ok c /\
  (session_eq c s = true <-> sc_uuid s = None /\ sc_r2u s = [] /\ sc_ttp s = None /\ sc_rank s = -1 /\ sc_autograd s = false /\
     sc_type s = TI64 /\ sc_min s = - 2^63 /\ sc_max s = 2^63 - 1).
Proof.
  intros s. exists (mkSC None [] (sc_nr s) None (sc_proto s) (sc_cfg s) (-1) (sc_ring s) (- 2^63) (2^63 - 1) TI64 false).
  split; [apply copy_value|]. do 5 (split; [reflexivity|]).
  rewrite session_eq_eq. destruct s as [u r n t p c k g mi ma d a]; cbn [sc_uuid sc_r2u sc_nr sc_ttp sc_proto sc_cfg sc_rank sc_ring sc_min sc_max sc_type sc_autograd].
  split.
  - intros H. injection H as <- <- <- <- <- <- <- <-. repeat split.
  - intros (-> & -> & -> & -> & -> & -> & -> & ->). reflexivity.
Qed.
Print Assumptions C73_copy.

(** C73: for a session just made, the copy is equal and consistent exactly if the ring is 2^64 and
    (for equality) there is no third party. *)
Theorem C73_fresh_partial : forall nr ring cfg proto ttp s, new_session nr ring cfg proto ttp = Ok s ->
  exists c, session_copy s = Ok c /\ (session_eq c s = true <-> ring = 2^64 /\ ttp = None) /\ (consistent c <-> ring = 2^64).
Proof.
  intros nr ring cfg proto ttp s H. unfold new_session in H. destruct (get_type_from_ring ring) as [d|] eqn:E; [|discriminate].
  cbn [rbind] in H. injection H as <-. eexists. split; [reflexivity|]. split.
  - rewrite session_eq_eq. split.
    + intros H. injection H as H1 H2 H3 H4.
      assert (F : ring = 2^64) by (revert E; rewrite <- H4; unfold get_type_from_ring;
        repeat (match goal with |- context[if ?b then _ else _] => destruct b eqn:? end; try (intros G; discriminate G)); intros _; apply Z.eqb_eq; assumption).
      auto.
    + intros (-> & ->). injection E as <-. reflexivity.
  - unfold consistent. cbn [sc_ring sc_type sc_min sc_max]. split.
    + intros (_ & A & _ & B). change ((- 2^64) / 2) with (- 2^63) in A. lia.
    + intros ->. repeat split.
Qed.
Print Assumptions C73_fresh_partial.
Example C73_fresh_witness : exists s, new_session 3 (2^64) (mkConfig 10 3) ("Falcon"%string, true) None = Ok s /\ consistent s /\ session_copy s = Ok s.
Proof. eexists. split; [reflexivity|]. split; [repeat split|reflexivity]. Qed.

(** C73: what a party receives works with 64-bit tensors whatever the ring of the session. *)
Theorem C73_party_type : forall s rank uuid, exists c, sent_to s rank uuid = Ok c /\ sc_type c = TI64 /\ sc_ring c = sc_ring s /\
  sc_rank c = Z.of_nat rank /\ sc_uuid c = Some uuid.
Proof. intros. eexists. split; [reflexivity|]. repeat split. Qed.
Print Assumptions C73_party_type.

(** C73 refuted: the session of the parties is not consistent when the ring is 2^32: the bounds and
    the tensor type are those of 2^64 (mul_parties, spdz.py:166, uses this tensor type). *)
Theorem C73_ring_refuted : exists s c, new_session 2 (2^32) default_config ("FSS"%string, false) None = Ok s /\ consistent s /\
  sent_to s 0 7 = Ok c /\ ~ consistent c /\ sc_type c <> sc_type s.
Proof.
  do 2 eexists. split; [reflexivity|]. split; [repeat split|]. split; [reflexivity|]. split; [|discriminate].
  intros (A & _). discriminate A.
Qed.
Print Assumptions C73_ring_refuted.

(** C73: two protocol objects are equal exactly if class and security type are the same: an
    equivalence. *)
Theorem C73_protocols : forall c1 s1 c2 s2, exists b, proto_eq (mkObj c1 (Some s1)) (mkObj c2 (Some s2)) = Ok b /\
  (b = true <-> c1 = c2 /\ s1 = s2).
Proof.
  intros. unfold proto_eq. cbn [ob_security ob_class]. destruct (String.eqb_spec s1 s2) as [<-|N]; cbn [negb].
  - eexists; split; [reflexivity|]. rewrite String.eqb_eq. split; intros H; [auto|apply H].
  - exists false. split; [reflexivity|]. split; [discriminate|]. intros (_ & H). contradiction.
Qed.
Print Assumptions C73_protocols.

(** C73 refuted: comparing a protocol with an object that has no security_type raises. *)
Theorem C73_other_refuted : exists p o, ob_security p <> None /\ proto_eq p o = Err AttributeError.
Proof. exists (mkObj "FSS" (Some "semi-honest"%string)), (mkObj "NoneType" None). split; [discriminate|reflexivity]. Qed.
Print Assumptions C73_other_refuted.
