(** Specification: what one party sees of a comparison, and masks of a division. *)
From Verif Require Import Util S_Ring S_Tensor S_Wraps M_Encoder M_Tensor M_Share M_Spdz M_Opened S_Priv.
Local Open Scope Z_scope.

(** everything drawn at random when two secrets are shared between two parties and compared:
    the splittings of the secrets, and the share of the mask each party holds for each element *)
Record cmprand := mkCR { cr_1 : list (list Z); cr_2 : list (list Z); cr_m : list (list Z) }.
Definition mask_words (m : nat) (a : list Z) : Prop := length a = m /\ Forall (fun v => 0 <= v < 2^32) a.
Definition cmprand_ok (s1 s2 so : list nat) (r : cmprand) : Prop :=
  draws (2^64) 2 s1 (cr_1 r) /\ draws (2^64) 2 s2 (cr_2 r) /\
  length (cr_m r) = 2%nat /\ Forall (mask_words (numel so)) (cr_m r).

(** what the party other than [j] sees: its shares of both secrets and of the masks, and the
    masked difference the orchestrator sends to it *)
Definition cmp_view (j : nat) (s1 s2 : list nat) (v1 v2 : list Z) (r : cmprand)
  : result (list tensor * list tensor * list (list Z) * list Z) :=
  do x1 <- generate_shares 2 (mkT s1 v1) (cr_1 r);
  do x2 <- generate_shares 2 (mkT s2 v2) (cr_2 r);
  do m <- fss_masked (fun a => a) x1 x2 (cr_m r);
  Ok (others j x1, others j x2, others j (cr_m r), fss_sent m).

(** what the orchestrator opens *)
Definition cmp_opened (s1 s2 : list nat) (v1 v2 : list Z) (r : cmprand) : result tensor :=
  do x1 <- generate_shares 2 (mkT s1 v1) (cr_1 r);
  do x2 <- generate_shares 2 (mkT s2 v2) (cr_2 r);
  fss_masked (fun a => a) x1 x2 (cr_m r).

(** everything drawn at random when a secret is shared among [n] parties and divided: its
    splitting, the mask r, the splittings of r and of the number of wraps of r *)
Record divrand := mkDR { dr_x : list (list Z); dr_r : list Z; dr_rr : list (list Z); dr_rt : list (list Z) }.
Definition divrand_ok (n : nat) (sh : list nat) (r : divrand) : Prop :=
  draws (2^64) n sh (dr_x r) /\ tensor_in (2^64) sh (mkT sh (dr_r r)) /\
  draws (2^64) n sh (dr_rr r) /\ draws (2^64) n sh (dr_rt r).

(** what the parties other than [j] hold and all the shares of z, which every party receives *)
Definition div_view (s : sess) (n j : nat) (sh : list nat) (v : list Z) (y : Z) (r : divrand)
  : result (list tensor * list tensor * list tensor * list tensor) :=
  do xs <- generate_shares n (mkT sh v) (dr_x r);
  do prim <- count_wraps_rand n (mkT sh (dr_r r)) (dr_rr r) (dr_rt r);
  do o <- divide_opened s (mkM (s_id s) sh xs) y prim;
  Ok (others j xs, others j (fst prim), others j (snd prim), fst (fst o)).
