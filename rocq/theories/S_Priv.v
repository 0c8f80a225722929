(** Specification: what the parties other than party [j] see of one multiplication. *)
From Verif Require Import Util S_Ring S_Tensor S_Bil M_Encoder M_Tensor M_Share M_Spdz S_Spdz.
Local Open Scope Z_scope.

(** the list without position [j] *)
Definition others {A} (j : nat) (l : list A) : list A := firstn j l ++ skipn (S j) l.

(** everything drawn at random: the splittings of x and y, the two random tensors of the
    triple, and the splittings of the three tensors of the triple *)
Record mulrand := mkMR { mr_x : list (list Z); mr_y : list (list Z); mr_a : list Z; mr_b : list Z;
                         mr_ra : list (list Z); mr_rb : list (list Z); mr_rc : list (list Z) }.
Definition mulrand_ok (n : nat) (sx sy so : list nat) (r : mulrand) : Prop :=
  draws (2^64) n sx (mr_x r) /\ draws (2^64) n sy (mr_y r) /\
  tensor_in (2^64) sx (mkT sx (mr_a r)) /\ tensor_in (2^64) sy (mkT sy (mr_b r)) /\
  draws (2^64) n sx (mr_ra r) /\ draws (2^64) n sy (mr_rb r) /\ draws (2^64) n so (mr_rc r).

(** splitting x and y, generating the triple and opening the masked operands: the shares of
    all parties but [j] and the two opened tensors (every later message is computed from these) *)
Definition mul_view (op : bop) (n j : nat) (sx sy : list nat) (vx vy : list Z) (r : mulrand)
  : result (list tensor * list tensor * list triple * (tensor * tensor)) :=
  do xs <- generate_shares n (mkT sx vx) (mr_x r);
  do ys <- generate_shares n (mkT sy vy) (mr_y r);
  do ts <- get_triples op n (mkT sx (mr_a r)) (mkT sy (mr_b r)) (mr_ra r) (mr_rb r) (mr_rc r);
  do ed <- open_masks (mkM 0 sx xs) (mkM 0 sy ys) ts;
  Ok (others j xs, others j ys, others j ts, ed).
