(** Specification: what a single party of three sees of a replicated sharing and of a
    multiplication of replicated secrets. *)
From Verif Require Import Util S_Ring S_Tensor S_Rep S_Priv M_Encoder M_Tensor M_Share M_Spdz M_Rep.
Local Open Scope Z_scope.

(** the zero shares of three parties: party i draws from its own generator and from the one it
    has in common with the next party, and takes the difference *)
Definition zero_masks (so : list nat) (cs : list (list Z)) : list tensor :=
  map (fun i => mkT so (s_sub (2^64) (nth i cs []) (nth ((i + 1) mod 3) cs []))) (seq 0 3).

(** everything drawn at random: the splittings of x and y, and the numbers of the three
    generators of the zero shares (party k has the generators k and k+1) *)
Record rmulrand := mkRMR { rm_x : list (list Z); rm_y : list (list Z); rm_c : list (list Z) }.
Definition rmulrand_ok (sx sy so : list nat) (r : rmulrand) : Prop :=
  draws (2^64) 3 sx (rm_x r) /\ draws (2^64) 3 sy (rm_y r) /\
  length (rm_c r) = 3%nat /\ Forall (fun c => tensor_in (2^64) so (mkT so c)) (rm_c r).

(** x and y are split and distributed, the parties multiply and the masked local products are
    distributed again.  Party [k] sees: its shares of x and y, the numbers of its two
    generators, and its shares of the product. *)
Definition rmul_view (s : rsess) (c : config) (op : bop) (k : nat) (sx sy so : list nat) (vx vy : list Z) (r : rmulrand)
  : result (list tensor * list tensor * list (list Z) * list tensor) :=
  do xs <- generate_shares 3 (mkT sx vx) (rm_x r);
  do ys <- generate_shares 3 (mkT sy vy) (rm_y r);
  do dx <- rst_distribute s xs (Some (2^64)) (Some c);
  do px <- received dx;
  do dy <- rst_distribute s ys (Some (2^64)) (Some c);
  do py <- received dy;
  do zs <- falcon_z op (mkRM (rs_id s) sx px) (mkRM (rs_id s) sy py) (zero_masks so (rm_c r));
  do z <- falcon_reshare s zs (2^64) c so;
  do a <- get_nth px k;
  do b <- get_nth py k;
  do d <- get_nth (rm_ps z) k;
  Ok (r_shares a, r_shares b, others ((k + 2) mod 3) (rm_c r), r_shares d).

(** party [k] of [n] of a replicated session: what it receives of a secret *)
Definition rep_share_view (s : rsess) (c : config) (k : nat) (sh : list nat) (v : list Z) (rnd : list (list Z)) : result (list tensor) :=
  do ss <- generate_shares (rs_n s) (mkT sh v) rnd;
  do d <- rst_distribute s ss (Some (2^64)) (Some c);
  do ps <- received d;
  do p <- get_nth ps k;
  Ok (r_shares p).

(** what the orchestrator fetches of the multiplication (falcon.py:172-173) *)
Definition rmul_fetched (s : rsess) (c : config) (op : bop) (sx sy so : list nat) (vx vy : list Z) (r : rmulrand)
  : result (list tensor) :=
  do xs <- generate_shares 3 (mkT sx vx) (rm_x r);
  do ys <- generate_shares 3 (mkT sy vy) (rm_y r);
  do dx <- rst_distribute s xs (Some (2^64)) (Some c);
  do px <- received dx;
  do dy <- rst_distribute s ys (Some (2^64)) (Some c);
  do py <- received dy;
  falcon_z op (mkRM (rs_id s) sx px) (mkRM (rs_id s) sy py) (zero_masks so (rm_c r)).
