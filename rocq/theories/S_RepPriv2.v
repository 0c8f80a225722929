(** Specification: what a single party of three, and the orchestrator, see of a whole
    multiplication of replicated secrets in fixed point: the product, its verification in a
    malicious session, and the truncation. *)
From Verif Require Import Util S_Ring S_Tensor S_Rep S_Priv S_RepPriv M_Encoder M_Tensor M_Share M_Spdz M_Rep.
Local Open Scope Z_scope.

(** everything drawn at random: what the product draws, the three shares of the tensors a and
    b of the triple, the numbers of the three generators of the zero shares of the triple, and
    the tensor drawn by the truncation *)
Record verand := mkVR { ve_m : rmulrand; ve_a : list (list Z); ve_b : list (list Z); ve_c : list (list Z); ve_r : list Z }.
Definition three_in (sh : list nat) (l : list (list Z)) : Prop :=
  length l = 3%nat /\ Forall (fun c => tensor_in (2^64) sh (mkT sh c)) l.
Definition verand_ok (sx sy so : list nat) (r : verand) : Prop :=
  rmulrand_ok sx sy so (ve_m r) /\ three_in sx (ve_a r) /\ three_in sy (ve_b r) /\ three_in so (ve_c r) /\
  tensor_in (2^64) so (mkT so (ve_r r)).

(** three shares given to the parties of a session: party k receives the shares k and k+1 *)
Definition dealt (s : rsess) (c : config) (sh : list nat) (ss : list tensor) : result rmpc :=
  do d <- rst_distribute s ss (Some (2^64)) (Some c);
  do ps <- received d;
  Ok (mkRM (rs_id s) sh ps).

(** one multiplication: the operands, the product before truncation, the triple, the opened
    differences, the truncated product *)
Record vrun := mkRun { v_x : rmpc; v_y : rmpc; v_z : rmpc; v_t : rtriple; v_e : tensor; v_d : tensor; v_w : rmpc }.
Definition mal_run (s : rsess) (c : config) (op : bop) (sx sy so : list nat) (vx vy : list Z) (r : verand) : result vrun :=
  do xs <- generate_shares 3 (mkT sx vx) (rm_x (ve_m r));
  do ys <- generate_shares 3 (mkT sy vy) (rm_y (ve_m r));
  do x <- dealt s c sx xs;
  do y <- dealt s c sy ys;
  do zs <- falcon_z op x y (zero_masks so (rm_c (ve_m r)));
  do z <- falcon_reshare s zs (2^64) c so;
  do a <- dealt s (mkConfig 2 0) sx (map (mkT sx) (ve_a r));
  do b <- dealt s (mkConfig 2 0) sy (map (mkT sy) (ve_b r));
  do t <- rep_triples s op a b (2^64) (zero_masks so (ve_c r));
  do xa <- rm_lin LSub x a;
  do e <- rst_reconstruct false (rm_ps xa);
  do yb <- rm_lin LSub y b;
  do d <- rst_reconstruct false (rm_ps yb);
  do z' <- falcon_verify s op x y z t;
  do w <- aby3_truncate s (PReplicated (rm_ps z')) so (2^64) c (mkT so (ve_r r));
  Ok (mkRun x y z t e d w).

(** party [k]: its shares of the operands, of the product, of the triple and of the truncated
    product, the numbers of its generators, and the opened differences *)
Record pview := mkPV { pv_x : list tensor; pv_y : list tensor; pv_z : list tensor;
                       pv_a : list tensor; pv_b : list tensor; pv_c : list tensor; pv_w : list tensor;
                       pv_g : list (list Z); pv_h : list (list Z); pv_e : tensor; pv_d : tensor }.
Definition mal_view (s : rsess) (c : config) (op : bop) (k : nat) (sx sy so : list nat) (vx vy : list Z) (r : verand)
  : result pview :=
  do v <- mal_run s c op sx sy so vx vy r;
  do x <- get_nth (rm_ps (v_x v)) k;
  do y <- get_nth (rm_ps (v_y v)) k;
  do z <- get_nth (rm_ps (v_z v)) k;
  do a <- get_nth (rt_a (v_t v)) k;
  do b <- get_nth (rt_b (v_t v)) k;
  do t <- get_nth (rt_c (v_t v)) k;
  do w <- get_nth (rm_ps (v_w v)) k;
  Ok (mkPV (r_shares x) (r_shares y) (r_shares z) (r_shares a) (r_shares b) (r_shares t) (r_shares w)
        (others ((k + 2) mod 3) (rm_c (ve_m r))) (others ((k + 2) mod 3) (ve_c r)) (v_e v) (v_d v)).

(** the same in a semi-honest session, where the masked local products go through the
    truncation without being distributed before, and nothing is verified *)
Definition semi_view (s : rsess) (c : config) (op : bop) (k : nat) (sx sy so : list nat) (vx vy : list Z) (r : rmulrand) (t : list Z)
  : result (list tensor * list tensor * list (list Z) * list tensor) :=
  do xs <- generate_shares 3 (mkT sx vx) (rm_x r);
  do ys <- generate_shares 3 (mkT sy vy) (rm_y r);
  do x <- dealt s c sx xs;
  do y <- dealt s c sy ys;
  do zs <- falcon_z op x y (zero_masks so (rm_c r));
  do w <- aby3_truncate s (PTensors zs) so (2^64) c (mkT so t);
  do p <- get_nth (rm_ps x) k;
  do q <- get_nth (rm_ps y) k;
  do u <- get_nth (rm_ps w) k;
  Ok (r_shares p, r_shares q, others ((k + 2) mod 3) (rm_c r), r_shares u).

(** the orchestrator of a malicious session: beaver.py:127-128 fetches every party's shares of
    a and b, falcon.py:325-329 the differences *)
Definition mal_fetched (s : rsess) (c : config) (op : bop) (sx sy so : list nat) (vx vy : list Z) (r : verand)
  : result (list rst * list rst * tensor * tensor) :=
  do v <- mal_run s c op sx sy so vx vy r;
  Ok (rt_a (v_t v), rt_b (v_t v), v_e v, v_d v).
