(** What the orchestrator opens while two secrets are compared and while a secret is divided
    by a public number: the reconstructions inside fss_op (/repo/src/sympc/protocol/fss/fss.py)
    and public_divide (/repo/src/sympc/protocol/spdz/spdz.py).  M_Fss.v and M_Spdz.v model these
    functions as a whole; here the opened values are results of their own, and L_Opened.v proves
    that the whole functions go through them. *)
From Coq Require Import QArith.
From Verif Require Import Util S_Ring S_Tensor M_Torch M_Encoder M_Tensor M_Share M_Spdz M_Store M_Fss.
Local Open Scope Z_scope.

(** fss.py:158-165: the masked difference the orchestrator reconstructs, a 64-bit tensor
    (line 163: TODO, "don't do .reconstruct(), this should be done remotely") *)
Definition fss_masked {K} (alpha : K -> Z) (x1 x2 : list tensor) (masks : list (list K)) : result tensor :=
  do ms <- rmap (fun p => mask_builder alpha (fst (fst p)) (snd (fst p)) (snd p)) (combine (combine x1 x2) masks);
  tsum R64 ms.

(** fss.py:165-172: what is sent to both evaluating parties, the masked difference modulo 2^32
    (python %: never negative) *)
Definition fss_sent (m : tensor) : list Z := map (fun v => v mod W32) (tdat m).

(** spdz.py:208-224: the shares of z = r + x (sent to the parties), the reconstructed theta_x
    and the divided shares of x, for other than two parties *)
Definition divide_opened (s : sess) (x : mpc) (y : Z) (prim : list tensor * list tensor)
  : result (list tensor * tensor * list tensor) :=
  do z <- mpc_lin LAdd (mkM (s_id s) (m_shape x) (fst prim)) x;
  do rs <- rmap (fun p => div_wraps (fst p) (fst (fst (snd p))) (snd (fst (snd p)))
                                    (snd (snd p)) (m_shares z) y)
                (combine (seq 0 (length (m_shares x)))
                         (combine (combine (fst prim) (snd prim)) (m_shares x)));
  do theta <- tsum R64 (map fst rs);
  Ok (m_shares z, theta, map snd rs).
