(** Specification: fixed-point results.  Every rescaling and every division of a session of two
    parties divides the two shares separately; this is right up to two units exactly if the two
    shares, read as integers, add up to the shared value, i.e. if their sum is an int64.
    [noted_engine] is the engine of the session ([mpc_engine]) which in addition notes whether
    some rescaled or divided tensor had shares that do not (nothing of this file is code of the
    repository; L_Fixed.v proves that noting changes no result). *)
From Coq Require Import QArith Reals String.
From Verif Require Import Util S_Ring S_Tensor S_Wraps S_Fss S_Sort M_Torch M_Encoder M_Tensor M_Share M_Spdz M_Store M_Fss M_Engine.
Local Open Scope Z_scope.
Local Open Scope list_scope.

(** at some position the sum of the shares is not an int64 *)
Definition carries (ts : list tensor) : bool :=
  existsb (fun e => negb ((- 2^63 <=? zsum (col e ts)) && (zsum (col e ts) <? 2^63)))
          (seq 0 (length (tdat (hd (mkT [] []) ts)))).

Section Noted.
  Context {K : Type} (alpha : K -> Z) (ev : fop -> Z -> Z -> K -> Z)
          (gen : fop -> nat -> nat -> result (list (list K))) (s : sess) (su : tri_supply).
  Definition notedw : Type := mpcw (K:=K) * bool.

  (** the computation [m]; [ts] are the shares it divides *)
  Definition noting {A} (ts : result (list tensor)) (m : comp (mpcw (K:=K)) A) : comp notedw A :=
    fun w => let (r, w') := m (fst w) in (r, (w', snd w || match ts with Ok ts => carries ts | Err _ => false end)).
  Definition quiet {A} (m : comp (mpcw (K:=K)) A) : comp notedw A := noting (Ok []) m.

  (** the shares multiplied with a public number, before the division *)
  Definition times_public (x : mpc) (c : num) : result (list tensor) :=
    rmap (fun t => sh_bil BMul t (share_init (s_cfg s) (PNum c))) (m_shares x).

  Definition n_mul (x y : mpc) : comp notedw mpc := fun w =>
    noting (run_mul (mul_parties_raw BMul) x y (su_tri su (snd (fst w)) (m_shape x) (m_shape y))) (m_mul s su x y) w.
  Definition n_mulp (x : mpc) (c : num) : comp notedw mpc :=
    noting (times_public x c) (lift (mpc_bil_public s BMul x (PNum c) ([], []))).

  (** the last square of a power is computed but not used: nothing noted *)
  Fixpoint n_pow (p : positive) (base : mpc) (acc : option mpc) : comp notedw mpc :=
    let step := match acc with None => n_mulp base (NInt 1) | Some r => n_mul r base end in
    match p with
    | xH => let! r := step in let! _ := quiet (m_mul s su base base) in cret r
    | xO p => let! b := n_mul base base in n_pow p b acc
    | xI p => let! r := step in let! b := n_mul base base in n_pow p b (Some r)
    end.

  Definition noted_engine : engine notedw mpc :=
    let E := mpc_engine alpha ev gen s su in
    mkE notedw mpc
    (fun o x y => quiet (e_lin E o x y))
    n_mul
    (fun o x c => quiet (e_linp E o x c))
    (fun c x => noting (do d <- mpc_lin_public s LSub x (PNum c); times_public d (NInt (-1))) (e_rsub E c x))
    n_mulp
    (fun x k => noting (Ok (m_shares x)) (e_div E x k))
    (fun x p => n_pow p x None)
    (fun r x y => quiet (e_rel E r x y))
    (fun r x c => quiet (e_relp E r x c)).
End Noted.

(** the real number that an element stands for *)
Definition fixed (c : config) (v : Z) : R := (IZR v / IZR (scale c))%R.
(** one unit in the last place *)
Definition ulp (c : config) : R := (/ IZR (scale c))%R.

(** two parties, positive base *)
Definition fixed_pair (s : sess) : Prop := s_n s = 2%nat /\ 1 <= c_base (s_cfg s).
(** the default encoder *)
Definition default_pair (s : sess) : Prop := s_n s = 2%nat /\ s_cfg s = mkConfig 2 16.

(** the algorithm [F], run on a sharing [x] of the values [v], ends without an exception in a
    sharing of int64 values [vz]; the noting engine gives the same result; if it noted nothing
    on the way then every element of [vz] is within [err] of [f] of the corresponding element of
    [v], both read as real numbers *)
Definition computes {K} alpha ev (gen : fop -> nat -> nat -> result (list (list K))) s su sh
  (F : forall W T, engine W T -> T -> comp W T) (f err : R -> R) (x : mpc) (v : list Z) (w : mpcw (K:=K)) : Prop :=
  exists z w' noted vz, F _ _ (mpc_engine alpha ev gen s su) x w = (Ok z, w') /\
    F _ _ (noted_engine alpha ev gen s su) x (w, false) = (Ok z, (w', noted)) /\ none_waiting (fst w') /\
    shares_of s sh vz z /\ Forall (fun a => - 2^63 <= a < 2^63) vz /\
    (noted = false ->
     forall e, (e < numel sh)%nat ->
       (Rabs (fixed (s_cfg s) (nth e vz 0%Z) - f (fixed (s_cfg s) (nth e v 0%Z))) <= err (fixed (s_cfg s) (nth e v 0%Z)))%R).

(** the same for two operands *)
Definition computes2 {K} alpha ev (gen : fop -> nat -> nat -> result (list (list K))) s su sh
  (F : forall W T, engine W T -> T -> T -> comp W T) (f err : R -> R -> R) (x y : mpc) (v u : list Z) (w : mpcw (K:=K)) : Prop :=
  exists z w' noted vz, F _ _ (mpc_engine alpha ev gen s su) x y w = (Ok z, w') /\
    F _ _ (noted_engine alpha ev gen s su) x y (w, false) = (Ok z, (w', noted)) /\ none_waiting (fst w') /\
    shares_of s sh vz z /\ Forall (fun a => - 2^63 <= a < 2^63) vz /\
    (noted = false ->
     forall e, (e < numel sh)%nat ->
       (Rabs (fixed (s_cfg s) (nth e vz 0%Z) - f (fixed (s_cfg s) (nth e v 0%Z)) (fixed (s_cfg s) (nth e u 0%Z)))
        <= err (fixed (s_cfg s) (nth e v 0%Z)) (fixed (s_cfg s) (nth e u 0%Z)))%R).
