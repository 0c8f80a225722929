(** Specification: windows of a tensor, the entries they select, the gradients they receive. *)
From Verif Require Import Util S_Ring S_Tensor S_Bil S_Spdz M_Pool M_Engine.
Local Open Scope Z_scope.
Local Open Scope list_scope.

(** sizes of the input (dimensions before the last two, height, width), of the kernel, the
    strides and the paddings *)
Record geo := mkGeo { g_bs : list nat; g_h : nat; g_w : nat; g_kh : nat; g_kw : nat; g_s0 : nat; g_s1 : nat; g_p0 : nat; g_p1 : nat }.

(** arguments for which there is a window *)
Definition fits (g : geo) : Prop :=
  (1 <= g_kh g /\ 1 <= g_kw g /\ 1 <= g_s0 g /\ 1 <= g_s1 g /\ g_p0 g <= g_kh g /\ g_p1 g <= g_kw g /\
   g_kh g <= g_h g + 2 * g_p0 g /\ g_kw g <= g_w g + 2 * g_p1 g)%nat.

Definition g_oh (g : geo) : nat := ((g_h g + 2 * g_p0 g - g_kh g) / g_s0 g + 1)%nat.
Definition g_ow (g : geo) : nat := ((g_w g + 2 * g_p1 g - g_kw g) / g_s1 g + 1)%nat.
Definition g_in (g : geo) : list nat := g_bs g ++ [g_h g; g_w g].
Definition g_out (g : geo) : list nat := g_bs g ++ [g_oh g; g_ow g].

(** an argument standing for a pair *)
Definition means (a : iarg) (x y : nat) : Prop :=
  (a = AInt (Z.of_nat x) /\ x = y) \/ a = ATup [Z.of_nat x; Z.of_nat y].

(** the arguments of the call describe [g] *)
Definition given (kernel : iarg) (stride : option iarg) (padding dilation : iarg) (g : geo) : Prop :=
  means kernel (g_kh g) (g_kw g) /\
  match stride with None => g_s0 g = g_kh g /\ g_s1 g = g_kw g | Some a => means a (g_s0 g) (g_s1 g) end /\
  means padding (g_p0 g) (g_p1 g) /\ means dilation 1 1.

(** the values of a function on a grid, in row-major order *)
Definition grid {A} (n h w : nat) (F : nat -> nat -> nat -> A) : list A :=
  flat_map (fun b => flat_map (fun r => map (F b r) (seq 0 w)) (seq 0 h)) (seq 0 n).

(** the entry at row [r] and column [c] of the padded input number [b]; None is padding *)
Definition entry (g : geo) (v : list Z) (b r c : nat) : option Z :=
  if (Nat.leb (g_p0 g) r && Nat.ltb r (g_p0 g + g_h g) && Nat.leb (g_p1 g) c && Nat.ltb c (g_p1 g + g_w g))%bool
  then Some (nth ((b * g_h g + (r - g_p0 g)) * g_w g + (c - g_p1 g)) v 0) else None.

(** entry [a], [c] of window [i], [j] *)
Definition in_window (g : geo) (v : list Z) (b i j a c : nat) : option Z :=
  entry g v b (i * g_s0 g + a) (j * g_s1 g + c).

(** entry [a], [c] of the window is its largest value [m]; it stands there only *)
Definition selects (g : geo) (v : list Z) (b i j a c : nat) (m : Z) : Prop :=
  (a < g_kh g)%nat /\ (c < g_kw g)%nat /\ in_window g v b i j a c = Some m /\
  forall a' c' y, (a' < g_kh g)%nat -> (c' < g_kw g)%nat -> (a', c') <> (a, c) -> in_window g v b i j a' c' = Some y -> y < m.

(** the padding, which counts as -25, is smaller *)
Definition above_padding (g : geo) (v : list Z) (b i j : nat) (m : Z) : Prop :=
  forall a c, (a < g_kh g)%nat -> (c < g_kw g)%nat -> in_window g v b i j a c = None -> -25 < m.

(** no row of the window has its largest value, if that is positive, twice *)
Definition rows_clear (g : geo) (v : list Z) (b i j : nat) : Prop :=
  forall a c1 c2 y, (a < g_kh g)%nat -> (c1 < g_kw g)%nat -> (c2 < g_kw g)%nat -> 0 < y ->
    in_window g v b i j a c1 = Some y -> in_window g v b i j a c2 = Some y ->
    (forall c z, (c < g_kw g)%nat -> in_window g v b i j a c = Some z -> z <= y) -> c1 = c2.

(** the gradient of entry (u, t) of the input: the sum of the gradients of the windows selecting it *)
Definition routed (g : geo) (row col : nat -> nat -> nat -> nat) (G : nat -> nat -> nat -> Z) (b u t : nat) : Z :=
  sumn (g_oh g) (fun i => sumn (g_ow g) (fun j =>
    if Nat.eqb (i * g_s0 g + row b i j) (u + g_p0 g) && Nat.eqb (j * g_s1 g + col b i j) (t + g_p1 g) then G b i j else 0)).

(** valid triples for the element-wise products of every shape, fresh randomness *)
Definition mul_supply (su : tri_supply) : Prop :=
  (forall k sa sb so, bshape sa sb so -> valid_triples sa sb so (mul_val sa sb so) 2 (su_tri su k sa sb)) /\
  (forall k, draws (2^64) 2 [1%nat] (su_rnd su k)).
