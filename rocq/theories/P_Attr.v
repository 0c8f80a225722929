(** C74: attributes of tensors and the recording of gradients. *)
From Coq Require Import String Permutation.
From Verif Require Import Util M_Attr.
Local Open Scope string_scope.
Local Open Scope list_scope.

Lemma find_attr_none d n : find_attr d n = None <-> ~ In n (map fst d).
Proof.
  unfold find_attr. induction d as [|[k v] d IH]; cbn [find map fst In option_map].
  - tauto.
  - destruct (String.eqb_spec k n) as [->|N]; cbn [option_map].
    + split; [discriminate|]. intros H. exfalso. apply H. auto.
    + rewrite IH. split; [intros H [E|E]; auto|tauto].
Qed.
Lemma find_attr_app d e n : find_attr (d ++ e) n = match find_attr d n with Some m => Some m | None => find_attr e n end.
Proof.
  unfold find_attr. induction d as [|[k v] d IH]; cbn [app find fst]; auto.
  destruct (String.eqb k n); cbn [option_map]; auto.
Qed.

Lemma add_hooks_spec mk names : forall d, NoDup names ->
  ((forall n, In n names -> find_attr d n = None) -> exists d', add_hooks mk d names = Ok d' /\
     forall n, find_attr d' n = if has names n then Some (mk n) else find_attr d n) /\
  ((exists n, In n names /\ find_attr d n <> None) -> add_hooks mk d names = Err ValueError).
Proof.
  induction names as [|a r IH]; intros d ND; cbn [add_hooks].
  - split; [intros _; eexists; split; [reflexivity|]; intros; reflexivity|]. intros (n & [] & _).
  - inversion ND as [|? ? Na Nr]; subst. destruct (find_attr d a) eqn:E.
    + split; [|reflexivity]. intros H. rewrite (H a (or_introl eq_refl)) in E. discriminate.
    + destruct (IH (d ++ [(a, mk a)]) Nr) as [I1 I2].
      assert (F : forall n, n <> a -> find_attr (d ++ [(a, mk a)]) n = find_attr d n).
      { intros n Hn. rewrite find_attr_app. unfold find_attr at 2. cbn [find fst]. destruct (String.eqb_spec a n); [congruence|]. cbn [option_map]. destruct (find_attr d n); auto. }
      split.
      * intros H. destruct I1 as (d' & R & V).
        { intros n Hn. rewrite F by (intros ->; contradiction). apply H. right. exact Hn. }
        exists d'. split; [exact R|]. intros n. rewrite V. unfold has. cbn [existsb]. destruct (String.eqb_spec n a) as [->|N]; cbn [orb].
        -- fold (has r a). destruct (has r a) eqn:Hr; auto. rewrite find_attr_app, E. unfold find_attr. cbn [find fst]. rewrite String.eqb_refl. reflexivity.
        -- destruct (existsb (String.eqb n) r); auto.
      * intros (n & [<-|Hn] & Hf); [congruence|]. apply I2. exists n. split; auto. rewrite F by (intros ->; contradiction). exact Hf.
Qed.

Lemma has_In l n : has l n = true <-> In n l.
Proof.
  unfold has. rewrite existsb_exists. split.
  - intros (x & H & E). apply String.eqb_eq in E. subst. exact H.
  - intros H. exists n. split; [exact H|apply String.eqb_refl].
Qed.
Lemma has_perm l l' n : Permutation l l' -> has l n = has l' n.
Proof.
  intros P. destruct (has l n) eqn:A, (has l' n) eqn:B; auto.
  - apply has_In in A. apply (Permutation_in _ P), has_In in A. congruence.
  - apply has_In in B. apply (Permutation_in _ (Permutation_sym P)), has_In in B. congruence.
Qed.

(** C74: a tensor class is made exactly if no forwarded name is defined twice, otherwise ValueError
    is raised; in the class the forwarded names are the hooks and all others unchanged, in whatever
    order python runs through the sets of names. *)
Theorem C74_classes : forall d ms ps, NoDup ms -> NoDup ps ->
  let fine := (forall n, In n ms \/ In n ps -> ~ In n (map fst d)) /\ (forall n, In n ms -> ~ In n ps) in
  (fine -> exists c, forall ms' ps', Permutation ms ms' -> Permutation ps ps' ->
     exists c', sympc_new d ms' ps' = Ok c' /\
       (forall n, In n ms -> find_attr c' n = Some (HookM n)) /\ (forall n, In n ps -> find_attr c' n = Some (HookP n)) /\
       (forall n, ~ In n ms -> ~ In n ps -> find_attr c' n = find_attr d n) /\
       (forall n, find_attr c' n = find_attr c n)) /\
  (~ fine -> sympc_new d ms ps = Err ValueError).
Proof.
  intros d ms ps Nm Np fine.
  assert (Run : fine -> forall ms' ps', Permutation ms ms' -> Permutation ps ps' ->
    exists c', sympc_new d ms' ps' = Ok c' /\ forall n, find_attr c' n = if has ps n then Some (HookP n) else if has ms n then Some (HookM n) else find_attr d n).
  { intros [F1 F2] ms' ps' Pm Pp. unfold sympc_new.
    destruct (proj1 (add_hooks_spec HookM ms' d (Permutation_NoDup Pm Nm))) as (c1 & R1 & V1).
    { intros n Hn. apply find_attr_none, F1. left. apply (Permutation_in _ (Permutation_sym Pm)), Hn. }
    rewrite R1. cbn [rbind]. destruct (proj1 (add_hooks_spec HookP ps' c1 (Permutation_NoDup Pp Np))) as (c2 & R2 & V2).
    { intros n Hn. apply (Permutation_in _ (Permutation_sym Pp)) in Hn. rewrite V1. rewrite <- (has_perm ms ms') by auto.
      destruct (has ms n) eqn:E; [apply has_In in E; exfalso; apply (F2 n E Hn)|]. apply find_attr_none, F1. auto. }
    exists c2. split; [exact R2|]. intros n. rewrite V2, V1. rewrite <- (has_perm ms ms'), <- (has_perm ps ps') by auto. reflexivity. }
  split.
  - intros F. destruct (Run F ms ps (Permutation_refl _) (Permutation_refl _)) as (c & _ & V). exists c. intros ms' ps' Pm Pp.
    destruct (Run F ms' ps' Pm Pp) as (c' & R' & V'). exists c'. split; [exact R'|]. destruct F as [F1 F2]. split; [|split; [|split]].
    + intros n Hn. rewrite V'. destruct (has ps n) eqn:E; [apply has_In in E; exfalso; apply (F2 n Hn E)|]. apply has_In in Hn. rewrite Hn. reflexivity.
    + intros n Hn. rewrite V'. apply has_In in Hn. rewrite Hn. reflexivity.
    + intros n H1 H2. rewrite V'. destruct (has ps n) eqn:E; [apply has_In in E; contradiction|]. destruct (has ms n) eqn:E'; [apply has_In in E'; contradiction|]. reflexivity.
    + intros n. rewrite V, V'. reflexivity.
  - intros NF. unfold sympc_new. destruct (existsb (fun n => if find_attr d n then true else false) ms) eqn:Em.
    + apply existsb_exists in Em. destruct Em as (n & Hn & E). rewrite (proj2 (add_hooks_spec HookM ms d Nm)); [reflexivity|].
      exists n. split; auto. intros G. rewrite G in E. discriminate.
    + assert (Fm : forall n, In n ms -> find_attr d n = None).
      { intros n Hn. destruct (find_attr d n) eqn:E; auto. exfalso. rewrite (proj2 (existsb_exists _ _)) in Em; [discriminate|]. exists n. rewrite E. auto. }
      destruct (proj1 (add_hooks_spec HookM ms d Nm) Fm) as (c1 & R1 & V1). rewrite R1. cbn [rbind].
      apply (proj2 (add_hooks_spec HookP ps c1 Np)).
      destruct (existsb (fun n => if find_attr c1 n then true else false) ps) eqn:Ep.
      * apply existsb_exists in Ep. destruct Ep as (n & Hn & E). exists n. split; auto. intros G. rewrite G in E. discriminate.
      * exfalso. apply NF.
        assert (Fp : forall n, In n ps -> find_attr c1 n = None).
        { intros n Hn. destruct (find_attr c1 n) eqn:E; auto. exfalso. rewrite (proj2 (existsb_exists _ _)) in Ep; [discriminate|]. exists n. rewrite E. auto. }
        split.
        -- intros n [Hn|Hn]; apply find_attr_none; [apply Fm, Hn|]. specialize (Fp n Hn). rewrite V1 in Fp. destruct (has ms n); [discriminate|exact Fp].
        -- intros n Hn Hp. specialize (Fp n Hp). rewrite V1 in Fp. apply has_In in Hn. rewrite Hn in Fp. discriminate.
Qed.
Print Assumptions C74_classes.
Example C74_classes_witness : exists c, mpc_class = Ok c /\ find_attr c "view" = Some (HookM "view") /\ find_attr c "T" = Some (HookP "T") /\
  find_attr c "add" = Some (Own "add") /\ sympc_new [("sum", Own "sum")] ["t"; "sum"] [] = Err ValueError.
Proof. eexists. split; [vm_compute; reflexivity|]. repeat split. Qed.

(** C74: the binary operators of python, on a tensor x and anything else: which computation they
    stand for *)
Definition meaning : list (string * string) :=
  [("__add__", "x + y"); ("__radd__", "x + y"); ("__sub__", "x - y"); ("__mul__", "x * y"); ("__rmul__", "x * y");
   ("__matmul__", "x @ y"); ("__truediv__", "x / y"); ("__pow__", "x ** y");
   ("__rsub__", "y - x"); ("__rmatmul__", "y @ x"); ("__rtruediv__", "y / x"); ("__isub__", "x -= y")].
(** the method that computes it *)
Definition computes (m : string) : string :=
  if m =? "add" then "x + y" else if m =? "sub" then "x - y" else if m =? "mul" then "x * y" else if m =? "matmul" then "x @ y"
  else if m =? "truediv" then "x / y" else if m =? "pow" then "x ** y" else if m =? "rsub" then "y - x"
  else if m =? "rmatmul" then "y @ x" else if m =? "rtruediv" then "y / x" else if m =? "isub" then "x -= y" else "".

(** C74: with autograd active the operators x + y, y + x, x - y, x * y, y * x, x @ y, x / y, x ** y are
    recorded for the gradient of what they compute; without it no attribute is recorded, and what
    has no gradient function is found in the same way in both cases. *)
Theorem C74_recording_partial :
  (forall d o m, In (o, m) (firstn 8 meaning) -> exists n, operator_target true d o = Ok (Recorded n) /\ computes n = m) /\
  (forall d n f, getattribute false d n = Ok f -> forall k, f <> Recorded k) /\
  (forall d n, ~ In n grad_names -> getattribute true d n = getattribute false d n).
Proof.
  split; [|split].
  - intros d o m H. cbn [meaning firstn In] in H.
    repeat (destruct H as [H|H]; [injection H as <- <-; eexists; split; reflexivity|]). destruct H.
  - intros d n f H k ->. unfold getattribute in H. rewrite andb_false_r in H.
    destruct (has static_names n); [discriminate|]. destruct (has approx_names n); [discriminate|]. destruct (find_attr d n); discriminate.
  - intros d n H. unfold getattribute. destruct (has grad_names n) eqn:E; [apply has_In in E; contradiction|]. reflexivity.
Qed.
Print Assumptions C74_recording_partial.
Example C74_recording_witness : In ("__rmul__", "x * y") (firstn 8 meaning) /\ ~ In "exp" grad_names /\
  (exists c, mpc_class = Ok c /\ getattribute false c "mul" = Ok (Attribute (Own "mul")) /\ getattribute true c "exp" = Ok (Approx "exp")).
Proof.
  split; [cbn; tauto|]. split; [cbn; intuition discriminate|]. eexists. split; [vm_compute; reflexivity|]. split; reflexivity.
Qed.

(** C74 refuted: y - x, y @ x, y / x and x -= y are not recorded although autograd is active (see
    C44_rsub_refuted for what this does to the gradients). *)
Theorem C74_reflected_refuted : exists c, mpc_class = Ok c /\
  forall o m, In (o, m) (skipn 8 meaning) -> exists n, computes n = m /\ operator_target true c o = Ok (Attribute (Own n)).
Proof.
  eexists. split; [vm_compute; reflexivity|]. intros o m H. cbn [meaning skipn In] in H.
  repeat (destruct H as [H|H]; [injection H as <- <-; eexists; split; [|reflexivity]; reflexivity|]). destruct H.
Qed.
Print Assumptions C74_reflected_refuted.

(** C74 refuted: x.relu and x.max_pool2d exist only while autograd is active. *)
Theorem C74_relu_refuted : exists c, mpc_class = Ok c /\ forall n, In n ["relu"; "max_pool2d"] ->
  getattribute true c n = Ok (Recorded n) /\ getattribute false c n = Err AttributeError.
Proof.
  eexists. split; [vm_compute; reflexivity|]. intros n H. cbn [In] in H. destruct H as [<-|[<-|[]]]; split; reflexivity.
Qed.
Print Assumptions C74_relu_refuted.

(** C74: x.numel() is the number of elements, x.clone() keeps the shape, x.flatten() has one dimension of
    as many elements, x.squeeze() drops the dimensions of one element. *)
Theorem C74_calls : forall k sh, (0 < k)%nat ->
  hook_call k sh "numel" = Ok (inr (fold_right Nat.mul 1%nat sh)) /\ hook_call k sh "clone" = Ok (inl sh) /\
  hook_call k sh "flatten" = Ok (inl [fold_right Nat.mul 1%nat sh]) /\
  exists so, hook_call k sh "squeeze" = Ok (inl so) /\ ~ In 1%nat so /\ fold_right Nat.mul 1%nat so = fold_right Nat.mul 1%nat sh.
Proof.
  intros [|k] sh H; [lia|]. split; [reflexivity|]. split; [reflexivity|]. split; [reflexivity|]. eexists. split; [reflexivity|]. split.
  - intros I. apply filter_In in I. destruct I as [_ I]. discriminate.
  - induction sh as [|d sh IH]; [reflexivity|]. cbn [filter]. destruct (Nat.eqb_spec d 1) as [->|N]; cbn [negb fold_right]; rewrite IH; lia.
Qed.
Print Assumptions C74_calls.
Example C74_calls_witness : hook_call 2 [3;1;2]%nat "squeeze" = Ok (inl [3;2]%nat) /\ hook_call 2 [3;1;2]%nat "numel" = Ok (inr 6%nat).
Proof. split; reflexivity. Qed.

(** C74 refuted: x.dim() raises instead of giving the number of dimensions. *)
Theorem C74_dim_refuted : exists k sh, (0 < k)%nat /\ torch_method "dim" sh = Ok (inr (List.length sh)) /\ hook_call k sh "dim" = Err AttributeError.
Proof. exists 2%nat, [3; 1]%nat. split; [lia|]. split; reflexivity. Qed.
Print Assumptions C74_dim_refuted.
