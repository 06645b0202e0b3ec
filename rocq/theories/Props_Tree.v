(** Properties C15, C19-C21: CSG trees (general_optics.py:247-376). *)
From Coq Require Import Reals ZArith Lra Psatz List String Bool Permutation.
From Verif Require Import PyErr Num Vec Shapes Csg Spec XReal RVec FlatProofs SphereProofs CylProofs ShapeExtra TreeProofs SolidProofs.
Import ListNotations.

(** C15: membership in a CSG tree built from spheres and infinite cylinders is Boolean set algebra; no exception. *)
Theorem C15_membership : forall e t x, tree_of e t ->
  exists b, test_tree_point t (fv x) = Ok (Some b) /\ (b = true <-> den e x).
Proof. exact tree_point_den. Qed.
Print Assumptions C15_membership.
(** a ball minus a smaller ball, united with a cylinder *)
Example C15_hyp : exists t, tree_of
  (Bin OpUnion (Bin OpDifference (Leaf (Ball r3zero 2)) (Leaf (Ball r3zero 1))) (Leaf (Cyl r3zero (mk3 0 0 3) 1))) t.
Proof.
  eexists. apply TO_bin; [apply TO_bin|].
  - eapply TO_ball with (Ro := Some 2%R) (Do := None); [reflexivity|]. unfold mk_sphere; cbn [fo option_map].
    rewrite check_R_only. reflexivity.
  - eapply TO_ball with (Ro := Some 1%R) (Do := None); [reflexivity|]. unfold mk_sphere; cbn [fo option_map].
    rewrite check_R_only. reflexivity.
  - eapply TO_cyl with (Ro := Some 1%R) (Do := None); [intros H; injection H; lra|lra|reflexivity|].
    unfold mk_infcyl; cbn [fo option_map]. rewrite check_R_only. reflexivity.
Qed.
(** C15 for every number type: whatever the leaves answer, the tree answers their Boolean combination. *)
Theorem C15_membership_any_numbers : forall T (N : Num T) A (f : A -> shape T) (m : A -> bool) (e : expr A) p,
  (forall a, shape_test_point (f a) p = Ok (Some (m a))) ->
  test_tree_point (to_tree (fun a => KShape (f a)) e) p = Ok (Some (ev m e)).
Proof. intros T N A. exact tree_point_gen. Qed.
Print Assumptions C15_membership_any_numbers.

(** C19 (partial): trees with an operator string on a node with fewer than two children, an unknown string anywhere,
    or (no finite Cylinder in the tree) a shape on a two-child node raise, in both queries. *)
Theorem C19_malformed_partial : forall T (N : Num T) (t : tree (key T)),
  ((exists s, subtree s t /\ bad_string_node s) \/ (no_cylinder t /\ exists s, subtree s t /\ bad_shape_node s)) ->
  (forall p, exists e, test_tree_point t p = Err e) /\ (forall r, exists e, test_tree_intersect t r = Err e).
Proof.
  intros T N t [H|[NC H]]; split; intros x.
  - exact (bad_string_point t x H).
  - exact (bad_string_intersect t x H).
  - exact (bad_shape_point t x NC H).
  - exact (bad_shape_intersect t x NC H).
Qed.
Print Assumptions C19_malformed_partial.
Example C19_hyp : forall s : shape xr, let bad := Node (KStr "union") (mk_tree (KShape s)) Nil in
  exists u, subtree u (Node (KStr "intersect") (mk_tree (KShape s)) bad) /\ bad_string_node u.
Proof.
  intros s bad. exists bad. split; [apply sub_right, sub_here|]. do 3 eexists. split; [reflexivity|]. right. left. reflexivity.
Qed.
(** C19: a flat shape as an operand of an operator raises in the intersection query, whatever the ray, at any depth: its answer has three items and no count. *)
Theorem C19_flat_leaf : forall T (N : Num T) (t : tree (key T)) op f other,
  (exists p, f = SPlane p) \/ (exists c, f = SCircle c) \/ (exists q, f = SRectangle q) ->
  subtree (Node (KStr op) (Node (KShape f) Nil Nil) other) t \/ subtree (Node (KStr op) other (Node (KShape f) Nil Nil)) t ->
  forall r, exists e, test_tree_intersect t r = Err e.
Proof.
  intros T N t op f other Hf Hs r.
  assert (F : forall a, test_tree_intersect (Node (KShape f) Nil Nil) r = Ok a -> exists h, a = I3 h).
  { intros a E. cbn in E. destruct Hf as [(p & ->)|[(c & ->)|(q & ->)]]; cbn [shape_test_intersect] in E; [injection E as <-; eauto|destruct (circle_test_intersect c r)|destruct (rectangle_test_intersect q r)]; cbn in E; try discriminate; injection E as <-; eauto. }
  assert (Up : forall u v : tree (key T), subtree u v -> raises (test_tree_intersect u r) -> raises (test_tree_intersect v r)).
  { intros u v S Hu. induction S as [v|u k l rt S IH|u k l rt S IH]; [exact Hu|..]; cbn [test_tree_intersect]; destruct (IH Hu) as [e E].
    - rewrite E. eexists; reflexivity.
    - apply bind_raises. intros a _. rewrite E. eexists; reflexivity. }
  destruct Hs as [S|S]; apply (Up _ _ S); cbn [test_tree_intersect]; apply bind_raises; intros a Ea; apply bind_raises; intros b Eb.
  - destruct (F a Ea) as (h & ->). destruct b; try (eexists; reflexivity); apply bind_raises; intros; eexists; reflexivity.
  - destruct (F b Eb) as (h & ->). destruct a; try (eexists; reflexivity); apply bind_raises; intros; apply bind_raises; intros; eexists; reflexivity.
Qed.
Print Assumptions C19_flat_leaf.
Example C19_flat_leaf_hyp : forall (p : plane xr) (s : shape xr),
  (exists q, SPlane p = SPlane q) /\ subtree (Node (KStr "union") (mk_tree (KShape (SPlane p))) (mk_tree (KShape s))) (Node (KStr "union") (mk_tree (KShape (SPlane p))) (mk_tree (KShape s))).
Proof. intros p s. split; [eauto|apply sub_here]. Qed.

(** C19: the unfinished Cylinder, whose query returns None, raises as an operand of an operator, in both queries (string keys have no such method). *)
Theorem C19_cylinder_leaf : forall T (N : Num T) (t : tree (key T)) op f other,
  (exists c, f = SCylinder c) ->
  subtree (Node (KStr op) (Node (KShape f) Nil Nil) other) t \/ subtree (Node (KStr op) other (Node (KShape f) Nil Nil)) t ->
  (forall r, exists e, test_tree_intersect t r = Err e) /\ (forall p, exists e, test_tree_point t p = Err e).
Proof.
  intros T N t op f other (c & ->) Hs.
  assert (Up : forall r (u v : tree (key T)), subtree u v -> raises (test_tree_intersect u r) -> raises (test_tree_intersect v r)).
  { intros r u v S Hu. induction S as [v|u k l rt S IH|u k l rt S IH]; [exact Hu|..]; cbn [test_tree_intersect]; destruct (IH Hu) as [e E].
    - rewrite E. eexists; reflexivity.
    - apply bind_raises. intros a _. rewrite E. eexists; reflexivity. }
  assert (Up2 : forall p (u v : tree (key T)), subtree u v -> raises (test_tree_point u p) -> raises (test_tree_point v p)).
  { intros r u v S Hu. induction S as [v|u k l rt S IH|u k l rt S IH]; [exact Hu|..]; cbn [test_tree_point]; destruct (IH Hu) as [e E].
    - rewrite E. eexists; reflexivity.
    - apply bind_raises. intros a _. rewrite E. eexists; reflexivity. }
  split; intros x; destruct Hs as [S|S]; ((apply (Up _ _ _ S)) || (apply (Up2 _ _ _ S))); cbn [test_tree_intersect test_tree_point]; apply bind_raises; intros a Ea; apply bind_raises; intros b Eb; cbn in Ea, Eb.
  - injection Ea as <-. eexists; reflexivity.
  - injection Eb as <-. destruct a; eexists; reflexivity.
  - injection Ea as <-. eexists; reflexivity.
  - injection Eb as <-. destruct a; eexists; reflexivity.
Qed.
Print Assumptions C19_cylinder_leaf.

(** C19 as stated is false: a one-child node holding a shape is accepted and its child silently ignored. *)
Theorem C19_one_child_refuted : exists (s1 s2 : shape xr) p,
  test_tree_point (Node (KShape s1) (Node (KShape s2) Nil Nil) Nil) p = Ok (Some true) /\
  test_tree_point (mk_tree (KShape s2)) p = Ok (Some false).
Proof.
  exists (SSphere (sph r3zero 1 (Fin 2))), (SSphere (sph (mk3 9 0 0) 1 (Fin 2))), (fv r3zero).
  assert (A : sphere_test_point (sph r3zero 1 (Fin 2)) (fv r3zero) = true).
  { apply sphere_test_point_fv. unfold in_ball, dist3. replace (r3zero - r3zero)%r3 with r3zero by r3_ring.
    rewrite len_zero_r3. lra. }
  assert (B : sphere_test_point (sph (mk3 9 0 0) 1 (Fin 2)) (fv r3zero) = false).
  { apply not_true_is_false. intros E. apply sphere_test_point_fv in E.
    unfold in_ball, dist3 in E. pose proof (len_sq (r3zero - mk3 9 0 0)%r3) as Q.
    pose proof (len_nonneg (r3zero - mk3 9 0 0)%r3).
    assert (W : ((r3zero - mk3 9 0 0)%r3 ∙ (r3zero - mk3 9 0 0)%r3 = 81)%R) by (r3_unf; cbn; ring).
    rewrite W in Q. nra. }
  cbn [test_tree_point bind key_test_point shape_test_point mk_tree]. rewrite A, B. split; reflexivity.
Qed.
Print Assumptions C19_one_child_refuted.

(** C20: the key found at any address after an insertion at address p; calls fail only on missing nodes. *)
Theorem C20_insertions : forall (K : Type),
  (forall (x : K) p t t', at_path p (fun t => insertLeft t x) t = Ok t' -> forall a,
     key_at a t' = match below (p ++ [dL]) a with
                   | None => key_at a t            (* not at or below the new node: unchanged *)
                   | Some [] => Some x             (* the new node *)
                   | Some (dL :: q) => key_at (p ++ dL :: q) t   (* the old left subtree, one level down *)
                   | Some (dR :: q) => None
                   end) /\
  (forall (x : K) p t t', at_path p (fun t => insertRight t x) t = Ok t' -> forall a,
     key_at a t' = match below (p ++ [dR]) a with
                   | None => key_at a t
                   | Some [] => Some x
                   | Some (dR :: q) => key_at (p ++ dR :: q) t
                   | Some (dL :: q) => None
                   end) /\
  (forall (x : K) p t t', at_path p (fun t => setRootVal t x) t = Ok t' -> forall a,
     key_at a t' = match below p a with Some [] => Some x | _ => key_at a t end) /\
  (forall (t1 t2 : tree K), (forall p, key_at p t1 = key_at p t2) -> t1 = t2) /\
  (forall cs (t t' : tree K), do_calls cs t = Ok t' ->
     Permutation (overwritten cs t ++ keys t') (flat_map inserted cs ++ keys t)) /\
  (forall c (t : tree K), (exists t', do_call c t = Ok t') <->
     key_at match c with CInsL p _ | CInsR p _ | CSet p _ => p end t <> None).
Proof.
  intros K. exact (conj insertLeft_spec (conj insertRight_spec (conj setRoot_spec (conj key_at_ext (conj no_key_lost do_call_ok))))).
Qed.
Print Assumptions C20_insertions.
Example C20_hyp : exists t', do_calls [CInsL [] 1; CInsL [] 2; CInsR [dL] 3; CSet [dL; dL] 4] (mk_tree 0) = Ok t'
  /\ key_at [dL; dL] t' = Some 4 /\ key_at [dL; dR] t' = Some 3.
Proof. eexists. repeat split. Qed.

(** C20: a chain t.getLeftChild().getRightChild()... of getter calls reaches the subtree at that address, getRootVal gives its key; only None (no node) has no methods. *)
Fixpoint chain {K} (a : list dir) (t : tree K) : Res (tree K) :=
  match a with [] => Ok t | dL :: a => do s <- getLeftChild t; chain a s | dR :: a => do s <- getRightChild t; chain a s end.
Theorem C20_getters : forall (K : Type),
  (forall a (t s : tree K), chain a t = Ok s -> forall b, key_at b s = key_at (a ++ b) t) /\
  (forall a d (t : tree K), (exists s, chain (a ++ [d]) t = Ok s) <-> key_at a t <> None) /\
  (forall (t : tree K) k, getRootVal t = Ok k <-> key_at [] t = Some k).
Proof.
  intros K. split; [|split].
  - induction a as [|[|] a IH]; intros t s E b; [injection E as ->; reflexivity| |]; 
    (destruct t as [|k l r]; [discriminate E|]; cbn in E; rewrite (IH _ _ E b); reflexivity).
  - induction a as [|x a IH]; intros d t.
    + destruct t as [|k l r], d; cbn; split; intros H; try (destruct H; discriminate); try congruence; eexists; reflexivity.
    + destruct t as [|k l r]; [rewrite key_at_Nil; destruct x; cbn; split; intros H; [destruct H; discriminate|congruence|destruct H; discriminate|congruence]|]. destruct x; cbn; apply IH.
  - intros [|k l r] k'; cbn; split; congruence.
Qed.
Print Assumptions C20_getters.

(** C21: rendering is the fully parenthesised expression, and determines the tree.
    Leaf keys may be strings or shapes; [str_shape] is the string form of a shape.  Empty names are falsy in Python and
    excluded; names may contain blanks provided none of their words is one of the five words ( ) u n \. *)
Theorem C21_render : forall T (str_shape : shape T -> string),
  (forall e : expr (key T), all_leaves truthy_key e ->
    exists v, postOrderEval str_shape (to_tree (fun k => k) e) = Ok v /\
      match e with
      | Leaf k => v = key_val k
      | Bin _ _ _ => v = PStr (render (key_name str_shape) e)
      end) /\
  (forall e1 e2 : expr (key T), 
    all_leaves (fun k => plain (key_name str_shape k)) e1 -> all_leaves (fun k => plain (key_name str_shape k)) e2 ->
    render (key_name str_shape) e1 = render (key_name str_shape) e2 ->
    map_expr (key_name str_shape) e1 = map_expr (key_name str_shape) e2).
Proof.
  intros T ss. split.
  - intros e H. destruct (postOrder_value ss e H) as (v & E & _ & _ & M). exists v. auto.
  - exact (render_inj _ _).
Qed.
Print Assumptions C21_render.
(** C21, trees that are not well formed: a node with a missing operand shows only its own key (the other operand is dropped), an unknown operator with two operands raises KeyError *)
Theorem C21_missing : forall T (str_shape : shape T -> string) k,
  (forall t v, postOrderEval str_shape t = Ok v -> postOrderEval str_shape (Node k t Nil) = Ok (key_val k) /\ postOrderEval str_shape (Node k Nil t) = Ok (key_val k)) /\
  (forall l r v w, postOrderEval str_shape l = Ok v -> postOrderEval str_shape r = Ok w -> ptruthy v = true -> ptruthy w = true ->
     (forall s, k = KStr s -> ~ In s ["union"; "difference"; "intersect"]%string) -> postOrderEval str_shape (Node k l r) = Err KeyError).
Proof.
  intros T ss k. split.
  - intros t v E. cbn [postOrderEval]. rewrite E. cbn [bind ptruthy andb]. rewrite andb_false_r. auto.
  - intros l r v w E F V W H. cbn [postOrderEval]. rewrite E, F. cbn [bind]. rewrite V, W. cbn [andb]. destruct k as [s|s]; [|reflexivity]. specialize (H s eq_refl). cbn [print_oper].
    destruct (String.eqb_spec s "union") as [->|_]; [elim H; cbn; auto|]. destruct (String.eqb_spec s "difference") as [->|_]; [elim H; cbn; auto|]. destruct (String.eqb_spec s "intersect") as [->|_]; [elim H; cbn; auto|]. reflexivity.
Qed.
Print Assumptions C21_missing.
(** shapes named as Python prints them, and string leaves *)
Example C21_hyp : forall s : shape xr, let nm := fun _ : shape xr => "Sphere, center=[0. 0. 5.], R=1"%string in
  let e := Bin OpUnion (Leaf (KShape s)) (Bin OpDifference (Leaf (KStr "a")) (Leaf (KStr "b"))) in
  all_leaves truthy_key e /\ all_leaves (fun k => plain (key_name nm k)) e /\
  render (key_name nm) e = "( Sphere, center=[0. 0. 5.], R=1 u ( a \ b ) )"%string.
Proof.
  intros s nm e. split; [repeat split; discriminate|]. split; [|reflexivity].
  assert (P : forall w l, In w l -> (forall v, In v l -> ~ reserved v) -> ~ reserved w) by auto.
  repeat split; intros w Hw; cbn in Hw; intuition (subst; unfold reserved in *; intuition discriminate).
Qed.
