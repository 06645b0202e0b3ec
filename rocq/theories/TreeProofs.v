(** CSG trees: BinaryTree, membership, malformed trees, rendering.  Everything except the link to real solids is
    proved for every number type. *)
From Coq Require Import ZArith List String Ascii Bool Lia Permutation.
From Verif Require Import PyErr Num Vec Shapes Csg.
Import ListNotations.

(* ------------------------------------------------------------------ *)
(** * BinaryTree *)
Section BT.
Context {K : Type}.
Implicit Types t : tree K.

(** key stored at an address (None: no node there) *)
Fixpoint key_at (p : list dir) (t : tree K) : option K :=
  match t, p with
  | Nil, _ => None
  | Node k _ _, [] => Some k
  | Node _ l _, dL :: p => key_at p l
  | Node _ _ r, dR :: p => key_at p r
  end.
Fixpoint keys (t : tree K) : list K :=
  match t with Nil => [] | Node k l r => k :: keys l ++ keys r end.

Lemma key_at_ext t1 : forall t2, (forall p, key_at p t1 = key_at p t2) -> t1 = t2.
Proof.
  induction t1 as [|k l IHl r IHr]; intros [|k' l' r'] H.
  - reflexivity.
  - specialize (H []). discriminate.
  - specialize (H []). discriminate.
  - pose proof (H []) as E. cbn in E. injection E as ->. f_equal.
    + apply IHl. intros p. exact (H (dL :: p)).
    + apply IHr. intros p. exact (H (dR :: p)).
Qed.

Lemma key_at_Nil p : key_at p (Nil : tree K) = None. Proof. destruct p; reflexivity. Qed.

Lemma at_path_ok f p : forall t, (forall k l r, exists t', f (Node k l r) = Ok t') ->
  key_at p t <> None -> exists t', at_path p f t = Ok t'.
Proof.
  induction p as [|[] p IH]; intros [|k l r] Hf H; try (cbn in H; congruence).
  - apply Hf.
  - cbn. destruct (IH l Hf H) as [t' ->]. cbn. eauto.
  - cbn. destruct (IH r Hf H) as [t' ->]. cbn. eauto.
Qed.
Lemma at_path_err f p : f Nil = Err AttributeError -> forall t, key_at p t = None -> at_path p f t = Err AttributeError.
Proof.
  intros Hf. induction p as [|[] p IH]; intros [|k l r] H; cbn in *; try discriminate; auto.
  - now rewrite IH.
  - now rewrite IH.
Qed.

Definition diro (d : dir) (t : tree K) : tree K -> tree K := fun _ => t.

Lemma insL_eq (x : K) k l r : insertLeft (Node k l r) x = Ok (Node k (Node x l Nil) r).
Proof. destruct l; reflexivity. Qed.
Lemma insR_eq (x : K) k l r : insertRight (Node k l r) x = Ok (Node k l (Node x Nil r)).
Proof. destruct r; reflexivity. Qed.

(** address p lies at or below address q *)
Fixpoint below (q p : list dir) : option (list dir) :=
  match q, p with
  | [], p => Some p
  | dL :: q, dL :: p => below q p
  | dR :: q, dR :: p => below q p
  | _, _ => None
  end.

Lemma insertLeft_spec x : forall p t t', at_path p (fun t => insertLeft t x) t = Ok t' -> forall a,
  key_at a t' = match below (p ++ [dL]) a with
                | None => key_at a t
                | Some [] => Some x
                | Some (dL :: q) => key_at (p ++ dL :: q) t
                | Some (dR :: q) => None
                end.
Proof.
  induction p as [|[] p IH]; intros [|k l r] t' E a; try discriminate E.
  - cbn [at_path] in E. rewrite insL_eq in E. injection E as <-.
    destruct a as [|[] [|[] a]]; cbn; try reflexivity. apply key_at_Nil.
  - cbn [at_path] in E. destruct (at_path p _ l) as [l'|] eqn:El; [|discriminate]. injection E as <-.
    destruct a as [|[] a]; cbn; try reflexivity. exact (IH l l' El a).
  - cbn [at_path] in E. destruct (at_path p _ r) as [r'|] eqn:El; [|discriminate]. injection E as <-.
    destruct a as [|[] a]; cbn; try reflexivity. exact (IH r r' El a).
Qed.
Lemma insertRight_spec x : forall p t t', at_path p (fun t => insertRight t x) t = Ok t' -> forall a,
  key_at a t' = match below (p ++ [dR]) a with
                | None => key_at a t
                | Some [] => Some x
                | Some (dR :: q) => key_at (p ++ dR :: q) t
                | Some (dL :: q) => None
                end.
Proof.
  induction p as [|[] p IH]; intros [|k l r] t' E a; try discriminate E.
  - cbn [at_path] in E. rewrite insR_eq in E. injection E as <-.
    destruct a as [|[] [|[] a]]; cbn; try reflexivity. apply key_at_Nil.
  - cbn [at_path] in E. destruct (at_path p _ l) as [l'|] eqn:El; [|discriminate]. injection E as <-.
    destruct a as [|[] a]; cbn; try reflexivity. exact (IH l l' El a).
  - cbn [at_path] in E. destruct (at_path p _ r) as [r'|] eqn:El; [|discriminate]. injection E as <-.
    destruct a as [|[] a]; cbn; try reflexivity. exact (IH r r' El a).
Qed.
Lemma setRoot_spec x : forall p t t', at_path p (fun t => setRootVal t x) t = Ok t' -> forall a,
  key_at a t' = match below p a with Some [] => Some x | _ => key_at a t end.
Proof.
  induction p as [|[] p IH]; intros [|k l r] t' E a; try discriminate E.
  - cbn in E. injection E as <-. destruct a as [|[] a]; reflexivity.
  - cbn [at_path] in E. destruct (at_path p _ l) as [l'|] eqn:El; [|discriminate]. injection E as <-.
    destruct a as [|[] a]; cbn; try reflexivity. exact (IH l l' El a).
  - cbn [at_path] in E. destruct (at_path p _ r) as [r'|] eqn:El; [|discriminate]. injection E as <-.
    destruct a as [|[] a]; cbn; try reflexivity. exact (IH r r' El a).
Qed.

(** sequences of calls on reachable nodes *)
Inductive call := CInsL (p : list dir) (x : K) | CInsR (p : list dir) (x : K) | CSet (p : list dir) (x : K).
Definition do_call (c : call) (t : tree K) : Res (tree K) :=
  match c with
  | CInsL p x => at_path p (fun t => insertLeft t x) t
  | CInsR p x => at_path p (fun t => insertRight t x) t
  | CSet p x => at_path p (fun t => setRootVal t x) t
  end.
Fixpoint do_calls (cs : list call) (t : tree K) : Res (tree K) :=
  match cs with [] => Ok t | c :: cs => do t' <- do_call c t; do_calls cs t' end.

Lemma perm_insL x : forall p t t', at_path p (fun t => insertLeft t x) t = Ok t' -> Permutation (keys t') (x :: keys t).
Proof.
  induction p as [|[] p IH]; intros [|k l r] t' E; try discriminate E.
  - cbn [at_path] in E. rewrite insL_eq in E. injection E as <-. cbn. rewrite app_nil_r. apply perm_swap.
  - cbn [at_path] in E. destruct (at_path p _ l) as [l'|] eqn:El; [|discriminate]. injection E as <-.
    cbn. eapply Permutation_trans; [|apply perm_swap]. apply perm_skip.
    change (x :: keys l ++ keys r) with ((x :: keys l) ++ keys r). apply Permutation_app_tail, IH, El.
  - cbn [at_path] in E. destruct (at_path p _ r) as [r'|] eqn:El; [|discriminate]. injection E as <-.
    cbn. eapply Permutation_trans; [|apply perm_swap]. apply perm_skip.
    eapply Permutation_trans; [apply Permutation_app_head, IH, El|]. apply Permutation_sym, Permutation_middle.
Qed.
Lemma perm_insR x : forall p t t', at_path p (fun t => insertRight t x) t = Ok t' -> Permutation (keys t') (x :: keys t).
Proof.
  induction p as [|[] p IH]; intros [|k l r] t' E; try discriminate E.
  - cbn [at_path] in E. rewrite insR_eq in E. injection E as <-. cbn.
    eapply Permutation_trans; [|apply perm_swap]. apply perm_skip. apply Permutation_sym, Permutation_middle.
  - cbn [at_path] in E. destruct (at_path p _ l) as [l'|] eqn:El; [|discriminate]. injection E as <-.
    cbn. eapply Permutation_trans; [|apply perm_swap]. apply perm_skip.
    change (x :: keys l ++ keys r) with ((x :: keys l) ++ keys r). apply Permutation_app_tail, IH, El.
  - cbn [at_path] in E. destruct (at_path p _ r) as [r'|] eqn:El; [|discriminate]. injection E as <-.
    cbn. eapply Permutation_trans; [|apply perm_swap]. apply perm_skip.
    eapply Permutation_trans; [apply Permutation_app_head, IH, El|]. apply Permutation_sym, Permutation_middle.
Qed.
Lemma perm_set x : forall p t t', at_path p (fun t => setRootVal t x) t = Ok t' ->
  exists k, key_at p t = Some k /\ Permutation (k :: keys t') (x :: keys t).
Proof.
  induction p as [|[] p IH]; intros [|k l r] t' E; try discriminate E.
  - cbn in E. injection E as <-. exists k. split; [reflexivity|]. cbn. apply perm_swap.
  - cbn [at_path] in E. destruct (at_path p _ l) as [l'|] eqn:El; [|discriminate]. injection E as <-.
    destruct (IH l l' El) as (k0 & H1 & H2). exists k0. split; [exact H1|]. cbn.
    eapply Permutation_trans; [apply perm_swap|]. eapply Permutation_trans; [|apply perm_swap]. apply perm_skip.
    change (Permutation ((k0 :: keys l') ++ keys r) ((x :: keys l) ++ keys r)). apply Permutation_app_tail, H2.
  - cbn [at_path] in E. destruct (at_path p _ r) as [r'|] eqn:El; [|discriminate]. injection E as <-.
    destruct (IH r r' El) as (k0 & H1 & H2). exists k0. split; [exact H1|]. cbn.
    eapply Permutation_trans; [apply perm_swap|]. eapply Permutation_trans; [|apply perm_swap]. apply perm_skip.
    eapply Permutation_trans; [apply Permutation_middle|]. eapply Permutation_trans; [apply Permutation_app_head, H2|].
    apply Permutation_sym, Permutation_middle.
Qed.
Definition inserted (c : call) : list K := match c with CInsL _ x | CInsR _ x | CSet _ x => [x] end.
(** keys overwritten by setRootVal along a sequence of calls *)
Fixpoint overwritten (cs : list call) (t : tree K) : list K :=
  match cs with
  | [] => []
  | c :: cs =>
      match c with CSet p _ => match key_at p t with Some k => [k] | None => [] end | _ => [] end
      ++ match do_call c t with Ok t' => overwritten cs t' | Err _ => [] end
  end.
Lemma no_key_lost cs : forall t t', do_calls cs t = Ok t' ->
  Permutation (overwritten cs t ++ keys t') (flat_map inserted cs ++ keys t).
Proof.
  induction cs as [|c cs IH]; intros t t' E; cbn in E.
  - injection E as <-. apply Permutation_refl.
  - destruct (do_call c t) as [t1|] eqn:E1; [|discriminate]. cbn [bind] in E. specialize (IH t1 t' E).
    cbn [overwritten flat_map]. rewrite E1, <- app_assoc.
    assert (X : Permutation (match c with CSet p _ => match key_at p t with Some k => [k] | None => [] end | _ => [] end
       ++ keys t1) (inserted c ++ keys t)).
    { destruct c as [p x|p x|p x]; cbn in E1 |- *.
      - apply (perm_insL x p t t1 E1).
      - apply (perm_insR x p t t1 E1).
      - destruct (perm_set x p t t1 E1) as (k & -> & H). exact H. }
    rewrite IH. rewrite app_assoc, (Permutation_app_comm _ (flat_map inserted cs)), <- app_assoc, X.
    rewrite !app_assoc. apply Permutation_app_tail, Permutation_app_comm.
Qed.
Lemma do_call_ok c t : (exists t', do_call c t = Ok t') <->
  key_at match c with CInsL p _ | CInsR p _ | CSet p _ => p end t <> None.
Proof.
  destruct c as [p x|p x|p x]; cbn [do_call]; split.
  - intros [t' E] N. rewrite at_path_err in E by (reflexivity || exact N). discriminate.
  - apply at_path_ok. intros. rewrite insL_eq. eauto.
  - intros [t' E] N. rewrite at_path_err in E by (reflexivity || exact N). discriminate.
  - apply at_path_ok. intros. rewrite insR_eq. eauto.
  - intros [t' E] N. rewrite at_path_err in E by (reflexivity || exact N). discriminate.
  - apply at_path_ok. intros. cbn. eauto.
Qed.
End BT.

(* ------------------------------------------------------------------ *)
(** * Well-formed trees *)
Inductive op := OpUnion | OpDifference | OpIntersect.
Definition op_name (o : op) : string :=
  match o with OpUnion => "union" | OpDifference => "difference" | OpIntersect => "intersect" end.

(** CSG expressions over leaves of type A *)
Inductive expr (A : Type) : Type := Leaf (a : A) | Bin (o : op) (e1 e2 : expr A).
Arguments Leaf {A} a.
Arguments Bin {A} o e1 e2.

Section Member.
Context {T : Type} {N : Num T}.
Fixpoint to_tree {A} (f : A -> key T) (e : expr A) : tree (key T) :=
  match e with
  | Leaf a => Node (f a) Nil Nil
  | Bin o e1 e2 => Node (KStr (op_name o)) (to_tree f e1) (to_tree f e2)
  end.

(** set algebra on truth values *)
Definition op_bool (o : op) (a b : bool) : bool :=
  match o with OpUnion => a || b | OpDifference => a && negb b | OpIntersect => a && b end.
Fixpoint ev {A} (m : A -> bool) (e : expr A) : bool :=
  match e with Leaf a => m a | Bin o e1 e2 => op_bool o (ev m e1) (ev m e2) end.

Lemma tree_point_gen {A} (f : A -> shape T) (m : A -> bool) (e : expr A) p :
  (forall a, shape_test_point (f a) p = Ok (Some (m a))) ->
  test_tree_point (to_tree (fun a => KShape (f a)) e) p = Ok (Some (ev m e)).
Proof.
  intros H. induction e as [a|o e1 IH1 e2 IH2]; cbn.
  - apply H.
  - rewrite IH1, IH2. cbn. destruct o; cbn; destruct (ev m e1), (ev m e2); reflexivity.
Qed.

(* ---- malformed trees ---- *)
Definition known (s : string) : Prop := s = "union"%string \/ s = "difference"%string \/ s = "intersect"%string.
(** node of a tree *)
Inductive subtree {K} : tree K -> tree K -> Prop :=
| sub_here t : subtree t t
| sub_left s k l r : subtree s l -> subtree s (Node k l r)
| sub_right s k l r : subtree s r -> subtree s (Node k l r).

(** an operator string at a node with fewer than two children, or an unknown operator string *)
Definition bad_string_node (t : tree (key T)) : Prop :=
  exists s l r, t = Node (KStr s) l r /\ (l = Nil \/ r = Nil \/ ~ known s).
Definition bad_shape_node (t : tree (key T)) : Prop :=
  exists sh l r, t = Node (KShape sh) l r /\ l <> Nil /\ r <> Nil.
Definition no_cylinder (t : tree (key T)) : Prop := forall c, ~ In (KShape (SCylinder c)) (keys t).

Lemma known_dec s : {known s} + {~ known s}.
Proof.
  destruct (string_dec s "union"); [left; left; assumption|].
  destruct (string_dec s "difference"); [left; right; left; assumption|].
  destruct (string_dec s "intersect"); [left; right; right; assumption|].
  right. intros [A|[A|A]]; contradiction.
Qed.
Lemma index_oper_unknown s : ~ known s -> index_oper (T := T) (KStr s) = Err KeyError.
Proof.
  intros H. cbn. destruct (String.eqb_spec s "union"); [exfalso; apply H; left; assumption|].
  destruct (String.eqb_spec s "difference"); [exfalso; apply H; right; left; assumption|].
  destruct (String.eqb_spec s "intersect"); [exfalso; apply H; right; right; assumption|]. reflexivity.
Qed.
Lemma csg_oper_unknown s : ~ known s -> csg_oper (T := T) (KStr s) = Err KeyError.
Proof.
  intros H. cbn. destruct (String.eqb_spec s "union"); [exfalso; apply H; left; assumption|].
  destruct (String.eqb_spec s "difference"); [exfalso; apply H; right; left; assumption|].
  destruct (String.eqb_spec s "intersect"); [exfalso; apply H; right; right; assumption|]. reflexivity.
Qed.

Definition raises {A} (r : Res A) : Prop := exists e, r = Err e.
Lemma bind_raises {A B} (r : Res A) (k : A -> Res B) : (forall a, r = Ok a -> raises (k a)) -> raises (bind r k).
Proof. destruct r as [a|e]; cbn; intros H; [apply H; reflexivity|exists e; reflexivity]. Qed.

Lemma bad_string_point t p : (exists s, subtree s t /\ bad_string_node s) -> raises (test_tree_point t p).
Proof.
  intros (s & Hs & Hb). induction Hs as [t|s k l r Hs IH|s k l r Hs IH].
  - destruct Hb as (s & l & r & -> & H). cbn [test_tree_point].
    apply bind_raises. intros a Ea. apply bind_raises. intros b Eb.
    destruct a as [a|], b as [b|]; try (eexists; reflexivity).
    destruct H as [->|[->|H]]; [cbn in Ea; discriminate|cbn in Eb; discriminate|].
    rewrite index_oper_unknown by exact H. eexists; reflexivity.
  - cbn [test_tree_point]. destruct (IH Hb) as [e E]. rewrite E. eexists; reflexivity.
  - cbn [test_tree_point]. destruct (IH Hb) as [e E]. apply bind_raises. intros a _. rewrite E. eexists; reflexivity.
Qed.
Lemma bad_string_intersect t (r : ray T) : (exists s, subtree s t /\ bad_string_node s) -> raises (test_tree_intersect t r).
Proof.
  intros (s & Hs & Hb). induction Hs as [t|s k l rt Hs IH|s k l rt Hs IH].
  - destruct Hb as (s & l & rt & -> & H). cbn [test_tree_intersect].
    apply bind_raises. intros a Ea. apply bind_raises. intros b Eb.
    destruct H as [->|[->|H]].
    + cbn in Ea. injection Ea as <-. eexists; reflexivity.
    + cbn in Eb. injection Eb as <-. destruct a; eexists; reflexivity.
    + rewrite csg_oper_unknown by exact H. destruct a, b; eexists; reflexivity.
  - cbn [test_tree_intersect]. destruct (IH Hb) as [e E]. rewrite E. eexists; reflexivity.
  - cbn [test_tree_intersect]. destruct (IH Hb) as [e E]. apply bind_raises. intros a _. rewrite E. eexists; reflexivity.
Qed.

Lemma keys_sub {K} (s t : tree K) k : subtree s t -> In k (keys s) -> In k (keys t).
Proof.
  induction 1 as [t|s k0 l r Hs IH|s k0 l r Hs IH]; intros H; auto.
  - right. apply in_or_app. left. auto.
  - right. apply in_or_app. right. auto.
Qed.
Lemma no_cyl_point t p v : no_cylinder t -> t <> Nil -> test_tree_point t p = Ok v -> v <> None.
Proof.
  destruct t as [|k l r]; [congruence|]. intros NC _ E. cbn in E.
  destruct (test_tree_point l p) as [a|]; [|discriminate]. cbn in E.
  destruct (test_tree_point r p) as [b|]; [|discriminate]. cbn in E.
  assert (X : key_test_point k p = Ok v -> v <> None).
  { destruct k as [s|s]; cbn; [discriminate|]. destruct s; cbn; try discriminate.
    - destruct (infcyl_test_point c p); cbn; [|discriminate]. intros Q; injection Q as <-; discriminate.
    - intros Q; injection Q as <-; discriminate.
    - exfalso. apply (NC c). left. reflexivity. }
  destruct a, b; auto. destruct (index_oper k); cbn in E; [|discriminate]. injection E as <-. discriminate.
Qed.
Lemma no_cyl_int t (r : ray T) v : no_cylinder t -> t <> Nil -> test_tree_intersect t r = Ok v -> v <> INone.
Proof.
  destruct t as [|k l rt]; [congruence|]. intros NC _ E. cbn in E.
  destruct (test_tree_intersect l r) as [a|]; [|discriminate]. cbn in E.
  destruct (test_tree_intersect rt r) as [b|]; [|discriminate]. cbn in E.
  assert (X : key_test_intersect k r = Ok v -> v <> INone).
  { destruct k as [s|s]; cbn; [discriminate|]. destruct s; cbn; try discriminate.
    - intros Q; injection Q as <-; discriminate.
    - destruct (circle_test_intersect c r); cbn; [|discriminate]. intros Q; injection Q as <-; discriminate.
    - destruct (infcyl_test_intersect c r); cbn; [|discriminate]. intros Q; injection Q as <-; discriminate.
    - intros Q; injection Q as <-; discriminate.
    - exfalso. apply (NC c). left. reflexivity.
    - destruct (rectangle_test_intersect r0 r); cbn; [|discriminate]. intros Q; injection Q as <-; discriminate. }
  assert (Y : forall f : Res (hit6 T -> hit6 T -> ray T -> Res (hit6 T)), (do f0 <- f; do a0 <- index6 a; do b0 <- index6 b; do h <- f0 a0 b0 r; Ok (I6 h)) = Ok v -> v <> INone).
  { intros [f|]; cbn; [|discriminate]. destruct (index6 a) as [h|]; cbn; [|discriminate]. destruct (index6 b) as [h0|]; cbn; [|discriminate].
    destruct (f h h0 r); cbn; [|discriminate]. intros Q; injection Q as <-; discriminate. }
  destruct a, b; eauto.
Qed.
Lemma no_cylinder_sub s t : subtree s t -> no_cylinder t -> no_cylinder s.
Proof. intros H NC c I. apply (NC c). eapply keys_sub; eauto. Qed.

Lemma bad_shape_point t p : no_cylinder t -> (exists s, subtree s t /\ bad_shape_node s) -> raises (test_tree_point t p).
Proof.
  intros NC (s & Hs & Hb). pose proof (no_cylinder_sub _ _ Hs NC) as NCs. clear NC.
  induction Hs as [t|s k l r Hs IH|s k l r Hs IH].
  - destruct Hb as (sh & l & r & -> & Hl & Hr). cbn [test_tree_point].
    apply bind_raises. intros a Ea. apply bind_raises. intros b Eb.
    apply no_cyl_point in Ea; [|eapply no_cylinder_sub; [apply sub_left, sub_here|exact NCs]|exact Hl].
    apply no_cyl_point in Eb; [|eapply no_cylinder_sub; [apply sub_right, sub_here|exact NCs]|exact Hr].
    destruct a, b; try congruence. eexists; reflexivity.
  - cbn [test_tree_point]. destruct (IH Hb NCs) as [e E]. rewrite E. eexists; reflexivity.
  - cbn [test_tree_point]. destruct (IH Hb NCs) as [e E]. apply bind_raises. intros a _. rewrite E. eexists; reflexivity.
Qed.
Lemma bad_shape_intersect t (r : ray T) : no_cylinder t -> (exists s, subtree s t /\ bad_shape_node s) ->
  raises (test_tree_intersect t r).
Proof.
  intros NC (s & Hs & Hb). pose proof (no_cylinder_sub _ _ Hs NC) as NCs. clear NC.
  induction Hs as [t|s k l rt Hs IH|s k l rt Hs IH].
  - destruct Hb as (sh & l & rt & -> & Hl & Hr). cbn [test_tree_intersect].
    apply bind_raises. intros a Ea. apply bind_raises. intros b Eb.
    apply no_cyl_int in Ea; [|eapply no_cylinder_sub; [apply sub_left, sub_here|exact NCs]|exact Hl].
    apply no_cyl_int in Eb; [|eapply no_cylinder_sub; [apply sub_right, sub_here|exact NCs]|exact Hr].
    destruct a, b; try congruence; eexists; reflexivity.
  - cbn [test_tree_intersect]. destruct (IH Hb NCs) as [e E]. rewrite E. eexists; reflexivity.
  - cbn [test_tree_intersect]. destruct (IH Hb NCs) as [e E]. apply bind_raises. intros a _. rewrite E. eexists; reflexivity.
Qed.

(** a one-child node holding a shape silently ignores the child *)
Lemma one_child_ignored sh sh' p b : shape_test_point sh p = Ok (Some b) -> shape_test_point sh' p = Ok (Some b) ->
  test_tree_point (Node (KShape sh) (Node (KShape sh') Nil Nil) Nil) p = Ok (Some b).
Proof. intros H H'. cbn. now rewrite H'. Qed.
End Member.

(* ------------------------------------------------------------------ *)
(** * Rendering *)
(** split a string at blanks, like s.split(' ') *)
Fixpoint split_blank (s : string) : list string :=
  match s with
  | EmptyString => [EmptyString]
  | String c s =>
      if Ascii.eqb c " " then EmptyString :: split_blank s
      else match split_blank s with
           | w :: ws => String c w :: ws
           | [] => [String c EmptyString]
           end
  end.
Lemma split_nonnil s : split_blank s <> [].
Proof. destruct s as [|c s]; cbn; [discriminate|]. destruct (Ascii.eqb c " "); [discriminate|]. destruct (split_blank s); discriminate. Qed.
Lemma split_inj s : forall s', split_blank s = split_blank s' -> s = s'.
Proof.
  induction s as [|c s IH]; intros [|c' s'] E; cbn in E.
  - reflexivity.
  - destruct (Ascii.eqb c' " "); [injection E as E; destruct (split_nonnil s'); now rewrite <- E|].
    destruct (split_blank s'); discriminate.
  - destruct (Ascii.eqb c " "); [injection E as E; destruct (split_nonnil s); now rewrite E|].
    destruct (split_blank s); discriminate.
  - pose proof (split_nonnil s) as N1. pose proof (split_nonnil s') as N2.
    destruct (Ascii.eqb_spec c " ") as [->|Nc], (Ascii.eqb_spec c' " ") as [->|Nc'].
    + injection E as E. f_equal. auto.
    + destruct (split_blank s'); [congruence|]. discriminate.
    + destruct (split_blank s); [congruence|]. discriminate.
    + destruct (split_blank s) as [|w ws] eqn:Es; [congruence|]. destruct (split_blank s') as [|w' ws'] eqn:Es'; [congruence|].
      injection E as -> -> ->. f_equal. apply IH. exact (eq_sym Es').
Qed.
Lemma split_app a b : split_blank (a ++ String " " b) = (split_blank a ++ split_blank b)%list.
Proof.
  induction a as [|c a IH]; cbn.
  - reflexivity.
  - destruct (Ascii.eqb c " "); [cbn; now rewrite IH|]. rewrite IH. pose proof (split_nonnil a).
    destruct (split_blank a); [congruence|]. reflexivity.
Qed.

Definition op_sym (o : op) : string := match o with OpUnion => "u" | OpDifference => "\" | OpIntersect => "n" end.
(** the fully parenthesised rendering of an expression whose leaves have the given names *)
Fixpoint render {A} (name : A -> string) (e : expr A) : string :=
  match e with
  | Leaf a => name a
  | Bin o e1 e2 => ("( " ++ render name e1 ++ " " ++ op_sym o ++ " " ++ render name e2 ++ " )")%string
  end.
(** names whose blank-separated words never are one of the five words used by the rendering *)
Definition reserved (w : string) : Prop := w = "("%string \/ w = ")"%string \/ w = "u"%string \/ w = "n"%string \/ w = "\"%string.
Definition plain (s : string) : Prop := forall w, In w (split_blank s) -> ~ reserved w.

Fixpoint toks {A} (name : A -> string) (e : expr A) : list string :=
  match e with
  | Leaf a => split_blank (name a)
  | Bin o e1 e2 => ("("%string :: toks name e1 ++ op_sym o :: toks name e2 ++ [")"%string])%list
  end.
Lemma render_toks {A} (name : A -> string) e : split_blank (render name e) = toks name e.
Proof.
  induction e as [a|o e1 IH1 e2 IH2]; [reflexivity|]. cbn [render toks].
  assert (S : split_blank (op_sym o) = [op_sym o]) by (destruct o; reflexivity).
  change (split_blank ("(" ++ String " " (render name e1 ++ String " " (op_sym o ++ String " " (render name e2 ++ String " " ")"))))
    = "("%string :: toks name e1 ++ op_sym o :: toks name e2 ++ [")"%string])%list.
  rewrite !split_app, IH1, IH2, S. reflexivity.
Qed.

(** the rest of a token list starts with a reserved word or is empty *)
Definition delim (l : list string) : Prop := match l with [] => True | w :: _ => reserved w end.
Lemma plain_split_unique l1 : forall l2 s1 s2, (forall w, In w l1 -> ~ reserved w) -> (forall w, In w l2 -> ~ reserved w) ->
  delim s1 -> delim s2 -> (l1 ++ s1 = l2 ++ s2)%list -> l1 = l2 /\ s1 = s2.
Proof.
  induction l1 as [|w l1 IH]; intros [|w' l2] s1 s2 P1 P2 D1 D2 E; cbn in E.
  - auto.
  - subst s1. cbn in D1. exfalso. apply (P2 w'); [left; reflexivity|exact D1].
  - subst s2. cbn in D2. exfalso. apply (P1 w); [left; reflexivity|exact D2].
  - injection E as -> E. destruct (IH l2 s1 s2) as [-> ->]; auto; intros v Hv; [apply P1|apply P2]; right; exact Hv.
Qed.
Lemma op_sym_reserved o : reserved (op_sym o).
Proof. destruct o; unfold reserved; cbn; tauto. Qed.
Lemma close_reserved : reserved ")". Proof. unfold reserved; tauto. Qed.
Lemma open_reserved : reserved "(". Proof. unfold reserved; tauto. Qed.
Lemma delim_op o l : delim (op_sym o :: l). Proof. exact (op_sym_reserved o). Qed.
Lemma delim_close l : delim (")"%string :: l). Proof. exact close_reserved. Qed.
Lemma op_sym_inj o o' : op_sym o = op_sym o' -> o = o'.
Proof. destruct o, o'; cbn; congruence. Qed.

Fixpoint all_leaves {A} (P : A -> Prop) (e : expr A) : Prop :=
  match e with Leaf a => P a | Bin _ a b => all_leaves P a /\ all_leaves P b end.
Lemma toks_unique {A B} (n1 : A -> string) (n2 : B -> string) :
  forall (e1 : expr A) (e2 : expr B) s1 s2, all_leaves (fun a => plain (n1 a)) e1 -> all_leaves (fun b => plain (n2 b)) e2 -> delim s1 -> delim s2 ->
  (toks n1 e1 ++ s1 = toks n2 e2 ++ s2)%list ->
  toks n1 e1 = toks n2 e2 /\ s1 = s2.
Proof.
  induction e1 as [a|o a IHa b IHb]; intros [a'|o' a' b'] s1 s2 P1 P2 D1 D2 E.
  - exact (plain_split_unique _ _ _ _ P1 P2 D1 D2 E).
  - cbn in E. pose proof (split_nonnil (n1 a)) as N. cbn [toks] in E.
    destruct (split_blank (n1 a)) as [|w ws] eqn:Ew; [congruence|]. injection E as -> _.
    exfalso. apply (P1 "("%string); [rewrite Ew; left; reflexivity|apply open_reserved].
  - cbn in E. pose proof (split_nonnil (n2 a')) as N.
    destruct (split_blank (n2 a')) as [|w ws] eqn:Ew; [congruence|]. injection E as <- _.
    exfalso. apply (P2 "("%string); [rewrite Ew; left; reflexivity|apply open_reserved].
  - cbn [toks] in *. rewrite <- !app_comm_cons in *. injection E as E. rewrite <- !app_assoc, <- !app_comm_cons in E.
    destruct (IHa a' _ _ (proj1 P1) (proj1 P2) (delim_op o _) (delim_op o' _) E) as [Ea E']. injection E' as Eo E'. rewrite <- !app_assoc in E'.
    destruct (IHb b' _ _ (proj2 P1) (proj2 P2) (delim_close _) (delim_close _) E') as [Eb E'']. injection E'' as E''.
    rewrite Ea, Eb, Eo. auto.
Qed.

Fixpoint map_expr {A B} (f : A -> B) (e : expr A) : expr B :=
  match e with Leaf a => Leaf (f a) | Bin o a b => Bin o (map_expr f a) (map_expr f b) end.
Lemma toks_inj {A B} (n1 : A -> string) (n2 : B -> string) :
  forall (e1 : expr A) (e2 : expr B), all_leaves (fun a => plain (n1 a)) e1 -> all_leaves (fun b => plain (n2 b)) e2 -> toks n1 e1 = toks n2 e2 -> map_expr n1 e1 = map_expr n2 e2.
Proof.
  induction e1 as [a|o a IHa b IHb]; intros [a'|o' a' b'] P1 P2 E.
  - cbn in *. f_equal. now apply split_inj.
  - cbn in E. pose proof (split_nonnil (n1 a)) as N.
    destruct (split_blank (n1 a)) as [|w ws] eqn:Ew; [congruence|]. injection E as -> _.
    exfalso. apply (P1 "("%string); [rewrite Ew; left; reflexivity|apply open_reserved].
  - cbn in E. pose proof (split_nonnil (n2 a')) as N.
    destruct (split_blank (n2 a')) as [|w ws] eqn:Ew; [congruence|]. injection E as <- _.
    exfalso. apply (P2 "("%string); [rewrite Ew; left; reflexivity|apply open_reserved].
  - cbn [toks map_expr] in *. injection E as E.
    destruct (toks_unique n1 n2 a a' _ _ (proj1 P1) (proj1 P2) (delim_op o _) (delim_op o' _) E) as [Ea E'].
    injection E' as Eo E'.
    destruct (toks_unique n1 n2 b b' _ _ (proj2 P1) (proj2 P2) (delim_close _) (delim_close _) E') as [Eb _].
    destruct P1, P2. f_equal; auto using op_sym_inj.
Qed.
Lemma render_inj {A B} (n1 : A -> string) (n2 : B -> string) :
  forall (e1 : expr A) (e2 : expr B), all_leaves (fun a => plain (n1 a)) e1 -> all_leaves (fun b => plain (n2 b)) e2 -> render n1 e1 = render n2 e2 -> map_expr n1 e1 = map_expr n2 e2.
Proof. intros e1 e2 P1 P2 E. apply toks_inj; auto. now rewrite <- !render_toks, E. Qed.

Section RenderModel.
Context {T : Type}.
Variable str_shape : shape T -> string.
Definition key_name (k : key T) : string := match k with KStr s => s | KShape s => str_shape s end.
Definition truthy_key (k : key T) : Prop := match k with KStr s => s <> ""%string | KShape _ => True end.
Lemma render_nonempty {A} (n : A -> string) o e1 e2 : render n (Bin o e1 e2) <> ""%string.
Proof. cbn. discriminate. Qed.
Lemma postOrder_value (e : expr (key T)) : all_leaves truthy_key e ->
  exists v, postOrderEval str_shape (to_tree (fun k => k) e) = Ok v /\ pstr str_shape v = render key_name e /\ ptruthy v = true /\
    match e with Leaf k => v = key_val k | Bin _ _ _ => v = PStr (render key_name e) end.
Proof.
  induction e as [k|o e1 IH1 e2 IH2]; intros H; cbn [to_tree postOrderEval bind].
  - exists (key_val k). destruct k as [s|s]; cbn in *.
    + repeat split. destruct (String.eqb_spec s ""); [contradiction|reflexivity].
    + repeat split.
  - destruct (IH1 (proj1 H)) as (v1 & E1 & S1 & T1 & _). destruct (IH2 (proj2 H)) as (v2 & E2 & S2 & T2 & _).
    rewrite E1, E2. cbn [bind]. rewrite T1, T2. cbn [andb].
    exists (PStr (render key_name (Bin o e1 e2))).
    assert (Q : (do f <- print_oper (T := T) (KStr (op_name o)); Ok (PStr (f (pstr str_shape v1) (pstr str_shape v2))))
                = Ok (@PStr T (render key_name (Bin o e1 e2)))).
    { rewrite S1, S2. destruct o; reflexivity. }
    rewrite Q. repeat split.
Qed.
End RenderModel.
