(** C108: what accompanies a reported hit, for every number type: which of the fields of an answer are present. *)
From Coq Require Import ZArith String List Bool SpecFloat.
From Verif Require Import PyErr Num Vec Shapes Csg Optics XReal FloatInst.
Import ListNotations.
Local Open Scope string_scope.

Section Reports.
Context {T : Type} {N : Num T}.
Local Open Scope num_scope.

(** an answer of six values is in order: a hit has a first point and a first normal, a second normal exactly with a second point; a miss has none of them *)
Definition in_order (h : hit6 T) : Prop :=
  match h with
  | H6 true (Some _) p2 (Some _) n2 _ => p2 = None /\ n2 = None \/ exists p n, p2 = Some p /\ n2 = Some n
  | H6 false None None None None _ => True
  | _ => False
  end.
(** one point only *)
Definition single (h : hit6 T) : Prop := match h with H6 true (Some _) None (Some _) None _ | H6 false None None None None _ => True | _ => False end.
Lemma single_order h : single h -> in_order h.
Proof. destruct h as [[|] [?|] [?|] [?|] [?|] ?]; cbn; tauto. Qed.

(** Solids.  A sphere is hit iff the discriminant is positive and one of the two roots exceeds the floor, or the discriminant is 0; the points are on the line of the ray at these roots. *)
Theorem C108_sphere : forall (s : sphere T) (r : ray T),
  let q := vsub (sp_center s) (position r) in let b := dot (direction r) q in let disc := b * b - (dot q q - sp_R s * sp_R s) in
  let t0 := b - nsqrt disc in let t1 := b + nsqrt disc in let at' t := vadd (position r) (vscale t (direction r)) in let h := sphere_test_intersect s r in
  in_order h /\
  h6_flag h = (if ngt disc #0 then ngt t0 INTERSECT_CLIPPING_FLOOR || ngt t1 INTERSECT_CLIPPING_FLOOR else neqb disc #0)%bool /\
  (ngt disc #0 = true -> forall p, h6_p1 h = Some p \/ h6_p2 h = Some p -> exists t, (t = t0 \/ t = t1) /\ p = at' t /\ ngt t INTERSECT_CLIPPING_FLOOR = true) /\
  (h6_p2 h <> None -> exists p p', h6_p1 h = Some p /\ h6_p2 h = Some p' /\ (p = at' t0 /\ p' = at' t1 \/ p = at' t1 /\ p' = at' t0) /\ h6_count h = 2%Z) /\
  (forall p, h6_p1 h = Some p -> h6_n1 h = Some (sphere_normal s p)) /\ (forall p, h6_p2 h = Some p -> h6_n2 h = Some (sphere_normal s p)).
Proof.
  intros s r q b disc t0 t1 at' h. unfold h, sphere_test_intersect. fold q. fold b. fold disc. fold t0. fold t1. fold (at' t0). fold (at' t1). fold (at' b).
  destruct (ngt disc #0) eqn:E; [|destruct (neqb disc #0)]; [destruct (ngt t0 _) eqn:E0; destruct (ngt t1 _) eqn:E1; cbn [andb orb]; [destruct (t0 <? t1)| | |]| |];
    cbn [in_order h6_flag h6_p1 h6_p2 h6_n1 h6_n2 h6_count]; (split; [first [exact I|right; do 2 eexists; split; reflexivity|left; split; reflexivity]|]; split; [reflexivity|]);
    (split; [intros X p [F|F]; try discriminate; injection F as <-; eauto|]); (split; [intros X; try (elim X; reflexivity); do 2 eexists; repeat split; auto|]); (split; intros p F; try discriminate; injection F as <-; reflexivity).
Qed.
Theorem C108_cylinder : forall (c : infcyl T) (r : ray T),
  (infcyl_test_intersect c r = Err ZeroDivisionError <-> neqb (ic_R c) #0 = true) /\
  (neqb (ic_R c) #0 = false -> exists h, infcyl_test_intersect c r = Ok h /\ in_order h /\ (h6_p2 h <> None -> h6_count h = 2%Z) /\
     (forall p, h6_p1 h = Some p \/ h6_p2 h = Some p -> exists t, p = vadd (position r) (vscale t (direction r))) /\
     (forall p, h6_p1 h = Some p -> h6_n1 h = Some (infcyl_normal c p)) /\ (forall p, h6_p2 h = Some p -> h6_n2 h = Some (infcyl_normal c p))).
Proof.
  intros c r. unfold infcyl_test_intersect. destruct (neqb (ic_R c) #0); [split; [tauto|discriminate]|]. cbv zeta.
  match goal with |- context [ngt ?d #0] => destruct (ngt d #0) end.
  - split; [split; discriminate|]. intros _. eexists. split; [reflexivity|].
    match goal with |- context [ngt ?a INTERSECT_CLIPPING_FLOOR && ngt ?b INTERSECT_CLIPPING_FLOOR] => destruct (ngt a INTERSECT_CLIPPING_FLOOR); destruct (ngt b INTERSECT_CLIPPING_FLOOR); cbn [andb]; [destruct (a <? b)| | |] end;
      cbn [in_order h6_flag h6_p1 h6_p2 h6_n1 h6_n2 h6_count]; (split; [first [exact I|right; do 2 eexists; split; reflexivity|left; split; reflexivity]|]); (split; [intros X; first [reflexivity|elim X; reflexivity]|]);
      (split; [intros p [F|F]; try discriminate; injection F as <-; eexists; reflexivity|]); (split; intros p F; try discriminate; injection F as <-; reflexivity).
  - match goal with |- context [neqb ?d #0] => destruct (neqb d #0) end; (split; [split; discriminate|]); intros _; eexists; (split; [reflexivity|]); cbn [in_order h6_flag h6_p1 h6_p2 h6_n1 h6_n2 h6_count];
      (split; [first [exact I|left; split; reflexivity]|]); (split; [intros X; elim X; reflexivity|]); (split; [intros p [F|F]; try discriminate; injection F as <-; eexists; reflexivity|]); (split; intros p F; try discriminate; injection F as <-; reflexivity).
Qed.

(** Trees *)
Lemma helper_order h r m : in_order h -> h6_flag h = true -> exists p n d c, helper_findIntersects h r m = Ok (Some p, Some n, Some d, c).
Proof.
  destruct h as [f p1 p2 n1 n2 k]. cbn [h6_flag in_order]. intros O ->. destruct p1 as [p|]; [|contradiction]. destruct n1 as [n|]; [|contradiction]. unfold helper_findIntersects. cbn [h6_p1 h6_p2 h6_n1 h6_n2].
  destruct O as [(-> & ->)|(p' & n' & -> & ->)]; [repeat eexists|]. destruct m; [destruct (_ <? _)|destruct (ngt _ _)]; repeat eexists.
Qed.
Lemma oper_order k f a b r h : csg_oper k = Ok f -> in_order a -> in_order b -> f a b r = Ok h -> single h.
Proof.
  intros Ek Oa Ob E.
  assert (K : f = operCsgUnion \/ f = operCsgDifference \/ f = operCsgIntersect).
  { destruct k as [s|s]; cbn in Ek; [|discriminate]. repeat match type of Ek with (if ?c then _ else _) = _ => destruct c end; try discriminate; injection Ek as <-; auto. }
  destruct (h6_flag a) eqn:Fa; destruct (h6_flag b) eqn:Fb; destruct K as [-> |[-> | ->]]; revert E; unfold operCsgUnion, operCsgDifference, operCsgIntersect; rewrite Fa, Fb; cbn [andb];
    repeat (match goal with |- context [helper_findIntersects ?x ?r ?m] => let p := fresh "p" in let n := fresh "n" in let d := fresh "d" in let c := fresh "c" in let E := fresh "E" in destruct (helper_order x r m ltac:(assumption) ltac:(assumption)) as (p & n & d & c & E); rewrite E; cbn [bind] end);
    cbn [olt need bind]; repeat (match goal with |- context [if ?c then _ else _] => destruct c end; cbn [olt need bind]); let Q := fresh in intros Q; try discriminate Q; injection Q as <-; exact I.
Qed.
(** Whatever the tree: if the query answers with six values they are in order, and an operator answers with one point at most. *)
Theorem C108_tree : forall (t : tree (key T)) (r : ray T) h, test_tree_intersect t r = Ok (I6 h) ->
  in_order h /\ (single h \/ exists s l rt, t = Node (KShape s) l rt /\ shape_test_intersect s r = Ok (I6 h)).
Proof.
  induction t as [|k l IHl rt IHr]; intros r h E; cbn [test_tree_intersect] in E; [discriminate|].
  destruct (test_tree_intersect l r) as [a|x] eqn:El; cbn [bind] in E; [|discriminate]. destruct (test_tree_intersect rt r) as [b|x] eqn:Er; cbn [bind] in E; [|discriminate].
  assert (Leaf : key_test_intersect k r = Ok (I6 h) -> in_order h /\ (single h \/ exists s l' rt', Node k l rt = Node (KShape s) l' rt' /\ shape_test_intersect s r = Ok (I6 h))).
  { destruct k as [x|s]; cbn [key_test_intersect]; [discriminate|]. intros Q. split; [|right; do 3 eexists; split; [reflexivity|exact Q]].
    destruct s as [q|q|q|q|q|q]; cbn [shape_test_intersect] in Q; try discriminate.
    - destruct (circle_test_intersect q r); discriminate.
    - destruct (infcyl_test_intersect q r) as [h'|e] eqn:Ec; [|discriminate]. cbn [bind] in Q. injection Q as <-. destruct (C108_cylinder q r) as [Z K].
      destruct (neqb (ic_R q) #0) eqn:E0; [rewrite (proj2 Z eq_refl) in Ec; discriminate|]. destruct (K eq_refl) as (h2 & E2 & O & _). congruence.
    - injection Q as <-. exact (proj1 (C108_sphere q r)).
    - destruct (rectangle_test_intersect q r); discriminate. }
  assert (Oper : forall a' b', a = I6 a' -> b = I6 b' -> (do f <- csg_oper k; do x <- index6 a; do y <- index6 b; do z <- f x y r; Ok (I6 z)) = Ok (I6 h) -> single h).
  { intros a' b' -> ->. destruct (csg_oper k) as [f|e] eqn:Ek; cbn [bind index6]; [|discriminate]. destruct (f a' b' r) as [z|e] eqn:Ef; cbn [bind]; [|discriminate]. intros Q. injection Q as <-.
    eapply oper_order; [exact Ek|exact (proj1 (IHl _ _ El))|exact (proj1 (IHr _ _ Er))|exact Ef]. }
  destruct a as [|a'|a']; [exact (Leaf E)| |].
  - destruct b as [|b'|b']; [exact (Leaf E)| |]; exfalso; destruct (csg_oper k); discriminate.
  - destruct b as [|b'|b']; [exact (Leaf E)| |pose proof (Oper _ _ eq_refl eq_refl E) as S; split; [now apply single_order|now left]]. exfalso. destruct (csg_oper k); discriminate.
Qed.
Theorem C108_compound : forall (c : compound T) (r : ray T) h, optic_test_intersect (OCompound c) r = Ok h ->
  match h with H4 true (Some _) (Some _) (SfoBool _) | H4 false None None (SfoBool _) => True | _ => False end.
Proof.
  intros c r h E. cbn [optic_test_intersect] in E. unfold compound_test_intersect in E. destruct (test_tree_intersect (co_tree c) r) as [i|e] eqn:Et; cbn [bind] in E; [|discriminate].
  destruct i as [|x|h']; cbn [unpack6 bind] in E; try discriminate. injection E as <-. destruct (C108_tree _ _ _ Et) as [O _]. destruct h' as [[|] [?|] [?|] [?|] [?|] ?]; cbn in *; tauto.
Qed.
End Reports.
Print Assumptions C108_sphere.
Print Assumptions C108_cylinder.
Print Assumptions C108_tree.
Print Assumptions C108_compound.
(** in binary64: a ball of radius 2 at distance 10 less a ball of radius 1 on its front, seen from the origin, answers with a hit; and the ball alone with two points *)
Example C108_hyp : let z : b64 := nofZ 0 in let r := mk_ray (V z z z) (V z (nofZ 1) z) (nofZ 532) z "normal" in
  let ball y R := KShape (SSphere (mkSphere (V z (nofZ y) z) (nofZ R) (nofZ (2 * R)))) in
  match test_tree_intersect (N := Num_b64) (Node (KStr "difference") (Node (ball 10%Z 2%Z) Nil Nil) (Node (ball 8%Z 1%Z) Nil Nil)) r, test_tree_intersect (N := Num_b64) (Node (ball 10%Z 2%Z) Nil Nil) r with
  | Ok (I6 h), Ok (I6 h') => h6_flag h = true /\ h6_flag h' = true /\ h6_p2 h' <> None | _, _ => False end.
Proof. vm_compute. repeat split. discriminate. Qed.
