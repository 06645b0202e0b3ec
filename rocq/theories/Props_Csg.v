(** Properties C16-C18: ray queries on compound solids (general_optics.py:379-624). *)
From Coq Require Import Reals ZArith Lra Psatz List String Bool.
From Verif Require Import PyErr Num Vec Shapes Csg Spec XReal RVec VecProofs FlatProofs SphereProofs CylProofs ShapeExtra TreeProofs SolidProofs CsgProofs.
Import ListNotations.
Local Open Scope R_scope.

(** C16 (partial): union trees of spheres and infinite cylinders of any depth >= 1.  Missing: a tree that is a single
    leaf (refuted below), lines tangent to a member or parallel to a cylinder's axis, and crossings within 1e-12 of the
    start.  The reported point is the first crossing of the union's boundary, lies on a member's surface with that
    member's inward normal, and a miss is reported exactly when no member is met. *)
Theorem C16_union_partial : forall o a b t p d r, let e := Bin o a b in
  tree_of e t -> only OpUnion e -> is_unit d -> ray_is r p d ->
  (forall s, In s (solids e) -> regular s p d /\ clear s p d /\ ~ member s p) ->
  let S u := den e (at_t p d u) in
  exists h, test_tree_intersect t r = Ok (I6 h) /\
  ((exists u s, h6_flag h = true /\ h6_p1 h = Some (fv (at_t p d u)) /\ In s (solids e) /\ surface s (at_t p d u) /\
      h6_n1 h = Some (fv (inward s (at_t p d u))) /\ first_crossing S u) \/
   (h6_flag h = false /\ forall u, 0 <= u -> ~ S u)).
Proof. intros o a b t p d r e. exact (union_first e o a b t p d r eq_refl). Qed.
Print Assumptions C16_union_partial.

Lemma axis_ok x rad : 0 < rad -> 1 < x - rad -> outside_clear (axis_ball x rad) org ex.
Proof.
  intros H K. split; [apply axis_regular; exact H|]. split.
  - apply axis_clear; [exact H| |]; rewrite Rabs_right by lra; lra.
  - rewrite <- (at_t_0 org ex), axis_member. lra.
Qed.
(** two unit balls at distance 10 and 5: hypotheses hold, and the ray meets the nearer one at 4 *)
Example C16_hyp : let e := Bin OpUnion (Leaf (axis_ball 10 1)) (Leaf (axis_ball 5 1)) in
  (exists t, tree_of e t) /\ only OpUnion e /\ (forall s, In s (solids e) -> outside_clear s org ex) /\
  first_crossing (fun u => den e (at_t org ex u)) 4.
Proof.
  intros e. split; [apply axis_tree2|]. split; [cbn; auto|]. split.
  - intros s [<-|[<-|[]]]; apply axis_ok; lra.
  - split; [lra|]. left. unfold e; cbn [den].
    assert (X : forall u, (member (axis_ball 10 1) (at_t org ex u) \/ member (axis_ball 5 1) (at_t org ex u)) <-> (9 < u < 11 \/ 4 < u < 6)).
    { intros u. rewrite !axis_member. lra. }
    split.
    + exists 1. split; [lra|]. split; intros s Hs; [intros K; apply X in K|apply X]; lra.
    + intros s Hs K. apply X in K. lra.
Qed.
(** C16 is false for the one-leaf tree: a lone sphere's first reported point is the far one. *)
Theorem C16_single_leaf_refuted : exists s t r, tree_of (Leaf s) t /\ ray_is r org ex /\ outside_clear s org ex /\
  exists h, test_tree_intersect t r = Ok (I6 h) /\ h6_flag h = true /\ h6_p1 h = Some (fv (at_t org ex 6)) /\
   first_crossing (fun u => member s (at_t org ex u)) 4.
Proof.
  destruct (mk_sphere (fv (mk3 5 0 0)) (fo (Some 1)) (fo None)) as [s|] eqn:E.
  2:{ exfalso. revert E. unfold mk_sphere. cbn [fo option_map]. rewrite check_R_only. discriminate. }
  exists (axis_ball 5 1), (mk_tree (KShape (SSphere s))), (mkRay (fv org) (fv ex) (Fin 0) (Fin 0) [] false ""%string).
  assert (R0 : ray_is (mkRay (fv org) (fv ex) (Fin 0) (Fin 0) [] false ""%string) org ex) by (split; reflexivity).
  split; [eapply TO_ball; [|exact E]; reflexivity|]. split; [exact R0|]. split; [apply axis_ok; lra|].
  destruct (mk_sphere_inv (mk3 5 0 0) (Some 1) None 1 s eq_refl E) as [D ->].
  cbn [test_tree_intersect bind key_test_intersect shape_test_intersect mk_tree]. eexists. split; [reflexivity|].
  destruct (sphere_cases (mk3 5 0 0) 1 D org ex _ ex_unit R0).
  - assert (A : t0 = 4 /\ t1 = 6).
    { rewrite (Rabs_right 1) in SR_on by lra.
      assert (Q4 : 4 = t0 \/ 4 = t1) by (apply SR_on, (axis_surface 5 1); lra).
      assert (Q6 : 6 = t0 \/ 6 = t1) by (apply SR_on, (axis_surface 5 1); lra). lra. }
    destruct A as [-> ->]. rewrite SR_res. cbv zeta. rewrite (Rltb_true_intro 1e-12 4) by lra.
    split; [reflexivity|]. split; [reflexivity|]. apply fc_enter with 6; [lra|]. intros u _. rewrite axis_member. lra.
  - exfalso. destruct (axis_regular 5 1) as [_ N]; [lra|]. apply N. assumption.
  - exfalso. rewrite (Rabs_right 1) in SM_on by lra. apply (SM_on 4). apply (axis_surface 5 1); lra.
Qed.
Print Assumptions C16_single_leaf_refuted.

(** C17 (partial): intersect of two spheres or infinite cylinders, start anywhere.  Missing: tangent/parallel lines,
    crossings within 1e-12 of the start, and rays through a common point of both surfaces (refuted below). *)
Theorem C17_intersect_partial : forall s1 s2 t p d r,
  tree_of (Bin OpIntersect (Leaf s1) (Leaf s2)) t -> is_unit d -> ray_is r p d ->
  regular s1 p d -> regular s2 p d -> clear s1 p d -> clear s2 p d -> no_common s1 s2 p d ->
  let S u := member s1 (at_t p d u) /\ member s2 (at_t p d u) in
  exists h, test_tree_intersect t r = Ok (I6 h) /\ crossing_report S p d h /\ on_member_surface s1 s2 p d h.
Proof. exact intersect_two. Qed.
Print Assumptions C17_intersect_partial.
Example C17_hyp : exists t, tree_of (Bin OpIntersect (Leaf (axis_ball 10 3)) (Leaf (axis_ball 13 4))) t /\
  no_common (axis_ball 10 3) (axis_ball 13 4) org ex /\
  first_crossing (fun u => member (axis_ball 10 3) (at_t org ex u) /\ member (axis_ball 13 4) (at_t org ex u)) 9.
Proof.
  destruct (axis_tree2 OpIntersect 10 3 13 4) as [t Ht]. exists t. split; [exact Ht|]. split.
  - intros u Hu [A B]. apply axis_surface in A; [|lra]. apply axis_surface in B; [|lra]. lra.
  - apply fc_enter with 13; [lra|]. intros u _. rewrite !axis_member. lra.
Qed.
(** C17 is false when both spheres are entered at the same point: the overlap is missed. *)
Theorem C17_tie_refuted : exists t, tree_of (Bin OpIntersect (Leaf (axis_ball 10 3)) (Leaf (axis_ball 9 2))) t /\
  (forall r, ray_is r org ex -> exists h, test_tree_intersect t r = Ok (I6 h) /\ h6_flag h = false) /\
  first_crossing (fun u => member (axis_ball 10 3) (at_t org ex u) /\ member (axis_ball 9 2) (at_t org ex u)) 7.
Proof.
  destruct (axis_tree2 OpIntersect 10 3 9 2) as [t Ht]. exists t. split; [exact Ht|]. split.
  - intros r Hr. apply (intersect_tie (axis_ball 10 3) (axis_ball 9 2) t org ex r 7 13 11 Ht ex_unit Hr).
    1,2: apply axis_regular; lra.
    1,2: apply axis_clear; [lra| |]; rewrite Rabs_right; lra.
    1,2,3: lra.
    1,2: intros u; rewrite axis_member; lra.
  - apply fc_enter with 11; [lra|]. intros u _. rewrite !axis_member. lra.
Qed.
Print Assumptions C17_tie_refuted.

(** C18 (partial): difference of two solids, right in the configurations [diff_ok] only (A not ahead; both ahead and B
    not wholly in front of A; inside A only and A ends first; inside both and B ends first).  The other
    configurations are wrong in the code: the two theorems below refute them for every such ray. *)
Theorem C18_difference_partial : forall s1 s2 t p d r,
  tree_of (Bin OpDifference (Leaf s1) (Leaf s2)) t -> is_unit d -> ray_is r p d ->
  regular s1 p d -> regular s2 p d -> clear s1 p d -> clear s2 p d -> no_common s1 s2 p d -> diff_ok s1 s2 p d ->
  let S u := member s1 (at_t p d u) /\ ~ member s2 (at_t p d u) in
  exists h, test_tree_intersect t r = Ok (I6 h) /\ crossing_report S p d h.
Proof. exact diff_ok_correct. Qed.
Print Assumptions C18_difference_partial.
(** ball at 10 radius 3 minus ball at 8 radius 2: first point is B's far side at 10 *)
Example C18_hyp : diff_ok (axis_ball 10 3) (axis_ball 8 2) org ex /\ no_common (axis_ball 10 3) (axis_ball 8 2) org ex /\
  exists u, 0 <= u /\ member (axis_ball 10 3) (at_t org ex u).
Proof.
  unfold diff_ok. rewrite !axis_member. split; [|split].
  - right. split; [exists 8; rewrite axis_member; lra|]. left. split; [lra|]. split; [lra|].
    exists 8, 9. rewrite !axis_member. lra.
  - intros u Hu [A B]. apply axis_surface in A; [|lra]. apply axis_surface in B; [|lra]. lra.
  - exists 10. rewrite axis_member. lra.
Qed.
(** whenever the ray meets A ahead and never meets B, the query raises ValueError (line 613) *)
Theorem C18_raises_refuted :
  (forall s1 s2 t p d r, tree_of (Bin OpDifference (Leaf s1) (Leaf s2)) t -> is_unit d -> ray_is r p d ->
   regular s1 p d -> regular s2 p d -> clear s1 p d -> clear s2 p d ->
   (exists u, 0 <= u /\ member s1 (at_t p d u)) -> (forall u, 0 <= u -> ~ member s2 (at_t p d u)) ->
   test_tree_intersect t r = Err ValueError) /\
  (exists t, tree_of (Bin OpDifference (Leaf (axis_ball 10 3)) (Leaf (axis_ball (-5) 1))) t /\
   forall r, ray_is r org ex -> test_tree_intersect t r = Err ValueError).
Proof.
  split; [exact diff_only_A|]. destruct (axis_tree2 OpDifference 10 3 (-5) 1) as [t Ht]. exists t. split; [exact Ht|].
  intros r Hr. apply (diff_only_A (axis_ball 10 3) (axis_ball (-5) 1) t org ex r Ht ex_unit Hr).
  1,2: apply axis_regular; lra.
  - apply axis_clear; [lra| |]; rewrite Rabs_right; lra.
  - apply axis_clear; [lra| |]; rewrite Rabs_left; lra.
  - exists 10. rewrite axis_member. lra.
  - intros u Hu K. apply axis_member in K. lra.
Qed.
Print Assumptions C18_raises_refuted.
(** whenever B lies wholly in front of A, the far side of B is reported although A \ B starts later *)
Theorem C18_in_front_refuted :
  (forall s1 s2 t p d r a0 a1 b0 b1, tree_of (Bin OpDifference (Leaf s1) (Leaf s2)) t -> is_unit d -> ray_is r p d ->
   regular s1 p d -> regular s2 p d -> clear s1 p d -> clear s2 p d -> 0 < b0 < b1 -> b1 < a0 -> a0 < a1 ->
   (forall u, member s1 (at_t p d u) <-> a0 < u < a1) -> (forall u, member s2 (at_t p d u) <-> b0 < u < b1) ->
   exists h, test_tree_intersect t r = Ok (I6 h) /\ h6_flag h = true /\ h6_p1 h = Some (fv (at_t p d b1))) /\
  (exists t, tree_of (Bin OpDifference (Leaf (axis_ball 10 3)) (Leaf (axis_ball 5 1))) t /\
   (forall r, ray_is r org ex -> exists h, test_tree_intersect t r = Ok (I6 h) /\ h6_p1 h = Some (fv (at_t org ex 6))) /\
   first_crossing (fun u => member (axis_ball 10 3) (at_t org ex u) /\ ~ member (axis_ball 5 1) (at_t org ex u)) 7).
Proof.
  split; [exact diff_B_first|]. destruct (axis_tree2 OpDifference 10 3 5 1) as [t Ht]. exists t. split; [exact Ht|]. split.
  - intros r Hr. destruct (diff_B_first (axis_ball 10 3) (axis_ball 5 1) t org ex r 7 13 4 6 Ht ex_unit Hr) as (h & E & _ & P).
    1,2: apply axis_regular; lra.
    1,2: apply axis_clear; [lra| |]; rewrite Rabs_right; lra.
    1,2,3: lra.
    1,2: intros u; rewrite axis_member; lra.
    exists h. auto.
  - apply fc_enter with 13; [lra|]. intros u _. rewrite !axis_member. lra.
Qed.
Print Assumptions C18_in_front_refuted.
