(** C94: unions and differences, exactly when the ray query is right (general_optics.py:308-624). *)
From Coq Require Import Reals ZArith Lra Lia Psatz List String Bool.
From Verif Require Import PyErr Num Vec Shapes Csg Spec XReal RVec VecProofs FlatProofs SphereProofs CylProofs ShapeExtra TreeProofs SolidProofs CsgProofs CsgStart CsgExact Props_Nested.
Import ListNotations.
Local Open Scope R_scope.

(** A union of any number of solids, nested in any way: the query gives the nearest surface point of any member, whatever the start, with the inward normal of that member; a miss means no surface is met. *)
Theorem C94_nearest : forall o a b t p d r, let e := Bin o a b in tree_of e t -> only OpUnion e -> is_unit d -> ray_is r p d ->
  (forall s, In s (solids e) -> regular s p d /\ clear0 s p d) ->
  exists h, test_tree_intersect t r = Ok (I6 h) /\
  ((h6_flag h = true /\ exists u s, In s (solids e) /\ 1e-12 < u /\ surface s (at_t p d u) /\ none_before (solids e) p d u /\
      h6_p1 h = Some (fv (at_t p d u)) /\ h6_n1 h = Some (fv (inward s (at_t p d u)))) \/
   (h6_flag h = false /\ forall s u, In s (solids e) -> 0 < u -> ~ surface s (at_t p d u))).
Proof.
  intros o a b t p d r e HT HO Hd Hr K. destruct (nearest_tree e t p d r HT HO Hd Hr K) as (h & E & N & Q). exists h. split; [exact E|].
  destruct N as [(u & s & Is & L & Sf & Bf & F & (k & Eh))|N]; [left|right; exact N]. split; [exact F|]. exists u, s.
  destruct (Q o a b eq_refl F _ _ _ _ Eh) as [P1 N1]. auto 10.
Qed.
Print Assumptions C94_nearest.

(** The query of a union gives the first crossing of the union, or correctly a miss, exactly if the start is outside the union (or on its surface going out), or no surface of a member is met before
    the ray leaves the union. *)
Theorem C94_union : forall o a b t p d r, let e := Bin o a b in tree_of e t -> only OpUnion e -> is_unit d -> ray_is r p d ->
  (forall s, In s (solids e) -> regular s p d /\ clear0 s p d) ->
  (right_query t r (fun u => den e (at_t p d u)) p d (solids e) <-> fair_union e p d).
Proof. exact union_exact. Qed.
Print Assumptions C94_union.

(** The query of a difference A minus B gives the first crossing, or correctly a miss, exactly in the fair cases; it raises ValueError exactly if A is met and B is not; in all cases it raises nothing else. *)
Theorem C94_difference : forall s1 s2 t p d r, tree_of (Bin OpDifference (Leaf s1) (Leaf s2)) t -> is_unit d -> ray_is r p d ->
  regular s1 p d -> regular s2 p d -> clear0 s1 p d -> clear0 s2 p d -> no_common s1 s2 p d ->
  let A u := member s1 (at_t p d u) in let B u := member s2 (at_t p d u) in
  (right_query t r (fun u => A u /\ ~ B u) p d [s1; s2] <-> fair_difference A B) /\
  (test_tree_intersect t r = Err ValueError <-> (exists u, 0 < u /\ A u) /\ forall u, 0 < u -> ~ B u) /\
  (test_tree_intersect t r <> Err ValueError -> exists h, test_tree_intersect t r = Ok (I6 h)).
Proof. exact difference_exact. Qed.
Print Assumptions C94_difference.

(** Consequence: from inside B, in front of A, the difference is never right. *)
Theorem C94_from_B : forall s1 s2 t p d r, tree_of (Bin OpDifference (Leaf s1) (Leaf s2)) t -> is_unit d -> ray_is r p d ->
  regular s1 p d -> regular s2 p d -> clear0 s1 p d -> clear0 s2 p d -> no_common s1 s2 p d ->
  let A u := member s1 (at_t p d u) in let B u := member s2 (at_t p d u) in
  starts_outside A -> starts_in B -> (exists u, 0 < u /\ A u) -> ~ right_query t r (fun u => A u /\ ~ B u) p d [s1; s2].
Proof.
  intros s1 s2 t p d r HT Hd Hr R1 R2 C1 C2 NC A B OA IB (u & Pu & Au) Q. apply (difference_exact s1 s2 t p d r HT Hd Hr R1 R2 C1 C2 NC) in Q.
  destruct Q as [N|[_ [(_ & O & _)|[(I & _)|(I & _)]]]]; [exact (N u Pu Au)|exact (both_in _ IB O)|exact (both_in _ I OA)|exact (both_in _ I OA)].
Qed.
Print Assumptions C94_from_B.

Lemma axis_clear0 x rad : 0 < rad -> (x - rad = 0 \/ 1e-12 < Rabs (x - rad)) -> (x + rad = 0 \/ 1e-12 < Rabs (x + rad)) -> clear0 (axis_ball x rad) org ex.
Proof.
  intros P A B t S. cbn [surface axis_ball] in S. unfold on_sphere in S. rewrite axis_dist3 in S.
  assert (K : t = x - rad \/ t = x + rad) by (unfold Rabs in S; destruct (Rcase_abs (t - x)); lra). destruct K as [-> | ->]; assumption.
Qed.
Ltac cl0 := apply axis_clear0; [lra|..]; first [left; lra|right; unfold Rabs; destruct (Rcase_abs _); lra].
(** a start on the surface of the first of two overlapping balls, going in: the other ball's surface is met inside the union, so the query is wrong; and with the second ball past the first, it is right *)
Example C94_hyp : let a := axis_ball 3 3 in let b := axis_ball 7 2 in let c := axis_ball 10 1 in
  (exists t, tree_of (Bin OpUnion (Leaf a) (Leaf b)) t) /\ (forall s, In s [a; b; c] -> regular s org ex /\ clear0 s org ex) /\
  ~ fair_union (Bin OpUnion (Leaf a) (Leaf b)) org ex /\ fair_union (Bin OpUnion (Leaf a) (Leaf c)) org ex.
Proof.
  intros a b c. split; [apply axis_tree2|]. split.
  { intros s I. cbn in I. destruct I as [<-|[<-|[<-|[]]]]; (split; [apply axis_regular; lra|cl0]). }
  assert (Sf : forall x rad u, 0 < rad -> (surface (axis_ball x rad) (at_t org ex u) <-> u = x - rad \/ u = x + rad)).
  { intros x rad u P. cbn [surface axis_ball]. unfold on_sphere. rewrite axis_dist3. unfold Rabs. destruct (Rcase_abs (u - x)); lra. }
  split.
  - intros [(e & He & N)|(t & Nx & Bf)].
    + apply (N (Rmin e 1 / 2)); [unfold Rmin; destruct (Rle_dec e 1); lra|]. cbn [den]. left. unfold a. apply axis_member. unfold Rmin; destruct (Rle_dec e 1); lra.
    + assert (Nx' : next_crossing (fun u => den (Bin OpUnion (Leaf a) (Leaf b)) (at_t org ex u)) 9).
      { split; [lra|]. right. cbn [den]. unfold a, b. split; [intros u Hu; rewrite !axis_member; lra|]. exists 1. split; [lra|]. intros u Hu. rewrite !axis_member. lra. }
      rewrite (nc_unique _ _ _ Nx Nx') in Bf. apply (Bf b 5); [cbn; auto|lra|]. unfold b. apply Sf; lra.
  - right. exists 6. split.
    + split; [lra|]. right. cbn [den]. unfold a, c. split; [intros u Hu; rewrite !axis_member; lra|]. exists 1. split; [lra|]. intros u Hu. rewrite !axis_member. lra.
    + intros s u I Hu. cbn in I. destruct I as [<-|[<-|[]]]; unfold a, c; rewrite Sf by lra; lra.
Qed.
(** a drilled ball: from the drilled side, a fair query; from inside the drill hole, in front of the ball, an unfair one *)
Example C94_hyp_difference : let a := axis_ball 10 3 in let b := axis_ball 7 1 in let b' := axis_ball 5 6 in
  (exists t, tree_of (Bin OpDifference (Leaf a) (Leaf b)) t) /\ (forall s, In s [a; b; b'] -> regular s org ex /\ clear0 s org ex) /\ no_common a b org ex /\ no_common a b' org ex /\
  fair_difference (fun u => member a (at_t org ex u)) (fun u => member b (at_t org ex u)) /\
  ~ fair_difference (fun u => member a (at_t org ex u)) (fun u => member b' (at_t org ex u)).
Proof.
  intros a b b'. split; [apply axis_tree2|]. split.
  { intros s I. cbn in I. destruct I as [<-|[<-|[<-|[]]]]; (split; [apply axis_regular; lra|cl0]). }
  split; [apply axis_nc; lra|]. split; [apply axis_nc; lra|]. split.
  - apply (fair_ahead _ _ (10 - 3) (10 + 3) (7 - 1) (7 + 1)); try lra; intros u; apply axis_member.
  - apply (fair_in_B _ _ (10 - 3) (10 + 3) (5 - 6) (5 + 6)); try lra; intros u; apply axis_member.
Qed.
