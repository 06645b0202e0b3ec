(** CSG trees of real spheres and infinite cylinders as sets of points. *)
From Coq Require Import Reals ZArith Lra List String Bool.
From Verif Require Import PyErr Num Vec Shapes Csg Spec XReal RVec VecProofs FlatProofs SphereProofs CylProofs ShapeExtra TreeProofs.
Import ListNotations.
Local Open Scope R_scope.

(** specification: solids and set algebra *)
Inductive solid := Ball (c : R3) (rad : R) | Cyl (c u : R3) (rad : R).
Definition member (s : solid) (x : R3) : Prop :=
  match s with Ball c rad => in_ball c rad x | Cyl c u rad => in_cylinder c (dirn u) rad x end.
Fixpoint den (e : expr solid) (x : R3) : Prop :=
  match e with
  | Leaf s => member s x
  | Bin OpUnion a b => den a x \/ den b x
  | Bin OpIntersect a b => den a x /\ den b x
  | Bin OpDifference a b => den a x /\ ~ den b x
  end.

(** the BinaryTree built from constructor calls for an expression *)
Inductive tree_of : expr solid -> tree (key xr) -> Prop :=
| TO_ball c rad Ro Do s : radius_arg Ro Do rad -> mk_sphere (fv c) (fo Ro) (fo Do) = Ok s ->
    tree_of (Leaf (Ball c rad)) (mk_tree (KShape (SSphere s)))
| TO_cyl c u rad Ro Do s : u <> r3zero -> 0 < rad -> radius_arg Ro Do rad ->
    mk_infcyl (fv c) (fv u) (fo Ro) (fo Do) = Ok s ->
    tree_of (Leaf (Cyl c u rad)) (mk_tree (KShape (SInfCyl s)))
| TO_bin o a b ta tb : tree_of a ta -> tree_of b tb ->
    tree_of (Bin o a b) (Node (KStr (op_name o)) ta tb).

Lemma tree_point_den e t x : tree_of e t ->
  exists b, test_tree_point t (fv x) = Ok (Some b) /\ (b = true <-> den e x).
Proof.
  induction 1 as [c rad Ro Do s HR E|c u rad Ro Do s Hu Hp HR E|o a b ta tb Ha (ra & Ea & Ia) Hb (rb & Eb & Ib)].
  - destruct (mk_sphere_inv _ _ _ _ _ HR E) as [D ->]. cbn. eexists; split; [reflexivity|].
    apply sphere_test_point_fv.
  - destruct (infcyl_point_mk _ _ _ _ _ _ x Hu HR E Hp) as (b & Eb & Ib). cbn. rewrite Eb. cbn. eauto.
  - cbn [test_tree_point]. rewrite Ea, Eb. cbn [bind].
    exists (op_bool o ra rb). split; [destruct o, ra, rb; reflexivity|].
    destruct o, ra, rb; cbn; rewrite <- Ia, <- Ib; intuition congruence.
Qed.
