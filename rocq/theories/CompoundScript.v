(** Model of script_testCompound.py, to the end of the loop that runs the rays, and of script_testBinaryTree.py. *)
From Coq Require Import ZArith String List Bool.
From Verif Require Import PyErr Num Vec Shapes Csg Optics General.
Import ListNotations.

Section CompoundScript.
Context {T : Type} {N : Num T} {TT : Trig T}.
Local Open Scope num_scope.
(** script_testCompound.py:21-38  Optic_list for given positions and D of the spheres (25 in the code) *)
Definition compound_scene (p1 p2 p3 : vec T) (D : T) : Res (list (optic T)) :=
  do mirror1 <- mk_sphere p1 None (Some D);
  do mirror2 <- mk_sphere p2 None (Some D);
  do mirror3 <- mk_sphere p3 None (Some D);
  do t <- insertLeft (mk_tree (KStr "union")) (KShape (SSphere mirror1));
  do t <- insertRight t (KStr "union");
  do t <- at_path [dR] (fun t => insertLeft t (KShape (SSphere mirror2))) t;
  do t <- at_path [dR] (fun t => insertRight t (KShape (SSphere mirror3))) t;
  Ok [OCompound (mkCompound t "reflect" (dec 15 1))].
(** script_testCompound.py:42-55  ray_x = np.linspace(x0, x1, nx), ray_z = np.linspace(z0, z1, nz) (in the code: 150, -20, 55, 76, 0, 0, 1) *)
Definition compound_script (fuel : nat) (p1 p2 p3 : vec T) (D max_distance x0 x1 : T) (nx : nat) (z0 z1 : T) (nz : nat) : Res (list (ray T) * list (optic T)) :=
  do scene <- compound_scene p1 p2 p3 D;
  let rays := flat_map (fun x => map (fun z => mk_ray (V x #0 z) (V #0 #1 #0) #532 #0 "normal") (linspace z0 z1 nz)) (linspace x0 x1 nx) in
  run_all fuel rays max_distance scene None.
(** script_testBinaryTree.py:13-28  the text that is printed, for given centres and D (1 in the code) *)
Definition binarytree_script (str_shape : shape T -> string) (cen1 cen2 cen3 cen4 : vec T) (D : T) : Res (@pval T) :=
  do r <- Ok (mk_tree (KStr "union"));
  do r <- insertLeft r (KStr "difference");
  do s1 <- mk_sphere cen1 None (Some D);
  do r <- insertRight r (KShape (SSphere s1));
  do r <- at_path [dL] (fun t => insertLeft t (KStr "intersect")) r;
  do s2 <- mk_sphere cen2 None (Some D);
  do r <- at_path [dL] (fun t => insertRight t (KShape (SSphere s2))) r;
  do s3 <- mk_sphere cen3 None (Some D);
  do r <- at_path [dL; dL] (fun t => insertLeft t (KShape (SSphere s3))) r;
  do s4 <- mk_sphere cen4 None (Some D);
  do r <- at_path [dL; dL] (fun t => insertRight t (KShape (SSphere s4))) r;
  postOrderEval str_shape r.
End CompoundScript.
