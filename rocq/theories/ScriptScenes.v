(** Model of the example scripts that look at compounds with faerie fire, from the first line to the end of the loop that runs the rays: script_testCompoundIntersect.py, script_testCompoundDifference.py,
    and the scenes and faerie-fire rays of script_testSingletLens.py and script_testBestformLens.py. *)
From Coq Require Import ZArith String List Bool.
From Verif Require Import PyErr Num Vec Shapes Csg Optics General.
Import ListNotations.
Section ScriptScenes.
Context {T : Type} {N : Num T} {TT : Trig T}.
Local Open Scope num_scope.
(** script_testCompoundIntersect.py:24-31, script_testCompoundDifference.py:26-33, script_testSingletLens.py:25-31, script_testBestformLens.py:36-42  two balls, given by centre and D, under one operator:
    Sphere(pos, D=D) twice, BinaryTree(op), insertLeft, insertRight, Compound(tree, surface_behavior, index) *)
Definition two_balls (op : string) (c1 : vec T) (D1 : T) (c2 : vec T) (D2 : T) (behavior : string) (index : T) : Res (optic T) :=
  do s1 <- mk_sphere c1 None (Some D1);
  do s2 <- mk_sphere c2 None (Some D2);
  let tree := mk_tree (KStr op) in
  do tree <- insertLeft tree (KShape (SSphere s1));
  do tree <- insertRight tree (KShape (SSphere s2));
  Ok (OCompound (mkCompound tree behavior index)).
(** script_testCompoundIntersect.py:21-35  Optic_list, for given positions on the y axis and diameters *)
Definition intersect_scene (y1 D1 y2 D2 : T) : Res (list (optic T)) :=
  do o <- two_balls "intersect" (V #0 y1 #0) D1 (V #0 y2 #0) D2 "reflect" (dec 15 1); Ok [o].
(** script_testCompoundDifference.py:23-37  Optic_list (the surface behaviour and index are the defaults, optics3d.py:85) *)
Definition difference_scene (y1 D1 y2 D2 : T) : Res (list (optic T)) :=
  do o <- two_balls "difference" (V #0 y1 #0) D1 (V #0 y2 #0) D2 "reflect" (dec 15 1); Ok [o].
(** script_testSingletLens.py:18-34  Optic_list *)
Definition singlet_scene (y_center r1 center_thick index : T) : Res (list (optic T)) :=
  do o <- two_balls "intersect" (V #0 (y_center + r1 - center_thick / #2) #0) (r1 * #2) (V #0 (y_center - r1 + center_thick / #2) #0) (r1 * #2) "refract" index; Ok [o].
(** script_testBestformLens.py:19-45  Optic_list; x1_ and x2_ (lines 28-29) are not used *)
Definition bestform_scene (y_backprinciple center_thick f f_back r1 r2 index : T) : Res (list (optic T)) :=
  do o <- two_balls "intersect" (V #0 (y_backprinciple + r1 - (center_thick - (f - f_back))) #0) (r1 * #2) (V #0 (y_backprinciple - r2 + (f - f_back)) #0) (r2 * #2) "refract" index; Ok [o].
(** script_testCompoundIntersect.py:37-45, script_testCompoundDifference.py:40-48, and the faerie-fire rays of script_testSingletLens.py:57-64 and script_testBestformLens.py:66-72:
    add_faerie_fire_rays(Ray_list, FF_radius, FF_center, N) and the loop that runs all rays.  [draw] stands for np.random.normal. *)
Definition fire_script (fuel : nat) (draw : nat -> T) (rfuel : nat) (scene : list (optic T)) (FF_radius : T) (FF_center : vec T) (n : Z) (max_distance : T) : Res (list (ray T) * list (optic T)) :=
  do rays <- add_faerie_fire_rays fuel draw [] FF_radius FF_center n;
  run_all rfuel rays max_distance scene None.
(** the scripts with their numbers; [n] is the number of rays (1000 in the code) *)
Definition script_testCompoundIntersect (fuel : nat) (draw : nat -> T) (rfuel : nat) (n : Z) : Res (list (ray T) * list (optic T)) :=
  do scene <- intersect_scene #80 #65 #20 #65; fire_script fuel draw rfuel scene (#150 - #50) (V #0 #50 #0) n #150.
Definition script_testCompoundDifference (fuel : nat) (draw : nat -> T) (rfuel : nat) (n : Z) : Res (list (ray T) * list (optic T)) :=
  do scene <- difference_scene #60 #30 #40 #30; fire_script fuel draw rfuel scene (#150 - #50) (V #0 #50 #0) n #150.
Definition singlet_fire (fuel : nat) (draw : nat -> T) (rfuel : nat) (n : Z) : Res (list (ray T) * list (optic T)) :=
  do scene <- singlet_scene #400 (dec 1024 1) (dec 36 1) (dec 15167 4); fire_script fuel draw rfuel scene (#550 - #100) (V #0 #400 #0) n #550.
Definition bestform_fire (fuel : nat) (draw : nat -> T) (rfuel : nat) (n : Z) : Res (list (ray T) * list (optic T)) :=
  do scene <- bestform_scene #400 (dec 40 1) #100 (dec 973 1) (dec 6002 2) (dec 35330 2) (dec 15167 4); fire_script fuel draw rfuel scene (#550 - #100) (V #0 #400 #0) n #550.
End ScriptScenes.
