(** Model of more example scripts, from their first line to the end of the loop that runs the rays: script_testThinlens.py, script_testIdealLenses.py, script_testCylinder.py, and the seven scripts that stop at a constructor call. *)
From Coq Require Import ZArith String List Bool.
From Verif Require Import PyErr Num Vec Shapes Csg Optics General Scripts.
Import ListNotations.

(** Python's check of the keywords of a call against the parameters of the function: an unknown keyword is a TypeError, before the body runs *)
Definition check_keywords (params given : list string) : Res unit :=
  if forallb (fun k => existsb (String.eqb k) params) given then Ok tt else Err TypeError.
(** optics3d.py:325-326  the parameters of Lens.__init__ (after self) *)
Definition Lens_params : list string := ["position"; "normal"; "shape"; "D"; "w"; "h"; "f"; "tangent"; "type"; "index"]%string.

Section MoreScripts.
Context {T : Type} {N : Num T} {TT : Trig T} {A : Type}.
Local Open Scope num_scope.
(** In the following six, [rest] stands for all lines of the script after the call shown.
    script_czerny1.py:17-22 *)
Definition script_czerny1 (rest : mirror T -> Res A) : Res A :=
  do mirror1 <- mk_mirror (V #0 #150 #0) "circular_concave_spherical" (Some (V (dec 25 2) #(-1) #0)) (Some (dec 508 1)) None None (Some #150) None "normal" None;
  rest mirror1.
(** script_test.py:16-28 *)
Definition script_test (rest : mirror T -> Res A) : Res A :=
  do mirror1 <- mk_mirror (V #0 #100 #0) "circular_flat" (Some (V #0 #(-1) #0)) (Some #50) None None None None "normal" None;
  rest mirror1.
(** script_testConcaveMirror.py:15-25 *)
Definition script_testConcaveMirror (rest : mirror T -> Res A) : Res A :=
  do mirror1 <- mk_mirror (V #0 #50 #0) "circular_concave_spherical" (Some (V #0 #(-1) #0)) (Some #50) None None (Some #50) None "normal" None;
  rest mirror1.
(** script_testConvexSphereMirror.py:15-27 *)
Definition script_testConvexSphereMirror (rest : mirror T -> Res A) : Res A :=
  do mirror1 <- mk_mirror (V #0 #50 #0) "circular_convex_spherical" None (Some #25) None None None None "normal" None;
  rest mirror1.
(** script_testRectangleMirror.py:15-19 *)
Definition script_testRectangleMirror (rest : mirror T -> Res A) : Res A :=
  do mirror1 <- mk_mirror (V #0 #50 #0) "rectangular_flat" (Some (V #0 #(-1) #0)) None (Some #50) (Some #50) None (Some (V #0 #0 #1)) "normal" None;
  rest mirror1.
(** script_testShortRun.py:16-27 *)
Definition script_testShortRun (rest : mirror T -> Res A) : Res A :=
  do mirror1 <- mk_mirror (V #0 #100 #0) "circular_flat" (Some (V #0 #(-1) #0)) (Some #50) None None None None "normal" None;
  rest mirror1.
(** script_testBallLens.py:16-18  the call has the keywords shape, D, thinlens and index *)
Definition script_testBallLens (rest : lens T -> Res A) : Res A :=
  do _ <- check_keywords Lens_params ["shape"; "D"; "thinlens"; "index"]%string;
  do lens1 <- mk_lens (V #0 #100 #0) None "spherical" (Some #50) None "normal" (dec 15 1);
  rest lens1.

(** script_testThinlens.py:16-23  Optic_list for given y of the lens, D and f *)
Definition thinlens_scene (y1 D f : T) : Res (list (optic T)) :=
  do lens1 <- mk_lens (V #0 y1 #0) (Some (V #0 #(-1) #0)) "spherical_biconvex" (Some D) (Some f) "ideal" (dec 15 1);
  Ok [OLens lens1].
(** script_testThinlens.py:25-41  the rays start at all (x, y, z) with x in x_start, y in y_start, z in z_start, along +y *)
Definition thinlens_script (fuel : nat) (y1 D f max_distance : T) (x_start y_start z_start : list T) : Res (list (ray T) * list (optic T)) :=
  do scene <- thinlens_scene y1 D f;
  let rays := flat_map (fun x => flat_map (fun y => map (fun z => mk_ray (V x y z) (V #0 #1 #0) #532 #0 "normal") z_start) y_start) x_start in
  run_all fuel rays max_distance scene None.
(** script_testIdealLenses.py:23-67  Optic_list for given lens_f1, lens_f2, lens_y1, lens_y2, D of the lenses, h, w; object_y = 0 *)
Definition ideal_scene (f1 f2 y1 y2 D h w : T) : Res (list (optic T)) :=
  let object_dist := y1 - #0 in
  let image_dist := #2 * f2 in
  let image_y := y2 + image_dist in
  do _ <- pydiv image_dist object_dist;
  do lens1 <- mk_lens (V #0 y1 #0) (Some (V #0 #(-1) #0)) "spherical_biconvex" (Some D) (Some f1) "ideal_collimate" (dec 15 1);
  do lens2 <- mk_lens (V #0 y2 #0) (Some (V #0 #(-1) #0)) "spherical_biconvex" (Some D) (Some f2) "ideal_focus" (dec 15 1);
  do detector1 <- mk_detector (V #0 image_y #0) (Some (V #0 #(-1) #0)) (Some (V #0 #0 #1)) "rectangular_flat" (Some w) (Some h);
  Ok [OLens lens1; OLens lens2; ODetector detector1].
(** script_testIdealLenses.py:69-80 (in the code: 50, 25, 50, 75, 50, 30, 30, 150, 10, arctan (1 / 2 / 8), 1, 1, 5) *)
Definition ideal_script (fuel : nat) (f1 f2 y1 y2 D h w max_distance size angle : T) (x_res z_res angle_res : Z) : Res (list (ray T) * list (optic T)) :=
  do scene <- ideal_scene f1 f2 y1 y2 D h w;
  script_shoot fuel scene max_distance size angle x_res z_res angle_res.

(** script_testCylinder.py:19-27  Optic_list for given centre, R, direction and index *)
Definition cylinder_scene (center : vec T) (R : T) (direction : vec T) (index : T) : Res (list (optic T)) :=
  do shape1 <- mk_infcyl center direction (Some R) None;
  Ok [OCompound (mkCompound (mk_tree (KShape (SInfCyl shape1))) "reflect" index)].
(** script_testCylinder.py:30-51  the rays start at all (x, y, z) with x in x_start, y in y_start, z in z_start, along +x; then n faerie-fire rays (1000 in the code) at the distance
    max_ray_run_distance * 0.85; [draw] stands for np.random.normal *)
Definition cylinder_script (fuel : nat) (draw : nat -> T) (rfuel : nat) (center : vec T) (R : T) (direction : vec T) (index max_distance : T) (x_start y_start z_start : list T) (n : Z) : Res (list (ray T) * list (optic T)) :=
  do scene <- cylinder_scene center R direction index;
  let rays := flat_map (fun x => flat_map (fun y => map (fun z => mk_ray (V x y z) (V #1 #0 #0) #532 #0 "normal") z_start) y_start) x_start in
  do rays <- add_faerie_fire_rays fuel draw rays (max_distance * dec 85 2) center n;
  run_all rfuel rays max_distance scene None.
End MoreScripts.
