(** Model of the example scripts that image an object: script_testDMD.py (scene only), script_testImaging.py and script_testIdealRelay.py (from the first line to the end of the loop that runs the rays). *)
From Coq Require Import ZArith String List Bool.
From Verif Require Import PyErr Num Vec Shapes Csg Optics General.
Import ListNotations.

(** np.pi, np.tan, np.arctan (script_testDMD.py:44,54,55,66) *)
Class Tangent (T : Type) : Type := { tpi : T; ntan : T -> T; narctan : T -> T }.

(** the numbers of the script: lines 20-22 (lens1_f, object_y, lens1_y), 40, 48, 52, 63, 74-75 and the three angles in degrees of lines 44, 54 and 66 *)
Record dmd_args (T : Type) : Type := mkDmd {
  da_f1 : T; da_y0 : T; da_y1 : T; da_D1 : T; da_h : T; da_w : T; da_tilt : T; da_f2 : T; da_D2 : T; da_lens2 : T; da_det : T; da_dh : T; da_dw : T }.
Arguments mkDmd {T}. Arguments da_f1 {T}. Arguments da_y0 {T}. Arguments da_y1 {T}. Arguments da_D1 {T}. Arguments da_h {T}. Arguments da_w {T}. Arguments da_tilt {T}.
Arguments da_f2 {T}. Arguments da_D2 {T}. Arguments da_lens2 {T}. Arguments da_det {T}. Arguments da_dh {T}. Arguments da_dw {T}.

Section Scripts.
Context {T : Type} {N : Num T} {TT : Trig T} {TA : Tangent T}.
Local Open Scope num_scope.
(** Python's division of numbers *)
Definition pydiv (a b : T) : Res T := if b =? #0 then Err ZeroDivisionError else Ok (a / b).
(** script_testDMD.py:23-25  image_y *)
Definition dmd_image_y (a : dmd_args T) : Res T :=
  let object_dist := da_y1 a - da_y0 a in
  do x <- pydiv #1 (da_f1 a);
  do y <- pydiv #1 object_dist;
  do image_dist <- pydiv #1 (x - y);
  Ok (da_y1 a + image_dist).
Definition degrees (x : T) : T := x * tpi / #180.
(** script_testDMD.py:36-83  Optic_list.  The keyword tangent of Lens is not used by Lens.__init__; index is left at its default 1.5.  The script does not change the objects after the constructor calls,
    so the order of the calls only matters for which exception comes first: lens1, mirror1, lens2, detector1. *)
Definition dmd_scene (a : dmd_args T) : Res (list (optic T)) :=
  do image_y <- dmd_image_y a;
  do lens1 <- mk_lens (V #0 (da_y1 a) #0) (Some (V #0 #(-1) #0)) "spherical_biconvex" (Some (da_D1 a)) (Some (da_f1 a)) "ideal" (dec 15 1);
  let dmd_angle_tan := ntan (degrees (da_tilt a)) in
  do mirror1 <- mk_mirror (V #0 image_y #0) "rectangular_flat" (Some (V #0 #(-1) #0)) None (Some (da_w a)) (Some (da_h a)) None (Some (V #0 #0 #1)) "dmd" (Some (V dmd_angle_tan #(-1) #0));
  let lens2_dist := #2 * da_f2 a in
  let lens2_angle_tan := ntan (degrees (da_lens2 a)) in
  let lens2_angle_rad := narctan lens2_angle_tan in
  let lens2_y := image_y - lens2_dist * ncos lens2_angle_rad in
  let lens2_x := lens2_dist * - nsin lens2_angle_rad in
  do lens2 <- mk_lens (V lens2_x lens2_y #0) (Some (V lens2_angle_tan #1 #0)) "spherical_biconvex" (Some (da_D2 a)) (Some (da_f2 a)) "ideal" (dec 15 1);
  let det_dist := #4 * da_f2 a in
  let det_angle_tan := ntan (degrees (da_det a)) in
  let det_y := image_y - det_dist * ncos lens2_angle_rad in
  let det_x := det_dist * - nsin lens2_angle_rad in
  do detector1 <- mk_detector (V det_x det_y #0) (Some (V det_angle_tan #1 #0)) (Some (V #0 #0 #1)) "rectangular_flat" (Some (da_dw a)) (Some (da_dh a));
  Ok [OMirror mirror1; OLens lens1; OLens lens2; ODetector detector1].
(** the script itself *)
Definition script_dmd : dmd_args T := mkDmd #50 #0 #100 #25 #50 #50 (dec 109 1) #25 #25 (- dec 218 1) (- dec 436 1) #30 #30.

(** script_testImaging.py:27, script_testIdealRelay.py:29,32  image distance of a lens *)
Definition thin_dist (f object_dist : T) : Res T :=
  do x <- pydiv #1 f;
  do y <- pydiv #1 object_dist;
  pydiv #1 (x - y).
(** script_testImaging.py:23-57  Optic_list for given lens_f, object_y, lens_y, D, h, w (the magnification is only printed) *)
Definition imaging_scene (f y0 y1 D h w : T) : Res (list (optic T)) :=
  let object_dist := y1 - y0 in
  do image_dist <- thin_dist f object_dist;
  let image_y := y1 + image_dist in
  do _ <- pydiv image_dist object_dist;
  do lens1 <- mk_lens (V #0 y1 #0) (Some (V #0 #(-1) #0)) "spherical_biconvex" (Some D) (Some f) "ideal" (dec 15 1);
  do detector1 <- mk_detector (V #0 image_y #0) (Some (V #0 #(-1) #0)) (Some (V #0 #0 #1)) "rectangular_flat" (Some w) (Some h);
  Ok [OLens lens1; ODetector detector1].
(** script_testIdealRelay.py:23-69  Optic_list for given lens_f1, lens_f2, object_y, lens_y1, lens_y2, the two D, h, w *)
Definition relay_scene (f1 f2 y0 y1 y2 D1 D2 h w : T) : Res (list (optic T)) :=
  let object_dist := y1 - y0 in
  do relay_img_dist1 <- thin_dist f1 object_dist;
  let relay_img_y := y1 + relay_img_dist1 in
  let relay_img_dist2 := y2 - relay_img_y in
  do image_dist <- thin_dist f2 relay_img_dist2;
  let image_y := y2 + image_dist in
  do _ <- pydiv image_dist object_dist;
  do lens1 <- mk_lens (V #0 y1 #0) (Some (V #0 #(-1) #0)) "spherical_biconvex" (Some D1) (Some f1) "ideal" (dec 15 1);
  do lens2 <- mk_lens (V #0 y2 #0) (Some (V #0 #(-1) #0)) "spherical_biconvex" (Some D2) (Some f2) "ideal" (dec 15 1);
  do detector1 <- mk_detector (V #0 image_y #0) (Some (V #0 #(-1) #0)) (Some (V #0 #0 #1)) "rectangular_flat" (Some w) (Some h);
  Ok [OLens lens1; OLens lens2; ODetector detector1].
(** script_testImaging.py:63-64, script_testIdealRelay.py:75-76  for ix, origin in enumerate(origins): Ray(origins[ix], dirs[ix], wavelength=waves[ix]) *)
Fixpoint script_rays (origins dirs : list (vec T)) (waves : list T) : Res (list (ray T)) :=
  match origins with
  | [] => Ok []
  | o :: origins =>
      match dirs, waves with
      | d :: dirs, w :: waves => do rs <- script_rays origins dirs waves; Ok (mk_ray o d w #0 "normal" :: rs)
      | _, _ => Err IndexError
      end
  end.
(** script_testImaging.py:59-69, script_testIdealRelay.py:71-81  the rays of the object at y = 0, run one after the other *)
Definition script_shoot (fuel : nat) (scene : list (optic T)) (max_distance size angle : T) (x_res z_res angle_res : Z) : Res (list (ray T) * list (optic T)) :=
  do (origins, dirs, waves) <- image_rays #0 size angle x_res z_res angle_res "circle" #5;
  do rays <- script_rays origins dirs waves;
  run_all fuel rays max_distance scene None.
(** script_testImaging.py up to line 69 *)
Definition imaging_script (fuel : nat) (f y1 D h w max_distance size angle : T) (x_res z_res angle_res : Z) : Res (list (ray T) * list (optic T)) :=
  do scene <- imaging_scene f #0 y1 D h w;
  script_shoot fuel scene max_distance size angle x_res z_res angle_res.
(** script_testIdealRelay.py up to line 81 *)
Definition relay_script (fuel : nat) (f1 f2 y1 y2 D1 D2 h w max_distance size angle : T) (x_res z_res angle_res : Z) : Res (list (ray T) * list (optic T)) :=
  do scene <- relay_scene f1 f2 #0 y1 y2 D1 D2 h w;
  script_shoot fuel scene max_distance size angle x_res z_res angle_res.
End Scripts.
