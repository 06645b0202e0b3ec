(** Model of script_testSingletLens.py and script_testBestformLens.py, from the first line to the end of the loop that runs the rays. *)
From Coq Require Import ZArith String List Bool.
From Verif Require Import PyErr Num Vec Shapes Csg Optics General ScriptScenes.
Import ListNotations.
Section LensScripts.
Context {T : Type} {N : Num T} {TT : Trig T}.
Local Open Scope num_scope.
(** script_testSingletLens.py:37-64, script_testBestformLens.py:47-72  the two look-ups that are printed, the rays for x_start, y_start, z_start, the faerie-fire rays, the loop that runs all rays.
    [draw] stands for np.random.normal, [n] is the number of faerie-fire rays (1000 in the code). *)
Definition lens_script (fuel : nat) (draw : nat -> T) (rfuel : nat) (scene : list (optic T)) (zero_pos center_pos : vec T) (max_distance FF_radius : T) (x_start y_start z_start : list T) (n : Z)
  : Res (T * T * (list (ray T) * list (optic T))) :=
  do world <- get_index_at_point scene zero_pos;
  do glass <- get_index_at_point scene center_pos;
  let rays := flat_map (fun x => flat_map (fun y => map (fun z => mk_ray (V x y z) (V #0 #1 #0) #532 #0 "normal") z_start) y_start) x_start in
  do rays <- add_faerie_fire_rays fuel draw rays FF_radius center_pos n;
  do res <- run_all rfuel rays max_distance scene None;
  Ok (world, glass, res).
(** script_testSingletLens.py:45-47, script_testBestformLens.py:54-56  x_start, y_start, z_start; script_testSingletLens.py:43, 57, script_testBestformLens.py:52, 66  550 and 550 - 100 *)
Definition lens_fan (fuel : nat) (draw : nat -> T) (rfuel : nat) (scene : list (optic T)) (n : Z) : Res (T * T * (list (ray T) * list (optic T))) :=
  lens_script fuel draw rfuel scene (V #0 #0 #0) (V #0 #400 #0) #550 (#550 - #100) [#0] [#0] (linspace ((- dec 254 1) / #4) (dec 254 1 / #4) 21) n.
(** script_testSingletLens.py:18-64 *)
Definition script_testSingletLens (fuel : nat) (draw : nat -> T) (rfuel : nat) (n : Z) : Res (T * T * (list (ray T) * list (optic T))) :=
  do scene <- singlet_scene #400 (dec 1024 1) (dec 36 1) (dec 15167 4); lens_fan fuel draw rfuel scene n.
(** script_testBestformLens.py:19-72 *)
Definition script_testBestformLens (fuel : nat) (draw : nat -> T) (rfuel : nat) (n : Z) : Res (T * T * (list (ray T) * list (optic T))) :=
  do scene <- bestform_scene #400 (dec 40 1) #100 (dec 973 1) (dec 6002 2) (dec 35330 2) (dec 15167 4); lens_fan fuel draw rfuel scene n.
End LensScripts.
