(** The repository's own unit tests (test_*.py) and some of its script scenes, run on the model in binary64 arithmetic.  These are tests of the model
    against the authors' expectations, not properties; nothing in MANIFEST.json rests on them. *)
From Coq Require Import ZArith Floats.SpecFloat String List Bool.
From Verif Require Import PyErr Num Vec Shapes Csg Optics FloatInst.
Import ListNotations.
Local Open Scope string_scope.

Definition v3 (x y z : Z) : vec b64 := V (nofZ x) (nofZ y) (nofZ z).
(** np.isclose with its defaults rtol = 1e-5, atol = 1e-8, on all components *)
Definition close (a b : vec b64) : bool := vallclose a b (f 1 5) (f 1 8).
Definition thirds (x y z : Z) : vec b64 := V (ndiv (nofZ x) (nofZ 3)) (ndiv (nofZ y) (nofZ 3)) (ndiv (nofZ z) (nofZ 3)).

(** test_projectontoplane.py *)
Example test_project_onto_xz_plane :
  forallb (fun x => close (project_onto_plane x (v3 0 1 0)) (v3 1 0 1)) [v3 1 1 1; v3 1 0 1; v3 1 (-1) 1] = true.
Proof. vm_compute. reflexivity. Qed.
Example test_project_onto_arb_plane :
  forallb (fun '(x, ans) => close (project_onto_plane x (V (f 5 1) (nofZ 1) (f 5 1))) ans)
    [(v3 1 1 1, thirds 1 (-1) 1); (v3 1 0 1, thirds 2 (-2) 2); (v3 1 (-1) 1, v3 1 (-1) 1)] = true.
Proof. vm_compute. reflexivity. Qed.
Example test_project_the_norm : close (project_onto_plane (v3 (-1) 1 (-1)) (v3 (-1) 1 (-1))) (v3 0 0 0) = true.
Proof. vm_compute. reflexivity. Qed.

(** test_rectangleintersect.py *)
Definition my_rectangle : Res (rectangle b64) := mk_rectangle (v3 0 5 0) (Some (v3 0 (-1) 0)) (Some (v3 0 0 1)) (Some (nofZ 1)) (Some (nofZ 1)).
Definition a_test_ray (p d : vec b64) : ray b64 := mk_ray p d (nofZ 532) (nofZ 0) "normal".
Definition rect_flag (p : vec b64) : Res bool :=
  do q <- my_rectangle; do h <- rectangle_test_intersect q (a_test_ray p (v3 0 1 0)); Ok (h3_flag h).
Example test_rectangle : rect_flag (v3 0 0 0) = Ok true /\ rect_flag (V (nofZ 0) (nofZ 0) (f 499 3)) = Ok true /\
  rect_flag (V (nofZ 0) (nofZ 0) (f 501 3)) = Ok false.
Proof. vm_compute. auto. Qed.

(** test_sphereintersect.py *)
Definition sphere_res (p d : vec b64) : Res (bool * bool) :=
  do s <- mk_sphere (v3 0 10 0) (Some (nofZ 1)) None;
  let h := sphere_test_intersect s (a_test_ray p d) in Ok (h6_flag h, match h6_p2 h with Some _ => true | None => false end).
Example test_sphere_two_hits : sphere_res (v3 0 0 0) (v3 0 1 0) = Ok (true, true).
Proof. vm_compute. reflexivity. Qed.
Example test_sphere_one_hit : forall p d, In (p, d) [(v3 0 10 0, v3 0 1 0); (v3 0 10 0, v3 0 (-1) 0); (v3 0 10 0, v3 0 0 1); (v3 0 10 0, v3 0 0 (-1)); (v3 1 0 0, v3 0 1 0)] ->
  sphere_res p d = Ok (true, false).
Proof. intros p d H. cbn [In] in H. repeat (destruct H as [H|H]; [injection H as <- <-; vm_compute; reflexivity|]). destruct H. Qed.
Example test_sphere_misses : sphere_res (v3 0 0 0) (v3 0 (-1) 0) = Ok (false, false) /\ sphere_res (v3 2 0 0) (v3 0 1 0) = Ok (false, false).
Proof. vm_compute. auto. Qed.

(** script_testBinaryTree.py *)
Definition ball_at (x y z : Z) : Res (sphere b64) := mk_sphere (v3 x y z) None (Some (nofZ 1)).
Definition testBinaryTree (str : shape b64 -> string) : Res (@pval b64) :=
  do s1 <- ball_at 1 1 1; do s2 <- ball_at (-3) (-3) (-3); do s3 <- ball_at 3 (-1) 3; do s4 <- ball_at 1 5 (-1);
  let key x := KShape (SSphere x) in
  do r <- insertLeft (mk_tree (KStr "union")) (KStr "difference");
  do r <- insertRight r (key s1);
  do r <- at_path [dL] (fun t => insertLeft t (KStr "intersect")) r;
  do r <- at_path [dL] (fun t => insertRight t (key s2)) r;
  do r <- at_path [dL; dL] (fun t => insertLeft t (key s3)) r;
  do r <- at_path [dL; dL] (fun t => insertRight t (key s4)) r;
  postOrderEval str r.
Definition by_x (s : shape b64) : string :=
  match s with SSphere s => if neqb (vx (sp_center s)) (nofZ 3) then "C" else if neqb (vx (sp_center s)) (nofZ (-3)) then "B"
    else if neqb (vy (sp_center s)) (nofZ 5) then "D" else "A" | _ => "?" end.
Example test_BinaryTree : testBinaryTree by_x = Ok (PStr "( ( ( C n D ) \ B ) u A )").
Proof. vm_compute. reflexivity. Qed.

Section Scenes.
Context {TT : Trig b64}.
(** script_testSingletLens.py: index inside and outside, and the central ray passes straight through *)
Definition r1 : b64 := f 1024 1.
Definition half_thick : b64 := f 18 1.
Definition singlet : Res (optic b64) :=
  do a <- mk_sphere (V (nofZ 0) (nsub (nadd (nofZ 400) r1) half_thick) (nofZ 0)) None (Some (nmul r1 (nofZ 2)));
  do b <- mk_sphere (V (nofZ 0) (nadd (nsub (nofZ 400) r1) half_thick) (nofZ 0)) None (Some (nmul r1 (nofZ 2)));
  do t <- insertLeft (mk_tree (KStr "intersect")) (KShape (SSphere a));
  do t <- insertRight t (KShape (SSphere b));
  Ok (OCompound (mkCompound t "refract" (f 15167 4))).
Example singlet_index : (do o <- singlet; get_index_at_point [o] (v3 0 0 0)) = Ok (nofZ 1) /\ (do o <- singlet; get_index_at_point [o] (v3 0 400 0)) = Ok (f 15167 4).
Proof. vm_compute. auto. Qed.
Definition ends (r : Res (ray b64 * list (optic b64))) : Res (nat * vec b64 * vec b64 * bool) :=
  do (r, _) <- r; Ok (List.length (point_history r), position r, direction r, blocked r).
Definition singlet_run (z : b64) := ends (do o <- singlet; run 10 (a_test_ray (V (nofZ 0) (nofZ 0) z) (v3 0 1 0)) (nofZ 550) [o] None).
Definition near (a b tol : b64) : bool := nle (nabs (nsub a b)) tol.
Example singlet_axis : match singlet_run (nofZ 0) with Ok (4%nat, p, d, false) => close p (v3 0 550 0) && close d (v3 0 1 0) | _ => false end = true.
Proof. vm_compute. reflexivity. Qed.
(** a ray 1 mm off axis crosses the axis about 100 mm behind the lens (f = 100 mm lens: r1 = 102.4, n = 1.5167, thickness 3.6) *)
Example singlet_focus : match singlet_run (nofZ 1) with
  | Ok (4%nat, p, d, false) => near (nsub (vy p) (ndiv (nmul (vz p) (vy d)) (vz d))) (nofZ 499) (nofZ 2)
  | _ => false end = true.
Proof. vm_compute. reflexivity. Qed.

(** script_testCompound.py: three overlapping reflecting spheres; the ray x = 0 returns along itself *)
Definition three : Res (optic b64) :=
  do a <- mk_sphere (v3 0 50 0) None (Some (nofZ 25)); do b <- mk_sphere (v3 15 50 0) None (Some (nofZ 25)); do c <- mk_sphere (v3 30 50 0) None (Some (nofZ 25));
  do t <- insertLeft (mk_tree (KStr "union")) (KShape (SSphere a));
  do t <- insertRight t (KStr "union");
  do t <- at_path [dR] (fun t => insertLeft t (KShape (SSphere b))) t;
  do t <- at_path [dR] (fun t => insertRight t (KShape (SSphere c))) t;
  Ok (OCompound (mkCompound t "reflect" (nofZ 1))).
Example three_returns : match ends (do o <- three; run 10 (a_test_ray (v3 0 0 0) (v3 0 1 0)) (nofZ 150) [o] None) with
  | Ok (3%nat, p, d, false) => close p (v3 0 (-75) 0) && close d (v3 0 (-1) 0) | _ => false end = true.
Proof. vm_compute. reflexivity. Qed.

(** script_testShortRun.py: the mirror call has no dmd_normal, so the script stops with a TypeError *)
Example short_run_fails : mk_mirror (v3 0 100 0) "circular_flat" (Some (v3 0 (-1) 0)) (Some (nofZ 50)) None None None None "normal" None = Err TypeError.
Proof. vm_compute. reflexivity. Qed.
End Scenes.
