(** Model of what print_trajectory=True prints: Ray.__repr__ and the print statements of optics3d.py Ray.__init__, fly, refract, reflect and run. *)
From Coq Require Import ZArith String List Bool.
From Verif Require Import PyErr Num Vec Shapes Csg Optics General.
Import ListNotations.
Local Open Scope string_scope.

Section Printing.
Context {T : Type} {N : Num T} {TT : Trig T} {E : Elem T}.
Local Open Scope num_scope.

(** A printed line.  [Turned w a] is "light at wavelength {w} turned {a} by grating" (optics3d.py:818): str() of a float is not modelled, so
    the line keeps its two numbers. *)
Inductive line : Type := Text (s : string) | Turned (wl angle : T).
(** A computation that prints: the lines printed so far and, unless it raised, its value. *)
Definition Out (A : Type) : Type := (list line * Res A)%type.
Definition obind {A B} (x : Out A) (k : A -> Out B) : Out B :=
  match x with
  | (l, Ok a) => let '(l', b) := k a in ((l ++ l')%list, b)
  | (l, Err e) => (l, Err e)
  end.
Definition lift {A} (x : Res A) : Out A := ([], x).
(** if self.print_trajectory: print(...) *)
Definition say (verbose : bool) (l : line) : Out unit := (if verbose then [l] else [], Ok tt).

(** optics3d.py:629-635  Ray.__repr__; the same text with another class name for Grating (488-494) and Detector (554-560) *)
Definition repr6 (name : string) (a b : vec T) : Res string :=
  do x <- to_precision (vx a) 5;
  do y <- to_precision (vy a) 5;
  do z <- to_precision (vz a) 5;
  do u <- to_precision (vx b) 5;
  do v <- to_precision (vy b) 5;
  do w <- to_precision (vz b) 5;
  Ok (name ++ " (" ++ x ++ ", " ++ y ++ ", " ++ z ++ "),  (" ++ u ++ ", " ++ v ++ ", " ++ w ++ ")").
Definition ray_repr (r : ray T) : Res string := repr6 "Ray" (position r) (direction r).
(** if self.print_trajectory: print(self) *)
Definition print_self (verbose : bool) (r : ray T) : Out unit :=
  if verbose then match ray_repr r with Ok s => ([Text s], Ok tt) | Err e => ([], Err e) end else ([], Ok tt).

(** optics3d.py:617-627  Ray.__init__ *)
Definition mk_ray_v (verbose : bool) (pos dir : vec T) (wl ord : T) (ty : string) : Out (ray T) :=
  let r := mk_ray pos dir wl ord ty in
  obind (print_self verbose r) (fun _ => lift (Ok r)).

(** optics3d.py:641-649  Ray.fly *)
Definition fly_v (verbose : bool) (r : ray T) (distance : T) : Out (ray T) :=
  let r' := fly r distance in
  obind (print_self verbose r') (fun _ => lift (Ok r')).

(** optics3d.py:787-805, 818  alpha + beta of the "grating" branch of Ray.reflect *)
Definition grating_turn (r : ray T) (normal0 : vec T) (g : grating T) : Res T :=
  let normal := unit_vector normal0 in
  let incident := unit_vector (direction r) in
  let dispersion_plane_normal := gr_tangent g in
  let n := unit_vector (project_onto_plane normal dispersion_plane_normal) in
  let i := unit_vector (project_onto_plane incident dispersion_plane_normal) in
  let alpha := angle_between (vopp i) n (Some dispersion_plane_normal) in
  let grating_sign_convention := if alpha <? #0 then # (-1) else #1 in
  do G <- need (gr_G g);
  let beta := narcsin (G / nofZ (10 ^ 6) * order r * wavelength r
                       - nsin (grating_sign_convention * alpha)) in
  Ok (alpha + beta).

(** The prints made inside optic.do_intersect: every Ray.refract ends with print(self) (optics3d.py:775-776), reached from Lens.do_intersect
    (409-441) and from Compound.do_intersect when it refracts (110-129); Ray.reflect prints one line for a grating (817-818) and nothing for a
    specular reflection.  [r] is the ray before the interaction, [r2] after. *)
Definition interaction_print (verbose : bool) (o : optic T) (r r2 : ray T) (normal : option (vec T)) : Out unit :=
  match o with
  | OCompound c => if String.eqb (co_surface_behavior c) "refract" then print_self verbose r2 else lift (Ok tt)
  | OLens _ => print_self verbose r2
  | OGrating g =>
      if order r =? #0 then lift (Ok tt)
      else if verbose then
        obind (lift (do n <- need normal; grating_turn r n g)) (fun a => say verbose (Turned (wavelength r) a))
      else lift (Ok tt)
  | _ => lift (Ok tt)
  end.
Definition do_intersect_v (verbose : bool) (o : optic T) (r : ray T) (pt : vec T) (normal : option (vec T)) (s : sfo)
  : Out (ray T * optic T) :=
  obind (lift (optic_do_intersect o r pt normal s)) (fun ro =>
  obind (interaction_print verbose o r (fst ro) normal) (fun _ => lift (Ok ro))).

(** optics3d.py:831-871  one iteration of the while loop *)
Definition run_body_v (verbose : bool) (max_distance : T) (st : run_st) : Out run_st :=
  let r := rs_ray st in
  obind (lift (scan r (rs_remaining st) (mkScan false ninf (rs_sel st) (rs_sfo st)) 0 (rs_world st))) (fun sc =>
  if negb (sc_hit sc) then
    obind (say verbose (Text "not intersected (messages TODO)")) (fun _ =>
    obind (fly_v verbose r (rs_remaining st)) (fun r1 =>
    lift (Ok (mkRun r1 (rs_world st) (rs_count st) (rs_remaining st - max_distance) (sc_sel sc) (sc_sfo sc)))))
  else
    obind (say verbose (Text "intersected (messages TODO)")) (fun _ =>
    obind (lift (bound (sc_sel sc))) (fun s =>
    let distance_to_int_optic := distance_between (position r) (se_pt s) in
    obind (fly_v verbose r distance_to_int_optic) (fun r1 =>
    let remaining := rs_remaining st - distance_to_int_optic in
    let count := (rs_count st + 1)%Z in
    if String.eqb (ray_type r) "faerie_fire" then
      lift (Ok (mkRun (set_blocked r1) (rs_world st) count remaining (sc_sel sc) (sc_sfo sc)))
    else
      obind (lift (bound (sc_sfo sc))) (fun f =>
      match nth_error (rs_world st) (se_idx s) with
      | None => lift (Err UnboundLocalError)
      | Some o =>
          obind (do_intersect_v verbose o r1 (se_pt s) (se_normal s) f) (fun ro =>
          lift (Ok (mkRun (fst ro) (set_nth (rs_world st) (se_idx s) (snd ro)) count remaining (sc_sel sc) (sc_sfo sc))))
      end))))).

(** optics3d.py:830-871  the while loop on explicit fuel *)
Fixpoint run_loop_v (verbose : bool) (fuel : nat) (max_distance : T) (maxi : option Z) (st : run_st) : Out run_st :=
  if run_cond maxi st then
    match fuel with
    | O => lift (Err OutOfFuel)
    | S fuel => obind (run_body_v verbose max_distance st) (fun st' => run_loop_v verbose fuel max_distance maxi st')
    end
  else lift (Ok st).

(** optics3d.py:822-873  Ray.run with its print statements *)
Definition run_v (verbose : bool) (fuel : nat) (r : ray T) (max_distance : T) (w : list (optic T)) (maxi : option Z)
  : Out (ray T * list (optic T)) :=
  obind (say verbose (Text "--- run begin ---")) (fun _ =>
  obind (run_loop_v verbose fuel max_distance maxi (run_init r max_distance w)) (fun st =>
  obind (say verbose (Text "--- run complete ---")) (fun _ =>
  lift (Ok (rs_ray st, rs_world st))))).

End Printing.
Arguments line : clear implicits.
