(** Model of optics3d.py: optics, rays and the tracing loop. *)
From Coq Require Import ZArith List String Bool.
From Verif Require Import PyErr Num Vec Shapes Csg.
Import ListNotations.

(** Value of the variable shooting_from_outside: None, a Boolean, or (for spherical mirrors, whose
    6-tuple's last item lands in it, optics3d.py:203,229) an intersection count. *)
Inductive sfo := SfoNone | SfoBool (b : bool) | SfoInt (z : Z).
Definition sfo_truthy (s : sfo) : bool :=
  match s with SfoNone => false | SfoBool b => b | SfoInt z => negb (Z.eqb z 0) end.

(** optics3d.py:84-88  attributes of Compound *)
Record compound (T : Type) : Type := mkCompound {
  co_tree : tree (key T); co_surface_behavior : string; co_index : T }.
Arguments mkCompound {T} co_tree co_surface_behavior co_index.
Arguments co_tree {T} c.
Arguments co_surface_behavior {T} c.
Arguments co_index {T} c.

(** optics3d.py:145-173  attributes of Mirror used after construction.  [thickness], w, h, D are not read
    again except by draw and are omitted; rc and p_rc live in the Sphere surface. *)
Record mirror (T : Type) : Type := mkMirror {
  mi_position : vec T; mi_shape : string; mi_normal : option (vec T);
  mi_type : string; mi_dmd_normal : vec T; mi_surfaces : list (shape T) }.
Arguments mkMirror {T} mi_position mi_shape mi_normal mi_type mi_dmd_normal mi_surfaces.
Arguments mi_position {T} m.
Arguments mi_shape {T} m.
Arguments mi_normal {T} m.
Arguments mi_type {T} m.
Arguments mi_dmd_normal {T} m.
Arguments mi_surfaces {T} m.

(** optics3d.py:324-345  attributes of Lens used after construction *)
Record lens (T : Type) : Type := mkLens {
  le_position : vec T; le_normal : option (vec T); le_shape : string; le_f : option T;
  le_type : string; le_index : T; le_surfaces : list (shape T) }.
Arguments mkLens {T} le_position le_normal le_shape le_f le_type le_index le_surfaces.
Arguments le_position {T} l.
Arguments le_normal {T} l.
Arguments le_shape {T} l.
Arguments le_f {T} l.
Arguments le_type {T} l.
Arguments le_index {T} l.
Arguments le_surfaces {T} l.

(** optics3d.py:471-486  attributes of Grating used after construction *)
Record grating (T : Type) : Type := mkGrating {
  gr_position : vec T; gr_normal : vec T; gr_tangent : vec T; gr_shape : string; gr_G : option T;
  gr_surfaces : list (shape T) }.
Arguments mkGrating {T} gr_position gr_normal gr_tangent gr_shape gr_G gr_surfaces.
Arguments gr_position {T} g.
Arguments gr_normal {T} g.
Arguments gr_tangent {T} g.
Arguments gr_shape {T} g.
Arguments gr_G {T} g.
Arguments gr_surfaces {T} g.

(** optics3d.py:539-552  attributes of Detector; an entry of hit_data is np.append(int_pt, wavelength) *)
Record detector (T : Type) : Type := mkDetector {
  de_position : vec T; de_normal : vec T; de_tangent : vec T; de_shape : string;
  de_surfaces : list (shape T); de_hit_data : list (vec T * T) }.
Arguments mkDetector {T} de_position de_normal de_tangent de_shape de_surfaces de_hit_data.
Arguments de_position {T} d.
Arguments de_normal {T} d.
Arguments de_tangent {T} d.
Arguments de_shape {T} d.
Arguments de_surfaces {T} d.
Arguments de_hit_data {T} d.

(** optics3d.py:56-60  attributes of the base class Optic (the shape attribute is not used) *)
Record base (T : Type) : Type := mkBase { ba_position : vec T; ba_normal : vec T }.
Arguments mkBase {T} ba_position ba_normal.
Arguments ba_position {T} b.
Arguments ba_normal {T} b.

(** The Optic subclasses of optics3d.py. *)
Inductive optic (T : Type) : Type :=
| OOptic (b : base T)
| OCompound (c : compound T)
| OMirror (m : mirror T)
| OLens (l : lens T)
| OGrating (g : grating T)
| ODetector (d : detector T)
| OAnnotation (b : base T)
| OFilter (b : base T)
| OWindow (b : base T)
| OBlock (b : base T).
Arguments OOptic {T} b.
Arguments OCompound {T} c.
Arguments OMirror {T} m.
Arguments OLens {T} l.
Arguments OGrating {T} g.
Arguments ODetector {T} d.
Arguments OAnnotation {T} b.
Arguments OFilter {T} b.
Arguments OWindow {T} b.
Arguments OBlock {T} b.

(** Return value (intersected, point, normal, shooting_from_outside) of Optic.test_intersect. *)
Record hit4 (T : Type) : Type := H4 {
  h4_flag : bool; h4_pt : option (vec T); h4_normal : option (vec T); h4_sfo : sfo }.
Arguments H4 {T} h4_flag h4_pt h4_normal h4_sfo.
Arguments h4_flag {T} h.
Arguments h4_pt {T} h.
Arguments h4_normal {T} h.
Arguments h4_sfo {T} h.

Section Ray.
Context {T : Type} {N : Num T}.
Local Open Scope num_scope.

(** optics3d.py:23  INDEX_OF_THE_WORLD = 1.0000000 *)
Definition INDEX_OF_THE_WORLD : T := #1.

(** optics3d.py:616-627  Ray.__init__ *)
Definition mk_ray (pos dir : vec T) (wl ord : T) (ty : string) : ray T :=
  mkRay pos (unit_vector dir) wl ord [pos] false ty.

(** attribute assignment self.direction = d *)
Definition set_direction (r : ray T) (d : vec T) : ray T :=
  mkRay (position r) d (wavelength r) (order r) (point_history r) (blocked r) (ray_type r).
(** attribute assignment self.blocked = True *)
Definition set_blocked (r : ray T) : ray T :=
  mkRay (position r) (direction r) (wavelength r) (order r) (point_history r) true (ray_type r).

(** optics3d.py:641-649  Ray.fly with a distance *)
Definition fly (r : ray T) (distance : T) : ray T :=
  let p := vadd (position r) (vscale distance (direction r)) in
  mkRay p (direction r) (wavelength r) (order r) (point_history r ++ [p]) (blocked r) (ray_type r).

(** optics3d.py:641-646  Ray.fly; distance=None raises ValueError *)
Definition fly_o (r : ray T) (distance : option T) : Res (ray T) :=
  match distance with Some d => Ok (fly r d) | None => Err ValueError end.

(** optics3d.py:637-639  Ray.get_plot_repr *)
Definition get_plot_repr (r : ray T) : list (vec T) := point_history r.

(** optics3d.py:782-786  Ray.reflect, reflect_type == "specular_flat" *)
Definition reflect_specular (r : ray T) (normal : vec T) : ray T :=
  let i := unit_vector (direction r) in
  let n := unit_vector normal in
  let rr := vsub i (vscale (#2 * dot i n) n) in
  set_direction r (unit_vector rr).

(** optics3d.py:664-669, 714-718, 723-727  the lens normal turned to the travelling sense *)
Definition oriented_normal (optic_normal : vec T) (dir : vec T) : vec T :=
  if dot optic_normal dir <? #0 then vopp optic_normal else optic_normal.

(** optics3d.py:653-696  Ray.refract, refract_type == "thin_lens" *)
Definition refract_thin_lens (r : ray T) (l : lens T) (intersection_pt : vec T) : Res (ray T) :=
  let rr := vsub intersection_pt (le_position l) in
  do onormal <- need (le_normal l);
  let the_optic_normal := oriented_normal onormal (direction r) in
  let dot_product := dot the_optic_normal (direction r) in
  if isclose dot_product #0 (dec 1 10) (dec 1 8) then Ok r
  else if (vallclose (direction r) the_optic_normal (dec 1 10) (dec 1 8)
           || vallclose (direction r) (vopp the_optic_normal) (dec 1 10) (dec 1 8))%bool then
    do f <- need (le_f l);
    let focal_point := vadd (le_position l) (vscale f the_optic_normal) in
    let vector_to_image := vsub focal_point (position r) in
    Ok (set_direction r (vdivs vector_to_image (norm vector_to_image)))
  else
    let projection_onto_optic_normal := dot (direction r) the_optic_normal in
    do f <- need (le_f l);
    let scale_factor := (#2 * f) / projection_onto_optic_normal in
    let vector_back_to_2f_object := vscale scale_factor (vopp (direction r)) in
    let object_point := vadd rr vector_back_to_2f_object in
    let image_point := vopp object_point in
    let vector_to_image := vsub image_point rr in
    Ok (set_direction r (vdivs vector_to_image (norm vector_to_image))).

(** optics3d.py:712-719  Ray.refract, refract_type == "ideal_collimate" *)
Definition refract_ideal_collimate (r : ray T) (l : lens T) : Res (ray T) :=
  do onormal <- need (le_normal l);
  let the_optic_normal := oriented_normal onormal (direction r) in
  Ok (set_direction r (unit_vector the_optic_normal)).

(** optics3d.py:721-730  Ray.refract, refract_type == "ideal_focus" *)
Definition refract_ideal_focus (r : ray T) (l : lens T) : Res (ray T) :=
  do onormal <- need (le_normal l);
  let the_optic_normal := oriented_normal onormal (direction r) in
  do f <- need (le_f l);
  let focal_point := vadd (le_position l) (vscale f the_optic_normal) in
  let vector_to_image := vsub focal_point (position r) in
  Ok (set_direction r (vdivs vector_to_image (norm vector_to_image))).

(** optics3d.py:732-771  Ray.refract, refract_type == "snells_law".
    eta1 and eta2 are Python numbers, so eta1 / eta2 with eta2 = 0 raises ZeroDivisionError.
    x ** 2 is x * x. *)
Definition refract_snells_law (r : ray T) (normal : vec T) (eta1 eta2 : T) : Res (ray T) :=
  let i := direction r in
  let n := if dot i normal <? #0 then normal else vopp normal in
  let cos_theta_incident := dot (vopp i) n in
  if eta2 =? #0 then Err ZeroDivisionError
  else
  let ratio := eta1 / eta2 in
  let sin_squared_theta_transmitted := (ratio * ratio) * (#1 - cos_theta_incident * cos_theta_incident) in
  let tir := if eta1 >? eta2 then sin_squared_theta_transmitted >? #1 else false in
  if tir then Ok (reflect_specular r normal)
  else
    let t := vadd (vscale ratio i)
                  (vscale (ratio * cos_theta_incident - nsqrt (#1 - sin_squared_theta_transmitted)) n) in
    Ok (set_direction r t).

(* ---- Compound ---- *)

(** optics3d.py:132-137  Compound.get_index_at_point_if_inside.  The value of test_tree_point is used as a
    condition; None (empty tree, or a bare Cylinder leaf) is false. *)
Definition compound_index_if_inside (c : compound T) (p : vec T) : Res (option T) :=
  do b <- test_tree_point (co_tree c) p;
  match b with
  | Some true => Ok (Some (co_index c))
  | _ => Ok None
  end.

(** optics3d.py:93-100  Compound.test_intersect *)
Definition compound_test_intersect (c : compound T) (r : ray T) : Res (hit4 T) :=
  do i <- test_tree_intersect (co_tree c) r;
  do h <- unpack6 i;
  Ok (H4 (h6_flag h) (h6_p1 h) (h6_n1 h) (SfoBool (evenb (h6_count h)))).

(** optics3d.py:102-130  Compound.do_intersect *)
Definition compound_do_intersect (c : compound T) (r : ray T) (pt : vec T) (normal : option (vec T))
  : Res (ray T) :=
  if String.eqb (co_surface_behavior c) "reflect" then
    do n <- need normal; Ok (reflect_specular r n)
  else if String.eqb (co_surface_behavior c) "refract" then
    do optic_index <- compound_index_if_inside c (vadd pt (vscale (dec 1 8) (direction r)));
    let '(eta1, eta2) :=
      match optic_index with
      | Some _ => (INDEX_OF_THE_WORLD, co_index c)
      | None => (co_index c, INDEX_OF_THE_WORLD)
      end in
    do n <- need normal;
    refract_snells_law r n eta1 eta2
  else Err ValueError.

(* ---- loops over self.surfaces ---- *)

(** State of the loops "for surface in self.surfaces" of the flat optics:
    (intersected, min_distance, intersection_pt, normal); normal is a local that may be unassigned. *)
Record flat_st : Type := mkFlat {
  fs_hit : bool; fs_min : T; fs_pt : option (vec T); fs_normal : option (option (vec T)) }.
Definition flat_init : flat_st := mkFlat false ninf None None.

(** one iteration: optics3d.py:191-198 (Mirror), 366-372 and 375-381 (Lens), 503-509 (Grating),
    569-575 (Detector).  Only Mirror re-assigns normal = surface.normal (line 198), which is the unit plane
    normal again; [own_normal] models that. *)
Definition surface_normal (s : shape T) : Res (option (vec T)) :=
  match s with
  | SPlane p => Ok (Some (pl_normal p))
  | SCircle c => match ci_normal c with Some n => Ok (Some n) | None => Err AttributeError end
  | SRectangle q => Ok (Some (re_normal q))
  | _ => Err AttributeError
  end.
Definition flat_step (own_normal : bool) (r : ray T) (st : flat_st) (s : shape T) : Res flat_st :=
  do i <- shape_test_intersect s r;
  do h <- unpack3 i;
  if h3_flag h then
    do pt <- need (h3_pt h);
    let d := distance_between (position r) pt in
    if d <? fs_min st then
      do n <- (if own_normal then surface_normal s else Ok (h3_normal h));
      Ok (mkFlat true d (Some pt) (Some n))
    else Ok (mkFlat true (fs_min st) (fs_pt st) (Some (h3_normal h)))
  else Ok (mkFlat (fs_hit st) (fs_min st) (fs_pt st) (Some (h3_normal h))).
Fixpoint flat_loop (own_normal : bool) (r : ray T) (st : flat_st) (l : list (shape T)) : Res flat_st :=
  match l with
  | [] => Ok st
  | s :: l => do st' <- flat_step own_normal r st s; flat_loop own_normal r st' l
  end.

(** isinstance(surface, Sphere) / isinstance(surface, Circle) *)
Fixpoint first_sphere (l : list (shape T)) : option (sphere T) :=
  match l with [] => None | SSphere s :: _ => Some s | _ :: l => first_sphere l end.
Fixpoint first_circle (l : list (shape T)) : option (circle T) :=
  match l with [] => None | SCircle c :: _ => Some c | _ :: l => first_circle l end.

(** State of the sphere loops of Mirror (optics3d.py:227-242) and Lens (383-404). *)
Record ball_st : Type := mkBall {
  bs_hit : bool; bs_min : T; bs_pt : option (vec T); bs_normal : option (vec T); bs_sfo : sfo }.

(** optics3d.py:231-242 and 392-404: choose the nearest of the points of a sphere hit, normal negated. *)
Definition ball_update (r : ray T) (st : ball_st) (h : hit6 T) : Res ball_st :=
  if h6_flag h then
    do p1 <- need (h6_p1 h);
    let d1 := distance_between (position r) p1 in
    do st1 <- (if d1 <? bs_min st then
                 do n1 <- need (h6_n1 h);
                 Ok (mkBall true d1 (Some p1) (Some (vopp n1)) (bs_sfo st))
               else Ok (mkBall true (bs_min st) (bs_pt st) (bs_normal st) (bs_sfo st)));
    match h6_p2 h with
    | None => Ok st1
    | Some p2 =>
        let d2 := distance_between (position r) p2 in
        if d2 <? bs_min st1 then
          do n2 <- need (h6_n2 h);
          Ok (mkBall true d2 (Some p2) (Some (vopp n2)) (bs_sfo st1))
        else Ok st1
    end
  else Ok st.

(** optics3d.py:227-242 loop of the convex spherical Mirror.  [last] is the local intersected_sphere with its
    companions, unassigned before the first Sphere. *)
Fixpoint mirror_ball_loop (r : ray T) (st : ball_st) (last : option (hit6 T)) (l : list (shape T))
  : Res ball_st :=
  match l with
  | [] => Ok st
  | s :: l =>
      let '(last', st') :=
        match s with
        | SSphere sp =>
            let h := sphere_test_intersect sp r in
            (Some h, mkBall (bs_hit st) (bs_min st) (bs_pt st) (bs_normal st) (SfoInt (h6_count h)))
        | _ => (last, st)
        end in
      do h <- bound last';
      do st2 <- ball_update r st' h;
      mirror_ball_loop r st2 last' l
  end.

(** optics3d.py:383-404 loop of the spherical Lens. *)
Fixpoint lens_ball_loop (r : ray T) (st : ball_st) (l : list (shape T)) : Res ball_st :=
  match l with
  | [] => Ok st
  | s :: l =>
      do st2 <- match s with
                | SSphere sp =>
                    let h := sphere_test_intersect sp r in
                    ball_update r (mkBall (bs_hit st) (bs_min st) (bs_pt st) (bs_normal st)
                                          (SfoBool (evenb (h6_count h)))) h
                | _ => Ok st
                end;
      lens_ball_loop r st2 l
  end.

(* ---- Mirror ---- *)

(** optics3d.py:146-173  Mirror.__init__ *)
Definition mk_mirror (pos : vec T) (shp : string) (normal : option (vec T)) (D w h : option T)
    (f : option T) (tangent : option (vec T)) (ty : string) (dmd_normal : option (vec T)) : Res (mirror T) :=
  do dmd <- unit_vector_o dmd_normal;
  if String.eqb shp "circular_flat" then
    do n <- unit_vector_o normal;
    do c <- mk_circle pos normal None D;
    Ok (mkMirror pos shp (Some n) ty dmd [SCircle c])
  else if String.eqb shp "rectangular_flat" then
    do n <- unit_vector_o normal;
    do q <- mk_rectangle pos normal tangent h w;
    Ok (mkMirror pos shp (Some n) ty dmd [SRectangle q])
  else if String.eqb shp "circular_concave_spherical" then
    do n <- unit_vector_o normal;
    do f <- need f;
    let rc := f * #2 in
    let p_rc := vadd pos (vscale rc n) in
    do c <- mk_circle pos normal None D;
    do s <- mk_sphere p_rc (Some rc) None;
    Ok (mkMirror pos shp (Some n) ty dmd [SCircle c; SSphere s])
  else if String.eqb shp "circular_convex_spherical" then
    do s <- mk_sphere pos None D;
    Ok (mkMirror pos shp None ty dmd [SSphere s])
  else Err ValueError.

(** optics3d.py:184-245  Mirror.test_intersect *)
Definition mirror_test_intersect (m : mirror T) (r : ray T) : Res (hit4 T) :=
  if (String.eqb (mi_shape m) "circular_flat" || String.eqb (mi_shape m) "rectangular_flat")%bool then
    do st <- flat_loop true r flat_init (mi_surfaces m);
    do n <- bound (fs_normal st);
    Ok (H4 (fs_hit st) (fs_pt st) n SfoNone)
  else if String.eqb (mi_shape m) "circular_concave_spherical" then
    do sp <- bound (first_sphere (mi_surfaces m));
    let h := sphere_test_intersect sp r in
    let s := SfoInt (h6_count h) in
    if h6_flag h then
      do c <- bound (first_circle (mi_surfaces m));
      do hc <- circle_test_intersect c r;
      if h3_flag hc then
        do pc <- need (h3_pt hc);
        do p1 <- need (h6_p1 h);
        let distance1 := distance_between pc p1 in
        match h6_p2 h with
        | Some p2 =>
            let distance2 := distance_between pc p2 in
            if distance1 <? distance2 then Ok (H4 true (Some p1) (h6_n1 h) s)
            else Ok (H4 true (Some p2) (h6_n2 h) s)
        | None => Ok (H4 true (Some p1) (h6_n1 h) s)
        end
      else Ok (H4 false None None s)
    else Ok (H4 false None None s)
  else if String.eqb (mi_shape m) "circular_convex_spherical" then
    do st <- mirror_ball_loop r (mkBall false ninf None None SfoNone) None (mi_surfaces m);
    Ok (H4 (bs_hit st) (bs_pt st) (bs_normal st) (bs_sfo st))
  else Err ValueError.

(** optics3d.py:247-255  Mirror.do_intersect; any other type leaves the ray alone *)
Definition mirror_do_intersect (m : mirror T) (r : ray T) (normal : option (vec T)) : Res (ray T) :=
  if String.eqb (mi_type m) "normal" then do n <- need normal; Ok (reflect_specular r n)
  else if String.eqb (mi_type m) "dmd" then Ok (reflect_specular r (mi_dmd_normal m))
  else Ok r.

(* ---- Lens ---- *)

(** optics3d.py:325-345  Lens.__init__ *)
Definition mk_lens (pos : vec T) (normal : option (vec T)) (shp : string) (D : option T) (f : option T)
    (ty : string) (index : T) : Res (lens T) :=
  let n := match normal with Some v => Some (unit_vector v) | None => None end in
  if String.eqb shp "spherical_biconvex" then
    do c <- mk_circle pos normal None D;
    Ok (mkLens pos n shp f ty index [SCircle c])
  else if String.eqb shp "spherical" then
    do s <- mk_sphere pos None D;
    Ok (mkLens pos n shp f ty index [SSphere s])
  else Err ValueError.

(** optics3d.py:356-407  Lens.test_intersect.  The two branches on self.type (lines 364-381) are the same
    code.  In the biconvex branch normal is None before the loop. *)
Definition lens_test_intersect (l : lens T) (r : ray T) : Res (hit4 T) :=
  if String.eqb (le_shape l) "spherical_biconvex" then
    do st <- flat_loop false r (mkFlat false ninf None (Some None)) (le_surfaces l);
    do n <- bound (fs_normal st);
    Ok (H4 (fs_hit st) (fs_pt st) n (SfoBool true))
  else if String.eqb (le_shape l) "spherical" then
    do st <- lens_ball_loop r (mkBall false ninf None None (SfoBool true)) (le_surfaces l);
    Ok (H4 (bs_hit st) (bs_pt st) (bs_normal st) (bs_sfo st))
  else Err ValueError.

(** optics3d.py:409-441  Lens.do_intersect *)
Definition lens_do_intersect (l : lens T) (r : ray T) (pt : vec T) (normal : option (vec T)) (s : sfo)
  : Res (ray T) :=
  if String.eqb (le_type l) "ideal" then refract_thin_lens r l pt
  else if String.eqb (le_type l) "ideal_collimate" then refract_ideal_collimate r l
  else if String.eqb (le_type l) "ideal_focus" then refract_ideal_focus r l
  else
    do n <- need normal;
    if sfo_truthy s then refract_snells_law r n #1 (le_index l)
    else refract_snells_law r (vopp n) (le_index l) #1.

(* ---- Grating, Detector, base class ---- *)

(** optics3d.py:472-486  Grating.__init__ *)
Definition mk_grating (pos : vec T) (normal tangent : option (vec T)) (shp : string) (w h G : option T)
  : Res (grating T) :=
  do n <- unit_vector_o normal;
  do t <- unit_vector_o tangent;
  if String.eqb shp "rectangular_flat" then
    do q <- mk_rectangle pos normal tangent h w;
    Ok (mkGrating pos n t shp G [SRectangle q])
  else Err ValueError.

(** optics3d.py:496-510 Grating.test_intersect and 562-576 Detector.test_intersect (same code) *)
Definition flat_test_intersect (shp : string) (surfaces : list (shape T)) (r : ray T) : Res (hit4 T) :=
  do st <- (if (String.eqb shp "circular_flat" || String.eqb shp "rectangular_flat")%bool
            then flat_loop false r flat_init surfaces
            else Ok flat_init);
  do n <- bound (fs_normal st);
  Ok (H4 (fs_hit st) (fs_pt st) n SfoNone).

(** optics3d.py:540-552  Detector.__init__ *)
Definition mk_detector (pos : vec T) (normal tangent : option (vec T)) (shp : string) (w h : option T)
  : Res (detector T) :=
  do n <- unit_vector_o normal;
  do t <- unit_vector_o tangent;
  if String.eqb shp "rectangular_flat" then
    do q <- mk_rectangle pos normal tangent h w;
    Ok (mkDetector pos n t shp [SRectangle q] [])
  else Err ValueError.

(** optics3d.py:57-60  Optic.__init__ (Annotation, Filter, Window, Block inherit it) *)
Definition mk_base (pos : vec T) (normal : option (vec T)) : Res (base T) :=
  do n <- unit_vector_o normal; Ok (mkBase pos n).

(** optics3d.py:580  self.hit_data.append(np.append(int_pt, ray.wavelength)) *)
Definition record_hit (d : detector T) (pt : vec T) (wl : T) : detector T :=
  mkDetector (de_position d) (de_normal d) (de_tangent d) (de_shape d) (de_surfaces d)
             (de_hit_data d ++ [(pt, wl)]).

(** optics3d.py:43-48 get_index_at_point with Optic.get_index_at_point_if_inside (78-79, returns None) and
    Compound's override (132-137) *)
Definition optic_index_if_inside (o : optic T) (p : vec T) : Res (option T) :=
  match o with OCompound c => compound_index_if_inside c p | _ => Ok None end.
Fixpoint get_index_at_point (l : list (optic T)) (p : vec T) : Res T :=
  match l with
  | [] => Ok INDEX_OF_THE_WORLD
  | o :: l => do i <- optic_index_if_inside o p;
              match i with Some x => Ok x | None => get_index_at_point l p end
  end.

(** Method dispatch optic.test_intersect(ray).  The base class and its empty subclasses have no such
    method (optics3d.py:56-79, 597-612): AttributeError. *)
Definition optic_test_intersect (o : optic T) (r : ray T) : Res (hit4 T) :=
  match o with
  | OCompound c => compound_test_intersect c r
  | OMirror m => mirror_test_intersect m r
  | OLens l => lens_test_intersect l r
  | OGrating g => flat_test_intersect (gr_shape g) (gr_surfaces g) r
  | ODetector d => flat_test_intersect (de_shape d) (de_surfaces d) r
  | OOptic _ | OAnnotation _ | OFilter _ | OWindow _ | OBlock _ => Err AttributeError
  end.

(** optics3d.py:834-839  isinstance tests that skip an optic *)
Definition skipped (o : optic T) : bool :=
  match o with OAnnotation _ | OFilter _ | OWindow _ => true | _ => false end.

Section TrigRay.
Context {TT : Trig T}.

(** optics3d.py:787-816  Ray.reflect, reflect_type == "grating" *)
Definition reflect_grating (r : ray T) (normal0 : vec T) (g : grating T) : Res (ray T) :=
  let normal := unit_vector normal0 in
  let incident := unit_vector (direction r) in
  let dispersion_plane_normal := gr_tangent g in
  let n := unit_vector (project_onto_plane normal dispersion_plane_normal) in
  let i := unit_vector (project_onto_plane incident dispersion_plane_normal) in
  let alpha := angle_between (vopp i) n (Some dispersion_plane_normal) in
  let grating_sign_convention := if alpha <? #0 then # (-1) else #1 in
  do G <- need (gr_G g);
  let beta := narcsin (G / nofZ (10 ^ 6) * order r * wavelength r
                       - nsin (grating_sign_convention * alpha)) in
  let rr := vsub incident (vscale (#2 * dot incident normal) normal) in
  let RM1 := rotation_matrix_axis_angle dispersion_plane_normal ((- grating_sign_convention) * alpha) in
  let RM2 := rotation_matrix_axis_angle dispersion_plane_normal (- beta) in
  Ok (set_direction r (unit_vector (mv RM2 (unit_vector (mv RM1 rr))))).

(** optics3d.py:512-521  Grating.do_intersect *)
Definition grating_do_intersect (g : grating T) (r : ray T) (normal : option (vec T)) : Res (ray T) :=
  do n <- need normal;
  if order r =? #0 then Ok (reflect_specular r n)
  else reflect_grating r n g.

(** Method dispatch optic.do_intersect(ray, pt, normal, shooting_from_outside): Optic 71-73, Compound 102,
    Mirror 247, Lens 409, Grating 512, Detector 578-580, Block 611-612.  The ray and, for a Detector, the
    optic are mutated; both are returned. *)
Definition optic_do_intersect (o : optic T) (r : ray T) (pt : vec T) (normal : option (vec T)) (s : sfo)
  : Res (ray T * optic T) :=
  match o with
  | OCompound c => do r' <- compound_do_intersect c r pt normal; Ok (r', o)
  | OMirror m => do r' <- mirror_do_intersect m r normal; Ok (r', o)
  | OLens l => do r' <- lens_do_intersect l r pt normal s; Ok (r', o)
  | OGrating g => do r' <- grating_do_intersect g r normal; Ok (r', o)
  | ODetector d => Ok (set_blocked r, ODetector (record_hit d pt (wavelength r)))
  | OBlock _ => Ok (set_blocked r, o)
  | OOptic _ | OAnnotation _ | OFilter _ | OWindow _ => Ok (r, o)
  end.

(* ---- Ray.run ---- *)

(** Locals assigned when an intersection is accepted (optics3d.py:851-853): the optic (by its index in
    optic_list), the point and the normal. *)
Record sel : Type := mkSel { se_idx : nat; se_pt : vec T; se_normal : option (vec T) }.

(** State of the scan "for optic in optic_list" (optics3d.py:831-853). sc_sel is unassigned before the first
    accepted intersection of the whole run; sc_sfo is the last value unpacked from a test_intersect call. *)
Record scan_st : Type := mkScan { sc_hit : bool; sc_min : T; sc_sel : option sel; sc_sfo : option sfo }.

(** optics3d.py:833-853  one iteration of the scan *)
Definition scan_step (r : ray T) (distance_remaining : T) (st : scan_st) (idx : nat) (o : optic T)
  : Res scan_st :=
  if skipped o then Ok st
  else
    do h <- optic_test_intersect o r;
    let s := Some (h4_sfo h) in
    if h4_flag h then
      do pt <- need (h4_pt h);
      let d := distance_between (position r) pt in
      if d >? distance_remaining then Ok (mkScan (sc_hit st) (sc_min st) (sc_sel st) s)
      else if d >? INTERSECT_CLIPPING_FLOOR then
        if d <? sc_min st then Ok (mkScan true d (Some (mkSel idx pt (h4_normal h))) s)
        else Ok (mkScan true (sc_min st) (sc_sel st) s)
      else Ok (mkScan (sc_hit st) (sc_min st) (sc_sel st) s)
    else Ok (mkScan (sc_hit st) (sc_min st) (sc_sel st) s).

Fixpoint scan (r : ray T) (distance_remaining : T) (st : scan_st) (idx : nat) (l : list (optic T))
  : Res scan_st :=
  match l with
  | [] => Ok st
  | o :: l => do st' <- scan_step r distance_remaining st idx o;
              scan r distance_remaining st' (S idx) l
  end.

(** in-place update of list element k *)
Fixpoint set_nth {A : Type} (l : list A) (k : nat) (a : A) : list A :=
  match l, k with
  | [], _ => []
  | _ :: l, O => a :: l
  | x :: l, S k => x :: set_nth l k a
  end.

(** State of the while loop of Ray.run (optics3d.py:826-871). *)
Record run_st : Type := mkRun {
  rs_ray : ray T; rs_world : list (optic T);
  rs_count : Z; rs_remaining : T; rs_sel : option sel; rs_sfo : option sfo }.

(** optics3d.py:830  the loop condition; max_interactions = None is np.inf *)
Definition run_cond (maxi : option Z) (st : run_st) : bool :=
  (rs_remaining st >? #0)
  && (match maxi with None => true | Some m => Z.ltb (rs_count st) m end)
  && negb (blocked (rs_ray st)).

(** optics3d.py:831-871  one iteration of the while loop *)
Definition run_body (max_distance : T) (st : run_st) : Res run_st :=
  let r := rs_ray st in
  do sc <- scan r (rs_remaining st) (mkScan false ninf (rs_sel st) (rs_sfo st)) 0 (rs_world st);
  if negb (sc_hit sc) then
    Ok (mkRun (fly r (rs_remaining st)) (rs_world st) (rs_count st)
              (rs_remaining st - max_distance) (sc_sel sc) (sc_sfo sc))
  else
    do s <- bound (sc_sel sc);
    let distance_to_int_optic := distance_between (position r) (se_pt s) in
    let r1 := fly r distance_to_int_optic in
    let remaining := rs_remaining st - distance_to_int_optic in
    let count := (rs_count st + 1)%Z in
    if String.eqb (ray_type r) "faerie_fire" then
      Ok (mkRun (set_blocked r1) (rs_world st) count remaining (sc_sel sc) (sc_sfo sc))
    else
      do f <- bound (sc_sfo sc);
      match nth_error (rs_world st) (se_idx s) with
      | None => Err UnboundLocalError
      | Some o =>
          do (r2, o') <- optic_do_intersect o r1 (se_pt s) (se_normal s) f;
          Ok (mkRun r2 (set_nth (rs_world st) (se_idx s) o') count remaining (sc_sel sc) (sc_sfo sc))
      end.

(** optics3d.py:830-871  the while loop on explicit fuel *)
Fixpoint run_loop (fuel : nat) (max_distance : T) (maxi : option Z) (st : run_st) : Res run_st :=
  if run_cond maxi st then
    match fuel with
    | O => Err OutOfFuel
    | S fuel => do st' <- run_body max_distance st; run_loop fuel max_distance maxi st'
    end
  else Ok st.

(** optics3d.py:822-827 *)
Definition run_init (r : ray T) (max_distance : T) (w : list (optic T)) : run_st :=
  mkRun r w 0 max_distance None None.

(** optics3d.py:822-873  Ray.run(max_distance, optic_list, max_interactions): the ray and the optics
    afterwards *)
Definition run (fuel : nat) (r : ray T) (max_distance : T) (w : list (optic T)) (maxi : option Z)
  : Res (ray T * list (optic T)) :=
  do st <- run_loop fuel max_distance maxi (run_init r max_distance w);
  Ok (rs_ray st, rs_world st).

(** the loop "for ray in Ray_list: ray.run(max_distance=..., optic_list=Optic_list)" of the scripts
    (e.g. script_testCompound.py:50-51) *)
Fixpoint run_all (fuel : nat) (rs : list (ray T)) (max_distance : T) (w : list (optic T)) (maxi : option Z)
  : Res (list (ray T) * list (optic T)) :=
  match rs with
  | [] => Ok ([], w)
  | r :: rs =>
      do (r', w') <- run fuel r max_distance w maxi;
      do (rs', w'') <- run_all fuel rs max_distance w' maxi;
      Ok (r' :: rs', w'')
  end.
End TrigRay.
End Ray.
