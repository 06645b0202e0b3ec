(** Model of Shapes/shapes.py, and of the Ray object's data (optics3d.py:615-627). *)
From Coq Require Import ZArith List String Bool.
From Verif Require Import PyErr Num Vec.
Import ListNotations.

(** optics3d.py:616-625  the attributes of a Ray.  [print_trajectory] (printing only) is not modelled. *)
Record ray (T : Type) : Type := mkRay {
  position : vec T;
  direction : vec T;
  wavelength : T;
  order : T;
  point_history : list (vec T);
  blocked : bool;
  ray_type : string
}.
Arguments mkRay {T} position direction wavelength order point_history blocked ray_type.
Arguments position {T} r.
Arguments direction {T} r.
Arguments wavelength {T} r.
Arguments order {T} r.
Arguments point_history {T} r.
Arguments blocked {T} r.
Arguments ray_type {T} r.

(** Return value (intersected, point, normal) of Plane/Circle/Rectangle.test_intersect. *)
Record hit3 (T : Type) : Type := H3 { h3_flag : bool; h3_pt : option (vec T); h3_normal : option (vec T) }.
Arguments H3 {T} h3_flag h3_pt h3_normal.
Arguments h3_flag {T} h.
Arguments h3_pt {T} h.
Arguments h3_normal {T} h.

(** Return value (intersected, pt1, pt2, norm1, norm2, intersection_count) of the solids' test_intersect
    and of the CSG operators. *)
Record hit6 (T : Type) : Type := H6 {
  h6_flag : bool;
  h6_p1 : option (vec T); h6_p2 : option (vec T);
  h6_n1 : option (vec T); h6_n2 : option (vec T);
  h6_count : Z }.
Arguments H6 {T} h6_flag h6_p1 h6_p2 h6_n1 h6_n2 h6_count.
Arguments h6_flag {T} h.
Arguments h6_p1 {T} h.
Arguments h6_p2 {T} h.
Arguments h6_n1 {T} h.
Arguments h6_n2 {T} h.
Arguments h6_count {T} h.

(** shapes.py:53-56 attributes of Plane *)
Record plane (T : Type) : Type := mkPlane { pl_center : vec T; pl_normal : vec T }.
Arguments mkPlane {T} pl_center pl_normal.
Arguments pl_center {T} p.
Arguments pl_normal {T} p.

(** shapes.py:87-95 attributes of Circle; normal and plane exist only when a normal was given *)
Record circle (T : Type) : Type := mkCircle {
  ci_center : vec T; ci_R : T; ci_D : T; ci_normal : option (vec T); ci_plane : option (plane T) }.
Arguments mkCircle {T} ci_center ci_R ci_D ci_normal ci_plane.
Arguments ci_center {T} c.
Arguments ci_R {T} c.
Arguments ci_D {T} c.
Arguments ci_normal {T} c.
Arguments ci_plane {T} c.

(** shapes.py:109-116 attributes of InfiniteCylinder *)
Record infcyl (T : Type) : Type := mkInfCyl {
  ic_center : vec T; ic_R : T; ic_D : T; ic_direction : vec T; ic_plane : plane T }.
Arguments mkInfCyl {T} ic_center ic_R ic_D ic_direction ic_plane.
Arguments ic_center {T} i.
Arguments ic_R {T} i.
Arguments ic_D {T} i.
Arguments ic_direction {T} i.
Arguments ic_plane {T} i.

(** shapes.py:278-283 attributes of Sphere *)
Record sphere (T : Type) : Type := mkSphere { sp_center : vec T; sp_R : T; sp_D : T }.
Arguments mkSphere {T} sp_center sp_R sp_D.
Arguments sp_center {T} s.
Arguments sp_R {T} s.
Arguments sp_D {T} s.

(** shapes.py:359-366 attributes of Cylinder *)
Record cylinder (T : Type) : Type := mkCylinder {
  cy_center : vec T; cy_R : T; cy_D : T; cy_h : option T }.
Arguments mkCylinder {T} cy_center cy_R cy_D cy_h.
Arguments cy_center {T} c.
Arguments cy_R {T} c.
Arguments cy_D {T} c.
Arguments cy_h {T} c.

(** shapes.py:379-395 attributes of Rectangle; re_b0..re_b3 are the rows of self.bounds *)
Record rectangle (T : Type) : Type := mkRectangle {
  re_center : vec T; re_normal : vec T; re_tangent : vec T; re_tangent2 : vec T;
  re_h : T; re_w : T;
  re_b0 : vec T; re_b1 : vec T; re_b2 : vec T; re_b3 : vec T;
  re_plane : plane T }.
Arguments mkRectangle {T} re_center re_normal re_tangent re_tangent2 re_h re_w re_b0 re_b1 re_b2 re_b3 re_plane.
Arguments re_center {T} r.
Arguments re_normal {T} r.
Arguments re_tangent {T} r.
Arguments re_tangent2 {T} r.
Arguments re_h {T} r.
Arguments re_w {T} r.
Arguments re_b0 {T} r.
Arguments re_b1 {T} r.
Arguments re_b2 {T} r.
Arguments re_b3 {T} r.
Arguments re_plane {T} r.

(** The Shape subclasses of shapes.py. *)
Inductive shape (T : Type) : Type :=
| SPlane (p : plane T)
| SCircle (c : circle T)
| SInfCyl (c : infcyl T)
| SSphere (s : sphere T)
| SCylinder (c : cylinder T)
| SRectangle (r : rectangle T).
Arguments SPlane {T} p.
Arguments SCircle {T} c.
Arguments SInfCyl {T} c.
Arguments SSphere {T} s.
Arguments SCylinder {T} c.
Arguments SRectangle {T} r.

(** What a test_intersect method can return: None (Cylinder), a 3-tuple or a 6-tuple. *)
Inductive ires (T : Type) : Type :=
| INone
| I3 (h : hit3 T)
| I6 (h : hit6 T).
Arguments INone {T}.
Arguments I3 {T} h.
Arguments I6 {T} h.

Section Shapes.
Context {T : Type} {N : Num T}.
Local Open Scope num_scope.

(** shapes.py:12 and optics3d.py:22  INTERSECT_CLIPPING_FLOOR = 1e-12 *)
Definition INTERSECT_CLIPPING_FLOOR : T := dec 1 12.

(** shapes.py:71  ARB_EPSILON_VALUE = 1e-9 *)
Definition ARB_EPSILON_VALUE : T := dec 1 9.

(** shapes.py:15-30  check_R_and_D *)
Definition check_R_and_D (R D : option T) : Res (T * T) :=
  match R, D with
  | None, None => Err ValueError
  | None, Some D => Ok (D / #2, D)
  | Some R, None => Ok (R, R * #2)
  | Some R, Some D =>
      if isclose D (R * #2) (dec 1 8) (dec 1 8) then Ok (R, D) else Err ValueError
  end.

(** shapes.py:33-42  check_h_and_w *)
Definition check_h_and_w (h w : option T) : Res (T * T) :=
  match h with
  | None => Err ValueError
  | Some h =>
    match w with
    | None => Err ValueError
    | Some w =>
        if h <? #0 then Err ValueError
        else if w <? #0 then Err ValueError
        else Ok (h, w)
    end
  end.

(** shapes.py:54-56  Plane.__init__ *)
Definition mk_plane (center normal : vec T) : plane T := mkPlane center (unit_vector normal).

(** the triple (False, None, None) *)
Definition miss3 : hit3 T := H3 false None None.

(** shapes.py:61-84  Plane.test_intersect *)
Definition plane_test_intersect (pl : plane T) (r : ray T) : hit3 T :=
  let denominator := dot (unit_vector (pl_normal pl)) (unit_vector (direction r)) in
  if nabs denominator >? ARB_EPSILON_VALUE then
    let difference := vsub (pl_center pl) (position r) in
    let t := dot difference (pl_normal pl) / denominator in
    if t >? ARB_EPSILON_VALUE then
      H3 true (Some (vadd (position r) (vscale t (direction r)))) (Some (pl_normal pl))
    else miss3
  else miss3.

(** shapes.py:88-95  Circle.__init__ *)
Definition mk_circle (center : vec T) (normal : option (vec T)) (R D : option T) : Res (circle T) :=
  do (R, D) <- check_R_and_D R D;
  match normal with
  | Some n => Ok (mkCircle center R D (Some (unit_vector n)) (Some (mk_plane center n)))
  | None => Ok (mkCircle center R D None None)
  end.

(** shapes.py:97-102  Circle.test_intersect (self.plane does not exist when no normal was given) *)
Definition circle_test_intersect (c : circle T) (r : ray T) : Res (hit3 T) :=
  match ci_plane c with
  | None => Err AttributeError
  | Some pl =>
      let h := plane_test_intersect pl r in
      if h3_flag h then
        do pt <- need (h3_pt h);
        if distance_between pt (ci_center c) <? ci_R c then Ok (H3 true (Some pt) (h3_normal h))
        else Ok miss3
      else Ok miss3
  end.

(** shapes.py:380-395  Rectangle.__init__ *)
Definition mk_rectangle (center : vec T) (normal tangent : option (vec T)) (h w : option T) : Res (rectangle T) :=
  do n <- unit_vector_o normal;
  do t <- unit_vector_o tangent;
  if negb (isclose (dot n t) #0 (dec 1 5) (dec 1 8)) then Err ValueError
  else
    let t2 := cross n t in
    do (h, w) <- check_h_and_w h w;
    do nn <- need normal;
    let a := vscale (h / #2) t in
    let b := vscale (w / #2) t2 in
    Ok (mkRectangle center n t t2 h w
          (vsub (vadd center a) b)
          (vadd (vadd center a) b)
          (vadd (vsub center a) b)
          (vsub (vsub center a) b)
          (mk_plane center nn)).

(** shapes.py:397-415  Rectangle.test_intersect *)
Definition rectangle_test_intersect (q : rectangle T) (r : ray T) : Res (hit3 T) :=
  let h := plane_test_intersect (re_plane q) r in
  if h3_flag h then
    do M <- need (h3_pt h);
    let A := re_b0 q in
    let B := re_b1 q in
    let C := re_b2 q in
    let AB := vsub B A in
    let BC := vsub C B in
    let AM := vsub M A in
    let BM := vsub M B in
    if ((#0 <=? dot AB AM) && (dot AB AM <=? dot AB AB))%bool then
      if ((#0 <=? dot BC BM) && (dot BC BM <=? dot BC BC))%bool then
        Ok (H3 true (Some M) (h3_normal h))
      else Ok miss3
    else Ok miss3
  else Ok miss3.

(** shapes.py:279-283  Sphere.__init__ *)
Definition mk_sphere (center : vec T) (R D : option T) : Res (sphere T) :=
  do (R, D) <- check_R_and_D R D;
  Ok (mkSphere center R D).

(** shapes.py:285-287  Sphere.normal *)
Definition sphere_normal (s : sphere T) (point : vec T) : vec T := unit_vector (vsub (sp_center s) point).

(** shapes.py:294-302  Sphere.test_point *)
Definition sphere_test_point (s : sphere T) (point : vec T) : bool :=
  let distance := distance_between point (sp_center s) in
  if distance <? sp_R s then true else false.

(** shapes.py:305-356  Sphere.test_intersect *)
Definition sphere_test_intersect (s : sphere T) (r : ray T) : hit6 T :=
  let q := vsub (sp_center s) (position r) in
  let vDotQ := dot (direction r) q in
  let squareDiffs := dot q q - sp_R s * sp_R s in
  let discrim := vDotQ * vDotQ - squareDiffs in
  if discrim >? #0 then
    let root := nsqrt discrim in
    let t0 := vDotQ - root in
    let t1 := vDotQ + root in
    let pt0 := vadd (position r) (vscale t0 (direction r)) in
    let pt1 := vadd (position r) (vscale t1 (direction r)) in
    let norm0 := sphere_normal s pt0 in
    let norm1 := sphere_normal s pt1 in
    if ((t0 >? INTERSECT_CLIPPING_FLOOR) && (t1 >? INTERSECT_CLIPPING_FLOOR))%bool then
      if t0 <? t1 then H6 true (Some pt1) (Some pt0) (Some norm1) (Some norm0) 2
      else H6 true (Some pt0) (Some pt1) (Some norm0) (Some norm1) 2
    else if t1 >? INTERSECT_CLIPPING_FLOOR then H6 true (Some pt1) None (Some norm1) None 1
    else if t0 >? INTERSECT_CLIPPING_FLOOR then H6 true (Some pt0) None (Some norm0) None 1
    else H6 false None None None None 0
  else if discrim =? #0 then
    let t0 := vDotQ in
    let pt0 := vadd (position r) (vscale t0 (direction r)) in
    let norm0 := sphere_normal s pt0 in
    H6 true (Some pt0) None (Some norm0) None 2
  else H6 false None None None None 0.

(** shapes.py:110-116  InfiniteCylinder.__init__ *)
Definition mk_infcyl (center dir : vec T) (R D : option T) : Res (infcyl T) :=
  do (R, D) <- check_R_and_D R D;
  Ok (mkInfCyl center R D (unit_vector dir) (mk_plane center dir)).

(** shapes.py:270-274  InfiniteCylinder.normal *)
Definition infcyl_normal (c : infcyl T) (point : vec T) : vec T :=
  let r := vsub (ic_center c) point in
  let n := project_onto_plane r (ic_direction c) in
  unit_vector n.

(** shapes.py:123-143  transformation of a homogeneous 4-vector to object space: translate, rotate, scale.
    The ray direction (w = 0) is rotated only (lines 130, 135, 141). *)
Definition infcyl_rotation (c : infcyl T) : mat4 T := rotation_matrix4 (ic_direction c) (V #0 #0 #1).
Definition infcyl_point_objectSpace (c : infcyl T) (scale_factor : T) (p : vec T) : vec4 T :=
  let trans_mat := translation_matrix4 (vopp (ic_center c)) in
  let p4 := V4 (vx p) (vy p) (vz p) #1 in
  let p_translated := mv4 trans_mat p4 in
  let p_rotated := mv4 (infcyl_rotation c) p_translated in
  mv4 (scaling_matrix4 (V scale_factor scale_factor scale_factor)) p_rotated.
Definition infcyl_dir_objectSpace (c : infcyl T) (d : vec T) : vec4 T :=
  mv4 (infcyl_rotation c) (V4 (vx d) (vy d) (vz d) #0).

(** shapes.py:118-238  InfiniteCylinder.test_intersect.
    [1 / self.R] (line 137) on a Python number R = 0 raises ZeroDivisionError. *)
Definition infcyl_test_intersect (c : infcyl T) (r : ray T) : Res (hit6 T) :=
  if ic_R c =? #0 then Err ZeroDivisionError
  else
  let scale_factor := #1 / ic_R c in
  let ray_pos := infcyl_point_objectSpace c scale_factor (position r) in
  let ray_dir := infcyl_dir_objectSpace c (direction r) in
  let xE := v4x ray_pos in
  let yE := v4y ray_pos in
  let xD := v4x ray_dir in
  let yD := v4y ray_dir in
  let A := xD * xD + yD * yD in
  let B := #2 * xE * xD + #2 * yE * yD in
  let C := xE * xE + yE * yE - #1 in
  let discriminant := B * B - #4 * A * C in
  if discriminant >? #0 then
    let root := nsqrt discriminant in
    let t01 :=
      if #0 <=? B then ((- B - root) / (#2 * A), (#2 * C) / (- B - root))
      else ((#2 * C) / (- B + root), (- B + root) / (#2 * A)) in
    let t0 := fst t01 / scale_factor in
    let t1 := snd t01 / scale_factor in
    let pt0 := vadd (position r) (vscale t0 (direction r)) in
    let pt1 := vadd (position r) (vscale t1 (direction r)) in
    let normal0 := infcyl_normal c pt0 in
    let normal1 := infcyl_normal c pt1 in
    Ok (if ((t0 >? INTERSECT_CLIPPING_FLOOR) && (t1 >? INTERSECT_CLIPPING_FLOOR))%bool then
          if t0 <? t1 then H6 true (Some pt0) (Some pt1) (Some normal0) (Some normal1) 2
          else H6 true (Some pt1) (Some pt0) (Some normal1) (Some normal0) 2
        else if t1 >? INTERSECT_CLIPPING_FLOOR then H6 true (Some pt1) None (Some normal1) None 1
        else if t0 >? INTERSECT_CLIPPING_FLOOR then H6 true (Some pt0) None (Some normal0) None 1
        else H6 false None None None None 0)
  else if discriminant =? #0 then
    let t0 := (- B / (#2 * A)) / scale_factor in
    let pt0 := vadd (position r) (vscale t0 (direction r)) in
    Ok (H6 true (Some pt0) None (Some (infcyl_normal c pt0)) None 2)
  else Ok (H6 false None None None None 0).

(** shapes.py:241-267  InfiniteCylinder.test_point *)
Definition infcyl_test_point (c : infcyl T) (point : vec T) : Res bool :=
  if ic_R c =? #0 then Err ZeroDivisionError
  else
  let scale_factor := #1 / ic_R c in
  let p := infcyl_point_objectSpace c scale_factor point in
  let r_point := nsqrt (v4x p * v4x p + v4y p * v4y p) in
  Ok (if r_point <? #1 then true else false).

(** shapes.py:361-366  Cylinder.__init__ *)
Definition mk_cylinder (center : vec T) (R D h : option T) : Res (cylinder T) :=
  do (R, D) <- check_R_and_D R D;
  Ok (mkCylinder center R D h).

(** Method dispatch shape.test_intersect(ray): Plane shapes.py:61, Circle :97, InfiniteCylinder :118,
    Sphere :305, Cylinder :372-373 (returns None), Rectangle :397. *)
Definition shape_test_intersect (s : shape T) (r : ray T) : Res (ires T) :=
  match s with
  | SPlane p => Ok (I3 (plane_test_intersect p r))
  | SCircle c => do h <- circle_test_intersect c r; Ok (I3 h)
  | SInfCyl c => do h <- infcyl_test_intersect c r; Ok (I6 h)
  | SSphere s => Ok (I6 (sphere_test_intersect s r))
  | SCylinder _ => Ok INone
  | SRectangle q => do h <- rectangle_test_intersect q r; Ok (I3 h)
  end.

(** Method dispatch shape.test_point(point): InfiniteCylinder shapes.py:241, Sphere :294,
    Cylinder :375-376 (returns None); the flat shapes have no such method. *)
Definition shape_test_point (s : shape T) (p : vec T) : Res (option bool) :=
  match s with
  | SInfCyl c => do b <- infcyl_test_point c p; Ok (Some b)
  | SSphere s => Ok (Some (sphere_test_point s p))
  | SCylinder _ => Ok None
  | SPlane _ | SCircle _ | SRectangle _ => Err AttributeError
  end.

(** Tuple unpacking [a, b, c = shape.test_intersect(ray)]: a 6-tuple raises ValueError, None TypeError. *)
Definition unpack3 (i : ires T) : Res (hit3 T) :=
  match i with I3 h => Ok h | I6 _ => Err ValueError | INone => Err TypeError end.

(** Tuple unpacking into six names: a 3-tuple raises ValueError, None TypeError. *)
Definition unpack6 (i : ires T) : Res (hit6 T) :=
  match i with I6 h => Ok h | I3 _ => Err ValueError | INone => Err TypeError end.

End Shapes.
