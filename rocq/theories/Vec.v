(** Model of the vector and matrix functions of general_optics.py. *)
From Coq Require Import ZArith List.
From Verif Require Import PyErr Num.
Import ListNotations.

(** "we are representing vectors as 1d numpy arrays, i.e., R = np.array([x, y, z])" (optics3d.py:18). *)
Record vec (T : Type) : Type := V { vx : T; vy : T; vz : T }.
Arguments V {T} vx vy vz.
Arguments vx {T} v.
Arguments vy {T} v.
Arguments vz {T} v.

(** 3x3 arrays as three rows. *)
Record mat3 (T : Type) : Type := M3 { row0 : vec T; row1 : vec T; row2 : vec T }.
Arguments M3 {T} row0 row1 row2.
Arguments row0 {T} m.
Arguments row1 {T} m.
Arguments row2 {T} m.

(** Homogeneous 4-vectors and 4x4 arrays (general_optics.py:85-113, shapes.py:121-141). *)
Record vec4 (T : Type) : Type := V4 { v4x : T; v4y : T; v4z : T; v4w : T }.
Arguments V4 {T} v4x v4y v4z v4w.
Arguments v4x {T} v.
Arguments v4y {T} v.
Arguments v4z {T} v.
Arguments v4w {T} v.
Record mat4 (T : Type) : Type := M4 { r4_0 : vec4 T; r4_1 : vec4 T; r4_2 : vec4 T; r4_3 : vec4 T }.
Arguments M4 {T} r4_0 r4_1 r4_2 r4_3.
Arguments r4_0 {T} m.
Arguments r4_1 {T} m.
Arguments r4_2 {T} m.
Arguments r4_3 {T} m.

Section Vec.
Context {T : Type} {N : Num T}.
Local Open Scope num_scope.

(* ---- numpy array operations on 3-vectors ---- *)
(** numpy elementwise a + b *)
Definition vadd (a b : vec T) : vec T := V (vx a + vx b) (vy a + vy b) (vz a + vz b).
(** numpy elementwise a - b *)
Definition vsub (a b : vec T) : vec T := V (vx a - vx b) (vy a - vy b) (vz a - vz b).
(** numpy unary minus *)
Definition vopp (a : vec T) : vec T := V (- vx a) (- vy a) (- vz a).
(** scalar * array *)
Definition vscale (s : T) (a : vec T) : vec T := V (s * vx a) (s * vy a) (s * vz a).
(** array / scalar *)
Definition vdivs (a : vec T) (s : T) : vec T := V (vx a / s) (vy a / s) (vz a / s).
(** np.dot of two 3-vectors; summation from left to right *)
Definition dot (a b : vec T) : T := vx a * vx b + vy a * vy b + vz a * vz b.
(** np.cross *)
Definition cross (a b : vec T) : vec T :=
  V (vy a * vz b - vz a * vy b) (vz a * vx b - vx a * vz b) (vx a * vy b - vy a * vx b).
(** np.linalg.norm of a vector: sqrt(dot(x, x)) *)
Definition norm (a : vec T) : T := nsqrt (dot a a).
(** np.allclose on 3-vectors with scalar tolerances *)
Definition vallclose (a b : vec T) (rtol atol : T) : bool :=
  (isclose (vx a) (vx b) rtol atol && isclose (vy a) (vy b) rtol atol && isclose (vz a) (vz b) rtol atol)%bool.

(* ---- 3x3 matrices ---- *)
(** np.dot(M, v) / M.dot(v) *)
Definition mv (m : mat3 T) (v : vec T) : vec T := V (dot (row0 m) v) (dot (row1 m) v) (dot (row2 m) v).
(** elementwise sum *)
Definition madd (a b : mat3 T) : mat3 T :=
  M3 (vadd (row0 a) (row0 b)) (vadd (row1 a) (row1 b)) (vadd (row2 a) (row2 b)).
(** elementwise difference *)
Definition msub (a b : mat3 T) : mat3 T :=
  M3 (vsub (row0 a) (row0 b)) (vsub (row1 a) (row1 b)) (vsub (row2 a) (row2 b)).
(** scalar * matrix *)
Definition mscale (s : T) (a : mat3 T) : mat3 T :=
  M3 (vscale s (row0 a)) (vscale s (row1 a)) (vscale s (row2 a)).
(** matrix / scalar *)
Definition mdivs (a : mat3 T) (s : T) : mat3 T :=
  M3 (vdivs (row0 a) s) (vdivs (row1 a) s) (vdivs (row2 a) s).
(** columns of a matrix *)
Definition col0 (m : mat3 T) : vec T := V (vx (row0 m)) (vx (row1 m)) (vx (row2 m)).
Definition col1 (m : mat3 T) : vec T := V (vy (row0 m)) (vy (row1 m)) (vy (row2 m)).
Definition col2 (m : mat3 T) : vec T := V (vz (row0 m)) (vz (row1 m)) (vz (row2 m)).
(** np.dot(A, B) of 3x3 matrices *)
Definition mm (a b : mat3 T) : mat3 T :=
  let r u := V (dot u (col0 b)) (dot u (col1 b)) (dot u (col2 b)) in
  M3 (r (row0 a)) (r (row1 a)) (r (row2 a)).
(** np.eye(3) / np.identity(3) *)
Definition eye3 : mat3 T := M3 (V #1 #0 #0) (V #0 #1 #0) (V #0 #0 #1).
(** - np.identity(3) *)
Definition mopp (a : mat3 T) : mat3 T := M3 (vopp (row0 a)) (vopp (row1 a)) (vopp (row2 a)).
(** np.outer(d, d) *)
Definition outer (a b : vec T) : mat3 T := M3 (vscale (vx a) b) (vscale (vy a) b) (vscale (vz a) b).

(* ---- general_optics.py ---- *)

(** general_optics.py:12-14  unit_vector *)
Definition unit_vector (v : vec T) : vec T := vdivs v (norm v).

(** unit_vector applied to an argument that may be None: [None / norm] raises TypeError
    (general_optics.py:14). *)
Definition unit_vector_o (o : option (vec T)) : Res (vec T) :=
  match o with Some v => Ok (unit_vector v) | None => Err TypeError end.

(** general_optics.py:36-38  distance_between *)
Definition distance_between (p1 p2 : vec T) : T := norm (vsub p1 p2).

(** general_optics.py:236-239  project_onto_plane *)
Definition project_onto_plane (x n : vec T) : vec T :=
  let d := dot x n / norm n in
  let u := unit_vector n in
  let p := V (d * vx u) (d * vy u) (d * vz u) in
  V (vx x - vx p) (vy x - vy p) (vz x - vz p).

(** general_optics.py:63-82  rotation_matrix2.  Simplification: the in-place normalisation
    [a /= norm(a)] of the caller's arrays is not written back (every caller passes an array that is already
    normalised or local; see [unit_vector_idem] for why this is the identity in exact arithmetic). *)
Definition rotation_matrix2 (a0 b0 : vec T) : mat3 T :=
  let a := vdivs a0 (norm a0) in
  let b := vdivs b0 (norm b0) in
  let v := cross a b in
  let sin_angle := norm v in
  let cos_angle := dot a b in
  if sin_angle =? #0 then
    (if cos_angle >? #0 then eye3 else mopp eye3)
  else
    let skew := M3 (V #0 (- vz v) (vy v)) (V (vz v) #0 (- vx v)) (V (- vy v) (vx v) #0) in
    madd (madd eye3 skew) (mdivs (mm skew skew) (#1 + cos_angle)).

(** general_optics.py:126-150  rotation_matrix.  Same simplification as [rotation_matrix2]. *)
Definition rotation_matrix (v1_0 v2_0 : vec T) : mat3 T :=
  let v1 := vdivs v1_0 (norm v1_0) in
  let v2 := vdivs v2_0 (norm v2_0) in
  let cos_angle := dot v1 v2 in
  let d0 := cross v1 v2 in
  let sin_angle := norm d0 in
  if sin_angle =? #0 then
    (if cos_angle >? #0 then eye3 else mopp eye3)
  else
    let d := vdivs d0 sin_angle in
    let ddt := outer d d in
    let skew := M3 (V #0 (vz d) (- vy d)) (V (- vz d) #0 (vx d)) (V (vy d) (- vx d) #0) in
    madd (madd ddt (mscale cos_angle (msub eye3 ddt))) (mscale sin_angle skew).

(* ---- homogeneous coordinates ---- *)
(** dot product of 4-vectors *)
Definition dot4 (a b : vec4 T) : T := v4x a * v4x b + v4y a * v4y b + v4z a * v4z b + v4w a * v4w b.
(** np.dot(M4, v4) *)
Definition mv4 (m : mat4 T) (v : vec4 T) : vec4 T :=
  V4 (dot4 (r4_0 m) v) (dot4 (r4_1 m) v) (dot4 (r4_2 m) v) (dot4 (r4_3 m) v).

(** general_optics.py:85-91  rotation_matrix4 *)
Definition rotation_matrix4 (a b : vec T) : mat4 T :=
  let m := rotation_matrix2 a b in
  M4 (V4 (vx (row0 m)) (vy (row0 m)) (vz (row0 m)) #0)
     (V4 (vx (row1 m)) (vy (row1 m)) (vz (row1 m)) #0)
     (V4 (vx (row2 m)) (vy (row2 m)) (vz (row2 m)) #0)
     (V4 #0 #0 #0 #1).

(** general_optics.py:95-103  scaling_matrix4 *)
Definition scaling_matrix4 (s : vec T) : mat4 T :=
  M4 (V4 (vx s) #0 #0 #0) (V4 #0 (vy s) #0 #0) (V4 #0 #0 (vz s) #0) (V4 #0 #0 #0 #1).

(** general_optics.py:107-113  translation_matrix4 *)
Definition translation_matrix4 (t : vec T) : mat4 T :=
  M4 (V4 #1 #0 #0 (vx t)) (V4 #0 #1 #0 (vy t)) (V4 #0 #0 #1 (vz t)) (V4 #0 #0 #0 #1).

(** general_optics.py:174-183  pathpatch_2d_to_3d (the vertex arithmetic, for a vector [normal]) followed by
    pathpatch_translate: the 3-d vertex of the 2-d vertex (x, y).  The matplotlib Path/Patch plumbing
    (lines 164-173) is not modelled. *)
Definition pathpatch_vertex (normal : vec T) (z : T) (delta : vec T) (x y : T) : vec T :=
  let M := rotation_matrix normal (V #0 #0 #1) in
  vadd (vadd (mv M (V x y #0)) (V #0 #0 z)) delta.
Definition pathpatch_vertices (normal : vec T) (z : T) (delta : vec T) (verts : list (T * T)) : list (vec T) :=
  map (fun '(x, y) => pathpatch_vertex normal z delta x y) verts.

Section TrigVec.
Context {TT : Trig T}.

(** general_optics.py:17-33  angle_between *)
Definition angle_between (v1 v2 : vec T) (v_normal : option (vec T)) : T :=
  let v1_u := unit_vector v1 in
  let v2_u := unit_vector v2 in
  match v_normal with
  | Some vn => narctan2 (dot (cross v2_u v1_u) vn) (dot v1_u v2_u)
  | None => narccos (dot v1_u v2_u)
  end.

(** general_optics.py:41-59  rotation_matrix_axis_angle *)
Definition rotation_matrix_axis_angle (axis0 : vec T) (theta : T) : mat3 T :=
  let axis := vdivs axis0 (nsqrt (dot axis0 axis0)) in
  let a := ncos (theta / #2) in
  let s := nsin (theta / #2) in
  let b := (- vx axis) * s in
  let c := (- vy axis) * s in
  let d := (- vz axis) * s in
  let aa := a * a in let bb := b * b in let cc := c * c in let dd := d * d in
  let bc := b * c in let ad := a * d in let ac := a * c in
  let ab := a * b in let bd := b * d in let cd := c * d in
  M3 (V (aa + bb - cc - dd) (#2 * (bc + ad)) (#2 * (bd - ac)))
     (V (#2 * (bc - ad)) (aa + cc - bb - dd) (#2 * (cd + ab)))
     (V (#2 * (bd + ac)) (#2 * (cd - ab)) (aa + dd - bb - cc)).
End TrigVec.
End Vec.
