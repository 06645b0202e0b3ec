(** Model of the draw methods of optics3d.py: what is handed to matplotlib. *)
From Coq Require Import ZArith String List Bool.
From Verif Require Import PyErr Num Vec Shapes Csg Optics General.
Import ListNotations.
Local Open Scope string_scope.

Section Drawing.
Context {T : Type} {N : Num T} {TT : Trig T}.
Variable npi : T.   (* np.pi *)
Local Open Scope num_scope.

(** What a draw method adds to the axes (colours and line widths are not modelled):
    a marker in a 2-d plot; a filled circle of the given radius, or a filled rectangle from (x0, y0) with the given width and height, placed in
    space by pathpatch_2d_to_3d(normal) and pathpatch_translate(delta); a filled polygon in space; a surface through mesh points. *)
Inductive picture : Type :=
| PMark (x y : T)
| PDisc (radius : T) (normal delta : vec T)
| PRect (x0 y0 width height : T) (normal delta : vec T)
| PPoly (verts : list (vec T))
| PMesh (pts : list (vec T)).

(** optics3d.py:279-287, 299-307 and 447-455: mplCircle((0, 0), self.D / 2), pathpatch_2d_to_3d(p, z=0, normal=self.normal) and
    pathpatch_translate(p, (x, y, z)) *)
Definition draw_circle (pos : vec T) (normal : option (vec T)) (D : option T) : Res (list picture) :=
  do d <- need D;
  do n <- need normal;
  Ok [PDisc (d / #2) n pos].
(** optics3d.py:290-298 and 525-535: mplRectangle((-self.w/2, -self.h/2), width=self.w, height=self.h), placed likewise *)
Definition draw_rectangle (pos : vec T) (normal : option (vec T)) (w h : option T) : Res (list picture) :=
  do w <- need w;
  do h <- need h;
  do n <- need normal;
  Ok [PRect ((- w) / #2) ((- h) / #2) w h n pos].
(** optics3d.py:312-319 and 459-466: the mesh of a sphere, N = 50 *)
Definition draw_sphere (pos : vec T) (D : option T) : Res (list picture) :=
  do d <- need D;
  let u := linspace #0 (#2 * npi) 50 in
  let v := linspace #0 npi 50 in
  Ok [PMesh (flat_map (fun a => map (fun b =>
    V (vx pos + d / #2 * (ncos a * nsin b))
      (vy pos + d / #2 * (nsin a * nsin b))
      (vz pos + d / #2 * (#1 * ncos b))) v) u)].

(** optics3d.py:257-321  Mirror.draw; D, w, h are the attributes set by the constructor *)
Definition draw_mirror (D w h : option T) (m : mirror T) (view : string) : Res (list picture) :=
  if (String.eqb view "xy" || String.eqb view "tangential")%bool then
    if String.eqb (mi_shape m) "circular_flat" then Ok [PMark (vx (mi_position m)) (vy (mi_position m))] else Err ValueError
  else if (String.eqb view "xz" || String.eqb view "sagittal")%bool then
    if String.eqb (mi_shape m) "circular_flat" then Ok [PMark (vx (mi_position m)) (vz (mi_position m))] else Err ValueError
  else if (String.eqb view "3d" || String.eqb view "xyz")%bool then
    if String.eqb (mi_shape m) "circular_flat" then draw_circle (mi_position m) (mi_normal m) D
    else if String.eqb (mi_shape m) "rectangular_flat" then draw_rectangle (mi_position m) (mi_normal m) w h
    else if String.eqb (mi_shape m) "circular_concave_spherical" then draw_circle (mi_position m) (mi_normal m) D
    else if String.eqb (mi_shape m) "circular_convex_spherical" then draw_sphere (mi_position m) D
    else Err ValueError
  else Ok [].
(** optics3d.py:443-468  Lens.draw *)
Definition draw_lens (D : option T) (l : lens T) (view : string) : Res (list picture) :=
  if (String.eqb view "3d" || String.eqb view "xyz")%bool then
    if String.eqb (le_shape l) "spherical_biconvex" then draw_circle (le_position l) (le_normal l) D
    else if String.eqb (le_shape l) "spherical" then draw_sphere (le_position l) D
    else Err ValueError
  else Ok [].
(** optics3d.py:523-535  Grating.draw *)
Definition draw_grating (w h : option T) (g : grating T) (view : string) : Res (list picture) :=
  if (String.eqb view "3d" || String.eqb view "xyz")%bool then
    if String.eqb (gr_shape g) "rectangular_flat" then draw_rectangle (gr_position g) (Some (gr_normal g)) w h else Ok []
  else Ok [].
(** optics3d.py:582-594  Detector.draw: the corners of each Rectangle among the surfaces *)
Definition draw_detector (d : detector T) (view : string) : Res (list picture) :=
  if (String.eqb view "3d" || String.eqb view "xyz")%bool then
    if String.eqb (de_shape d) "rectangular_flat" then
      Ok (flat_map (fun s => match s with SRectangle q => [PPoly [re_b0 q; re_b1 q; re_b2 q; re_b3 q]] | _ => [] end) (de_surfaces d))
    else Ok []
  else Ok [].
(** draw of any optic; D, w, h are its attributes.  Optic.draw (75-76) and Compound.draw (139-140) do nothing. *)
Definition draw_optic (D w h : option T) (o : optic T) (view : string) : Res (list picture) :=
  match o with
  | OMirror m => draw_mirror D w h m view
  | OLens l => draw_lens D l view
  | OGrating g => draw_grating w h g view
  | ODetector d => draw_detector d view
  | OCompound _ | OOptic _ | OAnnotation _ | OFilter _ | OWindow _ | OBlock _ => Ok []
  end.
End Drawing.
Arguments picture : clear implicits.
