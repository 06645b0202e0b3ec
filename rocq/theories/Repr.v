(** Model of __repr__ of the optics (str() and print() of an optic). *)
From Coq Require Import ZArith String List Bool.
From Verif Require Import PyErr Num Vec Shapes Csg Optics General Printing.
Local Open Scope string_scope.

Section Repr.
Context {T : Type} {N : Num T} {TT : Trig T} {E : Elem T}.

(** "name ({}, {}, {}),  ({}, {}, {})" of self.position and self.normal, when self.normal may be missing: the arguments of format are evaluated
    from left to right, so the position is formatted before self.normal is looked up; [missing] is what looking it up raises. *)
Definition repr_normal (name : string) (missing : exn) (pos : vec T) (normal : option (vec T)) : Res string :=
  match normal with
  | Some n => repr6 name pos n
  | None =>
      do _ <- to_precision (vx pos) 5;
      do _ <- to_precision (vy pos) 5;
      do _ <- to_precision (vz pos) 5;
      Err missing
  end.

(** optics3d.py:62-69 Optic, 90-91 Compound, 176-182 Mirror, 348-354 Lens, 488-494 Grating, 554-560 Detector.  Optic.__repr__ (inherited by
    Annotation, Filter, Window and Block, 597-612) starts with self.optic_type, which nothing sets.  A convex mirror has no attribute normal
    (line 170-171); a lens without a normal has None there (line 331), which cannot be subscripted. *)
Definition optic_repr (o : optic T) : Res string :=
  match o with
  | OCompound _ => Ok "Compound"
  | OMirror m => repr_normal "Mirror" AttributeError (mi_position m) (mi_normal m)
  | OLens l => repr_normal "Lens" TypeError (le_position l) (le_normal l)
  | OGrating g => repr6 "Grating" (gr_position g) (gr_normal g)
  | ODetector d => repr6 "Detector" (de_position d) (de_normal d)
  | OOptic _ | OAnnotation _ | OFilter _ | OWindow _ | OBlock _ => Err AttributeError
  end.
End Repr.
