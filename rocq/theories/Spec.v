(** Specification vocabulary: ordinary real 3-space.  Nothing in this file mentions the model. *)
From Coq Require Import Reals List.
Local Open Scope R_scope.

Record R3 : Type := mk3 { cx : R; cy : R; cz : R }.

Definition r3add (a b : R3) : R3 := mk3 (cx a + cx b) (cy a + cy b) (cz a + cz b).
Definition r3sub (a b : R3) : R3 := mk3 (cx a - cx b) (cy a - cy b) (cz a - cz b).
Definition r3opp (a : R3) : R3 := mk3 (- cx a) (- cy a) (- cz a).
Definition r3scale (s : R) (a : R3) : R3 := mk3 (s * cx a) (s * cy a) (s * cz a).
Definition r3dot (a b : R3) : R := cx a * cx b + cy a * cy b + cz a * cz b.
Definition r3cross (a b : R3) : R3 :=
  mk3 (cy a * cz b - cz a * cy b) (cz a * cx b - cx a * cz b) (cx a * cy b - cy a * cx b).
Definition r3zero : R3 := mk3 0 0 0.
Definition len (a : R3) : R := sqrt (r3dot a a).
Definition dist3 (a b : R3) : R := len (r3sub a b).
Definition is_unit (a : R3) : Prop := r3dot a a = 1.
Definition orth (a b : R3) : Prop := r3dot a b = 0.

Declare Scope r3_scope.
Delimit Scope r3_scope with r3.
Infix "+" := r3add : r3_scope.
Infix "-" := r3sub : r3_scope.
Notation "- a" := (r3opp a) : r3_scope.
Infix "*" := r3scale : r3_scope.
Infix "×" := r3cross (at level 40) : r3_scope.
Notation "a ∙ b" := (r3dot a b) (at level 40) : R_scope.
Bind Scope r3_scope with R3.

(** Point of the half-line from p in direction d at parameter t. *)
Definition at_t (p d : R3) (t : R) : R3 := (p + t * d)%r3.

(** Surfaces and solids. *)
Definition on_plane (c n x : R3) : Prop := (x - c)%r3 ∙ n = 0.
Definition on_sphere (c : R3) (r : R) (x : R3) : Prop := dist3 x c = r.
Definition in_ball (c : R3) (r : R) (x : R3) : Prop := dist3 x c < r.
(** distance of x from the line through c with unit direction u: length of the component orthogonal to u *)
Definition perp (u x : R3) : R3 := (x - (x ∙ u) * u)%r3.
Definition axis_dist (c u x : R3) : R := len (perp u (x - c)).
Definition on_cylinder (c u : R3) (r : R) (x : R3) : Prop := axis_dist c u x = r.
Definition in_cylinder (c u : R3) (r : R) (x : R3) : Prop := axis_dist c u x < r.
