(** Number operations used by the code base.  Operations only, no laws. *)
From Coq Require Import ZArith.

(** numpy / Python float operations occurring in general_optics.py, Shapes/shapes.py, optics3d.py.
    [nofZ] is an integer literal, [ninf] is np.inf. *)
Class Num (T : Type) : Type := {
  nofZ : Z -> T;
  ninf : T;
  nadd : T -> T -> T;
  nsub : T -> T -> T;
  nmul : T -> T -> T;
  ndiv : T -> T -> T;
  nopp : T -> T;
  nabs : T -> T;
  nsqrt : T -> T;
  nlt : T -> T -> bool;
  nle : T -> T -> bool;
  neqb : T -> T -> bool
}.

(** np.cos, np.sin, np.arcsin, np.arccos, np.arctan2 (general_optics.py:30,32,53,54,217; optics3d.py:809). *)
Class Trig (T : Type) : Type := {
  ncos : T -> T;
  nsin : T -> T;
  narcsin : T -> T;
  narccos : T -> T;
  narctan2 : T -> T -> T
}.

Declare Scope num_scope.
Delimit Scope num_scope with num.
Infix "+" := nadd : num_scope.
Infix "-" := nsub : num_scope.
Infix "*" := nmul : num_scope.
Infix "/" := ndiv : num_scope.
Notation "- x" := (nopp x) : num_scope.
Infix "<?" := nlt : num_scope.
Infix "<=?" := nle : num_scope.
Infix "=?" := neqb : num_scope.
Notation "'#' z" := (nofZ z%Z) (at level 0, z at level 0) : num_scope.

Section Num.
Context {T : Type} {N : Num T}.
Local Open Scope num_scope.

(** Decimal literal m*10^-k, e.g. 1e-12 = [dec 1 12].  Both m and 10^k are exact binary64 numbers for
    every literal used (m < 2^53, k <= 22), so a single correctly rounded division is the literal's value. *)
Definition dec (m : Z) (k : Z) : T := #m / nofZ (10 ^ k)%Z.

(** Python [a > b] is [b < a] (also for NaN). *)
Definition ngt (a b : T) : bool := b <? a.

(** np.isfinite, written with the available operations: x - x is 0 exactly for finite x. *)
Definition nisfinite (a : T) : bool := (a - a) =? #0.

(** np.isclose(a, b, rtol, atol) on scalars: within |a-b| <= atol + rtol*|b| when both are finite,
    equality otherwise.  Defaults rtol=1e-5, atol=1e-8. *)
Definition isclose (a b rtol atol : T) : bool :=
  if (nisfinite a && nisfinite b)%bool
  then nabs (a - b) <=? (atol + rtol * nabs b)
  else a =? b.

End Num.
Infix ">?" := ngt : num_scope.
