(** Python exceptions as values.
    Every Python function of the code base that can raise is modelled as a function into [Res];
    the exception classes are the ones the modelled code (or numpy/CPython on its behalf) raises. *)

Inductive exn : Type :=
| ValueError
| TypeError
| AttributeError
| KeyError
| IndexError
| ZeroDivisionError
| OverflowError
| OSError
| UnboundLocalError
| NotModelled  (* not a Python exception: the computation leaves the modelled fragment *)
| OutOfFuel.  (* not a Python exception: the fuel of the loop model ran out *)

Inductive Res (A : Type) : Type :=
| Ok (a : A)
| Err (e : exn).
Arguments Ok {A} a.
Arguments Err {A} e.

Definition bind {A B : Type} (r : Res A) (k : A -> Res B) : Res B :=
  match r with Ok a => k a | Err e => Err e end.

Notation "'do' x <- r ; k" := (bind r (fun x => k))
  (at level 200, x pattern, r at level 100, k at level 200).

(** Use of a value that may be [None] where Python/numpy needs an array or a number:
    arithmetic on [None] raises TypeError. *)
Definition need {A : Type} (o : option A) : Res A :=
  match o with Some a => Ok a | None => Err TypeError end.

(** Use of a local variable that may not have been assigned yet. *)
Definition bound {A : Type} (o : option A) : Res A :=
  match o with Some a => Ok a | None => Err UnboundLocalError end.
