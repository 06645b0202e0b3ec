(** Model of script_sketchconcavegratings.py:17-54: the catalogue of concave gratings and the positions drawn in the layout diagrams. *)
From Coq Require Import ZArith Ascii String List Bool Arith.
From Verif Require Import PyErr Num.
Import ListNotations.

(* ---- strings ---- *)
(** str.replace(c, "") for a single character *)
Fixpoint remove_char (c : ascii) (s : string) : string :=
  match s with EmptyString => EmptyString | String a t => if Ascii.eqb a c then remove_char c t else String a (remove_char c t) end.
(** characters that str.strip() removes, in a text decoded from ISO-8859-1 *)
Definition is_space (a : ascii) : bool :=
  let n := nat_of_ascii a in
  ((9 <=? n) && (n <=? 13) || (28 <=? n) && (n <=? 32) || (n =? 133) || (n =? 160))%nat%bool.
Fixpoint lstrip_if (f : ascii -> bool) (s : string) : string :=
  match s with EmptyString => EmptyString | String a t => if f a then lstrip_if f t else s end.
Fixpoint rstrip_if (f : ascii -> bool) (s : string) : string :=
  match s with
  | EmptyString => EmptyString
  | String a t => match rstrip_if f t with EmptyString => if f a then EmptyString else String a EmptyString | t' => String a t' end
  end.
Definition newline : ascii := ascii_of_nat 10.
Definition tab : ascii := ascii_of_nat 9.
(** the letter E with a circumflex, ISO-8859-1 code 202 *)
Definition e_circ : ascii := ascii_of_nat 202.
(** str.split(c) for a single character: the first piece and the others *)
Fixpoint split_on (c : ascii) (s : string) : string * list string :=
  match s with
  | EmptyString => (EmptyString, [])
  | String a t => let (h, l) := split_on c t in if Ascii.eqb a c then (EmptyString, h :: l) else (String a h, l)
  end.

(* ---- dictionaries, in insertion order ---- *)
Section Dict.
Context {A : Type}.
(** d[k] *)
Fixpoint dget (d : list (string * A)) (k : string) : option A :=
  match d with [] => None | (k', v) :: d' => if String.eqb k' k then Some v else dget d' k end.
(** d[k] = v: an existing key keeps its place *)
Fixpoint dset (d : list (string * A)) (k : string) (v : A) : list (string * A) :=
  match d with [] => [(k, v)] | (k', v') :: d' => if String.eqb k' k then (k', v) :: d' else (k', v') :: dset d' k v end.
End Dict.

Section Table.
Context {T : Type} {N : Num T} {TT : Trig T}.
Local Open Scope num_scope.
Variable pyfloat : string -> option T.   (* float(s); None stands for ValueError *)
Variable npi : T.                        (* np.pi *)

(** an entry of a grating's dictionary: a number, a text or a pair of coordinates *)
Inductive entry := CNum (x : T) | CStr (s : string) | CPair (x y : T).

(** script_sketchconcavegratings.py:32-40  the value stored for a field: float(field), else float of the part before the first x, stripped, else the text *)
Definition field_value (f : string) : entry :=
  match pyfloat f with
  | Some x => CNum x
  | None => match pyfloat (rstrip_if is_space (lstrip_if is_space (fst (split_on "x"%char f)))) with Some x => CNum x | None => CStr f end
  end.
Definition catalogue := list (string * list (string * entry)).
(** script_sketchconcavegratings.py:31-40  the fields j, j+1, ... of the row of the grating [name]; the label is looked up inside the try, but an IndexError is not a ValueError *)
Fixpoint load_fields (labels : list string) (name : string) (j : nat) (fields : list string) (data : catalogue) : Res catalogue :=
  match fields with
  | [] => Ok data
  | f :: rest =>
      match nth_error labels j with
      | None => Err IndexError
      | Some lab =>
          match dget data name with
          | None => Err KeyError
          | Some row => load_fields labels name (S j) rest (dset data name (dset row lab (field_value f)))
          end
      end
  end.
(** script_sketchconcavegratings.py:25-40  one row *)
Definition load_row (labels : list string) (line : string) (data : catalogue) : Res catalogue :=
  let (name, fields) := split_on tab line in load_fields labels name 1 fields (dset data name []).
Fixpoint load_rows (labels : list string) (lines : list string) (data : catalogue) : Res catalogue :=
  match lines with [] => Ok data | l :: rest => do d <- load_row labels l data; load_rows labels rest d end.
(** script_sketchconcavegratings.py:20  the line without the letter E circumflex and without line ends *)
Definition clean_line (line : string) : string := rstrip_if (Ascii.eqb newline) (remove_char e_circ line).
(** script_sketchconcavegratings.py:17-40  the whole file, given as the list of its lines *)
Definition load (file : list string) : Res catalogue :=
  match map clean_line file with
  | [] => Ok []
  | l :: rest => let (h, t) := split_on tab l in load_rows (h :: t) rest []
  end.

(** multiplication of an entry with a number: texts and pairs raise TypeError *)
Definition as_num (e : entry) : Res T := match e with CNum x => Ok x | _ => Err TypeError end.
Definition lookup (g : list (string * entry)) (k : string) : Res entry := match dget g k with Some e => Ok e | None => Err KeyError end.
(** grating[r] * f(grating[a] * np.pi / 180): both are looked up before the angle and then the distance is multiplied *)
Definition coordinate (f : T -> T) (g : list (string * entry)) (r a : string) : Res T :=
  do er <- lookup g r; do ea <- lookup g a; do x <- as_num ea; let c := f (x * npi / #180) in do y <- as_num er; Ok (y * c).
(** script_sketchconcavegratings.py:45-50  the pair (r cos a, r sin a) *)
Definition place (g : list (string * entry)) (r a : string) : Res (T * T) :=
  do x <- coordinate ncos g r a; do y <- coordinate nsin g r a; Ok (x, y).
(** script_sketchconcavegratings.py:44-52  the coordinates added to one grating *)
Definition layout1 (g : list (string * entry)) : Res (list (string * entry)) :=
  do (xi, yi) <- place g "r (mm)" "alpha (deg)";
  let g := dset g "xy_input" (CPair xi yi) in
  do (x1, y1) <- place g "r'1 (mm)" "beta1 (deg)";
  let g := dset g "xy_output1" (CPair x1 y1) in
  do (x2, y2) <- place g "r'2 (mm)" "beta2 (deg)";
  let g := dset g "xy_output2" (CPair x2 y2) in
  Ok (dset g "L_detector" (CNum (nsqrt ((y2 - y1) * (y2 - y1) + (x2 - x1) * (x2 - x1))))).
Fixpoint layout (d : catalogue) : Res catalogue :=
  match d with [] => Ok [] | (name, g) :: rest => do g' <- layout1 g; do rest' <- layout rest; Ok ((name, g') :: rest') end.
End Table.
