(** Model of the statistical-physics helpers of general.py: get_nQ, sackurTetrode, FD_int_num and FD_int_approx. *)
From Coq Require Import ZArith String List Bool.
From Verif Require Import PyErr Num Vec Shapes Csg Optics General.
Import ListNotations.

(** np.pi, np.nan, np.exp, np.log and the power of numpy floats (which never raises). *)
Class Special (T : Type) : Type := {
  npi : T;
  nnan : T;
  nexp : T -> T;
  nlog : T -> T;
  nppow : T -> T -> T
}.

Section Fermi.
Context {T : Type} {N : Num T} {E : Elem T} {S : Special T}.
Local Open Scope num_scope.

(** general.py:12-18  get_nQ, for Python floats *)
Definition get_nQ (T_eV m : T) : Res T :=
  let h := dec 662607004 35 in                (* 6.62607004e-27 *)
  let hbar := h / #2 / npi in
  let e_mks := dec 16021766208 29 in          (* 1.6021766208e-19 *)
  let erg_per_eV := e_mks * #10000000 in
  npow (m * erg_per_eV * T_eV / (#2 * npi * (hbar * hbar))) (#3 / #2).

(** general.py:22-27  sackurTetrode; nQ / n is a division of Python floats *)
Definition sackurTetrode (n m V_cm3 T_eV : T) : Res T :=
  let kB := dec 138064852 24 in               (* 1.38064852e-16 *)
  let N_ := n * V_cm3 in
  do nQ <- get_nQ T_eV m;
  if n =? #0 then Err ZeroDivisionError
  else Ok (N_ * kB * (#5 / #2 + nlog (nQ / n))).

(** np.trapz(y, x) on 1-d arrays: the sum of (x[i+1] - x[i]) * (y[i+1] + y[i]) / 2.0, added from left to right *)
Fixpoint trapz_terms (y x : list T) : list T :=
  match y, x with
  | y0 :: ((y1 :: _) as y'), x0 :: ((x1 :: _) as x') => (x1 - x0) * (y1 + y0) / #2 :: trapz_terms y' x'
  | _, _ => []
  end.
Definition trapz (y x : list T) : T := fold_left nadd (trapz_terms y x) #0.

Section Num_.
(** scipy.special.gamma, an arbitrary function here *)
Variable gamma : T -> T.

(** general.py:84-85  the integrand at t *)
Definition fd_f (eta j t : T) : T :=
  let x := nexp (t - nexp (- t)) in
  x * (#1 + nexp (- t)) * nppow x j / (#1 + nexp (x - eta)).
(** general.py:83, 86  np.trapz(t, f) with n intervals.  np.linspace is given the float N + 1 as number of points, which numpy before 1.18
    truncates (later versions raise TypeError). *)
Definition fd_y (eta j : T) (n : nat) : T :=
  let t := linspace (dec (-45) 1) #5 (n + 1) in
  trapz t (map (fd_f eta j) t).
(** general.py:79-94  the loop over N = n, n+1, ...; [todo] values are left; y, N and err are locals that may be unassigned *)
Fixpoint fd_loop (eta j tol : T) (todo n : nat) (y N_ err : option T) : Res (option T * option T * option T) :=
  match todo with
  | O => Ok (y, N_, err)
  | Datatypes.S todo =>
      let y' := fd_y eta j n in
      let N' := Some (nofZ (Z.of_nat n)) in
      if Nat.ltb 1 n then
        do y_old <- bound y;
        let err' := nabs (y' - y_old) in
        if err' <? tol then Ok (Some y', N', Some err')
        else fd_loop eta j tol todo (Datatypes.S n) (Some y') N' (Some err')
      else fd_loop eta j tol todo (Datatypes.S n) (Some y') N' err
  end.
(** general.py:30-102  FD_int_num.  The message printed for an unknown fType is not modelled. *)
Definition FD_int_num (eta j tol : T) (Nmax : Z) (fType : string) : Res (T * T * T) :=
  let half := #1 / #2 in
  do (y, N_, err) <-
    (if eta <? # (-20) then Ok (Some (nexp eta), Some nnan, Some nnan)
     else if eta >? #20 then
       if j =? (# (-1) / #2) then
         do p <- npow eta (dec 5 1); Ok (Some (#2 * p / nsqrt npi), Some nnan, Some nnan)
       else if j =? half then
         do p <- npow eta (#3 / #2); Ok (Some (#4 * p / #3 / nsqrt npi), Some nnan, Some nnan)
       else if j =? (#3 / #2) then
         do p <- npow eta (#5 / #2); Ok (Some (#8 * p / #15 / nsqrt npi), Some nnan, Some nnan)
       else Ok (None, None, None)
     else
       if (Nmax <? 0)%Z then Err ValueError
       else
         do (y, N_, err) <- fd_loop eta j tol (Z.to_nat Nmax) 1 None None None;
         do y <- bound y;
         Ok (Some ((- y) / gamma (j + #1)), N_, err));
  do y <- bound y;
  do N_ <- bound N_;
  do err <- bound err;
  Ok (if String.eqb fType "roman" then y * nsqrt npi / #2 else y, N_, err).
End Num_.

(** x**2, x**3, ... of a Python float *)
Fixpoint nipow (x : T) (n : nat) : T := match n with O => #1 | Datatypes.S n => x * nipow x n end.
(** general.py:106-126  FD_int_approx; the one-tuple is its entry.  The message printed for other j is not modelled. *)
Definition FD_int_approx (eta j : T) : Res T :=
  if j =? (#1 / #2) then
    if eta <=? # (-2) then
      do c2 <- npow #2 (dec 15 1); do c3 <- npow #3 (dec 15 1); do c4 <- npow #4 (dec 15 1);
      do c5 <- npow #5 (dec 15 1); do c6 <- npow #6 (dec 15 1); do c7 <- npow #7 (dec 15 1);
      Ok (nsqrt npi / #2 * nexp eta * (#1 - nexp eta / c2 + nexp (#2 * eta) / c3 - nexp (#3 * eta) / c4
          + nexp (#4 * eta) / c5 - nexp (#5 * eta) / c6 + nexp (#6 * eta) / c7))
    else if eta <=? #0 then
      Ok (dec 678091 6 + dec 53619667 8 * eta + dec 16909748 8 * nipow eta 2 + dec 18780823 9 * nipow eta 3
          - dec 23575446 10 * nipow eta 4 - dec 639610797 12 * nipow eta 5)
    else if eta <=? #3 then
      Ok (dec 678091 6 + dec 53638000 8 * eta + dec 16682350 8 * nipow eta 2 + dec 20606700 9 * nipow eta 3
          - dec 60149100 10 * nipow eta 4 + dec 490398 9 * nipow eta 5)
    else if eta <=? #10 then
      Ok (dec 75706470 8 + dec 3922888 7 * eta + dec 2705525 7 * nipow eta 2 - dec 16829300 9 * nipow eta 3
          + dec 8258364 10 * nipow eta 4 - dec 1819771 11 * nipow eta 5)
    else if eta <=? #100000 then
      do p <- npow eta (#3 / #2);
      Ok (#2 / #3 * p * (#1 + dec 12337005 7 / nipow eta 2 + dec 10654119 7 / nipow eta 4 + dec 97015185 7 / nipow eta 6
          + dec 24271502 5 / nipow eta 8 + dec 12313691 3 / nipow eta 10))
    else
      do p <- npow eta (#3 / #2); Ok (#2 / #3 * p)
  else Ok nnan.

End Fermi.
