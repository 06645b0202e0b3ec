(** Model of the numeric helpers of general.py and of the ray generators (general_optics.py image_rays, optics3d.py add_faerie_fire_rays). *)
From Coq Require Import ZArith Ascii String List Bool.
From Verif Require Import PyErr Num Vec Shapes Csg Optics.
Import ListNotations.

(** Operations used only by these helpers.
    [npow]: Python [a ** b] on floats; a negative base with a fractional exponent yields a Python complex number, which is outside the
    model ([NotModelled]).  [nmpow]: math.pow.  [nlog10]: math.log10.  [ntrunc]: int().  [nfloor]: math.floor.  [nwhole]: the integer value
    of a float that is a whole number. *)
Class Elem (T : Type) : Type := {
  npow : T -> T -> Res T;
  nmpow : T -> T -> Res T;
  nlog10 : T -> Res T;
  ntrunc : T -> Res Z;
  nfloor : T -> Res Z;
  nwhole : T -> option Z
}.

Section General.
Context {T : Type} {N : Num T}.
Local Open Scope num_scope.

(** general.py:394-399  wavelength_nm_to_energy_eV, for a Python number (division by 0 raises). *)
Definition planck_h : T := dec 662606957 42.       (* 6.62606957E-34 *)
Definition electron_e : T := dec 160217657 27.     (* 1.60217657E-19 *)
Definition light_c : T := #299792458.              (* 2.99792458E+08 *)
Definition wavelength_nm_to_energy_eV (wavelength_nm : T) : Res T :=
  if wavelength_nm =? #0 then Err ZeroDivisionError
  else Ok (#1000000000 * planck_h * light_c / electron_e / wavelength_nm).
(** general.py:402-407  energy_eV_to_wavelength_nm *)
Definition energy_eV_to_wavelength_nm (energy_eV : T) : Res T :=
  if energy_eV =? #0 then Err ZeroDivisionError
  else Ok (#1000000000 * planck_h * light_c / electron_e / energy_eV).

(** numpy argmin on a 1-d array: the first smallest element, a NaN counting as smallest (the scan keeps the first NaN it meets). *)
Fixpoint argmin_from (best_idx idx : nat) (best : T) (l : list T) : nat :=
  match l with
  | [] => best_idx
  | x :: l =>
      if negb (best =? best) then best_idx
      else if (x <? best) || negb (x =? x) then argmin_from idx (S idx) x l
      else argmin_from best_idx (S idx) best l
  end.
Definition argmin (l : list T) : Res nat :=
  match l with [] => Err ValueError | x :: l => Ok (argmin_from 0 1 x l) end.
(** general.py:388-391  find_nearest *)
Definition find_nearest (array : list T) (value : T) : Res (nat * T) :=
  do idx <- argmin (map (fun a => nabs (a - value)) array);
  match nth_error array idx with Some a => Ok (idx, a) | None => Err IndexError end.

(** general.py:445-461  set_axes_equal with set_axes_radius (439-443): the limits passed to set_xlim3d/ylim3d/zlim3d, given the three
    old (lower, upper) limits.  What matplotlib does with them (e.g. expanding an empty range) is not modelled. *)
Definition nmax (a b : T) : T := if negb (a =? a) then a else if b >? a then b else if negb (b =? b) then b else a.
Definition set_axes_radius (origin : T) (radius : T) : T * T := (origin - radius, origin + radius).
Definition set_axes_equal (xl yl zl : T * T) : (T * T) * (T * T) * (T * T) :=
  let mean (l : T * T) := (fst l + snd l) / #2 in
  let extent (l : T * T) := nabs (snd l - fst l) in
  let radius := dec 5 1 * nmax (nmax (extent xl) (extent yl)) (extent zl) in
  (set_axes_radius (mean xl) radius, set_axes_radius (mean yl) radius, set_axes_radius (mean zl) radius).

(** numpy linspace(start, stop, num) with endpoint (numpy/core/function_base.py): arange(num)*step + start with the last entry
    overwritten by stop; when the step is 0 the product is arange/div*delta, for num = 1 (div = 0) it is arange*delta. *)
Definition linspace (start stop : T) (num : nat) : list T :=
  let div := nofZ (Z.of_nat num - 1)%Z in
  let delta := stop - start in
  let step := delta / div in
  let entry i := if (1 <? Z.of_nat num)%Z then (if step =? #0 then nofZ (Z.of_nat i) / div * delta + start else nofZ (Z.of_nat i) * step + start)
                 else nofZ (Z.of_nat i) * delta + start in
  map (fun i => if (1 <? Z.of_nat num)%Z && Nat.eqb i (num - 1) then stop else entry i) (seq 0 num).

Section TrigGen.
Context {TT : Trig T}.
(** the choice of the sample points, general_optics.py:189-206 *)
Definition samples (lo hi : T) (res : Z) : Res (list T) :=
  if (res <? 1)%Z then Err ValueError
  else if (res =? 1)%Z then Ok [#0]
  else Ok (linspace lo hi (Z.to_nat res)).
(** general_optics.py:187-224  image_rays: origins, directions and wavelengths *)
Definition image_rays (y_center size angle : T) (x_res z_res angle_res : Z) (pattern : string) (pattern_d : T)
  : Res (list (vec T) * list (vec T) * list T) :=
  do x <- samples ((- size) / #2) (size / #2) x_res;
  do z <- samples ((- size) / #2) (size / #2) z_res;
  do angles <- samples (- angle) angle angle_res;
  let each {B} (f : T -> T -> T -> list B) : list B :=
    flat_map (fun xv => flat_map (fun zv => flat_map (fun av => f xv zv av) angles) z) x in
  Ok (each (fun xv zv av => [V xv y_center zv]),
      each (fun xv zv av => [V #0 (ncos av) (nsin av)]),
      each (fun xv zv av =>
        if String.eqb pattern "circle" then
          (if (xv * xv + zv * zv) <=? (pattern_d * pattern_d / #4) then [#680] else [#450])
        else [])).
End TrigGen.

(** optics3d.py:28-39  add_faerie_fire_rays.  np.random.normal() is the next element of an arbitrary stream [draw]; the state is the
    number of draws consumed.  [fuel] bounds each rejection loop. *)
Fixpoint draw_direction (fuel : nat) (draw : nat -> T) (used : nat) (v : vec T) : Res (vec T * nat) :=
  if norm v <? dec 1 6 then
    match fuel with
    | O => Err OutOfFuel
    | S fuel => draw_direction fuel draw (used + 3) (V (draw used) (draw (used + 1)%nat) (draw (used + 2)%nat))
    end
  else Ok (v, used).
Definition faerie_ray (FF_radius : T) (FF_center v0 : vec T) : ray T :=
  let v := vdivs v0 (norm v0) in
  let v_dir := vopp v in
  let v_ff := vadd FF_center (vscale FF_radius v) in
  mk_ray v_ff v_dir #532 #0 "faerie_fire".
Fixpoint faerie_loop (fuel : nat) (draw : nat -> T) (used : nat) (FF_radius : T) (FF_center : vec T) (n : nat) (l : list (ray T))
  : Res (list (ray T)) :=
  match n with
  | O => Ok l
  | S n =>
      do (v, used) <- draw_direction fuel draw used (V #0 #0 #0);
      faerie_loop fuel draw used FF_radius FF_center n (l ++ [faerie_ray FF_radius FF_center v])
  end.
Definition add_faerie_fire_rays (fuel : nat) (draw : nat -> T) (Ray_list : list (ray T)) (FF_radius : T) (FF_center : vec T) (n : Z)
  : Res (list (ray T)) :=
  faerie_loop fuel draw 0 FF_radius FF_center (Z.to_nat n) Ray_list.

Section Elementary.
Context {E : Elem T}.

(** general.py:205-258  wavelength_to_rgb, for number arguments *)
Definition wavelength_to_rgb (wavelength gamma floor_wave ceiling_wave : T) : Res (T * T * T) :=
  let w := if wavelength <? floor_wave then floor_wave else wavelength in
  let w := if w >? ceiling_wave then ceiling_wave else w in
  if w <? #380 then Ok (dec 3 1, #0, dec 3 1)
  else if (#380 <=? w) && (w <=? #440) then
    let attenuation := dec 3 1 + dec 7 1 * (w - #380) / #60 in
    do r <- npow ((- (w - #440)) / #60 * attenuation) gamma;
    do b <- npow (#1 * attenuation) gamma;
    Ok (r, #0, b)
  else if (#440 <=? w) && (w <=? #490) then
    do g <- npow ((w - #440) / #50) gamma;
    Ok (#0, g, #1)
  else if (#490 <=? w) && (w <=? #510) then
    do b <- npow ((- (w - #510)) / #20) gamma;
    Ok (#0, #1, b)
  else if (#510 <=? w) && (w <=? #580) then
    do r <- npow ((w - #510) / #70) gamma;
    Ok (r, #1, #0)
  else if (#580 <=? w) && (w <=? #645) then
    do g <- npow ((- (w - #645)) / #65) gamma;
    Ok (#1, g, #0)
  else if (#645 <=? w) && (w <=? #750) then
    let attenuation := dec 3 1 + dec 7 1 * (#750 - w) / #105 in
    do r <- npow (#1 * attenuation) gamma;
    Ok (r, #0, #0)
  else Ok (dec 3 1, #0, #0).

(** str() of a non-negative integer: its decimal digits *)
Definition digit (d : Z) : ascii := ascii_of_nat (48 + Z.to_nat d).
Fixpoint nat_digits (fuel : nat) (n : Z) : string :=
  match fuel with
  | O => String (digit (n mod 10)) ""
  | S f => if (n <? 10)%Z then String (digit n) "" else nat_digits f (n / 10) ++ String (digit (n mod 10)) ""
  end.
Definition str_nat (n : Z) : string := nat_digits (S (Z.to_nat (Z.log2 n))) n.
(** str() of an integer *)
Definition str_int (n : Z) : string := if (n <? 0)%Z then "-" ++ str_nat (- n) else str_nat n.

(** A Python int or float *)
Inductive number : Type := PInt (z : Z) | PFloat (x : T).
(** ["%.*g" % (p, n)].  Simplification: modelled only for whole numbers n with 0 <= n < 10^p (p >= 1), for which %g with precision p prints
    the plain decimal digits; [NotModelled] otherwise. *)
Definition fmt_g (p : Z) (n : number) : Res string :=
  match (match n with PInt z => Some z | PFloat x => nwhole x end) with
  | Some z => if (1 <=? p)%Z && (0 <=? z)%Z && (z <? 10 ^ p)%Z then Ok (str_nat z) else Err NotModelled
  | None => Err NotModelled
  end.
Fixpoint zeros (k : nat) : string := match k with O => "" | S k => String "0" (zeros k) end.
(** s[a:] , s[:a] for 0 <= a *)
Definition from (a : nat) (s : string) : string := substring a (String.length s - a) s.
Definition upto (a : nat) (s : string) : string := substring 0 a s.

(** general.py:297-314  the layout part of to_precision: p digits [m], decimal exponent [e] *)
Definition layout (m : string) (p e : Z) : string :=
  if (e <? -2)%Z || (p <=? e)%Z then
    (upto 1 m ++ (if (1 <? p)%Z then "." ++ substring 1 (Z.to_nat p - 1) m else "") ++ "e" ++ (if (0 <? e)%Z then "+" else "") ++ str_int e)%string
  else if (e =? p - 1)%Z then m
  else if (0 <=? e)%Z then
    (upto (Z.to_nat (e + 1)) m ++ (if (e + 1 <? Z.of_nat (String.length m))%Z then "." ++ from (Z.to_nat (e + 1)) m else ""))%string
  else ("0." ++ zeros (Z.to_nat (- (e + 1))) ++ m)%string.

(** general.py:264-314  to_precision(x, p) for a number x and an int p *)
Definition to_precision (x0 : T) (p : Z) : Res string :=
  if negb (x0 =? x0) then Ok "NaN"%string
  else if x0 =? #0 then Ok ("0." ++ zeros (Z.to_nat (p - 1)))%string
  else
    let '(sign, x) := if x0 <? #0 then ("-"%string, - x0) else (""%string, x0) in
    do l <- nlog10 x;
    do e <- ntrunc l;
    do tens <- nmpow #10 (nofZ (e - p + 1)%Z);
    do n <- nfloor (x / tens);
    do low <- nmpow #10 (nofZ (p - 1)%Z);
    do (e, tens, n) <- (if nofZ n <? low then
                          do tens <- nmpow #10 (nofZ (e - 1 - p + 1)%Z);
                          do n <- nfloor (x / tens);
                          Ok ((e - 1)%Z, tens, n)
                        else Ok (e, tens, n));
    let n := if nabs ((nofZ n + #1) * tens - x) <=? nabs (nofZ n * tens - x) then (n + 1)%Z else n in
    do high <- nmpow #10 (nofZ p);
    let '(n, e) := if high <=? nofZ n then (PFloat (nofZ n / #10), (e + 1)%Z) else (PInt n, e) in
    do m <- fmt_g p n;
    Ok (sign ++ layout m p e)%string.

End Elementary.
End General.
