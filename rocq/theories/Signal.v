(** Model of the signal helpers of general.py: movingAverageFast and savitzky_golay. *)
From Coq Require Import ZArith List Bool.
From Verif Require Import PyErr Num.
Import ListNotations.

Section Signal.
Context {T : Type} {N : Num T}.
Local Open Scope num_scope.

(** Entry k of the full convolution of two arrays: the sum of a[j]*v[k-j] over the j for which both exist, added from left to right. *)
Definition conv_at (a v : list T) (k : nat) : T :=
  fold_left nadd
    (map (fun j => nth j a #0 * nth (k - j) v #0)
         (filter (fun j => Nat.leb j k && Nat.ltb (k - j) (length v)) (seq 0 (length a)))) #0.
(** np.convolve (numpy/core/numeric.py): the shorter array becomes v, an empty array raises ValueError.  mode='same' keeps
    max(len) entries starting at (min(len) - 1)//2, mode='valid' those where v overlaps a completely. *)
Inductive conv_mode := same | valid.
Definition convolve (m : conv_mode) (a0 v0 : list T) : Res (list T) :=
  let '(a, v) := if Nat.ltb (length a0) (length v0) then (v0, a0) else (a0, v0) in
  match v with
  | [] => Err ValueError
  | _ =>
      let M := length a in let n := length v in
      Ok (match m with
          | same => map (conv_at a v) (seq (Nat.div (n - 1) 2) M)
          | valid => map (conv_at a v) (seq (n - 1) (M - n + 1))
          end)
  end.

(** general.py:410-412  movingAverageFast.  np.ones of a negative size raises ValueError. *)
Definition movingAverageFast (x : list T) (n : Z) : Res (list T) :=
  if (n <? 0)%Z then Err ValueError
  else convolve same x (map (fun one => one / nofZ n) (repeat #1 (Z.to_nat n))).

(** np.linalg.pinv, an arbitrary function here; the theorems say what they need of it *)
Variable pinv : list (list T) -> list (list T).

(** rate**deriv for an int deriv >= 0: repeated multiplication *)
Fixpoint npown (x : T) (n : nat) : T := match n with O => #1 | S n => x * npown x n end.
(** math.factorial *)
Fixpoint factorial (n : nat) : Z := match n with O => 1 | S k => Z.of_nat n * factorial k end.
(** range(-h, h+1) *)
Definition centred (h : nat) : list Z := map (fun k => (Z.of_nat k - Z.of_nat h)%Z) (seq 0 (2 * h + 1)).
(** the matrix [[k**i for i in order_range] for k in range(-half_window, half_window+1)] (general.py:194) *)
Definition vander (h order : nat) : list (list T) :=
  map (fun k => map (fun i => nofZ (k ^ Z.of_nat i)) (seq 0 (S order))) (centred h).

(** general.py:198-200  the padding of the signal, for an array y with first entry y0 and last entry yl *)
Definition pad (h : nat) (y : list T) (y0 yl : T) : list T :=
  let n := length y in
  let firstvals := map (fun v => y0 - nabs (v - y0)) (rev (firstn h (skipn 1 y))) in
  let lastvals := map (fun v => yl + nabs (v - yl)) (rev (firstn (n - 1 - (n - h - 1)) (skipn (n - h - 1) y))) in
  firstvals ++ y ++ lastvals.

(** general.py:131-201  savitzky_golay for an array y and ints window_size, order and deriv.  Simplifications: np.int of an int is that int
    (the except clause for strings is not modelled); a negative deriv takes a row of the pseudo-inverse from the end and then fails
    in rate**deriv (rate 0) or in factorial. *)
Definition savitzky_golay (y : list T) (window_size order deriv : Z) (rate : T) : Res (list T) :=
  let window_size := Z.abs window_size in
  let order := Z.abs order in
  if negb (window_size mod 2 =? 1)%Z || (window_size <? 1)%Z then Err TypeError
  else if (window_size <? order + 2)%Z then Err TypeError
  else
    let half_window := Z.to_nat ((window_size - 1) / 2) in
    let rows := pinv (vander half_window (Z.to_nat order)) in
    if (Z.of_nat (length rows) <=? deriv)%Z || (deriv <? - Z.of_nat (length rows))%Z then Err IndexError
    else if (deriv <? 0)%Z then (if rate =? #0 then Err ZeroDivisionError else Err ValueError)
    else
      let d := Z.to_nat deriv in
      let m := map (fun c => c * npown rate d * nofZ (factorial d)) (nth d rows []) in
      match y with
      | [] => Err IndexError
      | y0 :: _ =>
          let yl := last y y0 in
          convolve valid (rev m) (pad half_window y y0 yl)
      end.

End Signal.
