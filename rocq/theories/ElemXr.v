(** The extra operations of General.v over reals with IEEE special values. *)
From Coq Require Import Reals ZArith Lra Lia Psatz Bool.
From Verif Require Import PyErr Num Vec Shapes Csg Optics General XReal.
Local Open Scope R_scope.

Definition is_whole (x : R) : bool := Reqb x (IZR (Int_part x)).
(** C pow, with the errors Python adds: [zero] for 0 to a negative power, [frac] for a negative base with a fractional exponent *)
Definition xpow (zero frac : exn) (a b : xr) : Res xr :=
  match a, b with
  | Fin a, Fin b =>
      if Req_EM_T b 0 then Ok (Fin 1)
      else if Rlt_dec 0 a then Ok (Fin (Rpower a b))
      else if Req_EM_T a 0 then (if Rlt_dec b 0 then Err zero else Ok (Fin 0))
      else if is_whole b then Ok (Fin (powerRZ a (Int_part b)))
      else Err frac
  | XNaN, Fin b => Ok (if Req_EM_T b 0 then Fin 1 else XNaN)
  | Fin a, XNaN => Ok (if Req_EM_T a 1 then Fin 1 else XNaN)
  | XNaN, _ | _, XNaN => Ok XNaN
  | Fin a, PInf => Ok (if Req_EM_T (Rabs a) 1 then Fin 1 else if Rlt_dec (Rabs a) 1 then Fin 0 else PInf)
  | Fin a, NInf => Ok (if Req_EM_T (Rabs a) 1 then Fin 1 else if Rlt_dec (Rabs a) 1 then PInf else Fin 0)
  | PInf, Fin b => Ok (if Rlt_dec 0 b then PInf else if Req_EM_T b 0 then Fin 1 else Fin 0)
  | NInf, Fin b => Ok (if Rlt_dec 0 b then (if (is_whole b && Z.odd (Int_part b))%bool then NInf else PInf) else if Req_EM_T b 0 then Fin 1 else Fin 0)
  | _, PInf => Ok PInf
  | _, NInf => Ok (Fin 0)
  end.
(** int() and math.floor(): OverflowError on infinities, ValueError on NaN *)
Definition xint (f : R -> Z) (a : xr) : Res Z :=
  match a with Fin x => Ok (f x) | XNaN => Err ValueError | _ => Err OverflowError end.
Definition Rtrunc (x : R) : Z := if Rlt_dec x 0 then (- Int_part (- x))%Z else Int_part x.
#[global] Instance Elem_xr : Elem xr := {
  npow := xpow ZeroDivisionError NotModelled;
  nmpow := xpow ValueError ValueError;
  nlog10 a := match a with Fin x => if Rlt_dec 0 x then Ok (Fin (ln x / ln 10)) else Err ValueError | PInf => Ok PInf | NInf => Err ValueError | XNaN => Ok XNaN end;
  ntrunc := xint Rtrunc;
  nfloor := xint Int_part;
  nwhole a := match a with Fin x => if is_whole x then Some (Int_part x) else None | _ => None end
}.

Lemma Int_part_spec x z : IZR z <= x < IZR z + 1 -> Int_part x = z.
Proof.
  intros H. assert (A := base_Int_part x). apply Z.le_antisymm; apply Z.lt_succ_r; apply lt_IZR; rewrite succ_IZR; lra.
Qed.
Lemma Int_part_IZR z : Int_part (IZR z) = z. Proof. apply Int_part_spec. lra. Qed.
Lemma Int_part_bounds x : IZR (Int_part x) <= x < IZR (Int_part x) + 1.
Proof. assert (A := base_Int_part x). lra. Qed.
