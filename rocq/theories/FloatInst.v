(** IEEE 754 binary64 numbers as an instance of [Num], from the standard library's executable specification (Coq.Floats.SpecFloat; plain Gallina,
    no primitive floats, no axioms).  Every operation is correctly rounded to nearest, ties to even, as in Python and numpy on every common
    platform.  [nofZ] rounds an integer literal; decimal literals are one correctly rounded division (see [dec] in Num.v).
    Assumption on numpy: np.dot of 3-vectors adds from left to right without fused multiply-add. *)
From Coq Require Import ZArith Floats.SpecFloat.
From Verif Require Import PyErr Num.

Definition b64 : Type := spec_float.
Definition b64_prec : Z := 53.
Definition b64_emax : Z := 1024.

#[global] Instance Num_b64 : Num b64 := {
  nofZ z := binary_normalize b64_prec b64_emax z 0 false;
  ninf := S754_infinity false;
  nadd := SFadd b64_prec b64_emax;
  nsub := SFsub b64_prec b64_emax;
  nmul := SFmul b64_prec b64_emax;
  ndiv := SFdiv b64_prec b64_emax;
  nopp := SFopp;
  nabs := SFabs;
  nsqrt := SFsqrt b64_prec b64_emax;
  nlt := SFltb;
  nle := SFleb;
  neqb := SFeqb
}.

(** [m] * 10^-[k] as a binary64 number *)
Definition f (m k : Z) : b64 := dec m k.

(* sanity: 0.1 + 0.2 <> 0.3, 1/0 = inf, sqrt(-1) is NaN, 1e8 - 2e-9 = 1e8 *)
Example binary64_rounds : neqb (nadd (f 1 1) (f 2 1)) (f 3 1) = false /\ neqb (nadd (f 5 1) (f 25 2)) (f 75 2) = true
  /\ ndiv (nofZ 1) (nofZ 0) = ninf /\ nsqrt (nofZ (-1)) = S754_nan /\ nsub (nofZ (10 ^ 8)) (f 2 9) = nofZ (10 ^ 8).
Proof. vm_compute. repeat split; reflexivity. Qed.
