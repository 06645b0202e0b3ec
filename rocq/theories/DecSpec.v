(** Specification: the number a decimal numeral denotes.  Independent of the model's printing code. *)
From Coq Require Import ZArith Ascii String Bool.
Local Open Scope Z_scope.

Definition digit_value (c : ascii) : option Z :=
  let n := Z.of_nat (nat_of_ascii c) in if (48 <=? n) && (n <=? 57) then Some (n - 48) else None.
(** the longest prefix of digits, read onto [acc]: its value, number of digits, and the rest of the string *)
Fixpoint read_digits (s : string) (acc : Z) (count : nat) : Z * nat * string :=
  match s with
  | String c s' => match digit_value c with Some d => read_digits s' (10 * acc + d) (S count) | None => (acc, count, s) end
  | EmptyString => (acc, count, s)
  end.
Definition split_sign (s : string) : Z * string :=
  match s with String c s' => if Ascii.eqb c "-" then (-1, s') else if Ascii.eqb c "+" then (1, s') else (1, s) | EmptyString => (1, s) end.
(** [numeral s = Some (m, e)]: s is sign? digits+ ('.' digits-star)? ('e' sign? digits+)? and denotes m * 10^e, m made of all its digits. *)
Definition numeral (s : string) : option (Z * Z) :=
  let '(sg, s) := split_sign s in
  let '(a, na, s) := read_digits s 0 0 in
  if Nat.eqb na 0 then None else
  let '(m, nf, s) := match s with String c s' => if Ascii.eqb c "." then read_digits s' a 0 else (a, 0%nat, s) | EmptyString => (a, 0%nat, s) end in
  match s with
  | EmptyString => Some (sg * m, - Z.of_nat nf)
  | String c s' =>
      if Ascii.eqb c "e" then
        let '(es, s') := split_sign s' in
        let '(k, nk, s') := read_digits s' 0 0 in
        if Nat.eqb nk 0 then None else match s' with EmptyString => Some (sg * m, es * k - Z.of_nat nf) | _ => None end
      else None
  end.

Example numeral_1 : numeral "-1.50e+6" = Some (-150, 4). Proof. reflexivity. Qed.
Example numeral_2 : numeral "0.0012" = Some (12, -4). Proof. reflexivity. Qed.
Example numeral_3 : numeral "12a" = None. Proof. reflexivity. Qed.
