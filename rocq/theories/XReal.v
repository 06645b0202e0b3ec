(** Real numbers with the IEEE special values: the instance of [Num]/[Trig] used by the geometric theorems.
    Arithmetic on finite values is exact (no rounding, no overflow); NaN and the infinities follow IEEE 754
    as numpy does; there is no signed zero: x/0 for x <> 0 is the infinity with the sign of x. *)
From Coq Require Import Reals ZArith Lra Bool.
From Verif Require Import Num.
Local Open Scope R_scope.

Inductive xr : Type := Fin (r : R) | PInf | NInf | XNaN.

Definition Rltb (x y : R) : bool := if Rlt_dec x y then true else false.
Definition Rleb (x y : R) : bool := if Rle_dec x y then true else false.
Definition Reqb (x y : R) : bool := if Req_EM_T x y then true else false.

Definition xopp (a : xr) : xr :=
  match a with Fin x => Fin (- x) | PInf => NInf | NInf => PInf | XNaN => XNaN end.
Definition xadd (a b : xr) : xr :=
  match a, b with
  | Fin x, Fin y => Fin (x + y)
  | XNaN, _ | _, XNaN => XNaN
  | PInf, NInf | NInf, PInf => XNaN
  | PInf, _ | _, PInf => PInf
  | NInf, _ | _, NInf => NInf
  end.
Definition xsub (a b : xr) : xr := xadd a (xopp b).
(** an infinity multiplied by a finite number *)
Definition inf_times (pos : bool) (x : R) : xr :=
  if Rlt_dec 0 x then (if pos then PInf else NInf)
  else if Rlt_dec x 0 then (if pos then NInf else PInf)
  else XNaN.
Definition xmul (a b : xr) : xr :=
  match a, b with
  | Fin x, Fin y => Fin (x * y)
  | XNaN, _ | _, XNaN => XNaN
  | PInf, PInf | NInf, NInf => PInf
  | PInf, NInf | NInf, PInf => NInf
  | PInf, Fin x | Fin x, PInf => inf_times true x
  | NInf, Fin x | Fin x, NInf => inf_times false x
  end.
Definition xdiv (a b : xr) : xr :=
  match a, b with
  | XNaN, _ | _, XNaN => XNaN
  | Fin x, Fin y =>
      if Req_EM_T y 0 then
        (if Rlt_dec 0 x then PInf else if Rlt_dec x 0 then NInf else XNaN)
      else Fin (x / y)
  | Fin _, _ => Fin 0
  | PInf, Fin y => if Rlt_dec y 0 then NInf else PInf
  | NInf, Fin y => if Rlt_dec y 0 then PInf else NInf
  | _, _ => XNaN
  end.
Definition xabs (a : xr) : xr :=
  match a with Fin x => Fin (Rabs x) | PInf | NInf => PInf | XNaN => XNaN end.
Definition xsqrt (a : xr) : xr :=
  match a with
  | Fin x => if Rlt_dec x 0 then XNaN else Fin (sqrt x)
  | PInf => PInf | NInf => XNaN | XNaN => XNaN
  end.
Definition xlt (a b : xr) : bool :=
  match a, b with
  | Fin x, Fin y => Rltb x y
  | XNaN, _ | _, XNaN => false
  | NInf, NInf | PInf, _ | _, NInf => false
  | _, _ => true
  end.
Definition xeqb (a b : xr) : bool :=
  match a, b with
  | Fin x, Fin y => Reqb x y
  | PInf, PInf | NInf, NInf => true
  | _, _ => false
  end.
Definition xle (a b : xr) : bool :=
  match a, b with Fin x, Fin y => Rleb x y | _, _ => xlt a b || xeqb a b end.

#[global] Instance Num_xr : Num xr := {
  nofZ z := Fin (IZR z);
  ninf := PInf;
  nadd := xadd; nsub := xsub; nmul := xmul; ndiv := xdiv; nopp := xopp; nabs := xabs; nsqrt := xsqrt;
  nlt := xlt; nle := xle; neqb := xeqb
}.

(** The angle of the point (x, y), in (-PI, PI]; 0 at the origin. *)
Definition Ratan2 (y x : R) : R :=
  if Rlt_dec 0 x then atan (y / x)
  else if Rlt_dec x 0 then (if Rlt_dec y 0 then atan (y / x) - PI else atan (y / x) + PI)
  else if Rlt_dec 0 y then PI / 2 else if Rlt_dec y 0 then - (PI / 2) else 0.
Definition xatan2 (y x : xr) : xr :=
  match y, x with
  | XNaN, _ | _, XNaN => XNaN
  | Fin y, Fin x => Fin (Ratan2 y x)
  | Fin y, PInf => Fin 0
  | Fin y, NInf => Fin (if Rlt_dec y 0 then - PI else PI)
  | PInf, Fin _ => Fin (PI / 2)
  | NInf, Fin _ => Fin (- (PI / 2))
  | PInf, PInf => Fin (PI / 4)
  | PInf, NInf => Fin (3 * PI / 4)
  | NInf, PInf => Fin (- (PI / 4))
  | NInf, NInf => Fin (- (3 * PI / 4))
  end.
Definition xasin (a : xr) : xr :=
  match a with
  | Fin x => if Rle_dec (-1) x then if Rle_dec x 1 then Fin (asin x) else XNaN else XNaN
  | _ => XNaN
  end.
Definition xacos (a : xr) : xr :=
  match a with
  | Fin x => if Rle_dec (-1) x then if Rle_dec x 1 then Fin (acos x) else XNaN else XNaN
  | _ => XNaN
  end.
#[global] Instance Trig_xr : Trig xr := {
  ncos a := match a with Fin x => Fin (cos x) | _ => XNaN end;
  nsin a := match a with Fin x => Fin (sin x) | _ => XNaN end;
  narcsin := xasin;
  narccos := xacos;
  narctan2 := xatan2
}.

(* ---- characterisation on finite values ---- *)
Lemma nofZ_fin z : nofZ z = Fin (IZR z). Proof. reflexivity. Qed.
Lemma nadd_fin x y : nadd (Fin x) (Fin y) = Fin (x + y). Proof. reflexivity. Qed.
Lemma nsub_fin x y : nsub (Fin x) (Fin y) = Fin (x - y). Proof. reflexivity. Qed.
Lemma nmul_fin x y : nmul (Fin x) (Fin y) = Fin (x * y). Proof. reflexivity. Qed.
Lemma nopp_fin x : nopp (Fin x) = Fin (- x). Proof. reflexivity. Qed.
Lemma nabs_fin x : nabs (Fin x) = Fin (Rabs x). Proof. reflexivity. Qed.
Lemma nlt_fin x y : nlt (Fin x) (Fin y) = Rltb x y. Proof. reflexivity. Qed.
Lemma nle_fin x y : nle (Fin x) (Fin y) = Rleb x y. Proof. reflexivity. Qed.
Lemma neqb_fin x y : neqb (Fin x) (Fin y) = Reqb x y. Proof. reflexivity. Qed.
Lemma ngt_fin x y : ngt (Fin x) (Fin y) = Rltb y x. Proof. reflexivity. Qed.
Lemma ncos_fin x : ncos (Fin x) = Fin (cos x). Proof. reflexivity. Qed.
Lemma nsin_fin x : nsin (Fin x) = Fin (sin x). Proof. reflexivity. Qed.
Lemma narctan2_fin y x : narctan2 (Fin y) (Fin x) = Fin (Ratan2 y x). Proof. reflexivity. Qed.
Lemma ndiv_fin x y : y <> 0 -> ndiv (Fin x) (Fin y) = Fin (x / y).
Proof. intros H; cbn; destruct (Req_EM_T y 0); [contradiction | reflexivity]. Qed.
Lemma ndiv_0_0 : ndiv (Fin 0) (Fin 0) = XNaN.
Proof.
  cbn. destruct (Req_EM_T 0 0); [|contradiction].
  destruct (Rlt_dec 0 0) as [H|]; [exfalso; lra | reflexivity].
Qed.
Lemma nsqrt_fin x : 0 <= x -> nsqrt (Fin x) = Fin (sqrt x).
Proof. intros H; cbn; destruct (Rlt_dec x 0); [lra | reflexivity]. Qed.
Lemma nsqrt_neg x : x < 0 -> nsqrt (Fin x) = XNaN.
Proof. intros H; cbn; destruct (Rlt_dec x 0); [reflexivity | lra]. Qed.
Lemma narcsin_fin x : -1 <= x <= 1 -> narcsin (Fin x) = Fin (asin x).
Proof. intros [H1 H2]; cbn; destruct (Rle_dec (-1) x); [|lra]; destruct (Rle_dec x 1); [reflexivity|lra]. Qed.
Lemma narcsin_out x : x < -1 \/ 1 < x -> narcsin (Fin x) = XNaN.
Proof. intros H; cbn; destruct (Rle_dec (-1) x); [|reflexivity]; destruct (Rle_dec x 1); [lra|reflexivity]. Qed.
Lemma narccos_fin x : -1 <= x <= 1 -> narccos (Fin x) = Fin (acos x).
Proof. intros [H1 H2]; cbn; destruct (Rle_dec (-1) x); [|lra]; destruct (Rle_dec x 1); [reflexivity|lra]. Qed.
Lemma dec_fin m k : (0 <= k)%Z -> dec m k = Fin (IZR m / IZR (10 ^ k)).
Proof.
  intros Hk. unfold dec. rewrite !nofZ_fin. apply ndiv_fin.
  apply not_0_IZR. apply Z.pow_nonzero; [discriminate | exact Hk].
Qed.

Lemma Fin_inj x y : Fin x = Fin y -> x = y.
Proof. intros H; injection H; auto. Qed.

Lemma Rltb_spec x y : reflect (x < y) (Rltb x y).
Proof. unfold Rltb; destruct (Rlt_dec x y); constructor; assumption. Qed.
Lemma Rleb_spec x y : reflect (x <= y) (Rleb x y).
Proof. unfold Rleb; destruct (Rle_dec x y); constructor; assumption. Qed.
Lemma Reqb_spec x y : reflect (x = y) (Reqb x y).
Proof. unfold Reqb; destruct (Req_EM_T x y); constructor; assumption. Qed.
Lemma Rltb_true x y : x < y -> Rltb x y = true.
Proof. intros; destruct (Rltb_spec x y); [reflexivity|contradiction]. Qed.
Lemma Rltb_false x y : y <= x -> Rltb x y = false.
Proof. intros; destruct (Rltb_spec x y); [lra|reflexivity]. Qed.
Lemma Rleb_true x y : x <= y -> Rleb x y = true.
Proof. intros; destruct (Rleb_spec x y); [reflexivity|contradiction]. Qed.
Lemma Rleb_false x y : y < x -> Rleb x y = false.
Proof. intros; destruct (Rleb_spec x y); [lra|reflexivity]. Qed.
Lemma Reqb_true x y : x = y -> Reqb x y = true.
Proof. intros; destruct (Reqb_spec x y); [reflexivity|contradiction]. Qed.
Lemma Reqb_false x y : x <> y -> Reqb x y = false.
Proof. intros; destruct (Reqb_spec x y); [contradiction|reflexivity]. Qed.

Lemma nisfinite_fin x : nisfinite (Fin x) = true.
Proof. unfold nisfinite. rewrite nsub_fin, nofZ_fin, neqb_fin. apply Reqb_true. ring. Qed.
Lemma isclose_fin a b rt at_ :
  isclose (Fin a) (Fin b) (Fin rt) (Fin at_) = Rleb (Rabs (a - b)) (at_ + rt * Rabs b).
Proof.
  unfold isclose. rewrite !nisfinite_fin. cbn [andb].
  now rewrite nsub_fin, !nabs_fin, nmul_fin, nadd_fin, nle_fin.
Qed.

#[global] Hint Rewrite nofZ_fin nadd_fin nsub_fin nmul_fin nopp_fin nabs_fin nlt_fin nle_fin neqb_fin ngt_fin
  ncos_fin nsin_fin narctan2_fin nisfinite_fin isclose_fin : xr.

Arguments nofZ : simpl never.
Arguments nadd : simpl never.
Arguments nsub : simpl never.
Arguments nmul : simpl never.
Arguments ndiv : simpl never.
Arguments nopp : simpl never.
Arguments nabs : simpl never.
Arguments nsqrt : simpl never.
Arguments nlt : simpl never.
Arguments nle : simpl never.
Arguments neqb : simpl never.
Arguments ngt : simpl never.
