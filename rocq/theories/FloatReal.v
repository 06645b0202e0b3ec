(** What the binary64 operations of FloatInst.v compute, in terms of real numbers (from Flocq's correctness theorems). *)
From Coq Require Import ZArith Reals Floats.SpecFloat Lia Lra Bool.
From Flocq Require Import Core IEEE754.BinarySingleNaN Relative.
From Verif Require Import PyErr Num FloatInst.
Local Open Scope R_scope.

#[global] Instance prec53 : Prec_gt_0 53 := eq_refl.
#[global] Instance emax1024 : Prec_lt_emax 53 1024 := eq_refl.
Notation bf := (binary_float 53 1024).
(** rounding to nearest, ties to even, to a multiple of 2^-1074 with at most 53 significant bits *)
Definition fexp64 : Z -> Z := FLT_exp (-1074) 53.
#[global] Instance fexp64_valid : Valid_exp fexp64 := FLT_exp_valid (-1074) 53.
#[global] Instance fexp64_mono : Monotone_exp fexp64 := FLT_exp_monotone (-1074) 53.
Definition RN (x : R) : R := round radix2 fexp64 ZnearestE x.
(** [x] is a binary64 number with real value [r] *)
Definition isr (x : b64) (r : R) : Prop := valid_binary 53 1024 x = true /\ is_finite_SF x = true /\ SF2R radix2 x = r.
Definition huge : R := bpow radix2 1024.

Lemma isr_B (X : bf) : is_finite X = true -> isr (B2SF X) (B2R X).
Proof. intros H. destruct X as [s|s| |s m e B]; try discriminate; repeat split; auto. Qed.
Lemma isr_inv x r : isr x r -> exists X : bf, B2SF X = x /\ is_finite X = true /\ B2R X = r.
Proof.
  intros (V & F & E). exists (SF2B x V). rewrite B2SF_SF2B. split; [reflexivity|]. split; [rewrite is_finite_SF2B; exact F|]. rewrite B2R_SF2B. exact E.
Qed.
Lemma isr_inj x r r' : isr x r -> isr x r' -> r = r'. Proof. intros (_ & _ & <-) (_ & _ & <-). reflexivity. Qed.
Lemma isr_format x r : isr x r -> generic_format radix2 fexp64 r.
Proof. intros H. apply isr_inv in H. destruct H as (X & _ & _ & <-). exact (generic_format_B2R 53 1024 X). Qed.
Lemma isr_huge x r : isr x r -> Rabs r < huge.
Proof. intros H. apply isr_inv in H. destruct H as (X & _ & _ & <-). exact (abs_B2R_lt_emax 53 1024 X). Qed.

(* ---- the operations of the two libraries agree (the proofs are those of Flocq's PrimFloat.v) ---- *)
Lemma rne_equiv s m l : round_nearest_even m l = choice_mode mode_NE s m l.
Proof. case l; [reflexivity|intro c]. case c; [|reflexivity..]. simpl. unfold Round.cond_incr. now case Z.even. Qed.
Lemma aux_equiv sx mx ex lx : SpecFloat.binary_round_aux 53 1024 sx mx ex lx = binary_round_aux 53 1024 mode_NE sx mx ex lx.
Proof. unfold SpecFloat.binary_round_aux, binary_round_aux. set (mrse' := shr_fexp _ _ _ _ _). case mrse'; intros mrs' e'; simpl. now rewrite (rne_equiv sx). Qed.
Lemma round_equiv s m e : SpecFloat.binary_round 53 1024 s m e = binary_round 53 1024 mode_NE s m e.
Proof. unfold SpecFloat.binary_round, binary_round, shl_align_fexp. set (mez := shl_align _ _ _); case mez as [mz ez]. apply aux_equiv. Qed.
Lemma normalize_equiv m e z : SpecFloat.binary_normalize 53 1024 m e z = B2SF (binary_normalize 53 1024 _ _ mode_NE m e z).
Proof. case m as [|p|p]; [reflexivity| |]; simpl; rewrite B2SF_SF2B; apply round_equiv. Qed.
Lemma add_equiv (x y : bf) : nadd (B2SF x) (B2SF y) = B2SF (Bplus mode_NE x y).
Proof.
  case x as [sx|sx| |sx mx ex Bx]; case y as [sy|sy| |sy my ey By]; [now (trivial || simpl; case Bool.eqb).. |]. apply normalize_equiv.
Qed.
Lemma sub_equiv (x y : bf) : nsub (B2SF x) (B2SF y) = B2SF (Bminus mode_NE x y).
Proof.
  case x as [sx|sx| |sx mx ex Bx]; case y as [sy|sy| |sy my ey By]; [now (trivial || simpl; case Bool.eqb).. |]. simpl. unfold Zminus. rewrite <- cond_Zopp_negb. apply normalize_equiv.
Qed.
Lemma mul_equiv (x y : bf) : nmul (B2SF x) (B2SF y) = B2SF (Bmult mode_NE x y).
Proof.
  case x as [sx|sx| |sx mx ex Bx]; case y as [sy|sy| |sy my ey By]; [now trivial.. |]. simpl. rewrite B2SF_SF2B. apply aux_equiv.
Qed.
Lemma div_equiv (x y : bf) : ndiv (B2SF x) (B2SF y) = B2SF (Bdiv mode_NE x y).
Proof.
  case x as [sx|sx| |sx mx ex Bx]; case y as [sy|sy| |sy my ey By]; [now (trivial || simpl; case Bool.eqb).. |]. simpl. rewrite B2SF_SF2B.
  set (melz := SFdiv_core_binary _ _ _ _ _ _). case melz as [[mz ez] lz]. apply aux_equiv.
Qed.
Lemma sqrt_equiv (x : bf) : nsqrt (B2SF x) = B2SF (Bsqrt mode_NE x).
Proof.
  case x as [sx|sx| |sx mx ex Bx]; [now (trivial || case sx).. |]. case sx; [reflexivity|]. simpl. rewrite B2SF_SF2B.
  set (melz := SFsqrt_core_binary _ _ _ _). case melz as [[mz ez] lz]. apply aux_equiv.
Qed.

(* ---- correct rounding ---- *)
Lemma RN_eq x : round radix2 (SpecFloat.fexp 53 1024) (round_mode mode_NE) x = RN x. Proof. reflexivity. Qed.
Ltac rounded C := rewrite !RN_eq in C; rewrite Rlt_bool_true in C by assumption.
Lemma isr_nofZ z : Rabs (RN (IZR z)) < huge -> isr (nofZ z) (RN (IZR z)).
Proof.
  intros H. change (nofZ z) with (SpecFloat.binary_normalize 53 1024 z 0 false). rewrite normalize_equiv. pose proof (binary_normalize_correct 53 1024 _ _ mode_NE z 0 false) as C. cbv zeta in C.
  assert (E : F2R (Float radix2 z 0) = IZR z) by (unfold F2R; cbn; ring). rewrite E in C. rounded C. destruct C as (C1 & C2 & _).
  rewrite <- C1. apply isr_B. exact C2.
Qed.
Lemma isr_add x y a b : isr x a -> isr y b -> Rabs (RN (a + b)) < huge -> isr (nadd x y) (RN (a + b)).
Proof.
  intros HX HY H. apply isr_inv in HX. destruct HX as (X & <- & FX & <-). apply isr_inv in HY. destruct HY as (Y & <- & FY & <-).
  rewrite add_equiv. pose proof (Bplus_correct 53 1024 _ _ mode_NE X Y FX FY) as C. rounded C. destruct C as (C1 & C2 & _). rewrite <- C1. apply isr_B. exact C2.
Qed.
Lemma isr_sub x y a b : isr x a -> isr y b -> Rabs (RN (a - b)) < huge -> isr (nsub x y) (RN (a - b)).
Proof.
  intros HX HY H. apply isr_inv in HX. destruct HX as (X & <- & FX & <-). apply isr_inv in HY. destruct HY as (Y & <- & FY & <-).
  rewrite sub_equiv. pose proof (Bminus_correct 53 1024 _ _ mode_NE X Y FX FY) as C. rounded C. destruct C as (C1 & C2 & _). rewrite <- C1. apply isr_B. exact C2.
Qed.
Lemma isr_mul x y a b : isr x a -> isr y b -> Rabs (RN (a * b)) < huge -> isr (nmul x y) (RN (a * b)).
Proof.
  intros HX HY H. apply isr_inv in HX. destruct HX as (X & <- & FX & <-). apply isr_inv in HY. destruct HY as (Y & <- & FY & <-).
  rewrite mul_equiv. pose proof (Bmult_correct 53 1024 _ _ mode_NE X Y) as C. rounded C. destruct C as (C1 & C2 & _). rewrite <- C1. apply isr_B. rewrite C2, FX, FY. reflexivity.
Qed.
Lemma isr_div x y a b : isr x a -> isr y b -> b <> 0 -> Rabs (RN (a / b)) < huge -> isr (ndiv x y) (RN (a / b)).
Proof.
  intros HX HY Hb H. apply isr_inv in HX. destruct HX as (X & <- & FX & <-). apply isr_inv in HY. destruct HY as (Y & <- & FY & <-).
  rewrite div_equiv. pose proof (Bdiv_correct 53 1024 _ _ mode_NE X Y Hb) as C. rounded C. destruct C as (C1 & C2 & _). rewrite <- C1. apply isr_B. rewrite C2, FX. reflexivity.
Qed.
Lemma isr_sqrt x a : isr x a -> 0 <= a -> isr (nsqrt x) (RN (sqrt a)).
Proof.
  intros HX Ha. apply isr_inv in HX. destruct HX as (X & <- & FX & <-). rewrite sqrt_equiv. destruct (Bsqrt_correct 53 1024 _ _ mode_NE X) as (C1 & C2 & _). rewrite RN_eq in C1.
  rewrite <- C1. apply isr_B. rewrite C2. destruct X as [s|s| |s m e B]; try discriminate; [reflexivity|]. destruct s; [|reflexivity]. exfalso.
  cbn in Ha. assert (K : F2R (Float radix2 (Zneg m) e) < 0) by (apply F2R_lt_0; reflexivity). cbn in K. lra.
Qed.
Lemma isr_opp x a : isr x a -> isr (nopp x) (- a).
Proof. intros (V & F & <-). destruct x as [s|s| |s m e]; try discriminate; split; [exact V|split; [reflexivity|]| exact V|split; [reflexivity|]]; cbn; [lra|]. unfold F2R. cbn. destruct s; cbn; rewrite <- Ropp_mult_distr_l_reverse, <- opp_IZR; reflexivity. Qed.
Lemma isr_abs x a : isr x a -> isr (nabs x) (Rabs a).
Proof.
  intros (V & F & <-). destruct x as [s|s| |s m e]; try discriminate; split; [exact V|split; [reflexivity|]| exact V|split; [reflexivity|]].
  - cbn. rewrite Rabs_R0. reflexivity.
  - cbn [SF2R nabs Num_b64 SFabs]. rewrite <- F2R_Zabs. destruct s; reflexivity.
Qed.
Lemma isr_lt x y a b : isr x a -> isr y b -> nlt x y = Rlt_bool a b.
Proof. intros HX HY. apply isr_inv in HX. destruct HX as (X & <- & FX & <-). apply isr_inv in HY. destruct HY as (Y & <- & FY & <-). exact (Bltb_correct 53 1024 X Y FX FY). Qed.
Lemma isr_le x y a b : isr x a -> isr y b -> nle x y = Rle_bool a b.
Proof. intros HX HY. apply isr_inv in HX. destruct HX as (X & <- & FX & <-). apply isr_inv in HY. destruct HY as (Y & <- & FY & <-). exact (Bleb_correct 53 1024 X Y FX FY). Qed.
Lemma isr_eqb x y a b : isr x a -> isr y b -> neqb x y = Req_bool a b.
Proof. intros HX HY. apply isr_inv in HX. destruct HX as (X & <- & FX & <-). apply isr_inv in HY. destruct HY as (Y & <- & FY & <-). exact (Beqb_correct 53 1024 X Y FX FY). Qed.

(** the square root is a binary64 number (or NaN or infinite) whatever it is taken of *)
Lemma sqrt_valid (x : b64) : valid_binary 53 1024 (nsqrt x) = true.
Proof.
  destruct x as [s|s| |s mx ex]; try (destruct s); try reflexivity.
  change (nsqrt (S754_finite false mx ex)) with (let '(mz, ez, lz) := SFsqrt_core_binary 53 1024 (Zpos mx) ex in SpecFloat.binary_round_aux 53 1024 false mz ez lz).
  unfold SFsqrt_core_binary. rewrite Zdigits2_Zdigits. set (e' := Z.min _ _).
  assert (He : (2 * e' <= ex)%Z). { assert (e' <= Z.div2 ex)%Z by apply Z.le_min_r. rewrite (Zdiv2_odd_eqn ex). destruct Z.odd; lia. }
  generalize (Sqrt.Fsqrt_core_correct radix2 (Zpos mx) ex e' eq_refl He). unfold Sqrt.Fsqrt_core.
  set (mx' := match (ex - 2 * e')%Z with Z0 => _ | _ => _ end).
  assert (EM : (mx' = Zpos mx * Zpower radix2 (ex - 2 * e'))%Z).
  { unfold mx'. destruct (ex - 2 * e')%Z as [|p|p]; [now rewrite Zmult_1_r|now rewrite Z.shiftl_mul_pow2|easy]. }
  rewrite <- EM. clearbody mx'. destruct Z.sqrtrem as [mz r]. set (lz := if Zeq_bool r 0 then _ else _). clearbody lz. intros Bz.
  rewrite aux_equiv. assert (P : 0 < sqrt (F2R (Float radix2 (Zpos mx) ex))) by (apply sqrt_lt_R0, F2R_gt_0; reflexivity).
  assert (C := binary_round_aux_correct' 53 1024 _ _ mode_NE (sqrt (F2R (Float radix2 (Zpos mx) ex))) mz e' lz).
  rewrite Rlt_bool_false in C by apply sqrt_ge_0. apply C.
  - lra.
  - rewrite Rabs_pos_eq by apply sqrt_ge_0. exact Bz.
  - apply Z.le_trans with (1 := Z.le_min_l _ _). apply FLT_exp_monotone. rewrite Sqrt.mag_sqrt_F2R by easy. apply Z.le_refl.
Qed.
(** a binary64 number is finite, NaN or infinite *)
Lemma valid_cases (x : b64) : valid_binary 53 1024 x = true -> (exists r, isr x r) \/ x = S754_nan \/ exists s, x = S754_infinity s.
Proof.
  intros V. destruct x as [s|s| |s m e].
  - left. exists 0. repeat split.
  - right. right. exists s. reflexivity.
  - right. left. reflexivity.
  - left. eexists. repeat split. exact V.
Qed.

(* ---- rounding ---- *)
Lemma RN_le a b : a <= b -> RN a <= RN b. Proof. apply round_le; apply _. Qed.
Lemma RN_fix a : generic_format radix2 fexp64 a -> RN a = a. Proof. apply round_generic; apply _. Qed.
Lemma RN_0 : RN 0 = 0. Proof. apply round_0; apply _. Qed.
Lemma RN_bpow e : (-1074 <= e)%Z -> RN (bpow radix2 e) = bpow radix2 e.
Proof. intros H. apply RN_fix. apply generic_format_bpow. unfold fexp64, FLT_exp. lia. Qed.
(** absolute error below 2^e *)
Lemma RN_error a e : (-1021 <= e)%Z -> Rabs a <= bpow radix2 e -> Rabs (RN a - a) <= bpow radix2 (e - 54).
Proof.
  intros He H. destruct (Req_dec a 0) as [->|Na]; [rewrite RN_0, Rminus_0_r, Rabs_R0; apply bpow_ge_0|].
  destruct (Req_dec (Rabs a) (bpow radix2 e)) as [Ea|Nb].
  - assert (F : generic_format radix2 fexp64 a). { apply generic_format_abs_inv. rewrite Ea. apply generic_format_bpow. unfold fexp64, FLT_exp. lia. }
    rewrite (RN_fix a F), Rminus_diag_eq, Rabs_R0 by reflexivity. apply bpow_ge_0.
  - eapply Rle_trans; [apply error_le_half_ulp; apply _|]. replace (e - 54)%Z with (-1 + (e - 53))%Z by lia. rewrite bpow_plus. change (bpow radix2 (-1)) with (/ 2).
    apply Rmult_le_compat_l; [lra|]. rewrite ulp_neq_0 by assumption. apply bpow_le. unfold cexp, fexp64, FLT_exp.
    assert (mag radix2 a <= e)%Z by (apply mag_le_bpow; [assumption|lra]). lia.
Qed.
(** relative error *)
Lemma RN_rel a : bpow radix2 (-1022) <= Rabs a -> exists eps, Rabs eps <= bpow radix2 (-53) /\ RN a = a * (1 + eps).
Proof.
  intros H. destruct (relative_error_N_FLT_ex radix2 (-1074) 53 prec53 (fun z => negb (Z.even z)) a H) as (eps & B & E). exists eps. split; [|exact E].
  eapply Rle_trans; [exact B|]. change (- (53) + 1)%Z with (-52)%Z. right. change (bpow radix2 (-53)) with (bpow radix2 (-1 + -52)). rewrite (bpow_plus radix2 (-1) (-52)). reflexivity.
Qed.
