(** arctan2 and angle_between at [xr] (general_optics.py:17-33). *)
From Coq Require Import Reals ZArith Lra Psatz Bool.
From Verif Require Import PyErr Num Vec Spec XReal RVec VecProofs.
Local Open Scope R_scope.

Lemma sqrt_atan_pos x y : 0 < x -> sqrt (1 + (y / x)²) = sqrt (x * x + y * y) / x.
Proof.
  intros Hx. replace (1 + (y / x)²) with ((x * x + y * y) / (x * x)) by (unfold Rsqr; field; lra).
  rewrite sqrt_div_alt by nra. now rewrite sqrt_square by lra.
Qed.
Lemma sqrt_atan_neg x y : x < 0 -> sqrt (1 + (y / x)²) = - (sqrt (x * x + y * y) / x).
Proof.
  intros Hx. replace (1 + (y / x)²) with ((x * x + y * y) / ((- x) * (- x))) by (unfold Rsqr; field; lra).
  rewrite sqrt_div_alt by nra. rewrite sqrt_square by lra. field. lra.
Qed.
Lemma norm2_pos x y : x <> 0 \/ y <> 0 -> 0 < x * x + y * y.
Proof.
  intros [H|H].
  - pose proof (Rsqr_pos_lt x H) as P. unfold Rsqr in P. nra.
  - pose proof (Rsqr_pos_lt y H) as P. unfold Rsqr in P. nra.
Qed.

Lemma Ratan2_cos x y : x <> 0 \/ y <> 0 -> cos (Ratan2 y x) = x / sqrt (x * x + y * y).
Proof.
  intros H. pose proof (sqrt_lt_R0 _ (norm2_pos x y H)) as Hr. unfold Ratan2.
  destruct (Rlt_dec 0 x) as [Hx|Hx].
  - rewrite cos_atan, sqrt_atan_pos by exact Hx. field. lra.
  - destruct (Rlt_dec x 0) as [Hx'|Hx'].
    + assert (E : - cos (atan (y / x)) = x / sqrt (x * x + y * y)).
      { rewrite cos_atan, sqrt_atan_neg by exact Hx'. field. lra. }
      destruct (Rlt_dec y 0).
      * rewrite <- E. unfold Rminus. rewrite cos_plus, cos_neg, sin_neg, cos_PI, sin_PI. ring.
      * rewrite <- E. rewrite cos_plus, cos_PI, sin_PI. ring.
    + assert (x = 0) by lra. subst x. unfold Rdiv; rewrite Rmult_0_l.
      destruct (Rlt_dec 0 y); [apply cos_PI2|]. destruct (Rlt_dec y 0).
      * rewrite cos_neg. apply cos_PI2.
      * exfalso. destruct H; lra.
Qed.
Lemma Ratan2_sin x y : x <> 0 \/ y <> 0 -> sin (Ratan2 y x) = y / sqrt (x * x + y * y).
Proof.
  intros H. pose proof (sqrt_lt_R0 _ (norm2_pos x y H)) as Hr. unfold Ratan2.
  destruct (Rlt_dec 0 x) as [Hx|Hx].
  - rewrite sin_atan, sqrt_atan_pos by exact Hx. field. lra.
  - destruct (Rlt_dec x 0) as [Hx'|Hx'].
    + assert (E : - sin (atan (y / x)) = y / sqrt (x * x + y * y)).
      { rewrite sin_atan, sqrt_atan_neg by exact Hx'. field. lra. }
      destruct (Rlt_dec y 0).
      * rewrite <- E. unfold Rminus. rewrite sin_plus, cos_neg, sin_neg, cos_PI, sin_PI. ring.
      * rewrite <- E. rewrite sin_plus, cos_PI, sin_PI. ring.
    + assert (x = 0) by lra. subst x. rewrite Rmult_0_l, Rplus_0_l.
      destruct (Rlt_dec 0 y).
      * rewrite sin_PI2, sqrt_square by lra. field; lra.
      * destruct (Rlt_dec y 0); [|exfalso; destruct H; lra].
        rewrite sin_neg, sin_PI2. replace (y * y) with ((- y) * (- y)) by ring.
        rewrite sqrt_square by lra. field; lra.
Qed.
Lemma div_nonneg_neg y x : y < 0 -> x < 0 -> 0 < y / x.
Proof. intros. unfold Rdiv. apply Ropp_lt_cancel. rewrite Ropp_0. pose proof (Rinv_lt_0_compat x H0). nra. Qed.
Lemma Ratan2_bound y x : - PI < Ratan2 y x <= PI.
Proof.
  pose proof PI_RGT_0 as HP. pose proof (atan_bound (y / x)) as [B1 B2]. unfold Ratan2.
  destruct (Rlt_dec 0 x) as [Hx|Hx]; [lra|].
  destruct (Rlt_dec x 0) as [Hx'|Hx'].
  - destruct (Rlt_dec y 0) as [Hy|Hy].
    + assert (0 < y / x) by (apply div_nonneg_neg; assumption).
      assert (0 < atan (y / x)) by (rewrite <- atan_0; apply atan_increasing; assumption). lra.
    + assert (Hq : y / x <= 0).
      { unfold Rdiv. pose proof (Rinv_lt_0_compat x Hx'). nra. }
      assert (atan (y / x) <= 0).
      { destruct (Rle_lt_or_eq_dec _ _ Hq) as [L|E].
        - left. rewrite <- atan_0. apply atan_increasing, L.
        - rewrite E, atan_0. lra. }
      lra.
  - destruct (Rlt_dec 0 y); [lra|]. destruct (Rlt_dec y 0); lra.
Qed.
Lemma Ratan2_unit c s : c * c + s * s = 1 ->
  cos (Ratan2 s c) = c /\ sin (Ratan2 s c) = s.
Proof.
  intros H. assert (N : c <> 0 \/ s <> 0).
  { destruct (Req_dec c 0); [|left; assumption]. right. intros ->. subst c. lra. }
  rewrite Ratan2_cos, Ratan2_sin by exact N. rewrite H, sqrt_1. split; field.
Qed.

(* ---- unsigned ---- *)
Lemma dirn_dot a b : a <> r3zero -> b <> r3zero -> dirn a ∙ dirn b = (a ∙ b) / (len a * len b).
Proof.
  intros Ha Hb. unfold dirn. rewrite dot_scale_l, dot_scale_r.
  pose proof (len_pos a Ha); pose proof (len_pos b Hb). field. lra.
Qed.
Lemma angle_between_fv v1 v2 : v1 <> r3zero -> v2 <> r3zero ->
  angle_between (fv v1) (fv v2) None = Fin (acos (dirn v1 ∙ dirn v2)).
Proof.
  intros H1 H2. unfold angle_between. rewrite !unit_vector_fv by assumption. rewrite dot_fv.
  apply narccos_fin. apply unit_dot_bound; apply dirn_unit; assumption.
Qed.
Lemma dirn_eq_iff a b : a <> r3zero -> b <> r3zero ->
  (dirn a = dirn b <-> exists s, 0 < s /\ a = (s * b)%r3).
Proof.
  intros Ha Hb. split.
  - intros E. pose proof (len_pos a Ha); pose proof (len_pos b Hb).
    exists (len a / len b). split; [apply Rdiv_lt_0_compat; lra|].
    rewrite (dirn_scale a Ha) at 1. rewrite E. unfold dirn. destruct b; r3_unf; cbn. apply r3_ext; cbn; field; lra.
  - intros (s & Hs & ->). apply dirn_pos_scale; assumption.
Qed.
Lemma acos_0_iff x : -1 <= x <= 1 -> (acos x = 0 <-> x = 1).
Proof.
  intros H. split.
  - intros E. rewrite <- (cos_acos x H), E. apply cos_0.
  - intros ->. apply acos_1.
Qed.
Lemma acos_PI_iff x : -1 <= x <= 1 -> (acos x = PI <-> x = -1).
Proof.
  intros H. split.
  - intros E. rewrite <- (cos_acos x H), E. apply cos_PI.
  - intros ->. replace (-1) with (- (1)) by ring. rewrite acos_opp, acos_1. lra.
Qed.
Lemma angle_unsigned_spec v1 v2 : v1 <> r3zero -> v2 <> r3zero ->
  exists t, angle_between (fv v1) (fv v2) None = Fin t
    /\ 0 <= t <= PI
    /\ cos t = (v1 ∙ v2) / (len v1 * len v2)
    /\ angle_between (fv v2) (fv v1) None = Fin t
    /\ (forall s, 0 < s -> angle_between (fv (s * v1)%r3) (fv v2) None = Fin t)
    /\ (t = 0 <-> exists s, 0 < s /\ v1 = (s * v2)%r3)
    /\ (t = PI <-> exists s, 0 < s /\ v1 = (- (s * v2))%r3).
Proof.
  intros H1 H2. pose proof (dirn_unit _ H1) as U1. pose proof (dirn_unit _ H2) as U2.
  pose proof (unit_dot_bound _ _ U1 U2) as B.
  exists (acos (dirn v1 ∙ dirn v2)). split; [apply angle_between_fv; assumption|].
  split; [apply acos_bound|]. split; [rewrite cos_acos by exact B; apply dirn_dot; assumption|].
  split; [rewrite angle_between_fv by assumption; now rewrite dot_comm|].
  split.
  { intros s Hs. rewrite angle_between_fv; [now rewrite dirn_pos_scale | apply scale_nonzero; [lra|assumption] | assumption]. }
  split.
  - rewrite acos_0_iff by exact B. rewrite <- dirn_eq_iff by assumption. split.
    + apply unit_dot_1; assumption.
    + intros ->. exact U2.
  - rewrite acos_PI_iff by exact B. split.
    + intros E. apply unit_dot_m1 in E; auto. rewrite <- dirn_opp in E.
      apply dirn_eq_iff in E; auto using opp_nonzero. destruct E as (s & Hs & E).
      exists s; split; [exact Hs|]. rewrite E. r3_ring.
    + intros (s & Hs & E). assert (E2 : dirn v1 = dirn (- v2)%r3).
      { apply dirn_eq_iff; auto using opp_nonzero. exists s; split; [exact Hs|]. rewrite E. r3_ring. }
      rewrite E2, dirn_opp, dot_opp_l. unfold is_unit in U2. rewrite U2. ring.
Qed.

(* ---- signed ---- *)
(** for unit a, b orthogonal to the unit vector n *)
Lemma signed_parts a b n : is_unit a -> is_unit b -> is_unit n -> orth a n -> orth b n ->
  let c := a ∙ b in let s := (b × a)%r3 ∙ n in
  c * c + s * s = 1 /\ (c * b + s * (n × b))%r3 = a.
Proof.
  intros Ha Hb Hn Oa Ob c s. unfold is_unit, orth in *.
  assert (E : (b × a)%r3 = (s * n)%r3).
  { (* both orthogonal to n: b x a is parallel to n *)
    assert (X : ((b × a) × n)%r3 = r3zero).
    { transitivity ((b ∙ n) * a - (a ∙ n) * b)%r3; [r3_ring|]. rewrite Oa, Ob. r3_ring. }
    assert (Y : (n × ((b × a) × n))%r3 = ((n ∙ n) * (b × a) - ((b × a)%r3 ∙ n) * n)%r3) by r3_ring.
    rewrite X, Hn in Y. fold s in Y.
    assert (Z : (n × r3zero)%r3 = r3zero) by r3_ring. rewrite Z in Y.
    destruct (b × a)%r3 as [x y z], n as [nx ny nz]. unfold r3scale, r3sub, r3zero in *; cbn in *.
    injection Y; intros. apply r3_ext; cbn; lra. }
  split.
  - assert (L := lagrange b a). rewrite E in L. autorewrite with dotr in L. rewrite Hn, Ha, Hb, (dot_comm b a) in L.
    unfold c. lra.
  - assert (X : (s * (n × b))%r3 = ((b × a) × b)%r3) by (rewrite E; r3_ring).
    rewrite X. transitivity ((a ∙ b) * b + ((b ∙ b) * a - (a ∙ b) * b))%r3; [unfold c; r3_ring|].
    rewrite Hb. r3_ring.
Qed.
Lemma angle_signed_fv v1 v2 n : v1 <> r3zero -> v2 <> r3zero ->
  angle_between (fv v1) (fv v2) (Some (fv n)) = Fin (Ratan2 ((dirn v2 × dirn v1)%r3 ∙ n) (dirn v1 ∙ dirn v2)).
Proof.
  intros H1 H2. unfold angle_between. rewrite !unit_vector_fv by assumption. rewrite cross_fv, !dot_fv. reflexivity.
Qed.
Lemma dirn_orth a n : orth a n -> orth (dirn a) n.
Proof. unfold orth, dirn; intros H. rewrite dot_scale_l, H. ring. Qed.
Lemma angle_signed_spec v1 v2 n : v1 <> r3zero -> v2 <> r3zero -> is_unit n -> orth v1 n -> orth v2 n ->
  exists t, angle_between (fv v1) (fv v2) (Some (fv n)) = Fin t
    /\ - PI < t <= PI
    /\ angle_between (fv v1) (fv v2) None = Fin (Rabs t)
    /\ (cos t * dirn v2 + sin t * (n × dirn v2))%r3 = dirn v1.
Proof.
  intros H1 H2 Hn O1 O2. rewrite angle_signed_fv, angle_between_fv by assumption.
  destruct (signed_parts (dirn v1) (dirn v2) n) as [E1 E2]; auto using dirn_unit, dirn_orth.
  destruct (Ratan2_unit _ _ E1) as [C S].
  eexists. split; [reflexivity|]. split; [apply Ratan2_bound|]. split.
  - f_equal. rewrite <- C at 1. set (t := Ratan2 _ _) in *.
    pose proof (Ratan2_bound ((dirn v2 × dirn v1)%r3 ∙ n) (dirn v1 ∙ dirn v2)) as B. fold t in B.
    unfold Rabs. destruct (Rcase_abs t).
    + rewrite <- cos_neg. apply acos_cos. lra.
    + apply acos_cos. lra.
  - rewrite C, S. exact E2.
Qed.
