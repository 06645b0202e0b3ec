(** Rounding errors of Plane.test_intersect and Ray.fly in binary64. *)
From Coq Require Import ZArith Reals Floats.SpecFloat String List Bool Lia Lra.
From Flocq Require Import Core IEEE754.BinarySingleNaN.
From Verif Require Import PyErr Num Vec Shapes Csg Optics Spec RVec FloatInst FloatReal FloatVec.
Import ListNotations.
Local Open Scope R_scope.

Lemma arb_isr : exists c, isr ARB_EPSILON_VALUE c /\ 0.99999999e-9 < c < 1.00000001e-9.
Proof.
  assert (E : (ARB_EPSILON_VALUE : b64) = S754_finite false 4835703278458517 (-82) /\ valid_binary 53 1024 (S754_finite false 4835703278458517 (-82)) = true)
    by (split; vm_compute; reflexivity).
  destruct E as (-> & V). eexists. split; [repeat split; exact V|].
  unfold SF2R, F2R. cbn [Fnum Fexp bpow cond_Zopp]. change (Z.pow_pos radix2 82) with (2 ^ 82)%Z. set (P := IZR (2 ^ 82)). assert (HP : P = 4835703278458516698824704) by (unfold P; f_equal).
  split; (apply Rmult_lt_reg_r with P; [rewrite HP; lra|]; rewrite Rmult_assoc, Rinv_l by (rewrite HP; lra); rewrite HP; lra).
Qed.
Lemma dot_units64 (v w : vec b64) a b : isv v a -> isv w b -> moderate a -> moderate b ->
  exists q, isr (dot (unit_vector v) (unit_vector w)) q /\ Rabs (q - dirn a ∙ dirn b) <= 10.3 * eps64.
Proof.
  intros Hv Hw Ma Mb. pose proof (bpow_gt_0 radix2 (-500)) as P0. pose proof (nonzero_of_len a _ P0 (proj1 Ma)) as Na. pose proof (nonzero_of_len b _ P0 (proj1 Mb)) as Nb.
  destruct (unit64 v a Hv Ma) as (i & Hi & Ei). destruct (unit64 w b Hw Mb) as (k & Hk & Ek). pose proof (dirn_unit a Na) as Ua. pose proof (dirn_unit b Nb) as Um.
  set (a' := dirn a) in *. set (m' := dirn b) in *. pose proof (len_unit _ Ua) as La. pose proof (len_unit _ Um) as Lm.
  pose proof (unit64_len _ _ _ Ua Ei) as Li. pose proof (unit64_len _ _ _ Um Ek) as Lk. apply Rabs_le_inv in Li, Lk. clearbody a' m'. set (E := eps64) in *. assert (EE : 1.11e-16 < E < 1.111e-16) by (unfold E, eps64; lra).
  pose proof eta64_pos as T0. pose proof (eta64_tiny 0 ltac:(lia)) as T. change (bpow radix2 0) with 1 in T. fold E in T.
  assert (Big : 1024 <= bpow radix2 1000) by (change 1024 with (bpow radix2 10); apply bpow_le; lia).
  assert (Lik : 0 <= len i * len k <= 1 + 8 * E) by (split; [apply Rmult_le_pos; apply len_nonneg|]; apply Rle_trans with ((1 + 3.6 * E) * (1 + 3.6 * E)); [apply Rmult_le_compat; try apply len_nonneg; lra|nra]).
  destruct (dot64 _ _ i k Hi Hk ltac:(lra)) as (p & Hp & Ep). fold E in Ep. exists p. split; [exact Hp|].
  assert (Dp : Rabs (i ∙ k - a' ∙ m') <= 7.21 * E).
  { replace (i ∙ k - a' ∙ m') with ((i - a')%r3 ∙ k + a' ∙ (k - m')%r3) by (rewrite dot_sub_l, dot_sub_r; ring). eapply Rle_trans; [apply Rabs_triang|].
    pose proof (cauchy (i - a')%r3 k) as C1. pose proof (cauchy a' (k - m')%r3) as C2. rewrite La in C2.
    assert (len (i - a')%r3 * len k <= 3.6 * E * (1 + 3.6 * E)) by (apply Rmult_le_compat; try apply len_nonneg; lra). nra. }
  apply Rabs_le_inv in Ep, Dp. assert (3.01 * E * (len i * len k) <= 3.01 * E * (1 + 8 * E)) by (apply Rmult_le_compat_l; lra). assert (E * E <= E * 1e-10) by (apply Rmult_le_compat_l; lra). apply Rabs_le. lra.
Qed.
Lemma add64 x y a b : isr x a -> isr y b -> Rabs (a + b) <= bpow radix2 1000 -> exists d, isr (nadd x y) d /\ Rabs (d - (a + b)) <= eps64 * Rabs (a + b) + eta64.
Proof. intros Hx Hy B. exists (RN (a + b)). split; [apply isr_add; [exact Hx|exact Hy|apply (RN_huge _ 1000); [lia|exact B]]|apply RN_err]. Qed.
Lemma vadd64 p q a b : isv p a -> isv q b -> len (a + b)%r3 <= bpow radix2 1000 ->
  exists d, isv (vadd p q) d /\ len (d - (a + b))%r3 <= eps64 * len (a + b)%r3 + 2 * eta64.
Proof.
  intros (Px & Py & Pz) (Qx & Qy & Qz) M. destruct (comp_le (a + b)%r3) as (Cx & Cy & Cz). cbn [cx cy cz r3add] in *.
  destruct (add64 _ _ _ _ Px Qx ltac:(lra)) as (dx & Dx & Ex). destruct (add64 _ _ _ _ Py Qy ltac:(lra)) as (dy & Dy & Ey). destruct (add64 _ _ _ _ Pz Qz ltac:(lra)) as (dz & Dz & Ez).
  exists (mk3 dx dy dz). split; [split; [exact Dx|split; [exact Dy|exact Dz]]|]. apply small_vec; [unfold eps64; lra|pose proof eta64_pos; lra|exact Ex|exact Ey|exact Ez].
Qed.
(** p + t d with inexact t and d *)
Lemma along64 (p d : vec b64) (t : b64) a b tau ts e D : isv p a -> isv d b -> isr t tau -> is_unit e -> len (b - e)%r3 <= 4e-16 ->
  Rabs ts <= D -> D <= bpow radix2 200 -> len a <= bpow radix2 200 -> Rabs (tau - ts) <= 1e-3 * D + 1 ->
  exists w, isv (vadd p (vscale t d)) w /\
    len (w - (a + ts * e))%r3 <= 1.01 * Rabs (tau - ts) + 4.62 * eps64 * D + eps64 * len (a + ts * e)%r3 + 5 * eta64.
Proof.
  intros Hp Hd Ht Ue Eb Bs BD Ba Et. set (E := eps64) in *. assert (EE : 1.11e-16 < E < 1.111e-16) by (unfold E, eps64; lra). pose proof (len_unit _ Ue) as Le.
  pose proof eta64_pos as T0. pose proof (eta64_tiny 0 ltac:(lia)) as T. change (bpow radix2 0) with 1 in T. fold E in T.
  assert (D0 : 0 <= D) by (eapply Rle_trans; [apply Rabs_pos|exact Bs]).
  assert (Big : 1024 * bpow radix2 200 <= bpow radix2 1000) by (change 1024 with (bpow radix2 10); rewrite <- bpow_plus; apply bpow_le; lia).
  assert (Big2 : 1024 <= bpow radix2 200) by (change 1024 with (bpow radix2 10); apply bpow_le; lia).
  assert (Eb' : 4e-16 <= 3.61 * E) by (unfold E, eps64; lra). assert (Eb2 : len (b - e)%r3 <= 3.61 * E) by lra. pose proof (unit64_len _ _ _ Ue Eb2) as Lb. apply Rabs_le_inv in Lb.
  assert (Bt : Rabs tau <= 1.001 * D + 1) by (replace tau with ((tau - ts) + ts) by ring; eapply Rle_trans; [apply Rabs_triang|lra]).
  assert (Bt2 : Rabs tau <= D + Rabs (tau - ts)) by (replace tau with ((tau - ts) + ts) at 1 by ring; eapply Rle_trans; [apply Rabs_triang|lra]).
  assert (Btb : 0 <= Rabs tau * len b <= Rabs tau * (1 + 4 * E)). { split; [apply Rmult_le_pos; [apply Rabs_pos|apply len_nonneg]|]. apply Rmult_le_compat_l; [apply Rabs_pos|lra]. }
  assert (Btb2 : Rabs tau * (1 + 4 * E) <= Rabs tau * 1.0001) by (apply Rmult_le_compat_l; [apply Rabs_pos|lra]).
  destruct (vscale64 t d tau b Ht Hd ltac:(lra)) as (x & Hx & Ex). fold E in Ex.
  assert (Ex' : E * (Rabs tau * len b) <= E * (Rabs tau * 1.0001)) by (apply Rmult_le_compat_l; lra).
  pose proof (len_add (x - tau * b)%r3 (tau * b)%r3) as Lx. replace ((x - tau * b) + tau * b)%r3 with x in Lx by r3_ring. rewrite len_scale in Lx.
  assert (ET : E * (Rabs tau * 1.0001) <= 1e-10 * (Rabs tau * 1.0001)) by (apply Rmult_le_compat_r; [apply Rmult_le_pos; [apply Rabs_pos|lra]|lra]).
  pose proof (len_add a x) as La. destruct (vadd64 p _ a x Hp Hx ltac:(lra)) as (w & Hw & Ew). fold E in Ew. exists w. split; [exact Hw|].
  (* x against ts e *)
  assert (Dx : len (x - ts * e)%r3 <= 1.001 * Rabs (tau - ts) + 4.616 * E * D + 2 * eta64).
  { replace (x - ts * e)%r3 with ((x - tau * b) + ((tau - ts) * b + ts * (b - e)))%r3 by r3_ring. eapply Rle_trans; [apply len_add|].
    pose proof (len_add ((tau - ts) * b)%r3 (ts * (b - e))%r3) as A. rewrite !len_scale in A.
    assert (Rabs (tau - ts) * len b <= Rabs (tau - ts) * 1.0001) by (apply Rmult_le_compat_l; [apply Rabs_pos|lra]).
    assert (Rabs ts * len (b - e)%r3 <= D * (3.61 * E)) by (apply Rmult_le_compat; [apply Rabs_pos|apply len_nonneg|exact Bs|lra]).
    assert (E * (Rabs tau * 1.0001) <= E * ((D + Rabs (tau - ts)) * 1.0001)) by (apply Rmult_le_compat_l; lra).
    pose proof (Rabs_pos (tau - ts)) as Pt. assert (E * Rabs (tau - ts) <= 1e-10 * Rabs (tau - ts)) by (apply Rmult_le_compat_r; lra).
    assert (0 <= E * D) by (apply Rmult_le_pos; lra). lra. }
  replace (w - (a + ts * e))%r3 with ((w - (a + x)) + (x - ts * e))%r3 by r3_ring. eapply Rle_trans; [apply len_add|].
  assert (Lax : len (a + x)%r3 <= len (a + ts * e)%r3 + len (x - ts * e)%r3). { replace (a + x)%r3 with ((a + ts * e) + (x - ts * e))%r3 by r3_ring. apply len_add. }
  assert (E * len (a + x)%r3 <= E * (len (a + ts * e)%r3 + len (x - ts * e)%r3)) by (apply Rmult_le_compat_l; lra).
  assert (E * len (x - ts * e)%r3 <= 1e-10 * len (x - ts * e)%r3) by (apply Rmult_le_compat_r; [apply len_nonneg|lra]).
  pose proof (Rabs_pos (tau - ts)) as Pt. assert (0 <= E * D) by (apply Rmult_le_pos; lra). lra.
Qed.

(** the parameter of the intersection point *)
Lemma plane_t64 (c n p d : vec b64) cr nr pr dr del : isv c cr -> isv n nr -> isv p pr -> isv d dr -> Rabs (len nr - 1) <= 4e-16 -> Rabs (len dr - 1) <= 4e-16 ->
  1e-6 <= del -> del <= Rabs (dirn nr ∙ dirn dr) -> len (cr - pr)%r3 <= bpow radix2 100 ->
  let q := dot (unit_vector n) (unit_vector d) in
  exists qr t, isr q qr /\ isr (ndiv (dot (vsub c p) n) q) t /\ Rabs (qr - dirn nr ∙ dirn dr) <= 1e-14 /\
    Rabs (t - ((cr - pr)%r3 ∙ dirn nr) / (dirn nr ∙ dirn dr)) <= 19.2 * eps64 * (len (cr - pr)%r3 / (del * del)) + 1.3e7 * eta64.
Proof.
  intros Hc Hn Hp Hd Ln Ld Ldel Bdel BD q. apply Rabs_le_inv in Ln, Ld.
  assert (Nn : nr <> r3zero) by (apply (nonzero_of_len nr (1/2)); lra). assert (Nd : dr <> r3zero) by (apply (nonzero_of_len dr (1/2)); lra).
  destruct (dot_units64 n d nr dr Hn Hd ltac:(apply mid_moderate; lra) ltac:(apply mid_moderate; lra)) as (qr & Hq & Eq). fold q in Hq.
  pose proof (dirn_close nr Nn) as Cn. pose proof (dirn_unit nr Nn) as Un. pose proof (dirn_unit dr Nd) as Ud. pose proof (unit_dot_bound _ _ Un Ud) as Bq. pose proof (len_unit _ Un) as Lu.
  set (d0 := dirn nr ∙ dirn dr) in *. set (m := dirn nr) in *. set (D := len (cr - pr)%r3) in *. pose proof (len_nonneg (cr - pr)%r3) as PD. fold D in PD.
  set (E := eps64) in *. assert (EE : 1.11e-16 < E < 1.111e-16) by (unfold E, eps64; lra). assert (E4 : 4e-16 <= 3.61 * E) by (unfold E, eps64; lra).
  pose proof eta64_pos as T0. pose proof (eta64_tiny 0 ltac:(lia)) as T. change (bpow radix2 0) with 1 in T. fold E in T.
  assert (Big : 1024 * bpow radix2 100 <= bpow radix2 1000) by (change 1024 with (bpow radix2 10); rewrite <- bpow_plus; apply bpow_le; lia).
  assert (Big1 : 1 <= bpow radix2 100) by (change 1 with (bpow radix2 0); apply bpow_le; lia).
  assert (Big2 : 1e9 * (1024 * bpow radix2 100) <= bpow radix2 1000). { apply Rle_trans with (bpow radix2 30 * (1024 * bpow radix2 100)); [apply Rmult_le_compat_r; [lra|]; change (bpow radix2 30) with 1073741824; lra|]. change 1024 with (bpow radix2 10). rewrite <- !bpow_plus. apply bpow_le. lia. }
  destruct (vsub64 c p cr pr Hc Hp ltac:(fold D; lra)) as (f & Hf & Ef). fold D E in Ef.
  pose proof (len_add (f - (cr - pr))%r3 (cr - pr)%r3) as Lf. replace ((f - (cr - pr)) + (cr - pr))%r3 with f in Lf by r3_ring. fold D in Lf.
  assert (ED : 0 <= E * D <= 1e-10 * D) by (split; [apply Rmult_le_pos; lra|apply Rmult_le_compat_r; lra]).
  assert (Lfn : 0 <= len f * len nr <= (1 + 1e-9) * D + 3 * eta64).
  { split; [apply Rmult_le_pos; apply len_nonneg|]. apply Rle_trans with ((D + E * D + 2 * eta64) * (1 + 4e-16)); [apply Rmult_le_compat; try apply len_nonneg; lra|lra]. }
  destruct (dot64 _ _ f nr Hf Hn ltac:(lra)) as (g & Hg & Eg). fold E in Eg.
  assert (Eg1 : E * (len f * len nr) <= E * ((1 + 1e-9) * D + 3 * eta64)) by (apply Rmult_le_compat_l; lra).
  assert (Ee : 0 <= E * eta64 <= 1e-10 * eta64) by (split; [apply Rmult_le_pos; lra|apply Rmult_le_compat_r; lra]).
  set (N := (cr - pr)%r3 ∙ m) in *.
  assert (BN : Rabs N <= D). { eapply Rle_trans; [apply cauchy|]. rewrite Lu. fold D. lra. }
  assert (Dg : Rabs (g - N) <= 7.7 * (E * D) + 10 * eta64).
  { assert (X : Rabs (f ∙ nr - N) <= 4.63 * (E * D) + 3 * eta64).
    { replace (f ∙ nr - N) with ((f - (cr - pr))%r3 ∙ nr + (cr - pr)%r3 ∙ (- (m - nr))%r3) by (unfold N; autorewrite with dotr; ring).
      eapply Rle_trans; [apply Rabs_triang|]. pose proof (cauchy (f - (cr - pr))%r3 nr) as C1. pose proof (cauchy (cr - pr)%r3 (- (m - nr))%r3) as C2. rewrite len_opp, Cn in C2. fold D in C2.
      assert (len (f - (cr - pr))%r3 * len nr <= (E * D + 2 * eta64) * (1 + 4e-16)) by (apply Rmult_le_compat; try apply len_nonneg; lra).
      assert (D * Rabs (len nr - 1) <= D * (3.61 * E)) by (apply Rmult_le_compat_l; [lra|apply Rabs_le; lra]). lra. }
    apply Rabs_le_inv in X, Eg. apply Rabs_le. lra. }
  clearbody N. apply Rabs_le_inv in Eq.
  assert (D0 : d0 <> 0). { intros Z. rewrite Z, Rabs_R0 in Bdel. lra. }
  assert (Pdel : 0 < del) by lra. assert (Bd1 : Rabs d0 <= 1) by (apply Rabs_le; lra).
  assert (Qabs : 0.999 * del <= Rabs qr). { replace d0 with (qr - (qr - d0)) in Bdel by ring. pose proof (Rabs_triang qr (- (qr - d0))) as X. rewrite Rabs_Ropp in X. unfold Rminus in Bdel at 1. assert (Rabs (qr - d0) <= 10.3 * E) by (apply Rabs_le; lra). lra. }
  assert (Q0 : qr <> 0). { intros Z. rewrite Z, Rabs_R0 in Qabs. lra. }
  set (K := D / (del * del)) in *. assert (PK : 0 <= K) by (apply Rmult_le_pos; [lra|left; apply Rinv_0_lt_compat, Rmult_lt_0_compat; lra]).
  assert (DK : D = K * del * del) by (unfold K; field; lra). assert (del <= 1) by lra.
  assert (DK1 : D / del <= K). { replace (D / del) with (K * del) by (rewrite DK; field; lra). rewrite <- (Rmult_1_r K) at 2. apply Rmult_le_compat_l; lra. }
  assert (DK2 : D <= K). { rewrite DK. rewrite <- (Rmult_1_r K) at 2. rewrite Rmult_assoc. apply Rmult_le_compat_l; [lra|]. rewrite <- (Rmult_1_r 1). apply Rmult_le_compat; lra. }
  assert (BK : K <= 1e12 * D). { unfold K. apply Rmult_le_reg_r with (del * del); [apply Rmult_lt_0_compat; lra|]. unfold Rdiv. rewrite Rmult_assoc, Rinv_l, Rmult_1_r by (apply Rmult_integral_contrapositive_currified; lra). replace (1e12 * D * (del * del)) with (D * (1e12 * (del * del))) by ring. rewrite <- (Rmult_1_r D) at 1. apply Rmult_le_compat_l; [lra|]. assert (1e-6 * 1e-6 <= del * del) by (apply Rmult_le_compat; lra). lra. }
  (* the quotient *)
  assert (Iq : / Rabs qr <= 1.0011 / del). { apply Rle_trans with (/ (0.999 * del)); [apply Rinv_le_contravar; lra|]. rewrite Rinv_mult. unfold Rdiv. apply Rmult_le_compat_r; [left; apply Rinv_0_lt_compat; lra|lra]. }
  assert (Id : / Rabs d0 <= 1 / del) by (unfold Rdiv; rewrite Rmult_1_l; apply Rinv_le_contravar; lra).
  assert (Ni : / del <= 1e6). { apply Rmult_le_reg_r with del; [lra|]. rewrite Rinv_l by lra. lra. }
  assert (Pi : 0 < / del) by (apply Rinv_0_lt_compat; lra).
  assert (Pq : 0 <= / Rabs qr) by (left; apply Rinv_0_lt_compat, Rabs_pos_lt; exact Q0).
  assert (Dq : Rabs (g / qr - N / d0) <= 18.1 * (E * K) + 1.1e7 * eta64).
  { replace (g / qr - N / d0) with ((g - N) * / qr + N * ((d0 - qr) * (/ qr * / d0))) by (field; split; assumption). eapply Rle_trans; [apply Rabs_triang|]. rewrite !Rabs_mult, !Rabs_inv.
    assert (X1 : Rabs (g - N) * / Rabs qr <= (7.7 * (E * D) + 10 * eta64) * (1.0011 / del)) by (apply Rmult_le_compat; [apply Rabs_pos|exact Pq|exact Dg|exact Iq]).
    assert (X2 : Rabs N * (Rabs (d0 - qr) * (/ Rabs qr * / Rabs d0)) <= D * ((10.3 * E) * (1.0011 / del * (1 / del)))).
    { apply Rmult_le_compat; [apply Rabs_pos| |exact BN|]. { apply Rmult_le_pos; [apply Rabs_pos|apply Rmult_le_pos; [exact Pq|left; apply Rinv_0_lt_compat, Rabs_pos_lt; exact D0]]. }
      apply Rmult_le_compat; [apply Rabs_pos|apply Rmult_le_pos; [exact Pq|left; apply Rinv_0_lt_compat, Rabs_pos_lt; exact D0]|apply Rabs_le; lra|].
      apply Rmult_le_compat; [exact Pq|left; apply Rinv_0_lt_compat, Rabs_pos_lt; exact D0|exact Iq|exact Id]. }
    replace (D * (10.3 * E * (1.0011 / del * (1 / del)))) with (10.3 * 1.0011 * (E * K)) in X2 by (unfold K, Rdiv; rewrite Rinv_mult; lra).
    replace ((7.7 * (E * D) + 10 * eta64) * (1.0011 / del)) with (7.7 * 1.0011 * (E * (D / del)) + 10.011 * (eta64 * / del)) in X1 by (unfold Rdiv; lra).
    assert (E * (D / del) <= E * K) by (apply Rmult_le_compat_l; lra). assert (eta64 * / del <= eta64 * 1e6) by (apply Rmult_le_compat_l; lra). assert (0 <= E * K) by (apply Rmult_le_pos; lra). lra. }
  assert (BNd : Rabs (N / d0) <= K). { unfold Rdiv. rewrite Rabs_mult, Rabs_inv. apply Rle_trans with (D * (1 / del)); [apply Rmult_le_compat; [apply Rabs_pos|left; apply Rinv_0_lt_compat, Rabs_pos_lt; exact D0|exact BN|exact Id]|]. replace (D * (1 / del)) with (D / del) by (field; lra). exact DK1. }
  assert (EK : 0 <= E * K <= 1e-10 * K) by (split; [apply Rmult_le_pos; lra|apply Rmult_le_compat_r; lra]).
  assert (Bgq : Rabs (g / qr) <= 1.001 * K + 1.1e7 * eta64). { replace (g / qr) with ((g / qr - N / d0) + N / d0) by ring. eapply Rle_trans; [apply Rabs_triang|]. lra. }
  exists qr, (RN (g / qr)). split; [exact Hq|]. split; [|split].
  - apply isr_div; [exact Hg|exact Hq|exact Q0|]. apply (RN_huge _ 1000); [lia|].
    assert (Big3 : 1e13 * bpow radix2 100 <= bpow radix2 1000). { apply Rle_trans with (bpow radix2 50 * bpow radix2 100); [apply Rmult_le_compat_r; [lra|]; change (bpow radix2 50) with 1125899906842624; lra|]. rewrite <- !bpow_plus. apply bpow_le. lia. }
    lra.
  - apply Rabs_le. lra.
  - pose proof (RN_err (g / qr)) as Er. fold E in Er. assert (E * Rabs (g / qr) <= E * (1.001 * K + 1.1e7 * eta64)) by (apply Rmult_le_compat_l; lra).
    apply Rabs_le_inv in Er, Dq. apply Rabs_le. lra.
Qed.
Lemma t_bound (c p : R3) (m d0 : R3) del : is_unit m -> 0 < del -> del <= 1 -> del <= Rabs (m ∙ d0) -> Rabs (((c - p)%r3 ∙ m) / (m ∙ d0)) <= len (c - p)%r3 / (del * del).
Proof.
  intros Um P L B. set (D := len (c - p)%r3). assert (PD : 0 <= D) by apply len_nonneg. assert (BN : Rabs ((c - p)%r3 ∙ m) <= D). { eapply Rle_trans; [apply cauchy|]. rewrite (len_unit _ Um). fold D. lra. }
  unfold Rdiv at 1. rewrite Rabs_mult, Rabs_inv. apply Rle_trans with (D * / del).
  - apply Rmult_le_compat; [apply Rabs_pos|left; apply Rinv_0_lt_compat; lra|exact BN|apply Rinv_le_contravar; lra].
  - unfold Rdiv. apply Rmult_le_compat_l; [exact PD|]. apply Rinv_le_contravar; [apply Rmult_lt_0_compat; lra|]. rewrite <- (Rmult_1_r del) at 3. apply Rmult_le_compat_l; lra.
Qed.
Lemma eta_1e30 : 2e7 * eta64 <= 1e-31.
Proof.
  pose proof (eta64_tiny (-100) ltac:(lia)) as T. assert (B : bpow radix2 (-100) <= 1e-30).
  { change (bpow radix2 (-100)) with (/ IZR (2 ^ 100)). set (P := IZR (2 ^ 100)). assert (HP : P = 1267650600228229401496703205376) by (unfold P; f_equal). apply Rmult_le_reg_r with P; [rewrite HP; lra|]. rewrite Rinv_l by (rewrite HP; lra). rewrite HP. lra. }
  pose proof (bpow_gt_0 radix2 (-100)). unfold eps64 in T. lra.
Qed.
Lemma plane64 (pl : plane b64) (r : ray b64) c n p d del : isv (pl_center pl) c -> isv (pl_normal pl) n -> isv (position r) p -> isv (direction r) d ->
  Rabs (len n - 1) <= 4e-16 -> Rabs (len d - 1) <= 4e-16 -> 1e-6 <= del -> del <= Rabs (dirn n ∙ dirn d) -> len (c - p)%r3 <= bpow radix2 100 -> len p <= bpow radix2 100 ->
  let t := ((c - p)%r3 ∙ dirn n) / (dirn n ∙ dirn d) in let K := len (c - p)%r3 / (del * del) in
  (1.0001e-9 + 2.2e-15 * K < t -> exists pt w, plane_test_intersect pl r = H3 true (Some pt) (Some (pl_normal pl)) /\ isv pt w /\
     len (w - (p + t * dirn d))%r3 <= 2.7e-15 * K + 1.2e-16 * len (p + t * dirn d)%r3 + 1e-30) /\
  (t < 0.9999e-9 - 2.2e-15 * K -> plane_test_intersect pl r = miss3).
Proof.
  intros Hc Hn Hp Hd Ln Ld L1 L2 BD Bp t K.
  destruct (plane_t64 _ _ _ _ c n p d del Hc Hn Hp Hd Ln Ld L1 L2 BD) as (q & tau & Hq & Ht & Eq & Et). fold t K in Et.
  pose proof eta_1e30 as T. pose proof eta64_pos as T0. destruct arb_isr as (x & Hx & Bx). apply Rabs_le_inv in Eq. assert (EE : 1.11e-16 < eps64 < 1.1103e-16) by (unfold eps64; lra).
  assert (Nn : n <> r3zero) by (apply Rabs_le_inv in Ln; apply (nonzero_of_len n (1/2)); lra). assert (Nd : d <> r3zero) by (apply Rabs_le_inv in Ld; apply (nonzero_of_len d (1/2)); lra).
  pose proof (dirn_unit n Nn) as Un. pose proof (dirn_unit d Nd) as Ud. assert (Ldel : del <= 1). { pose proof (unit_dot_bound _ _ Un Ud). apply Rle_trans with (1 := L2). apply Rabs_le. lra. }
  assert (BK : Rabs t <= K) by (apply t_bound; [exact Un|lra|exact Ldel|exact L2]). assert (PK : 0 <= K) by (eapply Rle_trans; [apply Rabs_pos|exact BK]).
  assert (EK : eps64 * K <= 1.1103e-16 * K) by (apply Rmult_le_compat_r; lra).
  assert (G1 : ngt (nabs (dot (unit_vector (pl_normal pl)) (unit_vector (direction r)))) ARB_EPSILON_VALUE = true).
  { unfold ngt. rewrite (isr_lt _ _ _ _ Hx (isr_abs _ _ Hq)). apply Rlt_bool_true. pose proof (Rabs_triang q (- (q - dirn n ∙ dirn d))) as X. rewrite Rabs_Ropp in X. replace (q + - (q - dirn n ∙ dirn d)) with (dirn n ∙ dirn d) in X by ring.
    assert (Rabs (q - dirn n ∙ dirn d) <= 1e-14) by (apply Rabs_le; lra). lra. }
  unfold plane_test_intersect. rewrite G1. unfold ngt. rewrite (isr_lt _ _ _ _ Hx Ht). assert (Et' := Et). apply Rabs_le_inv in Et'. split; intros Lt.
  - rewrite Rlt_bool_true by lra.
    assert (B1 : 1e13 * bpow radix2 100 <= bpow radix2 200). { apply Rle_trans with (bpow radix2 50 * bpow radix2 100); [apply Rmult_le_compat_r; [apply bpow_ge_0|]; change (bpow radix2 50) with 1125899906842624; lra|]. rewrite <- !bpow_plus. apply bpow_le. lia. }
    assert (KD : K <= 1e12 * len (c - p)%r3).
    { unfold K. pose proof (len_nonneg (c - p)%r3). apply Rmult_le_reg_r with (del * del); [apply Rmult_lt_0_compat; lra|]. unfold Rdiv. rewrite Rmult_assoc, Rinv_l, Rmult_1_r by (apply Rmult_integral_contrapositive_currified; lra).
      replace (1e12 * len (c - p)%r3 * (del * del)) with (len (c - p)%r3 * (1e12 * (del * del))) by ring. rewrite <- (Rmult_1_r (len (c - p)%r3)) at 1. apply Rmult_le_compat_l; [assumption|]. assert (1e-6 * 1e-6 <= del * del) by (apply Rmult_le_compat; lra). lra. }
    assert (B0 := bpow_gt_0 radix2 100). assert (len p <= bpow radix2 200) by lra. assert (K <= bpow radix2 200) by lra.
    assert (CD : len (d - dirn d)%r3 <= 4e-16). { replace (d - dirn d)%r3 with (- (dirn d - d))%r3 by r3_ring. rewrite len_opp, (dirn_close d Nd). exact Ld. }
    destruct (along64 (position r) (direction r) _ p d tau t (dirn d) K Hp Hd Ht Ud CD BK ltac:(assumption) ltac:(assumption) ltac:(lra)) as (w & Hw & Ew).
    exists (vadd (position r) (vscale (ndiv (dot (vsub (pl_center pl) (position r)) (pl_normal pl)) (dot (unit_vector (pl_normal pl)) (unit_vector (direction r)))) (direction r))), w.
    split; [reflexivity|]. split; [exact Hw|]. pose proof (len_nonneg (p + t * dirn d)%r3) as P. assert (eps64 * len (p + t * dirn d)%r3 <= 1.1103e-16 * len (p + t * dirn d)%r3) by (apply Rmult_le_compat_r; lra). lra.
  - rewrite Rlt_bool_false by lra. reflexivity.
Qed.
Lemma t_bound1 (c p : R3) (m d0 : R3) del : is_unit m -> 0 < del -> del <= Rabs (m ∙ d0) -> Rabs (((c - p)%r3 ∙ m) / (m ∙ d0)) <= len (c - p)%r3 / del.
Proof.
  intros Um P B. set (D := len (c - p)%r3). assert (BN : Rabs ((c - p)%r3 ∙ m) <= D). { eapply Rle_trans; [apply cauchy|]. rewrite (len_unit _ Um). fold D. lra. }
  unfold Rdiv. rewrite Rabs_mult, Rabs_inv. apply Rmult_le_compat; [apply Rabs_pos|left; apply Rinv_0_lt_compat; lra|exact BN|apply Rinv_le_contravar; lra].
Qed.
(** After a flat hit and a specular reflection the same plane is not hit again. *)
Lemma rehit64 (pl : plane b64) (r : ray b64) c n p d del : isv (pl_center pl) c -> isv (pl_normal pl) n -> isv (position r) p -> isv (direction r) d ->
  Rabs (len n - 1) <= 4e-16 -> Rabs (len d - 1) <= 4e-16 -> 1e-3 <= del -> del <= Rabs (dirn n ∙ dirn d) -> len (c - p)%r3 + len p <= 1e5 * (del * (del * del)) ->
  1.0001e-9 + 2.2e-15 * (len (c - p)%r3 / (del * del)) < ((c - p)%r3 ∙ dirn n) / (dirn n ∙ dirn d) ->
  exists pt, plane_test_intersect pl r = H3 true (Some pt) (Some (pl_normal pl)) /\
    plane_test_intersect pl (reflect_specular (fly r (distance_between (position r) pt)) (pl_normal pl)) = miss3.
Proof.
  intros Hc Hn Hp Hd Ln Ld L1 L2 BS Lt. set (D := len (c - p)%r3) in *. assert (PD : 0 <= D) by apply len_nonneg. assert (Pp : 0 <= len p) by apply len_nonneg.
  assert (Nn : n <> r3zero) by (apply Rabs_le_inv in Ln; apply (nonzero_of_len n (1/2)); lra). assert (Nd : d <> r3zero) by (apply Rabs_le_inv in Ld; apply (nonzero_of_len d (1/2)); lra).
  pose proof (dirn_unit n Nn) as Un. pose proof (dirn_unit d Nd) as Ud. pose proof (unit_dot_bound _ _ Un Ud) as BU. assert (Ldel : del <= 1). { apply Rle_trans with (1 := L2). apply Rabs_le. lra. }
  assert (PP : 0 < del * del <= 1). { split; [apply Rmult_lt_0_compat; lra|]. rewrite <- (Rmult_1_r 1). apply Rmult_le_compat; lra. }
  assert (P3 : 0 < del * (del * del) <= del). { split; [apply Rmult_lt_0_compat; lra|]. rewrite <- (Rmult_1_r del) at 4. apply Rmult_le_compat_l; lra. }
  set (S0 := D + len p) in *. set (X := S0 / (del * del)). assert (EX : S0 = X * (del * del)) by (unfold X; field; lra).
  assert (BX : X <= 1e5 * del). { apply Rmult_le_reg_r with (del * del); [lra|]. rewrite <- EX. lra. }
  assert (PX : 0 <= X) by (unfold X; apply Rmult_le_pos; [unfold S0; lra|left; apply Rinv_0_lt_compat; lra]).
  assert (SX : S0 <= X * del). { rewrite EX. apply Rmult_le_compat_l; [exact PX|]. rewrite <- (Rmult_1_r del) at 3. apply Rmult_le_compat_l; lra. }
  assert (SX1 : X * del <= X) by (rewrite <- (Rmult_1_r X) at 2; apply Rmult_le_compat_l; lra).
  assert (Bb : 1e6 <= bpow radix2 100). { apply Rle_trans with (bpow radix2 20); [change (bpow radix2 20) with 1048576; lra|apply bpow_le; lia]. }
  destruct (plane64 pl r c n p d del Hc Hn Hp Hd Ln Ld ltac:(lra) L2 ltac:(fold D; unfold S0 in *; lra) ltac:(unfold S0 in *; lra)) as [Hit _]. fold D in Hit. specialize (Hit Lt). destruct Hit as (pt & w & Et & Hw & Ew). exists pt. split; [exact Et|].
  set (t := ((c - p)%r3 ∙ dirn n) / (dirn n ∙ dirn d)) in *. set (K := D / (del * del)) in *. set (P := (p + t * dirn d)%r3) in *.
  assert (KX : 0 <= K <= X). { unfold K, X. split; [apply Rmult_le_pos; [lra|left; apply Rinv_0_lt_compat; lra]|]. apply Rmult_le_compat_r; [left; apply Rinv_0_lt_compat; lra|unfold S0; lra]. }
  assert (Bt : Rabs t <= D / del) by (apply t_bound1; [exact Un|lra|exact L2]).
  assert (Dd : D / del <= X * del). { replace (X * del) with (S0 / del) by (rewrite EX; field; lra). apply Rmult_le_compat_r; [left; apply Rinv_0_lt_compat; lra|unfold S0; lra]. }
  assert (t0 : 0 < t) by lra. rewrite Rabs_pos_eq in Bt by lra.
  assert (LP : len P <= 2 * X). { unfold P. eapply Rle_trans; [apply len_add|]. rewrite len_scale, (len_unit _ Ud), Rabs_pos_eq by lra. unfold S0 in *. lra. }
  assert (Err : len (w - P)%r3 <= 2.95e-15 * X + 1e-30) by lra.
  (* the distance flown *)
  assert (Ltp : Rabs (len (p - w)%r3 - t) <= 2.95e-15 * X + 1e-30).
  { replace t with (len (p - P)%r3). 2: { replace (p - P)%r3 with ((- t) * dirn d)%r3 by (unfold P; r3_ring). rewrite len_scale, (len_unit _ Ud), Rabs_Ropp, Rabs_pos_eq by lra. ring. }
    eapply Rle_trans; [apply len_close|]. replace ((p - w) - (p - P))%r3 with (- (w - P))%r3 by r3_ring. rewrite len_opp. exact Err. }
  apply Rabs_le_inv in Ltp.
  assert (Rng : bpow radix2 (-490) <= len (p - w)%r3 <= bpow radix2 490).
  { split.
    - apply Rle_trans with (bpow radix2 (-40)); [apply bpow_le; lia|]. change (bpow radix2 (-40)) with (/ 1099511627776). lra.
    - apply Rle_trans with (bpow radix2 100); [lra|apply bpow_le; lia]. }
  destruct (distance64 (position r) pt p w Hp Hw Rng) as (tau & Htau & Etau). assert (EE : 1.11e-16 < eps64 < 1.1103e-16) by (unfold eps64; lra).
  assert (Et1 : Rabs (tau - t) <= 3.4e-15 * X + 1.1e-30).
  { pose proof (len_nonneg (p - w)%r3). assert (eps64 * len (p - w)%r3 <= 1.1103e-16 * len (p - w)%r3) by (apply Rmult_le_compat_r; lra). apply Rabs_le_inv in Etau. apply Rabs_le. lra. }
  assert (CD : len (d - dirn d)%r3 <= 4e-16). { replace (d - dirn d)%r3 with (- (dirn d - d))%r3 by r3_ring. rewrite len_opp, (dirn_close d Nd). exact Ld. }
  assert (Bb2 : bpow radix2 100 <= bpow radix2 200) by (apply bpow_le; lia).
  destruct (along64 (position r) (direction r) _ p d tau t (dirn d) X Hp Hd Htau Ud CD) as (w' & Hw' & Ew'); [rewrite Rabs_pos_eq; lra|lra|unfold S0 in *; lra|lra|]. fold P in Ew'.
  pose proof eta_1e30 as T. pose proof eta64_pos as T0.
  assert (Err' : len (w' - P)%r3 <= 4.2e-15 * X + 2e-30).
  { assert (eps64 * X <= 1.1103e-16 * X) by (apply Rmult_le_compat_r; lra). pose proof (len_nonneg P). assert (eps64 * len P <= 1.1103e-16 * len P) by (apply Rmult_le_compat_r; lra). lra. }
  (* the new direction *)
  set (r1 := fly r (distance_between (position r) pt)) in *.
  destruct (reflect64 (direction r1) (pl_normal pl) d n Hd Hn ltac:(apply Rabs_le_inv in Ld; apply mid_moderate; lra) ltac:(apply Rabs_le_inv in Ln; apply mid_moderate; lra)) as (v & Hv & Lv & Ev).
  set (r2 := reflect_specular r1 (pl_normal pl)). change (isv (direction r2) v) in Hv. assert (Hp2 : isv (position r2) w') by exact Hw'.
  assert (Lv' := Lv). apply Rabs_le_inv in Lv'. assert (Nv : v <> r3zero) by (apply (nonzero_of_len v (1/2)); lra). pose proof (dirn_unit v Nv) as Uv.
  assert (Cv : len (dirn v - mirrored (dirn n) (dirn d))%r3 <= 1e-14).
  { replace (dirn v - mirrored (dirn n) (dirn d))%r3 with ((dirn v - v) + (v - mirrored (dirn n) (dirn d)))%r3 by r3_ring. eapply Rle_trans; [apply len_add|]. rewrite (dirn_close v Nv). lra. }
  assert (Dv : Rabs (dirn n ∙ dirn v + dirn n ∙ dirn d) <= 1e-14).
  { replace (dirn n ∙ dirn v + dirn n ∙ dirn d) with (dirn n ∙ (dirn v - mirrored (dirn n) (dirn d))%r3).
    - eapply Rle_trans; [apply cauchy|]. rewrite (len_unit _ Un). lra.
    - unfold mirrored. autorewrite with dotr. unfold is_unit in Un. rewrite Un, (dot_comm (dirn d) (dirn n)). ring. }
  set (del' := 0.999 * del). assert (L2' : del' <= Rabs (dirn n ∙ dirn v)).
  { replace (dirn n ∙ dirn v) with ((dirn n ∙ dirn v + dirn n ∙ dirn d) + - (dirn n ∙ dirn d)) by ring. rewrite <- (Rabs_Ropp (dirn n ∙ dirn d)) in L2.
    pose proof (Rabs_triang_inv (- (dirn n ∙ dirn d)) (- (dirn n ∙ dirn v + dirn n ∙ dirn d))) as Q. rewrite (Rabs_Ropp (dirn n ∙ dirn v + dirn n ∙ dirn d)) in Q.
    replace (- (dirn n ∙ dirn d) - - (dirn n ∙ dirn v + dirn n ∙ dirn d)) with ((dirn n ∙ dirn v + dirn n ∙ dirn d) + - (dirn n ∙ dirn d)) in Q by ring. unfold del'. lra. }
  assert (Lpw : len (p - w')%r3 <= X * del + 5e-10).
  { replace (p - w')%r3 with ((p - P) + (- (w' - P)))%r3 by r3_ring. eapply Rle_trans; [apply len_add|]. rewrite len_opp. replace (p - P)%r3 with ((- t) * dirn d)%r3 by (unfold P; r3_ring). rewrite len_scale, (len_unit _ Ud), Rabs_Ropp, Rabs_pos_eq by lra. lra. }
  assert (Lcw : len (c - w')%r3 <= 2 * (X * del) + 5e-10). { replace (c - w')%r3 with ((c - p) + (p - w'))%r3 by r3_ring. eapply Rle_trans; [apply len_add|]. fold D. unfold S0 in *. lra. }
  assert (Lw' : len w' <= 2 * X + 1). { replace w' with ((w' - P) + P)%r3 by r3_ring. eapply Rle_trans; [apply len_add|]. lra. }
  assert (Lv4 : Rabs (len v - 1) <= 4e-16) by lra.
  destruct (plane64 pl r2 c n w' v del' Hc Hn Hp2 Hv Ln Lv4 ltac:(unfold del'; lra) L2' ltac:(lra) ltac:(lra)) as [_ Miss]. apply Miss. clear Miss.
  assert (Num : Rabs ((c - w')%r3 ∙ dirn n) <= 4.2e-15 * X + 2e-30).
  { replace ((c - w')%r3 ∙ dirn n) with ((- (w' - P))%r3 ∙ dirn n).
    - eapply Rle_trans; [apply cauchy|]. rewrite len_opp, (len_unit _ Un). lra.
    - unfold P, t. autorewrite with dotr. rewrite (dot_comm (dirn d) (dirn n)). field. intros Z. rewrite Z, Rabs_R0 in L2. lra. }
  assert (Idel : / del' <= 1.0011 / del). { unfold del'. rewrite Rinv_mult. unfold Rdiv. apply Rmult_le_compat_r; [left; apply Rinv_0_lt_compat; lra|lra]. }
  assert (Pd' : 0 < del') by (unfold del'; lra). assert (Pi : 0 < / del) by (apply Rinv_0_lt_compat; lra).
  assert (Tb : Rabs (((c - w')%r3 ∙ dirn n) / (dirn n ∙ dirn v)) <= 4.22e-10).
  { unfold Rdiv. rewrite Rabs_mult, Rabs_inv. apply Rle_trans with ((4.2e-15 * X + 2e-30) * (1.0011 / del)).
    - apply Rmult_le_compat; [apply Rabs_pos|left; apply Rinv_0_lt_compat; lra|exact Num|]. eapply Rle_trans; [|exact Idel]. apply Rinv_le_contravar; lra.
    - apply Rmult_le_reg_r with del; [lra|]. replace ((4.2e-15 * X + 2e-30) * (1.0011 / del) * del) with ((4.2e-15 * X + 2e-30) * 1.0011 * (/ del * del)) by (unfold Rdiv; ring). rewrite Rinv_l by lra. lra. }
  assert (Kb : len (c - w')%r3 / (del' * del') <= 2.01e5).
  { unfold Rdiv. rewrite Rinv_mult. pose proof (len_nonneg (c - w')%r3).
    assert (I2 : / del' * / del' <= (1.0011 / del) * (1.0011 / del)) by (assert (0 < / del') by (apply Rinv_0_lt_compat; lra); apply Rmult_le_compat; lra).
    apply Rle_trans with ((2 * (X * del) + 5e-10) * ((1.0011 / del) * (1.0011 / del))); [apply Rmult_le_compat; try lra; left; apply Rmult_lt_0_compat; apply Rinv_0_lt_compat; lra|].
    apply Rmult_le_reg_r with del; [lra|].
    replace ((2 * (X * del) + 5e-10) * ((1.0011 / del) * (1.0011 / del)) * del) with (1.0011 * 1.0011 * (2 * (X * (del * / del)) + 5e-10 * / del) * (del * / del)) by (unfold Rdiv; ring). rewrite Rinv_r by lra.
    assert (/ del <= 1e3). { apply Rmult_le_reg_r with del; [lra|]. rewrite Rinv_l by lra. lra. } lra. }
  apply Rabs_le_inv in Tb. lra.
Qed.
(** distances that may be tiny *)
Lemma norm_small64 x y z a b c : isr x a -> isr y b -> isr z c -> Rabs a <= bpow radix2 (-480) -> Rabs b <= bpow radix2 (-480) -> Rabs c <= bpow radix2 (-480) ->
  exists n, isr (norm (V x y z)) n /\ 0 <= n <= bpow radix2 (-479).
Proof.
  intros Ha Hb Hc La Lb Lc. apply sq_bpow in La, Lb, Lc. change (-480 + -480)%Z with (-960)%Z in *.
  set (A := a * a) in *. set (B := b * b) in *. set (C := c * c) in *. assert (PA : 0 <= A) by (unfold A; nra). assert (PB : 0 <= B) by (unfold B; nra). assert (PC : 0 <= C) by (unfold C; nra).
  pose proof (RN_pos A PA) as QA. pose proof (RN_pos B PB) as QB. pose proof (RN_pos C PC) as QC.
  pose proof (RN_upper A (-960) ltac:(lia) La) as UA. pose proof (RN_upper B (-960) ltac:(lia) Lb) as UB. pose proof (RN_upper C (-960) ltac:(lia) Lc) as UC.
  assert (D1 : bpow radix2 (-959) = 2 * bpow radix2 (-960)) by exact (bpow_plus radix2 1 (-960)). assert (D2 : bpow radix2 (-958) = 2 * bpow radix2 (-959)) by exact (bpow_plus radix2 1 (-959)).
  pose proof (bpow_gt_0 radix2 (-960)) as P0.
  pose proof (RN_pos (RN A + RN B) ltac:(lra)) as Q1. pose proof (RN_upper (RN A + RN B) (-959) ltac:(lia) ltac:(lra)) as U1. set (S1 := RN (RN A + RN B)) in *.
  pose proof (RN_pos (S1 + RN C) ltac:(lra)) as Q2. pose proof (RN_upper (S1 + RN C) (-958) ltac:(lia) ltac:(lra)) as U2.
  assert (Hs : isr (dot (V x y z) (V x y z)) (RN (S1 + RN C))).
  { unfold dot. cbn [vx vy vz]. apply isr_add; [apply isr_add|..].
    + apply isr_mul; [exact Ha|exact Ha|]. apply (RN_huge _ (-960)); [lia|]. fold A. rewrite Rabs_pos_eq; lra.
    + apply isr_mul; [exact Hb|exact Hb|]. apply (RN_huge _ (-960)); [lia|]. fold B. rewrite Rabs_pos_eq; lra.
    + apply (RN_huge _ (-959)); [lia|]. fold A B. rewrite Rabs_pos_eq; lra.
    + apply isr_mul; [exact Hc|exact Hc|]. apply (RN_huge _ (-960)); [lia|]. fold C. rewrite Rabs_pos_eq; lra.
    + apply (RN_huge _ (-958)); [lia|]. fold A B C S1. rewrite Rabs_pos_eq; lra. }
  exists (RN (sqrt (RN (S1 + RN C)))). split; [apply isr_sqrt; assumption|]. split; [apply RN_pos, sqrt_pos|]. apply RN_upper; [lia|].
  rewrite <- (sqrt_square (bpow radix2 (-479))) by apply bpow_ge_0. apply sqrt_le_1_alt. rewrite <- bpow_plus. exact U2.
Qed.
Lemma distance_abs64 p q a b : isv p a -> isv q b -> len (a - b)%r3 <= bpow radix2 490 ->
  exists d, isr (distance_between p q) d /\ Rabs (d - len (a - b)%r3) <= 4e-16 * len (a - b)%r3 + 1e-30.
Proof.
  intros Hp Hq L2. destruct (Rle_or_lt (bpow radix2 (-490)) (len (a - b)%r3)) as [L1|L1].
  - destruct (distance64 p q a b Hp Hq (conj L1 L2)) as (d & Hd & Ed). exists d. split; [exact Hd|]. pose proof (len_nonneg (a - b)%r3).
    assert (3.6 * eps64 * len (a - b)%r3 <= 4e-16 * len (a - b)%r3) by (apply Rmult_le_compat_r; [assumption|unfold eps64; lra]). lra.
  - destruct (vsub64 p q a b Hp Hq) as (d & (Dx & Dy & Dz) & Ed). { pose proof (bpow_le radix2 490 1000 ltac:(lia)). lra. }
    pose proof (len_close d (a - b)%r3) as C. apply Rabs_le_inv in C. pose proof (len_nonneg (a - b)%r3) as P. pose proof (bpow_gt_0 radix2 (-490)) as P0. pose proof (eta64_tiny (-490) ltac:(lia)) as T. pose proof eta64_pos as T0.
    assert (eps64 * len (a - b)%r3 <= 1e-10 * len (a - b)%r3) by (apply Rmult_le_compat_r; [exact P|unfold eps64; lra]).
    assert (K : bpow radix2 (-480) = 1024 * bpow radix2 (-490)) by exact (bpow_plus radix2 10 (-490)).
    assert (Ld : len d <= bpow radix2 (-480)) by (unfold eps64 in T; lra).
    destruct (comp_le d) as (Cx & Cy & Cz). destruct d as [x y z]. cbn [cx cy cz] in *.
    destruct (norm_small64 _ _ _ x y z Dx Dy Dz ltac:(lra) ltac:(lra) ltac:(lra)) as (n & Hn & Bn). exists n. split; [exact Hn|].
    assert (B : bpow radix2 (-479) <= bpow radix2 (-101)) by (apply bpow_le; lia). assert (B2 : bpow radix2 (-490) <= bpow radix2 (-101)) by (apply bpow_le; lia).
    assert (B3 : bpow radix2 (-101) <= 5e-31).
    { change (bpow radix2 (-101)) with (/ IZR (2 ^ 101)). set (Q := IZR (2 ^ 101)). assert (HP : Q = 2535301200456458802993406410752) by (unfold Q; f_equal). apply Rmult_le_reg_r with Q; [rewrite HP; lra|]. rewrite Rinv_l by (rewrite HP; lra). rewrite HP. lra. }
    apply Rabs_le. lra.
Qed.
(** Circle.test_intersect *)
Lemma circle64 (ci : circle b64) (pl : plane b64) (r : ray b64) c n p d del rad : ci_plane ci = Some pl -> ci_center ci = pl_center pl -> isr (ci_R ci) rad ->
  isv (pl_center pl) c -> isv (pl_normal pl) n -> isv (position r) p -> isv (direction r) d ->
  Rabs (len n - 1) <= 4e-16 -> Rabs (len d - 1) <= 4e-16 -> 1e-6 <= del -> del <= Rabs (dirn n ∙ dirn d) -> len (c - p)%r3 <= bpow radix2 100 -> len p <= bpow radix2 100 ->
  let t := ((c - p)%r3 ∙ dirn n) / (dirn n ∙ dirn d) in let K := len (c - p)%r3 / (del * del) in let P := (p + t * dirn d)%r3 in
  let err := 2.7e-15 * K + 1.2e-16 * len P + 1e-30 in
  (1.0001e-9 + 2.2e-15 * K < t -> len (P - c)%r3 * (1 + 1e-15) + 3 * err < rad -> exists pt w, circle_test_intersect ci r = Ok (H3 true (Some pt) (Some (pl_normal pl))) /\ isv pt w /\ len (w - P)%r3 <= err) /\
  (1.0001e-9 + 2.2e-15 * K < t -> rad < len (P - c)%r3 * (1 - 1e-15) - 3 * err -> circle_test_intersect ci r = Ok miss3) /\
  (t < 0.9999e-9 - 2.2e-15 * K -> circle_test_intersect ci r = Ok miss3).
Proof.
  intros Epl Ec HR Hc Hn Hp Hd Ln Ld L1 L2 BD Bp t K P err.
  destruct (plane64 pl r c n p d del Hc Hn Hp Hd Ln Ld L1 L2 BD Bp) as [Hit Miss]. fold t K P err in Hit, Miss. unfold circle_test_intersect. rewrite Epl.
  assert (Go : 1.0001e-9 + 2.2e-15 * K < t -> exists pt w dr, plane_test_intersect pl r = H3 true (Some pt) (Some (pl_normal pl)) /\ isv pt w /\ len (w - P)%r3 <= err /\
    isr (distance_between pt (ci_center ci)) dr /\ Rabs (dr - len (P - c)%r3) <= 1.0001 * err + 4e-16 * len (P - c)%r3 + 1e-30).
  { intros Lt. destruct (Hit Lt) as (pt & w & E & Hw & Ew). exists pt, w.
    assert (Nn : n <> r3zero) by (apply Rabs_le_inv in Ln; apply (nonzero_of_len n (1/2)); lra). assert (Nd : d <> r3zero) by (apply Rabs_le_inv in Ld; apply (nonzero_of_len d (1/2)); lra).
    pose proof (dirn_unit n Nn) as Un. pose proof (dirn_unit d Nd) as Ud. pose proof (len_nonneg (c - p)%r3) as PD.
    assert (Bt : Rabs t <= len (c - p)%r3 / del) by (apply t_bound1; [exact Un|lra|exact L2]).
    assert (Ni : 0 < / del <= 1e6). { split; [apply Rinv_0_lt_compat; lra|]. apply Rmult_le_reg_r with del; [lra|]. rewrite Rinv_l by lra. lra. }
    assert (Bt2 : len (c - p)%r3 / del <= len (c - p)%r3 * 1e6) by (apply Rmult_le_compat_l; lra).
    assert (LP : len P <= len p + Rabs t). { unfold P. eapply Rle_trans; [apply len_add|]. rewrite len_scale, (len_unit _ Ud). lra. }
    assert (K0 : 0 <= K). { unfold K. apply Rmult_le_pos; [exact PD|]. rewrite Rinv_mult. apply Rmult_le_pos; lra. }
    assert (KD : K <= 1e12 * len (c - p)%r3). { unfold K, Rdiv. rewrite Rinv_mult. replace (1e12 * len (c - p)%r3) with (len (c - p)%r3 * (1e6 * 1e6)) by lra. apply Rmult_le_compat_l; [exact PD|]. apply Rmult_le_compat; lra. }
    pose proof (len_nonneg P) as PP. assert (e0 : 1e-30 <= err) by (unfold err; lra).
    assert (LPc : len (P - c)%r3 <= Rabs t + len (c - p)%r3). { replace (P - c)%r3 with (t * dirn d + - (c - p))%r3 by (unfold P; r3_ring). eapply Rle_trans; [apply len_add|]. rewrite len_scale, len_opp, (len_unit _ Ud). lra. }
    assert (Lwc : len (w - c)%r3 <= len (w - P)%r3 + len (P - c)%r3). { replace (w - c)%r3 with ((w - P) + (P - c))%r3 by r3_ring. apply len_add. }
    assert (LPw : len (P - c)%r3 <= len (w - P)%r3 + len (w - c)%r3). { replace (P - c)%r3 with ((- (w - P)) + (w - c))%r3 by r3_ring. eapply Rle_trans; [apply len_add|]. rewrite len_opp. lra. }
    assert (Big : 1e9 * bpow radix2 100 <= bpow radix2 490). { apply Rle_trans with (bpow radix2 30 * bpow radix2 100); [apply Rmult_le_compat_r; [apply bpow_ge_0|]; change (bpow radix2 30) with 1073741824; lra|]. rewrite <- bpow_plus. apply bpow_le. lia. }
    assert (B1 : 1 <= bpow radix2 100) by (change 1 with (bpow radix2 0); apply bpow_le; lia).
    destruct (distance_abs64 pt (ci_center ci) w c Hw ltac:(rewrite Ec; exact Hc)) as (dr & Hdr & Edr); [unfold err in *; lra|].
    exists dr. repeat (split; [assumption|]). apply Rabs_le_inv in Edr. apply Rabs_le. lra. }
  assert (P0 := len_nonneg (P - c)%r3). assert (e0 : 1e-30 <= err). { unfold err. pose proof (len_nonneg P). assert (0 <= K) by (unfold K; apply Rmult_le_pos; [apply len_nonneg|left; apply Rinv_0_lt_compat, Rmult_lt_0_compat; lra]). lra. }
  split; [|split].
  - intros Lt LR. destruct (Go Lt) as (pt & w & dr & E & Hw & Ew & Hdr & Edr). rewrite E. cbn [h3_flag h3_pt h3_normal need bind]. apply Rabs_le_inv in Edr.
    rewrite (isr_lt _ _ _ _ Hdr HR), Rlt_bool_true by lra. exists pt, w. auto.
  - intros Lt LR. destruct (Go Lt) as (pt & w & dr & E & Hw & Ew & Hdr & Edr). rewrite E. cbn [h3_flag h3_pt h3_normal need bind]. apply Rabs_le_inv in Edr.
    rewrite (isr_lt _ _ _ _ Hdr HR), Rlt_bool_false by lra. reflexivity.
  - intros Lt. rewrite (Miss Lt). reflexivity.
Qed.
