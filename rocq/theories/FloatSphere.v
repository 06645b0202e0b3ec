(** Sphere intersections in binary64: errors of the discriminant, of the parameters and of the points. *)
From Coq Require Import ZArith Reals Floats.SpecFloat String List Bool Lia Lra Psatz.
From Flocq Require Import Core IEEE754.BinarySingleNaN.
From Verif Require Import PyErr Num Vec Shapes Csg Optics Spec RVec FloatInst FloatReal FloatVec FloatHit FloatRun.
Import ListNotations.
Local Open Scope R_scope.

Lemma mul64 x y a b : isr x a -> isr y b -> Rabs (a * b) <= bpow radix2 1000 -> exists d, isr (nmul x y) d /\ Rabs (d - a * b) <= eps64 * Rabs (a * b) + eta64.
Proof. intros Hx Hy B. exists (RN (a * b)). split; [apply isr_mul; [exact Hx|exact Hy|apply (RN_huge _ 1000); [lia|exact B]]|apply RN_err]. Qed.
Lemma abs_mul_le a b x y : Rabs a <= x -> Rabs b <= y -> Rabs (a * b) <= x * y.
Proof. intros A B. rewrite Rabs_mult. apply Rmult_le_compat; try apply Rabs_pos; assumption. Qed.

Definition scale_ok (S : R) : Prop := bpow radix2 (-100) <= S <= bpow radix2 100.
Lemma scale_eta S : scale_ok S -> 0 < S /\ eta64 <= 1e-6 * (eps64 * S) /\ eta64 <= 1e-6 * (eps64 * (S * S)) /\ 1e6 * (S * S) <= bpow radix2 1000 /\ 1e6 * S <= bpow radix2 200 /\ eta64 <= 2e-22 * S.
Proof.
  intros [L U]. pose proof (bpow_gt_0 radix2 (-100)) as P. pose proof (bpow_gt_0 radix2 (-200)) as P2. pose proof (eta64_tiny (-200) ltac:(lia)) as T.
  assert (S2 : bpow radix2 (-200) <= S * S) by (change (-200)%Z with (-100 + -100)%Z; rewrite bpow_plus; apply Rmult_le_compat; lra).
  assert (S1 : bpow radix2 (-200) <= S) by (eapply Rle_trans; [apply bpow_le|exact L]; lia).
  assert (U2 : S * S <= bpow radix2 200) by (change 200%Z with (100 + 100)%Z; rewrite bpow_plus; apply Rmult_le_compat; lra).
  assert (E0 : 0 < eps64 < 1.2e-16) by (unfold eps64; lra).
  assert (M : 1e6 <= bpow radix2 100) by (apply Rle_trans with (bpow radix2 30); [change (bpow radix2 30) with 1073741824; lra|apply bpow_le; lia]).
  assert (M1 : bpow radix2 (-200) * eps64 <= eps64 * S) by (rewrite Rmult_comm; apply Rmult_le_compat_l; lra).
  split; [lra|]. split; [lra|]. split.
  - assert (bpow radix2 (-200) * eps64 <= eps64 * (S * S)) by (rewrite Rmult_comm; apply Rmult_le_compat_l; lra). lra.
  - split; [|split].
    + apply Rle_trans with (bpow radix2 100 * bpow radix2 200); [apply Rmult_le_compat; try lra; apply Rmult_le_pos; lra|]. rewrite <- bpow_plus. apply bpow_le. lia.
    + change 200%Z with (100 + 100)%Z. rewrite bpow_plus. apply Rmult_le_compat; lra.
    + assert (eps64 * S <= 1.2e-16 * S) by (apply Rmult_le_compat_r; lra). lra.
Qed.

Lemma disc64 (cv pv dv : vec b64) (Rv : b64) c p d R S : isv cv c -> isv pv p -> isv dv d -> isr Rv R -> Rabs (len d - 1) <= 4e-16 -> len (c - p)%r3 <= S -> Rabs R <= S -> scale_ok S ->
  let q := vsub cv pv in let v := dot dv q in let b := dirn d ∙ (c - p)%r3 in
  exists vr x, isr v vr /\ isr (nsub (nmul v v) (nsub (dot q q) (nmul Rv Rv))) x /\
    Rabs (vr - b) <= 7.7 * (eps64 * S) /\ Rabs (x - (b * b - ((c - p)%r3 ∙ (c - p)%r3 - R * R))) <= 25 * (eps64 * (S * S)).
Proof.
  intros Hc Hp Hd HR Ld LS RS SS q v b. destruct (scale_eta S SS) as (PS & T1 & T2 & Big2 & Big1 & _). pose proof eta64_pos as T0.
  destruct (unitish d Ld) as [Nd Ud]. pose proof (dirn_close d Nd) as Cd. apply Rabs_le_inv in Ld.
  set (Q := (c - p)%r3) in *. set (E := eps64) in *. assert (EE : 1.11e-16 < E < 1.111e-16) by (unfold E, eps64; lra). assert (E4 : 4e-16 <= 3.61 * E) by (unfold E, eps64; lra).
  assert (PSS : 0 < S * S) by (apply Rmult_lt_0_compat; lra).
  assert (X1 : 0 < E * S <= 1e-15 * S) by (split; [apply Rmult_lt_0_compat; lra|apply Rmult_le_compat_r; lra]).
  assert (X2 : 0 < E * (S * S) <= 1e-15 * (S * S)) by (split; [apply Rmult_lt_0_compat; lra|apply Rmult_le_compat_r; lra]).
  assert (BigS : 1e6 * S <= bpow radix2 1000) by (eapply Rle_trans; [exact Big1|apply bpow_le; lia]).
  pose proof (len_nonneg Q) as LQ.
  destruct (vsub64 cv pv c p Hc Hp ltac:(fold Q; lra)) as (f & Hf & Ef). fold Q E q in Ef, Hf.
  assert (EQ : E * len Q <= E * S) by (apply Rmult_le_compat_l; lra).
  assert (Ef' : len (f - Q)%r3 <= 1.001 * (E * S)) by lra.
  pose proof (len_add (f - Q)%r3 Q) as Lf. replace ((f - Q) + Q)%r3 with f in Lf by r3_ring. assert (Lf' : len f <= 1.0001 * S) by lra. pose proof (len_nonneg f) as Pf. pose proof (len_nonneg (f - Q)%r3) as Pfq.
  assert (Ldf : len d * len f <= 1.001 * S) by (apply Rle_trans with ((1 + 4e-16) * (1.0001 * S)); [apply Rmult_le_compat; try apply len_nonneg; lra|lra]).
  destruct (dot64 dv q d f Hd Hf) as (vr & Hv & Ev). { lra. } fold v E in Hv, Ev.
  assert (Ev1 : E * (len d * len f) <= E * (1.001 * S)) by (apply Rmult_le_compat_l; lra).
  assert (Bb : Rabs b <= S). { eapply Rle_trans; [apply cauchy|]. rewrite (len_unit _ Ud). fold Q. lra. }
  assert (Dv : Rabs (vr - b) <= 7.7 * (E * S)).
  { assert (X : Rabs (d ∙ f - b) <= 4.62 * (E * S)).
    { replace (d ∙ f - b) with (d ∙ (f - Q)%r3 + (- (dirn d - d))%r3 ∙ Q) by (unfold b, Q; autorewrite with dotr; ring).
      eapply Rle_trans; [apply Rabs_triang|]. pose proof (cauchy d (f - Q)%r3) as C1. pose proof (cauchy (- (dirn d - d))%r3 Q) as C2. rewrite len_opp, Cd in C2.
      assert (len d * len (f - Q)%r3 <= (1 + 4e-16) * (1.001 * (E * S))) by (apply Rmult_le_compat; try apply len_nonneg; lra).
      assert (Rabs (len d - 1) * len Q <= (3.61 * E) * S) by (apply Rmult_le_compat; [apply Rabs_pos|lra|apply Rabs_le; lra|lra]). lra. }
    apply Rabs_le_inv in X, Ev. apply Rabs_le. lra. }
  assert (Bv : Rabs vr <= 1.0001 * S). { replace vr with ((vr - b) + b) by ring. eapply Rle_trans; [apply Rabs_triang|]. lra. }
  (* q.q *)
  assert (Lff : 0 <= len f * len f <= 1.001 * (S * S)). { split; [apply Rmult_le_pos; lra|]. apply Rle_trans with ((1.0001 * S) * (1.0001 * S)); [apply Rmult_le_compat; lra|lra]. }
  destruct (dot64 q q f f Hf Hf) as (g & Hg & Eg). { lra. } fold E in Eg.
  assert (Eg1 : E * (len f * len f) <= E * (1.001 * (S * S))) by (apply Rmult_le_compat_l; lra).
  assert (Dg : Rabs (g - Q ∙ Q) <= 5.03 * (E * (S * S))).
  { assert (X : Rabs (f ∙ f - Q ∙ Q) <= 2.005 * (E * (S * S))).
    { replace (f ∙ f - Q ∙ Q) with ((f - Q)%r3 ∙ (f + Q)%r3) by (autorewrite with dotr; rewrite (dot_comm Q f); ring). eapply Rle_trans; [apply cauchy|].
      pose proof (len_add f Q). apply Rle_trans with ((1.001 * (E * S)) * (2.0001 * S)); [apply Rmult_le_compat; try apply len_nonneg; lra|].
      replace (1.001 * (E * S) * (2.0001 * S)) with (1.001 * 2.0001 * (E * (S * S))) by ring. lra. }
    apply Rabs_le_inv in X, Eg. apply Rabs_le. lra. }
  assert (BQ : 0 <= Q ∙ Q <= S * S) by (rewrite <- len_sq; split; [apply Rmult_le_pos|apply Rmult_le_compat]; lra).
  assert (BR : 0 <= R * R <= S * S). { split; [apply Rle_0_sqr|]. rewrite <- (Rabs_pos_eq (R * R)) by apply Rle_0_sqr. apply abs_mul_le; assumption. }
  destruct (mul64 Rv Rv R R HR HR) as (k & Hk & Ek). { rewrite Rabs_pos_eq; lra. } rewrite (Rabs_pos_eq (R * R)) in Ek by lra. fold E in Ek.
  assert (Ek1 : E * (R * R) <= E * (S * S)) by (apply Rmult_le_compat_l; lra).
  apply Rabs_le_inv in Ek, Dg.
  assert (Bgk : Rabs (g - k) <= 1.001 * (S * S)) by (apply Rabs_le; lra).
  destruct (sub64 _ _ g k Hg Hk) as (s & Hs & Es). { lra. } fold E in Es.
  assert (Es1 : E * Rabs (g - k) <= E * (1.001 * (S * S))) by (apply Rmult_le_compat_l; lra). apply Rabs_le_inv in Es.
  (* v.v *)
  assert (Bvv : Rabs (vr * vr) <= 1.001 * (S * S)). { eapply Rle_trans; [apply (abs_mul_le _ _ _ _ Bv Bv)|]. lra. }
  destruct (mul64 v v vr vr Hv Hv) as (y & Hy & Ey). { lra. } fold E in Ey.
  assert (Ey1 : E * Rabs (vr * vr) <= E * (1.001 * (S * S))) by (apply Rmult_le_compat_l; lra). apply Rabs_le_inv in Ey.
  assert (Dvv : Rabs (vr * vr - b * b) <= 15.42 * (E * (S * S))).
  { replace (vr * vr - b * b) with ((vr - b) * (vr + b)) by ring. assert (Rabs (vr + b) <= 2.0001 * S) by (eapply Rle_trans; [apply Rabs_triang|lra]).
    eapply Rle_trans; [apply (abs_mul_le _ _ _ _ Dv H)|]. replace (7.7 * (E * S) * (2.0001 * S)) with (7.7 * 2.0001 * (E * (S * S))) by ring. lra. }
  apply Rabs_le_inv in Dvv. assert (Bbb : 0 <= b * b <= Q ∙ Q). { split; [apply Rle_0_sqr|]. unfold b. pose proof (cauchy_schwarz_sq (dirn d) Q) as X. unfold is_unit in Ud. rewrite Ud in X. lra. }
  assert (Bys : Rabs (y - s) <= 1.001 * (S * S)) by (apply Rabs_le; lra).
  destruct (sub64 _ _ y s Hy Hs) as (x & Hx & Ex). { lra. } fold E in Ex.
  assert (Ex1 : E * Rabs (y - s) <= E * (1.001 * (S * S))) by (apply Rmult_le_compat_l; lra). apply Rabs_le_inv in Ex.
  exists vr, x. split; [exact Hv|]. split; [exact Hx|]. split; [exact Dv|]. apply Rabs_le. lra.
Qed.
Lemma sq_le_inv a b : 0 <= b -> a * a <= b * b -> a <= b.
Proof. intros P H. destruct (Rle_or_lt a b) as [L|L]; [exact L|]. exfalso. assert (b * b < a * a) by (apply Rmult_le_0_lt_compat; lra). lra. Qed.

Lemma roots64 (cv pv dv : vec b64) (Rv : b64) c p d R S : isv cv c -> isv pv p -> isv dv d -> isr Rv R -> Rabs (len d - 1) <= 4e-16 -> len (c - p)%r3 <= S -> Rabs R <= S -> scale_ok S ->
  let q := vsub cv pv in let v := dot dv q in let b := dirn d ∙ (c - p)%r3 in let disc := nsub (nmul v v) (nsub (dot q q) (nmul Rv Rv)) in
  forall h, 0 < h -> h * h = b * b - ((c - p)%r3 ∙ (c - p)%r3 - R * R) -> 3e-15 * (S * S) <= h * h ->
  exists x t0 t1, isr disc x /\ 0 < x /\ isr (nsub v (nsqrt disc)) t0 /\ isr (nadd v (nsqrt disc)) t1 /\ t0 < t1 /\
    Rabs (t0 - (b - h)) <= 4.2e-15 * (S * S / h) /\ Rabs (t1 - (b + h)) <= 4.2e-15 * (S * S / h) /\ Rabs b <= S /\ h <= S /\ 4.2e-15 * (S * S / h) <= 1e-7 * S /\ S <= S * S / h.
Proof.
  intros Hc Hp Hd HR Ld LS RS SS q v b disc h Ph Eh Lh. destruct (scale_eta S SS) as (PS & T1 & T2 & Big2 & Big1 & _). pose proof eta64_pos as T0.
  destruct (disc64 cv pv dv Rv c p d R S Hc Hp Hd HR Ld LS RS SS) as (vr & x & Hv & Hx & Dv & Dx). fold q v b in Hv, Hx, Dv, Dx. fold disc in Hx. rewrite <- Eh in Dx.
  destruct (unitish d Ld) as [Nd Ud].
  set (Q := (c - p)%r3) in *. set (E := eps64) in *. assert (EE : 1.11e-16 < E < 1.1103e-16) by (unfold E, eps64; lra).
  assert (PSS : 0 < S * S) by (apply Rmult_lt_0_compat; lra).
  assert (X1 : 0 < E * S <= 1.1103e-16 * S) by (split; [apply Rmult_lt_0_compat; lra|apply Rmult_le_compat_r; lra]).
  assert (X2 : 0 < E * (S * S) <= 1.1103e-16 * (S * S)) by (split; [apply Rmult_lt_0_compat; lra|apply Rmult_le_compat_r; lra]).
  assert (Bb : Rabs b <= S). { eapply Rle_trans; [apply cauchy|]. rewrite (len_unit _ Ud). fold Q. lra. }
  assert (BR : R * R <= S * S). { rewrite <- (Rabs_pos_eq (R * R)) by apply Rle_0_sqr. apply abs_mul_le; assumption. }
  assert (Bbb : b * b <= Q ∙ Q). { unfold b. pose proof (cauchy_schwarz_sq (dirn d) Q) as X. unfold is_unit in Ud. rewrite Ud in X. lra. }
  assert (Hs : h <= S) by (apply sq_le_inv; lra).
  assert (Hl : 5e-8 * S <= h). { apply sq_le_inv; [lra|]. replace (5e-8 * S * (5e-8 * S)) with (5e-8 * 5e-8 * (S * S)) by ring. lra. }
  set (K := S * S / h) in *. assert (KH : K * h = S * S) by (unfold K; field; lra).
  assert (PK : 0 < K) by (apply Rmult_lt_0_compat; [exact PSS|apply Rinv_0_lt_compat; exact Ph]).
  assert (SK : S <= K). { apply Rmult_le_reg_r with h; [exact Ph|]. rewrite KH. apply Rmult_le_compat_l; lra. }
  assert (KS : K <= 2e7 * S). { apply Rmult_le_reg_r with h; [exact Ph|]. rewrite KH. replace (2e7 * S * h) with (S * (2e7 * h)) by ring. apply Rmult_le_compat_l; lra. }
  assert (EK : 0 < E * K <= 1.1103e-16 * K) by (split; [apply Rmult_lt_0_compat; lra|apply Rmult_le_compat_r; lra]).
  assert (ESK : E * S <= E * K) by (apply Rmult_le_compat_l; lra).
  assert (Dx' := Dx). apply Rabs_le_inv in Dx'.
  assert (Px : 1e-16 * (S * S) <= x) by lra. assert (Px0 : 0 < x) by lra. set (y := sqrt x). assert (Yy : y * y = x) by (apply sqrt_sqrt; lra). assert (Y0 : 0 <= y) by apply sqrt_pos.
  assert (Yl : 1e-8 * S <= y). { apply sq_le_inv; [exact Y0|]. replace (1e-8 * S * (1e-8 * S)) with (1e-8 * 1e-8 * (S * S)) by ring. lra. }
  assert (Dy : Rabs (y - h) <= 25 * (E * K)).
  { apply Rmult_le_reg_r with h; [exact Ph|]. replace (25 * (E * K) * h) with (25 * (E * (S * S))) by (rewrite <- KH; ring). eapply Rle_trans; [|exact Dx].
    replace (x - h * h) with ((y - h) * (y + h)) by (rewrite <- Yy; ring). rewrite Rabs_mult. apply Rmult_le_compat_l; [apply Rabs_pos|]. rewrite Rabs_pos_eq; lra. }
  apply Rabs_le_inv in Dy. assert (Yu : y <= 1.001 * S) by lra.
  pose proof (isr_sqrt disc x Hx ltac:(lra)) as Hr. fold y in Hr. pose proof (RN_errp y Y0) as Er. fold E in Er. set (rt := RN y) in *. clearbody rt. apply Rabs_le_inv in Er.
  assert (EY : 0 <= E * y <= 1.001 * (E * S)). { split; [apply Rmult_le_pos; lra|]. replace (1.001 * (E * S)) with (E * (1.001 * S)) by ring. apply Rmult_le_compat_l; lra. }
  assert (Dr : Rabs (rt - h) <= 26.1 * (E * K)) by (apply Rabs_le; lra). apply Rabs_le_inv in Dr. assert (Rl : 0.9e-8 * S <= rt) by lra.
  apply Rabs_le_inv in Dv. assert (Bb' := Bb). apply Rabs_le_inv in Bb'.
  assert (B0 : Rabs (vr - rt) <= 2.01 * S) by (apply Rabs_le; lra). assert (B1 : Rabs (vr + rt) <= 2.01 * S) by (apply Rabs_le; lra).
  assert (BigS : 1e6 * S <= bpow radix2 1000) by (eapply Rle_trans; [exact Big1|apply bpow_le; lia]).
  destruct (sub64 _ _ vr rt Hv Hr ltac:(lra)) as (t0 & Ht0 & E0). destruct (add64 _ _ vr rt Hv Hr ltac:(lra)) as (t1 & Ht1 & E1). fold E in E0, E1.
  assert (F0 : E * Rabs (vr - rt) <= 2.01 * (E * S)). { replace (2.01 * (E * S)) with (E * (2.01 * S)) by ring. apply Rmult_le_compat_l; lra. }
  assert (F1 : E * Rabs (vr + rt) <= 2.01 * (E * S)). { replace (2.01 * (E * S)) with (E * (2.01 * S)) by ring. apply Rmult_le_compat_l; lra. }
  apply Rabs_le_inv in E0, E1.
  exists x, t0, t1. split; [exact Hx|]. split; [exact Px0|]. split; [exact Ht0|]. split; [exact Ht1|]. split; [lra|]. split; [apply Rabs_le; lra|]. split; [apply Rabs_le; lra|]. split; [exact Bb|]. split; [exact Hs|]. split; lra.
Qed.

(** nearby vectors have nearby directions *)
Lemma dirn_near a b k : 0 < k -> k <= len b -> a <> r3zero -> len (dirn a - dirn b)%r3 <= 2 * (len (a - b)%r3 / k).
Proof.
  intros Pk Lb Na. assert (Nb : b <> r3zero) by (apply (nonzero_of_len b k); assumption). pose proof (len_pos b Nb) as Pb.
  pose proof (dirn_scale a Na) as Sa. pose proof (dirn_scale b Nb) as Sb. pose proof (len_close a b) as C.
  assert (X : (len b * (dirn a - dirn b))%r3 = ((a - b) + (len b - len a) * dirn a)%r3).
  { revert Sa Sb. generalize (dirn a) (dirn b) (len a) (len b). intros u v l m -> ->. r3_ring. }
  assert (Y : len b * len (dirn a - dirn b)%r3 <= 2 * len (a - b)%r3).
  { rewrite <- (Rabs_pos_eq (len b)) by lra. rewrite <- len_scale, X. eapply Rle_trans; [apply len_add|]. rewrite len_scale, (len_unit _ (dirn_unit a Na)), (Rabs_minus_sym (len b)). lra. }
  apply Rmult_le_reg_l with k; [exact Pk|]. replace (k * (2 * (len (a - b)%r3 / k))) with (2 * len (a - b)%r3) by (field; lra). eapply Rle_trans; [|exact Y]. apply Rmult_le_compat_r; [apply len_nonneg|exact Lb].
Qed.

(** the computed normal of a sphere at a point near it *)
Lemma normal64 (s : sphere b64) (pt : vec b64) c w P rad err : isv (sp_center s) c -> isv pt w -> len (w - P)%r3 <= err -> len (c - P)%r3 = rad -> bpow radix2 (-100) <= rad <= bpow radix2 100 -> 4 * err <= rad ->
  exists n, isv (sphere_normal s pt) n /\ len (n - dirn (c - P))%r3 <= 2.01 * (err / rad) + 8e-16 /\ Rabs (len n - 1) <= 4e-16.
Proof.
  intros Hc Hw Ew Er [R1 R2] Le. pose proof (bpow_gt_0 radix2 (-100)) as P0. assert (PR : 0 < rad) by lra. destruct (scale_eta rad (conj R1 R2)) as (_ & T1 & _ & _ & Big1 & _). pose proof eta64_pos as T0.
  assert (EE : 1.11e-16 < eps64 < 1.1103e-16) by (unfold eps64; lra). assert (Pe : 0 <= err) by (eapply Rle_trans; [apply len_nonneg|exact Ew]).
  assert (Dw : len ((c - w) - (c - P))%r3 <= err). { replace ((c - w) - (c - P))%r3 with (- (w - P))%r3 by r3_ring. rewrite len_opp. exact Ew. }
  pose proof (len_close (c - w)%r3 (c - P)%r3) as Lc. rewrite Er in Lc. assert (Lc' := Rle_trans _ _ _ Lc Dw). apply Rabs_le_inv in Lc'.
  assert (BigS : 1e6 * rad <= bpow radix2 1000) by (eapply Rle_trans; [exact Big1|apply bpow_le; lia]).
  destruct (vsub64 _ _ c w Hc Hw ltac:(lra)) as (x & Hx & Ex).
  assert (F : eps64 * len (c - w)%r3 <= 1.25 * (eps64 * rad)). { replace (1.25 * (eps64 * rad)) with (eps64 * (1.25 * rad)) by ring. apply Rmult_le_compat_l; lra. }
  assert (ER : 0 < eps64 * rad <= 1.1103e-16 * rad) by (split; [apply Rmult_lt_0_compat; lra|apply Rmult_le_compat_r; lra]).
  assert (Dx : len (x - (c - P))%r3 <= err + 1.3 * (eps64 * rad)). { eapply Rle_trans; [apply (len_tri x (c - w)%r3 (c - P)%r3)|]. lra. }
  pose proof (len_close x (c - P)%r3) as Lx. rewrite Er in Lx. assert (Lx' := Rle_trans _ _ _ Lx Dx). apply Rabs_le_inv in Lx'.
  assert (Mx : moderate x). { split; [apply Rle_trans with (bpow radix2 (-101)); [apply bpow_le; lia|]|apply Rle_trans with (bpow radix2 200); [lra|apply bpow_le; lia]]. change (-101)%Z with (-1 + -100)%Z. rewrite bpow_plus. change (bpow radix2 (-1)) with (/ 2). lra. }
  destruct (unit64 _ x Hx Mx) as (n & Hn & En). assert (Nx : x <> r3zero) by (apply (nonzero_of_len x (rad / 2)); lra).
  exists n. split; [exact Hn|]. split.
  - eapply Rle_trans; [apply (len_tri n (dirn x) _)|]. pose proof (dirn_near x (c - P)%r3 rad PR ltac:(lra) Nx) as D.
    assert (Z : len (x - (c - P))%r3 / rad <= err / rad + 1.3 * eps64). { replace (err / rad + 1.3 * eps64) with ((err + 1.3 * (eps64 * rad)) / rad) by (field; lra). apply Rmult_le_compat_r; [left; apply Rinv_0_lt_compat; exact PR|exact Dx]. }
    assert (0 <= err / rad) by (apply Rmult_le_pos; [exact Pe|left; apply Rinv_0_lt_compat; exact PR]). lra.
  - pose proof (unit64_len n _ _ (dirn_unit x Nx) En). lra.
Qed.

(** the point reached: error of position + t * direction *)
Definition err64 (S h lp : R) : R := 5.5e-15 * (S * S / h) + 1.2e-16 * (lp + 2 * S).
Lemma point64 (pv dv : vec b64) (tv : b64) p d t ts S h : isv pv p -> isv dv d -> isr tv t -> Rabs (len d - 1) <= 4e-16 -> scale_ok S -> len p <= bpow radix2 100 -> Rabs ts <= 2 * S ->
  Rabs (t - ts) <= 4.2e-15 * (S * S / h) -> 4.2e-15 * (S * S / h) <= 1e-7 * S -> S <= S * S / h ->
  exists w, isv (vadd pv (vscale tv dv)) w /\ len (w - at_t p (dirn d) ts)%r3 <= err64 S h (len p).
Proof.
  intros Hp Hd Ht Ld SS Bp Bt Et K1 SK. destruct (scale_eta S SS) as (PS & T1 & T2 & Big2 & Big1 & T3). pose proof eta64_pos as T0. destruct (unitish d Ld) as [Nd Ud]. unfold err64. set (K := S * S / h) in *.
  assert (EE : 1.11e-16 < eps64 < 1.1103e-16) by (unfold eps64; lra).
  assert (CD : len (d - dirn d)%r3 <= 4e-16). { replace (d - dirn d)%r3 with (- (dirn d - d))%r3 by r3_ring. rewrite len_opp, (dirn_close d Nd). exact Ld. }
  assert (Bp2 : len p <= bpow radix2 200) by (eapply Rle_trans; [exact Bp|apply bpow_le; lia]).
  destruct (along64 pv dv tv p d t ts (dirn d) (2 * S) Hp Hd Ht Ud CD Bt ltac:(lra) Bp2 ltac:(lra)) as (w & Hw & Ew). exists w. split; [exact Hw|]. unfold at_t.
  pose proof (len_add p (ts * dirn d)%r3) as L. rewrite len_scale, (len_unit _ Ud), Rmult_1_r in L. pose proof (len_nonneg (p + ts * dirn d)%r3) as P. pose proof (len_nonneg p) as Pp.
  assert (eps64 * len (p + ts * dirn d)%r3 <= 1.1103e-16 * len (p + ts * dirn d)%r3) by (apply Rmult_le_compat_r; lra).
  assert (eps64 * S <= 1.1103e-16 * S) by (apply Rmult_le_compat_r; lra). lra.
Qed.

(** crossings of a line with a sphere, and the quantities of the quadratic equation *)
Lemma crossing_eq (c p e : R3) R t : is_unit e -> on_sphere c (Rabs R) (at_t p e t) <-> t * t - 2 * t * (e ∙ (c - p)%r3) + (c - p)%r3 ∙ (c - p)%r3 = R * R.
Proof.
  intros U. unfold on_sphere, dist3. assert (Q : len (at_t p e t - c)%r3 * len (at_t p e t - c)%r3 = t * t - 2 * t * (e ∙ (c - p)%r3) + (c - p)%r3 ∙ (c - p)%r3).
  { rewrite len_sq. replace (at_t p e t - c)%r3 with (t * e - (c - p))%r3 by (unfold at_t; r3_ring). set (q := (c - p)%r3). autorewrite with dotr. unfold is_unit in U. rewrite U, (dot_comm q e). ring. }
  rewrite <- Q. split; [intros ->; rewrite <- Rabs_mult, Rabs_pos_eq by apply Rle_0_sqr; reflexivity|intros E].
  apply Rsqr_inj; [apply len_nonneg|apply Rabs_pos|]. rewrite <- Rsqr_abs. unfold Rsqr. exact E.
Qed.
Lemma two_crossings (c p e : R3) R t0 t1 : is_unit e -> t0 < t1 -> on_sphere c (Rabs R) (at_t p e t0) -> on_sphere c (Rabs R) (at_t p e t1) ->
  let b := e ∙ (c - p)%r3 in let h := (t1 - t0) / 2 in t0 = b - h /\ t1 = b + h /\ h * h = b * b - ((c - p)%r3 ∙ (c - p)%r3 - R * R).
Proof.
  intros U L C0 C1 b h. apply (crossing_eq c p e R _ U) in C0. apply (crossing_eq c p e R _ U) in C1. fold b in C0, C1. set (q := (c - p)%r3 ∙ (c - p)%r3) in *.
  assert (Z : t0 + t1 = 2 * b). { apply Rmult_eq_reg_r with (t1 - t0); [|lra]. assert (X : t1 * t1 - 2 * t1 * b + q - (t0 * t0 - 2 * t0 * b + q) = 0) by lra. replace ((t0 + t1) * (t1 - t0)) with (t1 * t1 - 2 * t1 * b + q - (t0 * t0 - 2 * t0 * b + q) + 2 * b * (t1 - t0)) by ring. rewrite X. ring. }
  assert (E0 : t0 = b - h) by (unfold h; lra). assert (E1 : t1 = b + h) by (unfold h; lra). split; [exact E0|]. split; [exact E1|]. rewrite E1 in C1. lra.
Qed.

Lemma sphere_hit64 (s : sphere b64) (r : ray b64) c R p d S t0 t1 : isv (sp_center s) c -> isr (sp_R s) R -> isv (position r) p -> isv (direction r) d -> Rabs (len d - 1) <= 4e-16 ->
  len (c - p)%r3 <= S -> Rabs R <= S -> scale_ok S -> len p <= bpow radix2 100 ->
  t0 < t1 -> on_sphere c (Rabs R) (at_t p (dirn d) t0) -> on_sphere c (Rabs R) (at_t p (dirn d) t1) ->
  let h := (t1 - t0) / 2 in 3e-15 * (S * S) <= h * h ->
  let tau := 4.2e-15 * (S * S / h) in
  exists pt0 pt1 w0 w1, isv pt0 w0 /\ isv pt1 w1 /\ len (w0 - at_t p (dirn d) t0)%r3 <= err64 S h (len p) /\ len (w1 - at_t p (dirn d) t1)%r3 <= err64 S h (len p) /\
    (1.1e-12 + tau < t0 -> sphere_test_intersect s r = H6 true (Some pt1) (Some pt0) (Some (sphere_normal s pt1)) (Some (sphere_normal s pt0)) 2) /\
    (t0 < 9.9e-13 - tau -> 1.1e-12 + tau < t1 -> sphere_test_intersect s r = H6 true (Some pt1) None (Some (sphere_normal s pt1)) None 1) /\
    (t1 < 9.9e-13 - tau -> sphere_test_intersect s r = H6 false None None None None 0) /\
    Rabs t0 <= 2 * S /\ Rabs t1 <= 2 * S /\ 0 < h <= S /\ tau <= 1e-7 * S /\ S <= S * S / h.
Proof.
  intros Hc HR Hp Hd Ld LS RS SS Bp Lt C0 C1 h Lh tau. destruct (unitish d Ld) as [Nd Ud]. destruct (two_crossings c p (dirn d) R t0 t1 Ud Lt C0 C1) as (E0 & E1 & Eh). fold h in E0, E1, Eh.
  assert (Ph : 0 < h) by (unfold h; lra). clearbody h.
  destruct (roots64 _ _ _ _ c p d R S Hc Hp Hd HR Ld LS RS SS h Ph Eh Lh) as (x & u0 & u1 & Hx & Px & H0 & H1 & Lu & F0 & F1 & Bb & Bh & K1 & SK). fold tau in F0, F1, K1.
  rewrite <- E0 in F0. rewrite <- E1 in F1. set (b := dirn d ∙ (c - p)%r3) in *. apply Rabs_le_inv in Bb.
  assert (B0 : Rabs t0 <= 2 * S) by (apply Rabs_le; lra). assert (B1 : Rabs t1 <= 2 * S) by (apply Rabs_le; lra).
  destruct (point64 _ _ _ p d u0 t0 S h Hp Hd H0 Ld SS Bp B0 F0 K1 SK) as (w0 & Hw0 & Ew0). destruct (point64 _ _ _ p d u1 t1 S h Hp Hd H1 Ld SS Bp B1 F1 K1 SK) as (w1 & Hw1 & Ew1).
  do 2 eexists. exists w0, w1. split; [exact Hw0|]. split; [exact Hw1|]. split; [exact Ew0|]. split; [exact Ew1|].
  destruct clip_isr as (cl & Hcl & Bcl). apply Rabs_le_inv in F0, F1.
  unfold sphere_test_intersect. unfold ngt. rewrite (isr_lt _ _ _ _ zero_isr64 Hx), (isr_lt _ _ _ _ Hcl H0), (isr_lt _ _ _ _ Hcl H1), (isr_lt _ _ _ _ H0 H1). rewrite (Rlt_bool_true 0 x) by exact Px. rewrite (Rlt_bool_true u0 u1) by exact Lu.
  split; [|split; [|split; [|repeat split; auto; lra]]].
  - intros A. rewrite !Rlt_bool_true by lra. reflexivity.
  - intros A B. rewrite (Rlt_bool_false cl u0), (Rlt_bool_true cl u1) by lra. reflexivity.
  - intros A. rewrite !Rlt_bool_false by lra. reflexivity.
Qed.
Lemma sphere_miss64 (s : sphere b64) (r : ray b64) c R p d S : isv (sp_center s) c -> isr (sp_R s) R -> isv (position r) p -> isv (direction r) d -> Rabs (len d - 1) <= 4e-16 ->
  len (c - p)%r3 <= S -> Rabs R <= S -> scale_ok S ->
  (forall t, R * R + 3e-15 * (S * S) < dist3 (at_t p (dirn d) t) c * dist3 (at_t p (dirn d) t) c) -> sphere_test_intersect s r = H6 false None None None None 0.
Proof.
  intros Hc HR Hp Hd Ld LS RS SS A. destruct (unitish d Ld) as [Nd Ud]. destruct (scale_eta S SS) as (PS & _).
  destruct (disc64 _ _ _ _ c p d R S Hc Hp Hd HR Ld LS RS SS) as (v & x & _ & Hx & _ & Dx). set (b := dirn d ∙ (c - p)%r3) in *.
  specialize (A b). unfold dist3 in A. rewrite len_sq in A. replace (at_t p (dirn d) b - c)%r3 with (b * dirn d - (c - p))%r3 in A by (unfold at_t; r3_ring).
  set (q := (c - p)%r3) in *. autorewrite with dotr in A. unfold is_unit in Ud. rewrite Ud, (dot_comm q (dirn d)) in A. fold b in A. apply Rabs_le_inv in Dx.
  assert (E : eps64 * (S * S) <= 1.1103e-16 * (S * S)) by (apply Rmult_le_compat_r; [apply Rmult_le_pos; lra|unfold eps64; lra]). assert (PSS : 0 < S * S) by (apply Rmult_lt_0_compat; lra).
  assert (N : x < 0) by lra.
  unfold sphere_test_intersect. unfold ngt. rewrite (isr_lt _ _ _ _ zero_isr64 Hx), (isr_eqb _ _ _ _ Hx zero_isr64). rewrite Rlt_bool_false by lra. rewrite Req_bool_false by lra. reflexivity.
Qed.

Lemma mirrored_near n n' e : is_unit n -> is_unit n' -> is_unit e -> len (mirrored n e - mirrored n' e)%r3 <= 4 * len (n - n')%r3.
Proof.
  intros U U' Ue. replace (mirrored n e - mirrored n' e)%r3 with ((- 2 * (e ∙ (n - n')%r3)) * n + (- 2 * (e ∙ n')) * (n - n'))%r3.
  2: { unfold mirrored. replace (e ∙ (n - n')%r3) with (e ∙ n - e ∙ n') by (autorewrite with dotr; ring). generalize (e ∙ n) (e ∙ n'). intros x y. r3_ring. }
  eapply Rle_trans; [apply len_add|]. rewrite !len_scale, (len_unit _ U), !Rabs_mult. replace (Rabs (- 2)) with 2 by (rewrite Rabs_left; lra).
  pose proof (cauchy e (n - n')%r3) as C1. pose proof (cauchy e n') as C2. rewrite (len_unit _ Ue) in C1, C2. rewrite (len_unit _ U') in C2. pose proof (len_nonneg (n - n')%r3) as P.
  assert (Rabs (e ∙ n') * len (n - n')%r3 <= 1 * len (n - n')%r3) by (apply Rmult_le_compat_r; lra). lra.
Qed.
Lemma isv_opp v a : isv v a -> isv (vopp v) (- a)%r3.
Proof. intros (X & Y & Z). split; [exact (isr_opp _ _ X)|split; [exact (isr_opp _ _ Y)|exact (isr_opp _ _ Z)]]. Qed.

(** the computed distance of a reported point *)
Lemma reach64 (pv pt : vec b64) p e w t S er : isv pv p -> isv pt w -> is_unit e -> 0 < t <= 2 * S -> 1e-13 <= S <= bpow radix2 100 -> len (w - at_t p e t)%r3 <= er -> 5.5e-15 * S <= er <= S ->
  exists dl, isr (distance_between pv pt) dl /\ Rabs (dl - t) <= 1.25 * er.
Proof.
  intros Hp Hw Ue Bt BS Ew Be. assert (Lp : len (p - at_t p e t)%r3 = t). { replace (p - at_t p e t)%r3 with (- t * e)%r3 by (unfold at_t; r3_ring). rewrite len_scale, (len_unit _ Ue), Rmult_1_r, Rabs_Ropp, Rabs_pos_eq; lra. }
  assert (Lw : Rabs (len (p - w)%r3 - t) <= er). { rewrite <- Lp. eapply Rle_trans; [apply len_close|]. replace ((p - w) - (p - at_t p e t))%r3 with (- (w - at_t p e t))%r3 by r3_ring. rewrite len_opp. exact Ew. }
  apply Rabs_le_inv in Lw. assert (Big : 4 * bpow radix2 100 <= bpow radix2 490). { change 4 with (bpow radix2 2). rewrite <- bpow_plus. apply bpow_le. lia. }
  destruct (distance_abs64 pv pt p w Hp Hw ltac:(lra)) as (dl & Hdl & Ed). exists dl. split; [exact Hdl|]. apply Rabs_le_inv in Ed. apply Rabs_le. lra.
Qed.

Lemma ball_mirror64 (m : mirror b64) (s : sphere b64) (r : ray b64) c R p d S t0 t1 : mi_shape m = "circular_convex_spherical"%string -> mi_type m = "normal"%string -> mi_surfaces m = [SSphere s] ->
  isv (sp_center s) c -> isr (sp_R s) R -> isv (position r) p -> isv (direction r) d -> Rabs (len d - 1) <= 4e-16 ->
  len (c - p)%r3 <= S -> Rabs R <= S -> scale_ok S -> len p <= bpow radix2 100 ->
  t0 < t1 -> on_sphere c (Rabs R) (at_t p (dirn d) t0) -> on_sphere c (Rabs R) (at_t p (dirn d) t1) ->
  let h := (t1 - t0) / 2 in let er := err64 S h (len p) in let P := at_t p (dirn d) t0 in
  1000 * er <= h -> 1.1e-12 + er < t0 ->
  exists pt n w, mirror_test_intersect m r = Ok (H4 true (Some pt) (Some n) (SfoInt 2)) /\ isv pt w /\ len (w - P)%r3 <= er /\
    exists r' a g, mirror_do_intersect m (fly r (distance_between (position r) pt)) (Some n) = Ok r' /\ isv (position r') a /\ isv (direction r') g /\ Rabs (len g - 1) <= 4e-16 /\
      len (a - P)%r3 <= 2.5 * er /\ len (g - mirrored (dirn (P - c)) (dirn d))%r3 <= 8.1 * (er / Rabs R) + 2e-14.
Proof.
  intros Es Et Ss Hc HR Hp Hd Ld LS RS SS Bp Lt C0 C1 h er P Eh L0. destruct (unitish d Ld) as [Nd Ud]. pose proof (scale_eta S SS) as (PS & _). pose proof (len_nonneg p) as Pp.
  assert (Ph : 0 < h) by (unfold h; lra).
  assert (Lh : 3e-15 * (S * S) <= h * h).
  { assert (X : 5.5e-12 * (S * S / h) <= h) by (unfold er, err64 in Eh; lra). apply Rmult_le_compat_r with (r := h) in X; [|lra]. replace (5.5e-12 * (S * S / h) * h) with (5.5e-12 * (S * S)) in X by (field; lra). assert (0 < S * S) by (apply Rmult_lt_0_compat; lra). lra. }
  destruct (two_crossings c p (dirn d) R t0 t1 Ud Lt C0 C1) as (E0 & E1 & Eqh). fold h in E0, E1, Eqh.
  destruct (sphere_hit64 s r c R p d S t0 t1 Hc HR Hp Hd Ld LS RS SS Bp Lt C0 C1 Lh) as (pt0 & pt1 & w0 & w1 & Hw0 & Hw1 & Ew0 & Ew1 & H2 & _ & _ & B0 & B1 & Bh & K1 & SK). fold h in H2, Bh, K1, SK, Ew0, Ew1. fold er in Ew0, Ew1. fold P in Ew0.
  destruct (scale_eta S SS) as (_ & T1 & T2 & Big2 & Big1 & T3). pose proof eta64_pos as T0.
  assert (Er : er = 5.5e-15 * (S * S / h) + 1.2e-16 * (len p + 2 * S)) by reflexivity. assert (Eh1 : t1 = t0 + 2 * h) by (unfold h; lra).
  clearbody h er. set (K := S * S / h) in *. assert (Eer : 5.5e-15 * S <= er <= S) by lra. apply Rabs_le_inv in B0, B1.
  specialize (H2 ltac:(lra)). assert (S13 : 1e-13 <= S) by lra. destruct SS as [SS1 SS2].
  destruct (reach64 _ _ p (dirn d) w0 t0 S er Hp Hw0 Ud ltac:(lra) ltac:(lra) Ew0 Eer) as (d0 & Hd0 & Ed0).
  destruct (reach64 _ _ p (dirn d) w1 t1 S er Hp Hw1 Ud ltac:(lra) ltac:(lra) Ew1 Eer) as (d1 & Hd1 & Ed1).
  assert (Ed0' := Ed0). apply Rabs_le_inv in Ed0', Ed1. assert (PK : S <= K) by exact SK.
  set (rad := Rabs R) in *. assert (Hrad : h <= rad). { apply sq_le_inv; [apply Rabs_pos|]. unfold rad. rewrite <- Rabs_mult, (Rabs_pos_eq (R * R)) by apply Rle_0_sqr. rewrite Eqh. pose proof (cauchy_schwarz_sq (dirn d) (c - p)%r3) as X. unfold is_unit in Ud. rewrite Ud in X. lra. }
  assert (LcP : len (c - P)%r3 = rad). { rewrite <- C0. unfold dist3. apply len_sub_comm. }
  assert (R13 : 2e-27 <= rad) by lra. assert (B100 : bpow radix2 (-100) <= 1e-30). { pose proof (eq_refl : (2 ^ 100)%Z = 1267650600228229401496703205376%Z) as E2. change (bpow radix2 (-100)) with (/ IZR (2 ^ 100)). rewrite E2. lra. }
  destruct (normal64 s pt0 c w0 P rad er Hc Hw0 Ew0 LcP ltac:(lra) ltac:(lra)) as (nn & Hn & En & Ln).
  exists pt0, (vopp (sphere_normal s pt0)), w0. split.
  { unfold mirror_test_intersect. rewrite Es, Ss. cbn [String.eqb Ascii.eqb Bool.eqb orb mirror_ball_loop bound bind]. rewrite H2. unfold ball_update. cbn [h6_flag h6_p1 h6_p2 h6_n1 h6_n2 h6_count need bind bs_min bs_sfo bs_hit bs_pt bs_normal].
    rewrite (below_inf _ _ Hd1). cbn [bind bs_min bs_sfo]. rewrite (isr_lt _ _ _ _ Hd0 Hd1), Rlt_bool_true by lra. reflexivity. }
  split; [exact Hw0|]. split; [exact Ew0|].
  (* the interaction *)
  set (q := fly r (distance_between (position r) pt0)).
  assert (CD : len (d - dirn d)%r3 <= 4e-16). { rewrite len_sub_comm, (dirn_close d Nd). exact Ld. }
  assert (Bp2 : len p <= bpow radix2 200) by (eapply Rle_trans; [exact Bp|apply bpow_le; lia]).
  destruct (along64 (position r) (direction r) _ p d d0 t0 (dirn d) (2 * S) Hp Hd Hd0 Ud CD ltac:(apply Rabs_le; lra) ltac:(lra) Bp2 ltac:(lra)) as (a & Ha & Ea).
  assert (Mn : moderate (- nn)%r3). { apply mid_moderate. rewrite len_opp. apply Rabs_le_inv in Ln. lra. } assert (Md : moderate d) by (apply mid_moderate; apply Rabs_le_inv in Ld; lra).
  destruct (reflect64 (direction r) (vopp (sphere_normal s pt0)) d (- nn)%r3 Hd (isv_opp _ _ Hn) Md Mn) as (g & Hg & Lg & Eg).
  unfold mirror_do_intersect. rewrite Et. cbn [String.eqb Ascii.eqb Bool.eqb need bind].
  exists (reflect_specular q (vopp (sphere_normal s pt0))), a, g. split; [reflexivity|]. split; [exact Ha|]. split; [exact Hg|].
  assert (EE : 1.11e-16 < eps64 < 1.1103e-16) by (unfold eps64; lra). split; [lra|]. split.
  - unfold P, at_t. pose proof (len_add p (t0 * dirn d)%r3) as L. rewrite len_scale, (len_unit _ Ud), Rmult_1_r, Rabs_pos_eq in L by lra. pose proof (len_nonneg (p + t0 * dirn d)%r3) as Pq.
    assert (eps64 * len (p + t0 * dirn d)%r3 <= 1.1103e-16 * len (p + t0 * dirn d)%r3) by (apply Rmult_le_compat_r; lra).
    assert (eps64 * S <= 1.1103e-16 * S) by (apply Rmult_le_compat_r; lra). lra.
  - assert (Nn : (- nn)%r3 <> r3zero) by (pose proof (Rabs_le_inv _ _ Ln); apply (nonzero_of_len _ (1/2)); [lra|rewrite len_opp; lra]). pose proof (dirn_unit _ Nn) as Un.
    assert (NP : (P - c)%r3 <> r3zero). { apply (nonzero_of_len _ rad); [lra|]. rewrite len_sub_comm, LcP. lra. } assert (NP' : (c - P)%r3 <> r3zero) by (apply (nonzero_of_len _ rad); [lra|rewrite LcP; lra]).
    assert (Opp : dirn (P - c) = (- dirn (c - P))%r3). { assert (A : (P - c)%r3 = (- (c - P))%r3) by r3_ring. unfold dirn. rewrite A, len_opp. set (z := (c - P)%r3). r3_ring. }
    pose proof (dirn_unit _ NP) as UP. eapply Rle_trans; [apply (len_tri g (mirrored (dirn (- nn)%r3) (dirn d)) _)|]. pose proof (mirrored_near _ _ _ Un UP Ud) as M.
    assert (D1 : len (dirn (- nn) - dirn (P - c))%r3 <= 4e-16 + (2.01 * (er / rad) + 8e-16)).
    { eapply Rle_trans; [apply (len_tri _ (- nn)%r3 _)|]. rewrite (dirn_close _ Nn), len_opp. apply Rplus_le_compat; [exact Ln|]. rewrite Opp. replace (- nn - - dirn (c - P))%r3 with (- (nn - dirn (c - P)))%r3 by r3_ring. rewrite len_opp. exact En. }
    assert (0 <= er / rad) by (apply Rmult_le_pos; [lra|left; apply Rinv_0_lt_compat; lra]). lra.
Qed.

(** leaving the ball: the query after the reflection finds no point *)
Lemma ball_leave64 (m : mirror b64) (s : sphere b64) (r : ray b64) c R P G a g h er : mi_shape m = "circular_convex_spherical"%string -> mi_surfaces m = [SSphere s] ->
  isv (sp_center s) c -> isr (sp_R s) R -> isv (position r) a -> isv (direction r) g -> Rabs (len g - 1) <= 4e-16 -> is_unit G ->
  len (c - P)%r3 = Rabs R -> G ∙ (c - P)%r3 = - h -> 0 < h -> len (a - P)%r3 <= 2.5 * er -> len (g - G)%r3 <= 8.1 * (er / Rabs R) + 2e-14 ->
  scale_ok (1.01 * Rabs R) -> len a <= bpow radix2 100 -> 5.5e-15 * (Rabs R * Rabs R / h) <= er -> 1000 * (er * Rabs R) <= h * h -> 7 * (er * Rabs R / h) <= 9.8e-13 ->
  mirror_test_intersect m r = Ok (H4 false None None (SfoInt 0)).
Proof.
  intros Es Ss Hc HR Ha Hg Lg UG LcP GP Ph Ea Eg SS Ba Ler Ler2 Lclip. set (rad := Rabs R) in *. assert (Prad : 0 <= rad) by apply Rabs_pos.
  assert (Hr : h <= rad). { pose proof (cauchy G (c - P)%r3) as C. rewrite GP, Rabs_Ropp, Rabs_pos_eq, (len_unit _ UG), LcP in C by lra. lra. } assert (P0 : 0 < rad) by lra.
  assert (PR2 : 0 < rad * rad) by (apply Rmult_lt_0_compat; lra).
  assert (KR : rad <= rad * rad / h). { apply Rmult_le_reg_r with h; [exact Ph|]. replace (rad * rad / h * h) with (rad * rad) by (field; lra). apply Rmult_le_compat_l; lra. }
  assert (Pe : 0 < er) by lra. assert (Ehl : 1000 * er <= h).
  { apply Rmult_le_reg_r with rad; [exact P0|]. apply Rle_trans with (h * h); [lra|]. apply Rmult_le_compat_l; lra. }
  destruct (unitish g Lg) as [Ng Ug]. set (e := dirn g) in *.
  assert (Ce : len (e - G)%r3 <= 8.1 * (er / rad) + 2.04e-14). { eapply Rle_trans; [apply (len_tri e g G)|]. unfold e. rewrite (dirn_close g Ng). lra. }
  assert (Er0 : 0 < er / rad) by (apply Rmult_lt_0_compat; [exact Pe|apply Rinv_0_lt_compat; exact P0]).
  assert (Dca : len ((c - a) - (c - P))%r3 <= 2.5 * er). { replace ((c - a) - (c - P))%r3 with (- (a - P))%r3 by r3_ring. rewrite len_opp. exact Ea. }
  pose proof (len_close (c - a)%r3 (c - P)%r3) as Lca. rewrite LcP in Lca. assert (Lca' := Rle_trans _ _ _ Lca Dca). apply Rabs_le_inv in Lca'.
  assert (Lca2 : len (c - a)%r3 <= 1.01 * rad) by lra.
  set (b := e ∙ (c - a)%r3).
  assert (Db : Rabs (b + h) <= 15 * er).
  { replace (b + h) with ((e - G)%r3 ∙ (c - a)%r3 + G ∙ ((c - a) - (c - P))%r3). 2: { replace h with (- (G ∙ (c - P)%r3)) by (rewrite GP; ring). unfold b. set (x := (c - a)%r3). set (y := (c - P)%r3). autorewrite with dotr. ring. }
    eapply Rle_trans; [apply Rabs_triang|]. pose proof (cauchy (e - G)%r3 (c - a)%r3) as C1. pose proof (cauchy G ((c - a) - (c - P))%r3) as C2. rewrite (len_unit _ UG) in C2.
    assert (len (e - G)%r3 * len (c - a)%r3 <= (8.1 * (er / rad) + 2.04e-14) * (1.01 * rad)) by (apply Rmult_le_compat; try apply len_nonneg; lra).
    replace ((8.1 * (er / rad) + 2.04e-14) * (1.01 * rad)) with (8.1 * 1.01 * er + 2.04e-14 * 1.01 * rad) in H by (field; lra). lra. }
  apply Rabs_le_inv in Db. assert (Bb : b < 0) by lra.
  set (k := (c - a)%r3 ∙ (c - a)%r3 - R * R). assert (RR : R * R = rad * rad) by (unfold rad; rewrite <- Rabs_mult, Rabs_pos_eq by apply Rle_0_sqr; reflexivity).
  assert (Dk : Rabs k <= 5.1 * (er * rad)).
  { unfold k. rewrite <- len_sq, RR. replace (len (c - a)%r3 * len (c - a)%r3 - rad * rad) with ((len (c - a)%r3 - rad) * (len (c - a)%r3 + rad)) by ring. pose proof (len_nonneg (c - a)%r3).
    eapply Rle_trans; [apply (abs_mul_le _ _ (2.5 * er) (2.01 * rad)); [apply Rabs_le; lra|rewrite Rabs_pos_eq; lra]|]. replace (2.5 * er * (2.01 * rad)) with (2.5 * 2.01 * (er * rad)) by ring. assert (0 < er * rad) by (apply Rmult_lt_0_compat; lra). lra. }
  apply Rabs_le_inv in Dk. assert (Per : 0 < er * rad) by (apply Rmult_lt_0_compat; lra).
  assert (Hb2 : 0.97 * (h * h) <= b * b). { replace (b * b) with ((- b) * (- b)) by ring. apply Rle_trans with ((0.985 * h) * (0.985 * h)); [|apply Rmult_le_compat; lra]. replace (0.985 * h * (0.985 * h)) with (0.985 * 0.985 * (h * h)) by ring. assert (0 < h * h) by (apply Rmult_lt_0_compat; lra). lra. }
  assert (Phh : 0 < h * h) by (apply Rmult_lt_0_compat; lra).
  assert (Dsc : 0.9 * (h * h) <= b * b - k) by lra. set (h' := sqrt (b * b - k)). assert (Eh' : h' * h' = b * b - k) by (apply sqrt_sqrt; lra). assert (Ph' : 0 <= h') by apply sqrt_pos.
  assert (Lh' : 0.9 * h <= h'). { apply sq_le_inv; [exact Ph'|]. rewrite Eh'. replace (0.9 * h * (0.9 * h)) with (0.81 * (h * h)) by lra. lra. }
  assert (On : forall t, t * t - 2 * t * b + k = 0 -> on_sphere c (Rabs R) (at_t a e t)) by (intros t Z; apply (crossing_eq c a e R t Ug); fold b; unfold k in Z; lra).
  assert (C0 : on_sphere c (Rabs R) (at_t a e (b - h'))). { apply On. replace ((b - h') * (b - h') - 2 * (b - h') * b + k) with (h' * h' - (b * b - k)) by ring. rewrite Eh'. ring. }
  assert (C1 : on_sphere c (Rabs R) (at_t a e (b + h'))). { apply On. replace ((b + h') * (b + h') - 2 * (b + h') * b + k) with (h' * h' - (b * b - k)) by ring. rewrite Eh'. ring. }
  assert (S15 : 3e-15 * (1.01 * rad * (1.01 * rad)) <= (b + h' - (b - h')) / 2 * ((b + h' - (b - h')) / 2)).
  { replace ((b + h' - (b - h')) / 2) with h' by field. rewrite Eh'. assert (5.5e-15 * (rad * rad) <= er * rad). { replace (5.5e-15 * (rad * rad)) with (5.5e-15 * rad * rad) by ring. apply Rmult_le_compat_r; lra. } lra. }
  destruct (sphere_hit64 s r c R a g (1.01 * rad) (b - h') (b + h') Hc HR Ha Hg Lg Lca2 ltac:(fold rad; lra) SS Ba ltac:(lra) C0 C1 S15) as (pt0 & pt1 & w0 & w1 & _ & _ & _ & _ & _ & _ & Miss & _).
  replace ((b + h' - (b - h')) / 2) with h' in Miss by field.
  assert (Tau : 4.2e-15 * (1.01 * rad * (1.01 * rad) / h') <= er).
  { apply Rle_trans with (4.2e-15 * (1.0201 * (rad * rad) / (0.9 * h))); [apply Rmult_le_compat_l; [lra|]; replace (1.01 * rad * (1.01 * rad)) with (1.0201 * (rad * rad)) by lra; apply Rmult_le_compat_l; [lra|]; apply Rinv_le_contravar; lra|].
    eapply Rle_trans; [|exact Ler]. replace (4.2e-15 * (1.0201 * (rad * rad) / (0.9 * h))) with (4.2e-15 * 1.0201 / 0.9 * (rad * rad / h)) by (field; lra). assert (0 < rad * rad / h) by lra. lra. }
  assert (Root : b + h' <= 5.7 * (er * rad / h)).
  { destruct (Rle_or_lt (b + h') 0) as [L|L]; [apply Rle_trans with (1 := L); apply Rmult_le_pos; [lra|]; apply Rmult_le_pos; [lra|left; apply Rinv_0_lt_compat; exact Ph]|].
    apply Rmult_le_reg_r with (0.9 * h); [lra|]. replace (5.7 * (er * rad / h) * (0.9 * h)) with (5.7 * 0.9 * (er * rad)) by (field; lra).
    apply Rle_trans with ((b + h') * (h' - b)); [apply Rmult_le_compat_l; lra|]. replace ((b + h') * (h' - b)) with (h' * h' - b * b) by ring. rewrite Eh'. lra. }
  assert (E1 : er <= er * rad / h). { apply Rmult_le_reg_r with h; [exact Ph|]. replace (er * rad / h * h) with (er * rad) by (field; lra). apply Rmult_le_compat_l; lra. }
  unfold mirror_test_intersect. rewrite Es, Ss. cbn [String.eqb Ascii.eqb Bool.eqb orb mirror_ball_loop bound bind]. rewrite Miss by lra. reflexivity.
Qed.

(** one reflection at a convex mirror is not followed by another hit on it *)
Lemma ball_rehit64 (m : mirror b64) (s : sphere b64) (r : ray b64) c R p d S t0 t1 : mi_shape m = "circular_convex_spherical"%string -> mi_type m = "normal"%string -> mi_surfaces m = [SSphere s] ->
  isv (sp_center s) c -> isr (sp_R s) R -> isv (position r) p -> isv (direction r) d -> Rabs (len d - 1) <= 4e-16 ->
  len (c - p)%r3 <= S -> Rabs R <= S ->
  t0 < t1 -> on_sphere c (Rabs R) (at_t p (dirn d) t0) -> on_sphere c (Rabs R) (at_t p (dirn d) t1) ->
  let h := (t1 - t0) / 2 in let er := err64 S h (len p) in
  1000 * (er * Rabs R) <= h * h -> 7 * (er * Rabs R / h) <= 9.8e-13 -> 1.1e-12 + er < t0 ->
  exists pt n r', mirror_test_intersect m r = Ok (H4 true (Some pt) (Some n) (SfoInt 2)) /\
    mirror_do_intersect m (fly r (distance_between (position r) pt)) (Some n) = Ok r' /\
    mirror_test_intersect m r' = Ok (H4 false None None (SfoInt 0)).
Proof.
  intros Es Et Ss Hc HR Hp Hd Ld LS RS Lt C0 C1 h er Ler2 Lclip L0. destruct (unitish d Ld) as [Nd Ud].
  destruct (two_crossings c p (dirn d) R t0 t1 Ud Lt C0 C1) as (E0 & E1 & Eqh). fold h in E0, E1, Eqh. assert (Ph : 0 < h) by (unfold h; lra). pose proof (len_nonneg p) as Pp.
  set (rad := Rabs R) in *. assert (Hrad : h <= rad). { apply sq_le_inv; [apply Rabs_pos|]. unfold rad. rewrite <- Rabs_mult, (Rabs_pos_eq (R * R)) by apply Rle_0_sqr. rewrite Eqh. pose proof (cauchy_schwarz_sq (dirn d) (c - p)%r3) as X. unfold is_unit in Ud. rewrite Ud in X. lra. }
  assert (PS : 0 < S) by lra. assert (PSS : 0 < S * S) by (apply Rmult_lt_0_compat; lra).
  assert (SK : S <= S * S / h). { apply Rmult_le_reg_r with h; [exact Ph|]. replace (S * S / h * h) with (S * S) by (field; lra). apply Rmult_le_compat_l; lra. }
  assert (Er : er = 5.5e-15 * (S * S / h) + 1.2e-16 * (len p + 2 * S)) by reflexivity.
  assert (Pe : 0 < er) by lra. assert (Ehl : 1000 * er <= h). { apply Rmult_le_reg_r with rad; [lra|]. apply Rle_trans with (h * h); [lra|]. apply Rmult_le_compat_l; lra. }
  assert (E7 : er <= er * rad / h). { apply Rmult_le_reg_r with h; [exact Ph|]. replace (er * rad / h * h) with (er * rad) by (field; lra). apply Rmult_le_compat_l; lra. }
  assert (S1 : S <= 26) by lra. assert (P1 : len p <= 1200) by lra.
  assert (Bb : Rabs (dirn d ∙ (c - p)%r3) <= S). { eapply Rle_trans; [apply cauchy|]. rewrite (len_unit _ Ud). lra. } apply Rabs_le_inv in Bb.
  assert (S2 : 1e-12 <= S) by lra.
  assert (B100 : bpow radix2 (-100) <= 1e-30). { pose proof (eq_refl : (2 ^ 100)%Z = 1267650600228229401496703205376%Z) as E2. change (bpow radix2 (-100)) with (/ IZR (2 ^ 100)). rewrite E2. lra. }
  assert (Bg : 1e6 <= bpow radix2 100) by (apply Rle_trans with (bpow radix2 30); [change (bpow radix2 30) with 1073741824; lra|apply bpow_le; lia]).
  assert (SS : scale_ok S) by (split; lra).
  destruct (ball_mirror64 m s r c R p d S t0 t1 Es Et Ss Hc HR Hp Hd Ld LS RS SS ltac:(lra) Lt C0 C1 Ehl L0) as (pt & n & w & T & Hw & Ew & r' & a & g & Do & Ha & Hg & Lg & Ea & Eg). fold h er in Ew, Ea, Eg. fold rad in Eg.
  exists pt, n, r'. split; [exact T|]. split; [exact Do|]. set (P := at_t p (dirn d) t0) in *.
  assert (LcP : len (c - P)%r3 = rad). { rewrite <- C0. unfold dist3. apply len_sub_comm. }
  assert (LPc : len (P - c)%r3 = rad) by exact C0. assert (NP : (P - c)%r3 <> r3zero) by (apply (nonzero_of_len _ rad); lra). pose proof (dirn_unit _ NP) as UN.
  assert (Dh : dirn d ∙ (c - P)%r3 = h). { replace (c - P)%r3 with ((c - p) - t0 * dirn d)%r3 by (unfold P, at_t; r3_ring). set (q := (c - p)%r3) in *. autorewrite with dotr. unfold is_unit in Ud. rewrite Ud. lra. }
  assert (LP : len P <= len p + 2 * S). { unfold P, at_t. eapply Rle_trans; [apply len_add|]. rewrite len_scale, (len_unit _ Ud), Rabs_pos_eq by lra. lra. }
  pose proof (len_add (a - P)%r3 P) as La. replace ((a - P) + P)%r3 with a in La by r3_ring.
  assert (R2 : rad * rad <= S * S) by (apply Rmult_le_compat; lra).
  apply (ball_leave64 m s r' c R P (mirrored (dirn (P - c)) (dirn d)) a g h er Es Ss Hc HR Ha Hg Lg); try fold rad; try assumption.
  - apply mirrored_unit; assumption.
  - pose proof (dirn_scale _ NP) as Sc. rewrite LPc in Sc. set (N := dirn (P - c)) in *. assert (cP : (c - P)%r3 = (- rad * N)%r3) by (replace (c - P)%r3 with (- (P - c))%r3 by r3_ring; rewrite Sc; r3_ring).
    rewrite cP in Dh |- *. unfold mirrored. autorewrite with dotr in Dh |- *. unfold is_unit in UN. rewrite UN. lra.
  - split; lra.
  - lra.
  - rewrite Er. assert (rad * rad / h <= S * S / h) by (apply Rmult_le_compat_r; [left; apply Rinv_0_lt_compat; exact Ph|exact R2]). lra.
Qed.
