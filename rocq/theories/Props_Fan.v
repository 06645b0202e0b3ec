(** C110: a beam of parallel light through a lens made of two balls, and the lens scripts from the first line to the last ray. *)
From Coq Require Import Reals ZArith Lra Lia Psatz String List Bool.
From Verif Require Import PyErr Num Vec Shapes Csg Optics Spec XReal RVec VecProofs AngleProofs FlatProofs SphereProofs CylProofs ShapeExtra
  TreeProofs SolidProofs CsgProofs RayProofs RunGen NoFuel RunXr OpticHits StateXr OrderProofs FlatOptic Props_Ray Props_Loop Props_Run Props_Rehit SceneProofs Props_Scene
  Props_Compound Props_Ball Props_Singlet Props_Focus Props_BallFocus Props_Lensmaker.
Import ListNotations.
Local Open Scope R_scope.

Lemma lt_sq x y : 0 <= y -> x * x < y * y -> x < y. Proof. intros. nra. Qed.
Lemma le_sq x y : 0 <= y -> x * x <= y * y -> x <= y. Proof. intros. nra. Qed.
Lemma sq_lt x y : - y < x < y -> x * x < y * y. Proof. intros. nra. Qed.
Lemma sq_le x y : - y <= x <= y -> x * x <= y * y. Proof. intros. nra. Qed.
Lemma sq_pos x : 0 <= x * x. Proof. nra. Qed.
Section Wide.
Variables (O d v : R3) (zA RA zB RB ix zp mx h : R).
Hypotheses (Ud : is_unit d) (Vd : v ∙ d = 0) (Hv : v ∙ v = h * h) (PA : 0 < RA) (PB : 0 < RB) (Hix : 1 < ix) (H0 : 0 < h) (HA : h < RA) (HB : h < RB)
  (C1 : zB <= zA - RA) (C2 : zB + RB <= zA) (TK : zA - sqrt (RA * RA - h * h) + 1e-8 < zB + sqrt (RB * RB - h * h)) (TIR : h * (1 / RA + 1 / RB) * ix < 1)
  (ST : zp + 1e-12 < zA - RA) (EN : zA - RA - zp + ix * (zB + RB - (zA - RA)) <= mx).
Let a := fa RA h. Let b := fb RA ix h. Let de := fde RA ix h. Let g := fg RA ix h. Let k := de / RA. Let xi := fxi zA RA zB h. Let be := fbe zA RA zB ix h. Let ga := fga zA RA zB RB h.
Let S := fS zA RA zB RB ix h. Let t := ft zA RA zB RB ix h. Let y := fy zA RA zB RB ix h. Let x2 := fx2 zA RA zB RB ix h. Let co := fco zA RA zB RB ix h. Let ce := fce zA RA zB RB ix h. Let ka := fka zA RA zB RB ix h.
Let sA := sqrt (RA * RA - h * h). Let sB := sqrt (RB * RB - h * h).
Let Eg : g = / ix + a * de. Proof. reflexivity. Qed.
Let Ede : de = b - a / ix. Proof. reflexivity. Qed.
Let Exi : xi = zA - RA * a - zB. Proof. reflexivity. Qed.
Let Ebe : be = g * xi - k * (h * h). Proof. reflexivity. Qed.
Let Ega : ga = h * h + xi * xi - RB * RB. Proof. reflexivity. Qed.
Let Et : t = S - be. Proof. reflexivity. Qed.
Let Ey : y = 1 - t * k. Proof. reflexivity. Qed.
Let Ex2 : x2 = xi + t * g. Proof. reflexivity. Qed.
Let Eco : co = S / RB. Proof. reflexivity. Qed.
Let Eka : ka = ce - ix * co. Proof. reflexivity. Qed.
Let ESd : S = sqrt (be * be - ga). Proof. reflexivity. Qed.
Let Ece : ce = sqrt (1 - ix * ix * (1 - co * co)). Proof. reflexivity. Qed.
Let I1 : 0 < / ix < 1. Proof. split; [apply Rinv_0_lt_compat; lra|]. rewrite <- Rinv_1. apply Rinv_lt_contravar; lra. Qed.
Let hh_pos : 0 < h * h. Proof. apply Rmult_lt_0_compat; exact H0. Qed.
Let i2 : 1 < ix * ix. Proof. clear - Hix. nra. Qed.
Let sA_sq : sA * sA = RA * RA - h * h. Proof. apply sqrt_sqrt. nra. Qed.
Let sB_sq : sB * sB = RB * RB - h * h. Proof. apply sqrt_sqrt. nra. Qed.
Let sA_pos : 0 < sA. Proof. apply sqrt_lt_R0. nra. Qed.
Let sB_pos : 0 < sB. Proof. apply sqrt_lt_R0. nra. Qed.
Let sA_a : RA * a = sA.
Proof.
  destruct (a_facts RA PA h H0 HA) as [Ea [A0 A1]]. fold a in Ea, A0, A1. assert (K : (RA * a) * (RA * a) = sA * sA). { rewrite sA_sq. replace (RA * a * (RA * a)) with (RA * RA * (1 - (1 - a * a))) by ring. rewrite <- Ea. field. lra. }
  assert (0 < RA * a) by (apply Rmult_lt_0_compat; assumption). pose proof sA_pos. apply Rle_antisym; apply le_sq; lra.
Qed.
Let ab : 0 < a < 1 /\ 0 < b < 1 /\ a < b.
Proof.
  pose proof (eta_bounds RA PA h H0 HA) as EB. destruct (a_facts RA PA h H0 HA) as [Ea [A0 A1]], (b_facts RA ix PA Hix h H0 HA) as [Eb [B0 B1]]. fold a in Ea, A0, A1. fold b in Eb, B0, B1. set (eta := h * h / (RA * RA)) in *. clearbody eta.
  assert (Q : 0 < eta / (ix * ix) < eta). { split; [apply Rdiv_lt_0_compat; nra|]. apply Rmult_lt_reg_r with (ix * ix); [nra|]. unfold Rdiv. rewrite Rmult_assoc, Rinv_l by nra. assert (1 < ix * ix) by nra. apply Rmult_lt_compat_l; lra. }
  set (e2 := eta / (ix * ix)) in *. clearbody e2 a b. repeat split; nra.
Qed.
Let de_b : 0 < de < 1.
Proof. destruct ab as ([A0 A1] & [B0 B1] & AB). rewrite Ede. assert (X : 0 < a * / ix) by (apply Rmult_lt_0_compat; lra). assert (X' : a * / ix < a * 1) by (apply Rmult_lt_compat_l; lra). unfold Rdiv. split; lra. Qed.
Let k_pos : 0 < k. Proof. apply Rdiv_lt_0_compat; lra. Qed.
Let g_k : g * g + k * k * (h * h) = 1.
Proof.
  pose proof (o_unit d RA ix Ud PA Hix v h Vd Hv H0 HA) as U. unfold is_unit in U. autorewrite with dotr in U. assert (D1 : d ∙ d = 1) by exact Ud. rewrite (dot_comm d v), Vd, D1, Hv in U. fold g de in U. fold k in U. lra.
Qed.
Let g_b : / ix < g < 1.
Proof. destruct ab as ([A0 A1] & _). pose proof de_b. assert (0 < a * de) by (apply Rmult_lt_0_compat; lra). split; [rewrite Eg; lra|]. assert (0 < k * k * (h * h)) by (apply Rmult_lt_0_compat; apply Rmult_lt_0_compat; exact k_pos || exact H0). pose proof g_k. apply lt_sq; lra. Qed.
Let g_ad : a * de < g. Proof. rewrite Eg. lra. Qed.
Let xi_b : 0 < xi /\ xi + 1e-8 < sB /\ 1e-8 < sA.
Proof.
  fold sA sB in TK. pose proof hh_pos. assert (sA < RA) by (apply lt_sq; [lra|rewrite sA_sq; lra]). assert (sB < RB) by (apply lt_sq; [lra|rewrite sB_sq; lra]). rewrite Exi, sA_a. repeat split; lra.
Qed.
Let ga_eq : - ga = (sB - xi) * (sB + xi).
Proof. rewrite Ega. replace ((sB - xi) * (sB + xi)) with (sB * sB - xi * xi) by ring. rewrite sB_sq. ring. Qed.
Let ga_neg : 1e-8 * (sB + xi) < - ga.
Proof. rewrite ga_eq. destruct xi_b as (X0 & X1 & _). apply Rmult_lt_compat_r; lra. Qed.
Let dis : 0 < be * be - ga.
Proof. pose proof ga_neg. destruct xi_b as (X0 & _). pose proof sB_pos. assert (0 < 1e-8 * (sB + xi)) by (apply Rmult_lt_0_compat; lra). pose proof (sq_pos be). lra. Qed.
Let S_sq : S * S = be * be - ga. Proof. apply sqrt_sqrt. lra. Qed.
Let S_pos : 0 < S. Proof. apply sqrt_lt_R0. exact dis. Qed.
Let be_le : be <= xi.
Proof. rewrite Ebe. destruct xi_b as (X0 & _). assert (0 < k * (h * h)) by (pose proof k_pos; apply Rmult_lt_0_compat; [lra|exact hh_pos]). assert (g * xi < 1 * xi) by (apply Rmult_lt_compat_r; lra). lra. Qed.
Let t_8 : 1e-8 < t.
Proof.
  pose proof ga_neg as G. destruct xi_b as (X0 & X1 & _). pose proof be_le. pose proof S_pos. pose proof S_sq as Q. pose proof ga_eq as GE. rewrite Et. destruct (Rle_dec 0 be) as [B|B].
  - assert (BX : be * be <= xi * xi) by (apply sq_le; lra). assert (SB : S <= sB) by (apply le_sq; [pose proof sB_pos; lra|]; rewrite Q; replace ((sB - xi) * (sB + xi)) with (sB * sB - xi * xi) in GE by ring; lra). assert (P : (S - be) * (S + be) = - ga) by lra. assert (0 < S + be) by lra. apply Rmult_lt_reg_r with (S + be); [lra|]. rewrite P.
    eapply Rle_lt_trans; [|exact G]. apply Rmult_le_compat_l; lra.
  - assert (1e-8 < S); [|lra]. apply lt_sq; [lra|]. assert (1e-8 * 1e-8 < 1e-8 * (sB + xi)) by lra. pose proof (sq_pos be). lra.
Qed.
Let q2q : y * y * (h * h) + x2 * x2 = RB * RB.
Proof.
  pose proof (q2_sq O d zA RA zB RB ix Ud PA Hix v h Vd Hv H0 HA dis) as Q. cbv zeta in Q. fold y x2 in Q.
  replace (O + zB * d + y * v + x2 * d - (O + zB * d))%r3 with (y * v + x2 * d)%r3 in Q by (generalize y x2; intros; gr). autorewrite with dotr in Q. assert (D1 : d ∙ d = 1) by exact Ud. rewrite (dot_comm d v), Vd, D1, Hv in Q. lra.
Qed.
Let oq2 : S = g * x2 - k * y * (h * h).
Proof. pose proof g_k as G. rewrite Ex2, Ey. replace (g * (xi + t * g) - k * (1 - t * k) * (h * h)) with (be + t * (g * g + k * k * (h * h))) by (rewrite Ebe; ring). rewrite G, Et. ring. Qed.
Let x2_b : xi < x2 <= RB.
Proof.
  destruct xi_b as (X0 & _). pose proof t_8. assert (0 < t * g) by (apply Rmult_lt_0_compat; lra). split; [rewrite Ex2; lra|]. pose proof q2q. pose proof hh_pos. assert (0 <= y * y * (h * h)) by (apply Rmult_le_pos; [apply sq_pos|lra]). apply le_sq; lra.
Qed.
Let tg : t * g <= sA.
Proof. destruct x2_b as [_ X]. rewrite Ex2 in X. rewrite Exi, sA_a in X. lra. Qed.
Let y_b : 0 < y < 1.
Proof.
  pose proof t_8 as T8. pose proof k_pos as K. split; [|rewrite Ey; assert (0 < t * k) by (apply Rmult_lt_0_compat; lra); lra].
  pose proof tg as TG. rewrite <- sA_a in TG. destruct ab as ([A0 A1] & _). pose proof de_b. assert (X : t * (a * de) < t * g) by (apply Rmult_lt_compat_l; lra).
  assert (t * de < RA). { apply Rmult_lt_reg_r with a; lra. } rewrite Ey. unfold k. assert (t * (de / RA) < 1); [|lra]. apply Rmult_lt_reg_r with RA; [lra|]. unfold Rdiv. rewrite 2!Rmult_assoc, Rinv_l by lra. lra.
Qed.
Let sine : RB * RB - S * S = (h * (g * y + k * x2)) * (h * (g * y + k * x2)).
Proof. rewrite oq2. pose proof g_k as G. pose proof q2q as Q. transitivity ((g * g + k * k * (h * h)) * (y * y * (h * h) + x2 * x2) - (g * x2 - k * y * (h * h)) * (g * x2 - k * y * (h * h))); [rewrite G, Q; ring|ring]. Qed.
Let tir : 0 < 1 - ix * ix * (1 - co * co).
Proof.
  destruct x2_b as [X1 X2], xi_b as (X0 & _), y_b as [Y0 Y1], de_b as [D0 D1], g_b as [G0 G1]. pose proof k_pos as K.
  assert (B : g * y + k * x2 < 1 + RB / RA). { assert (g * y < 1 * 1) by (apply Rmult_gt_0_lt_compat; lra). assert (k * x2 <= RB / RA); [|lra]. unfold k. apply Rmult_le_reg_r with RA; [lra|]. replace (de / RA * x2 * RA) with (de * x2) by (field; lra). replace (RB / RA * RA) with (1 * RB) by (field; lra). apply Rmult_le_compat; lra. }
  set (P := g * y + k * x2) in *. assert (P0 : 0 < P) by (unfold P; assert (0 < g * y) by (apply Rmult_lt_0_compat; lra); assert (0 < k * x2) by (apply Rmult_lt_0_compat; lra); lra).
  assert (Q : ix * (h * P / RB) < 1). { eapply Rle_lt_trans; [|exact TIR]. replace (h * (1 / RA + 1 / RB) * ix) with (ix * (h * (1 + RB / RA) / RB)) by (field; lra). apply Rmult_le_compat_l; [lra|]. apply Rmult_le_compat_r; [apply Rlt_le, Rinv_0_lt_compat; lra|]. apply Rmult_le_compat_l; lra. }
  assert (E : 1 - co * co = (h * P / RB) * (h * P / RB)). { rewrite Eco. transitivity ((RB * RB - S * S) / (RB * RB)); [field; lra|]. rewrite sine. fold P. field. lra. }
  rewrite E. assert (0 < h * P / RB) by (apply Rdiv_lt_0_compat; [apply Rmult_lt_0_compat|]; lra). set (z := h * P / RB) in *. clearbody z. assert (0 < ix * z) by (apply Rmult_lt_0_compat; lra). replace (ix * ix * (z * z)) with ((ix * z) * (ix * z)) by ring. assert ((ix * z) * (ix * z) < 1 * 1) by (apply sq_lt; lra). lra.
Qed.
Let co_b : 0 < co <= g * x2 / RB.
Proof.
  rewrite Eco. split; [apply Rdiv_lt_0_compat; [exact S_pos|exact PB]|]. unfold Rdiv. apply Rmult_le_compat_r; [apply Rlt_le, Rinv_0_lt_compat; lra|]. rewrite oq2. destruct y_b as [Y0 _]. pose proof k_pos. assert (0 < k * y * (h * h)) by (apply Rmult_lt_0_compat; apply Rmult_lt_0_compat; lra). lra.
Qed.
Let ce_pos : 0 < ce. Proof. apply sqrt_lt_R0. exact tir. Qed.
Let ce_lt : ce < ix * co.
Proof. destruct co_b as [Q _]. assert (E : ce * ce = 1 - ix * ix * (1 - co * co)) by (apply sqrt_sqrt; pose proof tir; lra). pose proof ce_pos. assert (0 < ix * co) by (apply Rmult_lt_0_compat; lra). pose proof i2. apply lt_sq; [lra|]. rewrite E. lra. Qed.
Let ka_neg : ka < 0. Proof. rewrite Eka. pose proof ce_lt. lra. Qed.
Lemma ev_pos : 0 < fev zA RA zB RB ix h.
Proof.
  change (fev zA RA zB RB ix h) with (ix * k - ka * (y / RB)). destruct y_b as [Y0 _]. pose proof k_pos. pose proof ka_neg. assert (0 < ix * k) by (apply Rmult_lt_0_compat; lra). assert (0 < (- ka) * (y / RB)) by (apply Rmult_lt_0_compat; [lra|apply Rdiv_lt_0_compat; lra]). lra.
Qed.
Lemma ed_pos : 0 < fed zA RA zB RB ix h.
Proof.
  change (fed zA RA zB RB ix h) with (ix * g + ka * (x2 / RB)). rewrite Eka. destruct co_b as [Q0 Q1], x2_b as [X1 X2], xi_b as (X0 & _), g_b as [G0 _]. pose proof ce_pos.
  assert (X : 0 < x2 / RB <= 1). { split; [apply Rdiv_lt_0_compat; lra|]. apply Rmult_le_reg_r with RB; [lra|]. unfold Rdiv. rewrite Rmult_assoc, Rinv_l by lra. lra. }
  replace (g * x2 / RB) with (g * (x2 / RB)) in Q1 by (unfold Rdiv; ring). set (z := x2 / RB) in *. clearbody z. assert (0 < ce * z) by (apply Rmult_lt_0_compat; lra). assert (C1' : co * z <= g * z * z) by (apply Rmult_le_compat_r; lra). assert (Z2 : z * z <= 1 * 1) by (apply sq_le; lra). assert (g * (z * z) <= g * 1) by (apply Rmult_le_compat_l; lra). assert (ix * (co * z) <= ix * g) by (apply Rmult_le_compat_l; lra). lra.
Qed.
Lemma wide_good : good zA RA zB RB ix zp mx h.
Proof.
  destruct xi_b as (X0 & X1 & X2), x2_b as [Y1 Y2], y_b as [Z0 Z1], g_b as [G0 G1]. pose proof t_8 as T8. pose proof tg as TG. pose proof sA_sq as QA. pose proof sB_sq as QB. pose proof sA_pos. pose proof sB_pos. pose proof hh_pos. assert (SA : sA < RA) by (apply lt_sq; lra).
  constructor; fold a b de g xi be ga S t y x2 co; try fold t; try rewrite sA_a.
  - exact HA.
  - lra.
  - assert (xi * xi < sB * sB) by (apply sq_lt; lra). lra.
  - assert ((1e-8 - sA) * (1e-8 - sA) < sA * sA) by (apply sq_lt; lra). lra.
  - assert ((1e-8 + xi) * (1e-8 + xi) < sB * sB) by (apply sq_lt; lra). lra.
  - exact dis.
  - lra.
  - assert (E : x2 + zB - zA = t * g - sA) by (rewrite Ex2, Exi, sA_a; ring). rewrite E. assert (0 < t * g) by (apply Rmult_lt_0_compat; lra). set (w := t * g) in *. clearbody w. assert ((w - sA) * (w - sA) < sA * sA) by (apply sq_lt; lra). assert (y * y < 1 * 1) by (apply sq_lt; lra). assert (y * y * (h * h) < 1 * (h * h)) by (apply Rmult_lt_compat_r; lra). lra.
  - exact tir.
  - exact ev_pos.
  - assert (TL : t < ix * (RB - xi)). { assert (t * g <= RB - xi) by (rewrite Ex2 in Y2; lra). assert (t * / ix < t * g) by (apply Rmult_lt_compat_l; lra). apply Rmult_lt_reg_r with (/ ix); [lra|]. replace (ix * (RB - xi) * / ix) with (RB - xi) by (field; lra). lra. }
    rewrite Exi, sA_a in TL. assert (0 <= (ix - 1) * (RA - sA)) by (apply Rmult_le_pos; lra). lra.
Qed.
(** the crossing with the axis is behind the point of exit *)
Lemma wide_cross : 0 < fs zA RA zB RB ix h /\ fX zA RA zB RB ix h = zB + x2 + fs zA RA zB RB ix h * fed zA RA zB RB ix h.
Proof. split; [|reflexivity]. unfold fs. fold y. apply Rdiv_lt_0_compat; [apply y_b|apply ev_pos]. Qed.
(** the relations between the quantities *)
Lemma wide_facts : let k := fde RA ix h / RA in
  (a * a = 1 - h * h / (RA * RA) /\ 0 < a < 1) /\ (b * b = 1 - h * h / (RA * RA) / (ix * ix) /\ 0 < b < 1) /\ (g * g + k * k * (h * h) = 1 /\ 0 < g < 1) /\ (y * y * (h * h) + x2 * x2 = RB * RB /\ 0 < x2 /\ x2 = xi + t * g) /\
  (y = 1 - t * k /\ 0 < y < 1 /\ 0 < t) /\ (RB * RB - S * S = (h * (g * y + k * x2)) * (h * (g * y + k * x2)) /\ 0 < S /\ co = S / RB) /\ (ce * ce = 1 - ix * ix * (1 - co * co) /\ 0 < ce < ix * co) /\
  (fed zA RA zB RB ix h * fed zA RA zB RB ix h + fev zA RA zB RB ix h * fev zA RA zB RB ix h * (h * h) = 1 /\ 0 < fed zA RA zB RB ix h /\ 0 < fev zA RA zB RB ix h).
Proof.
  intros k'. change k' with k. destruct ab as (A & B & _), g_b as [G0 G1], xi_b as (X0 & _), x2_b as [X1 _], y_b as [Y0 Y1]. pose proof t_8. pose proof S_pos. pose proof ce_pos. pose proof ce_lt.
  destruct (a_facts RA PA h H0 HA) as [Ea _], (b_facts RA ix PA Hix h H0 HA) as [Eb _]. fold a in Ea. fold b in Eb.
  pose proof (e_is_unit O d zA RA zB RB ix Ud PA PB Hix v h Vd Hv H0 HA dis tir) as Ue. unfold is_unit in Ue. autorewrite with dotr in Ue. assert (D1 : d ∙ d = 1) by exact Ud. rewrite (dot_comm d v), Vd, D1, Hv in Ue.
  split; [split; [lra|exact A]|]. split; [split; [exact Eb|exact B]|]. split; [split; [exact g_k|lra]|]. split; [split; [exact q2q|split; [lra|exact Ex2]]|]. split; [split; [exact Ey|split; lra]|].
  split; [split; [exact sine|split; [lra|exact Eco]]|]. split; [split; [apply sqrt_sqrt; pose proof tir; lra|lra]|]. split; [lra|]. split; [exact ed_pos|exact ev_pos].
Qed.
End Wide.

(** what light parallel to the axis does: from p in direction d it enters through sphere A at q1, obeys Snell's law into o, leaves through sphere B at q2, obeys Snell's law into e *)
Definition through (sa sb : solid) (ix : R) (p d q1 o q2 e : R3) (t1 t2 : R) : Prop :=
  0 < t1 /\ q1 = at_t p d t1 /\ surface sa q1 /\ 0 < d ∙ inward sa q1 /\ ~ total_reflection 1 ix (inward sa q1) d /\ bends 1 ix (inward sa q1) d o /\ is_unit o /\
  0 < t2 /\ q2 = at_t q1 o t2 /\ surface sb q2 /\ o ∙ inward sb q2 < 0 /\ ~ total_reflection ix 1 (inward sb q2) o /\ bends ix 1 (inward sb q2) o e /\ is_unit e.

(** C110: a lens as in C88 with its centres on the other sides of the faces (zB <= zA - RA, zB + RB <= zA), at the height |v| from the axis thicker than 1e-8, with |v| (1/RA + 1/RB) ix < 1.  Light parallel to the axis
    at any such height is refracted exactly twice, never totally reflected, leaves the lens nearer to the axis, and flies on towards the axis, which it crosses at fX (C88's closed form), behind its point of exit; on the axis it goes straight. *)
Theorem C110_parallel : forall O d v zA RA zB RB ix zp mx s1 s2 tr r fuel, is_unit d -> v ∙ d = 0 -> 0 < RA -> 0 < RB -> 1 < ix ->
  let sa := Ball (O + zA * d)%r3 RA in let sb := Ball (O + zB * d)%r3 RB in faces s1 s2 sa sb -> tree_of (Bin OpIntersect (Leaf s1) (Leaf s2)) tr ->
  len v < RA -> len v < RB -> zB <= zA - RA -> zB + RB <= zA -> zA - sqrt (RA * RA - len v * len v) + 1e-8 < zB + sqrt (RB * RB - len v * len v) -> len v * (1 / RA + 1 / RB) * ix < 1 ->
  zp + 1e-12 < zA - RA -> zA - RA - zp + ix * (zB + RB - (zA - RA)) <= mx ->
  let p := (O + v + zp * d)%r3 in ray_is r p d -> blocked r = false -> ray_type r <> "faerie_fire"%string -> (3 <= fuel)%nat ->
  let w := [OCompound (mkCompound tr "refract" (Fin ix))] in
  exists q1 o q2 e t1 t2 r', through sa sb ix p d q1 o q2 e t1 t2 /\ t1 + t2 < mx /\
    run fuel r (Fin mx) w None = Ok (r', w) /\ blocked r' = false /\ ray_is r' (at_t q2 e (mx - t1 - t2)) e /\ point_history r' = point_history r ++ [fv q1; fv q2; fv (at_t q2 e (mx - t1 - t2))] /\
    (v = r3zero -> o = d /\ e = d) /\
    (v <> r3zero -> 0 < o ∙ d /\ 0 < e ∙ d /\ (exists k x, 0 < k < 1 /\ q2 = (O + k * v + x * d)%r3) /\ exists s, 0 < s /\ at_t q2 e s = (O + fX zA RA zB RB ix (len v) * d)%r3).
Proof.
  intros O d v zA RA zB RB ix zp mx s1 s2 tr r fuel Ud Vd PA PB Hix sa sb F HT HA HB C1 C2 TK TIR ST EN p Hr Hb NF HF w.
  assert (P12 : 0 < radius s1 /\ 0 < radius s2) by (destruct F as [[<- <-]|[<- <-]]; split; assumption).
  assert (Dd : d ∙ d = 1) by exact Ud. set (h := len v) in *.
  assert (Hv : v ∙ v = h * h) by (unfold h; rewrite len_sq; reflexivity).
  assert (Sq : forall x y, (x * v + y * d)%r3 ∙ (x * v + y * d)%r3 = x * x * (h * h) + y * y) by (intros x y; autorewrite with dotr; rewrite (dot_comm d v), Vd, Dd, Hv; ring).
  assert (MA : forall c R q x y, 0 < R -> (q - c)%r3 = (x * v + y * d)%r3 -> x * x * (h * h) + y * y < R * R -> member (Ball c R) q). { intros c R q x y PR E L. cbn [member]. unfold in_ball, dist3. rewrite E. apply lt_of; [exact PR|]. rewrite Sq. exact L. }
  assert (H0 : 0 <= h) by apply len_nonneg. destruct (Req_dec h 0) as [Z|Z].
  - (* on the axis *)
    assert (Ev : v = r3zero) by (apply len_zero; exact Z). clear HA HB. rewrite Z in *. replace (RA * RA - 0 * 0) with (RA * RA) in TK by ring. replace (RB * RB - 0 * 0) with (RB * RB) in TK by ring. rewrite !sqrt_square in TK by lra.
    set (t1 := zA - RA - zp). set (t2 := zB + RB - (zA - RA)). set (q1 := (O + (zA - RA) * d)%r3). set (q2 := (O + (zB + RB) * d)%r3).
    assert (Ep : p = (O + zp * d)%r3) by (unfold p; rewrite Ev; gr).
    assert (Eq1 : at_t p d t1 = q1) by (rewrite Ep; unfold at_t, q1, t1; gr). assert (Eq2 : at_t q1 d t2 = q2) by (unfold at_t, q1, q2, t2; gr).
    assert (I1 : inward sa q1 = d). { unfold sa, q1. cbn [inward]. replace (O + zA * d - (O + (zA - RA) * d))%r3 with (RA * d)%r3 by gr. replace (/ RA * (RA * d))%r3 with ((/ RA * RA) * d)%r3 by (generalize (/ RA); intros; gr). rewrite Rinv_l by lra. gr. }
    assert (I2 : inward sb q2 = (- d)%r3). { unfold sb, q2. cbn [inward]. replace (O + zB * d - (O + (zB + RB) * d))%r3 with (RB * - d)%r3 by gr. replace (/ RB * (RB * - d))%r3 with ((/ RB * RB) * - d)%r3 by (generalize (/ RB); intros; gr). rewrite Rinv_l by lra. gr. }
    assert (So1 : surface sa q1). { cbn [surface sa]. unfold on_sphere, dist3. replace (q1 - (O + zA * d))%r3 with (- RA * d)%r3 by (unfold q1; gr). rewrite len_scale, (len_unit d Ud), Rabs_left by lra. ring. }
    assert (So2 : surface sb q2). { cbn [surface sb]. unfold on_sphere, dist3. replace (q2 - (O + zB * d))%r3 with (RB * d)%r3 by (unfold q2; gr). rewrite len_scale, (len_unit d Ud), Rabs_right by lra. ring. }
    assert (Sn : forall n, n = d \/ n = (- d)%r3 -> sine n d = 0). { intros n Hn. unfold sine, perp. assert (E : (d - (d ∙ n) * n)%r3 = r3zero). { destruct Hn as [->| ->]; [rewrite Dd|rewrite dot_opp_r, Dd]; gr. } rewrite E. apply len_zero_r3. }
    assert (Pz : forall n, n = d \/ n = (- d)%r3 -> perp n d = r3zero) by (intros n Hn; apply len_zero; exact (Sn n Hn)).
    assert (NT : forall e1 e2 n, 0 < e2 -> n = d \/ n = (- d)%r3 -> ~ total_reflection e1 e2 n d) by (intros e1 e2 n Pe Hn [_ X]; rewrite (Sn n Hn) in X; lra).
    assert (Be : forall e1 e2 n, 0 < e2 -> n = d \/ n = (- d)%r3 -> bends e1 e2 n d d). { intros e1 e2 n Pe Hn. split; [intros T; destruct (NT e1 e2 n Pe Hn T)|]. intros _. split; [exact Ud|]. rewrite (Pz n Hn). split; [gr|]. apply sq_pos. }
    assert (En : entry sa sb p d t1).
    { unfold entry. rewrite Eq1, I1. split; [unfold t1; lra|]. split; [exact So1|]. split; [lra|]. apply (MA _ _ _ 1 (zA - RA - zB)); [exact PB|unfold q1; rewrite Ev; gr|]. assert ((zA - RA - zB) * (zA - RA - zB) < RB * RB) by (apply sq_lt; lra). lra. }
    destruct (C71_singlet s1 s2 tr ix r p d mx sa sb t1 HT (proj1 P12) (proj2 P12) ltac:(lra) Hr Ud Hb NF F En I) as (o & Uo & Bo & _ & Run).
    { rewrite <- at_t_at, Eq1. apply (MA _ _ _ 1 (1e-8 - RA)); [exact PA|unfold at_t, q1; rewrite Ev; generalize 1e-8; intros; gr|]. assert ((1e-8 - RA) * (1e-8 - RA) < RA * RA) by (apply sq_lt; lra). lra. }
    { rewrite <- at_t_at, Eq1. apply (MA _ _ _ 1 (1e-8 + (zA - RA - zB))); [exact PB|unfold at_t, q1; rewrite Ev; generalize 1e-8; intros; gr|]. assert ((1e-8 + (zA - RA - zB)) * (1e-8 + (zA - RA - zB)) < RB * RB) by (apply sq_lt; lra). lra. }
    rewrite Eq1, I1 in Bo, Run. specialize (Run (NT 1 ix d ltac:(lra) (or_introl eq_refl))).
    assert (o = d) by (apply (bends_unique 1 ix d d); [exact Ud|lra|lra|exact Bo|apply Be; [lra|auto]]). subst o.
    assert (Gl : glass s1 s2 ix q1 d t2 [q2] q2 d).
    { rewrite <- Eq2. apply (glass_out s1 s2 ix sb sa q1 d t2 d); rewrite ?Eq2, ?I2.
      - destruct F as [[-> ->]|[-> ->]]; [right|left]; split; reflexivity.
      - unfold exit. rewrite Eq2, I2, dot_opp_r, Dd. split; [unfold t2; lra|]. split; [exact So2|]. split; [lra|]. apply (MA _ _ _ 1 (zB + RB - zA)); [exact PA|unfold q2; rewrite Ev; gr|]. assert ((zB + RB - zA) * (zB + RB - zA) < RA * RA) by (apply sq_lt; lra). lra.
      - exact I.
      - apply NT; [lra|auto].
      - apply Be; [lra|auto].
      - rewrite dot_opp_r, Dd. lra. }
    assert (Lm : t1 + t2 < mx). { assert (0 < (ix - 1) * t2) by (apply Rmult_lt_0_compat; unfold t2; lra). fold t2 in EN. unfold t1. lra. }
    destruct (Run t2 [q2] q2 d Gl Lm fuel ltac:(cbn; lia)) as (r' & R1 & R2 & R3' & R4).
    exists q1, d, q2, d, t1, t2, r'. split.
    { unfold through. rewrite Eq1, Eq2, I1, I2, dot_opp_r, Dd. repeat (split; [first [assumption|reflexivity|lra|apply NT; [lra|auto]|apply Be; [lra|auto]|unfold t1; lra|unfold t2; lra]|]). exact Ud. }
    split; [exact Lm|]. split; [exact R1|]. split; [exact R2|]. split; [exact R3'|]. split; [exact R4|]. split; [auto|]. intros X; contradiction.
  - (* off the axis *)
    assert (H1 : 0 < h) by lra. clear H0 Z.
    pose proof (wide_good O d v zA RA zB RB ix zp mx h Ud Vd Hv PA PB Hix H1 HA HB C1 C2 TK TIR ST EN) as G.
    pose proof (ed_pos O d v zA RA zB RB ix h Ud Vd Hv PA PB Hix H1 HA HB C1 C2 TK TIR) as Ged.
    destruct (wide_cross O d v zA RA zB RB ix h Ud Vd Hv PA PB Hix H1 HA HB C1 C2 TK TIR) as [Gs _].
    destruct G as [Gin Gt1 GmB GmA8 GmB8 GS Gt GmA Gtir Gev Gmx]. set (t1 := zA - RA * fa RA h - zp) in *. set (t2 := ft zA RA zB RB ix h) in *.
    set (q1 := (O + v + (zA - RA * fa RA h) * d)%r3). assert (Eq1 : at_t p d t1 = q1) by (unfold at_t, p, q1, t1; generalize (fa RA h); intros; gr).
    pose proof (q1_in O d zA RA PA v h) as Ei. pose proof (q1_on O d zA RA Ud PA v h Vd Hv H1 Gin) as So. fold q1 sa in Ei, So.
    pose proof (a_facts RA PA h H1 Gin) as [Ea A]. pose proof (in_unit d RA Ud PA v h Vd Hv H1 Gin) as Ui.
    destruct (o_bends d RA ix Ud PA Hix v h Vd Hv H1 Gin) as [NT Bo].
    assert (Du : d ∙ (fa RA h * d - / RA * v)%r3 = fa RA h) by (autorewrite with dotr; rewrite (dot_comm d v), Vd, Dd; ring).
    assert (En : entry sa sb p d t1).
    { split; [exact Gt1|]. rewrite Eq1, Ei, Du. split; [exact So|]. split; [lra|]. apply (MA _ _ _ 1 (fxi zA RA zB h)); [exact PB|unfold q1, fxi; generalize (fa RA h); intros; gr|lra]. }
    destruct (C71_singlet s1 s2 tr ix r p d mx sa sb t1 HT (proj1 P12) (proj2 P12) ltac:(lra) Hr Ud Hb NF F En I) as (o & Uo & Bo' & _ & Run).
    { rewrite <- at_t_at, Eq1. apply (MA _ _ _ 1 (1e-8 - RA * fa RA h)); [exact PA|unfold at_t, q1; generalize (fa RA h) 1e-8; intros; gr|lra]. }
    { rewrite <- at_t_at, Eq1. apply (MA _ _ _ 1 (1e-8 + fxi zA RA zB h)); [exact PB|unfold at_t, q1, fxi; generalize (fa RA h) 1e-8; intros; gr|lra]. }
    rewrite Eq1, Ei in Bo', Run. specialize (Run NT).
    assert (Eo : o = (fg RA ix h * d - fde RA ix h / RA * v)%r3). { apply (bends_unique 1 ix (fa RA h * d - / RA * v)%r3 d); [exact Ui|lra|lra|exact Bo'|exact Bo]. }
    set (q2 := (O + zB * d + fy zA RA zB RB ix h * v + fx2 zA RA zB RB ix h * d)%r3). set (e := (fed zA RA zB RB ix h * d - fev zA RA zB RB ix h * v)%r3).
    pose proof (q2_at O d zA RA zB RB ix v h) as Eq2. fold q1 q2 in Eq2. rewrite <- Eo in Eq2. fold t2 in Eq2.
    pose proof (q2_on O d zA RA zB RB ix Ud PA PB Hix v h Vd Hv H1 Gin GS) as So2. fold q2 sb in So2. pose proof (q2_in O d zA RA zB RB ix v h) as Ei2. fold q2 sb in Ei2.
    pose proof (o_u2 O d zA RA zB RB ix Ud PA PB Hix v h Vd Hv H1 Gin) as Ou. rewrite <- Eo in Ou.
    pose proof (e_u2 O d zA RA zB RB ix Ud PA PB Hix v h Vd Hv H1 Gin GS) as Eu. fold e in Eu.
    pose proof (e_is_unit O d zA RA zB RB ix Ud PA PB Hix v h Vd Hv H1 Gin GS Gtir) as Ue. fold e in Ue.
    destruct (e_bends O d zA RA zB RB ix Ud PA PB Hix v h Vd Hv H1 Gin GS Gtir) as [NT2 Be]. fold e in Be. rewrite <- Eo in NT2, Be.
    set (u2 := ((fy zA RA zB RB ix h / RB) * v + (fx2 zA RA zB RB ix h / RB) * d)%r3) in *.
    assert (CO : 0 < fco zA RA zB RB ix h) by (unfold fco; apply Rdiv_lt_0_compat; [apply sqrt_lt_R0; exact GS|exact PB]). assert (CE : 0 < fce zA RA zB RB ix h) by (unfold fce; apply sqrt_lt_R0; exact Gtir).
    assert (Gl : glass s1 s2 ix q1 o t2 [q2] q2 e).
    { rewrite <- Eq2. apply (glass_out s1 s2 ix sb sa q1 o t2 e).
      - destruct F as [[-> ->]|[-> ->]]; [right|left]; split; reflexivity.
      - split; [exact Gt|]. rewrite Eq2, Ei2. split; [exact So2|]. split; [rewrite dot_opp_r; lra|]. apply (MA _ _ _ (fy zA RA zB RB ix h) (fx2 zA RA zB RB ix h + zB - zA)); [exact PA|unfold q2; generalize (fy zA RA zB RB ix h) (fx2 zA RA zB RB ix h); intros; gr|lra].
      - exact I.
      - rewrite Eq2, Ei2. exact NT2.
      - rewrite Eq2, Ei2. exact Be.
      - rewrite Eq2, Ei2, dot_opp_r. lra. }
    destruct (Run t2 [q2] q2 e Gl Gmx fuel ltac:(cbn; lia)) as (r' & R1 & R2 & R3' & R4).
    exists q1, o, q2, e, t1, t2, r'. split.
    { unfold through. rewrite Eq1, Eq2, Ei, Ei2, Du, dot_opp_r. split; [lra|]. split; [reflexivity|]. split; [exact So|]. split; [lra|]. split; [exact NT|]. split; [exact Bo'|]. split; [exact Uo|]. split; [lra|]. split; [reflexivity|]. split; [exact So2|]. split; [lra|]. split; [exact NT2|]. split; [exact Be|exact Ue]. }
    split; [exact Gmx|]. split; [exact R1|]. split; [exact R2|]. split; [exact R3'|]. split; [exact R4|]. split; [intros Ev; exfalso; rewrite Ev in Hv; unfold r3dot, r3zero in Hv; cbn [cx cy cz] in Hv; assert (0 < h * h) by (apply Rmult_lt_0_compat; lra); lra|].
    pose proof (wide_facts O d v zA RA zB RB ix h Ud Vd Hv PA PB Hix H1 HA HB C1 C2 TK TIR) as W. cbv zeta in W. destruct W as (_ & _ & (_ & G0 & _) & _ & (_ & Y & _) & _).
    intros _. split; [rewrite Eo; clear - G0 Vd Dd; revert G0; generalize (fg RA ix h) (fde RA ix h / RA); intros; autorewrite with dotr; rewrite Vd, Dd; lra|]. split; [unfold e; generalize dependent (fed zA RA zB RB ix h); generalize (fev zA RA zB RB ix h); intros; autorewrite with dotr; rewrite Vd, Dd; lra|].
    split; [|exists (fs zA RA zB RB ix h); split; [exact Gs|]; apply crossing; lra].
    exists (fy zA RA zB RB ix h), (zB + fx2 zA RA zB RB ix h). split; [exact Y|]. unfold q2. generalize (fy zA RA zB RB ix h) (fx2 zA RA zB RB ix h). intros. gr.
Qed.
Print Assumptions C110_parallel.
