(** C88: the lensmaker's equation. *)
From Coq Require Import Reals ZArith Lra Lia Psatz String List Bool.
From Verif Require Import PyErr Num Vec Shapes Csg Optics Spec XReal RVec VecProofs AngleProofs FlatProofs SphereProofs CylProofs ShapeExtra
  TreeProofs SolidProofs CsgProofs RayProofs RunGen NoFuel RunXr OpticHits StateXr OrderProofs FlatOptic Props_Ray Props_Loop Props_Run Props_Rehit SceneProofs Props_Scene
  Props_Compound Props_Ball Props_Singlet Props_Focus Props_BallFocus.
Import ListNotations.
Local Open Scope R_scope.

(* ------------------------------------------------------------------ limits for h -> 0, h > 0 *)
Definition near0 (P : R -> Prop) : Prop := exists del, 0 < del /\ forall h, 0 < h < del -> P h.
Definition tends (f : R -> R) (l : R) : Prop := forall eps, 0 < eps -> near0 (fun h => Rabs (f h - l) < eps).

Lemma near0_and (P Q : R -> Prop) : near0 P -> near0 Q -> near0 (fun h => P h /\ Q h).
Proof. intros (d1 & D1 & H1) (d2 & D2 & H2). exists (Rmin d1 d2). split; [apply Rmin_glb_lt; assumption|]. intros h [A B]. split; [apply H1|apply H2]; split; try exact A; eapply Rlt_le_trans; try exact B; [apply Rmin_l|apply Rmin_r]. Qed.
Lemma near0_imp (P Q : R -> Prop) : near0 P -> (forall h, 0 < h -> P h -> Q h) -> near0 Q.
Proof. intros (d1 & D1 & H1) K. exists d1. split; [exact D1|]. intros h H. apply K; [lra|apply H1, H]. Qed.
Lemma tends_lim f l : tends f l <-> limit1_in f (fun h => 0 < h) l 0.
Proof.
  split.
  - intros T eps E. destruct (T eps E) as (del & D0 & H). exists del. split; [exact D0|]. intros x [Px Dx]. apply H. cbn in Dx. unfold R_dist in Dx. rewrite Rminus_0_r, Rabs_pos_eq in Dx by lra. lra.
  - intros T eps E. destruct (T eps E) as (del & D0 & H). exists del. split; [exact D0|]. intros x Px. apply H. split; [lra|]. cbn. unfold R_dist. rewrite Rminus_0_r, Rabs_pos_eq; lra.
Qed.
Lemma tends_const c : tends (fun _ => c) c.
Proof. intros eps E. exists 1. split; [lra|]. intros h _. replace (c - c) with 0 by ring. rewrite Rabs_R0. exact E. Qed.
Lemma tends_id : tends (fun h => h) 0.
Proof. intros eps E. exists eps. split; [exact E|]. intros h H. rewrite Rminus_0_r, Rabs_pos_eq; lra. Qed.
Lemma tends_add f g l m : tends f l -> tends g m -> tends (fun h => f h + g h) (l + m).
Proof. rewrite !tends_lim. apply limit_plus. Qed.
Lemma tends_sub f g l m : tends f l -> tends g m -> tends (fun h => f h - g h) (l - m).
Proof. rewrite !tends_lim. apply limit_minus. Qed.
Lemma tends_mul f g l m : tends f l -> tends g m -> tends (fun h => f h * g h) (l * m).
Proof. rewrite !tends_lim. apply limit_mul. Qed.
Lemma tends_opp f l : tends f l -> tends (fun h => - f h) (- l).
Proof. rewrite !tends_lim. apply limit_Ropp. Qed.
Lemma tends_inv f l : tends f l -> l <> 0 -> tends (fun h => / f h) (/ l).
Proof. rewrite !tends_lim. apply limit_inv. Qed.
Lemma tends_div f g l m : tends f l -> tends g m -> m <> 0 -> tends (fun h => f h / g h) (l / m).
Proof. intros A B C. apply tends_mul; [exact A|apply tends_inv; assumption]. Qed.
Lemma tends_eq f l m : tends f l -> l = m -> tends f m.
Proof. intros H <-. exact H. Qed.
Lemma tends_gt f l a : tends f l -> a < l -> near0 (fun h => a < f h).
Proof. intros T L. apply (near0_imp _ _ (T (l - a) ltac:(lra))). intros h _ H. apply Rabs_def2 in H. lra. Qed.
Lemma tends_lt f l a : tends f l -> l < a -> near0 (fun h => f h < a).
Proof. intros T L. apply (near0_imp _ _ (T (a - l) ltac:(lra))). intros h _ H. apply Rabs_def2 in H. lra. Qed.
Lemma tends_sqrt f l : tends f l -> 0 < l -> tends (fun h => sqrt (f h)) (sqrt l).
Proof.
  intros T L eps E. assert (S0 : 0 < sqrt l) by (apply sqrt_lt_R0; exact L). assert (E1 : 0 < eps * sqrt l) by (apply Rmult_lt_0_compat; assumption).
  apply (near0_imp _ _ (near0_and _ _ (T _ E1) (tends_gt f l 0 T L))). intros h _ [A P]. assert (P1 : 0 < sqrt (f h)) by (apply sqrt_lt_R0; exact P).
  assert (Q : (sqrt (f h) - sqrt l) * (sqrt (f h) + sqrt l) = f h - l). { replace ((sqrt (f h) - sqrt l) * (sqrt (f h) + sqrt l)) with (sqrt (f h) * sqrt (f h) - sqrt l * sqrt l) by ring. rewrite !sqrt_sqrt by lra. reflexivity. }
  rewrite <- Q, Rabs_mult, (Rabs_pos_eq (_ + _)) in A by lra. apply Rmult_lt_reg_r with (sqrt l); [exact S0|]. eapply Rle_lt_trans; [|exact A]. apply Rmult_le_compat_l; [apply Rabs_pos|lra].
Qed.

Lemma tends_root f r : 0 < r -> tends f (r * r) -> tends (fun h => sqrt (f h)) r.
Proof. intros P H. rewrite <- (sqrt_square r) by lra. apply tends_sqrt; [exact H|nra]. Qed.

(* ------------------------------------------------------------------ one ray through a biconvex lens *)
Section Biconvex.
(** the axis through [O] along [d]; face A: centre at [zA], radius [RA]; face B: centre at [zB], radius [RB]; index [ix] *)
Variables (O d : R3) (zA RA zB RB ix : R).
Hypotheses (Ud : is_unit d) (PA : 0 < RA) (PB : 0 < RB) (Hix : 1 < ix).
Definition fa (h : R) := sqrt (1 - h * h / (RA * RA)).
Definition fb (h : R) := sqrt (1 - h * h / (RA * RA) / (ix * ix)).
Definition fde (h : R) := fb h - fa h / ix.
Definition fg (h : R) := / ix + fa h * fde h.
Definition fxi (h : R) := zA - RA * fa h - zB.
Definition fbe (h : R) := fg h * fxi h - fde h / RA * (h * h).
Definition fga (h : R) := h * h + fxi h * fxi h - RB * RB.
Definition fS (h : R) := sqrt (fbe h * fbe h - fga h).
Definition ft (h : R) := fS h - fbe h.
Definition fy (h : R) := 1 - ft h * (fde h / RA).
Definition fx2 (h : R) := fxi h + ft h * fg h.
Definition fco (h : R) := fS h / RB.
Definition fce (h : R) := sqrt (1 - ix * ix * (1 - fco h * fco h)).
Definition fka (h : R) := fce h - ix * fco h.
Definition fed (h : R) := ix * fg h + fka h * (fx2 h / RB).
Definition fev (h : R) := ix * (fde h / RA) - fka h * (fy h / RB).
Definition fs (h : R) := fy h / fev h.
Definition fX (h : R) := zB + fx2 h + fs h * fed h.

(* ---- limits ---- *)
Let xi0 := zA - RA - zB.
Let T := zB + RB - (zA - RA).
Let y0 := 1 - T * ((1 - / ix) / RA).
Let Pw := (ix - 1) * (/ RA + y0 / RB).
Lemma lim_hh k : tends (fun h => h * h * k) 0.
Proof. apply (tends_eq _ (0 * 0 * k)); [repeat apply tends_mul; try apply tends_id; apply tends_const|ring]. Qed.
Lemma lim_a : tends fa 1.
Proof. unfold fa. apply tends_root; [lra|]. apply (tends_eq _ (1 - 0)); [apply tends_sub; [apply tends_const|apply lim_hh]|ring]. Qed.
Lemma lim_b : tends fb 1.
Proof. unfold fb. apply tends_root; [lra|]. apply (tends_eq _ (1 - 0 * / (ix * ix))); [apply tends_sub; [apply tends_const|]; apply tends_mul; [apply lim_hh|apply tends_const]|ring]. Qed.
Lemma lim_de : tends fde (1 - / ix).
Proof. unfold fde, Rdiv. eapply tends_eq; [apply tends_sub; [apply lim_b|apply tends_mul; [apply lim_a|apply tends_const]]|ring]. Qed.
Lemma lim_g : tends fg 1.
Proof. unfold fg. eapply tends_eq; [apply tends_add; [apply tends_const|apply tends_mul; [apply lim_a|apply lim_de]]|ring]. Qed.
Lemma lim_xi : tends fxi xi0.
Proof. unfold fxi, xi0. eapply tends_eq; [apply tends_sub; [apply tends_sub; [apply tends_const|apply tends_mul; [apply tends_const|apply lim_a]]|apply tends_const]|ring]. Qed.
Lemma lim_be : tends fbe xi0.
Proof. unfold fbe, Rdiv. eapply tends_eq; [apply tends_sub; [apply tends_mul; [apply lim_g|apply lim_xi]|apply tends_mul; [apply tends_mul; [apply lim_de|apply tends_const]|apply tends_mul; apply tends_id]]|ring]. Qed.
Lemma lim_ga : tends fga (xi0 * xi0 - RB * RB).
Proof. unfold fga. eapply tends_eq; [apply tends_sub; [apply tends_add; [apply tends_mul; apply tends_id|apply tends_mul; apply lim_xi]|apply tends_const]|ring]. Qed.
Lemma lim_S : tends fS RB.
Proof. unfold fS. apply tends_root; [lra|]. eapply tends_eq; [apply tends_sub; [apply tends_mul; apply lim_be|apply lim_ga]|ring]. Qed.
Lemma lim_t : tends ft T.
Proof. unfold ft, T. eapply tends_eq; [apply tends_sub; [apply lim_S|apply lim_be]|unfold xi0; ring]. Qed.
Lemma lim_y : tends fy y0.
Proof. unfold fy, y0, Rdiv. apply tends_sub; [apply tends_const|apply tends_mul; [apply lim_t|apply tends_mul; [apply lim_de|apply tends_const]]]. Qed.
Lemma lim_x2 : tends fx2 RB.
Proof. unfold fx2. eapply tends_eq; [apply tends_add; [apply lim_xi|apply tends_mul; [apply lim_t|apply lim_g]]|unfold xi0, T; ring]. Qed.
Lemma lim_co : tends fco 1.
Proof. unfold fco. eapply tends_eq; [apply tends_div; [apply lim_S|apply tends_const|lra]|field; lra]. Qed.
Lemma lim_TIR : tends (fun h => 1 - ix * ix * (1 - fco h * fco h)) 1.
Proof. eapply tends_eq; [apply tends_sub; [apply tends_const|apply tends_mul; [apply tends_const|apply tends_sub; [apply tends_const|apply tends_mul; apply lim_co]]]|ring]. Qed.
Lemma lim_ce : tends fce 1.
Proof. unfold fce. apply tends_root; [lra|]. eapply tends_eq; [apply lim_TIR|ring]. Qed.
Lemma lim_ka : tends fka (1 - ix).
Proof. unfold fka. eapply tends_eq; [apply tends_sub; [apply lim_ce|apply tends_mul; [apply tends_const|apply lim_co]]|ring]. Qed.
Lemma lim_ed : tends fed 1.
Proof. unfold fed. eapply tends_eq; [apply tends_add; [apply tends_mul; [apply tends_const|apply lim_g]|apply tends_mul; [apply lim_ka|apply tends_div; [apply lim_x2|apply tends_const|lra]]]|field; lra]. Qed.
Lemma lim_ev : tends fev Pw.
Proof. unfold fev. eapply tends_eq; [apply tends_sub; [apply tends_mul; [apply tends_const|apply tends_div; [apply lim_de|apply tends_const|lra]]|apply tends_mul; [apply lim_ka|apply tends_div; [apply lim_y|apply tends_const|lra]]]|unfold Pw; field; lra]. Qed.
Lemma lim_s : Pw <> 0 -> tends fs (y0 / Pw).
Proof. intros N. unfold fs. apply tends_div; [apply lim_y|apply lim_ev|exact N]. Qed.
Lemma lim_X : Pw <> 0 -> tends fX (zB + RB + y0 / Pw).
Proof. intros N. unfold fX. eapply tends_eq; [apply tends_add; [apply tends_add; [apply tends_const|apply lim_x2]|apply tends_mul; [apply lim_s, N|apply lim_ed]]|ring]. Qed.

(* ---- the ray at the height h ---- *)
Variables (v : R3) (h : R).
Hypotheses (Vd : v ∙ d = 0) (Hv : v ∙ v = h * h) (H0 : 0 < h).
Let cA := (O + zA * d)%r3.
Let cB := (O + zB * d)%r3.
Let a := fa h. Let b := fb h. Let de := fde h. Let g := fg h. Let t := ft h.
Let q1 := (O + v + (zA - RA * a) * d)%r3.
Let o := (g * d - (de / RA) * v)%r3.
Let q2 := (cB + fy h * v + fx2 h * d)%r3.
Let e := (fed h * d - fev h * v)%r3.
Let u2 := ((fy h / RB) * v + (fx2 h / RB) * d)%r3.
Hypotheses (Hl : h < RA).
Let eta := h * h / (RA * RA).
Lemma one_d : d ∙ d = 1. Proof. exact Ud. Qed.
Lemma eta_bounds : 0 < eta < 1.
Proof. unfold eta. assert (0 < RA * RA) by (apply Rmult_lt_0_compat; lra). split; [apply Rdiv_lt_0_compat; nra|]. apply Rmult_lt_reg_r with (RA * RA); [lra|]. unfold Rdiv. rewrite Rmult_assoc, Rinv_l by lra. nra. Qed.
Lemma a_facts : eta = 1 - a * a /\ 0 < a <= 1.
Proof. pose proof eta_bounds as E. unfold a, fa. fold eta. split; [rewrite sqrt_sqrt by lra; ring|]. split; [apply sqrt_lt_R0; lra|]. eapply Rle_trans; [apply sqrt_le_1 with (y := 1); lra|rewrite sqrt_1; lra]. Qed.
Lemma b_facts : b * b = 1 - eta / (ix * ix) /\ 0 < b <= 1.
Proof.
  pose proof eta_bounds as E. assert (X : 1 < ix * ix) by nra. assert (0 < eta / (ix * ix)) by (apply Rdiv_lt_0_compat; lra).
  assert (eta / (ix * ix) < 1). { apply Rmult_lt_reg_r with (ix * ix); [lra|]. unfold Rdiv. rewrite Rmult_assoc, Rinv_l by lra. lra. }
  unfold b, fb. fold eta. split; [apply sqrt_sqrt; lra|]. split; [apply sqrt_lt_R0; lra|]. eapply Rle_trans; [apply sqrt_le_1 with (y := 1); lra|rewrite sqrt_1; lra].
Qed.
Lemma vv : v ∙ v = eta * (RA * RA). Proof. rewrite Hv. unfold eta. field. lra. Qed.
Lemma o_unit : is_unit o.
Proof.
  destruct a_facts as [Ea A], b_facts as [Eb B].
  unfold is_unit, o. autorewrite with dotr. rewrite (dot_comm d v), Vd, vv, one_d. assert (G : g = / ix + a * de) by reflexivity. assert (D1 : de = b - a / ix) by reflexivity.
  clearbody g de b eta a. rewrite Ea in Eb |- *. transitivity (/ ix * / ix + (b * b - (a / ix) * (a / ix))); [rewrite G, D1; field; lra|]. rewrite Eb. field. lra.
Qed.
Lemma q1_in : inward (Ball cA RA) q1 = (a * d - / RA * v)%r3.
Proof. cbn [inward]. unfold cA, q1. replace (/ RA * (O + zA * d - (O + v + (zA - RA * a) * d)))%r3 with ((/ RA * RA * a) * d - / RA * v)%r3 by (generalize (/ RA); intros; gr). rewrite Rinv_l by lra. gr. Qed.
Lemma q1_on : surface (Ball cA RA) q1.
Proof.
  cbn [surface]. unfold on_sphere, dist3. replace (q1 - cA)%r3 with (v - (RA * a) * d)%r3 by (unfold q1, cA; gr). apply len_eq_of_sq; [lra|]. autorewrite with dotr. rewrite (dot_comm d v), Vd, vv, one_d, (proj1 a_facts). ring.
Qed.
Lemma in_unit : is_unit (a * d - / RA * v)%r3.
Proof. unfold is_unit. autorewrite with dotr. rewrite (dot_comm d v), Vd, vv, one_d, (proj1 a_facts). field. lra. Qed.
Lemma o_bends : ~ total_reflection 1 ix (a * d - / RA * v)%r3 d /\ bends 1 ix (a * d - / RA * v)%r3 d o.
Proof.
  assert (NT : ~ total_reflection 1 ix (a * d - / RA * v)%r3 d) by (intros [X _]; lra). split; [exact NT|]. split; [contradiction|]. intros _. split; [exact o_unit|]. destruct a_facts as [Ea A], b_facts as [Eb B].
  assert (Du : d ∙ (a * d - / RA * v)%r3 = a) by (autorewrite with dotr; rewrite (dot_comm d v), Vd, one_d; ring).
  assert (Ou : o ∙ (a * d - / RA * v)%r3 = b). { unfold o. autorewrite with dotr. rewrite (dot_comm d v), Vd, vv, one_d. transitivity (g * a + de * eta); [field; lra|]. rewrite Ea. change g with (/ ix + a * de). replace ((/ ix + a * de) * a + de * (1 - a * a)) with (a / ix + de) by (field; lra). change de with (b - a / ix). ring. }
  split; [|rewrite Du, Ou; apply Rmult_le_pos; lra]. unfold perp. rewrite Du, Ou.
  assert (G : ix * g = 1 - a * a + ix * (a * b)) by (change g with (/ ix + a * (b - a / ix)); field; lra). assert (D1 : ix * (de / RA) = (ix * b - a) * / RA) by (change de with (b - a / ix); field; lra).
  unfold o. replace (ix * (g * d - de / RA * v - b * (a * d - / RA * v)))%r3 with ((ix * g) * d - (ix * (de / RA)) * v - (ix * b) * (a * d - / RA * v))%r3 by (generalize (de / RA) (/ RA); intros; gr). rewrite G, D1. generalize (/ RA). intros. gr.
Qed.
Hypotheses (Dis : 0 < fbe h * fbe h - fga h).
Lemma S_sq : fS h * fS h = fbe h * fbe h - fga h. Proof. apply sqrt_sqrt. lra. Qed.
Lemma S_pos : 0 < fS h. Proof. apply sqrt_lt_R0. lra. Qed.
Lemma q2_at : at_t q1 o t = q2.
Proof. unfold at_t, q1, o, q2, cB, fy, fx2, fxi. fold t a de g. generalize (de / RA). intros. gr. Qed.
Lemma o_q2 : o ∙ (q2 - cB)%r3 = fS h.
Proof.
  replace (q2 - cB)%r3 with (fy h * v + fx2 h * d)%r3 by (unfold q2; generalize (fy h) (fx2 h) cB; intros; gr). pose proof o_unit as U. unfold is_unit, o in U. autorewrite with dotr in U. rewrite (dot_comm d v), Vd, one_d, Hv in U.
  unfold o. autorewrite with dotr. rewrite (dot_comm d v), Vd, one_d, Hv. unfold fy, fx2. fold t de g. assert (ET : t = fS h - fbe h) by reflexivity. assert (EB : fbe h = g * fxi h - de / RA * (h * h)) by reflexivity.
  transitivity (fbe h + t * (g * (g * 1 - de / RA * 0) - de / RA * (g * 0 - de / RA * (h * h)))); [rewrite EB; ring|]. replace (g * (g * 1 - de / RA * 0) - de / RA * (g * 0 - de / RA * (h * h))) with 1 by (symmetry; eapply eq_trans; [|exact U]; ring). rewrite ET. ring.
Qed.
Lemma q2_sq : (q2 - cB)%r3 ∙ (q2 - cB)%r3 = RB * RB.
Proof.
  replace (q2 - cB)%r3 with ((q1 - cB) + t * o)%r3 by (rewrite <- q2_at; unfold at_t; generalize q1 cB o t; intros; gr).
  assert (E1 : (q1 - cB)%r3 = (v + fxi h * d)%r3) by (unfold q1, cB, fxi; fold a; gr). rewrite E1. autorewrite with dotr. rewrite (dot_comm d v), Vd, one_d, Hv.
  pose proof o_unit as U. unfold is_unit in U. rewrite U.
  assert (Ov : o ∙ v = - (de / RA * (h * h))) by (unfold o; autorewrite with dotr; rewrite (dot_comm d v), Vd, Hv; ring). assert (Od : o ∙ d = g) by (unfold o; autorewrite with dotr; rewrite Vd, one_d; ring).
  rewrite ?(dot_comm v o), ?(dot_comm d o), Ov, Od. pose proof S_sq as Q. unfold fga in Q. assert (ET : fS h = t + fbe h) by (unfold t, ft; ring). rewrite ET in Q. unfold fbe in Q. fold g de in Q.
  nra.
Qed.
Lemma q2_on : surface (Ball cB RB) q2.
Proof. cbn [surface]. unfold on_sphere, dist3. apply len_eq_of_sq; [lra|exact q2_sq]. Qed.
Lemma q2_in : inward (Ball cB RB) q2 = (- u2)%r3.
Proof. cbn [inward]. unfold u2, q2, Rdiv. generalize (/ RB) (fy h) (fx2 h) cB. intros. gr. Qed.
Lemma u2_eq : u2 = (/ RB * (q2 - cB))%r3.
Proof. unfold u2, q2, Rdiv. generalize (/ RB) (fy h) (fx2 h) cB. intros. gr. Qed.
Lemma u2_unit : is_unit u2.
Proof. rewrite u2_eq. unfold is_unit. rewrite dot_scale_l, dot_scale_r, q2_sq. field. lra. Qed.
Lemma o_u2 : o ∙ u2 = fco h.
Proof. rewrite u2_eq, dot_scale_r, o_q2. unfold fco. field. lra. Qed.
Hypothesis NTI : 0 < 1 - ix * ix * (1 - fco h * fco h).
Lemma e_eq : e = (ix * o + fka h * u2)%r3.
Proof. unfold e, o, u2, fed, fev. fold g de. generalize (de / RA) (fy h / RB) (fx2 h / RB) (fka h). intros. gr. Qed.
Lemma ce_sq : fce h * fce h = 1 - ix * ix * (1 - fco h * fco h). Proof. apply sqrt_sqrt. lra. Qed.
Lemma e_u2 : e ∙ u2 = fce h.
Proof. rewrite e_eq, dot_add_l, !dot_scale_l, o_u2. pose proof u2_unit as U. unfold is_unit in U. rewrite U. unfold fka. ring. Qed.
Lemma e_is_unit : is_unit e.
Proof.
  pose proof u2_unit as U. pose proof o_unit as V. unfold is_unit in *. pose proof o_u2 as W. rewrite e_eq. generalize dependent o. intros o' V W. autorewrite with dotr. rewrite (dot_comm u2 o'), U, V, W. pose proof ce_sq as Q. unfold fka. nra.
Qed.
Lemma e_bends : ~ total_reflection ix 1 (- u2)%r3 o /\ bends ix 1 (- u2)%r3 o e.
Proof.
  pose proof u2_unit as U. pose proof o_unit as V. pose proof (unit_opp _ U) as U'. pose proof o_u2 as W. pose proof e_u2 as Y. pose proof S_pos as SP. pose proof e_is_unit as Ue. pose proof e_eq as EE. clearbody o u2 e.
  assert (C0 : 0 < fco h) by (unfold fco; apply Rdiv_lt_0_compat; lra).
  assert (NT : ~ total_reflection ix 1 (- u2)%r3 o). { intros [_ X]. pose proof (sine_sq _ _ U' V) as Q. pose proof (sine_bound _ _ U' V) as Q2. replace (o ∙ (- u2)%r3) with (- fco h) in Q by (autorewrite with dotr; lra). nra. }
  split; [exact NT|]. split; [contradiction|]. intros _. split; [exact Ue|]. assert (Ce : 0 <= fce h) by apply sqrt_pos.
  split; [|replace (o ∙ (- u2)%r3) with (- fco h) by (autorewrite with dotr; lra); replace (e ∙ (- u2)%r3) with (- fce h) by (autorewrite with dotr; lra); nra].
  unfold perp. replace (o ∙ (- u2)%r3) with (- fco h) by (autorewrite with dotr; lra). replace (e ∙ (- u2)%r3) with (- fce h) by (autorewrite with dotr; lra). rewrite EE. unfold fka. generalize (fco h) (fce h). intros. gr.
Qed.
Lemma crossing : fev h <> 0 -> at_t q2 e (fs h) = (O + fX h * d)%r3.
Proof.
  intros N. assert (Es : fs h * fev h = fy h) by (unfold fs; field; exact N). assert (EX : fX h = zB + fx2 h + fs h * fed h) by reflexivity. rewrite EX. unfold at_t, q2, e, cB. rewrite <- Es. generalize (fs h) (fev h) (fx2 h) (fed h). intros. gr.
Qed.
End Biconvex.

(* ------------------------------------------------------------------ the conditions hold for small h *)
Section Near.
Variables (zA RA zB RB ix zp mx : R).
Hypotheses (PA : 0 < RA) (PB : 0 < RB) (Hix : 1 < ix) (F1 : zB - RB < zA - RA) (F2 : zA - RA + 1e-8 < zB + RB) (F3 : zB + RB < zA + RA) (F4 : zp + 1e-12 < zA - RA) (F5 : zB + RB - zp < mx).
Let T := zB + RB - (zA - RA).
Let Pw := (ix - 1) * (/ RA + (1 - T * ((1 - / ix) / RA)) / RB).
Record good (h : R) : Prop := {
  g_in : h < RA; g_t1 : 1e-12 < zA - RA * fa RA h - zp; g_mB : h * h + fxi zA RA zB h * fxi zA RA zB h < RB * RB;
  g_mA8 : h * h + (1e-8 - RA * fa RA h) * (1e-8 - RA * fa RA h) < RA * RA; g_mB8 : h * h + (1e-8 + fxi zA RA zB h) * (1e-8 + fxi zA RA zB h) < RB * RB;
  g_S : 0 < fbe zA RA zB ix h * fbe zA RA zB ix h - fga zA RA zB RB h; g_t : 1e-12 < ft zA RA zB RB ix h;
  g_mA : fy zA RA zB RB ix h * fy zA RA zB RB ix h * (h * h) + (fx2 zA RA zB RB ix h + zB - zA) * (fx2 zA RA zB RB ix h + zB - zA) < RA * RA;
  g_tir : 0 < 1 - ix * ix * (1 - fco zA RA zB RB ix h * fco zA RA zB RB ix h); g_ev : 0 < fev zA RA zB RB ix h; g_mx : zA - RA * fa RA h - zp + ft zA RA zB RB ix h < mx }.
Lemma power_pos : 0 < Pw.
Proof.
  assert (I1 : 0 < / ix < 1). { split; [apply Rinv_0_lt_compat; lra|]. rewrite <- Rinv_1. apply Rinv_lt_contravar; lra. }
  assert (K : 0 < RA + RB - T * (1 - / ix)) by (unfold T; nra). unfold Pw. replace (/ RA + (1 - T * ((1 - / ix) / RA)) / RB) with ((RA + RB - T * (1 - / ix)) / (RA * RB)) by (field; lra).
  apply Rmult_lt_0_compat; [lra|]. apply Rdiv_lt_0_compat; [lra|]. apply Rmult_lt_0_compat; assumption.
Qed.
Lemma near_good : near0 good.
Proof.
  assert (La := lim_a RA). assert (Lxi := lim_xi zA RA zB). assert (Lt := lim_t zA RA zB RB ix PB).
  assert (C1 : near0 (fun h => h < RA)) by (apply (tends_lt _ 0); [apply tends_id|exact PA]).
  assert (C2 : near0 (fun h => 1e-12 < zA - RA * fa RA h - zp)). { apply (tends_gt _ (zA - RA * 1 - zp)); [|lra]. apply tends_sub; [apply tends_sub; [apply tends_const|apply tends_mul; [apply tends_const|exact La]]|apply tends_const]. }
  assert (C3 : near0 (fun h => h * h + fxi zA RA zB h * fxi zA RA zB h < RB * RB)). { eapply tends_lt; [apply tends_add; [apply tends_mul; apply tends_id|apply tends_mul; exact Lxi]|nra]. }
  assert (C4 : near0 (fun h => h * h + (1e-8 - RA * fa RA h) * (1e-8 - RA * fa RA h) < RA * RA)).
  { assert (L8 : tends (fun h => 1e-8 - RA * fa RA h) (1e-8 - RA * 1)) by (apply tends_sub; [apply tends_const|apply tends_mul; [apply tends_const|exact La]]). eapply tends_lt; [apply tends_add; [apply tends_mul; apply tends_id|apply tends_mul; exact L8]|]. nra. }
  assert (C5 : near0 (fun h => h * h + (1e-8 + fxi zA RA zB h) * (1e-8 + fxi zA RA zB h) < RB * RB)).
  { assert (L8 : tends (fun h => 1e-8 + fxi zA RA zB h) (1e-8 + (zA - RA - zB))) by (apply tends_add; [apply tends_const|exact Lxi]). eapply tends_lt; [apply tends_add; [apply tends_mul; apply tends_id|apply tends_mul; exact L8]|]. nra. }
  assert (C6 : near0 (fun h => 0 < fbe zA RA zB ix h * fbe zA RA zB ix h - fga zA RA zB RB h)). { eapply tends_gt; [apply tends_sub; [apply tends_mul; apply lim_be; assumption|apply lim_ga; assumption]|nra]. }
  assert (C7 : near0 (fun h => 1e-12 < ft zA RA zB RB ix h)) by (apply (tends_gt _ _ _ Lt); lra).
  assert (C8 : near0 (fun h => fy zA RA zB RB ix h * fy zA RA zB RB ix h * (h * h) + (fx2 zA RA zB RB ix h + zB - zA) * (fx2 zA RA zB RB ix h + zB - zA) < RA * RA)).
  { assert (Lx : tends (fun h => fx2 zA RA zB RB ix h + zB - zA) (RB + zB - zA)) by (apply tends_sub; [apply tends_add; [apply lim_x2; assumption|apply tends_const]|apply tends_const]).
    eapply tends_lt; [apply tends_add; [apply tends_mul; [apply tends_mul; apply lim_y; assumption|apply tends_mul; apply tends_id]|apply tends_mul; exact Lx]|]. nra. }
  assert (C9 : near0 (fun h => 0 < 1 - ix * ix * (1 - fco zA RA zB RB ix h * fco zA RA zB RB ix h))) by (eapply tends_gt; [apply lim_TIR; assumption|lra]).
  assert (C10 : near0 (fun h => 0 < fev zA RA zB RB ix h)) by (eapply tends_gt; [apply lim_ev; assumption|exact power_pos]).
  assert (C11 : near0 (fun h => zA - RA * fa RA h - zp + ft zA RA zB RB ix h < mx)).
  { eapply tends_lt; [apply tends_add; [apply tends_sub; [apply tends_sub; [apply tends_const|apply tends_mul; [apply tends_const|exact La]]|apply tends_const]|exact Lt]|]. lra. }
  pose proof (near0_and _ _ C1 (near0_and _ _ C2 (near0_and _ _ C3 (near0_and _ _ C4 (near0_and _ _ C5 (near0_and _ _ C6 (near0_and _ _ C7 (near0_and _ _ C8 (near0_and _ _ C9 (near0_and _ _ C10 C11)))))))))) as A.
  apply (near0_imp _ _ A). intros h _ H. decompose [and] H. constructor; assumption.
Qed.
End Near.

(** the run of one such ray *)
Lemma good_run O d zA RA zB RB ix zp mx s1 s2 tr v h r fuel : is_unit d -> 0 < RA -> 0 < RB -> 1 < ix -> good zA RA zB RB ix zp mx h -> 0 < h -> v ∙ d = 0 -> v ∙ v = h * h ->
  let sa := Ball (O + zA * d)%r3 RA in let sb := Ball (O + zB * d)%r3 RB in faces s1 s2 sa sb -> tree_of (Bin OpIntersect (Leaf s1) (Leaf s2)) tr ->
  let p := (O + v + zp * d)%r3 in ray_is r p d -> blocked r = false -> ray_type r <> "faerie_fire"%string -> (3 <= fuel)%nat ->
  let w := [OCompound (mkCompound tr "refract" (Fin ix))] in let t1 := zA - RA * fa RA h - zp in let t2 := ft zA RA zB RB ix h in
  exists q2 e r', run fuel r (Fin mx) w None = Ok (r', w) /\ blocked r' = false /\ is_unit e /\ ray_is r' (at_t q2 e (mx - t1 - t2)) e /\
    point_history r' = point_history r ++ [fv (at_t p d t1); fv q2; fv (at_t q2 e (mx - t1 - t2))] /\ at_t q2 e (fs zA RA zB RB ix h) = (O + fX zA RA zB RB ix h * d)%r3.
Proof.
  intros Ud PA PB Hix G H0 Vd Hv sa sb F HT p Hr Hb NF HF w t1 t2. destruct G as [Gin Gt1 GmB GmA8 GmB8 GS Gt GmA Gtir Gev Gmx].
  set (q1 := (O + v + (zA - RA * fa RA h) * d)%r3). assert (Eq1 : at_t p d t1 = q1) by (unfold at_t, p, q1, t1; generalize (fa RA h); intros; gr).
  assert (P12 : 0 < radius s1 /\ 0 < radius s2) by (destruct F as [[<- <-]|[<- <-]]; split; assumption).
  assert (Dd : d ∙ d = 1) by exact Ud.
  assert (Sq : forall x y, (x * v + y * d)%r3 ∙ (x * v + y * d)%r3 = x * x * (h * h) + y * y) by (intros x y; autorewrite with dotr; rewrite (dot_comm d v), Vd, Dd, Hv; ring).
  assert (MA : forall c R q x y, 0 < R -> (q - c)%r3 = (x * v + y * d)%r3 -> x * x * (h * h) + y * y < R * R -> member (Ball c R) q). { intros c R q x y PR E L. cbn [member]. unfold in_ball, dist3. rewrite E. apply lt_of; [exact PR|]. rewrite Sq. exact L. }
  pose proof (q1_in O d zA RA PA v h) as Ei. pose proof (q1_on O d zA RA Ud PA v h Vd Hv H0 Gin) as So. fold q1 sa in Ei, So.
  pose proof (a_facts RA PA h H0 Gin) as [Ea A]. pose proof (in_unit d RA Ud PA v h Vd Hv H0 Gin) as Ui.
  destruct (o_bends d RA ix Ud PA Hix v h Vd Hv H0 Gin) as [NT Bo].
  assert (Du : d ∙ (fa RA h * d - / RA * v)%r3 = fa RA h) by (autorewrite with dotr; rewrite (dot_comm d v), Vd, Dd; ring).
  assert (En : entry sa sb p d t1).
  { split; [exact Gt1|]. rewrite Eq1, Ei, Du. split; [exact So|]. split; [lra|]. apply (MA _ _ _ 1 (fxi zA RA zB h)); [exact PB|unfold q1, fxi; generalize (fa RA h); intros; gr|lra]. }
  destruct (C71_singlet s1 s2 tr ix r p d mx sa sb t1 HT (proj1 P12) (proj2 P12) ltac:(lra) Hr Ud Hb NF F En I) as (o & Uo & Bo' & _ & Run).
  { rewrite <- at_t_at, Eq1. apply (MA _ _ _ 1 (1e-8 - RA * fa RA h)); [exact PA|unfold at_t, q1; generalize (fa RA h) 1e-8; intros; gr|lra]. }
  { rewrite <- at_t_at, Eq1. apply (MA _ _ _ 1 (1e-8 + fxi zA RA zB h)); [exact PB|unfold at_t, q1, fxi; generalize (fa RA h) 1e-8; intros; gr|lra]. }
  rewrite Eq1, Ei in Bo', Run. specialize (Run NT).
  assert (Eo : o = (fg RA ix h * d - fde RA ix h / RA * v)%r3). { apply (bends_unique 1 ix (fa RA h * d - / RA * v)%r3 d); [exact Ui|lra|lra|exact Bo'|exact Bo]. }
  set (q2 := (O + zB * d + fy zA RA zB RB ix h * v + fx2 zA RA zB RB ix h * d)%r3). set (e := (fed zA RA zB RB ix h * d - fev zA RA zB RB ix h * v)%r3).
  pose proof (q2_at O d zA RA zB RB ix v h) as Eq2. fold q1 q2 in Eq2. rewrite <- Eo in Eq2. fold t2 in Eq2.
  pose proof (q2_on O d zA RA zB RB ix Ud PA PB Hix v h Vd Hv H0 Gin GS) as So2. fold q2 sb in So2. pose proof (q2_in O d zA RA zB RB ix v h) as Ei2. fold q2 sb in Ei2.
  pose proof (o_u2 O d zA RA zB RB ix Ud PA PB Hix v h Vd Hv H0 Gin) as Ou. rewrite <- Eo in Ou.
  pose proof (e_u2 O d zA RA zB RB ix Ud PA PB Hix v h Vd Hv H0 Gin GS) as Eu. fold e in Eu.
  pose proof (e_is_unit O d zA RA zB RB ix Ud PA PB Hix v h Vd Hv H0 Gin GS Gtir) as Ue. fold e in Ue.
  destruct (e_bends O d zA RA zB RB ix Ud PA PB Hix v h Vd Hv H0 Gin GS Gtir) as [NT2 Be]. fold e in Be. rewrite <- Eo in NT2, Be.
  set (u2 := ((fy zA RA zB RB ix h / RB) * v + (fx2 zA RA zB RB ix h / RB) * d)%r3) in *.
  assert (CO : 0 < fco zA RA zB RB ix h) by (unfold fco; apply Rdiv_lt_0_compat; [apply sqrt_lt_R0; exact GS|exact PB]). assert (CE : 0 < fce zA RA zB RB ix h) by (unfold fce; apply sqrt_lt_R0; exact Gtir).
  assert (Gl : glass s1 s2 ix q1 o t2 [q2] q2 e).
  { rewrite <- Eq2. apply (glass_out s1 s2 ix sb sa q1 o t2 e).
    - destruct F as [[-> ->]|[-> ->]]; [right|left]; split; reflexivity.
    - split; [exact Gt|]. rewrite Eq2, Ei2. split; [exact So2|]. split; [rewrite dot_opp_r; lra|]. apply (MA _ _ _ (fy zA RA zB RB ix h) (fx2 zA RA zB RB ix h + zB - zA)); [exact PA|unfold q2; generalize (fy zA RA zB RB ix h) (fx2 zA RA zB RB ix h); intros; gr|lra].
    - exact I.
    - rewrite Eq2, Ei2. exact NT2.
    - rewrite Eq2, Ei2. exact Be.
    - rewrite Eq2, Ei2, dot_opp_r. lra. }
  destruct (Run t2 [q2] q2 e Gl Gmx fuel ltac:(cbn; lia)) as (r' & R1 & R2 & R3' & R4).
  exists q2, e, r'. split; [exact R1|]. split; [exact R2|]. split; [exact Ue|]. split; [exact R3'|]. split; [rewrite Eq1; exact R4|]. apply crossing. lra.
Qed.

(** C88, the lensmaker's equation: a refracting Compound that is the intersection of two balls A and B with centres on an axis (through O along d, centres at zA and zB), index ix > 1, the front vertex
    zA - RA belonging to A and the back vertex zB + RB to B, thicker than 1e-8, alone in the scene; rays parallel to the axis from the plane at zp.  With the thickness T, the power
    P = (ix - 1) (1/RA + 1/RB - (ix - 1) T / (ix RA RB)) and the back focal distance BFD = (1 - (ix - 1) T / (ix RA)) / P: as the height of the ray tends to 0 it is refracted exactly twice, then flies
    on a line that crosses the axis, and the crossing tends to the point BFD behind the back vertex; the segments of the path tend to those along the axis. *)
Theorem C88_lensmaker : forall O d zA RA zB RB ix zp mx s1 s2 tr, is_unit d -> 0 < RA -> 0 < RB -> 1 < ix ->
  faces s1 s2 (Ball (O + zA * d)%r3 RA) (Ball (O + zB * d)%r3 RB) -> tree_of (Bin OpIntersect (Leaf s1) (Leaf s2)) tr ->
  zB - RB < zA - RA -> zA - RA + 1e-8 < zB + RB -> zB + RB < zA + RA -> zp + 1e-12 < zA - RA -> zB + RB - zp < mx ->
  let w := [OCompound (mkCompound tr "refract" (Fin ix))] in let T := zB + RB - (zA - RA) in
  let P := (ix - 1) * (1 / RA + 1 / RB - (ix - 1) * T / (ix * RA * RB)) in let BFD := (1 - (ix - 1) * T / (ix * RA)) / P in
  0 < P /\ forall eps, 0 < eps -> exists del, 0 < del /\ forall v r fuel, v ∙ d = 0 -> 0 < len v < del -> ray_is r (O + v + zp * d)%r3 d -> blocked r = false -> ray_type r <> "faerie_fire"%string -> (3 <= fuel)%nat ->
    exists q1 q2 e r' t1 t2 s X, run fuel r (Fin mx) w None = Ok (r', w) /\ blocked r' = false /\ is_unit e /\ q1 = at_t (O + v + zp * d)%r3 d t1 /\
      ray_is r' (at_t q2 e (mx - t1 - t2)) e /\ point_history r' = point_history r ++ [fv q1; fv q2; fv (at_t q2 e (mx - t1 - t2))] /\
      Rabs (t1 - (zA - RA - zp)) < eps /\ Rabs (t2 - T) < eps /\
      at_t q2 e s = (O + X * d)%r3 /\ Rabs (s - BFD) < eps /\ Rabs (X - (zB + RB + BFD)) < eps.
Proof.
  intros O d zA RA zB RB ix zp mx s1 s2 tr Ud PA PB Hix F HT F1 F2 F3 F4 F5 w T P BFD.
  pose proof (power_pos zA RA zB RB ix PA PB Hix F1 F2 F3) as PP. cbv zeta in PP. fold T in PP.
  set (Q := (ix - 1) * (/ RA + (1 - T * ((1 - / ix) / RA)) / RB)) in PP. assert (EP : P = Q) by (unfold P, Q; field; lra).
  set (y := 1 - T * ((1 - / ix) / RA)). assert (EB : BFD = y / Q) by (unfold BFD; rewrite EP; f_equal; unfold y; field; lra).
  split; [lra|]. intros eps He.
  assert (NQ : Q <> 0) by lra.
  pose proof (near_good zA RA zB RB ix zp mx PA PB Hix F1 F2 F3 F4 F5) as N1.
  pose proof (lim_s zA RA zB RB ix PA PB Hix NQ eps He) as N2. pose proof (lim_X zA RA zB RB ix PA PB Hix NQ eps He) as N3. pose proof (lim_t zA RA zB RB ix PB eps He) as N4.
  assert (N5 : near0 (fun h => Rabs (zA - RA * fa RA h - zp - (zA - RA * 1 - zp)) < eps)) by (apply (tends_sub (fun h => zA - RA * fa RA h) (fun _ => zp) _ _ (tends_sub _ _ _ _ (tends_const zA) (tends_mul _ _ _ _ (tends_const RA) (lim_a RA))) (tends_const zp)); exact He).
  destruct (near0_and _ _ N1 (near0_and _ _ N2 (near0_and _ _ N3 (near0_and _ _ N4 N5)))) as (del & D0 & H). exists del. split; [exact D0|].
  intros v r fuel Vd Hl Hr Hb NF HF. destruct (H (len v) Hl) as (G & L1 & L2 & L3 & L4).
  destruct (good_run O d zA RA zB RB ix zp mx s1 s2 tr v (len v) r fuel Ud PA PB Hix G ltac:(lra) Vd (eq_sym (len_sq v)) F HT Hr Hb NF HF) as (q2 & e & r' & R1 & R2 & Ue & R3' & R4 & R5).
  exists (at_t (O + v + zp * d)%r3 d (zA - RA * fa RA (len v) - zp)), q2, e, r', (zA - RA * fa RA (len v) - zp), (ft zA RA zB RB ix (len v)), (fs zA RA zB RB ix (len v)), (fX zA RA zB RB ix (len v)).
  split; [exact R1|]. split; [exact R2|]. split; [exact Ue|]. split; [reflexivity|]. split; [exact R3'|]. split; [exact R4|]. rewrite EB. split; [rewrite Rmult_1_r in L4; exact L4|]. split; [exact L3|]. split; [exact R5|]. split; [exact L1|exact L2].
Qed.
Print Assumptions C88_lensmaker.

(** the lens of script_testBestformLens.py (r1 = 60.02, r2 = 353.30, thickness 4.0, index 1.5167, back focal distance given as 97.3): the equation puts the focus between 97.3 and 97.4 behind the back vertex *)
Example C88_hyp : let O := mk3 0 400 0 in let d := mk3 0 1 0 in let RA := 60.02 in let RB := 353.30 in let zA := RA - (4.0 - (100 - 97.3)) in let zB := - RB + (100 - 97.3) in let ix := 1.5167 in
  (exists tr, tree_of (Bin OpIntersect (Leaf (Ball (O + zA * d)%r3 RA)) (Leaf (Ball (O + zB * d)%r3 RB))) tr) /\ is_unit d /\ 1 < ix /\
  zB - RB < zA - RA /\ zA - RA + 1e-8 < zB + RB /\ zB + RB < zA + RA /\ -400 + 1e-12 < zA - RA /\ zB + RB - -400 < 550 /\
  let T := zB + RB - (zA - RA) in let P := (ix - 1) * (1 / RA + 1 / RB - (ix - 1) * T / (ix * RA * RB)) in 97.3 < (1 - (ix - 1) * T / (ix * RA)) / P < 97.4.
Proof.
  intros O d RA RB zA zB ix. split.
  { assert (T : forall c rad, exists t, tree_of (Leaf (Ball c rad)) t).
    { intros c rad. eexists. eapply TO_ball with (Ro := Some rad) (Do := None); [reflexivity|]. unfold mk_sphere. cbn [fo option_map]. rewrite check_R_only. reflexivity. }
    destruct (T (O + zA * d)%r3 RA) as [a Ha], (T (O + zB * d)%r3 RB) as [b Hb]. eexists. apply TO_bin; eassumption. }
  split; [unfold is_unit, d, r3dot; cbn [cx cy cz]; ring|]. do 6 (split; [unfold zA, zB, RA, RB, ix; lra|]). intros T P. assert (ET : T = 4) by (unfold T, zA, zB, RA, RB; lra).
  assert (PP : 0.010037 < P < 0.010039) by (unfold P, RA, RB, ix; rewrite ET; split; lra). assert (Ey : 0.9772 < 1 - (ix - 1) * T / (ix * RA) < 0.9774) by (unfold RA, ix; rewrite ET; split; lra).
  clearbody P. split; apply Rmult_lt_reg_r with P; try lra; unfold Rdiv at 1; rewrite (Rmult_assoc _ (/ P)), Rinv_l by lra; lra.
Qed.
