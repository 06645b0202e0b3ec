(** Property C64: a ray through a ball lens of real glass. *)
From Coq Require Import Reals ZArith Lra Lia Psatz String List Bool.
From Verif Require Import PyErr Num Vec Shapes Csg Optics Spec XReal RVec VecProofs AngleProofs FlatProofs SphereProofs CylProofs ShapeExtra
  TreeProofs SolidProofs CsgProofs RayProofs RunGen NoFuel RunXr OpticHits StateXr OrderProofs FlatOptic Props_Ray Props_Loop Props_Run Props_Rehit SceneProofs Props_Scene.
Import ListNotations.
Local Open Scope R_scope.

Lemma ball_lens_data c n D f ty ix l : mk_lens (fv c) n "spherical" (Some (Fin D)) f ty (Fin ix) = Ok l -> le_type l = ty /\ le_index l = Fin ix.
Proof.
  unfold mk_lens. change (String.eqb "spherical" "spherical_biconvex") with false. change (String.eqb "spherical" "spherical") with true. cbn iota.
  intros E. apply bind_ok in E. destruct E as (ci & _ & E). injection E as <-. auto.
Qed.
Lemma first_ahead_unique c R p d t t' : first_ahead c R p d t -> first_ahead c R p d t' -> t = t'.
Proof. intros (A1 & A2 & A3) (B1 & B2 & B3). specialize (A3 t' B1 B2). specialize (B3 t A1 A2). lra. Qed.

Section Ball.
Variables (c : R3) (n : option (vec xr)) (D : R) (f : option xr) (ty : string) (ix : R) (l : lens xr).
Hypotheses (HD : D <> 0) (Hty : real_type ty) (Hix : 0 < ix).
Hypothesis El : mk_lens (fv c) n "spherical" (Some (Fin D)) f ty (Fin ix) = Ok l.
Let R := Rabs (D / 2).
Lemma R_pos : 0 < R. Proof. apply Rabs_pos_lt. lra. Qed.

(** one iteration of run that refracts at the sphere *)
Lemma ball_body m st rm p d t (e1 e2 : Rdefinitions.R) : rs_remaining st = Fin rm -> ray_is (rs_ray st) p d -> is_unit d -> ray_type (rs_ray st) <> "faerie_fire"%string ->
  rs_world st = [OLens l] -> first_ahead c R p d t -> t <= rm ->
  let u := outward c R (at_t p d t) in d ∙ u <> 0 -> e1 = (if Rltb (d ∙ u) 0 then 1 else ix) -> e2 = (if Rltb (d ∙ u) 0 then ix else 1) -> ~ total_reflection e1 e2 u d ->
  exists o st', is_unit o /\ (e1 * perp u d)%r3 = (e2 * perp u o)%r3 /\ 0 <= (d ∙ u) * (o ∙ u) /\
    run_body (Fin m) st = Ok st' /\ rs_ray st' = set_direction (fly (rs_ray st) (Fin t)) (fv o) /\ rs_world st' = [OLens l] /\ rs_remaining st' = Fin (rm - t) /\ rs_count st' = (rs_count st + 1)%Z.
Proof.
  intros Hrm Hr Ud NF W F Lt u Nz E1 E2 NTR. pose proof R_pos as PR. pose proof F as (F1 & On & _). fold R in On.
  assert (NT : ~ tangent c (D / 2) p d) by (eapply crossing_not_tangent; [exact PR|exact Ud|exact On|exact Nz|reflexivity]).
  destruct (ball_lens_report c n D f ty ix l p d (rs_ray st) HD El Ud Hr NT) as (h & Eh & Rp & b & Eb). fold R in Rp.
  destruct Rp as [t' F' Fl Pt Nm Un Side|No _]; [|exfalso; exact (No t F)]. assert (t' = t) as -> by (eapply first_ahead_unique; eassumption). fold u in Nm, Un, Side.
  destruct (ball_lens_data _ _ _ _ _ _ _ El) as [Ty Ix]. destruct Hty as (K1 & K2 & K3). apply String.eqb_neq in K1, K2, K3.
  set (r1 := fly (rs_ray st) (Fin t)). assert (Hd1 : direction r1 = fv d) by (destruct Hr; assumption).
  assert (Dx : distance_between (position (rs_ray st)) (fv (at_t p d t)) = Fin t) by (rewrite (proj1 Hr), distance_fv, fly_to by (try assumption; lra); reflexivity).
  assert (Law : exists o, is_unit o /\ (e1 * perp u d)%r3 = (e2 * perp u o)%r3 /\ 0 <= (d ∙ u) * (o ∙ u) /\
    optic_do_intersect (OLens l) r1 (fv (at_t p d t)) (Some (fv u)) (SfoBool b) = Ok (set_direction r1 (fv o), OLens l)).
  { cbn [optic_do_intersect]. unfold lens_do_intersect. rewrite Ty, K1, K2, K3, Ix, nofZ_fin. cbn [need bind sfo_truthy].
    destruct Side as [(Sd & Hb)|(Sd & Hb)]; rewrite (Hb b Eb).
    - rewrite Rltb_true in E1, E2 by exact Sd. subst e1 e2. destruct (snell_spec r1 d u 1 ix Hd1 Ud Un ltac:(lra) Hix NTR) as (o & A & B1 & B2 & _ & B3 & _).
      exists o. repeat split; auto. rewrite A. reflexivity.
    - rewrite Rltb_false in E1, E2 by lra. subst e1 e2. rewrite vopp_fv. rewrite <- total_opp in NTR. destruct (snell_spec r1 d (- u)%r3 ix 1 Hd1 Ud (unit_opp _ Un) Hix ltac:(lra) NTR) as (o & A & B1 & B2 & _ & B3 & _).
      exists o. rewrite !perp_opp in B2. rewrite !dot_opp_r in B3. split; [exact B1|]. split; [exact B2|]. split; [lra|]. rewrite A. reflexivity. }
  destruct Law as (o & Uo & Po & So & Ed). destruct h as [hf hp hn hs]. cbn [h4_flag h4_pt h4_normal h4_sfo] in *. subst hf hp hn hs.
  exists o. eexists. split; [exact Uo|]. split; [exact Po|]. split; [exact So|]. split.
  - eapply (body_sel m st rm _ 0 (fv (at_t p d t)) (Some (fv u)) (SfoBool b) (OLens l) t Hrm).
    + rewrite W. cbn [scan]. rewrite (step_hit (rs_ray st) rm _ _ 0 (OLens l) _ _ _ t eq_refl Eh Dx) by lra. cbn [bind]. reflexivity.
    + reflexivity.
    + reflexivity.
    + reflexivity.
    + rewrite W. reflexivity.
    + exact Dx.
    + exact NF.
    + exact Ed.
  - cbn. rewrite W. auto.
Qed.
(** the iteration after leaving *)
Lemma ball_free m st rm q d : rs_remaining st = Fin rm -> ray_is (rs_ray st) q d -> is_unit d -> rs_world st = [OLens l] -> on_sphere c R q -> 0 < d ∙ outward c R q ->
  exists st', run_body (Fin m) st = Ok st' /\ rs_ray st' = fly (rs_ray st) (Fin rm) /\ rs_world st' = [OLens l] /\ rs_remaining st' = Fin (rm - m).
Proof.
  intros Hrm Hr Ud W On Out. pose proof R_pos as PR.
  assert (Z : at_t q d 0 = q) by (unfold at_t; r3r).
  assert (NT : ~ tangent c (D / 2) q d) by (eapply crossing_not_tangent with (t := 0); [exact PR|exact Ud|rewrite Z; exact On|rewrite Z; lra|reflexivity]).
  destruct (ball_lens_report c n D f ty ix l q d (rs_ray st) HD El Ud Hr NT) as (h & Eh & Rp & b & Eb). fold R in Rp.
  destruct Rp as [t F Fl _ _ _ _|_ Fl].
  - exfalso. destruct F as (F1 & F2 & _). pose proof (leaves_sphere c R q d PR Ud On Out t ltac:(lra)). unfold on_sphere in F2. lra.
  - destruct h as [hf hp hn hs]. cbn [h4_flag] in Fl. subst hf.
    destruct (body_free m st rm q d Hrm Hr) as (st' & B & Ry & W' & Rm & _).
    + rewrite W. apply Forall_cons; [|apply Forall_nil]. right. cbn [optic_test_intersect]. rewrite Eh. eexists. split; [reflexivity|cbn; discriminate].
    + rewrite W. intros [|[|j]] o x pt nn Ej; try discriminate Ej. injection Ej as <-. intros (_ & s & E & _). cbn [optic_test_intersect] in E. rewrite Eh in E. discriminate E.
    + exists st'. rewrite W in W'. auto.
Qed.

Lemma sine_dot v w a b : is_unit v -> is_unit w -> is_unit a -> is_unit b -> (a ∙ v) * (a ∙ v) = (b ∙ w) * (b ∙ w) -> sine v a = sine w b.
Proof.
  intros. pose proof (sine_sq v a ltac:(assumption) ltac:(assumption)). pose proof (sine_sq w b ltac:(assumption) ltac:(assumption)).
  pose proof (sine_bound v a ltac:(assumption) ltac:(assumption)). pose proof (sine_bound w b ltac:(assumption) ltac:(assumption)). nra.
Qed.
Lemma outward_unit q : on_sphere c R q -> is_unit (outward c R q).
Proof.
  intros On. pose proof R_pos. unfold is_unit, outward, on_sphere in *. rewrite dot_scale_l, dot_scale_r, <- dist3_sq, On. field. lra.
Qed.

Variables (r : ray xr) (p d : R3) (t1 m : Rdefinitions.R).
Hypotheses (Hr : ray_is r p d) (Ud : is_unit d) (Hb : blocked r = false) (NF : ray_type r <> "faerie_fire"%string).
Hypothesis F1 : first_ahead c R p d t1.
Let q1 := at_t p d t1.
Let u1 := outward c R q1.
Hypotheses (In : d ∙ u1 < 0) (Sub : sine u1 d < ix).

Lemma ball_run fuel : (3 <= fuel)%nat -> exists o, is_unit o /\ perp u1 d = (ix * perp u1 o)%r3 /\ o ∙ u1 < 0 /\
  let t2 := - 2 * R * (o ∙ u1) in let q2 := at_t q1 o t2 in let u2 := outward c R q2 in
  on_sphere c R q2 /\ (1e-12 < t2 -> t1 + t2 < m -> 
  exists e r', is_unit e /\ perp u2 e = (ix * perp u2 o)%r3 /\ e ∙ u2 = - (d ∙ u1) /\
    run fuel r (Fin m) [OLens l] None = Ok (r', [OLens l]) /\ blocked r' = false /\ ray_is r' (at_t q2 e (m - t1 - t2)) e /\
    point_history r' = point_history r ++ [fv q1; fv q2; fv (at_t q2 e (m - t1 - t2))]).
Proof.
  intros HF. pose proof R_pos as PR. pose proof F1 as (T1 & On1 & _). fold q1 in On1. pose proof (outward_unit q1 On1) as U1. fold u1 in U1.
  pose proof (sine_bound u1 d U1 Ud) as SB. pose proof (sine_sq u1 d U1 Ud) as SQ.
  assert (NT1 : ~ total_reflection 1 ix u1 d) by (unfold total_reflection; lra).
  (* the refracted direction does not depend on the budget *)
  destruct (snell_spec (set_direction r (fv d)) d u1 1 ix eq_refl Ud U1 ltac:(lra) Hix NT1) as (o & Ao & Uo & Po & _ & So & _).
  assert (Po' : perp u1 d = (ix * perp u1 o)%r3) by (rewrite <- Po; r3r).
  assert (S1 : sine u1 d = ix * sine u1 o). { unfold sine. rewrite Po', len_scale, Rabs_right by lra. reflexivity. }
  pose proof (sine_bound u1 o U1 Uo) as SBo. pose proof (sine_sq u1 o U1 Uo) as SQo.
  assert (Lo : sine u1 o < 1) by nra.
  assert (No : o ∙ u1 < 0). { assert (o ∙ u1 <> 0) by (intros Z; rewrite Z in SQo; nra). assert (~ 0 < o ∙ u1) by (intros Z; assert ((d ∙ u1) * (o ∙ u1) < 0) by nra; lra). lra. }
  exists o. split; [exact Uo|]. split; [exact Po'|]. split; [exact No|]. intros t2 q2 u2.
  assert (Eu : (q1 - c)%r3 = (R * u1)%r3). { unfold u1, outward. replace (R * (/ R * (q1 - c)))%r3 with ((R * / R) * (q1 - c))%r3 by r3r. rewrite Rinv_r by lra. r3r. }
  assert (Sph : forall t, on_sphere c R (at_t q1 o t) <-> t = 0 \/ t = t2).
  { intros t. unfold on_sphere. assert (Sq : dist3 (at_t q1 o t) c * dist3 (at_t q1 o t) c = R * R + t * (t - t2)).
    { rewrite dist3_sq. replace (at_t q1 o t - c)%r3 with ((q1 - c) + t * o)%r3 by r3r. rewrite Eu. unfold t2. unfold is_unit in *. clearbody u1 R. clear - U1 Uo. autorewrite with dotr.
      rewrite (dot_comm u1 o), U1, Uo. ring. }
    assert (0 <= dist3 (at_t q1 o t) c) by apply len_nonneg. split.
    - intros E. rewrite E in Sq. assert (X : t * (t - t2) = 0) by lra. apply Rmult_integral in X. destruct X; [left|right]; lra.
    - intros E. assert (X : t * (t - t2) = 0) by (destruct E; subst t; ring). nra. }
  assert (On2 : on_sphere c R q2) by (apply Sph; right; reflexivity).
  split; [exact On2|]. intros T2 Bud. pose proof (outward_unit q2 On2) as U2. fold u2 in U2.
  assert (D2 : o ∙ u2 = - (o ∙ u1)).
  { unfold u2, outward, q2. replace (at_t q1 o t2 - c)%r3 with ((q1 - c) + t2 * o)%r3 by r3r. rewrite Eu, dot_scale_r, dot_add_r, !dot_scale_r. unfold is_unit in Uo. rewrite Uo. unfold t2. field. lra. }
  (* entry *)
  destruct (ball_body m (run_init r (Fin m) [OLens l]) m p d t1 1 ix eq_refl Hr Ud NF eq_refl F1) as (o1 & st1 & Uo1 & Po1 & So1 & B1 & Ry1 & W1 & Rm1 & _).
  { lra. } { fold q1 u1. lra. } { fold q1 u1. rewrite Rltb_true by exact In. reflexivity. } { fold q1 u1. rewrite Rltb_true by exact In. reflexivity. } { exact NT1. }
  fold q1 u1 in Po1, So1.
  assert (o1 = o) as ->.
  { assert (Pe : perp u1 o1 = perp u1 o). { assert (K : (ix * perp u1 o1)%r3 = (ix * perp u1 o)%r3) by congruence.
      replace (perp u1 o1) with ((/ ix * ix) * perp u1 o1)%r3 by (rewrite Rinv_l by lra; r3r). replace ((/ ix * ix) * perp u1 o1)%r3 with (/ ix * (ix * perp u1 o1))%r3 by r3r. rewrite K.
      replace (/ ix * (ix * perp u1 o))%r3 with ((/ ix * ix) * perp u1 o)%r3 by r3r. rewrite Rinv_l by lra. r3r. }
    pose proof (sine_sq u1 o1 U1 Uo1) as SQ1. assert (Sine1 : sine u1 o1 = sine u1 o) by (unfold sine; rewrite Pe; reflexivity). rewrite Sine1 in SQ1.
    assert (E : o1 ∙ u1 = o ∙ u1). { assert (~ 0 < o1 ∙ u1) by (intros Z; assert ((d ∙ u1) * (o1 ∙ u1) < 0) by nra; lra). nra. }
    replace o1 with (perp u1 o1 + (o1 ∙ u1) * u1)%r3 by r3r. rewrite Pe, E. r3r. }
  assert (Hr1 : ray_is (rs_ray st1) q1 o) by (rewrite Ry1; apply (set_dir_ray _ _ d), fly_ray, Hr).
  (* exit *)
  assert (F2 : first_ahead c R q1 o t2). { split; [exact T2|]. split; [apply Sph; right; reflexivity|]. intros x Lx Ox. apply Sph in Ox. destruct Ox; lra. }
  assert (S2 : sine u2 o = sine u1 o) by (apply sine_dot; auto; rewrite D2; ring).
  assert (NT2 : ~ total_reflection ix 1 u2 o) by (unfold total_reflection; rewrite S2, <- S1; lra).
  destruct (ball_body m st1 (m - t1) q1 o t2 ix 1 Rm1 Hr1 Uo) as (e & st2 & Ue & Pe & Se & B2 & Ry2 & W2 & Rm2 & _).
  { rewrite Ry1. exact NF. } { exact W1. } { exact F2. } { lra. } { fold q2 u2. lra. } { fold q2 u2. rewrite Rltb_false by lra. reflexivity. } { fold q2 u2. rewrite Rltb_false by lra. reflexivity. } { exact NT2. }
  fold q2 u2 in Pe, Se.
  assert (Pe' : perp u2 e = (ix * perp u2 o)%r3) by (rewrite Pe; r3r).
  assert (De : e ∙ u2 = - (d ∙ u1)).
  { pose proof (sine_sq u2 e U2 Ue) as SQe. assert (K : sine u2 e = sine u1 d). { rewrite S1, <- S2. unfold sine. rewrite Pe', len_scale, Rabs_right by lra. reflexivity. }
    rewrite K in SQe. assert (~ e ∙ u2 < 0) by (intros Z; assert ((o ∙ u2) * (e ∙ u2) < 0) by nra; lra). nra. }
  assert (Hr2 : ray_is (rs_ray st2) q2 e) by (rewrite Ry2; apply (set_dir_ray _ _ o), fly_ray, Hr1).
  destruct (ball_free m st2 (m - t1 - t2) q2 e Rm2 Hr2 Ue W2 On2) as (st3 & B3 & Ry3 & W3 & Rm3). { fold u2. lra. }
  exists e, (rs_ray st3). split; [exact Ue|]. split; [exact Pe'|]. split; [exact De|].
  split; [|split; [|split]].
  - assert (St : steps (Fin m) None 3 (run_init r (Fin m) [OLens l]) st3).
    { eapply steps_cons; [eapply cond_go; [reflexivity|lra|reflexivity|exact Hb]|exact B1|]. eapply steps_cons; [eapply cond_go; [exact Rm1|lra|reflexivity|rewrite Ry1; exact Hb]|exact B2|].
      eapply steps_cons; [eapply cond_go; [exact Rm2|lra|reflexivity|rewrite Ry2; cbn; rewrite Ry1; exact Hb]|exact B3|]. constructor. }
    rewrite <- W3 at 2. apply (run_steps m None 3 r [OLens l] st3 fuel St); [|exact HF]. eapply cond_spent; [exact Rm3|lra].
  - rewrite Ry3. cbn. rewrite Ry2. cbn. rewrite Ry1. exact Hb.
  - rewrite Ry3. apply fly_ray, Hr2.
  - rewrite Ry3, (fly_history _ q2 e _ Hr2), Ry2. cbn [point_history set_direction]. rewrite (fly_history _ q1 o _ Hr1), Ry1. cbn [point_history set_direction]. rewrite (fly_history _ p d _ Hr).
    fold q1 q2. rewrite <- !app_assoc. reflexivity.
Qed.
End Ball.

(** C64: a ray that meets a real ball lens (alone in the scene) from outside, below the critical angle if the glass is thinner than air, is refracted into it by Snell's law, crosses it along
    a chord, is never totally reflected at the exit, is refracted out by Snell's law with the same angle to the surface normal as at the entry, and then flies on without further
    interaction for the rest of max_distance.  The outgoing direction is 2 (d.o) o - d: the deviation is twice the deviation at the entry, in the plane of incidence.
    (Chords up to the clipping distance 1e-12 are excluded.) *)
Theorem C64_ball : forall c n D f ty ix l r p d t1 m fuel, D <> 0 -> real_type ty -> 0 < ix -> mk_lens (fv c) n "spherical" (Some (Fin D)) f ty (Fin ix) = Ok l ->
  ray_is r p d -> is_unit d -> blocked r = false -> ray_type r <> "faerie_fire"%string ->
  let R := Rabs (D / 2) in first_ahead c R p d t1 -> let q1 := at_t p d t1 in let u1 := outward c R q1 in d ∙ u1 < 0 -> sine u1 d < ix \/ 1 <= ix -> (3 <= fuel)%nat ->
  exists o, is_unit o /\ perp u1 d = (ix * perp u1 o)%r3 /\ o ∙ u1 < 0 /\
    let t2 := - 2 * R * (o ∙ u1) in let q2 := at_t q1 o t2 in let u2 := outward c R q2 in on_sphere c R q2 /\
    (1e-12 < t2 -> t1 + t2 < m ->
     exists e r', is_unit e /\ perp u2 e = (ix * perp u2 o)%r3 /\ e ∙ u2 = - (d ∙ u1) /\ e = (2 * (d ∙ o) * o - d)%r3 /\
       run fuel r (Fin m) [OLens l] None = Ok (r', [OLens l]) /\ blocked r' = false /\ ray_is r' (at_t q2 e (m - t1 - t2)) e /\
       point_history r' = point_history r ++ [fv q1; fv q2; fv (at_t q2 e (m - t1 - t2))]).
Proof.
  intros c n D f ty ix l r p d t1 m fuel HD Hty Hix El Hr Ud Hb NF R F1 q1 u1 In Sub HF.
  assert (PR : 0 < R) by (apply Rabs_pos_lt; lra). pose proof F1 as (_ & On1 & _). fold q1 in On1. assert (U1 : is_unit u1) by (eapply outward_unit; eassumption).
  assert (Sub' : sine u1 d < ix). { destruct Sub as [S|S]; [exact S|]. pose proof (sine_sq u1 d U1 Ud). pose proof (sine_bound u1 d U1 Ud). assert (0 < (d ∙ u1) * (d ∙ u1)) by nra. nra. }
  destruct (ball_run c n D f ty ix l HD Hty Hix El r p d t1 m Hr Ud Hb NF F1 In Sub' fuel HF) as (o & Uo & Po & No & Rest). fold R q1 u1 in Po, No, Rest. cbv zeta in Rest.
  exists o. split; [exact Uo|]. split; [exact Po|]. split; [exact No|]. intros t2 q2 u2. destruct Rest as [On2 Rest]. fold t2 q2 in On2, Rest. split; [exact On2|].
  intros T2 B. destruct (Rest T2 B) as (e & r' & Ue & Pe & De & Go). fold u2 in Pe, De. exists e, r'. split; [exact Ue|]. split; [exact Pe|]. split; [exact De|]. split; [|exact Go].
  assert (Eu : (q1 - c)%r3 = (R * u1)%r3). { unfold u1, outward. replace (R * (/ R * (q1 - c)))%r3 with ((R * / R) * (q1 - c))%r3 by r3r. rewrite Rinv_r by lra. r3r. }
  assert (E2 : u2 = (u1 - 2 * (o ∙ u1) * o)%r3).
  { unfold u2, outward, q2. replace (at_t q1 o t2 - c)%r3 with ((q1 - c) + t2 * o)%r3 by r3r. rewrite Eu. unfold t2.
    replace (/ R * (R * u1 + - 2 * R * (o ∙ u1) * o))%r3 with ((/ R * R) * u1 - ((/ R * R) * (2 * (o ∙ u1))) * o)%r3 by (set (k := o ∙ u1); clearbody k; r3r). rewrite Rinv_l by lra. set (k := o ∙ u1). clearbody k. r3r. }
  assert (Ed : d = (ix * perp u1 o + (d ∙ u1) * u1)%r3) by (rewrite <- Po; unfold perp; set (k := d ∙ u1); clearbody k; r3r).
  assert (Ee : e = (ix * perp u2 o + - (d ∙ u1) * u2)%r3) by (rewrite <- Pe, <- De; unfold perp; set (k := e ∙ u2); clearbody k; r3r).
  set (a := d ∙ u1) in *. set (b := o ∙ u1) in *. assert (Eb : o ∙ u2 = - b).
  { rewrite E2, dot_sub_r, dot_scale_r. fold b. unfold is_unit in Uo. rewrite Uo. ring. }
  assert (Dd : d ∙ o = ix * (1 - b * b) + a * b).
  { rewrite Ed, dot_add_l, !dot_scale_l. rewrite (dot_comm u1 o). fold b. unfold perp. rewrite dot_sub_l, dot_scale_l, (dot_comm u1 o). fold b. unfold is_unit in Uo. rewrite Uo. ring. }
  rewrite Ee, Dd, Ed. unfold perp. rewrite Eb. fold b. rewrite E2. clearbody a b. clear. r3r.
Qed.
Print Assumptions C64_ball.
(** the ball of diameter 2 and index 4/3 at the origin, a ray along x at height 4/5 *)
Example C64_hyp : mk_lens (fv r3zero) None "spherical" (Some (Fin 2)) None "real" (Fin (4/3)) = Ok ball43 /\ ray_is out_ray p_out e_x /\ first_ahead r3zero (Rabs (2 / 2)) p_out e_x (22/5) /\
  e_x ∙ outward r3zero (Rabs (2 / 2)) (at_t p_out e_x (22/5)) < 0 /\ real_type "real".
Proof.
  replace (Rabs (2 / 2)) with 1 by (rewrite Rabs_right; lra). split; [apply ball43_built|]. split; [apply out_ray_is|]. split; [|split].
  - split; [lra|]. split; [apply out_on; auto|]. intros s _ On. apply out_on in On. destruct On; lra.
  - rewrite out_q, q_outward. unfold q_in, e_x, r3dot; cbn; lra.
  - repeat split; discriminate.
Qed.
