(** C110, continued: script_testSingletLens.py and script_testBestformLens.py, from the first line to the last ray. *)
From Coq Require Import Reals ZArith Lra Lia Psatz String List Bool.
From Verif Require Import PyErr Num Vec Shapes Csg Optics General Spec XReal RVec VecProofs AngleProofs FlatProofs SphereProofs CylProofs ShapeExtra
  TreeProofs SolidProofs CsgProofs RayProofs GenProofs RunGen NoFuel RunXr OpticHits StateXr OrderProofs FlatOptic Props_Ray Props_Loop Props_Run Props_Rehit SceneProofs Props_Scene
  Props_Shape Props_Compound Props_Touch Props_General Props_Along Props_Single Props_Ball Props_Singlet Props_Focus Props_BallFocus Props_Lensmaker Props_Faerie ScriptScenes Scripts MoreScripts Props_CylScript LensScripts Props_Fan.
Import ListNotations.
Local Open Scope R_scope.

(** what is drawn of the ray that starts at (0, 0, z) along y and flies mx: enters through sphere A, leaves through sphere B, refracted at both, never totally reflected; straight on the axis, and elsewhere
    the part behind the lens crosses the y axis, at a Y with [focus z Y], before the flight ends *)
Definition fan_ray (sa sb : solid) (ix mx : R) (focus : R -> R -> Prop) (z : R) (r : ray xr) : Prop :=
  let p := mk3 0 0 z in let d := mk3 0 1 0 in
  exists q1 o q2 e t1 t2, through sa sb ix p d q1 o q2 e t1 t2 /\ t1 + t2 < mx /\
    ray_type r = "normal"%string /\ blocked r = false /\ direction r = fv e /\ point_history r = [fv p; fv q1; fv q2; fv (at_t q2 e (mx - t1 - t2))] /\
    (z = 0 -> o = d /\ e = d) /\
    (z <> 0 -> exists s Y, 0 < s <= Y + Rabs z - t1 - t2 /\ at_t q2 e s = mk3 0 Y 0 /\ focus z Y).

Lemma len_z z : len (mk3 0 0 z) = Rabs z.
Proof. match goal with |- len ?v = _ => change (len v) with (sqrt (v ∙ v)) end. replace (mk3 0 0 z ∙ mk3 0 0 z) with (Rsqr z) by (unfold r3dot, Rsqr; cbn [cx cy cz]; ring). apply sqrt_Rsqr_abs. Qed.
(** a step in the plane is no longer than its two components *)
Lemma two_legs t u v : 0 <= t -> t * t = u * u + v * v -> 0 <= u -> t <= u + Rabs v.
Proof.
  intros T E U. pose proof (Rabs_pos v) as A. apply le_sq; [lra|]. rewrite E. assert (Q : Rabs v * Rabs v = v * v) by (rewrite <- Rabs_mult; apply Rabs_right; pose proof (sq_pos v); lra).
  assert (0 <= u * Rabs v) by (apply Rmult_le_pos; lra). replace ((u + Rabs v) * (u + Rabs v)) with (u * u + Rabs v * Rabs v + 2 * (u * Rabs v)) by ring. lra.
Qed.

Section Fan.
Variables (yA RA yB RB ix m : R) (tr : tree (key xr)).
Let sa := Ball (mk3 0 yA 0) RA. Let sb := Ball (mk3 0 yB 0) RB.
Hypothesis (HT : tree_of (Bin OpIntersect (Leaf sa) (Leaf sb)) tr) (PA : 0 < RA) (PB : 0 < RB) (Hix : 1 < ix) (C1 : yB <= yA - RA) (C2 : yB + RB <= yA) (ST : 1e-12 < yA - RA) (EN : yA - RA + ix * (yB + RB - (yA - RA)) <= m).
Definition lit (z : R) : Prop := Rabs z < RA /\ Rabs z < RB /\ yA - sqrt (RA * RA - z * z) + 1e-8 < yB + sqrt (RB * RB - z * z) /\ Rabs z * (1 / RA + 1 / RB) * ix < 1.
Let w := [OCompound (mkCompound tr "refract" (Fin ix))].
Let ray0 (z : R) := mk_ray (fv (mk3 0 0 z)) (fv (mk3 0 1 0)) (Fin 532) (Fin 0) "normal"%string.

Lemma fan_one z fuel : lit z -> (3 <= fuel)%nat -> exists r', run fuel (ray0 z) (Fin m) w None = Ok (r', w) /\ fan_ray sa sb ix m (fun z Y => Y = fX yA RA yB RB ix (Rabs z)) z r'.
Proof.
  intros (HA & HB & TK & TIR) HF. set (d := mk3 0 1 0). set (v := mk3 0 0 z).
  assert (Ud : is_unit d) by (unfold is_unit, d, r3dot; cbn [cx cy cz]; ring). assert (Vd : v ∙ d = 0) by (unfold v, d, r3dot; cbn [cx cy cz]; ring).
  assert (Lv : len v = Rabs z) by apply len_z. assert (Zz : Rabs z * Rabs z = z * z) by (rewrite <- Rabs_mult; apply Rabs_right; pose proof (sq_pos z); lra).
  assert (Ax : forall y, (r3zero + y * d)%r3 = mk3 0 y 0) by (intros y; unfold d, r3zero, r3add, r3scale; cbn [cx cy cz]; f_equal; ring).
  assert (Ep : (r3zero + v + 0 * d)%r3 = mk3 0 0 z) by (unfold d, v, r3zero, r3add, r3scale; cbn [cx cy cz]; f_equal; ring).
  assert (Hr : ray_is (ray0 z) (mk3 0 0 z) d) by (split; [reflexivity|apply unit_vector_unit; exact Ud]).
  pose proof (C110_parallel r3zero d v yA RA yB RB ix 0 m sa sb tr (ray0 z) fuel Ud Vd PA PB Hix) as K. cbv zeta in K. rewrite !Ax, Ep, Lv, Zz in K. fold sa sb w in K.
  destruct (K (or_introl (conj eq_refl eq_refl)) HT HA HB C1 C2 TK TIR ltac:(lra) ltac:(lra) Hr eq_refl ltac:(discriminate) HF) as (q1 & o & q2 & e & t1 & t2 & r' & Th & Lt & Run & Bl & Rr & Hh & On & Off). clear K.
  exists r'. split; [exact Run|]. exists q1, o, q2, e, t1, t2. split; [exact Th|]. split; [exact Lt|].
  split; [destruct (proj1 (proj2 (C42_history xr _ _ (Fin m) None)) fuel _ _ _ _ Run) as (? & _ & _ & _ & _ & _ & ->); reflexivity|]. split; [exact Bl|]. split; [exact (proj2 Rr)|]. split; [exact Hh|]. split.
  - intros Z. apply On. unfold v. rewrite Z. reflexivity.
  - intros Z. destruct Off as (Eo & Ed & (k & x & Hk & Eq2) & s & Ps & Es); [intros E; apply Z; injection E; auto|]. exists s, (fX yA RA yB RB ix (Rabs z)). split; [|split; [exact Es|reflexivity]].
    split; [exact Ps|]. destruct Th as (T1 & E1 & _ & _ & _ & _ & Uo & T2 & E2 & _ & _ & _ & _ & Ue). set (Y := fX yA RA yB RB ix (Rabs z)) in *.
    assert (Ek : q2 = mk3 0 x (k * z)) by (rewrite Eq2; unfold v, d, r3zero, r3add, r3scale; cbn [cx cy cz]; f_equal; ring).
    assert (Eq1 : q1 = mk3 0 t1 z) by (rewrite E1; unfold at_t, d, r3add, r3scale; cbn [cx cy cz]; f_equal; ring).
    destruct o as [ox oy oz], e as [ex ey ez]. rewrite Eq1, Ek in E2. rewrite Ek in Es. unfold at_t, r3add, r3scale in E2, Es. cbn [cx cy cz] in E2, Es. injection E2 as X1 X2 X3. injection Es as Y1 Y2 Y3. unfold d, r3dot in Ed, Eo. cbn [cx cy cz] in Ed, Eo.
    unfold is_unit, r3dot in Uo, Ue. cbn [cx cy cz] in Uo, Ue.
    assert (Q1 : t2 * t2 = (x - t1) * (x - t1) + (k * z - z) * (k * z - z)). { replace (x - t1) with (t2 * oy) by lra. replace (k * z - z) with (t2 * oz) by lra. assert (Zo : t2 * ox = 0) by lra. transitivity (t2 * t2 * (ox * ox + oy * oy + oz * oz)); [rewrite Uo; ring|]. replace (t2 * t2 * (ox * ox + oy * oy + oz * oz)) with (t2 * ox * (t2 * ox) + t2 * oy * (t2 * oy) + t2 * oz * (t2 * oz)) by ring. rewrite Zo. ring. }
    assert (Q2 : s * s = (Y - x) * (Y - x) + (k * z) * (k * z)). { replace (Y - x) with (s * ey) by lra. replace (k * z) with (- (s * ez)) by lra. assert (Zo : s * ex = 0) by lra. transitivity (s * s * (ex * ex + ey * ey + ez * ez)); [rewrite Ue; ring|]. replace (s * s * (ex * ex + ey * ey + ez * ez)) with (s * ex * (s * ex) + s * ey * (s * ey) + s * ez * (s * ez)) by ring. rewrite Zo. ring. }
    assert (Px : 0 <= Y - x) by (replace (Y - x) with (s * ey) by lra; apply Rmult_le_pos; lra).
    assert (Ab : Rabs (k * z) <= k * Rabs z) by (rewrite Rabs_mult, (Rabs_right k) by lra; lra). assert (Ab' : Rabs (k * z - z) <= (1 - k) * Rabs z) by (replace (k * z - z) with (- ((1 - k) * z)) by ring; rewrite Rabs_Ropp, Rabs_mult, (Rabs_right (1 - k)) by lra; lra).
    pose proof (two_legs s (Y - x) (k * z) ltac:(lra) Q2 Px).
    assert (Pt : 0 <= x - t1) by (replace (x - t1) with (t2 * oy) by lra; apply Rmult_le_pos; lra). pose proof (two_legs t2 (x - t1) (k * z - z) ltac:(lra) Q1 Pt). lra.
Qed.

Lemma fan_all zs fuel : (forall z, In z zs -> lit z) -> (3 <= fuel)%nat -> exists rays, run_all fuel (map ray0 zs) (Fin m) w None = Ok (rays, w) /\ Forall2 (fan_ray sa sb ix m (fun z Y => Y = fX yA RA yB RB ix (Rabs z))) zs rays.
Proof.
  intros Hz HF. induction zs as [|z zs IH]; [exists []; split; [reflexivity|constructor]|]. destruct IH as (rays & Ra & Fa); [intros; apply Hz; now right|]. destruct (fan_one z fuel (Hz z (or_introl eq_refl)) HF) as (r' & Run & Fr).
  exists (r' :: rays). cbn [map run_all]. rewrite Run. cbn [bind]. rewrite Ra. cbn [bind]. split; [reflexivity|]. constructor; assumption.
Qed.
End Fan.

(** The script with two balls of any radii on the y axis, for rays along y at any list of heights z: the world has index 1, the lens that of its glass; each ray of the fan goes through the lens as C110_parallel says and
    crosses the axis; each faerie-fire ray makes one dot, as in C104. *)
Theorem C110_script : forall yA RA yB RB ix yc m rad zs fuel draw rfuel n, 0 < RA -> 0 < RB -> 1 < ix -> yB <= yA - RA -> yB + RB <= yA -> 1e-12 < yA - RA -> yA - RA + ix * (yB + RB - (yA - RA)) <= m ->
  (forall z, In z zs -> lit yA RA yB RB ix z) -> yA - RA < yc < yB + RB -> Rmin (Rabs (yc - yA) + RA) (Rabs (yc - yB) + RB) + 1e-12 < rad <= m -> good_draws fuel draw -> (3 <= rfuel)%nat ->
  let at_y y := mk3 0 y 0 in let sa := Ball (at_y yA) RA in let sb := Ball (at_y yB) RB in let c := at_y yc in
  exists o fan fire, two_balls "intersect" (fv (at_y yA)) (Fin (RA * 2)) (fv (at_y yB)) (Fin (RB * 2)) "refract" (Fin ix) = Ok o /\
    lens_script fuel (fun i => Fin (draw i)) rfuel [o] (fv (at_y 0)) (fv c) (Fin m) (Fin rad) [Fin 0] [Fin 0] (map Fin zs) n = Ok (Fin 1, Fin ix, (fan ++ fire, [o])) /\
    Forall2 (fan_ray sa sb ix m (fun z Y => Y = fX yA RA yB RB ix (Rabs z))) zs fan /\ List.length fire = Z.to_nat n /\
    Forall (shown (fun q => (surface sa q /\ member sb q) \/ (member sa q /\ surface sb q)) (fun u => exists x, 0 < x /\ surface sa (at_t c u x) /\ surface sb (at_t c u x)) c rad m) fire.
Proof.
  intros yA RA yB RB ix yc m rad zs fuel draw rfuel n PA PB Hix C1 C2 ST EN Hz Hc [Lr Lm] Gd Hf at_y sa sb c.
  destruct (two_balls_tree OpIntersect (at_y yA) (RA * 2) (at_y yB) (RB * 2) "refract" (Fin ix)) as (tr & E & HT). replace (RA * 2 / 2) with RA in HT by lra. replace (RB * 2 / 2) with RB in HT by lra. fold sa sb in HT.
  set (o := OCompound (mkCompound tr "refract" (Fin ix))) in *. exists o.
  destruct (fan_all yA RA yB RB ix m tr HT PA PB Hix C1 C2 ST EN zs rfuel Hz Hf) as (fan & Ra & Fa). exists fan. fold o in Ra.
  match type of Ra with run_all _ (map ?g zs) _ _ _ = _ => set (ray0 := g) in Ra end.
  assert (Mc : forall y r, Rabs (yc - y) < r -> member (Ball (at_y y) r) c) by (intros y r H; cbn [member]; unfold in_ball, c, at_y; rewrite dist_y; exact H).
  assert (M1 : member sa c) by (apply Mc; unfold Rabs; destruct Rcase_abs; lra). assert (M2 : member sb c) by (apply Mc; unfold Rabs; destruct Rcase_abs; lra).
  assert (P1 : Props_Single.proper sa) by (split; [exact PA|exact I]). assert (P2 : Props_Single.proper sb) by (split; [exact PB|exact I]).
  destruct (C51_terminates fuel draw (map ray0 zs) rad c n Gd) as (l & El). destruct (C104_aimed fuel draw (map ray0 zs) rad c n l El) as (new & -> & Ln & A).
  destruct (run_all_fire o m (shown (fun q => (surface sa q /\ member sb q) \/ (member sa q /\ surface sb q)) (fun u => exists x, 0 < x /\ surface sa (at_t c u x) /\ surface sb (at_t c u x)) c rad m) rfuel new ltac:(lia)) as (fire & Rf & Lf & Ff).
  { intros r Ir. destruct (A r Ir) as (u & Uu & Am). destruct (chord_ex sa c u P1 Uu I M1) as (a1 & b1 & Ch1). destruct (chord_ex sb c u P2 Uu I M2) as (a2 & b2 & Ch2).
    pose proof (ball_bound _ _ _ _ _ _ Uu Ch1) as B1. pose proof (ball_bound _ _ _ _ _ _ Uu Ch2) as B2. unfold c, at_y in B1, B2. rewrite dist_y in B1, B2.
    assert (Lx : Rmin a1 a2 + 1e-12 < rad) by (revert Lr; unfold Rmin; destruct (Rle_dec a1 a2), (Rle_dec (Rabs (yc - yA) + RA) (Rabs (yc - yB) + RB)); lra).
    destruct (C104_intersect sa sb tr "refract" (Fin ix) c u rad m a1 b1 a2 b2 r HT P1 P2 Uu Ch1 Ch2 Am (conj Lx Lm)) as (_ & Hit & Miss). destruct Ch1 as (Pa1 & Pb1 & S1 & Mm1), Ch2 as (Pa2 & Pb2 & S2 & Mm2). fold o in Hit, Miss.
    destruct (Req_dec a1 a2) as [Q|Q].
    - eexists _, _. split; [exact (Miss Q)|]. intros r' Tl Hb. eexists. split; [exact Tl|]. right. split; [exact Hb|]. exists u. split; [exact Uu|]. split; [reflexivity|]. exists a1. rewrite S1, S2. auto.
    - eexists _, _. split; [exact (Hit Q)|]. intros r' Tl Hb. eexists. split; [exact Tl|]. left. split; [exact Hb|]. rewrite S1, S2, Mm1, Mm2. unfold Rmin. destruct (Rle_dec a1 a2); lra. }
  exists fire. split; [exact E|]. split; [|split; [exact Fa|split; [congruence|exact Ff]]].
  assert (Md : Forall2 medium_of [o] [Some (Bin OpIntersect (Leaf sa) (Leaf sb), ix)]) by (constructor; [apply MO_compound; [exact HT|reflexivity]|constructor]).
  assert (I0 : get_index_at_point [o] (fv (at_y 0)) = Ok (Fin 1)).
  { destruct (C22_index_lookup_partial _ _ (at_y 0) Md) as (x & -> & [(pre & e & post & Ems & De & _)|(-> & _)]); [|reflexivity]. exfalso.
    destruct pre as [|? [|? ?]]; [|discriminate|discriminate]. injection Ems as <- _ _. cbn [den] in De. destruct De as [De _]. cbn [member sa] in De. unfold in_ball, at_y in De. rewrite dist_y in De. revert De. unfold Rabs. destruct Rcase_abs; lra. }
  assert (I1 : get_index_at_point [o] (fv c) = Ok (Fin ix)).
  { destruct (C22_index_lookup_partial _ _ c Md) as (x & -> & [(pre & e & post & Ems & De & _)|(-> & No)]).
    - destruct pre as [|? [|? ?]]; [|discriminate|discriminate]. injection Ems as _ <- _. reflexivity.
    - exfalso. inversion No as [|? ? Nf _]; subst. apply Nf. cbn [fills den]. split; assumption. }
  unfold lens_script. rewrite I0. cbn [bind]. rewrite I1. cbn [bind]. rewrite !nofZ_fin. cbn [flat_map app]. rewrite !app_nil_r, map_map.
  match goal with |- context [add_faerie_fire_rays fuel _ (map ?g zs)] => change (map g zs) with (map ray0 zs) end. rewrite El. cbn [bind]. rewrite (run_all_app _ _ _ _ _ _ _ _ _ _ Ra Rf). reflexivity.
Qed.
Print Assumptions C110_script.
Lemma singlet_focus h : 0 < h <= 6.35 -> 499.4 < fX 500.6 102.4 299.4 102.4 1.5167 h < 500.6.
Proof.
  intros Hh.
  assert (V0 : mk3 0 0 h ∙ mk3 0 1 0 = 0) by (unfold r3dot; cbn [cx cy cz]; ring). assert (V1 : mk3 0 0 h ∙ mk3 0 0 h = h * h) by (unfold r3dot; cbn [cx cy cz]; ring).
  assert (Ud : is_unit (mk3 0 1 0)) by (unfold is_unit, r3dot; cbn [cx cy cz]; ring).
  assert (Hhh : 0 < h * h <= 40.3225) by (split; [apply Rmult_lt_0_compat; lra|replace 40.3225 with (6.35 * 6.35) by lra; apply sq_le; lra]).
  assert (Q1 : (10220292 / 100000) <= sqrt (102.4 * 102.4 - h * h)) by (rewrite <- (sqrt_square (10220292 / 100000)) by lra; apply sqrt_le_1; lra).
  assert (Q2 : 102.4 * (998075 / 1000000) <= sqrt (102.4 * 102.4 - h * h)) by (rewrite <- (sqrt_square (102.4 * (998075 / 1000000))) by lra; apply sqrt_le_1; lra).
  pose proof (wide_facts (mk3 0 0 0) (mk3 0 1 0) (mk3 0 0 h) 500.6 102.4 299.4 102.4 1.5167 h Ud V0 V1 ltac:(lra) ltac:(lra) ltac:(lra) ltac:(lra) ltac:(lra) ltac:(lra) ltac:(lra) ltac:(lra) ltac:(lra) ltac:(lra)) as W.
  cbv zeta in W. clear Q1 Q2 V0 V1 Ud.
  assert (EX : fX 500.6 102.4 299.4 102.4 1.5167 h = 299.4 + fx2 500.6 102.4 299.4 102.4 1.5167 h + fs 500.6 102.4 299.4 102.4 1.5167 h * fed 500.6 102.4 299.4 102.4 1.5167 h) by reflexivity.
  assert (Es : fs 500.6 102.4 299.4 102.4 1.5167 h = fy 500.6 102.4 299.4 102.4 1.5167 h / fev 500.6 102.4 299.4 102.4 1.5167 h) by reflexivity.
  assert (Eev : fev 500.6 102.4 299.4 102.4 1.5167 h = 1.5167 * (fde 102.4 1.5167 h / 102.4) - (fce 500.6 102.4 299.4 102.4 1.5167 h - 1.5167 * fco 500.6 102.4 299.4 102.4 1.5167 h) * (fy 500.6 102.4 299.4 102.4 1.5167 h / 102.4)) by reflexivity.
  assert (Ede : fde 102.4 1.5167 h = fb 102.4 1.5167 h - fa 102.4 h / 1.5167) by reflexivity. assert (Exi : fxi 500.6 102.4 299.4 h = 500.6 - 102.4 * fa 102.4 h - 299.4) by reflexivity.
  destruct W as ((Ea & A) & (Eb & B) & (Eg & G) & (Eq & X0 & Ex2) & (Ey & Y & T) & (Esi & S0 & Eco) & (Ece & C) & (Ed & D0 & V0)).
  set (X := fX 500.6 102.4 299.4 102.4 1.5167 h) in *. set (s := fs 500.6 102.4 299.4 102.4 1.5167 h) in *. set (ev := fev 500.6 102.4 299.4 102.4 1.5167 h) in *. set (ed := fed 500.6 102.4 299.4 102.4 1.5167 h) in *. set (ce := fce 500.6 102.4 299.4 102.4 1.5167 h) in *. set (co := fco 500.6 102.4 299.4 102.4 1.5167 h) in *. set (S := fS 500.6 102.4 299.4 102.4 1.5167 h) in *. set (y := fy 500.6 102.4 299.4 102.4 1.5167 h) in *. set (x2 := fx2 500.6 102.4 299.4 102.4 1.5167 h) in *. set (t := ft 500.6 102.4 299.4 102.4 1.5167 h) in *. set (xi := fxi 500.6 102.4 299.4 h) in *. set (g := fg 102.4 1.5167 h) in *. set (de := fde 102.4 1.5167 h) in *. set (b := fb 102.4 1.5167 h) in *. set (a := fa 102.4 h) in *. clearbody X s ev ed ce co S y x2 t xi g de b a. rename EX into Xx.
  set (hh := h * h) in *. set (k := de / 102.4) in *. set (m := 1.5167 * co - ce). assert (Eta1 : hh / (102.4 * 102.4) <= 40.3225 / (102.4 * 102.4)) by (clear - Hhh; lra). assert (Eta0 : 0 < hh / (102.4 * 102.4)) by (clear - Hhh; lra). set (eta := hh / (102.4 * 102.4)) in *.
  assert (A0 : (998075 / 1000000) <= a) by (apply le_sq; lra). assert (B0 : (999163 / 1000000) <= b) by (apply le_sq; lra).
  assert (A1 : eta <= 2 * (1 - a)) by (pose proof (sq_pos (1 - a)); lra). assert (A2 : (1 + (998075 / 1000000)) * (1 - a) <= eta) by (assert (0 <= (1 - a) * (a - (998075 / 1000000))) by (apply Rmult_le_pos; lra); lra). set (eta2 := eta / (1.5167 * 1.5167)) in *. assert (Ee2 : eta2 * (1.5167 * 1.5167) = eta) by (unfold eta2; lra).
  assert (B1 : eta2 <= 2 * (1 - b)) by (pose proof (sq_pos (1 - b)); lra). assert (B2 : (1 + (999163 / 1000000)) * (1 - b) <= eta2) by (assert (0 <= (1 - b) * (b - (999163 / 1000000))) by (apply Rmult_le_pos; lra); lra). clearbody eta2 eta.
  assert (De : (3406738 / 10000000) <= de <= (3411070 / 10000000)) by (split; lra). assert (Kb : (332689 / 100000000) <= k <= (333113 / 100000000)) by (unfold k; split; lra). clearbody k.
  assert (KK : k * k * hh <= (333113 / 100000000) * (333113 / 100000000) * 40.3225) by (apply Rmult_le_compat; [apply sq_pos|lra|apply sq_le; lra|lra]). assert (G0 : (999776 / 1000000) <= g) by (apply le_sq; lra).
  assert (YY : y * y * hh <= 1 * 1 * 40.3225) by (apply Rmult_le_compat; [apply sq_pos|lra|apply sq_le; lra|lra]). assert (YP : 0 <= y * y * hh) by (apply Rmult_le_pos; [apply sq_pos|lra]). assert (X1 : (10220292 / 100000) <= x2) by (apply le_sq; lra). assert (X2 : x2 <= 102.4) by (apply le_sq; lra).
  assert (Xi : 500.6 - 102.4 - 299.4 <= xi <= 500.6 - 102.4 * (998075 / 1000000) - 299.4) by (rewrite Exi; split; lra).
  assert (T0 : (32057 / 10000) <= t) by (assert (t * g <= t * 1) by (apply Rmult_le_compat_l; lra); lra). assert (T1 : t <= (36009 / 10000)) by (assert (t * (999776 / 1000000) <= t * g) by (apply Rmult_le_compat_l; lra); lra).
  assert (TK : (32057 / 10000) * (332689 / 100000000) <= t * k <= (36009 / 10000) * (333113 / 100000000)) by (split; apply Rmult_le_compat; lra). assert (Yb : (988004 / 1000000) <= y <= (989335 / 1000000)) by (rewrite Ey; split; lra).
  assert (GY : g * y <= 1 * (989335 / 1000000)) by (apply Rmult_le_compat; lra). assert (GY0 : 0 <= g * y) by (apply Rmult_le_pos; lra). assert (KX : k * x2 <= (333113 / 100000000) * 102.4) by (apply Rmult_le_compat; lra). assert (KX0 : 0 <= k * x2) by (apply Rmult_le_pos; lra).
  set (P := g * y + k * x2) in *. assert (Pb : 0 <= P <= (133045 / 100000)) by (unfold P; split; lra). clearbody P.
  assert (PP : P * P <= (133045 / 100000) * (133045 / 100000)) by (apply Rmult_le_compat; lra). assert (HP : hh * (P * P) <= 40.3225 * ((133045 / 100000) * (133045 / 100000))) by (apply Rmult_le_compat; [lra|apply sq_pos|lra|lra]). assert (HP0 : 0 <= hh * (P * P)) by (apply Rmult_le_pos; [lra|apply sq_pos]).
  set (sg := hh * (P * P) / (102.4 * 102.4)). assert (Sg : 0 <= sg <= (6807 / 1000000)) by (unfold sg; split; lra).
  assert (Eco2 : 1 - co * co = sg) by (rewrite Eco; unfold sg; replace (1 - S / 102.4 * (S / 102.4)) with ((102.4 * 102.4 - S * S) / (102.4 * 102.4)) by (field; lra); rewrite Esi; unfold hh; f_equal; ring). clearbody sg. rewrite Eco2 in Ece.
  assert (C0 : 0 < co) by (rewrite Eco; lra). assert (Co0 : (99659 / 100000) <= co) by (apply le_sq; lra). assert (Co1 : co <= 1) by (apply le_sq; lra). assert (Ce0 : (99213 / 100000) <= ce) by (apply le_sq; lra). assert (Ce1 : ce <= 1) by (apply le_sq; lra).
  assert (CoL : sg <= 2 * (1 - co)) by (pose proof (sq_pos (1 - co)); lra). assert (CoU : (1 + (99659 / 100000)) * (1 - co) <= sg) by (assert (0 <= (1 - co) * (co - (99659 / 100000))) by (apply Rmult_le_pos; lra); lra). assert (CeL : 1.5167 * 1.5167 * sg <= 2 * (1 - ce)) by (pose proof (sq_pos (1 - ce)); lra). assert (CeU : (1 + (99213 / 100000)) * (1 - ce) <= 1.5167 * 1.5167 * sg) by (assert (0 <= (1 - ce) * (ce - (99213 / 100000))) by (apply Rmult_le_pos; lra); lra).
  assert (Mb : (5167 / 10000) <= m <= (519399 / 1000000)) by (unfold m; split; lra). assert (Eev' : ev = 1.5167 * k + m * y / 102.4) by (rewrite Eev; unfold m; lra). clearbody m.
  assert (MY : (5167 / 10000) * (988004 / 1000000) <= m * y <= (519399 / 1000000) * (989335 / 1000000)) by (split; apply Rmult_le_compat; lra). assert (Evb : (1003126 / 100000000) <= ev <= (1007049 / 100000000)) by (rewrite Eev'; split; lra).
  assert (Sev : s * ev = y) by (rewrite Es; field; lra). assert (Sp : 0 < s) by (rewrite Es; apply Rdiv_lt_0_compat; lra).
  assert (S1 : s * ev <= s * (1007049 / 100000000)) by (apply Rmult_le_compat_l; lra). assert (S2 : s * (1003126 / 100000000) <= s * ev) by (apply Rmult_le_compat_l; lra). assert (Sb : (98108 / 1000) <= s <= (98626 / 1000)) by (split; lra).
  assert (EE : ev * ev <= (1007049 / 100000000) * (1007049 / 100000000)) by (apply Rmult_le_compat; lra). assert (EE2 : ev * ev * hh <= (1007049 / 100000000) * (1007049 / 100000000) * 40.3225) by (apply Rmult_le_compat; [apply sq_pos|lra|lra|lra]). assert (EE3 : 0 <= ev * ev * hh) by (apply Rmult_le_pos; [apply sq_pos|lra]).
  assert (Ed0 : (99795 / 100000) <= ed) by (apply le_sq; lra). assert (Ed1 : ed <= 1) by (apply le_sq; lra).
  assert (SE : (98108 / 1000) * (99795 / 100000) <= s * ed <= (98626 / 1000) * 1) by (split; apply Rmult_le_compat; lra). rewrite Xx. split; lra.
Qed.
Lemma bestform_focus h : 0 < h <= 6.35 -> 499.4 < fX 458.72 60.02 49.4 353.3 1.5167 h < 500.6.
Proof.
  intros Hh.
  assert (V0 : mk3 0 0 h ∙ mk3 0 1 0 = 0) by (unfold r3dot; cbn [cx cy cz]; ring). assert (V1 : mk3 0 0 h ∙ mk3 0 0 h = h * h) by (unfold r3dot; cbn [cx cy cz]; ring).
  assert (Ud : is_unit (mk3 0 1 0)) by (unfold is_unit, r3dot; cbn [cx cy cz]; ring).
  assert (Hhh : 0 < h * h <= 40.3225) by (split; [apply Rmult_lt_0_compat; lra|replace 40.3225 with (6.35 * 6.35) by lra; apply sq_le; lra]).
  assert (Q1 : (35324292 / 100000) <= sqrt (353.3 * 353.3 - h * h)) by (rewrite <- (sqrt_square (35324292 / 100000)) by lra; apply sqrt_le_1; lra).
  assert (Q2 : 60.02 * (994387 / 1000000) <= sqrt (60.02 * 60.02 - h * h)) by (rewrite <- (sqrt_square (60.02 * (994387 / 1000000))) by lra; apply sqrt_le_1; lra).
  pose proof (wide_facts (mk3 0 0 0) (mk3 0 1 0) (mk3 0 0 h) 458.72 60.02 49.4 353.3 1.5167 h Ud V0 V1 ltac:(lra) ltac:(lra) ltac:(lra) ltac:(lra) ltac:(lra) ltac:(lra) ltac:(lra) ltac:(lra) ltac:(lra) ltac:(lra)) as W.
  cbv zeta in W. clear Q1 Q2 V0 V1 Ud.
  assert (EX : fX 458.72 60.02 49.4 353.3 1.5167 h = 49.4 + fx2 458.72 60.02 49.4 353.3 1.5167 h + fs 458.72 60.02 49.4 353.3 1.5167 h * fed 458.72 60.02 49.4 353.3 1.5167 h) by reflexivity.
  assert (Es : fs 458.72 60.02 49.4 353.3 1.5167 h = fy 458.72 60.02 49.4 353.3 1.5167 h / fev 458.72 60.02 49.4 353.3 1.5167 h) by reflexivity.
  assert (Eev : fev 458.72 60.02 49.4 353.3 1.5167 h = 1.5167 * (fde 60.02 1.5167 h / 60.02) - (fce 458.72 60.02 49.4 353.3 1.5167 h - 1.5167 * fco 458.72 60.02 49.4 353.3 1.5167 h) * (fy 458.72 60.02 49.4 353.3 1.5167 h / 353.3)) by reflexivity.
  assert (Ede : fde 60.02 1.5167 h = fb 60.02 1.5167 h - fa 60.02 h / 1.5167) by reflexivity. assert (Exi : fxi 458.72 60.02 49.4 h = 458.72 - 60.02 * fa 60.02 h - 49.4) by reflexivity.
  destruct W as ((Ea & A) & (Eb & B) & (Eg & G) & (Eq & X0 & Ex2) & (Ey & Y & T) & (Esi & S0 & Eco) & (Ece & C) & (Ed & D0 & V0)).
  set (X := fX 458.72 60.02 49.4 353.3 1.5167 h) in *. set (s := fs 458.72 60.02 49.4 353.3 1.5167 h) in *. set (ev := fev 458.72 60.02 49.4 353.3 1.5167 h) in *. set (ed := fed 458.72 60.02 49.4 353.3 1.5167 h) in *. set (ce := fce 458.72 60.02 49.4 353.3 1.5167 h) in *. set (co := fco 458.72 60.02 49.4 353.3 1.5167 h) in *. set (S := fS 458.72 60.02 49.4 353.3 1.5167 h) in *. set (y := fy 458.72 60.02 49.4 353.3 1.5167 h) in *. set (x2 := fx2 458.72 60.02 49.4 353.3 1.5167 h) in *. set (t := ft 458.72 60.02 49.4 353.3 1.5167 h) in *. set (xi := fxi 458.72 60.02 49.4 h) in *. set (g := fg 60.02 1.5167 h) in *. set (de := fde 60.02 1.5167 h) in *. set (b := fb 60.02 1.5167 h) in *. set (a := fa 60.02 h) in *. clearbody X s ev ed ce co S y x2 t xi g de b a. rename EX into Xx.
  set (hh := h * h) in *. set (k := de / 60.02) in *. set (m := 1.5167 * co - ce). assert (Eta1 : hh / (60.02 * 60.02) <= 40.3225 / (60.02 * 60.02)) by (clear - Hhh; lra). assert (Eta0 : 0 < hh / (60.02 * 60.02)) by (clear - Hhh; lra). set (eta := hh / (60.02 * 60.02)) in *.
  assert (A0 : (994387 / 1000000) <= a) by (apply le_sq; lra). assert (B0 : (997564 / 1000000) <= b) by (apply le_sq; lra).
  assert (A1 : eta <= 2 * (1 - a)) by (pose proof (sq_pos (1 - a)); lra). assert (A2 : (1 + (994387 / 1000000)) * (1 - a) <= eta) by (assert (0 <= (1 - a) * (a - (994387 / 1000000))) by (apply Rmult_le_pos; lra); lra). set (eta2 := eta / (1.5167 * 1.5167)) in *. assert (Ee2 : eta2 * (1.5167 * 1.5167) = eta) by (unfold eta2; lra).
  assert (B1 : eta2 <= 2 * (1 - b)) by (pose proof (sq_pos (1 - b)); lra). assert (B2 : (1 + (997564 / 1000000)) * (1 - b) <= eta2) by (assert (0 <= (1 - b) * (b - (997564 / 1000000))) by (apply Rmult_le_pos; lra); lra). clearbody eta2 eta.
  assert (De : (3406738 / 10000000) <= de <= (3419414 / 10000000)) by (split; lra). assert (Kb : (567600 / 100000000) <= k <= (569713 / 100000000)) by (unfold k; split; lra). clearbody k.
  assert (KK : k * k * hh <= (569713 / 100000000) * (569713 / 100000000) * 40.3225) by (apply Rmult_le_compat; [apply sq_pos|lra|apply sq_le; lra|lra]). assert (G0 : (999345 / 1000000) <= g) by (apply le_sq; lra).
  assert (YY : y * y * hh <= 1 * 1 * 40.3225) by (apply Rmult_le_compat; [apply sq_pos|lra|apply sq_le; lra|lra]). assert (YP : 0 <= y * y * hh) by (apply Rmult_le_pos; [apply sq_pos|lra]). assert (X1 : (35324292 / 100000) <= x2) by (apply le_sq; lra). assert (X2 : x2 <= 353.3) by (apply le_sq; lra).
  assert (Xi : 458.72 - 60.02 - 49.4 <= xi <= 458.72 - 60.02 * (994387 / 1000000) - 49.4) by (rewrite Exi; split; lra).
  assert (T0 : (36060 / 10000) <= t) by (assert (t * g <= t * 1) by (apply Rmult_le_compat_l; lra); lra). assert (T1 : t <= (40027 / 10000)) by (assert (t * (999345 / 1000000) <= t * g) by (apply Rmult_le_compat_l; lra); lra).
  assert (TK : (36060 / 10000) * (567600 / 100000000) <= t * k <= (40027 / 10000) * (569713 / 100000000)) by (split; apply Rmult_le_compat; lra). assert (Yb : (977196 / 1000000) <= y <= (979533 / 1000000)) by (rewrite Ey; split; lra).
  assert (GY : g * y <= 1 * (979533 / 1000000)) by (apply Rmult_le_compat; lra). assert (GY0 : 0 <= g * y) by (apply Rmult_le_pos; lra). assert (KX : k * x2 <= (569713 / 100000000) * 353.3) by (apply Rmult_le_compat; lra). assert (KX0 : 0 <= k * x2) by (apply Rmult_le_pos; lra).
  set (P := g * y + k * x2) in *. assert (Pb : 0 <= P <= (299233 / 100000)) by (unfold P; split; lra). clearbody P.
  assert (PP : P * P <= (299233 / 100000) * (299233 / 100000)) by (apply Rmult_le_compat; lra). assert (HP : hh * (P * P) <= 40.3225 * ((299233 / 100000) * (299233 / 100000))) by (apply Rmult_le_compat; [lra|apply sq_pos|lra|lra]). assert (HP0 : 0 <= hh * (P * P)) by (apply Rmult_le_pos; [lra|apply sq_pos]).
  set (sg := hh * (P * P) / (353.3 * 353.3)). assert (Sg : 0 <= sg <= (2893 / 1000000)) by (unfold sg; split; lra).
  assert (Eco2 : 1 - co * co = sg) by (rewrite Eco; unfold sg; replace (1 - S / 353.3 * (S / 353.3)) with ((353.3 * 353.3 - S * S) / (353.3 * 353.3)) by (field; lra); rewrite Esi; unfold hh; f_equal; ring). clearbody sg. rewrite Eco2 in Ece.
  assert (C0 : 0 < co) by (rewrite Eco; lra). assert (Co0 : (99855 / 100000) <= co) by (apply le_sq; lra). assert (Co1 : co <= 1) by (apply le_sq; lra). assert (Ce0 : (99666 / 100000) <= ce) by (apply le_sq; lra). assert (Ce1 : ce <= 1) by (apply le_sq; lra).
  assert (CoL : sg <= 2 * (1 - co)) by (pose proof (sq_pos (1 - co)); lra). assert (CoU : (1 + (99855 / 100000)) * (1 - co) <= sg) by (assert (0 <= (1 - co) * (co - (99855 / 100000))) by (apply Rmult_le_pos; lra); lra). assert (CeL : 1.5167 * 1.5167 * sg <= 2 * (1 - ce)) by (pose proof (sq_pos (1 - ce)); lra). assert (CeU : (1 + (99666 / 100000)) * (1 - ce) <= 1.5167 * 1.5167 * sg) by (assert (0 <= (1 - ce) * (ce - (99666 / 100000))) by (apply Rmult_le_pos; lra); lra).
  assert (Mb : (5167 / 10000) <= m <= (517840 / 1000000)) by (unfold m; split; lra). assert (Eev' : ev = 1.5167 * k + m * y / 353.3) by (rewrite Eev; unfold m; lra). clearbody m.
  assert (MY : (5167 / 10000) * (977196 / 1000000) <= m * y <= (517840 / 1000000) * (979533 / 1000000)) by (split; apply Rmult_le_compat; lra). assert (Evb : (1003793 / 100000000) <= ev <= (1007657 / 100000000)) by (rewrite Eev'; split; lra).
  assert (Sev : s * ev = y) by (rewrite Es; field; lra). assert (Sp : 0 < s) by (rewrite Es; apply Rdiv_lt_0_compat; lra).
  assert (S1 : s * ev <= s * (1007657 / 100000000)) by (apply Rmult_le_compat_l; lra). assert (S2 : s * (1003793 / 100000000) <= s * ev) by (apply Rmult_le_compat_l; lra). assert (Sb : (96977 / 1000) <= s <= (97584 / 1000)) by (split; lra).
  assert (EE : ev * ev <= (1007657 / 100000000) * (1007657 / 100000000)) by (apply Rmult_le_compat; lra). assert (EE2 : ev * ev * hh <= (1007657 / 100000000) * (1007657 / 100000000) * 40.3225) by (apply Rmult_le_compat; [apply sq_pos|lra|lra|lra]). assert (EE3 : 0 <= ev * ev * hh) by (apply Rmult_le_pos; [apply sq_pos|lra]).
  assert (Ed0 : (99795 / 100000) <= ed) by (apply le_sq; lra). assert (Ed1 : ed <= 1) by (apply le_sq; lra).
  assert (SE : (96977 / 1000) * (99795 / 100000) <= s * ed <= (97584 / 1000) * 1) by (split; apply Rmult_le_compat; lra). rewrite Xx. split; lra.
Qed.
(** the fan of the scripts: 21 heights evenly spaced from -6.35 to 6.35, the middle one 0 *)
Lemma script_heights : exists zs, linspace (ndiv (nopp (dec 254 1)) (nofZ 4)) (ndiv (dec 254 1) (nofZ 4)) 21 = map Fin zs /\ evenly (- 6.35) 6.35 21 zs /\ forall z, In z zs -> Rabs z <= 6.35.
Proof.
  rewrite dec_fin by discriminate. rewrite !nofZ_fin. rewrite nopp_fin, !ndiv_fin by lra.
  match goal with |- context [linspace (Fin ?a) (Fin ?b)] => replace a with (- 6.35) by lra; replace b with 6.35 by lra end.
  destruct (linspace_fin (- 6.35) 6.35 21 ltac:(lia)) as (zs & E & Ev). exists zs. split; [exact E|]. split; [exact Ev|]. intros z Iz. pose proof (evenly_bounds _ _ _ _ z Ev Iz ltac:(lra)). unfold Rabs. destruct Rcase_abs; lra.
Qed.
Lemma fan_weaken sa sb ix m (f g : R -> R -> Prop) zs fan : (forall z Y, In z zs -> z <> 0 -> f z Y -> g z Y) -> Forall2 (fan_ray sa sb ix m f) zs fan -> Forall2 (fan_ray sa sb ix m g) zs fan.
Proof.
  intros W H. induction H as [|z r zs fan (q1 & o & q2 & e & t1 & t2 & A & B & C & D & E & F & G & K) Hs IH]; [constructor|]. constructor; [|apply IH; intros; apply W; [now right|assumption|assumption]].
  exists q1, o, q2, e, t1, t2. repeat (split; [assumption|]). intros Z. destruct (K Z) as (s & Y & S1 & S2 & S3). exists s, Y. split; [exact S1|]. split; [exact S2|]. apply W; [now left|exact Z|exact S3].
Qed.

(** The two scripts with their own numbers, for any number of faerie-fire rays and whatever the random numbers: the look-ups give 1 and 1.5167; 21 rays, the middle one straight, and each of the others
    crosses the axis at a Y between 499.4 and 500.6 (f = 100 behind the lens at 400), inside its flight of 550; the faerie-fire dots are on the lens. *)
Theorem C110_lenses : forall fuel draw rfuel n, good_draws fuel draw -> (3 <= rfuel)%nat ->
  let at_y y := mk3 0 y 0 in
  let gives (script : Res (xr * xr * (list (ray xr) * list (optic xr)))) sa sb := exists zs fan fire o, evenly (- 6.35) 6.35 21 zs /\ script = Ok (Fin 1, Fin 1.5167, (fan ++ fire, [o])) /\
    Forall2 (fan_ray sa sb 1.5167 550 (fun z Y => 499.4 < Y < 500.6 /\ Y + Rabs z < 550)) zs fan /\ List.length fire = Z.to_nat n /\
    Forall (shown (fun q => (surface sa q /\ member sb q) \/ (member sa q /\ surface sb q)) (fun u => exists x, 0 < x /\ surface sa (at_t (at_y 400) u x) /\ surface sb (at_t (at_y 400) u x)) (at_y 400) 450 550) fire in
  let d := fun i => Fin (draw i) in
  gives (script_testSingletLens fuel d rfuel n) (Ball (at_y 500.6) 102.4) (Ball (at_y 299.4) 102.4) /\
  gives (script_testBestformLens fuel d rfuel n) (Ball (at_y 458.72) 60.02) (Ball (at_y 49.4) 353.3).
Proof.
  intros fuel draw rfuel n G Lf at_y gives d. destruct script_heights as (zs & Ez & Ev & Bz).
  assert (Z0 : forall y, V (nofZ 0) (Fin y) (nofZ 0) = fv (at_y y)) by (intros; rewrite nofZ_fin; reflexivity).
  assert (Zz : forall z, In z zs -> z * z <= 40.3225). { intros z Iz. replace 40.3225 with (6.35 * 6.35) by lra. pose proof (Bz z Iz). assert (Q : Rabs z * Rabs z = z * z) by (rewrite <- Rabs_mult; apply Rabs_right; pose proof (sq_pos z); lra). rewrite <- Q. apply sq_le. pose proof (Rabs_pos z). lra. }
  assert (Ix : @dec xr _ 15167 4 = Fin 1.5167) by (rewrite dec_fin by discriminate; f_equal; lra).
  assert (Sq : forall x y, 0 <= x -> x * x <= y -> x <= sqrt y) by (intros x y Hx Hy; rewrite <- (sqrt_square x) by exact Hx; apply sqrt_le_1; [apply sq_pos|pose proof (sq_pos x); lra|exact Hy]).
  assert (Foc : forall (F : R -> R), (forall h, 0 < h <= 6.35 -> 499.4 < F h < 500.6) -> forall z Y, In z zs -> z <> 0 -> Y = F (Rabs z) -> 499.4 < Y < 500.6 /\ Y + Rabs z < 550).
  { intros F HF z Y Iz Nz ->. pose proof (Bz z Iz). pose proof (HF (Rabs z) ltac:(split; [apply Rabs_pos_lt; exact Nz|lra])). lra. }
  split; unfold gives; exists zs.
  - destruct (C110_script 500.6 102.4 299.4 102.4 1.5167 400 550 450 zs fuel draw rfuel n) as (o & fan & fire & E & F & Fa & Ln & Ff); try assumption; try lra.
    + intros z Iz. pose proof (Bz z Iz). pose proof (Zz z Iz). pose proof (Sq 102 (102.4 * 102.4 - z * z) ltac:(lra) ltac:(lra)). repeat split; lra.
    + unfold Rmin, Rabs. destruct (Rcase_abs (400 - 500.6)), (Rcase_abs (400 - 299.4)), Rle_dec; lra.
    + exists fan, fire, o. split; [exact Ev|]. split; [|split; [|split; [exact Ln|exact Ff]]].
      * unfold script_testSingletLens, singlet_scene, lens_fan. rewrite Ez, Ix. rewrite !(dec_fin 1024 1), !(dec_fin 36 1) by discriminate. rewrite !nofZ_fin. rewrite !ndiv_fin by lra. repeat (rewrite nmul_fin || rewrite nadd_fin || rewrite nsub_fin). rewrite <- !(nofZ_fin 0), !Z0.
        match goal with |- context [two_balls _ (fv (at_y ?a)) (Fin ?b) (fv (at_y ?c)) (Fin ?d)] => replace a with 500.6 by lra; replace b with (102.4 * 2) by lra; replace c with 299.4 by lra end.
        fold (at_y 500.6) (at_y 299.4) in E. rewrite E. cbn [bind]. replace (550 - 100) with 450 by lra. rewrite !nofZ_fin. exact F.
      * eapply fan_weaken; [|exact Fa]. exact (Foc _ singlet_focus).
  - destruct (C110_script 458.72 60.02 49.4 353.3 1.5167 400 550 450 zs fuel draw rfuel n) as (o & fan & fire & E & F & Fa & Ln & Ff); try assumption; try lra.
    + intros z Iz. pose proof (Bz z Iz). pose proof (Zz z Iz). pose proof (Sq 59.6 (60.02 * 60.02 - z * z) ltac:(lra) ltac:(lra)). pose proof (Sq 353.2 (353.3 * 353.3 - z * z) ltac:(lra) ltac:(lra)). repeat split; lra.
    + unfold Rmin, Rabs. destruct (Rcase_abs (400 - 458.72)), (Rcase_abs (400 - 49.4)), Rle_dec; lra.
    + exists fan, fire, o. split; [exact Ev|]. split; [|split; [|split; [exact Ln|exact Ff]]].
      * unfold script_testBestformLens, bestform_scene, lens_fan. rewrite Ez, Ix. rewrite !(dec_fin 40 1), !(dec_fin 973 1), !(dec_fin 6002 2), !(dec_fin 35330 2) by discriminate. rewrite !nofZ_fin. repeat (rewrite nmul_fin || rewrite nadd_fin || rewrite nsub_fin). rewrite <- !(nofZ_fin 0), !Z0.
        match goal with |- context [two_balls _ (fv (at_y ?a)) (Fin ?b) (fv (at_y ?c)) (Fin ?d)] => replace a with 458.72 by lra; replace b with (60.02 * 2) by lra; replace c with 49.4 by lra; replace d with (353.3 * 2) by lra end.
        fold (at_y 458.72) (at_y 49.4) in E. rewrite E. cbn [bind]. replace (550 - 100) with 450 by lra. rewrite !nofZ_fin. exact F.
      * eapply fan_weaken; [|exact Fa]. exact (Foc _ bestform_focus).
Qed.
Print Assumptions C110_lenses.

(** the hypotheses are met: the fan of the singlet at its greatest height, and random numbers that are never small *)
Example C110_hyp : lit 500.6 102.4 299.4 102.4 1.5167 6.35 /\ 299.4 <= 500.6 - 102.4 /\ 299.4 + 102.4 <= 500.6 /\ 500.6 - 102.4 + 1.5167 * (299.4 + 102.4 - (500.6 - 102.4)) <= 550 /\ good_draws 1 (fun _ => 1).
Proof.
  split; [|split; [lra|split; [lra|split; [lra|exact C104_hyp_draws]]]].
  assert (S : 102 <= sqrt (102.4 * 102.4 - 6.35 * 6.35)) by (rewrite <- (sqrt_square 102) by lra; apply sqrt_le_1; lra). unfold lit. rewrite Rabs_right by lra. repeat split; lra.
Qed.
