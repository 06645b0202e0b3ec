(** Properties C61-C64: whole runs of scenes that the example scripts trace. *)
From Coq Require Import Reals ZArith Lra Lia Psatz String List Bool.
From Verif Require Import PyErr Num Vec Shapes Csg Optics Spec XReal RVec VecProofs AngleProofs FlatProofs SphereProofs CylProofs ShapeExtra
  TreeProofs SolidProofs CsgProofs RayProofs RunGen NoFuel RunXr OpticHits StateXr OrderProofs FlatOptic Props_Ray Props_Loop Props_Run Props_Rehit SceneProofs.
Import ListNotations.
Local Open Scope R_scope.

Lemma mk_lens_flat c n D f ty ix l : n <> r3zero -> mk_lens (fv c) (Some (fv n)) "spherical_biconvex" D f ty ix = Ok l -> le_normal l = Some (fv (dirn n)) /\ le_type l = ty.
Proof.
  intros Hn. unfold mk_lens. rewrite unit_vector_fv by exact Hn. change (String.eqb "spherical_biconvex" "spherical_biconvex") with true. cbn iota.
  destruct (mk_circle _ _ _ _); cbn; [|discriminate]. intros E; injection E as <-. auto.
Qed.
Lemma chosen_intro (r : ray xr) rm w k o x pt n : nth_error w k = Some o -> reports r rm o x pt n ->
  (forall j o' x' pt' n', nth_error w j = Some o' -> j <> k -> reports r rm o' x' pt' n' -> x < x') -> chosen r rm w k x pt n.
Proof.
  intros En R H. split; [exists o; auto|]. intros j o' x' pt' n' Ej R'. destruct (Nat.eq_dec j k) as [->|Ne].
  - rewrite En in Ej. injection Ej as <-. destruct (reports_det _ _ _ _ _ _ _ _ _ R R') as (<- & _). split; [lra|lia].
  - specialize (H _ _ _ _ _ Ej Ne R'). split; [lra|auto].
Qed.
Lemma dist_len a b : dist3 a b = len (a - b)%r3. Proof. reflexivity. Qed.

(** componentwise identities, without touching the context *)
Ltac r3r := unfold at_t, perp, r3add, r3sub, r3opp, r3scale, r3dot, r3cross, r3zero; try (apply r3_ext); cbn [cx cy cz]; ring.

Section Relay.
Variables (N c1 n1 n2 n3 t3 : R3) (D1 D2 w h f L s2 : R) (f1 : option xr) (ix1 ix2 : xr) (l1 l2 : lens xr) (det : detector xr) (log : list (vec xr * xr)).
Let c2 := (c1 + L * N)%r3.
Let c3 := (c2 + s2 * N)%r3.
Hypothesis UN : is_unit N.
Hypotheses (Hn1 : n1 <> r3zero) (Hn2 : n2 <> r3zero) (Hn3 : n3 <> r3zero) (Ht3 : t3 <> r3zero).
Hypotheses (A1 : along (dirn n1) N) (A2 : along (dirn n2) N) (A3 : along (dirn n3) N).
Hypothesis B1 : mk_lens (fv c1) (Some (fv n1)) "spherical_biconvex" (Some (Fin D1)) f1 "ideal_collimate" ix1 = Ok l1.
Hypothesis B2 : mk_lens (fv c2) (Some (fv n2)) "spherical_biconvex" (Some (Fin D2)) (Some (Fin f)) "ideal_focus" ix2 = Ok l2.
Hypothesis B3 : mk_detector (fv c3) (Some (fv n3)) (Some (fv t3)) "rectangular_flat" (Some (Fin w)) (Some (Fin h)) = Ok det.
Hypotheses (HL : 1e-9 < L) (Hs : 1e-9 < s2) (Hf : 0 < f).
Definition relay : list (optic xr) := [OLens l1; OLens l2; with_log (ODetector det) log].
Let V1 := FO_lens c1 n1 D1 f1 "ideal_collimate" ix1 l1 Hn1 B1.
Let V2 := FO_lens c2 n2 D2 (Some (Fin f)) "ideal_focus" ix2 l2 Hn2 B2.
Let V3 := FO_detector c3 n3 t3 w h det log Hn3 Ht3 B3.
Lemma relay_ok r p d : ray_is r p d -> is_unit d -> Forall (test_ok r) relay.
Proof.
  intros Hr Hd. unfold relay. apply Forall_cons; [|apply Forall_cons; [|apply Forall_cons; [|apply Forall_nil]]].
  - exact (flat_test_ok _ _ _ _ r p d V1 Hr Hd).
  - exact (flat_test_ok _ _ _ _ r p d V2 Hr Hd).
  - exact (flat_test_ok _ _ _ _ r p d V3 Hr Hd).
Qed.
Lemma off c p q : (c - p)%r3 ∙ N = (q - p)%r3 ∙ N + (c - q)%r3 ∙ N. Proof. r3r. Qed.
Lemma off2 p : (c2 - p)%r3 ∙ N = (c1 - p)%r3 ∙ N + L.
Proof. unfold c2. replace ((c1 + L * N - p)%r3 ∙ N) with ((c1 - p)%r3 ∙ N + L * (N ∙ N)) by r3r. unfold is_unit in UN. rewrite UN. ring. Qed.
Lemma off3 p : (c3 - p)%r3 ∙ N = (c1 - p)%r3 ∙ N + L + s2.
Proof. unfold c3. replace ((c2 + s2 * N - p)%r3 ∙ N) with ((c2 - p)%r3 ∙ N + s2 * (N ∙ N)) by r3r. unfold is_unit in UN. rewrite UN, off2. ring. Qed.

Variables (r : ray xr) (p d : R3) (t1 m : R).
Hypotheses (Hr : ray_is r p d) (Ud : is_unit d) (Hb : blocked r = false) (Hty : ray_type r <> "faerie_fire"%string) (Hd : 1e-9 < d ∙ N) (Ht1 : 1e-9 < t1).
Let q1 := at_t p d t1.
Let h1 := (q1 - c1)%r3.
Let v := (f * N - h1)%r3.
Let X := (c3 + (1 - s2 / f) * h1)%r3.
Hypotheses (On1 : h1 ∙ N = 0) (Ap1 : len h1 < D1 / 2) (Ap2 : len h1 < D2 / 2) (Ap3 : in_rect c3 (dirn n3) (dirn t3) h w X).
Hypotheses (Wide : len v < 1e9 * f) (Bud : t1 + L + (s2 / f) * len v <= m).

Lemma v_dot : v ∙ N = f.
Proof. unfold v. rewrite dot_sub_l, dot_scale_l, On1. unfold is_unit in UN. rewrite UN. ring. Qed.
Lemma v_nz : v <> r3zero.
Proof. intros E. pose proof v_dot as V. rewrite E, dot_zero_l in V. lra. Qed.
Lemma v_len : f <= len v.
Proof.
  pose proof (cauchy_schwarz_sq v N) as C. unfold is_unit in UN. rewrite UN, v_dot, <- len_sq in C. pose proof (len_nonneg v). nra.
Qed.
Lemma relay_run fuel : (3 <= fuel)%nat -> exists r', run fuel r (Fin m) relay None = Ok (r', [OLens l1; OLens l2; with_log (ODetector det) (log ++ [(fv X, wavelength r)])]) /\
  blocked r' = true /\ position r' = fv X /\ point_history r' = point_history r ++ [fv q1; fv (q1 + L * N)%r3; fv X].
Proof.
  intros HF. pose proof (len_pos v v_nz) as Pv. pose proof v_len as Lv. pose proof v_dot as Dv.
  assert (K2 : 0 < s2 / f) by (apply Rdiv_lt_0_compat; lra).
  assert (K3 : s2 <= s2 / f * len v). { replace s2 with (s2 / f * f) at 1 by (field; lra). apply Rmult_le_compat_l; lra. }
  assert (O1 : (c1 - p)%r3 ∙ N = t1 * (d ∙ N)). { apply plane_at. exact On1. }
  (* first iteration *)
  assert (R1 : reports r m (OLens l1) t1 (fv q1) (Some (fv (dirn n1)))).
  { apply (flat_axis_yes _ c1 _ _ N r p d m t1 V1 A1 Hr Ud O1 Ht1); [rewrite Rabs_right by lra; exact Hd|exact Ap1|lra]. }
  assert (Ch1 : chosen r m relay 0 t1 (fv q1) (Some (fv (dirn n1)))).
  { eapply chosen_intro; [reflexivity|exact R1|]. intros [|[|[|j]]] o' x' pt' n' Ej Ne Rp; [lia| | |destruct j; discriminate Ej]; injection Ej as <-.
    - destruct (flat_axis _ _ _ _ N r p d m x' pt' n' V2 A2 Hr Ud Rp) as (E & _). rewrite off2, O1 in E. nra.
    - destruct (flat_axis _ _ _ _ N r p d m x' pt' n' V3 A3 Hr Ud Rp) as (E & _). rewrite off3, O1 in E. nra. }
  destruct (mk_lens_flat _ _ _ _ _ _ _ Hn1 B1) as [Nm1 Ty1].
  pose proof (fly_ray r p d t1 Hr) as Hr1.
  assert (Do1 : forall s, optic_do_intersect (OLens l1) (fly r (Fin t1)) (fv q1) (Some (fv (dirn n1))) s = Ok (set_direction (fly r (Fin t1)) (fv N), OLens l1)).
  { intros s. cbn [optic_do_intersect]. unfold lens_do_intersect. rewrite Ty1. change (String.eqb "ideal_collimate" "ideal") with false. change (String.eqb "ideal_collimate" "ideal_collimate") with true. cbn iota.
    rewrite (collimate_spec _ _ (dirn n1) d Nm1 (dirn_unit _ Hn1) (proj2 Hr1)). rewrite (forward_along _ N d A1) by lra. reflexivity. }
  destruct (body_chosen m (run_init r (Fin m) relay) m 0 t1 _ _ (OLens l1) _ _ eq_refl (relay_ok r p d Hr Ud) Ch1 eq_refl Hty Do1) as (st1 & S1 & Ry1 & W1 & Rm1 & _).
  set (r1 := set_direction (fly r (Fin t1)) (fv N)) in *. assert (Hq1 : ray_is r1 q1 N) by (apply (set_dir_ray _ _ d); exact Hr1).
  cbn [run_init rs_world set_nth relay] in W1. fold relay in W1.
  (* second iteration *)
  assert (UNN : N ∙ N = 1) by exact UN.
  assert (Q1 : (c1 - q1)%r3 ∙ N = 0). { replace (c1 - q1)%r3 with (- h1)%r3 by (unfold h1; r3r). rewrite dot_opp_l, On1. ring. }
  set (q2 := at_t q1 N L). assert (Eh2 : (q2 - c2)%r3 = h1) by (unfold q2, c2, h1, at_t; r3r).
  assert (R2 : reports r1 (m - t1) (OLens l2) L (fv q2) (Some (fv (dirn n2)))).
  { apply (flat_axis_yes _ c2 _ _ N r1 q1 N (m - t1) L V2 A2 Hq1 UN); [rewrite off2, Q1, UNN; ring|exact HL|rewrite UNN, Rabs_R1; lra|cbv beta; fold q2; rewrite dist_len, Eh2; exact Ap2|lra]. }
  assert (Ch2 : chosen r1 (m - t1) relay 1 L (fv q2) (Some (fv (dirn n2)))).
  { eapply chosen_intro; [reflexivity|exact R2|]. intros [|[|[|j]]] o' x' pt' n' Ej Ne Rp; [|lia| |destruct j; discriminate Ej]; injection Ej as <-.
    - destruct (flat_axis _ _ _ _ N r1 q1 N _ x' pt' n' V1 A1 Hq1 UN Rp) as (E & Lx & _). rewrite Q1, UNN in E. lra.
    - destruct (flat_axis _ _ _ _ N r1 q1 N _ x' pt' n' V3 A3 Hq1 UN Rp) as (E & _). rewrite off3, Q1, UNN in E. lra. }
  destruct (mk_lens_thin _ _ _ _ _ _ _ _ Hn2 B2) as [Th2 Ty2].
  pose proof (fly_ray r1 q1 N L Hq1) as Hr2. fold q2 in Hr2.
  assert (On2 : on_plane c2 (dirn n2) q2). { apply (along_plane _ N c2 q2 A2). rewrite Eh2. exact On1. }
  assert (Do2 : forall s, optic_do_intersect (OLens l2) (fly r1 (Fin L)) (fv q2) (Some (fv (dirn n2))) s = Ok (set_direction (fly r1 (Fin L)) (fv (dirn v)), OLens l2)).
  { intros s. cbn [optic_do_intersect]. unfold lens_do_intersect. rewrite Ty2. change (String.eqb "ideal_focus" "ideal") with false. change (String.eqb "ideal_focus" "ideal_collimate") with false.
    change (String.eqb "ideal_focus" "ideal_focus") with true. cbn iota.
    destruct (focus_spec (fly r1 (Fin L)) l2 c2 (dirn n2) f N q2 Th2 (dirn_unit _ Hn2) ltac:(lra) (proj2 Hr2) (proj1 Hr2) On2) as [_ ->].
    rewrite (forward_along _ N N A2) by lra. replace (c2 + f * N - q2)%r3 with v by (unfold v; rewrite <- Eh2; r3r). reflexivity. }
  assert (Ok2 : Forall (test_ok (rs_ray st1)) (rs_world st1)) by (rewrite Ry1, W1; exact (relay_ok r1 q1 N Hq1 UN)).
  rewrite <- Ry1, <- W1 in Ch2. rewrite <- Ry1 in Do2.
  destruct (body_chosen m st1 (m - t1) 1 L _ _ (OLens l2) _ _ Rm1 Ok2 Ch2 ltac:(rewrite W1; reflexivity) ltac:(rewrite Ry1; exact Hty) Do2) as (st2 & S2 & Ry2 & W2 & Rm2 & _).
  rewrite Ry1 in Ry2. set (r2 := set_direction (fly r1 (Fin L)) (fv (dirn v))) in *. assert (Hq2 : ray_is r2 q2 (dirn v)) by (apply (set_dir_ray _ _ N); exact Hr2).
  rewrite W1 in W2. cbn [set_nth relay] in W2. fold relay in W2.
  (* third iteration *)
  pose proof (dirn_unit v v_nz) as Uv. set (t4 := s2 / f * len v) in *.
  assert (Cv : dirn v ∙ N = f / len v) by (apply dirn_dot_sign; [exact Dv|exact v_nz]).
  assert (P4 : 1e-9 < f / len v). { apply Rmult_lt_reg_r with (len v); [exact Pv|]. replace (f / len v * len v) with f by (field; lra). lra. }
  assert (E4 : t4 * (f / len v) = s2) by (unfold t4; field; lra).
  assert (Q2 : forall c, (c - q2)%r3 ∙ N = (c - c2)%r3 ∙ N). { intros c. replace (c - q2)%r3 with ((c - c2) - h1)%r3 by (rewrite <- Eh2; r3r). rewrite dot_sub_l, On1. ring. }
  assert (EX : at_t q2 (dirn v) t4 = X).
  { unfold at_t, t4, dirn. replace (q2 + s2 / f * len v * (/ len v * v))%r3 with (q2 + (s2 / f * (len v * / len v)) * v)%r3 by r3r. rewrite Rinv_r by lra. rewrite Rmult_1_r.
    replace q2 with (c2 + h1)%r3 by (rewrite <- Eh2; r3r). unfold X, c3, v. replace (c2 + s2 * N + (1 - s2 / f) * h1)%r3 with (c2 + h1 + ((s2 / f * f) * N - s2 / f * h1))%r3; [r3r|].
    replace (s2 / f * f) with s2 by (field; lra). r3r. }
  assert (R3 : reports r2 (m - t1 - L) (with_log (ODetector det) log) t4 (fv X) (Some (fv (dirn n3)))).
  { rewrite <- EX. apply (flat_axis_yes _ c3 _ _ N r2 q2 (dirn v) (m - t1 - L) t4 V3 A3 Hq2 Uv).
    - rewrite Q2, Cv, E4, off3, (off c1 c2 c1). unfold c2. replace ((c1 - (c1 + L * N))%r3) with ((- L) * N)%r3 by r3r. replace (c1 - c1)%r3 with r3zero by r3r.
      rewrite dot_zero_l, dot_scale_l, UNN. ring.
    - lra.
    - rewrite Cv, Rabs_right by lra. exact P4.
    - rewrite EX. exact Ap3.
    - lra. }
  assert (Ch3 : chosen r2 (m - t1 - L) relay 2 t4 (fv X) (Some (fv (dirn n3)))).
  { eapply chosen_intro; [reflexivity|exact R3|]. intros [|[|[|j]]] o' x' pt' n' Ej Ne Rp; [| |lia|destruct j; discriminate Ej]; injection Ej as <-; exfalso.
    - destruct (flat_axis _ _ _ _ N r2 q2 (dirn v) _ x' pt' n' V1 A1 Hq2 Uv Rp) as (E & Lx & _). rewrite Q2, Cv in E. unfold c2 in E. replace ((c1 - (c1 + L * N))%r3) with ((- L) * N)%r3 in E by r3r.
      rewrite dot_scale_l, UNN in E. assert (0 < x' * (f / len v)) by (apply Rmult_lt_0_compat; lra). lra.
    - destruct (flat_axis _ _ _ _ N r2 q2 (dirn v) _ x' pt' n' V2 A2 Hq2 Uv Rp) as (E & Lx & _). rewrite Q2, Cv in E. replace (c2 - c2)%r3 with r3zero in E by r3r. rewrite dot_zero_l in E.
      assert (0 < x' * (f / len v)) by (apply Rmult_lt_0_compat; lra). lra. }
  assert (Do3 : forall s, optic_do_intersect (with_log (ODetector det) log) (fly r2 (Fin t4)) (fv X) (Some (fv (dirn n3))) s =
    Ok (set_blocked (fly r2 (Fin t4)), with_log (ODetector det) (log ++ [(fv X, wavelength r)]))) by reflexivity.
  assert (Ok3 : Forall (test_ok (rs_ray st2)) (rs_world st2)) by (rewrite Ry2, W2; exact (relay_ok r2 q2 _ Hq2 Uv)).
  rewrite <- Ry2, <- W2 in Ch3. rewrite <- Ry2 in Do3.
  destruct (body_chosen m st2 (m - t1 - L) 2 t4 _ _ (with_log (ODetector det) log) _ _ Rm2 Ok3 Ch3 ltac:(rewrite W2; reflexivity) ltac:(rewrite Ry2; exact Hty) Do3) as (st3 & S3 & Ry3 & W3 & Rm3 & _).
  rewrite Ry2 in Ry3. rewrite W2 in W3. cbn [set_nth relay] in W3.
  assert (St : steps (Fin m) None 3 (run_init r (Fin m) relay) st3).
  { eapply steps_cons; [eapply cond_go; [reflexivity|lra|reflexivity|exact Hb]|exact S1|]. eapply steps_cons; [eapply cond_go; [exact Rm1|lra|reflexivity|rewrite Ry1; exact Hb]|exact S2|].
    eapply steps_cons; [eapply cond_go; [exact Rm2|lra|reflexivity|rewrite Ry2; exact Hb]|exact S3|]. constructor. }
  exists (set_blocked (fly r2 (Fin t4))). split; [|split; [reflexivity|split]].
  - rewrite <- W3, <- Ry3. apply (run_steps m None 3 r relay st3 fuel St); [|exact HF]. apply cond_blocked. rewrite Ry3. reflexivity.
  - change (position (set_blocked (fly r2 (Fin t4)))) with (position (fly r2 (Fin t4))). rewrite (proj1 (fly_ray r2 q2 _ t4 Hq2)), EX. reflexivity.
  - change (point_history (set_blocked (fly r2 (Fin t4)))) with (point_history (fly r2 (Fin t4))). rewrite (fly_history r2 q2 _ t4 Hq2), EX.
    change (point_history r2) with (point_history (fly r1 (Fin L))). rewrite (fly_history r1 q1 N L Hq1). change (point_history r1) with (point_history (fly r (Fin t1))).
    rewrite (fly_history r p d t1 Hr). rewrite <- !app_assoc. reflexivity.
Qed.
End Relay.

(** C61: script_testIdealLenses.  An ideal collimator, an ideal focusing lens a distance L behind it and a detector a distance s2 behind that, on a common axis N
    (the normals may point either way along it).  Every ray that passes through both lenses is recorded, once, at the point with offset (1 - s2/f) times its offset
    on the first lens: in particular at the detector centre if the detector is in the focal plane.  The ray ends there, blocked, after exactly those three interactions. *)
Theorem C61_relay : forall N c1 c2 c3 n1 n2 n3 t3 D1 D2 w h f L s2 f1 ix1 ix2 l1 l2 det log r p d t1 m fuel,
  is_unit N -> n1 <> r3zero -> n2 <> r3zero -> n3 <> r3zero -> t3 <> r3zero -> along (dirn n1) N -> along (dirn n2) N -> along (dirn n3) N ->
  c2 = (c1 + L * N)%r3 -> c3 = (c2 + s2 * N)%r3 ->
  mk_lens (fv c1) (Some (fv n1)) "spherical_biconvex" (Some (Fin D1)) f1 "ideal_collimate" ix1 = Ok l1 ->
  mk_lens (fv c2) (Some (fv n2)) "spherical_biconvex" (Some (Fin D2)) (Some (Fin f)) "ideal_focus" ix2 = Ok l2 ->
  mk_detector (fv c3) (Some (fv n3)) (Some (fv t3)) "rectangular_flat" (Some (Fin w)) (Some (Fin h)) = Ok det ->
  1e-9 < L -> 1e-9 < s2 -> 0 < f ->
  ray_is r p d -> is_unit d -> blocked r = false -> ray_type r <> "faerie_fire"%string -> 1e-9 < d ∙ N -> 1e-9 < t1 ->
  let q1 := at_t p d t1 in let h1 := (q1 - c1)%r3 in let X := (c3 + (1 - s2 / f) * h1)%r3 in
  h1 ∙ N = 0 -> len h1 < D1 / 2 -> len h1 < D2 / 2 -> in_rect c3 (dirn n3) (dirn t3) h w X ->
  len (f * N - h1)%r3 < 1e9 * f -> t1 + L + (s2 / f) * len (f * N - h1)%r3 <= m -> (3 <= fuel)%nat ->
  exists r', run fuel r (Fin m) [OLens l1; OLens l2; with_log (ODetector det) log] None =
     Ok (r', [OLens l1; OLens l2; with_log (ODetector det) (log ++ [(fv X, wavelength r)])]) /\
    blocked r' = true /\ position r' = fv X /\ point_history r' = point_history r ++ [fv q1; fv (q1 + L * N)%r3; fv X].
Proof. intros. subst c2 c3. eapply (relay_run N c1 n1 n2 n3 t3 D1 D2 w h f L s2 f1 ix1 ix2 l1 l2 det log); eassumption. Qed.
Print Assumptions C61_relay.

Definition flat_lens (z : R) (f : option xr) (ty : string) : lens xr :=
  mkLens (fv (at_z z)) (Some (fv e_z)) "spherical_biconvex" f ty (Fin 1) [SCircle (mkCircle (fv (at_z z)) (Fin 1) (Fin 2) (Some (fv e_z)) (Some (mkPlane (fv (at_z z)) (fv e_z))))].
Lemma flat_lens_built z f ty : mk_lens (fv (at_z z)) (Some (fv e_z)) "spherical_biconvex" (Some (Fin 2)) f ty (Fin 1) = Ok (flat_lens z f ty).
Proof.
  unfold mk_lens. rewrite unit_vector_unit by apply e_z_unit. change (String.eqb "spherical_biconvex" "spherical_biconvex") with true. cbn iota. unfold mk_circle. rewrite check_D_only. cbn [bind].
  unfold mk_plane. rewrite unit_vector_unit by apply e_z_unit. replace (2 / 2) with 1 by lra. reflexivity.
Qed.
Definition side_ray : ray xr := a_ray (mk3 (1/4) 0 (-5)) e_z 0 500.
Lemma at_z_up z L : at_z (z + L) = (at_z z + L * e_z)%r3. Proof. unfold at_z, e_z. apply r3_ext; cbn; ring. Qed.
Lemma len_bound v b : 0 <= b -> v ∙ v <= b * b -> len v <= b.
Proof. intros Hb H. rewrite <- len_sq in H. pose proof (len_nonneg v). nra. Qed.
Example C61_hyp : exists r' X, X = mk3 (- (1/4)) 0 75 /\ run 3 side_ray (Fin 1000) [OLens (flat_lens 0 None "ideal_collimate"); OLens (flat_lens 25 (Some (Fin 25)) "ideal_focus"); with_log (ODetector (det_at 75)) []] None =
     Ok (r', [OLens (flat_lens 0 None "ideal_collimate"); OLens (flat_lens 25 (Some (Fin 25)) "ideal_focus"); with_log (ODetector (det_at 75)) ([] ++ [(fv X, wavelength side_ray)])]).
Proof.
  assert (Q : (at_t (mk3 (1/4) 0 (-5)) e_z 5 - at_z 0)%r3 = mk3 (1/4) 0 0) by (apply r3_ext; unfold e_z; cbn; lra).
  assert (Al : along (dirn e_z) e_z) by (left; apply dirn_of_unit, e_z_unit).
  assert (Lh : len (mk3 (1/4) 0 0) <= 1/4) by (apply len_bound; unfold r3dot; cbn; lra).
  assert (Lv : len (25 * e_z - mk3 (1/4) 0 0)%r3 <= 26) by (apply len_bound; unfold r3dot, e_z; cbn; lra).
  assert (EX : (at_z 75 + (1 - 50 / 25) * mk3 (1/4) 0 0)%r3 = mk3 (- (1/4)) 0 75) by (apply r3_ext; cbn; lra).
  destruct (C61_relay e_z (at_z 0) (at_z 25) (at_z 75) e_z e_z e_z e_x 2 2 1 1 25 25 50 None (Fin 1) (Fin 1) (flat_lens 0 None "ideal_collimate") (flat_lens 25 (Some (Fin 25)) "ideal_focus") (det_at 75) []
    side_ray (mk3 (1/4) 0 (-5)) e_z 5 1000 3 e_z_unit e_z_nz e_z_nz e_z_nz e_x_nz Al Al Al) as (r' & E & _).
  - rewrite <- at_z_up. f_equal; lra.
  - rewrite <- at_z_up. f_equal; lra.
  - apply flat_lens_built.
  - apply flat_lens_built.
  - apply det_at_built.
  - lra.
  - lra.
  - lra.
  - split; reflexivity.
  - apply e_z_unit.
  - reflexivity.
  - discriminate.
  - unfold e_z, r3dot; cbn; lra.
  - lra.
  - rewrite Q. unfold e_z, r3dot; cbn; lra.
  - rewrite Q. lra.
  - rewrite Q. lra.
  - rewrite Q, EX. rewrite !dirn_of_unit by (apply e_z_unit || apply e_x_unit). split; right; unfold e_z, e_x, r3cross, r3dot; cbn; apply Rabs_le; lra.
  - rewrite Q. lra.
  - rewrite Q. lra.
  - lia.
  - exists r', (mk3 (- (1/4)) 0 75). split; [reflexivity|]. rewrite Q, EX in E. exact E.
Qed.
