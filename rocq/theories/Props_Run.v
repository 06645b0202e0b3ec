(** Properties C32, C34, C36, C37, C43, C46, C47, C49: what Ray.run does in scenes of optics built by their constructors. *)
From Coq Require Import Reals ZArith Lra Lia Psatz String List Bool Permutation.
From Verif Require Import PyErr Num Vec Shapes Csg Optics Spec XReal RVec VecProofs AngleProofs FlatProofs SphereProofs RayProofs ShapeExtra Props_Ray
  RunGen NoFuel RunXr OpticHits StateXr OrderProofs Props_Loop.
Import ListNotations.
Local Open Scope R_scope.

(** C32: in a scene of mirrors, lenses, detectors and compounds built with valid parameters ([ok_scene]: each optic is a [valid_optic] or is skipped by
    run), with a finite max_distance, a ray keeps a unit direction and a finite position at every state of run, and the scene stays valid
    (so the statement iterates over any sequence of runs). *)
Theorem C32_unit_directions : forall m maxi r w p d, ray_is r p d -> is_unit d -> ok_scene w -> grating_free w ->
  (forall n st, steps (Fin m) maxi n (run_init r (Fin m) w) st -> exists p' d', ray_is (rs_ray st) p' d' /\ is_unit d') /\
  (forall fuel r' w', run fuel r (Fin m) w maxi = Ok (r', w') ->
     ok_scene w' /\ grating_free w' /\ exists p' d', ray_is r' p' d' /\ is_unit d').
Proof.
  intros m maxi r w p d Hr Hd Sc Gf. assert (Neg : m < 0 -> forall n st, steps (Fin m) maxi n (run_init r (Fin m) w) st -> st = run_init r (Fin m) w).
  { intros Hm n st S. rewrite (no_steps_nonpos m maxi n r w st ltac:(lra) S) in S. inversion S. reflexivity. }
  assert (G : forall n st, steps (Fin m) maxi n (run_init r (Fin m) w) st -> ok_scene (rs_world st) /\ grating_free (rs_world st) /\ exists p' d', ray_is (rs_ray st) p' d' /\ is_unit d').
  { intros n st S. destruct (Rlt_dec m 0) as [Hm|Hm].
    - rewrite (Neg Hm n st S). cbn. eauto 10.
    - destruct (steps_ok _ _ _ _ _ _ _ _ (Rnot_lt_le _ _ Hm) Hr Hd Sc Gf S) as (A & B & p' & d' & C & D & _). eauto 10. }
  split; [intros n st S; apply (G n st S)|]. intros fuel r' w' H. unfold run in H. apply bind_ok in H. destruct H as (st & L & H). injection H as <- <-.
  apply loop_steps in L. destruct L as (n & _ & S & _). exact (G n st S).
Qed.
Print Assumptions C32_unit_directions.
(** rays as constructed *)
Theorem C32_constructed : forall p v wl ord ty, v <> r3zero -> ray_is (mk_ray (fv p) (fv v) wl ord ty) p (dirn v) /\ is_unit (dirn v).
Proof. intros p v wl ord ty Hv. split; [|apply dirn_unit, Hv]. split; [reflexivity|]. cbn. apply unit_vector_fv, Hv. Qed.
Print Assumptions C32_constructed.
Example C32_hyp : forall b, ok_scene [OMirror (mirror_at 5); OAnnotation b] /\ grating_free [OMirror (mirror_at 5); OAnnotation b] /\
  run 3 z_ray (Fin 10) [OMirror (mirror_at 5)] (Some 1%Z) = Ok (bounced, [OMirror (mirror_at 5)]).
Proof.
  intros b. split; [|split; [|apply z_run; lra]].
  - intros o [<-|[<-|[]]]; [right|left; reflexivity]. do 2 eexists. apply mirror_at_valid.
  - intros o [<-|[<-|[]]]; reflexivity.
Qed.

(** C36 (partial): permuting the optics, when no two report the same distance at any state reached.  Missing: scenes with real (refracting)
    lenses, for which the claim is false (below); [flag_free] excludes them. *)
Theorem C36_order_partial : forall m maxi fuel r w w' r' w2, Permutation w w' -> Forall flag_free w ->
  (forall n st rm, steps (Fin m) maxi n (run_init r (Fin m) w) st -> rs_remaining st = Fin rm -> no_ties (rs_ray st) rm (rs_world st)) ->
  run fuel r (Fin m) w maxi = Ok (r', w2) -> exists w2', run fuel r (Fin m) w' maxi = Ok (r', w2') /\ Permutation w2 w2'.
Proof. exact run_permuted. Qed.
Print Assumptions C36_order_partial.
Example C36_hyp : Forall flag_free [OMirror (mirror_at 5)] /\ forall r rm, no_ties r rm [OMirror (mirror_at 5)].
Proof.
  split; [repeat constructor|]. intros r rm j j' o o' d pt pt' n n' H H' _ _.
  destruct j as [|[|j]], j' as [|[|j']]; try discriminate; reflexivity.
Qed.

(* ---- evaluation of one iteration ---- *)
Lemma step_hit (r : ray xr) rm a b i o pt n s x : skipped o = false -> optic_test_intersect o r = Ok (H4 true (Some pt) n s) ->
  distance_between (position r) pt = Fin x -> 1e-12 < x <= rm ->
  scan_step r (Fin rm) (mkScan false ninf a b) i o = Ok (mkScan true (Fin x) (Some (mkSel i pt n)) (Some s)).
Proof.
  intros Sk E D L. unfold scan_step. rewrite Sk, E. cbn [bind h4_flag h4_pt h4_normal h4_sfo need]. cbv zeta. rewrite D, clip_fin, !ngt_fin, Rltb_false, Rltb_true by lra. reflexivity.
Qed.
Lemma step_miss (r : ray xr) rm st i o p n s : skipped o = false -> optic_test_intersect o r = Ok (H4 false p n s) ->
  scan_step r rm st i o = Ok (mkScan (sc_hit st) (sc_min st) (sc_sel st) (Some s)).
Proof. intros Sk E. unfold scan_step. rewrite Sk, E. reflexivity. Qed.
Lemma body_sel m (st : @run_st xr) rm sc k pt n s o x : rs_remaining st = Fin rm ->
  scan (rs_ray st) (Fin rm) (mkScan false ninf (rs_sel st) (rs_sfo st)) 0 (rs_world st) = Ok sc ->
  sc_hit sc = true -> sc_sel sc = Some (mkSel k pt n) -> sc_sfo sc = Some s -> nth_error (rs_world st) k = Some o ->
  distance_between (position (rs_ray st)) pt = Fin x -> ray_type (rs_ray st) <> "faerie_fire"%string ->
  forall r2 o', optic_do_intersect o (fly (rs_ray st) (Fin x)) pt n s = Ok (r2, o') ->
  run_body (Fin m) st = Ok (mkRun r2 (set_nth (rs_world st) k o') (rs_count st + 1) (Fin (rm - x)) (sc_sel sc) (sc_sfo sc)).
Proof.
  intros Hr E Hh Hs Hf En D F r2 o' Ed. unfold run_body. rewrite Hr, E. cbn [bind]. rewrite Hh, Hs, Hf. cbn [negb bound bind se_pt se_idx se_normal].
  apply String.eqb_neq in F. rewrite F, D, En, Ed. cbn [bind]. rewrite nsub_fin. reflexivity.
Qed.
Lemma run_one k (r : ray xr) m w st : 0 < m -> blocked r = false -> run_body (Fin m) (run_init r (Fin m) w) = Ok st -> rs_count st = 1%Z ->
  run (Datatypes.S k) r (Fin m) w (Some 1%Z) = Ok (rs_ray st, rs_world st).
Proof.
  intros Hm Hb B C. unfold run. cbn [run_loop]. unfold run_cond at 1. cbn [run_init rs_remaining rs_count rs_ray]. rewrite nofZ_fin, ngt_fin, Rltb_true, Hb by exact Hm. cbn [andb negb Z.ltb Z.compare].
  change (mkRun r w 0 (Fin m) None None) with (run_init r (Fin m) w). rewrite B. cbn [bind]. destruct k; cbn [run_loop]; unfold run_cond; rewrite C; change (1 <? 1)%Z with false; rewrite andb_false_r; reflexivity.
Qed.

Lemma run_sel fuel (r : ray xr) m w sc k pt n s o x r2 o' : 0 < m -> blocked r = false ->
  scan r (Fin m) (mkScan false ninf None None) 0 w = Ok sc ->
  sc_hit sc = true -> sc_sel sc = Some (mkSel k pt n) -> sc_sfo sc = Some s -> nth_error w k = Some o ->
  distance_between (position r) pt = Fin x -> ray_type r <> "faerie_fire"%string ->
  optic_do_intersect o (fly r (Fin x)) pt n s = Ok (r2, o') ->
  run (Datatypes.S fuel) r (Fin m) w (Some 1%Z) = Ok (r2, set_nth w k o').
Proof.
  intros Hm Hb E Hh Hs Hf En D F Ed. pose proof (body_sel m (run_init r (Fin m) w) m sc k pt n s o x eq_refl E Hh Hs Hf En D F r2 o' Ed) as B.
  exact (run_one fuel r m w _ Hm Hb B eq_refl).
Qed.

(* ---- a ball lens and a detector far from the ray ---- *)
Definition e_x : R3 := mk3 1 0 0.
Lemma e_x_unit : is_unit e_x. Proof. unfold is_unit, e_x, r3dot; cbn; ring. Qed.
Lemma e_x_nz : e_x <> r3zero. Proof. apply unit_nonzero, e_x_unit. Qed.
Definition ball43 : lens xr := mkLens (fv r3zero) None "spherical" None "real" (Fin (4/3)) [SSphere (sph r3zero (2/2) (Fin 2))].
Lemma ball43_built : mk_lens (fv r3zero) None "spherical" (Some (Fin 2)) None "real" (Fin (4/3)) = Ok ball43.
Proof. unfold mk_lens. change (String.eqb "spherical" "spherical_biconvex") with false. change (String.eqb "spherical" "spherical") with true. cbn iota. unfold mk_sphere. rewrite check_D_only. reflexivity. Qed.
Definition det_at (z : R) : detector xr := mkDetector (fv (at_z z)) (fv e_z) (fv e_x) "rectangular_flat" [SRectangle (rect_of (at_z z) e_z e_x 1 1)] [].
Lemma det_at_built z : mk_detector (fv (at_z z)) (Some (fv e_z)) (Some (fv e_x)) "rectangular_flat" (Some (Fin 1)) (Some (Fin 1)) = Ok (det_at z).
Proof.
  unfold mk_detector. cbn [unit_vector_o]. rewrite !unit_vector_unit by (apply e_z_unit || apply e_x_unit). cbn [bind]. change (String.eqb "rectangular_flat" "rectangular_flat") with true. cbn iota.
  rewrite mk_rectangle_fv by (apply e_z_nz || apply e_x_nz). rewrite !dirn_of_unit by (apply e_z_unit || apply e_x_unit).
  rewrite Rleb_true by (unfold r3dot, e_z, e_x; cbn; rewrite Rabs_right; lra). rewrite !Rltb_false by lra. reflexivity.
Qed.
Lemma det_at_valid z : valid_optic (ODetector (det_at z)) (fun q => on_plane (at_z z) (dirn e_z) q /\ in_rect (at_z z) (dirn e_z) (dirn e_x) 1 1 q) never.
Proof. apply (VO_detector (at_z z) e_z e_x 1 1 (det_at z) [] e_z_nz e_x_nz (det_at_built z)). Qed.
Definition p_out : R3 := mk3 (-5) (4/5) 0.
Definition out_ray : ray xr := a_ray p_out e_x 0 500.
Lemma out_ray_is : ray_is out_ray p_out e_x. Proof. split; reflexivity. Qed.
Lemma det_misses : optic_test_intersect (ODetector (det_at 50)) out_ray = Ok (H4 false None None SfoNone).
Proof.
  cbn [optic_test_intersect det_at de_shape de_surfaces]. unfold flat_test_intersect. change (String.eqb "rectangular_flat" "rectangular_flat") with true. rewrite orb_true_r. cbn [flat_loop].
  unfold flat_step. cbn [shape_test_intersect].
  destruct (rectangle_test_spec (at_z 50) e_z e_x 1 1 p_out e_x out_ray) as [(s & (M1 & _) & _)|(_ & E)]; try apply e_z_unit; try apply e_x_unit; try apply out_ray_is; try lra.
  - exfalso. unfold r3dot, e_z, e_x in M1; cbn in M1. rewrite Rabs_right in M1; lra.
  - rewrite E. reflexivity.
Qed.
Definition q_in : R3 := mk3 (-3/5) (4/5) 0.
Lemma out_on s : on_sphere r3zero 1 (at_t p_out e_x s) <-> s = 22/5 \/ s = 28/5.
Proof.
  unfold on_sphere. assert (Sq : dist3 (at_t p_out e_x s) r3zero * dist3 (at_t p_out e_x s) r3zero = (s - 5) * (s - 5) + 16/25).
  { rewrite dist3_sq. unfold at_t, p_out, e_x, r3dot; cbn. field. }
  assert (0 <= dist3 (at_t p_out e_x s) r3zero) by apply len_nonneg. split; intros H0.
  - rewrite H0 in Sq. assert ((s - 22/5) * (s - 28/5) = 0) as Z by lra. apply Rmult_integral in Z. destruct Z; [left|right]; lra.
  - assert (K : dist3 (at_t p_out e_x s) r3zero * dist3 (at_t p_out e_x s) r3zero = 1) by (rewrite Sq; destruct H0 as [-> | ->]; lra). nra.
Qed.
Lemma out_q : at_t p_out e_x (22/5) = q_in. Proof. apply r3_ext; cbn; lra. Qed.
Lemma q_outward : outward r3zero 1 q_in = q_in. Proof. apply r3_ext; cbn; lra. Qed.
Lemma q_unit : is_unit q_in. Proof. unfold is_unit, q_in, r3dot; cbn; lra. Qed.
Lemma out_not_tangent : ~ tangent r3zero (2 / 2) p_out e_x.
Proof. rewrite tangent_disc by apply e_x_unit. unfold sdisc, p_out, e_x, r3dot; cbn. lra. Qed.
Lemma ball_hits : optic_test_intersect (OLens ball43) out_ray = Ok (H4 true (Some (fv q_in)) (Some (fv q_in)) (SfoBool true)).
Proof.
  destruct (ball_lens_report r3zero None 2 None "real" (4/3) ball43 p_out e_x out_ray) as (h & E & Rp & b & Eb); [lra|apply ball43_built|apply e_x_unit|apply out_ray_is|apply out_not_tangent|].
  cbn [optic_test_intersect]. rewrite E. f_equal. replace (Rabs (2 / 2)) with 1 in Rp by (rewrite Rabs_right; lra).
  destruct Rp as [t (Lt & On & Min) F P Nn Un Side|No _].
  - assert (t = 22/5) as ->. { apply out_on in On. destruct On as [->| ->]; [reflexivity|]. assert (28/5 <= 22/5) by (apply Min; [lra|apply out_on; auto]). lra. }
    rewrite out_q, q_outward in *. destruct h as [a q2 n2 s2]. cbn in *. subst. destruct Side as [(_ & K)|(K & _)].
    + rewrite (K b eq_refl). reflexivity.
    + exfalso. unfold r3dot, e_x, q_in in K; cbn in K. lra.
  - exfalso. apply (No (22/5)). split; [lra|]. split; [apply out_on; auto|]. intros s _ On. apply out_on in On. destruct On; lra.
Qed.
Lemma q_dist : distance_between (position out_ray) (fv q_in) = Fin (22/5).
Proof. change (position out_ray) with (fv p_out). rewrite distance_fv, <- out_q, fly_to; [reflexivity|apply e_x_unit|lra]. Qed.
Definition reflected_dir : R3 := mk3 (7/25) (24/25) 0.
Definition refracted_dir : R3 := mk3 (24/25) (-7/25) 0.
Lemma q_sine : sine q_in e_x = 4/5.
Proof. unfold sine. apply len_eq_of_sq; [lra|]. unfold perp, q_in, e_x, r3dot; cbn. lra. Qed.
Definition flown : ray xr := fly out_ray (Fin (22/5)).
Lemma flag_false s : sfo_truthy s = false -> optic_do_intersect (OLens ball43) flown (fv q_in) (Some (fv q_in)) s = Ok (set_direction flown (fv reflected_dir), OLens ball43).
Proof.
  intros Hs. cbn [optic_do_intersect]. unfold lens_do_intersect. cbn [le_type ball43 le_index]. change (String.eqb "real" _) with false. cbn iota. cbn [need bind].
  rewrite Hs, vopp_fv, nofZ_fin.
  destruct (snell_fv flown e_x (- q_in)%r3 (4/3) 1 eq_refl e_x_unit (unit_opp _ q_unit)) as [A _]; try lra. rewrite A.
  - cbn [bind]. rewrite refl_opp. unfold refl. do 3 f_equal. f_equal. apply r3_ext; unfold r3dot, q_in, e_x, reflected_dir; cbn; lra.
  - unfold total_reflection. rewrite sine_opp, q_sine. lra.
Qed.
Lemma flag_true : optic_do_intersect (OLens ball43) flown (fv q_in) (Some (fv q_in)) (SfoBool true) = Ok (set_direction flown (fv refracted_dir), OLens ball43).
Proof.
  cbn [optic_do_intersect]. unfold lens_do_intersect. cbn [le_type ball43 le_index]. change (String.eqb "real" _) with false. cbn iota. cbn [need bind sfo_truthy].
  rewrite nofZ_fin.
  destruct (snell_fv flown e_x q_in 1 (4/3) eq_refl e_x_unit q_unit) as [_ A]; try lra. rewrite A.
  - cbn [bind]. assert (Dq : e_x ∙ q_in = -3/5) by (unfold r3dot, q_in, e_x; cbn; lra).
    unfold facing. rewrite Dq, Rltb_true by lra. unfold snell_dir. rewrite Dq. replace (sqrt _) with (4/5).
    + do 3 f_equal. f_equal. apply r3_ext; unfold q_in, e_x, refracted_dir; cbn; lra.
    + symmetry. apply sqrt_lem_1; lra.
  - unfold total_reflection. lra.
Qed.
(** C36 and C37 are false for real lenses: the flag passed to the lens is the one returned by the last optic of the list.  The ray hits the ball
    from outside; with a detector listed after the lens (and far away from the ray) it is treated as if inside the glass and totally reflected. *)
Theorem C36_order_refuted : exists (l : lens xr) (d : detector xr) r r1 r2 w1 w2,
  ok_scene [OLens l; ODetector d] /\ no_ties r 100 [OLens l; ODetector d] /\
  run 2 r (Fin 100) [OLens l; ODetector d] (Some 1%Z) = Ok (r1, w1) /\ direction r1 = fv reflected_dir /\
  run 2 r (Fin 100) [ODetector d; OLens l] (Some 1%Z) = Ok (r2, w2) /\ direction r2 = fv refracted_dir /\ reflected_dir <> refracted_dir.
Proof.
  exists ball43, (det_at 50), out_ray. do 4 eexists. split; [|split; [|split; [|split; [|split; [|split]]]]].
  - intros o [<-|[<-|[]]]; right; do 2 eexists; [|apply det_at_valid].
    eapply (VO_ball_lens r3zero None 2 None "real" (4/3) ball43); [|lra|lra|exact ball43_built]. repeat split; discriminate.
  - intros j j' o o' d pt pt' n n' H H' (_ & s & E & _) (_ & s' & E' & _).
    destruct j as [|[|[|j]]], j' as [|[|[|j']]]; try discriminate; try reflexivity; injection H as <-; injection H' as <-.
    + rewrite det_misses in E'. discriminate.
    + rewrite det_misses in E. discriminate.
  - eapply (run_sel 1 out_ray 100 [OLens ball43; ODetector (det_at 50)] _ 0 _ _ SfoNone (OLens ball43) (22/5)).
    + lra.
    + reflexivity.
    + cbn [scan]. rewrite (step_hit out_ray 100 _ _ _ (OLens ball43) _ _ _ _ eq_refl ball_hits q_dist) by lra. cbn [bind].
      rewrite (step_miss out_ray (Fin 100) _ _ (ODetector (det_at 50)) _ _ _ eq_refl det_misses). cbn [bind]. reflexivity.
    + reflexivity.
    + reflexivity.
    + reflexivity.
    + reflexivity.
    + apply q_dist.
    + discriminate.
    + apply flag_false. reflexivity.
  - reflexivity.
  - eapply (run_sel 1 out_ray 100 [ODetector (det_at 50); OLens ball43] _ 1 _ _ (SfoBool true) (OLens ball43) (22/5)).
    + lra.
    + reflexivity.
    + cbn [scan]. rewrite (step_miss out_ray (Fin 100) _ _ (ODetector (det_at 50)) _ _ _ eq_refl det_misses). cbn [bind sc_hit sc_min sc_sel].
      rewrite (step_hit out_ray 100 _ _ _ (OLens ball43) _ _ _ _ eq_refl ball_hits q_dist) by lra. cbn [bind]. reflexivity.
    + reflexivity.
    + reflexivity.
    + reflexivity.
    + reflexivity.
    + apply q_dist.
    + discriminate.
    + apply flag_true.
  - reflexivity.
  - intros H. injection H. lra.
Qed.
Print Assumptions C36_order_refuted.

Lemma chosen_unique r rm l k d pt n k' d' pt' n' : chosen r rm l k d pt n -> chosen r rm l k' d' pt' n' -> k = k' /\ d = d' /\ pt = pt' /\ n = n'.
Proof.
  intros [(o & En & R) M] [(o' & En' & R') M']. destruct (M _ _ _ _ _ En' R') as [A B], (M' _ _ _ _ _ En R) as [A' B'].
  assert (d = d') by lra. subst d'. destruct (Nat.lt_trichotomy k k') as [L|[->|L]]; [specialize (B' L); lra| |specialize (B L); lra].
  rewrite En in En'. injection En' as <-. destruct (reports_det _ _ _ _ _ _ _ _ _ R R') as (_ & -> & ->). auto.
Qed.
(** C37 (partial): when a real ball lens is the last optic of the list that is not skipped, an interaction with it refracts from index 1 to the
    lens index if the ray comes from outside (its direction points against the outward normal at the hit point q) and from the lens index to 1 if it
    comes from inside; Snell's law for these indices, or total reflection.  Missing: the lens anywhere else in the list, where the claim is
    false (refuted below), and lines that touch the sphere without crossing it. *)
Theorem C37_side_partial : forall m st st' rm p d a l b c n D f ty ix x pt nn,
  rs_remaining st = Fin rm -> ray_is (rs_ray st) p d -> is_unit d -> ray_type (rs_ray st) <> "faerie_fire"%string ->
  real_type ty -> D <> 0 -> 0 < ix -> mk_lens (fv c) n "spherical" (Some (Fin D)) f ty (Fin ix) = Ok l ->
  rs_world st = a ++ OLens l :: b -> (forall o, In o b -> skipped o = true) -> ~ tangent c (D / 2) p d ->
  run_body (Fin m) st = Ok st' -> chosen (rs_ray st) rm (rs_world st) (length a) x pt nn ->
  exists t, pt = fv (at_t p d t) /\ first_ahead c (Rabs (D / 2)) p d t /\
    let u := outward c (Rabs (D / 2)) (at_t p d t) in
    let law eta1 eta2 :=
      (total_reflection eta1 eta2 u d -> direction (rs_ray st') = fv (refl u d)) /\
      (~ total_reflection eta1 eta2 u d -> exists o, direction (rs_ray st') = fv o /\ is_unit o /\
          (eta1 * perp u d)%r3 = (eta2 * perp u o)%r3 /\ 0 <= (d ∙ u) * (o ∙ u)) in
    is_unit u /\ (d ∙ u < 0 /\ law 1 ix \/ 0 < d ∙ u /\ law ix 1).
Proof.
  intros m st st' rm p d a l b c n D f ty ix x pt nn Hrm Hr Hd NF Hty HD Hix El Ew Sb NT B Ch.
  destruct (ball_lens_report c n D f ty ix l p d (rs_ray st) HD El Hd Hr NT) as (h & Eh & Rp & bb & Eb).
  assert (En : nth_error (rs_world st) (length a) = Some (OLens l)) by (rewrite Ew, nth_error_app2, Nat.sub_diag by lia; reflexivity).
  assert (Ch' := Ch). destruct Ch' as [(o1 & En1 & (_ & s1 & Et & Dx & _)) _]. rewrite En in En1. injection En1 as <-. cbn [optic_test_intersect] in Et.
  rewrite Eh in Et. injection Et as Eh'. subst h. cbn [h4_sfo] in Eb. subst s1.
  destruct Rp as [t FA _ Ept Enn Uu Side|No F]; [|discriminate F]. cbn [h4_pt h4_normal h4_sfo] in *. injection Ept as ->. subst nn.
  exists t. split; [reflexivity|]. split; [exact FA|]. cbv zeta. set (u := outward c (Rabs (D / 2)) (at_t p d t)) in *. split; [exact Uu|].
  (* the flag is the lens's own *)
  apply body_outcome in B. assert (Sel : forall sc, scan (rs_ray st) (rs_remaining st) (mkScan false ninf (rs_sel st) (rs_sfo st)) 0 (rs_world st) = Ok sc ->
    sc_hit sc = true /\ sc_sel sc = Some (mkSel (length a) (fv (at_t p d t)) (Some (fv u))) /\ sc_sfo sc = Some (SfoBool bb)).
  { intros sc E. rewrite Hrm in E. destruct (scan_nearest _ _ _ _ _ _ E) as [(_ & _ & No)|(A & k & dd & pt2 & n2 & Es & C2)].
    - destruct Ch as [(o1 & En1 & R1) _]. destruct (No _ _ _ _ _ En1 R1).
    - destruct (chosen_unique _ _ _ _ _ _ _ _ _ _ _ C2 Ch) as (-> & -> & -> & ->). split; [exact A|]. split; [exact Es|].
      rewrite Ew in E. destruct (scan_sfo_last _ _ _ _ a (OLens l) b _ (eq_refl : skipped (OLens l) = false) Sb E) as (h2 & E2 & Ef). cbn [optic_test_intersect] in E2. rewrite Eh in E2. injection E2 as <-. exact Ef. }
  destruct B as [sc E Hh _|sc s E Hh Es F _|sc s ff o r2 o' E Hh Es F Ef En2 Ed ->]; [destruct (Sel _ E) as (A & _); congruence|congruence|].
  destruct (Sel _ E) as (_ & Es' & Ef'). rewrite Es in Es'. injection Es' as ->. rewrite Ef in Ef'. injection Ef' as ->. cbn [se_pt se_idx se_normal rs_ray] in *.
  rewrite En in En2. injection En2 as <-. rewrite Dx in Ed. set (r1 := fly (rs_ray st) (Fin x)) in *.
  assert (Hd1 : direction r1 = fv d) by (destruct Hr; assumption).
  assert (L : le_type l = ty /\ le_index l = Fin ix).
  { unfold mk_lens in El. change (String.eqb "spherical" "spherical_biconvex") with false in El. change (String.eqb "spherical" "spherical") with true in El.
    cbn iota in El. apply bind_ok in El. destruct El as (ci & _ & El). injection El as <-. auto. }
  destruct L as [L4 L5]. destruct Hty as (K1 & K2 & K3). apply String.eqb_neq in K1, K2, K3.
  cbn [optic_do_intersect] in Ed. apply bind_ok in Ed. destruct Ed as (r3 & Ed & X). injection X as -> _.
  unfold lens_do_intersect in Ed. rewrite L4, K1, K2, K3, L5, nofZ_fin in Ed. cbn [need bind sfo_truthy] in Ed.
  assert (Law : forall e1 e2 v, 0 < e1 -> 0 < e2 -> v = u \/ v = (- u)%r3 -> refract_snells_law r1 (fv v) (Fin e1) (Fin e2) = Ok r2 ->
    (total_reflection e1 e2 u d -> direction r2 = fv (refl u d)) /\
    (~ total_reflection e1 e2 u d -> exists o, direction r2 = fv o /\ is_unit o /\ (e1 * perp u d)%r3 = (e2 * perp u o)%r3 /\ 0 <= (d ∙ u) * (o ∙ u))).
  { intros e1 e2 v H1 H2 Hv Es2. assert (Uv : is_unit v) by (destruct Hv as [->| ->]; [exact Uu|apply unit_opp, Uu]).
    assert (TR : total_reflection e1 e2 v d <-> total_reflection e1 e2 u d) by (destruct Hv as [->| ->]; [tauto|apply total_opp]).
    split.
    - intros Tr. apply TR in Tr. destruct (snell_fv r1 d v e1 e2 Hd1 Hd Uv H1 H2) as [A _]. rewrite (A Tr) in Es2. injection Es2 as <-. cbn.
      destruct Hv as [->| ->]; [|rewrite refl_opp]; reflexivity.
    - intros Tr. rewrite <- TR in Tr. destruct (snell_spec r1 d v e1 e2 Hd1 Hd Uv H1 H2 Tr) as (o & A & B1 & B2 & _ & B3 & _). rewrite Es2 in A. injection A as ->.
      exists o. split; [reflexivity|]. split; [exact B1|]. destruct Hv as [->| ->]; [auto|]. rewrite !perp_opp in B2. split; [exact B2|].
      rewrite !dot_opp_r in B3. lra. }
  destruct Side as [(Sd & Hb)|(Sd & Hb)]; [left|right]; (split; [exact Sd|]); rewrite (Hb bb eq_refl) in Ed.
  - apply (Law 1 ix u); auto; lra.
  - rewrite vopp_fv in Ed. apply (Law ix 1 (- u)%r3); auto; lra.
Qed.
Print Assumptions C37_side_partial.
(** the hypotheses hold for the ray from outside and the scene with the lens last *)
Example C37_hyp : chosen out_ray 100 ([ODetector (det_at 50)] ++ [OLens ball43]) (length [ODetector (det_at 50)]) (22/5) (fv q_in) (Some (fv q_in)) /\
  ~ tangent r3zero (2 / 2) p_out e_x /\ exists st', run_body (Fin 100) (run_init out_ray (Fin 100) [ODetector (det_at 50); OLens ball43]) = Ok st'.
Proof.
  assert (Rep : reports out_ray 100 (OLens ball43) (22/5) (fv q_in) (Some (fv q_in))) by (split; [reflexivity|]; eexists; split; [apply ball_hits|split; [apply q_dist|lra]]).
  split; [|split].
  - split.
    + exists (OLens ball43). split; [reflexivity|exact Rep].
    + intros [|[|[|j]]] o' d' pt' n' H R; try discriminate; injection H as <-.
      * destruct R as (_ & s & E & _). rewrite det_misses in E. discriminate.
      * destruct (reports_det _ _ _ _ _ _ _ _ _ Rep R) as (<- & _). split; [lra|cbn; lia].
  - apply out_not_tangent.
  - eexists. eapply (body_sel 100 (run_init out_ray (Fin 100) [ODetector (det_at 50); OLens ball43]) 100 _ 1 (fv q_in) (Some (fv q_in)) (SfoBool true) (OLens ball43) (22/5)).
    + reflexivity.
    + cbn [run_init rs_ray rs_sel rs_sfo rs_world scan]. rewrite (step_miss out_ray (Fin 100) _ _ (ODetector (det_at 50)) _ _ _ eq_refl det_misses). cbn [bind sc_hit sc_min sc_sel].
      rewrite (step_hit out_ray 100 _ _ _ (OLens ball43) _ _ _ _ eq_refl ball_hits q_dist) by lra. cbn [bind]. reflexivity.
    + reflexivity.
    + reflexivity.
    + reflexivity.
    + reflexivity.
    + apply q_dist.
    + discriminate.
    + apply flag_true.
Qed.
(** C37 is false with another optic later in the list: the ray starts outside the ball (at distance > 1 from its centre), and is totally reflected at
    the denser medium, which Snell's law from index 1 to 4/3 excludes. *)
Theorem C37_side_refuted : exists (l : lens xr) (d : detector xr) r p i q r1 w1,
  mk_lens (fv r3zero) None "spherical" (Some (Fin 2)) None "real" (Fin (4/3)) = Ok l /\
  ray_is r p i /\ is_unit i /\ 1 < dist3 p r3zero /\ first_ahead r3zero 1 p i (22/5) /\ q = at_t p i (22/5) /\
  run 2 r (Fin 100) [OLens l; ODetector d] (Some 1%Z) = Ok (r1, w1) /\
  direction r1 = fv (refl (outward r3zero 1 q) i) /\ ~ total_reflection 1 (4/3) (outward r3zero 1 q) i.
Proof.
  exists ball43, (det_at 50), out_ray, p_out, e_x, q_in. do 2 eexists. split; [apply ball43_built|]. split; [apply out_ray_is|]. split; [apply e_x_unit|]. split; [|split; [|split; [|split; [|split]]]].
  - assert (Sq : dist3 p_out r3zero * dist3 p_out r3zero = 25 + 16/25) by (rewrite dist3_sq; unfold p_out, r3dot; cbn; lra).
    assert (0 <= dist3 p_out r3zero) by apply len_nonneg. nra.
  - split; [lra|]. split; [apply out_on; auto|]. intros s _ On. apply out_on in On. destruct On; lra.
  - symmetry. apply out_q.
  - eapply (run_sel 1 out_ray 100 [OLens ball43; ODetector (det_at 50)] _ 0 _ _ SfoNone (OLens ball43) (22/5)).
    + lra.
    + reflexivity.
    + cbn [scan]. rewrite (step_hit out_ray 100 _ _ _ (OLens ball43) _ _ _ _ eq_refl ball_hits q_dist) by lra. cbn [bind].
      rewrite (step_miss out_ray (Fin 100) _ _ (ODetector (det_at 50)) _ _ _ eq_refl det_misses). cbn [bind]. reflexivity.
    + reflexivity.
    + reflexivity.
    + reflexivity.
    + reflexivity.
    + apply q_dist.
    + discriminate.
    + apply flag_false. reflexivity.
  - cbn [direction set_direction]. f_equal. rewrite q_outward. unfold refl. apply r3_ext; unfold r3dot, q_in, e_x, reflected_dir; cbn; lra.
  - unfold total_reflection. lra.
Qed.
Print Assumptions C37_side_refuted.

(** C43 (partial): when an iteration of run interacts with an optic of a scene of constructor-built optics (S is its surface, G its touching lines), the
    ray stops at the reported point, which lies on S.  Missing: rays whose line touches a curved surface without crossing it (G p d), for which the claim
    is false below.  By C32 the hypotheses on st hold at every state reached in grating-free scenes. *)
Theorem C43_on_surface_partial : forall m st st' rm p d, rs_remaining st = Fin rm -> ray_is (rs_ray st) p d -> is_unit d ->
  ok_scene (rs_world st) -> run_body (Fin m) st = Ok st' -> rs_count st' = (rs_count st + 1)%Z ->
  exists k o S G q u x, nth_error (rs_world st) k = Some o /\ valid_optic o S G /\
    chosen (rs_ray st) rm (rs_world st) k x (fv q) (Some (fv u)) /\ S q /\ is_unit u /\
    (~ G p d -> position (rs_ray st') = fv q /\ point_history (rs_ray st') = point_history (rs_ray st) ++ [fv q]).
Proof.
  intros m st st' rm p d Hrm Hr Hd Sc B Ct. destruct (body_ok m st st' rm p d Hrm Hr Hd Sc B) as (_ & _ & [(_ & _ & _ & _ & X & _)|H]); [lia|].
  destruct H as (k & o & S & G & q & u & x & Ch & En & V & Sq & Uu & Ex & Lx & Rm & Ps & Qx & Hs & _). exists k, o, S, G, q, u, x.
  repeat (split; [assumption|]). intros NG. destruct Qx as [->|Qx]; [auto|contradiction].
Qed.
Print Assumptions C43_on_surface_partial.
Example C43_hyp : exists st', run_body (Fin 100) (run_init z_ray (Fin 100) [OMirror (mirror_at 5)]) = Ok st' /\ rs_count st' = (0 + 1)%Z /\ ok_scene [OMirror (mirror_at 5)].
Proof.
  eexists. split; [apply z_body; lra|]. split; [reflexivity|]. intros o [<-|[]]. right. do 2 eexists. apply mirror_at_valid.
Qed.
(** a convex mirror touched by the line of a ray that has already passed it: run moves the ray away from the mirror and turns it there *)
Definition convex2 : mirror xr := mkMirror (fv r3zero) "circular_convex_spherical" None "normal" (fv e_z) [SSphere (sph r3zero (2/2) (Fin 2))].
Lemma convex2_built : mk_mirror (fv r3zero) "circular_convex_spherical" None (Some (Fin 2)) None None None None "normal" (Some (fv e_z)) = Ok convex2.
Proof.
  unfold mk_mirror. cbn [unit_vector_o]. rewrite unit_vector_unit by apply e_z_unit. cbn [bind]. change (String.eqb "circular_convex_spherical" "circular_flat") with false.
  change (String.eqb "circular_convex_spherical" "rectangular_flat") with false. change (String.eqb "circular_convex_spherical" "circular_concave_spherical") with false.
  change (String.eqb "circular_convex_spherical" "circular_convex_spherical") with true. cbn iota. unfold mk_sphere. rewrite check_D_only. reflexivity.
Qed.
Definition p_past : R3 := mk3 5 1 0.
Definition past_ray : ray xr := a_ray p_past e_x 0 500.
Definition e_y : R3 := mk3 0 1 0.
Lemma past_ray_is : ray_is past_ray p_past e_x. Proof. split; reflexivity. Qed.
Lemma past_tangent : tangent r3zero (2/2) p_past e_x.
Proof. rewrite tangent_disc by apply e_x_unit. unfold sdisc, p_past, e_x, r3dot; cbn. lra. Qed.
Lemma e_y_on : on_sphere r3zero (Rabs (2 / 2)) e_y.
Proof. unfold on_sphere. rewrite Rabs_right by lra. assert (Sq : dist3 e_y r3zero * dist3 e_y r3zero = 1) by (rewrite dist3_sq; unfold e_y, r3dot; cbn; lra). assert (0 <= dist3 e_y r3zero) by apply len_nonneg. nra. Qed.
Lemma past_hit : optic_test_intersect (OMirror convex2) past_ray = Ok (H4 true (Some (fv e_y)) (Some (fv e_y)) (SfoInt 2)).
Proof.
  cbn [optic_test_intersect]. unfold mirror_test_intersect. cbn [mi_shape mi_surfaces convex2].
  change (String.eqb "circular_convex_spherical" "circular_flat") with false. change (String.eqb "circular_convex_spherical" "rectangular_flat") with false.
  change (String.eqb "circular_convex_spherical" "circular_concave_spherical") with false. change (String.eqb "circular_convex_spherical" "circular_convex_spherical") with true.
  cbn [orb mirror_ball_loop]. cbv zeta. cbn [bound bind bs_hit bs_min bs_pt bs_normal].
  destruct (sphere_cases r3zero (2/2) (Fin 2) p_past e_x past_ray e_x_unit past_ray_is); [destruct (SR_nt past_tangent)| |destruct (SM_nt past_tangent)].
  assert (at_t p_past e_x t0 = e_y) as E.
  { assert (t0 = -5) as ->; [|apply r3_ext; cbn; lra]. symmetry. apply ST_on. replace (at_t p_past e_x (-5)) with e_y by (apply r3_ext; cbn; lra). apply e_y_on. }
  rewrite ST_res, E. destruct (outward_normal r3zero (2/2) (Fin 2) e_y ltac:(lra) e_y_on) as [En _].
  unfold ball_update. cbn [h6_flag h6_p1 h6_p2 h6_n1 h6_n2 h6_count need bind bs_min]. cbv zeta. change (position past_ray) with (fv p_past). rewrite distance_fv.
  change (nlt (Fin (dist3 p_past e_y)) ninf) with true. cbn iota. cbn [bind]. rewrite En.
  replace (outward r3zero (Rabs (2 / 2)) e_y) with e_y by (unfold outward; rewrite Rabs_right by lra; apply r3_ext; cbn; lra). reflexivity.
Qed.
Theorem C43_touching_refuted : exists (mi : mirror xr) r q n s r1 w1,
  mk_mirror (fv r3zero) "circular_convex_spherical" None (Some (Fin 2)) None None None None "normal" (Some (fv e_z)) = Ok mi /\
  optic_test_intersect (OMirror mi) r = Ok (H4 true (Some (fv q)) (Some (fv n)) s) /\
  run 2 r (Fin 100) [OMirror mi] (Some 1%Z) = Ok (r1, w1) /\
  position r1 = fv (mk3 10 1 0) /\ q <> mk3 10 1 0 /\ ~ on_sphere r3zero 1 (mk3 10 1 0).
Proof.
  exists convex2, past_ray, e_y, e_y, (SfoInt 2). do 2 eexists. split; [apply convex2_built|]. split; [apply past_hit|].
  assert (D : distance_between (position past_ray) (fv e_y) = Fin 5).
  { change (position past_ray) with (fv p_past). rewrite distance_fv. f_equal. assert (Sq : dist3 p_past e_y * dist3 p_past e_y = 25) by (rewrite dist3_sq; unfold p_past, e_y, r3dot; cbn; lra).
    assert (0 <= dist3 p_past e_y) by apply len_nonneg. nra. }
  split; [|split; [|split]].
  - eapply (run_sel 1 past_ray 100 [OMirror convex2] _ 0 _ _ (SfoInt 2) (OMirror convex2) 5).
    + lra.
    + reflexivity.
    + cbn [scan]. rewrite (step_hit past_ray 100 _ _ _ (OMirror convex2) _ _ _ _ eq_refl past_hit D) by lra. cbn [bind]. reflexivity.
    + reflexivity.
    + reflexivity.
    + reflexivity.
    + reflexivity.
    + exact D.
    + discriminate.
    + cbn [optic_do_intersect]. unfold mirror_do_intersect. change (String.eqb (mi_type convex2) "normal") with true. cbn [need bind]. reflexivity.
  - unfold reflect_specular. cbn [position set_direction fly past_ray a_ray direction]. rewrite vscale_fv, vadd_fv. f_equal. apply r3_ext; cbn; lra.
  - intros H. injection H. lra.
  - unfold on_sphere. intros H. assert (Sq : dist3 (mk3 10 1 0) r3zero * dist3 (mk3 10 1 0) r3zero = 101) by (rewrite dist3_sq; unfold r3dot; cbn; lra). rewrite H in Sq. lra.
Qed.
Print Assumptions C43_touching_refuted.

(** C46: a concave mirror of focal length f built with any sensible parameters.  C is the centre of curvature. *)
Theorem C46_concave : forall c n D w h0 f tg ty dmd m r p d h, n <> r3zero -> f <> 0 ->
  mk_mirror (fv c) "circular_concave_spherical" (Some (fv n)) (Some (Fin D)) w h0 (Some (Fin f)) tg ty dmd = Ok m ->
  is_unit d -> ray_is r p d -> mirror_test_intersect m r = Ok h -> h4_flag h = true ->
  let C := (c + (2 * f) * dirn n)%r3 in
  (exists t, meets_plane c (dirn n) p d t /\ dist3 (at_t p d t) c < D / 2) /\
  exists t u, h4_pt h = Some (fv (at_t p d t)) /\ on_sphere C (2 * Rabs f) (at_t p d t) /\ h4_normal h = Some (fv u) /\ is_unit u /\
    ((exists s, at_t p d s = C) -> ty = "normal"%string -> forall r1, direction r1 = fv d ->
       mirror_do_intersect m r1 (Some (fv u)) = Ok (set_direction r1 (fv (- d)%r3))).
Proof.
  intros c n D w h0 f tg ty dmd m r p d h Hn Hf0 E Hd Hr Ht Hf C. destruct (concave_hit c n D w h0 f tg ty dmd m r p d h Hn Hf0 E Hd Hr Ht Hf) as (A & t & P & On & Nn & U & _).
  split; [exact A|]. fold C in On, Nn, U. eexists t, _. split; [exact P|]. split; [exact On|]. split; [exact Nn|]. split; [exact U|].
  intros (s & Es) Ty r1 Hd1. assert (0 < 2 * Rabs f) by (assert (0 < Rabs f) by (apply Rabs_pos_lt; exact Hf0); lra).
  eapply (radius_returns m r1 p d C (2 * Rabs f) t s); auto. unfold mk_mirror in E.
  change (String.eqb "circular_concave_spherical" "circular_flat") with false in E. change (String.eqb "circular_concave_spherical" "rectangular_flat") with false in E.
  change (String.eqb "circular_concave_spherical" "circular_concave_spherical") with true in E.
  repeat (match goal with H : bind _ _ = Ok _ |- _ => let a := fresh in let e := fresh in apply bind_ok in H; destruct H as (a & e & H); cbn beta iota zeta in H end).
  injection E as <-. exact Ty.
Qed.
Print Assumptions C46_concave.

(** exactly when a concave mirror reports a hit: the forward ray crosses the aperture disc and the sphere ahead (or touches the sphere); of the
    sphere points ahead it takes the one nearest to the disc crossing *)
Theorem C46_complete : forall c n D w h0 f tg ty dmd m r p d, n <> r3zero -> f <> 0 ->
  mk_mirror (fv c) "circular_concave_spherical" (Some (fv n)) (Some (Fin D)) w h0 (Some (Fin f)) tg ty dmd = Ok m ->
  is_unit d -> ray_is r p d ->
  let C := (c + (2 * f) * dirn n)%r3 in
  exists h, mirror_test_intersect m r = Ok h /\
  (h4_flag h = true <-> (exists t, meets_plane c (dirn n) p d t /\ dist3 (at_t p d t) c < D / 2) /\
     (tangent C (2 * f) p d \/ exists t, 1e-12 < t /\ on_sphere C (2 * Rabs f) (at_t p d t))) /\
  (forall t, h4_pt h = Some (fv (at_t p d t)) -> forall a s, meets_plane c (dirn n) p d a -> 1e-12 < s -> on_sphere C (2 * Rabs f) (at_t p d s) ->
     dist3 (at_t p d a) (at_t p d t) <= dist3 (at_t p d a) (at_t p d s)).
Proof. exact concave_complete. Qed.
Print Assumptions C46_complete.
Example C46_hyp : exists m h, mk_mirror (fv (at_z 5)) "circular_concave_spherical" (Some (fv e_z)) (Some (Fin 2)) None None (Some (Fin (-10))) None "normal" (Some (fv e_z)) = Ok m /\
  mirror_test_intersect m z_ray = Ok h /\ h4_flag h = true.
Proof.
  assert (B : exists m, mk_mirror (fv (at_z 5)) "circular_concave_spherical" (Some (fv e_z)) (Some (Fin 2)) None None (Some (Fin (-10))) None "normal" (Some (fv e_z)) = Ok m).
  { eexists. unfold mk_mirror. cbn [unit_vector_o]. rewrite unit_vector_unit by apply e_z_unit. cbn [bind]. change (String.eqb "circular_concave_spherical" "circular_flat") with false.
    change (String.eqb "circular_concave_spherical" "rectangular_flat") with false. change (String.eqb "circular_concave_spherical" "circular_concave_spherical") with true. cbn iota. cbn [need bind].
    rewrite nofZ_fin, nmul_fin, vscale_fv, vadd_fv. unfold mk_circle, mk_sphere. rewrite check_D_only, check_R_only. cbn [bind]. reflexivity. }
  destruct B as (m & B). exists m. destruct (concave_complete (at_z 5) e_z 2 None None (-10) None "normal" (Some (fv e_z)) _ z_ray (at_z 0) e_z e_z_nz ltac:(lra) B e_z_unit z_ray_is) as (h & Eh & Fl & _).
  exists h. split; [exact B|]. split; [exact Eh|]. apply Fl. rewrite dirn_of_unit by apply e_z_unit. split.
  - exists 5. split; [apply z_meets|]. rewrite z_at, dist_self. lra.
  - right. exists 5. split; [lra|]. rewrite z_at. unfold on_sphere. rewrite Rabs_left by lra.
    match goal with |- dist3 ?a ?b = _ => assert (Sq : dist3 a b * dist3 a b = 400) by (rewrite dist3_sq; unfold r3dot; cbn; lra); assert (0 <= dist3 a b) by apply len_nonneg end. nra.
Qed.

(** C47: ball lenses and convex mirrors report the first point of the ray on the sphere beyond 1e-12 with the outward unit normal, or nothing when there
    is none, for every ray whose line does not just touch the sphere. *)
Theorem C47_ball_lens : forall c n D f ty ix l p d r, D <> 0 -> mk_lens (fv c) n "spherical" (Some (Fin D)) f ty (Fin ix) = Ok l ->
  is_unit d -> ray_is r p d -> ~ tangent c (D / 2) p d ->
  let rad := Rabs (D / 2) in
  exists h, lens_test_intersect l r = Ok h /\
  ((exists t, first_ahead c rad p d t /\ h4_flag h = true /\ h4_pt h = Some (fv (at_t p d t)) /\
      h4_normal h = Some (fv (outward c rad (at_t p d t))) /\ is_unit (outward c rad (at_t p d t))) \/
   ((forall t, ~ first_ahead c rad p d t) /\ h4_flag h = false)).
Proof.
  intros c n D f ty ix l p d r HD E Hd Hr NT rad. destruct (ball_lens_report c n D f ty ix l p d r HD E Hd Hr NT) as (h & Eh & Rp & _). exists h. split; [exact Eh|].
  destruct Rp as [t A B C F U _|A B]; [left; exists t; auto|right; auto].
Qed.
Print Assumptions C47_ball_lens.
Theorem C47_convex_mirror : forall c n D w h0 f tg ty dmd m p d r, D <> 0 ->
  mk_mirror (fv c) "circular_convex_spherical" n (Some (Fin D)) w h0 f tg ty dmd = Ok m ->
  is_unit d -> ray_is r p d -> ~ tangent c (D / 2) p d ->
  let rad := Rabs (D / 2) in
  exists h, mirror_test_intersect m r = Ok h /\
  ((exists t, first_ahead c rad p d t /\ h4_flag h = true /\ h4_pt h = Some (fv (at_t p d t)) /\
      h4_normal h = Some (fv (outward c rad (at_t p d t))) /\ is_unit (outward c rad (at_t p d t))) \/
   ((forall t, ~ first_ahead c rad p d t) /\ h4_flag h = false)).
Proof.
  intros c n D w h0 f tg ty dmd m p d r HD E Hd Hr NT rad. destruct (convex_mirror_report c n D w h0 f tg ty dmd m p d r HD E Hd Hr NT) as (h & Eh & Rp). exists h. split; [exact Eh|].
  destruct Rp as [t A B C F U _|A B]; [left; exists t; auto|right; auto].
Qed.
Print Assumptions C47_convex_mirror.
Example C47_hyp : mk_lens (fv r3zero) None "spherical" (Some (Fin 2)) None "real" (Fin (4/3)) = Ok ball43 /\ ~ tangent r3zero (2 / 2) p_out e_x /\ first_ahead r3zero 1 p_out e_x (22/5) /\
  mk_mirror (fv r3zero) "circular_convex_spherical" None (Some (Fin 2)) None None None None "normal" (Some (fv e_z)) = Ok convex2.
Proof.
  split; [apply ball43_built|]. split; [apply out_not_tangent|]. split; [|apply convex2_built].
  split; [lra|]. split; [apply out_on; auto|]. intros s _ On. apply out_on in On. destruct On; lra.
Qed.

(** C49 is false: without a dmd_normal every constructor call of Mirror raises TypeError, for every number type *)
Theorem C49_default_refuted : forall T (N : Num T) pos shp n D w h f tg ty, @mk_mirror T N pos shp n D w h f tg ty None = Err TypeError.
Proof. reflexivity. Qed.
Print Assumptions C49_default_refuted.
(** with any dmd_normal the flat circular mirror is built *)
Theorem C49_with_dmd_partial : forall c n D tg ty dmd, n <> r3zero -> dmd <> r3zero ->
  exists m, mk_mirror (fv c) "circular_flat" (Some (fv n)) (Some (Fin D)) None None None tg ty (Some (fv dmd)) = Ok m /\
    mi_position m = fv c /\ mi_normal m = Some (fv (dirn n)) /\ mi_type m = ty.
Proof.
  intros c n D tg ty dmd Hn Hd. unfold mk_mirror. cbn [unit_vector_o]. rewrite !unit_vector_fv by assumption. cbn [bind].
  change (String.eqb "circular_flat" "circular_flat") with true. cbn iota. unfold mk_circle. rewrite check_D_only. cbn [bind]. eexists. split; [reflexivity|]. auto.
Qed.
Print Assumptions C49_with_dmd_partial.

(** the detector at z = 5 records the ray flying up the z axis *)
Example C38_hyp : exists r' w', run 2 z_ray (Fin 100) [ODetector (det_at 5)] (Some 1%Z) = Ok (r', w') /\ w' <> [ODetector (det_at 5)].
Proof.
  assert (Hit : optic_test_intersect (ODetector (det_at 5)) z_ray = Ok (H4 true (Some (fv (at_z 5))) (Some (fv e_z)) SfoNone)).
  { cbn [optic_test_intersect det_at de_shape de_surfaces]. unfold flat_test_intersect. change (String.eqb "rectangular_flat" "rectangular_flat") with true. rewrite orb_true_r. cbn [flat_loop].
    unfold flat_step. cbn [shape_test_intersect].
    destruct (rectangle_test_spec (at_z 5) e_z e_x 1 1 (at_z 0) e_z z_ray) as [(s & (M1 & _ & M2) & _ & E)|(No & _)]; try apply e_z_unit; try apply e_x_unit; try apply z_ray_is; try lra.
    - assert (s = 5) as -> by (unfold on_plane, at_t, at_z, e_z, r3dot in M2; cbn in M2; lra). rewrite z_at in E. rewrite E. cbn [bind unpack3 h3_flag h3_pt h3_normal need flat_init fs_min]. cbv zeta.
      change (position z_ray) with (fv (at_z 0)). rewrite distance_fv. reflexivity.
    - exfalso. apply (No 5 z_meets). rewrite z_at. unfold in_rect, at_z, e_z, e_x, r3dot; cbn. rewrite !Rabs_right; lra. }
  assert (D : distance_between (position z_ray) (fv (at_z 5)) = Fin 5).
  { change (position z_ray) with (fv (at_z 0)). rewrite distance_fv, <- z_at, fly_to; [reflexivity|apply e_z_unit|lra]. }
  do 2 eexists. split.
  - eapply (run_sel 1 z_ray 100 [ODetector (det_at 5)] _ 0 _ _ SfoNone (ODetector (det_at 5)) 5).
    + lra.
    + reflexivity.
    + cbn [scan]. rewrite (step_hit z_ray 100 _ _ _ (ODetector (det_at 5)) _ _ _ _ eq_refl Hit D) by lra. cbn [bind]. reflexivity.
    + reflexivity.
    + reflexivity.
    + reflexivity.
    + reflexivity.
    + exact D.
    + discriminate.
    + reflexivity.
  - discriminate.
Qed.
