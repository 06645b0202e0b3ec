(** C98: rays that touch a ball, ahead or behind, in a run (shapes.py:199-244, optics3d.py:209-244, 383-441, 876-949). *)
From Coq Require Import Reals ZArith Lra Lia Psatz List String Bool.
From Verif Require Import PyErr Num Vec Shapes Csg Optics Spec XReal RVec VecProofs FlatProofs SphereProofs CylProofs ShapeExtra TreeProofs SolidProofs CsgProofs
  RayProofs SceneProofs OrderProofs OpticHits RunXr RunGen Continue Props_Shape.
Import ListNotations.
Local Open Scope R_scope.

(** the line meets the ball of centre c and radius rad at t0, at a right angle to the radius there *)
Definition touches (c : R3) (rad : R) (p d : R3) (t0 : R) : Prop := dist3 (at_t p d t0) c = rad /\ d ∙ (at_t p d t0 - c)%r3 = 0.
(** the direction o of the radius at the point of contact *)
Definition radial (c : R3) (rad : R) (q : R3) : R3 := (/ rad * (q - c))%r3.

Lemma touch_tangent c rad p d t0 : is_unit d -> touches c (Rabs rad) p d t0 -> tangent c rad p d.
Proof.
  intros Ud [On Pe]. apply tangent_disc; [exact Ud|]. assert (Q : (at_t p d t0 - c)%r3 ∙ (at_t p d t0 - c)%r3 = rad * rad).
  { rewrite <- dist3_sq, On, <- Rabs_mult. apply Rabs_right. assert (0 <= rad * rad) by apply Rle_0_sqr. lra. }
  unfold is_unit in Ud. unfold sdisc. replace (c - p)%r3 with (t0 * d - (at_t p d t0 - c))%r3 by (unfold at_t; clear; r3_ring). generalize dependent (at_t p d t0 - c)%r3. intros x Pe Q.
  autorewrite with dotr. rewrite (dot_comm x d), Ud, Pe, Q. ring.
Qed.
Lemma touch_res c rad D p d t0 r : is_unit d -> ray_is r p d -> touches c (Rabs rad) p d t0 ->
  sphere_test_intersect (sph c rad D) r = H6 true (Some (fv (at_t p d t0))) None (Some (sphere_normal (sph c rad D) (fv (at_t p d t0)))) None 2.
Proof.
  intros Ud Hr T. pose proof (touch_tangent c rad p d t0 Ud T) as Tg. destruct (sphere_cases c rad D p d r Ud Hr); [contradiction| |contradiction].
  assert (E : t0 = t1) by (apply ST_on; exact (proj1 T)). rewrite E. exact ST_res.
Qed.
Lemma dist_back p d t : is_unit d -> dist3 p (at_t p d t) = Rabs t.
Proof. intros Ud. rewrite dist3_sym. unfold dist3. replace (at_t p d t - p)%r3 with (t * d)%r3 by (unfold at_t; r3_ring). rewrite len_scale, (len_unit d Ud). ring. Qed.

(** one optic alone in the scene: the run goes on from the point where the optic acts *)
Lemma single_step (o : optic xr) (r : ray xr) L x pt n s p d r2 : is_unit d -> ray_is r p d -> skipped o = false -> optic_test_intersect o r = Ok (H4 true (Some pt) n s) -> distance_between (position r) pt = Fin x -> 1e-12 < x <= L ->
  ray_type r <> "faerie_fire"%string -> blocked r = false -> optic_do_intersect o (fly r (Fin x)) pt n s = Ok (r2, o) ->
  forall fuel fuel', L / 1e-12 + 1 < INR fuel -> (L - x) / 1e-12 + 1 < INR fuel' -> run fuel r (Fin L) [o] None = run fuel' r2 (Fin (L - x)) [o] None.
Proof.
  intros Ud Hr Sk E Dx Lx Ty Hb Do fuel fuel' Lf Lf'. symmetry. eapply flows_det; [|apply run_flows, run_terminates; now left].
  eapply (F_hit r [o] L 0%nat x pt n o r2 o); [lra|exact Hb|constructor; [right; eexists; split; [exact E|discriminate]|constructor]| |reflexivity| |].
  - split; [exists o; split; [reflexivity|]; split; [exact Sk|]; exists s; auto|].
    intros j o' d' pt' n' Ej (Sk' & s' & E' & Dx' & _). destruct j as [|j]; [|destruct j; discriminate]. injection Ej as <-. rewrite E in E'. injection E' as <- <- <-. rewrite Dx in Dx'. injection Dx' as <-. split; [lra|lia].
  - unfold act. destruct (String.eqb_spec (ray_type r) "faerie_fire"); [contradiction|]. cbn [last_side]. rewrite Sk, E. cbn [h4_sfo bound bind]. exact Do.
  - cbn [set_nth]. apply run_flows, run_terminates. now left.
Qed.

(** A ball lens of index above 1 bends a touching ray away from itself; it acts when the ray has flown the distance to the point of contact, also if that point is behind the start. *)
Theorem C98_lens : forall c n D f ty ix l p d t0 L (r : ray xr), D <> 0 -> real_type ty -> 1 < ix -> mk_lens (fv c) n "spherical" (Some (Fin D)) f ty (Fin ix) = Ok l ->
  is_unit d -> ray_is r p d -> ray_type r <> "faerie_fire"%string -> blocked r = false -> touches c (Rabs (D / 2)) p d t0 -> 1e-12 < Rabs t0 <= L ->
  let d' := (/ ix * d + sqrt (1 - / ix * / ix) * radial c (Rabs (D / 2)) (at_t p d t0))%r3 in
  is_unit d' /\ d' ∙ d = / ix /\ d' <> d /\
  exists r', ray_is r' (at_t p d (Rabs t0)) d' /\ point_history r' = point_history r ++ [fv (at_t p d (Rabs t0))] /\ blocked r' = false /\ ray_type r' = ray_type r /\
    forall fuel fuel', L / 1e-12 + 1 < INR fuel -> (L - Rabs t0) / 1e-12 + 1 < INR fuel' -> run fuel r (Fin L) [OLens l] None = run fuel' r' (Fin (L - Rabs t0)) [OLens l] None.
Proof.
  intros c n D f ty ix l p d t0 L r HD (T1 & T2 & T3) Hix E Ud Hr Ty Hb To Lt d'.
  unfold mk_lens in E. change (String.eqb "spherical" "spherical_biconvex") with false in E. change (String.eqb "spherical" "spherical") with true in E. cbn iota in E.
  apply bind_ok in E. destruct E as (sp & Esp & E). apply mk_sphere_D in Esp. subst sp. 
  assert (R0 : D / 2 <> 0) by lra. destruct (outward_normal c (D / 2) (Fin D) (at_t p d t0) R0 (proj1 To)) as [En Uo]. set (o := outward c (Rabs (D / 2)) (at_t p d t0)) in *.
  change (radial c (Rabs (D / 2)) (at_t p d t0)) with o in d'.
  assert (Pe : d ∙ o = 0) by (unfold o, outward; rewrite dot_scale_r, (proj2 To); ring).
  assert (Ri : 0 < / ix < 1) by (split; [apply Rinv_0_lt_compat; lra|rewrite <- Rinv_1; apply Rinv_lt_contravar; lra]).
  assert (Rq : 0 < 1 - / ix * / ix) by nra.
  assert (Dd : d' ∙ d = / ix) by (unfold d'; autorewrite with dotr; rewrite (dot_comm o d), Pe; unfold is_unit in Ud; rewrite Ud; ring).
  assert (Ud' : is_unit d').
  { unfold is_unit, d' in *. autorewrite with dotr. rewrite (dot_comm o d), Pe, Ud, Uo. pose proof (sqrt_sqrt (1 - / ix * / ix) ltac:(lra)). nra. }
  split; [exact Ud'|]. split; [exact Dd|]. split; [intros X; rewrite X in Dd; unfold is_unit in Ud; rewrite Ud in Dd; lra|].
  assert (Te : optic_test_intersect (OLens l) r = Ok (H4 true (Some (fv (at_t p d t0))) (Some (fv o)) (SfoBool true))).
  { injection E as <-. cbn [optic_test_intersect]. unfold lens_test_intersect. cbn [le_shape le_surfaces]. change (String.eqb "spherical" "spherical_biconvex") with false. change (String.eqb "spherical" "spherical") with true. cbn iota.
    cbn [lens_ball_loop]. cbv zeta. fold (sph c (D / 2) (Fin D)). rewrite (touch_res c (D / 2) (Fin D) p d t0 r Ud Hr To). unfold ball_update. cbn [h6_flag h6_p1 h6_p2 h6_n1 need bind h6_count bs_min].
    destruct (Hr) as [Hp _]. rewrite Hp at 1. rewrite distance_fv. change (nlt (Fin (dist3 p (at_t p d t0))) ninf) with true. cbn iota. cbn [bind bs_hit bs_pt bs_normal bs_sfo]. rewrite En. reflexivity. }
  assert (Dx : distance_between (position r) (fv (at_t p d t0)) = Fin (Rabs t0)) by (destruct Hr as [-> _]; rewrite distance_fv, dist_back by exact Ud; reflexivity).
  set (r1 := fly r (Fin (Rabs t0))). pose proof (fly_ray r p d (Rabs t0) Hr) as Hr1. fold r1 in Hr1.
  exists (set_direction r1 (fv d')). split; [split; [exact (proj1 Hr1)|reflexivity]|]. split; [exact (fly_history r p d (Rabs t0) Hr)|]. split; [exact Hb|]. split; [reflexivity|].
  apply (single_step (OLens l) r L (Rabs t0) (fv (at_t p d t0)) (Some (fv o)) (SfoBool true) p d); try assumption; [reflexivity|].
  fold r1. cbn [optic_do_intersect]. injection E as <-. unfold lens_do_intersect. cbn [le_type le_index].
  destruct (String.eqb_spec ty "ideal"); [contradiction|]. destruct (String.eqb_spec ty "ideal_collimate"); [contradiction|]. destruct (String.eqb_spec ty "ideal_focus"); [contradiction|].
  cbn [need bind sfo_truthy]. unfold refract_snells_law. rewrite (proj2 Hr1). rewrite !nofZ_fin, dot_fv, nlt_fin, Pe, Rltb_false_intro by lra. rewrite !vopp_fv, dot_fv.
  rewrite neqb_fin. destruct (Reqb_spec ix 0); [lra|]. rewrite ndiv_fin by lra. rewrite !nmul_fin, !nsub_fin, !nmul_fin, ngt_fin, (Rltb_false_intro ix 1) by lra. cbn iota.
  rewrite !nsub_fin, nsqrt_fin.
  2:{ replace ((- d)%r3 ∙ (- o)%r3) with 0 by (autorewrite with dotr; rewrite Pe; ring). unfold Rdiv. nra. }
  rewrite nsub_fin, !vscale_fv, vadd_fv. cbn [bind]. do 3 f_equal. replace ((- d)%r3 ∙ (- o)%r3) with 0 by (autorewrite with dotr; rewrite Pe; ring).
  unfold d'. replace (1 - 1 / ix * (1 / ix) * (1 - 0 * 0)) with (1 - / ix * / ix) by (field; lra). generalize (sqrt (1 - / ix * / ix)). intros k. replace (1 / ix) with (/ ix) by (field; lra). generalize (/ ix). intros j. clearbody o. clear. f_equal. r3_ring.
Qed.
Print Assumptions C98_lens.

(** free flight in a scene of one optic that reports nothing within reach *)
Lemma single_free (o : optic xr) (r : ray xr) L p d : is_unit d -> ray_is r p d -> test_ok r o -> (forall x pt n, ~ reports r L o x pt n) -> 0 < L -> blocked r = false ->
  exists r', (forall fuel, L / 1e-12 + 1 < INR fuel -> run fuel r (Fin L) [o] None = Ok (r', [o])) /\ ray_is r' (at_t p d L) d /\ point_history r' = point_history r ++ [fv (at_t p d L)].
Proof.
  intros Ud Hr Tk No HL Hb. exists (fly r (Fin L)). split; [|split; [apply fly_ray; exact Hr|apply fly_history; exact Hr]].
  intros fuel Lf. symmetry. eapply flows_det; [|apply run_flows, run_terminates; now left]. apply F_free; [exact HL|exact Hb|constructor; [exact Tk|constructor]|].
  intros k o' x pt n Ek. destruct k as [|k]; [|destruct k; discriminate]. injection Ek as <-. apply No.
Qed.
(** With the point of contact ahead, the bent ray leaves the lens for good. *)
Theorem C98_lens_end : forall c n D f ty ix l p d t0 L (r : ray xr), D <> 0 -> real_type ty -> 1 < ix -> mk_lens (fv c) n "spherical" (Some (Fin D)) f ty (Fin ix) = Ok l ->
  is_unit d -> ray_is r p d -> ray_type r <> "faerie_fire"%string -> blocked r = false -> touches c (Rabs (D / 2)) p d t0 -> 1e-12 < t0 < L ->
  let q := at_t p d t0 in let d' := (/ ix * d + sqrt (1 - / ix * / ix) * radial c (Rabs (D / 2)) q)%r3 in
  exists r', (forall fuel, L / 1e-12 + 1 < INR fuel -> run fuel r (Fin L) [OLens l] None = Ok (r', [OLens l])) /\
    ray_is r' (at_t q d' (L - t0)) d' /\ point_history r' = point_history r ++ [fv q; fv (at_t q d' (L - t0))].
Proof.
  intros c n D f ty ix l p d t0 L r HD Ht Hix E Ud Hr Ty Hb To Lt q d'.
  destruct (C98_lens c n D f ty ix l p d t0 L r HD Ht Hix E Ud Hr Ty Hb To ltac:(rewrite Rabs_right; lra)) as (Ud' & Dd & _ & r1 & Hr1 & Hh1 & Hb1 & _ & Run). rewrite (Rabs_right t0) in * by lra.
  fold q in Hr1, Hh1. fold q d' in Ud', Dd, Hr1. assert (R0 : D / 2 <> 0) by lra.
  assert (Mi : optic_test_intersect (OLens l) r1 = Ok (H4 false None None (SfoBool true))).
  { unfold mk_lens in E. change (String.eqb "spherical" "spherical_biconvex") with false in E. change (String.eqb "spherical" "spherical") with true in E. cbn iota in E.
    apply bind_ok in E. destruct E as (sp & Esp & E). apply mk_sphere_D in Esp. subst sp. injection E as <-.
    cbn [optic_test_intersect]. unfold lens_test_intersect. cbn [le_shape le_surfaces]. change (String.eqb "spherical" "spherical_biconvex") with false. change (String.eqb "spherical" "spherical") with true. cbn iota.
    cbn [lens_ball_loop]. cbv zeta. fold (sph c (D / 2) (Fin D)).
    assert (Ms : sphere_test_intersect (sph c (D / 2) (Fin D)) r1 = H6 false None None None None 0); [|rewrite Ms; reflexivity].
    assert (PR : 0 < Rabs (D / 2)) by (apply Rabs_pos_lt; exact R0). assert (Oq : on_sphere c (Rabs (D / 2)) (at_t q d' 0)) by (replace (at_t q d' 0) with q by (unfold at_t; clear; r3_ring); exact (proj1 To)).
    assert (Go : 0 < d' ∙ radial c (Rabs (D / 2)) q).
    { destruct (outward_normal c (D / 2) (Fin D) q R0 (proj1 To)) as [_ Uo]. unfold is_unit in Uo. change (radial c (Rabs (D / 2)) q) with (outward c (Rabs (D / 2)) q) in *.
      assert (Pe : d ∙ outward c (Rabs (D / 2)) q = 0) by (unfold outward; rewrite dot_scale_r; unfold q; rewrite (proj2 To); ring).
      unfold d', radial. fold (outward c (Rabs (D / 2)) q). rewrite dot_add_l, !dot_scale_l, Pe, Uo. rewrite Rmult_0_r, Rplus_0_l, Rmult_1_r. apply sqrt_lt_R0.
      assert (0 < / ix < 1) by (split; [apply Rinv_0_lt_compat; lra|rewrite <- Rinv_1; apply Rinv_lt_contravar; lra]). nra. }
    destruct (sphere_cases c (D / 2) (Fin D) q d' r1 Ud' Hr1) as [s0 s1 Lt' On _ NT Res|s0 On _ Tg Res|On _ NT Res].
    - destruct (cross_sides c (Rabs (D / 2)) q d' s0 s1 Ud' PR Lt' On) as [Sd0 Sd1]. destruct (proj1 (On 0) Oq) as [Z|Z].
      + exfalso. rewrite <- Z in Sd0. replace (at_t q d' 0) with q in Sd0 by (unfold at_t; clear; r3_ring). unfold outward in Sd0. unfold radial in Go. lra.
      + rewrite Res. cbv zeta. rewrite !Rltb_false_intro by lra. reflexivity.
    - exfalso. assert (Pe : d' ∙ (q - c)%r3 = 0).
      { apply tangent_disc in Tg; [|exact Ud']. unfold sdisc in Tg. pose proof (proj1 To) as X. fold q in X. assert (Q : (q - c)%r3 ∙ (q - c)%r3 = D / 2 * (D / 2)).
        { rewrite <- dist3_sq, X, <- Rabs_mult. apply Rabs_right. assert (0 <= D / 2 * (D / 2)) by apply Rle_0_sqr. lra. }
        replace (c - q)%r3 with (- (q - c))%r3 in Tg by (clear; r3_ring). assert (X1 : forall a b, a ∙ (- b)%r3 = - (a ∙ b)) by (intros; clear; r3_ring). assert (X2 : forall b, (- b)%r3 ∙ (- b)%r3 = b ∙ b) by (intros; clear; r3_ring). rewrite X1, X2, Q in Tg. set (y := (q - c)%r3) in *.
        assert (Z : (d' ∙ y) * (d' ∙ y) = 0) by lra. apply Rmult_integral in Z. destruct Z; assumption. }
      unfold radial in Go. rewrite dot_scale_r, Pe in Go. lra.
    - destruct (On 0 Oq). }
  destruct (single_free (OLens l) r1 (L - t0) q d' Ud' Hr1) as (r' & F & P & H); [right; eexists; split; [exact Mi|discriminate]| |lra|exact Hb1|].
  { intros x pt nn (_ & s & X & _). rewrite Mi in X. discriminate. }
  exists r'. split; [|split; [exact P|rewrite H, Hh1, <- app_assoc; reflexivity]].
  intros fuel Lf. assert (Lg : (L - t0) / 1e-12 + 1 < INR fuel) by (unfold Rdiv in *; nra). rewrite (Run fuel fuel Lf Lg). apply F. exact Lg.
Qed.
Print Assumptions C98_lens_end.

(** An optic glanced at: a touching ray is told the point of contact and keeps its direction there. *)
Definition glanced (o : optic xr) (c : R3) (rad : R) : Prop := skipped o = false /\ forall (r : ray xr) p d t0, is_unit d -> ray_is r p d -> touches c (Rabs rad) p d t0 ->
  exists n s, optic_test_intersect o r = Ok (H4 true (Some (fv (at_t p d t0))) (Some n) s) /\ forall (r1 : ray xr) p1, ray_is r1 p1 d -> optic_do_intersect o r1 (fv (at_t p d t0)) (Some n) s = Ok (set_direction r1 (fv d), o).
Lemma reflect_across (r : ray xr) p d n : is_unit d -> is_unit n -> ray_is r p d -> d ∙ n = 0 -> reflect_specular r (fv n) = set_direction r (fv d).
Proof.
  intros Ud Un [_ Hd] Z. rewrite (reflect_fv r d n) by (assumption || (apply unit_nonzero; assumption)). rewrite !dirn_of_unit by assumption. unfold refl. rewrite ?Z, ?(dot_comm n d), ?Z. do 2 f_equal. clear. r3_ring.
Qed.
Lemma dome_glanced c n D w h f tg dmd m : D <> 0 -> mk_mirror (fv c) "circular_convex_spherical" n (Some (Fin D)) w h f tg "normal" dmd = Ok m -> glanced (OMirror m) c (D / 2).
Proof.
  intros HD E. split; [reflexivity|]. intros r p d t0 Ud Hr To. assert (R0 : D / 2 <> 0) by lra.
  unfold mk_mirror in E. apply bind_ok in E. destruct E as (dm & Edm & E). change (String.eqb "circular_convex_spherical" "circular_flat") with false in E.
  change (String.eqb "circular_convex_spherical" "rectangular_flat") with false in E. change (String.eqb "circular_convex_spherical" "circular_concave_spherical") with false in E.
  change (String.eqb "circular_convex_spherical" "circular_convex_spherical") with true in E. cbn iota in E.
  apply bind_ok in E. destruct E as (sp & Esp & E). injection E as <-. apply mk_sphere_D in Esp. subst sp.
  destruct (outward_normal c (D / 2) (Fin D) (at_t p d t0) R0 (proj1 To)) as [En Uo]. set (o := outward c (Rabs (D / 2)) (at_t p d t0)) in *.
  assert (Pe : d ∙ o = 0) by (unfold o, outward; rewrite dot_scale_r, (proj2 To); ring).
  exists (fv o), (SfoInt 2). split.
  - cbn [optic_test_intersect]. unfold mirror_test_intersect. cbn [mi_shape mi_surfaces].
    change (String.eqb "circular_convex_spherical" "circular_flat") with false. change (String.eqb "circular_convex_spherical" "rectangular_flat") with false.
    change (String.eqb "circular_convex_spherical" "circular_concave_spherical") with false. change (String.eqb "circular_convex_spherical" "circular_convex_spherical") with true.
    cbn [orb mirror_ball_loop]. cbv zeta. fold (sph c (D / 2) (Fin D)). rewrite (touch_res c (D / 2) (Fin D) p d t0 r Ud Hr To). unfold ball_update. cbn [h6_flag h6_p1 h6_p2 h6_n1 need bound bind h6_count bs_min].
    destruct (Hr) as [Hp _]. rewrite Hp at 1. rewrite distance_fv. change (nlt (Fin (dist3 p (at_t p d t0))) ninf) with true. cbn iota. cbn [bind bs_hit bs_pt bs_normal bs_sfo]. rewrite En. reflexivity.
  - intros r1 p1 Hr1. cbn [optic_do_intersect]. unfold mirror_do_intersect. cbn [mi_type mi_dmd_normal]. cbn [String.eqb need bind Ascii.eqb Bool.eqb]. rewrite (reflect_across r1 p1 d o Ud Uo Hr1 Pe). reflexivity.
Qed.
Lemma ball_glanced c rad t b x : tree_of (Leaf (Ball c rad)) t -> rad <> 0 -> b = "reflect"%string \/ (b = "refract"%string /\ exists ix, x = Fin ix /\ 1 <= ix) -> glanced (OCompound (mkCompound t b x)) c rad.
Proof.
  intros HT HR B. split; [reflexivity|]. intros r p d t0 Ud Hr To. pose proof HT as HT0. inversion HT as [c' rad' Ro Do sp Ra E| |]; subst. destruct (mk_sphere_inv _ _ _ _ _ Ra E) as (D & ->).
  destruct (sphere_normal_on c rad D (at_t p d t0) HR (proj1 To)) as [En Un]. set (n := (/ Rabs rad * (c - at_t p d t0))%r3) in *.
  assert (Pe : d ∙ n = 0).
  { unfold n. rewrite dot_scale_r. replace (c - at_t p d t0)%r3 with (- (at_t p d t0 - c))%r3 by (clear; r3_ring). assert (X1 : forall a b, a ∙ (- b)%r3 = - (a ∙ b)) by (intros; clear; r3_ring). rewrite X1, (proj2 To). ring. }
  exists (fv n), (SfoBool true). split.
  - cbn [optic_test_intersect]. unfold compound_test_intersect. cbn [co_tree test_tree_intersect bind key_test_intersect shape_test_intersect mk_tree]. rewrite (touch_res c rad D p d t0 r Ud Hr To), En. reflexivity.
  - intros r1 p1 Hr1. cbn [optic_do_intersect]. unfold compound_do_intersect. cbn [co_surface_behavior co_index].
    destruct B as [->|[-> (ix & -> & Lx)]]; cbn [String.eqb Ascii.eqb Bool.eqb need bind].
    + rewrite (reflect_across r1 p1 d n Ud Un Hr1 Pe). reflexivity.
    + unfold compound_index_if_inside. cbn [co_tree co_index]. rewrite (proj2 Hr1), dec_fin by discriminate. change (IZR 1 / IZR (10 ^ 8)) with 1e-8. rewrite vscale_fv, vadd_fv.
      destruct (tree_point_den _ _ (at_t p d t0 + 1e-8 * d)%r3 HT0) as (b & Eb & Mb).
      assert (b = false).
      { destruct b; [exfalso|reflexivity]. pose proof (proj1 Mb eq_refl) as I. cbn [den member] in I. unfold in_ball in I.
        destruct (sphere_cases c rad D p d r Ud Hr) as [? ? ? ? ? NT|s0 _ In _ _|? ? NT]; [destruct (NT (touch_tangent c rad p d t0 Ud To))| |destruct (NT (touch_tangent c rad p d t0 Ud To))].
        apply (In (t0 + 1e-8)). unfold in_ball. replace (at_t p d (t0 + 1e-8)) with (at_t p d t0 + 1e-8 * d)%r3 by (unfold at_t; clear; generalize 1e-8; intros; r3_ring). pose proof (Rle_abs rad). lra. }
      subst b. rewrite Eb. cbn [bind need].
      unfold INDEX_OF_THE_WORLD. rewrite nofZ_fin.
      destruct (snell_fv r1 d n ix 1 (proj2 Hr1) Ud Un ltac:(lra) ltac:(lra)) as [Tir Sn].
      assert (Si : sine n d = 1). { assert (Q := sine_sq n d Un Ud). rewrite Pe in Q. assert (0 <= sine n d) by apply len_nonneg. nra. }
      destruct (Rle_lt_or_eq_dec 1 ix Lx) as [Lx'|<-].
      * rewrite Tir by (split; [lra|rewrite Si; lra]). cbn [bind]. unfold refl. rewrite Pe. do 4 f_equal. clear. r3_ring.
      * rewrite Sn by (intros [K _]; lra). cbn [bind]. unfold snell_dir, facing. rewrite Rltb_false_intro by lra. assert (X1 : d ∙ (- n)%r3 = 0) by (replace (d ∙ (- n)%r3) with (- (d ∙ n)) by (clear; r3_ring); lra).
        cbv zeta. rewrite X1. replace (1 / 1) with 1 by lra. replace (1 - 1 * 1 * (1 - - 0 * - 0)) with 0 by ring. rewrite sqrt_0. do 4 f_equal. clear. r3_ring.
Qed.

(** the list of the stops: a ray that starts t beyond the point of contact stops after t, 3t, 7t, ... *)
Definition stop (t : R) (j : nat) : R := (2 ^ j - 1) * t.
(** where a touching ray stops on its way of length L *)
Inductive stops (t0 L : R) : list R -> Prop :=
| St_none : Rabs t0 <= 1e-12 \/ L <= t0 -> stops t0 L []
| St_ahead : 1e-12 < t0 < L -> stops t0 L [t0]
| St_behind k : t0 < - 1e-12 -> stop (- t0) k < L <= stop (- t0) (S k) -> stops t0 L (map (stop (- t0)) (seq 1 k)).

Lemma stop_find a L n : 0 < L -> L <= stop a n -> exists k, stop a k < L <= stop a (S k).
Proof.
  intros HL. induction n as [|n IH]; intros H; [unfold stop in H; cbn in H; lra|]. destruct (Rlt_le_dec (stop a n) L) as [K|K]; [exists n; auto|auto].
Qed.
Lemma pow2_ge n : INR n + 1 <= 2 ^ n.
Proof. induction n as [|n IH]; [cbn; lra|]. rewrite S_INR. change (2 ^ S n) with (2 * 2 ^ n). pose proof (pos_INR n). lra. Qed.
Lemma stop_exists a L : 0 < a -> 0 < L -> exists k, stop a k < L <= stop a (S k).
Proof.
  intros Ha HL. destruct (archimed (L / a)) as [Up _]. apply stop_find with (Z.to_nat (up (L / a))); [exact HL|].
  assert (0 < L / a) by (apply Rdiv_lt_0_compat; assumption). assert (0 <= up (L / a))%Z by (apply le_IZR; lra).
  pose proof (pow2_ge (Z.to_nat (up (L / a)))) as P. rewrite INR_IZR_INZ, Z2Nat.id in P by assumption. unfold stop. apply Rle_trans with (L / a * a); [right; field; lra|]. apply Rmult_le_compat_r; lra.
Qed.
Lemma touches_on c rad p d t0 x : touches c rad p d t0 -> touches c rad (at_t p d x) d (t0 - x).
Proof. intros T. unfold touches in *. replace (at_t (at_t p d x) d (t0 - x)) with (at_t p d t0) by (unfold at_t; clear; r3_ring). exact T. Qed.
Lemma at_on p d x y : at_t (at_t p d x) d y = at_t p d (x + y). Proof. unfold at_t. r3_ring. Qed.

Section Glance.
Variables (o : optic xr) (c : R3) (rad : R) (d : R3).
Hypothesis (G : glanced o c rad) (Ud : is_unit d).
(** the outcome of a run, for the stops l *)
Definition arrives (r : ray xr) p L (l : list R) : Prop := exists r', (forall fuel, L / 1e-12 + 1 < INR fuel -> run fuel r (Fin L) [o] None = Ok (r', [o])) /\ ray_is r' (at_t p d L) d /\
  point_history r' = point_history r ++ map (fun t => fv (at_t p d t)) l ++ [fv (at_t p d L)].
Lemma glance_free (r : ray xr) p t0 L : ray_is r p d -> blocked r = false -> touches c (Rabs rad) p d t0 -> 0 < L -> Rabs t0 <= 1e-12 \/ L < Rabs t0 -> arrives r p L [].
Proof.
  intros Hr Hb To HL Far. destruct (proj2 G r p d t0 Ud Hr To) as (n & s & E & _). apply (single_free o r L p d Ud Hr); try assumption; [right; eexists; split; [exact E|discriminate]|].
  intros x pt n' (_ & s' & E' & Dx & Lx). rewrite E in E'. injection E' as <- _ _. destruct Hr as [Hp _]. rewrite Hp, distance_fv, dist_back in Dx by exact Ud. injection Dx as <-. lra.
Qed.
Lemma glance_step (r : ray xr) p t0 L : ray_is r p d -> ray_type r <> "faerie_fire"%string -> blocked r = false -> touches c (Rabs rad) p d t0 -> 1e-12 < Rabs t0 <= L ->
  exists r1, ray_is r1 (at_t p d (Rabs t0)) d /\ ray_type r1 = ray_type r /\ blocked r1 = false /\ point_history r1 = point_history r ++ [fv (at_t p d (Rabs t0))] /\
    forall fuel, L / 1e-12 + 1 < INR fuel -> run fuel r (Fin L) [o] None = run fuel r1 (Fin (L - Rabs t0)) [o] None.
Proof.
  intros Hr Ty Hb To Lx. destruct (proj2 G r p d t0 Ud Hr To) as (n & s & E & Do). pose proof (fly_ray r p d (Rabs t0) Hr) as Hf.
  exists (set_direction (fly r (Fin (Rabs t0))) (fv d)). split; [split; [exact (proj1 Hf)|reflexivity]|]. split; [reflexivity|]. split; [exact Hb|]. split; [apply fly_history; exact Hr|].
  intros fuel Lf. apply (single_step o r L (Rabs t0) (fv (at_t p d t0)) (Some n) s p d); try assumption; [exact (proj1 G)|destruct Hr as [-> _]; rewrite distance_fv, dist_back by exact Ud; reflexivity|eapply Do; exact Hf|].
  unfold Rdiv in *. nra.
Qed.
Lemma glance_last (r : ray xr) p t0 L : ray_is r p d -> ray_type r <> "faerie_fire"%string -> blocked r = false -> touches c (Rabs rad) p d t0 -> 0 < L <= Rabs t0 -> arrives r p L [].
Proof.
  intros Hr Ty Hb To [HL Lx]. destruct (Rle_lt_dec (Rabs t0) 1e-12) as [K|K]; [apply (glance_free r p t0); auto|]. destruct Lx as [Lx|Lx]; [apply (glance_free r p t0); auto|].
  destruct (glance_step r p t0 L Hr Ty Hb To ltac:(lra)) as (r1 & Hr1 & _ & _ & Hh & Run). rewrite <- Lx in *. exists r1. split; [|split; [exact Hr1|exact Hh]].
  intros fuel Lf. rewrite (Run fuel Lf). symmetry. eapply flows_det; [|apply run_flows, run_terminates; left]; [|unfold Rminus; rewrite Rplus_opp_r; unfold Rdiv in *; nra]. apply F_stop. left. lra.
Qed.
Lemma glance_more (r r1 : ray xr) p x L l : 0 < x -> (forall fuel, L / 1e-12 + 1 < INR fuel -> run fuel r (Fin L) [o] None = run fuel r1 (Fin (L - x)) [o] None) -> point_history r1 = point_history r ++ [fv (at_t p d x)] ->
  arrives r1 (at_t p d x) (L - x) l -> arrives r p L (x :: map (fun t => x + t) l).
Proof.
  intros Hx Run Hh (r' & R & P & H). exists r'. split; [intros fuel Lf; rewrite (Run fuel Lf); apply R; unfold Rdiv in *; nra|]. rewrite at_on in P, H. replace (x + (L - x)) with L in P, H by ring. split; [exact P|].
  rewrite H, Hh, <- app_assoc. cbn [app map]. do 2 f_equal. rewrite map_map. f_equal. apply map_ext. intros t. now rewrite at_on.
Qed.
Lemma glance_behind k : forall (r : ray xr) p a L, ray_is r p d -> ray_type r <> "faerie_fire"%string -> blocked r = false -> touches c (Rabs rad) p d (- a) -> 1e-12 < a -> stop a k < L <= stop a (S k) -> arrives r p L (map (stop a) (seq 1 k)).
Proof.
  induction k as [|k IH]; intros r p a L Hr Ty Hb To Ha Lk.
  - unfold stop in Lk. cbn in Lk. apply (glance_last r p (- a)); try assumption. rewrite Rabs_Ropp, Rabs_right by lra. lra.
  - assert (P1 : 1 <= 2 ^ k) by (apply pow_R1_Rle; lra). assert (La : a < L) by (unfold stop in Lk; cbn [pow] in Lk; nra).
    assert (Aa : Rabs (- a) = a) by (rewrite Rabs_Ropp, Rabs_right; lra).
    destruct (glance_step r p (- a) L Hr Ty Hb To ltac:(rewrite Aa; lra)) as (r1 & Hr1 & Ty1 & Hb1 & Hh & Run). rewrite Aa in *.
    cbn [seq map]. replace (stop a 1) with a by (unfold stop; cbn; ring).
    replace (map (stop a) (seq 2 k)) with (map (fun t => a + t) (map (stop (2 * a)) (seq 1 k))) by (rewrite <- (seq_shift k 1), !map_map; apply map_ext; intros j; unfold stop; cbn [pow]; ring).
    apply (glance_more r r1); try assumption; [lra|]. apply IH; try assumption; [congruence| |lra|].
    + replace (- (2 * a)) with (- a - a) by ring. apply touches_on. exact To.
    + unfold stop in *. cbn [pow] in *. nra.
Qed.
Lemma glance_all (r : ray xr) p t0 L : ray_is r p d -> ray_type r <> "faerie_fire"%string -> blocked r = false -> touches c (Rabs rad) p d t0 -> 0 < L -> exists l, stops t0 L l /\ arrives r p L l.
Proof.
  intros Hr Ty Hb To HL. destruct (Rle_lt_dec (Rabs t0) 1e-12) as [K|K]; [exists []; split; [apply St_none; auto|apply (glance_free r p t0); auto]|].
  destruct (Rlt_le_dec 0 t0) as [Z|Z].
  - rewrite (Rabs_right t0) in K by lra. destruct (Rlt_le_dec t0 L) as [Lt|Ge]; [|exists []; split; [apply St_none; auto|apply (glance_last r p t0); auto; rewrite Rabs_right; lra]].
    exists [t0]. split; [apply St_ahead; lra|]. destruct (glance_step r p t0 L Hr Ty Hb To ltac:(rewrite Rabs_right; lra)) as (r1 & Hr1 & Ty1 & Hb1 & Hh & Run). rewrite (Rabs_right t0) in * by lra.
    apply (glance_more r r1 p t0 L []); try assumption. apply (glance_free r1 (at_t p d t0) (t0 - t0)); try assumption; [apply touches_on; exact To|lra|left]. unfold Rminus. rewrite Rplus_opp_r, Rabs_R0. lra.
  - rewrite (Rabs_left1 t0) in K by lra. destruct (stop_exists (- t0) L ltac:(lra) HL) as (k & Lk). exists (map (stop (- t0)) (seq 1 k)). split; [apply St_behind; [lra|exact Lk]|].
    apply glance_behind; try assumption. now rewrite Ropp_involutive.
Qed.
End Glance.

(** Round optics that a touching ray only glances at: convex mirrors, and compounds of one ball that reflect or are of glass. *)
Inductive smooth : optic xr -> R3 -> R -> Prop :=
| Sm_dome c n D w h f tg dmd m : D <> 0 -> mk_mirror (fv c) "circular_convex_spherical" n (Some (Fin D)) w h f tg "normal" dmd = Ok m -> smooth (OMirror m) c (D / 2)
| Sm_shiny c rad t x : tree_of (Leaf (Ball c rad)) t -> rad <> 0 -> smooth (OCompound (mkCompound t "reflect" x)) c rad
| Sm_glass c rad t ix : tree_of (Leaf (Ball c rad)) t -> rad <> 0 -> 1 <= ix -> smooth (OCompound (mkCompound t "refract" (Fin ix))) c rad.
(** The ray arrives where it would without the optic, in its old direction; the history has an extra point at a contact ahead, and for a contact that lies a behind the start the extra points a, 3a, 7a, ... *)
Theorem C98_glance : forall o c rad p d t0 L (r : ray xr), smooth o c rad -> is_unit d -> ray_is r p d -> ray_type r <> "faerie_fire"%string -> blocked r = false -> touches c (Rabs rad) p d t0 -> 0 < L ->
  exists l r', stops t0 L l /\ (forall fuel, L / 1e-12 + 1 < INR fuel -> run fuel r (Fin L) [o] None = Ok (r', [o])) /\ ray_is r' (at_t p d L) d /\
    point_history r' = point_history r ++ map (fun t => fv (at_t p d t)) l ++ [fv (at_t p d L)].
Proof.
  intros o c rad p d t0 L r Sm Ud Hr Ty Hb To HL.
  assert (G : glanced o c rad) by (destruct Sm; [eapply dome_glanced; eassumption|apply ball_glanced; auto|apply ball_glanced; eauto]).
  destruct (glance_all o c rad d G Ud r p t0 L Hr Ty Hb To HL) as (l & Sl & r' & H). exists l, r'. auto.
Qed.
Print Assumptions C98_glance.

(** a ball of radius 1 around the origin, and rays along x at height 1: from -3 the contact is ahead, from 3 behind *)
Example C98_hyp : touches (mk3 0 0 0) (Rabs (2 / 2)) (mk3 (-3) 1 0) (mk3 1 0 0) 3 /\ touches (mk3 0 0 0) (Rabs (2 / 2)) (mk3 3 1 0) (mk3 1 0 0) (-3) /\ stops (-3) 10 [3; 9] /\
  (exists l : lens xr, mk_lens (fv (mk3 0 0 0)) None "spherical" (Some (Fin 2)) None "normal" (Fin 1.5) = Ok l) /\
  (exists m, mk_mirror (fv (mk3 0 0 0)) "circular_convex_spherical" None (Some (Fin 2)) None None None None "normal" (Some (fv (mk3 0 0 1))) = Ok m).
Proof.
  assert (A1 : Rabs (2 / 2) = 1) by (rewrite Rabs_right; lra). rewrite A1.
  assert (Tc : forall x t, x + t = 0 -> touches (mk3 0 0 0) 1 (mk3 x 1 0) (mk3 1 0 0) t).
  { intros x t Z. replace t with (- x) by lra. split.
    - replace (at_t (mk3 x 1 0) (mk3 1 0 0) (- x)) with (mk3 0 1 0) by (unfold at_t; r3_unf; cbn; f_equal; ring). unfold dist3. transitivity (len (mk3 0 1 0)); [f_equal; r3_unf; cbn; f_equal; ring|apply len_unit; unfold is_unit; r3_unf; cbn; ring].
    - unfold at_t. r3_unf. cbn. ring. }
  split; [apply Tc; lra|]. split; [apply Tc; lra|]. split.
  - replace [3; 9] with (map (stop (- -3)) (seq 1 2)) by (unfold stop; cbn; repeat f_equal; lra). apply St_behind; [lra|]. unfold stop. cbn. lra.
  - split; eexists.
    + unfold mk_lens. change (String.eqb "spherical" "spherical_biconvex") with false. change (String.eqb "spherical" "spherical") with true. cbn iota. unfold mk_sphere. rewrite check_D_only. reflexivity.
    + unfold mk_mirror. cbn [need bind]. change (String.eqb "circular_convex_spherical" "circular_flat") with false. change (String.eqb "circular_convex_spherical" "rectangular_flat") with false.
      change (String.eqb "circular_convex_spherical" "circular_concave_spherical") with false. change (String.eqb "circular_convex_spherical" "circular_convex_spherical") with true. cbn iota.
      unfold mk_sphere. rewrite check_D_only. reflexivity.
Qed.
