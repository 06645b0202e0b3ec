(** Properties C07-C14 and C50: the shapes of Shapes/shapes.py. *)
From Coq Require Import Reals ZArith Lra Lia Psatz Bool String.
From Verif Require Import PyErr Num Vec Shapes Spec XReal RVec VecProofs FlatProofs SphereProofs CylProofs ShapeExtra.
Local Open Scope R_scope.

(** A ray of the model starting at p in direction d (any other attributes). *)
Definition some_ray (p d : R3) : ray xr := mkRay (fv p) (fv d) (Fin 532) (Fin 0) (cons (fv p) nil) false "normal"%string.
Lemma some_ray_is p d : ray_is (some_ray p d) p d. Proof. split; reflexivity. Qed.

(** C07: a plane is hit exactly when the half-line meets it at a parameter t > 1e-9, not at grazing incidence
    (see [meets_plane]); the point reported is the meeting point (on the plane, unique), with the unit normal. *)
Theorem C07_plane : forall c n p d r, n <> r3zero -> is_unit d -> ray_is r p d ->
  let h := plane_test_intersect (mk_plane (fv c) (fv n)) r in
  (exists t, meets_plane c (dirn n) p d t /\ (forall t', meets_plane c (dirn n) p d t' -> t' = t) /\
     h = H3 true (Some (fv (at_t p d t))) (Some (fv (dirn n)))) \/
  ((forall t, ~ meets_plane c (dirn n) p d t) /\ h = H3 false None None).
Proof. exact plane_spec. Qed.
Print Assumptions C07_plane.
(** the hypotheses hold and both branches occur: a ray along z towards, and away from, the plane z = 5 *)
Example C07_hyp : is_unit (mk3 0 0 1) /\ mk3 0 0 2 <> r3zero /\
  meets_plane (mk3 0 0 5) (mk3 0 0 1) (mk3 1 1 0) (mk3 0 0 1) 5 /\
  (forall t, ~ meets_plane (mk3 0 0 5) (mk3 0 0 1) (mk3 1 1 6) (mk3 0 0 1) t).
Proof.
  unfold is_unit, meets_plane, on_plane, at_t; r3_unf; cbn.
  replace (0 * 0 + 0 * 0 + 1 * 1) with 1 by ring. rewrite Rabs_R1.
  repeat split; try lra; intros H; try (injection H; lra). intros (_ & A & B). lra.
Qed.

(** C08: a circle is hit exactly when its plane is met strictly inside the radius. *)
Theorem C08_circle : forall c n Ro Do ci rad p d r, n <> r3zero -> is_unit d -> ray_is r p d ->
  radius_arg Ro Do rad -> mk_circle (fv c) (Some (fv n)) (fo Ro) (fo Do) = Ok ci ->
  (exists t, meets_plane c (dirn n) p d t /\ dist3 (at_t p d t) c < rad /\
     circle_test_intersect ci r = Ok (H3 true (Some (fv (at_t p d t))) (Some (fv (dirn n))))) \/
  ((forall t, meets_plane c (dirn n) p d t -> rad <= dist3 (at_t p d t) c) /\
     circle_test_intersect ci r = Ok (H3 false None None)).
Proof. exact circle_spec. Qed.
Print Assumptions C08_circle.
Example C08_hyp : radius_arg None (Some 4) 2 /\
  exists ci, mk_circle (fv r3zero) (Some (fv (mk3 0 0 2))) (fo None) (fo (Some 4)) = Ok ci.
Proof. split; [cbn; lra|]. eexists. unfold mk_circle. cbn [fo option_map]. rewrite check_D_only. reflexivity. Qed.

(** C09 (partial): rectangles with exactly perpendicular axes and positive extents. *)
Theorem C09_rectangle_partial : forall c n t h w q p d r, n <> r3zero -> t <> r3zero -> orth n t ->
  0 < h -> 0 < w -> is_unit d -> ray_is r p d ->
  mk_rectangle (fv c) (Some (fv n)) (Some (fv t)) (Some (Fin h)) (Some (Fin w)) = Ok q ->
  let inside x := Rabs ((x - c)%r3 ∙ dirn t) <= h / 2 /\ Rabs ((x - c)%r3 ∙ (dirn n × dirn t)%r3) <= w / 2 in
  (exists s, meets_plane c (dirn n) p d s /\ inside (at_t p d s) /\
     rectangle_test_intersect q r = Ok (H3 true (Some (fv (at_t p d s))) (Some (fv (dirn n))))) \/
  ((forall s, meets_plane c (dirn n) p d s -> ~ inside (at_t p d s)) /\
     rectangle_test_intersect q r = Ok (H3 false None None)).
Proof. exact rectangle_spec. Qed.
Print Assumptions C09_rectangle_partial.
Example C09_hyp : orth (mk3 0 0 1) (mk3 1 0 0) /\ exists q,
  mk_rectangle (fv r3zero) (Some (fv (mk3 0 0 1))) (Some (fv (mk3 1 0 0))) (Some (Fin 2)) (Some (Fin 4)) = Ok q.
Proof. exact rect_example. Qed.

(** C09 as stated is false for zero extents: with w = 0 the width is unlimited. *)
Theorem C09_zero_width_refuted : exists c n t h q p d,
  n <> r3zero /\ t <> r3zero /\ orth n t /\ 0 < h /\ is_unit d /\
  mk_rectangle (fv c) (Some (fv n)) (Some (fv t)) (Some (Fin h)) (Some (Fin 0)) = Ok q /\
  forall r, ray_is r p d -> exists x,
    rectangle_test_intersect q r = Ok (H3 true (Some (fv x)) (Some (fv n))) /\
    100 <= Rabs ((x - c)%r3 ∙ (n × t)%r3).
Proof. exact rect_zero_width. Qed.
Print Assumptions C09_zero_width_refuted.

(** C09, every rectangle the constructor accepts: nearly perpendicular axes and zero extents included.  The second limit is scaled by the squared length of normal × tangent, which is 1 for
    exactly perpendicular axes; an extent of zero sets no limit. *)
Theorem C09_exact : forall c n t h w q p d r, n <> r3zero -> t <> r3zero -> is_unit d -> ray_is r p d ->
  mk_rectangle (fv c) (Some (fv n)) (Some (fv t)) (Some (Fin h)) (Some (Fin w)) = Ok q ->
  let n2 := (dirn n × dirn t)%r3 in
  let inside x := (h = 0 \/ Rabs ((x - c)%r3 ∙ dirn t) <= h / 2) /\ (w = 0 \/ Rabs ((x - c)%r3 ∙ n2) <= w / 2 * (n2 ∙ n2)) in
  (exists s, meets_plane c (dirn n) p d s /\ inside (at_t p d s) /\
     rectangle_test_intersect q r = Ok (H3 true (Some (fv (at_t p d s))) (Some (fv (dirn n))))) \/
  ((forall s, meets_plane c (dirn n) p d s -> ~ inside (at_t p d s)) /\
     rectangle_test_intersect q r = Ok (H3 false None None)).
Proof.
  intros c n t h w q p d r Hn Ht Hd Hr E n2 inside. rewrite mk_rectangle_fv in E by assumption. destruct (Rleb _ _); [|discriminate].
  destruct (Rltb_spec h 0); [discriminate|]. destruct (Rltb_spec w 0); [discriminate|]. injection E as <-.
  apply rectangle_test_spec; try (apply dirn_unit; assumption); try assumption; lra.
Qed.
Print Assumptions C09_exact.
Example C09_exact_hyp : exists q, mk_rectangle (fv r3zero) (Some (fv (mk3 0 0 1))) (Some (fv (mk3 1 0 0))) (Some (Fin 0)) (Some (Fin 4)) = Ok q.
Proof.
  rewrite mk_rectangle_fv by (intros E; injection E; lra). assert (Z : dirn (mk3 0 0 1) ∙ dirn (mk3 1 0 0) = 0) by (unfold dirn; r3_unf; cbn; ring).
  rewrite Z, Rabs_R0, Rleb_true by lra. rewrite !Rltb_false by lra. eexists. reflexivity.
Qed.

(** C10 (partial): every reported point is on the sphere, ahead of the start, with the unit normal pointing to the
    centre - excluding lines that touch the sphere behind (or at) the start. *)
Theorem C10_sphere_sound_partial : forall c Ro Do rad s p d r x n,
  radius_arg Ro Do rad -> mk_sphere (fv c) (fo Ro) (fo Do) = Ok s ->
  rad <> 0 -> is_unit d -> ray_is r p d ->
  (tangent c rad p d -> 1e-12 < d ∙ (c - p)%r3) ->
  reported (sphere_test_intersect s r) x n ->
  exists t, 1e-12 < t /\ x = fv (at_t p d t) /\ on_sphere c (Rabs rad) (at_t p d t) /\
    n = fv (/ Rabs rad * (c - at_t p d t))%r3 /\ is_unit (/ Rabs rad * (c - at_t p d t))%r3.
Proof. exact sphere_sound_mk. Qed.
Print Assumptions C10_sphere_sound_partial.
Example C10_hyp : exists c rad p d, rad <> 0 /\ is_unit d /\ ~ tangent c rad p d /\
  reported (sphere_test_intersect (sph c rad (Fin (2 * rad))) (some_ray p d)) (fv (mk3 0 0 4)) (fv (mk3 0 0 1)).
Proof.
  exists (mk3 0 0 5), 1, r3zero, (mk3 0 0 1).
  assert (U : is_unit (mk3 0 0 1)) by (unfold is_unit, r3dot; cbn; ring).
  assert (NT : ~ tangent (mk3 0 0 5) 1 r3zero (mk3 0 0 1)).
  { rewrite tangent_disc by exact U. unfold sdisc; r3_unf; cbn. lra. }
  split; [lra|]. split; [exact U|]. split; [exact NT|].
  destruct (sphere_complete (mk3 0 0 5) 1 (Fin (2 * 1)) r3zero (mk3 0 0 1) _ ltac:(lra) U (some_ray_is _ _)) as [C _].
  assert (On : on_sphere (mk3 0 0 5) (Rabs 1) (at_t r3zero (mk3 0 0 1) 4))
      by (apply on_sphere_param; [exact U|]; unfold sdisc; r3_unf; cbn; ring).
  assert (E1 : at_t r3zero (mk3 0 0 1) 4 = mk3 0 0 4) by (r3_unf; cbn; f_equal; ring).
  assert (E2 : (/ Rabs 1 * (mk3 0 0 5 - mk3 0 0 4))%r3 = mk3 0 0 1)
      by (rewrite Rabs_R1; r3_unf; cbn; f_equal; field).
  pose proof (C 4 ltac:(lra) On) as G. rewrite E1, E2 in G. exact G.
Qed.

(** C10 as stated is false: a line touching the sphere behind the start is reported as a hit there. *)
Theorem C10_tangent_behind_refuted : exists c rad p d, 0 < rad /\ is_unit d /\
  forall D r, ray_is r p d ->
  exists t n, t < 0 /\ reported (sphere_test_intersect (sph c rad D) r) (fv (at_t p d t)) n.
Proof. exact sphere_tangent_behind. Qed.
Print Assumptions C10_tangent_behind_refuted.

(** C11: completeness. *)
Theorem C11_sphere_complete : forall c Ro Do rad s p d r,
  radius_arg Ro Do rad -> mk_sphere (fv c) (fo Ro) (fo Do) = Ok s ->
  rad <> 0 -> is_unit d -> ray_is r p d ->
  (forall t, 1e-12 < t -> on_sphere c (Rabs rad) (at_t p d t) ->
     reported (sphere_test_intersect s r) (fv (at_t p d t)) (fv (/ Rabs rad * (c - at_t p d t))%r3)) /\
  (~ tangent c rad p d -> (forall t, 1e-12 < t -> ~ on_sphere c (Rabs rad) (at_t p d t)) ->
     sphere_test_intersect s r = H6 false None None None None 0).
Proof. exact sphere_complete_mk. Qed.
Print Assumptions C11_sphere_complete.
Example C11_hyp : radius_arg (Some 1) None 1 /\ exists s, mk_sphere (fv (mk3 0 0 5)) (fo (Some 1)) (fo None) = Ok s.
Proof. split; [reflexivity|]. eexists. unfold mk_sphere. cbn [fo option_map]. rewrite check_R_only. reflexivity. Qed.

(** C12: parity of the count tells inside from outside. *)
Theorem C12_parity : forall c Ro Do rad s p d r,
  radius_arg Ro Do rad -> mk_sphere (fv c) (fo Ro) (fo Do) = Ok s ->
  0 < rad -> is_unit d -> ray_is r p d ->
  ~ tangent c rad p d -> (forall t, on_sphere c rad (at_t p d t) -> 1e-12 < Rabs t) ->
  (Z.Odd (h6_count (sphere_test_intersect s r)) <-> in_ball c rad p) /\
  (in_ball c rad p <-> sphere_test_point s (position r) = true).
Proof. exact sphere_parity_mk. Qed.
Print Assumptions C12_parity.
Example C12_hyp : let c := r3zero in let p := r3zero in let d := mk3 0 0 1 in
  ~ tangent c 1 p d /\ (forall t, on_sphere c 1 (at_t p d t) -> 1e-12 < Rabs t) /\ in_ball c 1 p.
Proof.
  cbv zeta. assert (U : is_unit (mk3 0 0 1)) by (unfold is_unit, r3dot; cbn; ring). repeat split.
  - rewrite tangent_disc by exact U. unfold sdisc; r3_unf; cbn. lra.
  - intros t On. replace 1 with (Rabs 1) in On at 1 by apply Rabs_R1. apply on_sphere_param in On; [|exact U].
    unfold sdisc in On; r3_unf; cbn in On. unfold Rabs. destruct (Rcase_abs t); nra.
  - unfold in_ball, dist3. replace (r3zero - r3zero)%r3 with r3zero by (r3_unf; cbn; f_equal; ring).
    rewrite len_zero_r3. lra.
Qed.

(** C13 (partial): infinite cylinder, for rays that are neither parallel to the axis nor tangent. *)
Theorem C13_cylinder_sound_partial : forall c u Ro Do rad k p d r h x n,
  u <> r3zero -> radius_arg Ro Do rad -> mk_infcyl (fv c) (fv u) (fo Ro) (fo Do) = Ok k ->
  0 < rad -> is_unit d -> ray_is r p d -> ~ parallel (dirn u) d -> ~ ctangent c (dirn u) rad p d ->
  infcyl_test_intersect k r = Ok h -> reported h x n ->
  exists t, 1e-12 < t /\ x = fv (at_t p d t) /\ on_cylinder c (dirn u) rad (at_t p d t) /\
    n = fv (/ rad * perp (dirn u) (c - at_t p d t))%r3 /\
    is_unit (/ rad * perp (dirn u) (c - at_t p d t))%r3 /\
    orth (/ rad * perp (dirn u) (c - at_t p d t))%r3 (dirn u).
Proof. exact infcyl_sound_mk. Qed.
Print Assumptions C13_cylinder_sound_partial.
Theorem C13_cylinder_complete_partial : forall c u Ro Do rad k p d r,
  u <> r3zero -> radius_arg Ro Do rad -> mk_infcyl (fv c) (fv u) (fo Ro) (fo Do) = Ok k ->
  0 < rad -> is_unit d -> ray_is r p d -> ~ parallel (dirn u) d ->
  exists h, infcyl_test_intersect k r = Ok h /\
  (forall t, 1e-12 < t -> on_cylinder c (dirn u) rad (at_t p d t) ->
     reported h (fv (at_t p d t)) (fv (/ rad * perp (dirn u) (c - at_t p d t))%r3) /\
     (exists t1, h6_p1 h = Some (fv (at_t p d t1)) /\ 1e-12 < t1 <= t)) /\
  (~ ctangent c (dirn u) rad p d -> (forall t, 1e-12 < t -> ~ on_cylinder c (dirn u) rad (at_t p d t)) ->
     h = H6 false None None None None 0).
Proof. exact infcyl_complete_mk. Qed.
Print Assumptions C13_cylinder_complete_partial.
Example C13_hyp : ~ parallel (mk3 0 0 1) (mk3 1 0 0) /\
  ~ ctangent r3zero (mk3 0 0 1) 1 (mk3 (-5) 0 0) (mk3 1 0 0) /\
  on_cylinder r3zero (mk3 0 0 1) 1 (at_t (mk3 (-5) 0 0) (mk3 1 0 0) 4).
Proof. exact cyl_example. Qed.
(** C13 as stated is false: a ray parallel to the axis is reported as a hit at the all-NaN point with count 2. *)
Theorem C13_parallel_refuted : forall c u rad D pl p d r, 0 < rad -> is_unit u -> is_unit d -> ray_is r p d ->
  parallel u d ->
  infcyl_test_intersect (cyl c u rad D pl) r
  = Ok (H6 true (Some (V XNaN XNaN XNaN)) None (Some (V XNaN XNaN XNaN)) None 2).
Proof. exact infcyl_parallel. Qed.
Print Assumptions C13_parallel_refuted.
Example C13_parallel_hyp : parallel (mk3 0 0 1) (mk3 0 0 1).
Proof. unfold parallel; r3_unf; cbn; f_equal; ring. Qed.

(** C14: membership in an infinite cylinder is distance from the axis below R. *)
Theorem C14_cylinder_membership : forall c u Ro Do rad k x,
  u <> r3zero -> radius_arg Ro Do rad -> mk_infcyl (fv c) (fv u) (fo Ro) (fo Do) = Ok k -> 0 < rad ->
  exists b, infcyl_test_point k (fv x) = Ok b /\ (b = true <-> in_cylinder c (dirn u) rad x).
Proof. exact infcyl_point_mk. Qed.
Print Assumptions C14_cylinder_membership.
Example C14_hyp : exists k, mk_infcyl (fv r3zero) (fv (mk3 0 3 0)) (fo (Some 1)) (fo None) = Ok k.
Proof. eexists. unfold mk_infcyl. cbn [fo option_map]. rewrite check_R_only. reflexivity. Qed.

(** C50: validation of R/D and of h/w.  [radius_arg Ro Do rad] is the specification of an acceptable call. *)
Theorem C50_radius_validation : forall c n u Ro Do,
  (forall rad, radius_arg Ro Do rad ->
     let dia := match Do with Some y => y | None => 2 * rad end in
     mk_sphere (fv c) (fo Ro) (fo Do) = Ok (mkSphere (fv c) (Fin rad) (Fin dia)) /\
     (exists k, mk_infcyl (fv c) (fv u) (fo Ro) (fo Do) = Ok k /\ ic_R k = Fin rad /\ ic_D k = Fin dia) /\
     (exists k, mk_circle (fv c) n (fo Ro) (fo Do) = Ok k /\ ci_R k = Fin rad /\ ci_D k = Fin dia) /\
     Rabs (dia - 2 * rad) <= 1e-8 + 1e-8 * Rabs (2 * rad) /\
     (Ro = None \/ Do = None -> dia = 2 * rad)) /\
  ((forall rad, ~ radius_arg Ro Do rad) ->
     mk_sphere (fv c) (fo Ro) (fo Do) = Err ValueError /\
     mk_infcyl (fv c) (fv u) (fo Ro) (fo Do) = Err ValueError /\
     mk_circle (fv c) n (fo Ro) (fo Do) = Err ValueError).
Proof. exact radius_validation. Qed.
Print Assumptions C50_radius_validation.
Theorem C50_rectangle_validation : forall c n t ho wo, n <> r3zero -> t <> r3zero ->
  let good := exists h w, ho = Some h /\ wo = Some w /\ 0 <= h /\ 0 <= w /\ Rabs (dirn n ∙ dirn t) <= 1e-8 in
  (good -> exists q, mk_rectangle (fv c) (Some (fv n)) (Some (fv t)) (fo ho) (fo wo) = Ok q) /\
  (~ good -> mk_rectangle (fv c) (Some (fv n)) (Some (fv t)) (fo ho) (fo wo) = Err ValueError).
Proof. exact rectangle_validation. Qed.
Print Assumptions C50_rectangle_validation.
Example C50_hyp : radius_arg (Some 3) (Some 6) 3 /\ (forall rad, ~ radius_arg (Some 3) (Some 7) rad).
Proof.
  split.
  - cbn. split; [reflexivity|]. replace (6 - 2 * 3) with 0 by ring. rewrite Rabs_R0. pose proof (Rabs_pos (2 * 3)). lra.
  - intros rad [_ H]. rewrite !Rabs_right in H by lra. lra.
Qed.
