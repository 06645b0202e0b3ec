(** The flat optics as run sees them: exactly which rays they report, and where. *)
From Coq Require Import Reals ZArith Lra Lia Psatz String List Bool.
From Verif Require Import PyErr Num Vec Shapes Csg Optics Spec XReal RVec VecProofs AngleProofs FlatProofs SphereProofs CylProofs ShapeExtra
  TreeProofs SolidProofs CsgProofs RayProofs RunGen NoFuel RunXr OpticHits StateXr OrderProofs.
Import ListNotations.
Local Open Scope R_scope.

(** [flat_optic o c u A]: o is built by a constructor call as a flat optic at c with unit normal u; A is its aperture *)
Inductive flat_optic : optic xr -> R3 -> R3 -> (R3 -> Prop) -> Prop :=
| FO_mirror_circ c n D w h f tg ty dmd m : n <> r3zero ->
    mk_mirror (fv c) "circular_flat" (Some (fv n)) (Some (Fin D)) w h f tg ty dmd = Ok m ->
    flat_optic (OMirror m) c (dirn n) (fun q => dist3 q c < D / 2)
| FO_mirror_rect c n t D w h f ty dmd m : n <> r3zero -> t <> r3zero ->
    mk_mirror (fv c) "rectangular_flat" (Some (fv n)) D (Some (Fin w)) (Some (Fin h)) f (Some (fv t)) ty dmd = Ok m ->
    flat_optic (OMirror m) c (dirn n) (in_rect c (dirn n) (dirn t) h w)
| FO_lens c n D f ty ix l : n <> r3zero ->
    mk_lens (fv c) (Some (fv n)) "spherical_biconvex" (Some (Fin D)) f ty ix = Ok l ->
    flat_optic (OLens l) c (dirn n) (fun q => dist3 q c < D / 2)
| FO_detector c n t w h d log : n <> r3zero -> t <> r3zero ->
    mk_detector (fv c) (Some (fv n)) (Some (fv t)) "rectangular_flat" (Some (Fin w)) (Some (Fin h)) = Ok d ->
    flat_optic (with_log (ODetector d) log) c (dirn n) (in_rect c (dirn n) (dirn t) h w)
| FO_grating c n t w h G g : n <> r3zero -> t <> r3zero ->
    mk_grating (fv c) (Some (fv n)) (Some (fv t)) "rectangular_flat" (Some (Fin w)) (Some (Fin h)) G = Ok g ->
    flat_optic (OGrating g) c (dirn n) (in_rect c (dirn n) (dirn t) h w).

Lemma flat_unit o c u A : flat_optic o c u A -> is_unit u.
Proof. intros []; apply dirn_unit; assumption. Qed.

Lemma flat_one_hit own r p q u sh st0 : position r = fv p -> shape_test_intersect sh r = Ok (I3 (H3 true (Some (fv q)) (Some (fv u)))) ->
  surface_normal sh = Ok (Some (fv u)) -> fs_min st0 = PInf ->
  flat_loop own r st0 [sh] = Ok (mkFlat true (Fin (dist3 p q)) (Some (fv q)) (Some (Some (fv u)))).
Proof.
  intros Hp E N M. cbn [flat_loop]. unfold flat_step. rewrite E. cbn [bind unpack3 h3_flag h3_pt need]. cbv zeta. rewrite Hp, distance_fv, M.
  change (nlt (Fin (dist3 p q)) PInf) with true. cbn iota. destruct own; [rewrite N|]; reflexivity.
Qed.
Lemma flat_one_miss own r sh st0 : shape_test_intersect sh r = Ok (I3 (H3 false None None)) ->
  flat_loop own r st0 [sh] = Ok (mkFlat (fs_hit st0) (fs_min st0) (fs_pt st0) (Some None)).
Proof. intros E. cbn [flat_loop]. unfold flat_step. rewrite E. reflexivity. Qed.

(** the single surface of a flat optic *)
Inductive surface_report (sh : shape xr) (r : ray xr) (c u : R3) (A : R3 -> Prop) (p d : R3) : Prop :=
| SR_yes t : meets_plane c u p d t -> A (at_t p d t) -> shape_test_intersect sh r = Ok (I3 (H3 true (Some (fv (at_t p d t))) (Some (fv u)))) ->
    surface_normal sh = Ok (Some (fv u)) -> surface_report sh r c u A p d
| SR_no : (forall t, meets_plane c u p d t -> ~ A (at_t p d t)) -> shape_test_intersect sh r = Ok (I3 (H3 false None None)) -> surface_report sh r c u A p d.
Lemma circle_surface c n D ci r p d : n <> r3zero -> mk_circle (fv c) (Some (fv n)) None (Some (Fin D)) = Ok ci -> ray_is r p d -> is_unit d ->
  surface_report (SCircle ci) r c (dirn n) (fun q => dist3 q c < D / 2) p d.
Proof.
  intros Hn E Hr Hd. destruct (circle_spec c n None (Some D) ci (D / 2) p d r Hn Hd Hr eq_refl E) as [(t & M & L & R)|(M & R)].
  - apply SR_yes with t; auto.
    + cbn [shape_test_intersect]. rewrite R. reflexivity.
    + unfold mk_circle in E. rewrite check_D_only in E. cbn [bind] in E. injection E as <-. cbn. rewrite unit_vector_fv by exact Hn. reflexivity.
  - apply SR_no.
    + intros t Mt. specialize (M t Mt). lra.
    + cbn [shape_test_intersect]. rewrite R. reflexivity.
Qed.
Lemma rect_surface c n t w h q r p d : n <> r3zero -> t <> r3zero -> mk_rectangle (fv c) (Some (fv n)) (Some (fv t)) (Some (Fin h)) (Some (Fin w)) = Ok q -> ray_is r p d -> is_unit d ->
  surface_report (SRectangle q) r c (dirn n) (in_rect c (dirn n) (dirn t) h w) p d.
Proof.
  intros Hn Ht E Hr Hd. rewrite mk_rectangle_fv in E by assumption. destruct (Rleb _ _); [|discriminate].
  destruct (Rltb_spec h 0); [discriminate|]. destruct (Rltb_spec w 0); [discriminate|]. injection E as <-.
  destruct (rectangle_test_spec c (dirn n) (dirn t) h w p d r) as [(s & M & J & R)|(M & R)]; try (apply dirn_unit; assumption); try assumption; try lra.
  - apply SR_yes with s; auto. cbn [shape_test_intersect]. rewrite R. reflexivity.
  - apply SR_no; [exact M|]. cbn [shape_test_intersect]. rewrite R. reflexivity.
Qed.

Definition flat_side (o : optic xr) : sfo := match o with OLens _ => SfoBool true | _ => SfoNone end.
Inductive flat_reports (o : optic xr) (r : ray xr) (c u : R3) (A : R3 -> Prop) (p d : R3) : Prop :=
| FR_yes t : meets_plane c u p d t -> A (at_t p d t) -> optic_test_intersect o r = Ok (H4 true (Some (fv (at_t p d t))) (Some (fv u)) (flat_side o)) -> flat_reports o r c u A p d
| FR_no : (forall t, meets_plane c u p d t -> ~ A (at_t p d t)) -> optic_test_intersect o r = Ok (H4 false None None (flat_side o)) -> flat_reports o r c u A p d.

Lemma flat_report o c u A r p d : flat_optic o c u A -> ray_is r p d -> is_unit d -> flat_reports o r c u A p d.
Proof.
  intros V Hr Hd. destruct V as [c n D w hh f tg ty dmd m Hn E|c n t D w hh f ty dmd m Hn Htn E|c n D f ty ix l Hn E|c n t w hh de log Hn Htn E|c n t w hh GG g Hn Htn E].
  - unfold mk_mirror in E. apply bind_ok in E. destruct E as (dm & Edm & E). change (String.eqb "circular_flat" "circular_flat") with true in E. cbn iota in E.
    apply bind_ok in E. destruct E as (nn & Enn & E). apply bind_ok in E. destruct E as (ci & Eci & E). injection E as <-.
    destruct (circle_surface c n D ci r p d Hn Eci Hr Hd) as [t M A R N|M R]; [apply FR_yes with t; auto|apply FR_no; auto];
    cbn [optic_test_intersect]; unfold mirror_test_intersect; cbn [mi_shape mi_surfaces]; change (String.eqb "circular_flat" "circular_flat") with true; cbn [orb].
    + rewrite (flat_one_hit _ _ p _ _ _ _ (proj1 Hr) R N) by reflexivity. reflexivity.
    + rewrite (flat_one_miss _ _ _ _ R). reflexivity.
  - unfold mk_mirror in E. apply bind_ok in E. destruct E as (dm & Edm & E). change (String.eqb "rectangular_flat" "circular_flat") with false in E.
    change (String.eqb "rectangular_flat" "rectangular_flat") with true in E. cbn iota in E.
    apply bind_ok in E. destruct E as (nn & Enn & E). apply bind_ok in E. destruct E as (qq & Eqq & E). injection E as <-.
    destruct (rect_surface c n t w hh qq r p d Hn Htn Eqq Hr Hd) as [s M A R N|M R]; [apply FR_yes with s; auto|apply FR_no; auto];
    cbn [optic_test_intersect]; unfold mirror_test_intersect; cbn [mi_shape mi_surfaces]; change (String.eqb "rectangular_flat" "rectangular_flat") with true; rewrite orb_true_r.
    + rewrite (flat_one_hit _ _ p _ _ _ _ (proj1 Hr) R N) by reflexivity. reflexivity.
    + rewrite (flat_one_miss _ _ _ _ R). reflexivity.
  - unfold mk_lens in E. change (String.eqb "spherical_biconvex" "spherical_biconvex") with true in E. cbn iota in E.
    apply bind_ok in E. destruct E as (ci & Eci & E). injection E as <-.
    destruct (circle_surface c n D ci r p d Hn Eci Hr Hd) as [t M A R N|M R]; [apply FR_yes with t; auto|apply FR_no; auto];
    cbn [optic_test_intersect]; unfold lens_test_intersect; cbn [le_shape le_surfaces]; change (String.eqb "spherical_biconvex" "spherical_biconvex") with true; cbn iota.
    + rewrite (flat_one_hit _ _ p _ _ _ _ (proj1 Hr) R N) by reflexivity. reflexivity.
    + rewrite (flat_one_miss _ _ _ _ R). reflexivity.
  - unfold mk_detector in E. apply bind_ok in E. destruct E as (nn & Enn & E). apply bind_ok in E. destruct E as (tt & Ett & E).
    change (String.eqb "rectangular_flat" "rectangular_flat") with true in E. cbn iota in E. apply bind_ok in E. destruct E as (qq & Eqq & E). injection E as <-.
    destruct (rect_surface c n t w hh qq r p d Hn Htn Eqq Hr Hd) as [s M A R N|M R]; [apply FR_yes with s; auto|apply FR_no; auto];
    cbn [with_log optic_test_intersect de_shape de_surfaces]; unfold flat_test_intersect; change (String.eqb "rectangular_flat" "rectangular_flat") with true; rewrite orb_true_r.
    + rewrite (flat_one_hit _ _ p _ _ _ _ (proj1 Hr) R N) by reflexivity. reflexivity.
    + rewrite (flat_one_miss _ _ _ _ R). reflexivity.
  - unfold mk_grating in E. apply bind_ok in E. destruct E as (nn & Enn & E). apply bind_ok in E. destruct E as (tt & Ett & E).
    change (String.eqb "rectangular_flat" "rectangular_flat") with true in E. cbn iota in E. apply bind_ok in E. destruct E as (qq & Eqq & E). injection E as <-.
    destruct (rect_surface c n t w hh qq r p d Hn Htn Eqq Hr Hd) as [s M A R N|M R]; [apply FR_yes with s; auto|apply FR_no; auto];
    cbn [optic_test_intersect gr_shape gr_surfaces]; unfold flat_test_intersect; change (String.eqb "rectangular_flat" "rectangular_flat") with true; rewrite orb_true_r.
    + rewrite (flat_one_hit _ _ p _ _ _ _ (proj1 Hr) R N) by reflexivity. reflexivity.
    + rewrite (flat_one_miss _ _ _ _ R). reflexivity.
Qed.

(** from a point of its own plane a flat optic is never reported *)
Lemma flat_from_plane o c u A r p d : flat_optic o c u A -> on_plane c u p -> ray_is r p d -> is_unit d ->
  optic_test_intersect o r = Ok (H4 false None None (flat_side o)).
Proof.
  intros V P Hr Hd. destruct (flat_report o c u A r p d V Hr Hd) as [t (M1 & M2 & M3) _ _|_ E]; [exfalso|exact E].
  unfold on_plane, at_t in *. replace (p + t * d - c)%r3 with ((p - c) + t * d)%r3 in M3 by r3_ring. rewrite dot_add_l, dot_scale_l, P, (dot_comm d u) in M3.
  assert (X : t * (u ∙ d) = 0) by lra. apply Rmult_integral in X. destruct X as [X|X]; [lra|]. rewrite X, Rabs_R0 in M1. lra.
Qed.
Lemma flat_after o c u A r pt n s r' o' : flat_optic o c u A -> optic_do_intersect o r pt n s = Ok (r', o') -> flat_optic o' c u A.
Proof.
  intros V H. destruct V as [c n1 D w hh f tg ty dmd m Hn E|c n1 t D w hh f ty dmd m Hn Htn E|c n1 D f ty ix l Hn E|c n1 t w hh de log Hn Htn E|c n1 t w hh GG g Hn Htn E];
  cbn [optic_do_intersect with_log] in H; try (apply bind_ok in H; destruct H as (r1 & _ & H); injection H as _ <-).
  - eapply FO_mirror_circ; eassumption.
  - eapply FO_mirror_rect; eassumption.
  - eapply FO_lens; eassumption.
  - injection H as _ <-. unfold record_hit. cbn [de_hit_data]. change (mkDetector _ _ _ _ _ ?l) with (mkDetector (de_position de) (de_normal de) (de_tangent de) (de_shape de) (de_surfaces de) l).
    exact (FO_detector c n1 t w hh de (log ++ [(pt, wavelength r)]) Hn Htn E).
  - eapply FO_grating; eassumption.
Qed.
