(** Property C60: a ray does not hit the flat or convex optic it is just leaving. *)
From Coq Require Import Reals ZArith Lra Lia Psatz String List Bool.
From Verif Require Import PyErr Num Vec Shapes Csg Optics Spec XReal RVec VecProofs AngleProofs FlatProofs SphereProofs CylProofs ShapeExtra
  TreeProofs SolidProofs CsgProofs RayProofs RunGen NoFuel RunXr OpticHits StateXr OrderProofs FlatOptic Props_Ray Props_Loop Props_Run FloatInst Props_Float.
Import ListNotations.
Local Open Scope R_scope.

Lemma chosen_unique r rm l k x pt n k' x' pt' n' : chosen r rm l k x pt n -> chosen r rm l k' x' pt' n' -> k = k' /\ x = x' /\ pt = pt' /\ n = n'.
Proof.
  intros [(o & En & R) M] [(o' & En' & R') M']. destruct (M _ _ _ _ _ En' R') as [L1 L2]. destruct (M' _ _ _ _ _ En R) as [L3 L4].
  assert (k = k') as <-. { destruct (Nat.lt_trichotomy k k') as [L|[L|L]]; [specialize (L4 L); lra|exact L|specialize (L2 L); lra]. }
  rewrite En in En'. injection En' as <-. destruct (reports_det _ _ _ _ _ _ _ _ _ R R') as (A & B & C). auto.
Qed.

(** after interacting with flat optic number k the ray is on its plane, and the optic does not report *)
Lemma flat_once m st st' rm p d k o c u A x pt n d' : rs_remaining st = Fin rm -> ray_is (rs_ray st) p d -> is_unit d ->
  nth_error (rs_world st) k = Some o -> flat_optic o c u A -> chosen (rs_ray st) rm (rs_world st) k x pt n ->
  run_body (Fin m) st = Ok st' -> direction (rs_ray st') = fv d' -> is_unit d' ->
  exists o', nth_error (rs_world st') k = Some o' /\ flat_optic o' c u A /\ optic_test_intersect o' (rs_ray st') = Ok (H4 false None None (flat_side o')).
Proof.
  intros Hrm Hr Hd En V Ch B Hd' Ud'. pose proof Hr as [Hp Hdir].
  destruct (proj1 Ch) as (o1 & En1 & (Sk & sf & Et & Dx & Lx)). rewrite En in En1. injection En1 as <-.
  destruct (flat_report o c u A _ p d V Hr Hd) as [t M At R|_ R]; [|rewrite R in Et; discriminate]. rewrite R in Et. injection Et as E1 E2 E3. subst pt n.
  destruct M as (M1 & M2 & M3). rewrite Hp, distance_fv, fly_to in Dx by (try assumption; lra). injection Dx as <-.
  assert (Fly : position (fly (rs_ray st) (Fin t)) = fv (at_t p d t)). { unfold fly. rewrite Hp, Hdir, vscale_fv, vadd_fv. reflexivity. }
  assert (K : exists o', nth_error (rs_world st') k = Some o' /\ flat_optic o' c u A /\ position (rs_ray st') = fv (at_t p d t)).
  { destruct (body_advance _ _ _ _ Hrm B) as [No _ _ _ _|k1 x1 pt1 n1 Ch1 _ _ Out].
    - exfalso. destruct (proj1 Ch) as (o1 & En1 & Rp). exact (No _ _ _ _ _ En1 Rp).
    - destruct (chosen_unique _ _ _ _ _ _ _ _ _ _ _ Ch Ch1) as (<- & <- & <- & <-).
      destruct Out as [(_ & Er & Ew)|(_ & o1 & o' & f & En1 & Ed & Ew & _)].
      + exists o. rewrite Ew, Er. auto.
      + rewrite En in En1. injection En1 as <-. exists o'. rewrite Ew. split; [eapply nth_set_same; exact En|]. split; [eapply flat_after; eassumption|].
        destruct (do_frame _ _ _ _ _ _ _ Ed) as [(F1 & _) _]. rewrite F1. exact Fly. }
  destruct K as (o' & En' & V' & Ps). exists o'. split; [exact En'|]. split; [exact V'|]. eapply flat_from_plane; [exact V'|exact M3|split; eassumption|exact Ud'].
Qed.

(** C60, flat optics (mirrors, thin lenses, gratings, detectors): (1) a ray starting anywhere on the plane of the optic does not report it, whatever its
    direction; (2) in a run, once the ray has interacted with flat optic number k, that optic is not chosen again in the next iteration. *)
Theorem C60_flat : 
  (forall o c u A r p d, flat_optic o c u A -> on_plane c u p -> ray_is r p d -> is_unit d -> exists h, optic_test_intersect o r = Ok h /\ h4_flag h = false) /\
  (forall m maxi i r w p0 d0 st st1 st2 rm rm1 k k1 o c u A x x1 pt pt1 n n1, 0 <= m -> ray_is r p0 d0 -> is_unit d0 -> ok_scene w -> grating_free w ->
     steps (Fin m) maxi i (run_init r (Fin m) w) st -> rs_remaining st = Fin rm -> chosen (rs_ray st) rm (rs_world st) k x pt n ->
     nth_error (rs_world st) k = Some o -> flat_optic o c u A -> run_body (Fin m) st = Ok st1 ->
     rs_remaining st1 = Fin rm1 -> chosen (rs_ray st1) rm1 (rs_world st1) k1 x1 pt1 n1 -> run_body (Fin m) st1 = Ok st2 -> k1 <> k).
Proof.
  split.
  - intros o c u A r p d V P Hr Hd. eexists. split; [eapply flat_from_plane; eassumption|reflexivity].
  - intros m maxi i r w p0 d0 st st1 st2 rm rm1 k k1 o c u A x x1 pt pt1 n n1 Hm Hr Hd Sc Gf S Hrm Ch En V B Hrm1 Ch1 B1 ->.
    destruct (steps_ok _ _ _ _ _ _ _ _ Hm Hr Hd Sc Gf S) as (Sc1 & Gf1 & p & d & Hr1 & Hd1 & _).
    destruct (body_ok m st st1 rm p d Hrm Hr1 Hd1 Sc1 B) as (_ & G2 & _). destruct (G2 Gf1) as (_ & d' & Hd' & Ud').
    destruct (flat_once m st st1 rm p d k o c u A x pt n d' Hrm Hr1 Hd1 En V Ch B Hd' Ud') as (o' & En' & _ & T).
    destruct (proj1 Ch1) as (o1 & En1 & (_ & s & E & _)). rewrite En' in En1. injection En1 as <-. rewrite T in E. discriminate.
Qed.
Print Assumptions C60_flat.
Example C60_flat_hyp : forall z, flat_optic (OMirror (mirror_at z)) (at_z z) (dirn e_z) (fun q => dist3 q (at_z z) < 2 / 2) /\ on_plane (at_z z) (dirn e_z) (at_z z).
Proof.
  intros z. split; [eapply FO_mirror_circ; [apply e_z_nz|apply mirror_at_built]|]. unfold on_plane. replace (at_z z - at_z z)%r3 with r3zero by r3_ring. apply dot_zero_l.
Qed.

Lemma outward_dot c rad q d : (q - c)%r3 ∙ d = rad * (d ∙ outward c rad q) \/ rad = 0.
Proof. destruct (Req_dec rad 0) as [E|E]; [right; exact E|left]. unfold outward. rewrite dot_scale_r, (dot_comm d). field. exact E. Qed.
Lemma leaves_sphere c rad q d : 0 < rad -> is_unit d -> on_sphere c rad q -> 0 < d ∙ outward c rad q -> forall t, 0 < t -> rad < dist3 (at_t q d t) c.
Proof.
  intros HR Hd On Out t Ht. destruct (outward_dot c rad q d) as [E|E]; [|lra].
  assert (Sq : dist3 (at_t q d t) c * dist3 (at_t q d t) c = rad * rad + 2 * t * (rad * (d ∙ outward c rad q)) + t * t).
  { rewrite <- E, dist3_sq. replace (at_t q d t - c)%r3 with ((q - c) + t * d)%r3 by (unfold at_t; r3_ring). unfold on_sphere in On. rewrite <- On at 1. rewrite <- On at 1.
    rewrite dist3_sq. generalize (q - c)%r3. intros w. unfold is_unit in Hd. autorewrite with dotr. rewrite (dot_comm d w), Hd. ring. }
  assert (0 <= dist3 (at_t q d t) c) by apply len_nonneg. assert (0 < t * (rad * (d ∙ outward c rad q))) by (apply Rmult_lt_0_compat; [lra|apply Rmult_lt_0_compat; lra]).
  assert (0 < t * t) by (apply Rmult_lt_0_compat; lra). nra.
Qed.
Lemma crossing_not_tangent c rad p d t : 0 < rad -> is_unit d -> on_sphere c rad (at_t p d t) -> d ∙ outward c rad (at_t p d t) <> 0 -> forall R, Rabs R = rad -> ~ tangent c R p d.
Proof.
  intros HR Hd On Out R ER T. apply tangent_disc in T; [|exact Hd]. set (q := at_t p d t) in *. destruct (outward_dot c rad q d) as [E|E]; [|lra].
  assert (Sq : (c - q)%r3 ∙ (c - q)%r3 = rad * rad). { unfold on_sphere in On. rewrite dist3_sym in On. rewrite <- On, dist3_sq. reflexivity. }
  assert (RR : R * R = rad * rad) by (rewrite <- ER; unfold Rabs; destruct (Rcase_abs R); ring).
  unfold sdisc in T. assert (X : (rad * (d ∙ outward c rad q)) * (rad * (d ∙ outward c rad q)) = 0).
  { rewrite <- E. replace ((q - c)%r3 ∙ d) with (- (d ∙ (c - q)%r3)) by r3_ring. rewrite RR, <- Sq in T. rewrite <- T. replace (c - p)%r3 with ((c - q) + t * d)%r3 by (unfold q, at_t; r3_ring).
    generalize (c - q)%r3. intros v. unfold is_unit in Hd. autorewrite with dotr. rewrite !(dot_comm v d), Hd. ring. }
  apply Rmult_integral in X. destruct X as [X|X]; apply Rmult_integral in X; destruct X; lra.
Qed.

(** C60, convex spherical mirrors: a ray that meets the sphere from its outer side is reflected there and is then not reported again by the same mirror. *)
Theorem C60_convex : forall c n D w h f tg dmd m r p d t, D <> 0 ->
  mk_mirror (fv c) "circular_convex_spherical" n (Some (Fin D)) w h f tg "normal" dmd = Ok m ->
  ray_is r p d -> is_unit d -> first_ahead c (Rabs (D / 2)) p d t -> d ∙ (at_t p d t - c)%r3 < 0 ->
  exists u s r', mirror_test_intersect m r = Ok (H4 true (Some (fv (at_t p d t))) (Some (fv u)) s) /\
    mirror_do_intersect m (fly r (Fin t)) (Some (fv u)) = Ok r' /\ position r' = fv (at_t p d t) /\
    exists h', mirror_test_intersect m r' = Ok h' /\ h4_flag h' = false.
Proof.
  intros c n D w h f tg dmd m r p d t HD E Hr Hd F In0. assert (PR : 0 < Rabs (D / 2)) by (apply Rabs_pos_lt; lra).
  set (q := at_t p d t) in *. set (u := outward c (Rabs (D / 2)) q). pose proof F as (F1 & On & _). fold q in On.
  assert (In : d ∙ u < 0). { destruct (outward_dot c (Rabs (D / 2)) q d) as [Eo|Eo]; [|lra]. rewrite dot_comm, Eo in In0. fold u in In0. nra. }
  assert (NT : ~ tangent c (D / 2) p d) by (eapply crossing_not_tangent; [exact PR|exact Hd|exact On|fold q u; lra|reflexivity]).
  destruct (convex_mirror_report c n D w h f tg "normal" dmd m p d r HD E Hd Hr NT) as (h1 & T1 & [t1 F' Fl Pt Nm Un Side|No _]); [|exfalso; exact (No t F)].
  assert (t1 = t) as ->. { destruct F as (A1 & A2 & A3), F' as (B1 & B2 & B3). specialize (A3 t1 B1 B2). specialize (B3 t A1 A2). lra. }
  fold q in Pt, Nm, Un. fold u in Nm, Un. destruct h1 as [fl pt nn s]. cbn in Fl, Pt, Nm. subst fl pt nn.
  assert (Ty : mi_type m = "normal"%string).
  { unfold mk_mirror in E. apply bind_ok in E. destruct E as (dm & Edm & E). change (String.eqb "circular_convex_spherical" "circular_flat") with false in E.
    change (String.eqb "circular_convex_spherical" "rectangular_flat") with false in E. change (String.eqb "circular_convex_spherical" "circular_concave_spherical") with false in E.
    change (String.eqb "circular_convex_spherical" "circular_convex_spherical") with true in E. cbn iota in E. apply bind_ok in E. destruct E as (sp & _ & E). injection E as <-. reflexivity. }
  assert (Dr : direction (fly r (Fin t)) = fv d) by (destruct Hr as [_ Hdir]; exact Hdir).
  assert (Ps : position (fly r (Fin t)) = fv q) by (destruct Hr as [Hp Hdir]; unfold fly; cbn; rewrite Hp, Hdir; reflexivity).
  exists u, s, (reflect_specular (fly r (Fin t)) (fv u)). split; [exact T1|]. split; [unfold mirror_do_intersect; rewrite Ty; reflexivity|].
  rewrite (reflect_fv _ d u Dr (unit_nonzero _ Hd) (unit_nonzero _ Un)), dirn_of_unit by exact Un. rewrite ?dirn_of_unit by exact Hd.
  set (d' := refl u d). assert (Ud' : is_unit d') by (apply refl_unit; assumption).
  assert (Out : 0 < d' ∙ u) by (unfold d'; rewrite refl_normal by exact Un; lra).
  assert (Hr' : ray_is (set_direction (fly r (Fin t)) (fv d')) q d') by (split; [exact Ps|reflexivity]).
  split; [exact Ps|].
  assert (NT' : ~ tangent c (D / 2) q d').
  { apply (crossing_not_tangent c (Rabs (D / 2)) q d' 0 PR Ud'); rewrite ?at_t_0; [exact On|fold u; lra|reflexivity]. }
  destruct (convex_mirror_report c n D w h f tg "normal" dmd m q d' _ HD E Ud' Hr' NT') as (h2 & T2 & [t2 (L2 & On2 & _) _ _ _ _ _|_ Fl]).
  - exfalso. pose proof (leaves_sphere c (Rabs (D / 2)) q d' PR Ud' On Out t2 ltac:(lra)) as Lv. unfold on_sphere in On2. lra.
  - exists h2. auto.
Qed.
Print Assumptions C60_convex.
Example C60_convex_hyp : first_ahead r3zero (Rabs (2 / 2)) (mk3 (-5) 0 0) e_x 4 /\ e_x ∙ (at_t (mk3 (-5) 0 0) e_x 4 - r3zero)%r3 < 0.
Proof.
  rewrite Rabs_right by lra. assert (K : forall t, on_sphere r3zero (2/2) (at_t (mk3 (-5) 0 0) e_x t) <-> t = 4 \/ t = 6).
  { intros t. unfold on_sphere. assert (Sq : dist3 (at_t (mk3 (-5) 0 0) e_x t) r3zero * dist3 (at_t (mk3 (-5) 0 0) e_x t) r3zero = (t - 5) * (t - 5)).
    { rewrite dist3_sq. unfold at_t, e_x, r3dot; cbn; ring. }
    assert (0 <= dist3 (at_t (mk3 (-5) 0 0) e_x t) r3zero) by apply len_nonneg. split.
    - intros H0. rewrite H0 in Sq. assert (X : (t - 4) * (t - 6) = 0) by nra. apply Rmult_integral in X. destruct X; [left|right]; lra.
    - intros [-> | ->]; nra. }
  split; [split; [lra|split; [apply K; auto|]]|].
  - intros s _ H. apply K in H. destruct H; lra.
  - unfold at_t, e_x, r3dot; cbn. lra.
Qed.

(** C60, binary64: with rounding the statement fails.  A convex mirror of radius 5000 at (0,20000,0) and a ray along y from (1,0,2400): the rounded hit point
    lies just inside the sphere, the mirror reports a second hit 2.3e-12 away, and run with a single mirror records two interactions. *)
Definition big_mirror : Res (mirror b64) :=
  mk_mirror (V (nofZ 0) (nofZ 20000) (nofZ 0)) "circular_convex_spherical" None (Some (nofZ 10000)) None None None None "normal" (Some ex).
Definition skew_ray : ray b64 := mk_ray (V (nofZ 1) (nofZ 0) (nofZ 2400)) (V (nofZ 0) (nofZ 1) (nofZ 0)) (nofZ 532) (nofZ 0) "normal".
Theorem C60_binary64_refuted : forall TT : Trig b64, exists m st1 st2,
  big_mirror = Ok m /\ run_body far (run_init skew_ray far [OMirror m]) = Ok st1 /\ rs_count st1 = 1%Z /\
  run_body far st1 = Ok st2 /\ rs_count st2 = 2%Z /\ nlt (distance_between (position (rs_ray st1)) (position (rs_ray st2))) (f 3 12) = true.
Proof. intros TT. do 3 eexists. split; [vm_compute; reflexivity|]. split; [vm_compute; reflexivity|]. split; [reflexivity|]. split; [vm_compute; reflexivity|]. split; vm_compute; reflexivity. Qed.
Print Assumptions C60_binary64_refuted.
