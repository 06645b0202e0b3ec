(** Property C60 in every run: gratings included, and convex mirrors inside a scene. *)
From Coq Require Import Reals ZArith Lra Lia Psatz String List Bool.
From Verif Require Import PyErr Num Vec Shapes Csg Optics Spec XReal RVec VecProofs AngleProofs FlatProofs SphereProofs CylProofs ShapeExtra
  TreeProofs SolidProofs CsgProofs RayProofs Rotate RunGen NoFuel RunXr OpticHits StateXr OrderProofs FlatOptic Props_Ray Props_Loop Props_Run Props_Rehit SceneProofs Props_Scene Props_Train Props_Path Props_Images.
Import ListNotations.
Local Open Scope R_scope.

(* ---- rays with a NaN direction ---- *)
Lemma nan_dot_r a b : has_nan b -> dot a b = XNaN.
Proof. exact (Rotate.nan_dot_r a b). Qed.
Lemma nan_unit v : has_nan v -> has_nan (unit_vector v).
Proof. intros H. unfold unit_vector, norm. rewrite (nan_dot_r v v H). left. unfold vdivs. cbn. destruct (vx v); reflexivity. Qed.
Lemma plane_nan pl (r : ray xr) : has_nan (direction r) -> plane_test_intersect pl r = miss3.
Proof. intros H. unfold plane_test_intersect. rewrite (nan_dot_r _ _ (nan_unit _ H)), arb_fin. reflexivity. Qed.
Lemma circle_nan c n D ci (r : ray xr) : mk_circle c (Some n) None D = Ok ci -> has_nan (direction r) -> shape_test_intersect (SCircle ci) r = Ok (I3 (H3 false None None)).
Proof.
  intros E H. unfold mk_circle in E. apply bind_ok in E. destruct E as ([rr dd] & _ & E). injection E as <-. cbn [shape_test_intersect]. unfold circle_test_intersect. cbn [ci_plane].
  rewrite plane_nan by exact H. reflexivity.
Qed.
Lemma rect_nan q (r : ray xr) : has_nan (direction r) -> shape_test_intersect (SRectangle q) r = Ok (I3 (H3 false None None)).
Proof. intros H. cbn [shape_test_intersect]. unfold rectangle_test_intersect. rewrite plane_nan by exact H. reflexivity. Qed.
Lemma flat_nan o c u A r : flat_optic o c u A -> has_nan (direction r) -> optic_test_intersect o r = Ok (H4 false None None (flat_side o)).
Proof.
  intros V H. destruct V as [c n D w hh f tg ty dmd m Hn E|c n t D w hh f ty dmd m Hn Htn E|c n D f ty ix l Hn E|c n t w hh de log Hn Htn E|c n t w hh GG g Hn Htn E].
  - unfold mk_mirror in E. apply bind_ok in E. destruct E as (dm & Edm & E). change (String.eqb "circular_flat" "circular_flat") with true in E. cbn iota in E.
    apply bind_ok in E. destruct E as (nn & Enn & E). apply bind_ok in E. destruct E as (ci & Eci & E). injection E as <-.
    cbn [optic_test_intersect]; unfold mirror_test_intersect; cbn [mi_shape mi_surfaces]; change (String.eqb "circular_flat" "circular_flat") with true; cbn [orb].
    rewrite (flat_one_miss _ _ _ _ (circle_nan _ _ _ _ _ Eci H)). reflexivity.
  - unfold mk_mirror in E. apply bind_ok in E. destruct E as (dm & Edm & E). change (String.eqb "rectangular_flat" "circular_flat") with false in E.
    change (String.eqb "rectangular_flat" "rectangular_flat") with true in E. cbn iota in E.
    apply bind_ok in E. destruct E as (nn & Enn & E). apply bind_ok in E. destruct E as (qq & Eqq & E). injection E as <-.
    cbn [optic_test_intersect]; unfold mirror_test_intersect; cbn [mi_shape mi_surfaces]; change (String.eqb "rectangular_flat" "rectangular_flat") with true; rewrite orb_true_r.
    rewrite (flat_one_miss _ _ _ _ (rect_nan _ _ H)). reflexivity.
  - unfold mk_lens in E. change (String.eqb "spherical_biconvex" "spherical_biconvex") with true in E. cbn iota in E.
    apply bind_ok in E. destruct E as (ci & Eci & E). injection E as <-.
    cbn [optic_test_intersect]; unfold lens_test_intersect; cbn [le_shape le_surfaces]; change (String.eqb "spherical_biconvex" "spherical_biconvex") with true; cbn iota.
    rewrite (flat_one_miss _ _ _ _ (circle_nan _ _ _ _ _ Eci H)). reflexivity.
  - unfold mk_detector in E. apply bind_ok in E. destruct E as (nn & Enn & E). apply bind_ok in E. destruct E as (tt & Ett & E).
    change (String.eqb "rectangular_flat" "rectangular_flat") with true in E. cbn iota in E. apply bind_ok in E. destruct E as (qq & Eqq & E). injection E as <-.
    cbn [with_log optic_test_intersect de_shape de_surfaces]; unfold flat_test_intersect; change (String.eqb "rectangular_flat" "rectangular_flat") with true; rewrite orb_true_r.
    rewrite (flat_one_miss _ _ _ _ (rect_nan _ _ H)). reflexivity.
  - unfold mk_grating in E. apply bind_ok in E. destruct E as (nn & Enn & E). apply bind_ok in E. destruct E as (tt & Ett & E).
    change (String.eqb "rectangular_flat" "rectangular_flat") with true in E. cbn iota in E. apply bind_ok in E. destruct E as (qq & Eqq & E). injection E as <-.
    cbn [optic_test_intersect gr_shape gr_surfaces]; unfold flat_test_intersect; change (String.eqb "rectangular_flat" "rectangular_flat") with true; rewrite orb_true_r.
    rewrite (flat_one_miss _ _ _ _ (rect_nan _ _ H)). reflexivity.
Qed.
Lemma nan_distance v pt x : has_nan v -> distance_between v pt <> Fin x.
Proof. intros H. unfold distance_between, norm. rewrite (nan_dot_r (vsub v pt) (vsub v pt)); [discriminate|]. unfold has_nan, vsub in *. cbn [vx vy vz]. destruct H as [->|[->| ->]]; auto. Qed.

(** after interacting with flat optic number k the ray is on its plane *)
Lemma flat_lands m st st' rm p d k o c u A x pt n : rs_remaining st = Fin rm -> ray_is (rs_ray st) p d -> is_unit d ->
  nth_error (rs_world st) k = Some o -> flat_optic o c u A -> chosen (rs_ray st) rm (rs_world st) k x pt n -> run_body (Fin m) st = Ok st' ->
  exists o' q, nth_error (rs_world st') k = Some o' /\ flat_optic o' c u A /\ on_plane c u q /\ position (rs_ray st') = fv q.
Proof.
  intros Hrm Hr Hd En V Ch B. pose proof Hr as [Hp Hdir].
  destruct (proj1 Ch) as (o1 & En1 & (Sk & sf & Et & Dx & Lx)). rewrite En in En1. injection En1 as <-.
  destruct (flat_report o c u A _ p d V Hr Hd) as [t M At R|_ R]; [|rewrite R in Et; discriminate]. rewrite R in Et. injection Et as E1 E2 E3. subst pt n.
  destruct M as (M1 & M2 & M3). rewrite Hp, distance_fv, fly_to in Dx by (try assumption; lra). injection Dx as <-.
  assert (Fly : position (fly (rs_ray st) (Fin t)) = fv (at_t p d t)). { unfold fly. rewrite Hp, Hdir, vscale_fv, vadd_fv. reflexivity. }
  destruct (body_advance _ _ _ _ Hrm B) as [No _ _ _ _|k1 x1 pt1 n1 Ch1 _ _ Out].
  - exfalso. destruct (proj1 Ch) as (o1 & En1 & Rp). exact (No _ _ _ _ _ En1 Rp).
  - destruct (chosen_unique _ _ _ _ _ _ _ _ _ _ _ Ch Ch1) as (<- & <- & <- & <-).
    destruct Out as [(_ & Er & Ew)|(_ & o1 & o' & f & En1 & Ed & Ew & _)].
    + exists o, (at_t p d t). rewrite Ew, Er. auto.
    + rewrite En in En1. injection En1 as <-. exists o', (at_t p d t). rewrite Ew. split; [eapply nth_set_same; exact En|]. split; [eapply flat_after; eassumption|].
      destruct (do_frame _ _ _ _ _ _ _ Ed) as [(F1 & _) _]. rewrite F1. auto.
Qed.

(** C60 in every run over constructor-built optics, gratings included: (1) an optic built flat is not chosen in two iterations in a row; (2) neither is a spherical convex mirror that
    the ray met from its outer side (not touching it). *)
Theorem C60_run : forall m maxi i r w p0 d0 st st1 rm rm1 k k1 o x x1 pt pt1 n n1, 0 <= m -> ray_is r p0 d0 -> is_unit d0 -> ok_scene w ->
  steps (Fin m) maxi i (run_init r (Fin m) w) st -> rs_remaining st = Fin rm -> chosen (rs_ray st) rm (rs_world st) k x pt n -> nth_error (rs_world st) k = Some o ->
  run_body (Fin m) st = Ok st1 -> run_cond maxi st1 = true -> rs_remaining st1 = Fin rm1 -> chosen (rs_ray st1) rm1 (rs_world st1) k1 x1 pt1 n1 ->
  (forall c u A, flat_optic o c u A -> k1 <> k) /\
  (forall c n0 D w0 h f tg dmd mi p d q, D <> 0 -> mk_mirror (fv c) "circular_convex_spherical" n0 (Some (Fin D)) w0 h f tg "normal" dmd = Ok mi -> o = OMirror mi ->
     ray_is (rs_ray st) p d -> is_unit d -> ~ tangent c (D / 2) p d -> pt = fv q -> d ∙ (q - c)%r3 < 0 -> k1 <> k).
Proof.
  intros m maxi i r w p0 d0 st st1 rm rm1 k k1 o x x1 pt pt1 n n1 Hm Hr Hd Sc S Hrm Ch En B Cn Hrm1 Ch1. split.
  - intros c u A V ->. destruct (proj1 Ch) as (o2 & En2 & (_ & s & E & Dx & _)). rewrite En in En2. injection En2 as <-.
    destruct (path_steps m maxi r w p0 d0 Hm Hr Hd Sc i st S) as [((p & pts & rm' & Hp & _) & Sc1 & d & Hd1 & Ud1)|(_ & rm' & _ & [(_ & Nn)|Nn])].
    + destruct (flat_lands m st st1 rm p d k o c u A x pt n Hrm (conj Hp Hd1) Ud1 En V Ch B) as (o' & q & En' & V' & P' & Ps).
      destruct (proj1 Ch1) as (o1 & En1 & (_ & s1 & E1 & _)). rewrite En' in En1. injection En1 as <-.
      destruct (body_dir m st st1 rm p d Hrm (conj Hp Hd1) Ud1 Sc1 B) as [(d' & Hd' & Ud')|(_ & _ & _ & _ & _ & _ & _ & _ & Nn)].
      * rewrite (flat_from_plane o' c u A _ q d' V' P' (conj Ps Hd') Ud') in E1. discriminate.
      * rewrite (flat_nan o' c u A _ V' Nn) in E1. discriminate.
    + rewrite (flat_nan o c u A _ V Nn) in E. discriminate.
    + exact (nan_distance _ _ _ Nn Dx).
  - intros c n0 D w0 h f tg dmd mi p d q HD Eb -> Hr1 Ud NT -> In ->.
    destruct (proj1 Ch) as (o2 & En2 & (_ & s & E & Dx & Lx)). rewrite En in En2. injection En2 as <-. cbn [optic_test_intersect] in E.
    destruct (convex_mirror_report c n0 D w0 h f tg "normal" dmd mi p d _ HD Eb Ud Hr1 NT) as (h1 & T1 & [t F Fl Pt Nm Un Side|No Fl]); rewrite E in T1; injection T1 as <-; [|discriminate Fl].
    cbn [h4_pt] in Pt. injection Pt as Q1 Q2 Q3. assert (q = at_t p d t) as -> by (apply r3_ext; assumption).
    destruct (C60_convex c n0 D w0 h f tg dmd mi (rs_ray st) p d t HD Eb Hr1 Ud F In) as (u & s' & r' & T2 & D2 & Ps & h' & T3 & F3). rewrite E in T2. injection T2 as -> _.
    destruct (body_advance _ _ _ _ Hrm B) as [No _ _ _ _|k1 x2 pt2 n2 Ch2 _ _ Out].
    { destruct (proj1 Ch) as (o1 & En1 & Rp). exact (No _ _ _ _ _ En1 Rp). }
    destruct (chosen_unique _ _ _ _ _ _ _ _ _ _ _ Ch Ch2) as (<- & <- & <- & <-).
    destruct Out as [(_ & Er & Ew)|(_ & o1 & o' & f' & En1 & Ed & Ew & _)].
    + unfold run_cond in Cn. rewrite Er in Cn. cbn [blocked set_blocked] in Cn. rewrite andb_false_r in Cn. discriminate.
    + rewrite En in En1. injection En1 as <-. destruct Hr1 as [Hp Hdir]. destruct F as (L & _). rewrite Hp, distance_fv, fly_to in Dx by (try assumption; lra). injection Dx as <-.
      cbn [optic_do_intersect] in Ed. rewrite D2 in Ed. cbn [bind] in Ed. injection Ed as Er <-. 
      destruct (proj1 Ch1) as (o1 & En1 & (_ & s1 & E1 & _)). rewrite Ew, (nth_set_same _ _ _ _ En) in En1. injection En1 as <-. cbn [optic_test_intersect] in E1. rewrite <- Er, T3 in E1. injection E1 as ->. discriminate F3.
Qed.
Print Assumptions C60_run.

(** the ray along z between the mirrors at z = 5 and z = -5: the first is chosen, then the second *)
Definition facing : list (optic xr) := [OMirror (mirror_at 5); OMirror (mirror_at (-5))].
Lemma behind : optic_test_intersect (OMirror (mirror_at (-5))) z_ray = Ok (H4 false None None SfoNone).
Proof.
  pose proof (mirror_at_flat (-5)) as (mi & _ & _ & V). rewrite (dirn_of_unit e_z e_z_unit) in V.
  destruct (flat_report _ _ _ _ z_ray (at_z 0) e_z V z_ray_is e_z_unit) as [t M _ _|_ R]; [exfalso|exact R].
  destruct M as (_ & M2 & M3). unfold on_plane, at_t, at_z, e_z, r3dot in M3. cbn in M3. lra.
Qed.
Lemma facing_body : run_body (Fin 100) (run_init z_ray (Fin 100) facing) =
  Ok (mkRun bounced facing 1 (Fin (100 - 5)) (Some (mkSel 0 (fv (at_z 5)) (Some (fv e_z)))) (Some SfoNone)).
Proof.
  unfold run_body, run_init, facing. cbn [rs_ray rs_remaining rs_world scan]. unfold scan_step. cbn [skipped]. rewrite behind. cbn [optic_test_intersect].
  rewrite (mirror_at_hit 5 z_ray (at_z 0) e_z 5 z_ray_is e_z_unit z_meets) by (rewrite z_at, dist_self; lra).
  cbn [bind h4_flag h4_pt h4_normal h4_sfo need]. rewrite z_at.
  assert (D : distance_between (position z_ray) (fv (at_z 5)) = Fin 5).
  { change (position z_ray) with (fv (at_z 0)). rewrite distance_fv, <- z_at, fly_to; [reflexivity|apply e_z_unit|lra]. }
  rewrite D, clip_fin, !ngt_fin, !Rltb_false, (Rltb_true _ 5) by lra. cbn [rs_sel rs_sfo sc_min]. change (nlt (Fin 5) ninf) with true. cbn iota.
  cbn [bind negb sc_hit sc_sel sc_sfo bound se_pt se_idx se_normal]. rewrite D. change (String.eqb (ray_type z_ray) "faerie_fire") with false. cbn iota. cbn [nth_error optic_do_intersect].
  unfold mirror_do_intersect. change (String.eqb (mi_type (mirror_at 5)) "normal") with true. cbn [need bind].
  rewrite (reflect_fv (fly z_ray (Fin 5)) e_z e_z eq_refl e_z_nz e_z_nz), dirn_of_unit by apply e_z_unit. rewrite refl_self by (auto; apply e_z_unit).
  unfold fly, set_direction. cbn [position direction wavelength order point_history blocked ray_type z_ray a_ray]. rewrite vscale_fv, vadd_fv. fold (at_t (at_z 0) e_z 5). rewrite z_at.
  rewrite nsub_fin. reflexivity.
Qed.
Lemma facing_z c : flat_optic (OMirror (mirror_at c)) (at_z c) e_z (fun q => dist3 q (at_z c) < 2 / 2).
Proof. pose proof (mirror_at_flat c) as (mi & _ & _ & V). rewrite (dirn_of_unit e_z e_z_unit) in V. exact V. Qed.
Example C60_run_hyp : exists st1 x x1 pt pt1 n n1, ok_scene facing /\ steps (Fin 100) None 0 (run_init z_ray (Fin 100) facing) (run_init z_ray (Fin 100) facing) /\
  chosen z_ray 100 facing 0 x pt n /\ run_body (Fin 100) (run_init z_ray (Fin 100) facing) = Ok st1 /\ run_cond None st1 = true /\ rs_remaining st1 = Fin 95 /\
  chosen (rs_ray st1) 95 (rs_world st1) 1 x1 pt1 n1 /\ (exists c u A, flat_optic (OMirror (mirror_at 5)) c u A).
Proof.
  exists (mkRun bounced facing 1 (Fin (100 - 5)) (Some (mkSel 0 (fv (at_z 5)) (Some (fv e_z)))) (Some SfoNone)), 5, 10, (fv (at_t (at_z 0) e_z 5)), (fv (at_t (at_z 5) (- e_z)%r3 10)), (Some (fv e_z)), (Some (fv e_z)).
  assert (Ub : is_unit (- e_z)%r3) by (apply unit_opp, e_z_unit). assert (Hb : ray_is bounced (at_z 5) (- e_z)%r3) by (split; reflexivity).
  split. { intros o [<-|[<-|[]]]; right; do 2 eexists; apply mirror_at_valid. }
  split; [constructor|]. split; [|split; [apply facing_body|split; [|split; [|split]]]].
  - split.
    + exists (OMirror (mirror_at 5)). split; [reflexivity|]. apply (flat_axis_yes _ _ _ _ e_z _ _ _ 100 5 (facing_z 5) (or_introl eq_refl) z_ray_is e_z_unit); try lra.
      * unfold at_z, e_z, r3dot. cbn. ring.
      * rewrite Rabs_right; unfold e_z, r3dot; cbn; lra.
      * rewrite z_at, dist_self. lra.
    + intros j o' d' pt' n' Ej R. destruct j as [|[|j]]; [| |destruct j; discriminate Ej]; injection Ej as <-;
      destruct (flat_axis _ _ _ _ e_z _ _ _ _ _ _ _ (facing_z _) (or_introl eq_refl) z_ray_is e_z_unit R) as (E & L & _); unfold at_z, e_z, r3dot in E; cbn in E; split; try lra; lia.
  - unfold run_cond. cbn [rs_remaining rs_count rs_ray]. rewrite nofZ_fin, ngt_fin, Rltb_true by lra. reflexivity.
  - cbn [rs_remaining]. f_equal. lra.
  - cbn [rs_ray rs_world]. split.
    + exists (OMirror (mirror_at (-5))). split; [reflexivity|]. apply (flat_axis_yes _ _ _ _ e_z _ _ _ 95 10 (facing_z (-5)) (or_introl eq_refl) Hb Ub); try lra.
      * unfold at_z, e_z, r3dot. cbn. ring.
      * replace ((- e_z)%r3 ∙ e_z) with (-1) by (unfold e_z, r3dot; cbn; ring). rewrite Rabs_left; lra.
      * replace (at_t (at_z 5) (- e_z)%r3 10) with (at_z (-5)) by (unfold at_t, at_z, e_z; apply r3_ext; cbn; ring). rewrite dist_self. lra.
    + intros j o' d' pt' n' Ej R. destruct j as [|[|j]]; [| |destruct j; discriminate Ej]; injection Ej as <-;
      destruct (flat_axis _ _ _ _ e_z _ _ _ _ _ _ _ (facing_z _) (or_introl eq_refl) Hb Ub R) as (E & L & _); unfold at_z, e_z, r3dot in E; cbn in E; split; try lra; lia.
  - do 3 eexists. apply facing_z.
Qed.
