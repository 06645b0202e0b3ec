(** Properties of whole scenes under rotation. *)
From Coq Require Import Reals ZArith Lra Lia String List Bool.
From Verif Require Import PyErr Num Vec Shapes Csg Optics Spec XReal RVec VecProofs CylProofs GratingProofs RayProofs RunGen RunXr Props_Ray Props_Loop Rotate.
Import ListNotations.
Local Open Scope R_scope.

(* C68.  Turning the ray and every optic by the same rotation about the origin turns the whole trajectory and every detector record by that
   rotation and changes nothing else: same exceptions, flags, distances, number of iterations.  [r_ray Q] and [r_optic Q] (Rotate.v) say that
   positions, normals, tangents and directions are turned by Q (a vector with a NaN component stays one with a NaN component) and that numbers and
   strings agree.  Radii, focal lengths, indices and the maximum distance are not infinite; every optic but the ideal thin lens is allowed.
   C68_rotate, C68_rotate_all *)
Theorem C68_rotate (Q : R3 -> R3) fuel (r r' : ray xr) (max_distance : xr) (world world' : list (optic xr)) (max_interactions : option Z) :
  rotation Q -> tame max_distance -> r_ray Q r r' -> Forall2 (r_optic Q) world world' ->
  match run fuel r max_distance world max_interactions, run fuel r' max_distance world' max_interactions with
  | Ok (s, w), Ok (s', w') => r_ray Q s s' /\ Forall2 (r_optic Q) w w'
  | Err e, Err e' => e = e'
  | _, _ => False
  end.
Proof.
  intros HQ Tm Hr Hw. pose proof (r_run_run Q HQ fuel max_distance max_interactions r r' world world' Tm Hr Hw) as H.
  destruct (run fuel r _ _ _) as [[s w]|], (run fuel r' _ _ _) as [[s' w']|]; exact H.
Qed.
Print Assumptions C68_rotate.
Theorem C68_rotate_all (Q : R3 -> R3) fuel (rays rays' : list (ray xr)) (max_distance : xr) (world world' : list (optic xr)) (max_interactions : option Z) :
  rotation Q -> tame max_distance -> Forall2 (r_ray Q) rays rays' -> Forall2 (r_optic Q) world world' ->
  match run_all fuel rays max_distance world max_interactions, run_all fuel rays' max_distance world' max_interactions with
  | Ok (s, w), Ok (s', w') => Forall2 (r_ray Q) s s' /\ Forall2 (r_optic Q) w w'
  | Err e, Err e' => e = e'
  | _, _ => False
  end.
Proof.
  intros HQ Tm Hr Hw. pose proof (r_run_all Q HQ fuel max_distance max_interactions rays rays' world world' Tm Hr Hw) as H.
  destruct (run_all fuel rays _ _ _) as [[s w]|], (run_all fuel rays' _ _ _) as [[s' w']|]; exact H.
Qed.
Print Assumptions C68_rotate_all.

(* When the first run ends without a NaN in its history, the second history is the first one with Q applied to every point. *)
Theorem C68_history (Q : R3 -> R3) fuel (r r' : ray xr) (m : R) (world world' : list (optic xr)) (max_interactions : option Z) s w (pts : list R3) :
  rotation Q -> r_ray Q r r' -> Forall2 (r_optic Q) world world' ->
  run fuel r (Fin m) world max_interactions = Ok (s, w) -> point_history s = map fv pts ->
  exists s' w', run fuel r' (Fin m) world' max_interactions = Ok (s', w') /\ point_history s' = map fv (map Q pts) /\ blocked s' = blocked s.
Proof.
  intros HQ Hr Hw E Hh. pose proof (C68_rotate Q fuel r r' (Fin m) world world' max_interactions HQ I Hr Hw) as H. rewrite E in H.
  destruct (run fuel r' (Fin m) world' max_interactions) as [[s' w']|]; [|contradiction]. destruct H as [(_ & _ & _ & _ & H & Hb & _) _]. exists s', w'. split; [reflexivity|]. split; [|now symmetry].
  rewrite Hh in H. clear - H. revert H. generalize (point_history s'). induction pts as [|p pts IH]; intros l H; inversion H as [|? b ? l' Hp Hl]; subst; [reflexivity|]. cbn. f_equal; [|now apply IH].
  destruct Hp as [(x & Ex & ->)|[[N|[N|N]] _]]; try discriminate N. apply fv_inj in Ex. now subst.
Qed.
Print Assumptions C68_history.

(* The rotations include the ones the code itself builds: the map of rotation_matrix_axis_angle about any non-zero axis by any angle. *)
Theorem C68_rotations (k : R3) (theta : R) : k <> r3zero ->
  exists Q, rotation Q /\ forall x, mv (rotation_matrix_axis_angle (fv k) (Fin theta)) (fv x) = fv (Q x).
Proof.
  intros Hk. pose proof (dirn_unit k Hk) as Hu. pose proof (sin2_cos2 theta) as Hsc. unfold Rsqr in Hsc. exists (rodr (cos theta) (sin theta) (dirn k)). split.
  - constructor.
    + intros a b. revert Hu. generalize (dirn k). intros u _. unfold rodr. clear. generalize (cos theta) (sin theta). intros. r3_ring.
    + intros t a. revert Hu. generalize (dirn k). intros u _. unfold rodr. clear. generalize (cos theta) (sin theta). intros. r3_ring.
    + intros a b. apply rodr_dot; [lra|exact Hu].
    + intros a b. symmetry. apply rodr_cross; [lra|exact Hu].
  - exact (axis_angle_acts k theta Hk).
Qed.
Print Assumptions C68_rotations.

(* Building an optic from turned arguments gives the turned optic, so the turned scenes above are the ones a user would write. *)
Theorem C68_constructors (Q : R3 -> R3) : rotation Q ->
  (forall p d wl o ty, r_ray Q (mk_ray (fv p) (fv d) wl o ty) (mk_ray (fv (Q p)) (fv (Q d)) wl o ty)) /\
  (forall p shp n D w h f t ty dmd, res_rel (r_mirror Q)
     (mk_mirror (fv p) shp (Some (fv n)) (Some (Fin D)) (Some (Fin w)) (Some (Fin h)) (Some (Fin f)) (Some (fv t)) ty (Some (fv dmd)))
     (mk_mirror (fv (Q p)) shp (Some (fv (Q n))) (Some (Fin D)) (Some (Fin w)) (Some (Fin h)) (Some (Fin f)) (Some (fv (Q t))) ty (Some (fv (Q dmd))))) /\
  (forall p n shp D f ty ix, ty <> "ideal"%string -> res_rel (r_lens Q)
     (mk_lens (fv p) (Some (fv n)) shp (Some (Fin D)) (Some (Fin f)) ty (Fin ix)) (mk_lens (fv (Q p)) (Some (fv (Q n))) shp (Some (Fin D)) (Some (Fin f)) ty (Fin ix))) /\
  (forall p n t shp w h G, res_rel (r_grating Q)
     (mk_grating (fv p) (Some (fv n)) (Some (fv t)) shp (Some (Fin w)) (Some (Fin h)) G) (mk_grating (fv (Q p)) (Some (fv (Q n))) (Some (fv (Q t))) shp (Some (Fin w)) (Some (Fin h)) G)) /\
  (forall p n t shp w h, res_rel (r_detector Q)
     (mk_detector (fv p) (Some (fv n)) (Some (fv t)) shp (Some (Fin w)) (Some (Fin h))) (mk_detector (fv (Q p)) (Some (fv (Q n))) (Some (fv (Q t))) shp (Some (Fin w)) (Some (Fin h)))) /\
  (forall p R D, otame R -> otame D -> res_rel (r_sphere Q) (mk_sphere (fv p) R D) (mk_sphere (fv (Q p)) R D)) /\
  (forall p u R, u <> r3zero -> res_rel (r_infcyl Q) (mk_infcyl (fv p) (fv u) (Some (Fin R)) None) (mk_infcyl (fv (Q p)) (fv (Q u)) (Some (Fin R)) None)).
Proof.
  intros HQ. assert (T : forall x, otame (Some (Fin x))) by (intros x y E; injection E as <-; exact I).
  split; [intros; apply r_mk_ray; auto using rv_fv|]. split; [intros; apply r_mk_mirror; auto; apply rv_fv|]. split; [intros; apply r_mk_lens; auto; try apply rv_fv; exact I|].
  split; [intros; apply r_mk_grating; auto; apply rv_fv|]. split; [intros; apply r_mk_detector; auto; apply rv_fv|]. split; [intros; apply r_mk_sphere; auto; apply rv_fv|].
  intros. apply r_mk_infcyl; eauto.
Qed.
Print Assumptions C68_constructors.

(* The ideal thin lens is not rotation-invariant: its test for a ray parallel to the axis compares components one by one.  The same lens and ray,
   turned by the angle of the 3-4-5 triangle about the lens axis, leave the lens in different directions. *)
Definition q345 (a : R3) : R3 := mk3 (3 / 5 * cx a - 4 / 5 * cy a) (4 / 5 * cx a + 3 / 5 * cy a) (cz a).
Lemma q345_rotation : rotation q345.
Proof. constructor; intros; unfold q345; try (destruct a, b); try (destruct a); unfold r3add, r3scale, r3dot, r3cross; cbn; try (apply r3_ext; cbn); field. Qed.
Definition tilted : R3 := mk3 1.2e-8 0 (sqrt (1 - 1.2e-8 * 1.2e-8)).
Lemma tilted_z : 1 - 1e-15 <= cz tilted <= 1.
Proof.
  cbn. split.
  - apply Rsqr_incr_0_var; [|apply sqrt_pos]. rewrite Rsqr_sqrt by lra. unfold Rsqr. lra.
  - rewrite <- sqrt_1 at 2. apply sqrt_le_1; lra.
Qed.
Lemma tilted_unit : is_unit tilted.
Proof. unfold is_unit, r3dot, tilted; cbn [cx cy cz]. rewrite sqrt_sqrt by lra. lra. Qed.
Definition ideal_lens : lens xr := mkLens (fv r3zero) (Some (fv e_z)) "spherical_biconvex" (Some (Fin 1)) "ideal" (Fin 1.5)
  [SCircle (mkCircle (fv r3zero) (Fin 1) (Fin 2) (Some (fv e_z)) (Some (mkPlane (fv r3zero) (fv e_z))))].
Theorem C68_thin_lens_refuted :
  let r := a_ray r3zero tilted 0 500 in let r' := a_ray r3zero (q345 tilted) 0 500 in
  r_ray q345 r r' /\ q345 e_z = e_z /\
  exists s s', lens_do_intersect ideal_lens r (fv r3zero) (Some (fv e_z)) (SfoBool true) = Ok s /\
               lens_do_intersect ideal_lens r' (fv r3zero) (Some (fv e_z)) (SfoBool true) = Ok s' /\
               direction s = fv tilted /\ direction s' = fv e_z /\ ~ rv q345 (direction s) (direction s').
Proof.
  intros r r'. pose proof tilted_z as Z. pose proof tilted_unit as U.
  assert (E0 : q345 r3zero = r3zero) by (unfold q345, r3zero; cbn; f_equal; ring).
  assert (Ez : q345 e_z = e_z) by (unfold q345, e_z; cbn; f_equal; ring).
  assert (R0 : rv q345 (fv r3zero) (fv r3zero)) by (left; exists r3zero; rewrite E0; auto).
  split. { unfold r, r', a_ray. repeat split; cbn [position direction wavelength order point_history blocked ray_type]; auto using rv_fv. }
  split; [exact Ez|].
  assert (TL : thin_lens ideal_lens r3zero e_z 1) by (repeat split).
  assert (N1 : e_z ∙ tilted = cz tilted) by (unfold r3dot, e_z; cbn; ring).
  assert (N2 : e_z ∙ q345 tilted = cz tilted) by (unfold r3dot, e_z, q345; cbn; ring).
  assert (F1 : forward e_z tilted = e_z) by (unfold forward; rewrite N1; destruct (Rltb_spec (cz tilted) 0); [lra|reflexivity]).
  assert (F2 : forward e_z (q345 tilted) = e_z) by (unfold forward; rewrite N2; destruct (Rltb_spec (cz tilted) 0); [lra|reflexivity]).
  exists r, (set_direction r' (fv e_z)). unfold lens_do_intersect. change (le_type ideal_lens =? "ideal")%string with true. cbn iota.
  destruct (thin_fv r ideal_lens r3zero e_z 1 tilted r3zero TL e_z_unit eq_refl ltac:(lra)) as (_ & _ & H1).
  destruct (thin_fv r' ideal_lens r3zero e_z 1 (q345 tilted) r3zero TL e_z_unit eq_refl ltac:(lra)) as (_ & H2 & _).
  rewrite F1, N1 in H1. rewrite F2, N2 in H2.
  assert (P1 : (2 * 1 / cz tilted * tilted - 2 * (r3zero - r3zero))%r3 = ((2 / cz tilted) * tilted)%r3).
  { clear. generalize tilted. intros t. destruct t. unfold r3zero. r3_unf. cbn. apply r3_ext; cbn; unfold Rdiv; ring. }
  assert (P2 : (r3zero + 1 * e_z - r3zero)%r3 = e_z) by (unfold e_z, r3zero; r3_unf; cbn; apply r3_ext; cbn; ring).
  cbv zeta in H1. rewrite P1 in H1.
  assert (S0 : 2 / cz tilted > 0) by (apply Rdiv_lt_0_compat; lra).
  assert (Ec : set_direction r (fv tilted) = r) by reflexivity.
  split. { rewrite H1; [|rewrite Rabs_right; lra| |apply scale_nonzero; [lra|apply unit_nonzero, U]].
    - rewrite dirn_pos_scale, dirn_of_unit by (auto using unit_nonzero). now rewrite Ec.
    - intros (K & _). unfold near1, tilted, e_z in K; cbn [cx] in K. rewrite Rminus_0_r, Rabs_R0, Rabs_right in K by lra. lra. }
  split. { rewrite (H2 ltac:(rewrite Rabs_right; lra)) with (p := r3zero); [now rewrite P2, dirn_of_unit by apply e_z_unit| |reflexivity|rewrite P2; apply unit_nonzero, e_z_unit].
    unfold near3, near1, q345; cbn [cx cy cz e_z]. rewrite !Rabs_R0, !Rminus_0_r. unfold tilted at 1 2 3 4; cbn [cx cy]. change (sqrt (1 - 1.2e-8 * 1.2e-8)) with (cz tilted).
    split; [rewrite Rabs_right; lra|]. split; [rewrite Rabs_right; lra|]. rewrite Rabs_R1. rewrite Rabs_left1; lra. }
  split; [reflexivity|]. split; [reflexivity|]. intros [(x & Ex & Ey)|[[K|[K|K]] _]]; try discriminate K.
  change (direction r) with (fv tilted) in Ex. apply fv_inj in Ex. subst x. change (direction (set_direction r' (fv e_z))) with (fv e_z) in Ey. apply fv_inj in Ey.
  apply (f_equal cx) in Ey. unfold q345, tilted, e_z in Ey; cbn [cx cy] in Ey. lra.
Qed.
Print Assumptions C68_thin_lens_refuted.

(* A scene meeting the hypotheses of C68_rotate and C68_history with a run that does something: the ray along z bouncing off the mirror at z = 5, turned
   by the quarter turn about the x axis that takes z to -y. *)
Definition qx (a : R3) : R3 := mk3 (cx a) (- cz a) (cy a).
Lemma qx_rotation : rotation qx.
Proof. constructor; intros; unfold qx; try (destruct a, b); try (destruct a); unfold r3add, r3scale, r3dot, r3cross; cbn; try (apply r3_ext; cbn); ring. Qed.
Example C68_hyp : rotation qx /\
  exists m', mk_mirror (fv (mk3 0 (-5) 0)) "circular_flat" (Some (fv (mk3 0 (-1) 0))) (Some (Fin 2)) None None None None "normal" (Some (fv (mk3 0 (-1) 0))) = Ok m' /\
    r_optic qx (OMirror (mirror_at 5)) (OMirror m') /\ r_ray qx z_ray (a_ray (mk3 0 0 0) (mk3 0 (-1) 0) 0 500) /\
    steps (Fin 100) None 1 (run_init z_ray (Fin 100) [OMirror (mirror_at 5)])
      (mkRun bounced [OMirror (mirror_at 5)] 1 (Fin (100 - 5)) (Some (mkSel 0 (fv (at_z 5)) (Some (fv e_z)))) (Some SfoNone)).
Proof.
  split; [apply qx_rotation|].
  assert (Ez : qx e_z = mk3 0 (-1) 0) by (unfold qx, e_z; cbn; f_equal; ring).
  assert (E5 : qx (at_z 5) = mk3 0 (-5) 0) by (unfold qx, at_z; cbn; f_equal; ring).
  assert (E0 : qx (at_z 0) = mk3 0 0 0) by (unfold qx, at_z; cbn; f_equal; ring).
  pose proof (r_mk_mirror qx qx_rotation (fv (at_z 5)) (fv (qx (at_z 5))) "circular_flat" (Some (fv e_z)) (Some (fv (qx e_z))) (Some (Fin 2)) None None None None None "normal" (Some (fv e_z)) (Some (fv (qx e_z)))) as H.
  rewrite mirror_at_built, Ez, E5 in H.
  assert (T : otame (Some (Fin 2))) by (intros y E; injection E as <-; exact I). assert (Tn : otame None) by (intros y E; discriminate).
  assert (Rz : rov qx (Some (fv e_z)) (Some (fv (mk3 0 (-1) 0)))) by (rewrite <- Ez; apply rv_fv).
  specialize (H ltac:(rewrite <- E5; apply rv_fv) Rz I Rz T Tn Tn Tn). destruct (mk_mirror _ _ _ _ _ _ _ _ _ _) as [m'|]; [|contradiction]. exists m'. split; [reflexivity|]. split; [exact H|]. split.
  - unfold z_ray, a_ray. repeat split; cbn [position direction wavelength order point_history blocked ray_type]; try (rewrite <- E0; apply rv_fv); try (rewrite <- Ez; apply rv_fv).
    constructor; [rewrite <- E0; apply rv_fv|constructor].
  - apply C33_hyp.
Qed.
