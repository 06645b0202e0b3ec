(** InfiniteCylinder at [xr] (Shapes/shapes.py:109-274). *)
From Coq Require Import Reals ZArith Lra Lia Psatz Bool List String.
From Verif Require Import PyErr Num Vec Shapes Spec XReal RVec VecProofs FlatProofs SphereProofs.
Local Open Scope R_scope.

Definition cyl (c u : R3) (rad : R) (D : xr) (pl : plane xr) : infcyl xr := mkInfCyl (fv c) (Fin rad) D (fv u) pl.
Definition e3 : R3 := mk3 0 0 1.
Lemma e3_unit : is_unit e3. Proof. unfold is_unit, e3, r3dot; cbn; ring. Qed.

Lemma mv4_rot M f x w : acts M f ->
  mv4 (M4 (V4 (vx (row0 M)) (vy (row0 M)) (vz (row0 M)) (nofZ 0))
          (V4 (vx (row1 M)) (vy (row1 M)) (vz (row1 M)) (nofZ 0))
          (V4 (vx (row2 M)) (vy (row2 M)) (vz (row2 M)) (nofZ 0))
          (V4 (nofZ 0) (nofZ 0) (nofZ 0) (nofZ 1))) (V4 (Fin (cx x)) (Fin (cy x)) (Fin (cz x)) (Fin w))
  = V4 (Fin (cx (f x))) (Fin (cy (f x))) (Fin (cz (f x))) (Fin w).
Proof.
  intros H. specialize (H x).
  assert (H0 : dot (row0 M) (fv x) = Fin (cx (f x))) by (now apply (f_equal vx) in H).
  assert (H1 : dot (row1 M) (fv x) = Fin (cy (f x))) by (now apply (f_equal vy) in H).
  assert (H2 : dot (row2 M) (fv x) = Fin (cz (f x))) by (now apply (f_equal vz) in H).
  unfold mv4, dot4; cbn [v4x v4y v4z v4w r4_0 r4_1 r4_2 r4_3].
  unfold dot in H0, H1, H2; cbn [vx vy vz fv] in H0, H1, H2. rewrite H0, H1, H2.
  rewrite !nofZ_fin, !nmul_fin, !nadd_fin. f_equal; f_equal; ring.
Qed.
Lemma mv4_trans c x :
  mv4 (translation_matrix4 (vopp (fv c))) (V4 (vx (fv x)) (vy (fv x)) (vz (fv x)) (nofZ 1))
  = V4 (Fin (cx (x - c)%r3)) (Fin (cy (x - c)%r3)) (Fin (cz (x - c)%r3)) (Fin 1).
Proof.
  unfold mv4, translation_matrix4, dot4; cbn [v4x v4y v4z v4w r4_0 r4_1 r4_2 r4_3 vopp fv vx vy vz].
  rewrite !nofZ_fin, !nopp_fin, !nmul_fin, !nadd_fin. f_equal; f_equal; unfold r3sub; cbn; ring.
Qed.
Lemma mv4_scale s x :
  mv4 (scaling_matrix4 (V (Fin s) (Fin s) (Fin s))) (V4 (Fin (cx x)) (Fin (cy x)) (Fin (cz x)) (Fin 1))
  = V4 (Fin (s * cx x)) (Fin (s * cy x)) (Fin (s * cz x)) (Fin 1).
Proof.
  unfold mv4, scaling_matrix4, dot4; cbn [v4x v4y v4z v4w r4_0 r4_1 r4_2 r4_3 vx vy vz].
  rewrite !nofZ_fin, !nmul_fin, !nadd_fin. f_equal; f_equal; ring.
Qed.

Lemma cyl_object c u rad D pl : is_unit u -> exists f,
  f u = e3 /\ (forall x y, f x ∙ f y = x ∙ y) /\
  (forall s x, infcyl_point_objectSpace (cyl c u rad D pl) (Fin s) (fv x)
     = V4 (Fin (s * cx (f (x - c)%r3))) (Fin (s * cy (f (x - c)%r3))) (Fin (s * cz (f (x - c)%r3))) (Fin 1)) /\
  (forall x, infcyl_dir_objectSpace (cyl c u rad D pl) (fv x)
     = V4 (Fin (cx (f x))) (Fin (cy (f x))) (Fin (cz (f x))) (Fin 0)).
Proof.
  intros Hu. destruct (rotation_matrix2_unit u e3 Hu e3_unit) as (f & HA & Hm & Hiso & _).
  exists f. split; [exact Hm|]. split; [exact Hiso|].
  assert (RM : infcyl_rotation (cyl c u rad D pl) = rotation_matrix4 (fv u) (fv e3)) by reflexivity.
  split.
  - intros s x. unfold infcyl_point_objectSpace. rewrite RM. cbn [cyl ic_center]. rewrite mv4_trans.
    unfold rotation_matrix4. rewrite (mv4_rot _ f (x - c)%r3 1 HA). apply mv4_scale.
  - intros x. unfold infcyl_dir_objectSpace. rewrite RM. unfold rotation_matrix4.
    rewrite vx_fv, vy_fv, vz_fv, (nofZ_fin 0). apply (mv4_rot _ f x 0 HA).
Qed.

Lemma perp_dot u x y : is_unit u -> perp u x ∙ perp u y = x ∙ y - (x ∙ u) * (y ∙ u).
Proof.
  unfold is_unit, perp; intros H. autorewrite with dotr. rewrite H, (dot_comm u y). ring.
Qed.
Lemma iso_xy f u x y : is_unit u -> f u = e3 -> (forall x y, f x ∙ f y = x ∙ y) ->
  cx (f x) * cx (f y) + cy (f x) * cy (f y) = perp u x ∙ perp u y.
Proof.
  intros Hu Hm Hiso. rewrite perp_dot by exact Hu. rewrite <- (Hiso x y), <- (Hiso x u), <- (Hiso y u), Hm.
  unfold e3, r3dot; cbn. ring.
Qed.

(* quadratic in the parameter t *)
Definition cA u d := perp u d ∙ perp u d.
Definition cB c u p d := perp u (p - c)%r3 ∙ perp u d.
Definition cC c u p := perp u (p - c)%r3 ∙ perp u (p - c)%r3.
Lemma axis_dist_param c u p d t :
  axis_dist c u (at_t p d t) * axis_dist c u (at_t p d t) = t * t * cA u d + 2 * t * cB c u p d + cC c u p.
Proof.
  unfold axis_dist. rewrite len_sq. unfold cA, cB, cC.
  assert (E : perp u (at_t p d t - c) = (perp u (p - c) + t * perp u d)%r3) by r3_ring.
  rewrite E. autorewrite with dotr. rewrite (dot_comm (perp u d) (perp u (p - c))). ring.
Qed.
Lemma axis_dist_nonneg c u x : 0 <= axis_dist c u x. Proof. apply len_nonneg. Qed.

(** the line runs along the cylinder axis / touches the cylinder from outside *)
Definition parallel (u d : R3) : Prop := perp u d = r3zero.
Definition cdisc c u rad p d := cB c u p d * cB c u p d - cA u d * (cC c u p - rad * rad).
(** touching: exactly one point of a non-parallel line is on the cylinder *)
Definition ctangent c u rad p d : Prop :=
  ~ parallel u d /\ exists t, on_cylinder c u rad (at_t p d t) /\ forall t', t' <> t -> rad < axis_dist c u (at_t p d t').

Lemma on_cyl_param c u rad p d t : 0 < rad ->
  (on_cylinder c u rad (at_t p d t) <-> t * t * cA u d + 2 * t * cB c u p d + cC c u p = rad * rad).
Proof.
  intros HR. rewrite <- axis_dist_param. unfold on_cylinder. pose proof (axis_dist_nonneg c u (at_t p d t)).
  split; intros E; [rewrite E; reflexivity|nra].
Qed.
Lemma in_cyl_param c u rad p d t : 0 < rad ->
  (in_cylinder c u rad (at_t p d t) <-> t * t * cA u d + 2 * t * cB c u p d + cC c u p < rad * rad).
Proof.
  intros HR. rewrite <- axis_dist_param. unfold in_cylinder. pose proof (axis_dist_nonneg c u (at_t p d t)).
  split; intros E; nra.
Qed.

Lemma infcyl_normal_on c u rad D pl x : 0 < rad -> is_unit u -> on_cylinder c u rad x ->
  infcyl_normal (cyl c u rad D pl) (fv x) = fv (/ rad * perp u (c - x))%r3 /\ is_unit (/ rad * perp u (c - x))%r3.
Proof.
  intros HR Hu On. unfold infcyl_normal, cyl; cbn [ic_center ic_direction]. rewrite vsub_fv, project_fv by (apply unit_nonzero; exact Hu).
  rewrite dirn_of_unit by exact Hu.
  assert (L : len (perp u (c - x)) = rad).
  { unfold on_cylinder, axis_dist in On. rewrite <- On, <- len_opp. f_equal. r3_ring. }
  assert (NZ : perp u (c - x) <> r3zero) by (intros E; rewrite E, len_zero_r3 in L; lra).
  rewrite unit_vector_fv by exact NZ. unfold dirn. rewrite L. split; [reflexivity|].
  rewrite <- L. apply (dirn_unit _ NZ).
Qed.

Inductive cyl_result (c u : R3) (rad : R) (D : xr) (pl : plane xr) (p d : R3) (h : hit6 xr) : Prop :=
| CR_cross (t0 t1 : R) (CR_lt : t0 < t1)
    (CR_on : forall t, on_cylinder c u rad (at_t p d t) <-> t = t0 \/ t = t1)
    (CR_in : forall t, in_cylinder c u rad (at_t p d t) <-> t0 < t < t1)
    (CR_np : ~ parallel u d) (CR_nt : ~ ctangent c u rad p d)
    (CR_res : h =
      let pt0 := fv (at_t p d t0) in let pt1 := fv (at_t p d t1) in
      let n0 := infcyl_normal (cyl c u rad D pl) pt0 in let n1 := infcyl_normal (cyl c u rad D pl) pt1 in
      if Rltb 1e-12 t0 then H6 true (Some pt0) (Some pt1) (Some n0) (Some n1) 2
      else if Rltb 1e-12 t1 then H6 true (Some pt1) None (Some n1) None 1
      else H6 false None None None None 0)
| CR_touch (t0 : R)
    (CT_on : forall t, on_cylinder c u rad (at_t p d t) <-> t = t0)
    (CT_in : forall t, ~ in_cylinder c u rad (at_t p d t))
    (CT_np : ~ parallel u d) (CT_t : ctangent c u rad p d)
    (CT_res : h = H6 true (Some (fv (at_t p d t0))) None
                 (Some (infcyl_normal (cyl c u rad D pl) (fv (at_t p d t0)))) None 2)
| CR_par
    (CP_p : parallel u d)
    (CP_res : h = H6 true (Some (V XNaN XNaN XNaN)) None (Some (V XNaN XNaN XNaN)) None 2)
| CR_miss
    (CM_on : forall t, ~ on_cylinder c u rad (at_t p d t))
    (CM_in : forall t, ~ in_cylinder c u rad (at_t p d t))
    (CM_np : ~ parallel u d) (CM_nt : ~ ctangent c u rad p d)
    (CM_res : h = H6 false None None None None 0).

Lemma nan_vec p d : vadd (fv p) (vscale (XNaN : xr) (fv d)) = V XNaN XNaN XNaN.
Proof. reflexivity. Qed.

Lemma quad_factor A B C' t : 0 < A -> 0 <= B * B - A * C' ->
  let s := sqrt (B * B - A * C') in
  t * t * A + 2 * t * B + C' = A * (t - (- B - s) / A) * (t - (- B + s) / A).
Proof.
  intros HA HD s. assert (Es : s * s = B * B - A * C') by (apply sqrt_sqrt; exact HD).
  transitivity (t * t * A + 2 * t * B + (B * B - s * s) / A).
  - rewrite Es. field. lra.
  - field. lra.
Qed.

Lemma infcyl_cases c u rad D pl p d r : 0 < rad -> is_unit u -> is_unit d -> ray_is r p d ->
  exists h, infcyl_test_intersect (cyl c u rad D pl) r = Ok h /\ cyl_result c u rad D pl p d h.
Proof.
  intros HR Hu Hd [Hp Hdir]. unfold infcyl_test_intersect. cbn [cyl ic_R].
  fold (cyl c u rad D pl). rewrite (nofZ_fin 0), neqb_fin.
  destruct (Reqb_spec rad 0) as [Z|_]; [lra|]. rewrite (nofZ_fin 1), ndiv_fin by lra.
  destruct (cyl_object c u rad D pl Hu) as (f & Hm & Hiso & HP & HD).
  rewrite Hp, Hdir, HP, HD. cbn [v4x v4y]. clear HP HD.
  set (q := (p - c)%r3). set (s := 1 / rad).
  rewrite !nofZ_fin. repeat rewrite ?nmul_fin, ?nadd_fin, ?nsub_fin, ?nopp_fin.
  rewrite !ngt_fin, neqb_fin, nle_fin.
  pose proof (iso_xy f u d d Hu Hm Hiso) as EA. pose proof (iso_xy f u q d Hu Hm Hiso) as EB.
  pose proof (iso_xy f u q q Hu Hm Hiso) as EC. fold (cA u d) in EA. fold (cC c u p) in EC.
  change (perp u q ∙ perp u d) with (cB c u p d) in EB. change (perp u q ∙ perp u q) with (cC c u p) in EC.
  assert (XA : cx (f d) * cx (f d) + cy (f d) * cy (f d) = cA u d) by exact EA.
  assert (XB : 2 * (s * cx (f q)) * cx (f d) + 2 * (s * cy (f q)) * cy (f d) = 2 * s * cB c u p d) by (rewrite <- EB; ring).
  assert (XC : s * cx (f q) * (s * cx (f q)) + s * cy (f q) * (s * cy (f q)) - 1 = s * s * cC c u p - 1) by (rewrite <- EC; ring).
  rewrite XA, XB, XC. clear EA EB EC XA XB XC.
  set (A := cA u d). set (B := cB c u p d). set (C := cC c u p).
  assert (Hs : 0 < s) by (unfold s; apply Rdiv_lt_0_compat; lra).
  assert (Hsr : s * rad = 1) by (unfold s; field; lra).
  set (dd := B * B - A * (C - rad * rad)).
  assert (ED : 2 * s * B * (2 * s * B) - 4 * A * (s * s * C - 1) = (2 * s) * (2 * s) * dd).
  { unfold dd. transitivity (4 * (s * s) * (B * B) - 4 * A * (s * s * C - (s * rad) * (s * rad))).
    - rewrite Hsr. ring.
    - ring. }
  rewrite ED. clear ED.
  assert (HA : 0 <= A) by apply dot_self_nonneg.
  assert (QF : 0 < A -> 0 <= dd -> forall t, t * t * A + 2 * t * B + C - rad * rad
     = A * (t - (- B - sqrt dd) / A) * (t - (- B + sqrt dd) / A)).
  { intros PA PD t. unfold dd. rewrite <- quad_factor by assumption. ring. }
  assert (NP : 0 < A -> ~ parallel u d).
  { intros PA E. unfold parallel in E. unfold A, cA in PA. rewrite E, dot_zero_l in PA. lra. }
  assert (OnP : forall t, on_cylinder c u rad (at_t p d t) <-> t * t * A + 2 * t * B + C - rad * rad = 0).
  { intros t. rewrite on_cyl_param by exact HR. fold A B C. split; lra. }
  assert (InP : forall t, in_cylinder c u rad (at_t p d t) <-> t * t * A + 2 * t * B + C - rad * rad < 0).
  { intros t. rewrite in_cyl_param by exact HR. fold A B C. split; lra. }
  assert (OutP : forall t, rad < axis_dist c u (at_t p d t) <-> 0 < t * t * A + 2 * t * B + C - rad * rad).
  { intros t. pose proof (axis_dist_param c u p d t) as E. fold A B C in E. rewrite <- E.
    pose proof (axis_dist_nonneg c u (at_t p d t)). split; nra. }
  destruct (Rltb_spec 0 (2 * s * (2 * s) * dd)) as [P|P].
  - assert (PD : 0 < dd) by nra. assert (PA : 0 < A).
    { destruct HA as [|E]; [assumption|]. exfalso. unfold dd in PD. rewrite <- E in PD.
      assert (PW : perp u d = r3zero) by (apply dot_self_zero; symmetry; exact E).
      unfold B, cB in PD. rewrite PW, dot_zero_r in PD. lra. }
    rewrite nsqrt_fin by lra.
    assert (ES : sqrt (2 * s * (2 * s) * dd) = 2 * s * sqrt dd).
    { rewrite sqrt_mult by nra. rewrite sqrt_square by lra. reflexivity. }
    rewrite ES. set (w := sqrt dd) in *. assert (Pw : 0 < w) by (apply sqrt_lt_R0; exact PD).
    assert (Ew : w * w = dd) by (apply sqrt_sqrt; lra).
    repeat rewrite ?nmul_fin, ?nadd_fin, ?nsub_fin, ?nopp_fin.
    assert (ET : (if Rleb 0 (2 * s * B)
       then (Fin (- (2 * s * B) - 2 * s * w) / Fin (2 * A), Fin (2 * (s * s * C - 1)) / Fin (- (2 * s * B) - 2 * s * w))
       else (Fin (2 * (s * s * C - 1)) / Fin (- (2 * s * B) + 2 * s * w), Fin (- (2 * s * B) + 2 * s * w) / Fin (2 * A)))%num
      = (Fin (s * ((- B - w) / A)), Fin (s * ((- B + w) / A)))).
    { assert (EQ : 2 * (s * s * C - 1) = 2 * (s * s) * ((- B - w) * (- B + w) / A)).
      { transitivity (2 * (s * s) * ((B * B - w * w) / A)).
        - rewrite Ew. unfold dd. transitivity (2 * (s * s * C - (s * rad) * (s * rad))).
          + rewrite Hsr. ring.
          + field. lra.
        - field. lra. }
      rewrite EQ. destruct (Rleb_spec 0 (2 * s * B)) as [b|b].
      - assert (0 <= B) by nra. rewrite !ndiv_fin by nra. f_equal; f_equal; field; repeat split; nra.
      - assert (B < 0) by nra. rewrite !ndiv_fin by nra. f_equal; f_equal; field; repeat split; nra. }
    rewrite ET. clear ET. cbn [fst snd]. rewrite !ndiv_fin by lra.
    assert (Et0 : s * ((- B - w) / A) / s = (- B - w) / A) by (field; lra).
    assert (Et1 : s * ((- B + w) / A) / s = (- B + w) / A) by (field; lra).
    rewrite Et0, Et1. clear Et0 Et1. rewrite !vscale_fv, !vadd_fv, clip_fin, !ngt_fin, nlt_fin.
    set (t0 := (- B - w) / A) in *. set (t1 := (- B + w) / A) in *.
    assert (L : t0 < t1).
    { unfold t0, t1, Rdiv. apply Rmult_lt_compat_r; [apply Rinv_0_lt_compat; exact PA|lra]. }
    fold (at_t p d t0) (at_t p d t1).
    eexists. split; [reflexivity|]. apply CR_cross with (t0 := t0) (t1 := t1).
    + exact L.
    + intros t. rewrite OnP, QF by lra. split.
      * intros E. apply Rmult_integral in E. destruct E as [E|E]; [apply Rmult_integral in E; destruct E; [lra|]|]; [left|right]; lra.
      * intros [->| ->]; ring.
    + intros t. rewrite InP, QF by lra. rewrite Rmult_assoc. split; intros E.
      * assert ((t - t0) * (t - t1) < 0) by nra. split; nra.
      * assert ((t - t0) * (t - t1) < 0) by nra. nra.
    + apply NP, PA.
    + intros (_ & t & On & Out). 
      assert (X : t = t0 \/ t = t1).
      { apply OnP in On. rewrite QF in On by lra. apply Rmult_integral in On.
        destruct On as [E|E]; [apply Rmult_integral in E; destruct E; [lra|]|]; [left|right]; lra. }
      assert (M : t0 < (t0 + t1) / 2 < t1) by lra.
      specialize (Out ((t0 + t1) / 2)). assert (O : rad < axis_dist c u (at_t p d ((t0 + t1) / 2))) by (apply Out; lra).
      apply OutP in O. rewrite QF, Rmult_assoc in O by lra.
      assert (((t0 + t1) / 2 - t0) * ((t0 + t1) / 2 - t1) < 0) by nra. nra.
    + cbv zeta. rewrite (Rltb_true_intro t0 t1 L).
      destruct (Rltb_spec 1e-12 t0) as [a|a]; cbn [andb].
      * rewrite (Rltb_true_intro 1e-12 t1) by lra. reflexivity.
      * destruct (Rltb_spec 1e-12 t1); reflexivity.
  - destruct (Reqb_spec (2 * s * (2 * s) * dd) 0) as [Z|Z].
    + assert (PD : dd = 0). { apply Rmult_integral in Z. destruct Z; nra. }
      destruct HA as [PA|E].
      * rewrite ndiv_fin by lra. rewrite ndiv_fin by lra.
        assert (Et : - (2 * s * B) / (2 * A) / s = - B / A) by (field; lra). rewrite Et. clear Et.
        rewrite vscale_fv, vadd_fv. fold (at_t p d (- B / A)).
        assert (ON : forall t, on_cylinder c u rad (at_t p d t) <-> t = - B / A).
        { intros t. rewrite OnP, QF by lra. rewrite PD, sqrt_0. replace (- B - 0) with (- B) by ring.
          replace (- B + 0) with (- B) by ring. split.
          - intros E. apply Rmult_integral in E. destruct E as [E|E]; [apply Rmult_integral in E; destruct E; lra|lra].
          - intros ->. ring. }
        eexists. split; [reflexivity|]. apply CR_touch with (t0 := - B / A); auto.
        -- intros t. rewrite InP, QF by lra. rewrite PD, sqrt_0. replace (- B - 0) with (- B) by ring.
           replace (- B + 0) with (- B) by ring. intros X.
           pose proof (Rle_0_sqr (t - - B / A)) as Q. unfold Rsqr in Q. nra.
        -- split; [apply NP, PA|]. exists (- B / A). split; [apply ON; reflexivity|].
           intros t' NE. apply OutP. rewrite QF by lra. rewrite PD, sqrt_0. replace (- B - 0) with (- B) by ring.
           replace (- B + 0) with (- B) by ring. assert (Y : t' - - B / A <> 0) by lra.
           pose proof (Rsqr_pos_lt _ Y) as Q. unfold Rsqr in Q. nra.
      * assert (PW : perp u d = r3zero) by (apply dot_self_zero; symmetry; exact E).
        assert (B0 : B = 0) by (unfold B, cB; rewrite PW; apply dot_zero_r).
        rewrite B0, <- E. replace (- (2 * s * 0)) with 0 by ring. replace (2 * 0) with 0 by ring.
        rewrite ndiv_0_0. eexists. split; [reflexivity|]. apply CR_par; [exact PW|]. reflexivity.
    + assert (PD : dd < 0).
      { assert (dd <> 0) by (intros E; apply Z; rewrite E; ring). assert (dd <= 0) by nra. lra. }
      assert (PA : 0 < A).
      { destruct HA as [|E]; [assumption|]. exfalso. unfold dd in PD. rewrite <- E in PD. nra. }
      assert (QQ : forall t, 0 < t * t * A + 2 * t * B + C - rad * rad).
      { intros t. assert (X : A * (t * t * A + 2 * t * B + C - rad * rad) = (A * t + B) * (A * t + B) - dd) by (unfold dd; ring).
        assert (0 < A * (t * t * A + 2 * t * B + C - rad * rad)) by (rewrite X; pose proof (Rle_0_sqr (A * t + B)) as Q; unfold Rsqr in Q; lra).
        apply (Rmult_lt_reg_l A); [exact PA|]. rewrite Rmult_0_r. assumption. }
      eexists. split; [reflexivity|]. apply CR_miss; auto.
      * intros t. rewrite OnP. specialize (QQ t). lra.
      * intros t. rewrite InP. specialize (QQ t). lra.
      * intros (_ & t & On & _). apply OnP in On. specialize (QQ t). lra.
Qed.

Lemma infcyl_sound c u rad D pl p d r h x n : 0 < rad -> is_unit u -> is_unit d -> ray_is r p d ->
  ~ parallel u d -> ~ ctangent c u rad p d ->
  infcyl_test_intersect (cyl c u rad D pl) r = Ok h -> reported h x n ->
  exists t, 1e-12 < t /\ x = fv (at_t p d t) /\ on_cylinder c u rad (at_t p d t) /\
    n = fv (/ rad * perp u (c - at_t p d t))%r3 /\ is_unit (/ rad * perp u (c - at_t p d t))%r3 /\
    orth (/ rad * perp u (c - at_t p d t))%r3 u.
Proof.
  intros HR Hu Hd Hr NP NT E [F Rep].
  assert (Aux : forall t, 1e-12 < t -> on_cylinder c u rad (at_t p d t) ->
    x = fv (at_t p d t) -> n = infcyl_normal (cyl c u rad D pl) (fv (at_t p d t)) ->
    exists t, 1e-12 < t /\ x = fv (at_t p d t) /\ on_cylinder c u rad (at_t p d t) /\
    n = fv (/ rad * perp u (c - at_t p d t))%r3 /\ is_unit (/ rad * perp u (c - at_t p d t))%r3 /\
    orth (/ rad * perp u (c - at_t p d t))%r3 u).
  { intros t Ht On Ex En. exists t. destruct (infcyl_normal_on c u rad D pl _ HR Hu On) as [E1 U].
    rewrite E1 in En. repeat split; auto. unfold orth. rewrite dot_scale_l, perp_orth by exact Hu. ring. }
  destruct (infcyl_cases c u rad D pl p d r HR Hu Hd Hr) as (h' & E' & RC). rewrite E in E'; injection E' as <-.
  destruct RC; try contradiction.
  - assert (O0 : on_cylinder c u rad (at_t p d t0)) by (apply CR_on; auto).
    assert (O1 : on_cylinder c u rad (at_t p d t1)) by (apply CR_on; auto).
    rewrite CR_res in *. cbv zeta in *. destruct (Rltb_spec 1e-12 t0) as [A|A].
    + cbn in Rep. destruct Rep as [[E1 E2]|[E1 E2]]; injection E1 as <-; injection E2 as <-.
      * apply (Aux t0); auto.
      * apply (Aux t1); auto. lra.
    + destruct (Rltb_spec 1e-12 t1) as [B|B]; cbn in Rep, F; [|discriminate].
      destruct Rep as [[E1 E2]|[E1 E2]]; [|discriminate]. injection E1 as <-; injection E2 as <-. apply (Aux t1); auto.
  - rewrite CM_res in F. discriminate.
Qed.

Lemma infcyl_complete c u rad D pl p d r : 0 < rad -> is_unit u -> is_unit d -> ray_is r p d ->
  ~ parallel u d ->
  exists h, infcyl_test_intersect (cyl c u rad D pl) r = Ok h /\
  (forall t, 1e-12 < t -> on_cylinder c u rad (at_t p d t) ->
     reported h (fv (at_t p d t)) (fv (/ rad * perp u (c - at_t p d t))%r3) /\
     (* nearest first *)
     (exists t1, h6_p1 h = Some (fv (at_t p d t1)) /\ 1e-12 < t1 <= t)) /\
  (~ ctangent c u rad p d -> (forall t, 1e-12 < t -> ~ on_cylinder c u rad (at_t p d t)) ->
     h = H6 false None None None None 0).
Proof.
  intros HR Hu Hd Hr NP.
  destruct (infcyl_cases c u rad D pl p d r HR Hu Hd Hr) as (h & E & RC). exists h. split; [exact E|]. clear E.
  destruct RC; try contradiction.
  - split.
    + intros t Ht On. destruct (infcyl_normal_on c u rad D pl _ HR Hu On) as [E _]. rewrite <- E.
      apply CR_on in On. rewrite CR_res; cbv zeta. unfold reported.
      destruct (Rltb_spec 1e-12 t0) as [A|A]; [|destruct (Rltb_spec 1e-12 t1) as [B|B]]; destruct On as [->| ->];
        try lra; cbn; (split; [auto|eexists; split; [reflexivity|lra]]).
    + intros _ N. rewrite CR_res; cbv zeta.
      destruct (Rltb_spec 1e-12 t0) as [A|A]; [exfalso; apply (N t0 A), CR_on; auto|].
      destruct (Rltb_spec 1e-12 t1) as [B|B]; [exfalso; apply (N t1 B), CR_on; auto|]. reflexivity.
  - split; [|intros NT; contradiction].
    intros t Ht On. destruct (infcyl_normal_on c u rad D pl _ HR Hu On) as [E _]. rewrite <- E.
    apply CT_on in On. subst t. rewrite CT_res. unfold reported. cbn. split; [auto|eexists; split; [reflexivity|lra]].
  - split; [|auto]. intros t _ On. exfalso. eapply CM_on; eassumption.
Qed.

Lemma infcyl_test_point_fv c u rad D pl x : 0 < rad -> is_unit u ->
  exists b, infcyl_test_point (cyl c u rad D pl) (fv x) = Ok b /\ (b = true <-> in_cylinder c u rad x).
Proof.
  intros HR Hu. unfold infcyl_test_point. cbn [cyl ic_R]. fold (cyl c u rad D pl). rewrite (nofZ_fin 0), neqb_fin.
  destruct (Reqb_spec rad 0) as [Z|_]; [lra|]. rewrite (nofZ_fin 1), ndiv_fin by lra.
  destruct (cyl_object c u rad D pl Hu) as (f & Hm & Hiso & HP & _). rewrite HP. cbn [v4x v4y].
  rewrite !nmul_fin, nadd_fin. set (q := (x - c)%r3). set (s := 1 / rad).
  assert (EC : s * cx (f q) * (s * cx (f q)) + s * cy (f q) * (s * cy (f q)) = (s * axis_dist c u x) * (s * axis_dist c u x)).
  { transitivity (s * s * (cx (f q) * cx (f q) + cy (f q) * cy (f q))); [ring|].
    rewrite (iso_xy f u q q Hu Hm Hiso), <- len_sq. unfold axis_dist. fold q. ring. }
  assert (Hs : 0 < s) by (unfold s; apply Rdiv_lt_0_compat; lra).
  assert (Hsr : s * rad = 1) by (unfold s; field; lra).
  pose proof (axis_dist_nonneg c u x) as HN.
  rewrite EC, nsqrt_fin by (apply Rle_0_sqr). rewrite sqrt_square by nra. rewrite nlt_fin.
  eexists; split; [reflexivity|]. unfold in_cylinder.
  destruct (Rltb_spec (s * axis_dist c u x) 1) as [L|L]; split; intros Q; try reflexivity; try discriminate; nra.
Qed.
