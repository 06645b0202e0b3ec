(** Mirror images of rays and scenes, and what every modelled function except the ideal thin lens does with them. *)
From Coq Require Import Reals ZArith Lra Lia String List Bool.
From Verif Require Import PyErr Num Vec Shapes Csg Optics Spec XReal RVec VecProofs CylProofs Rotate.
Import ListNotations.
Local Open Scope R_scope.

(** A reflection of space that keeps the origin: linear, keeps scalar products and reverses orientation. *)
Record mirror_map (Q : R3 -> R3) : Prop := {
  m_add : forall a b, Q (a + b)%r3 = (Q a + Q b)%r3;
  m_scale : forall s a, Q (s * a)%r3 = (s * Q a)%r3;
  m_dot : forall a b, Q a ∙ Q b = a ∙ b;
  m_cross : forall a b, Q (a × b)%r3 = (- (Q a × Q b))%r3 }.

Section Mir.
Variable Q : R3 -> R3.

(* ---- what the mirror image of a scene is: positions and directions are reflected, sizes and strings stay ---- *)
(** [b] is the mirror image of the vector [a]; vectors that contain a NaN count as one. *)
Definition im (a b : vec xr) : Prop := (exists x, a = fv x /\ b = fv (Q x)) \/ (has_nan a /\ has_nan b).
Definition imo := opt_rel im.
Definition im_ray (r s : ray xr) : Prop :=
  im (position r) (position s) /\ im (direction r) (direction s) /\ wavelength r = wavelength s /\ order r = order s /\
  Forall2 im (point_history r) (point_history s) /\ blocked r = blocked s /\ ray_type r = ray_type s.
Definition im_plane (p q : plane xr) : Prop := im (pl_center p) (pl_center q) /\ im (pl_normal p) (pl_normal q).
Definition im_circle (c e : circle xr) : Prop :=
  im (ci_center c) (ci_center e) /\ ci_R c = ci_R e /\ ci_D c = ci_D e /\ imo (ci_normal c) (ci_normal e) /\ opt_rel im_plane (ci_plane c) (ci_plane e).
(** cylinders: finite centre, unit axis, finite radius *)
Definition im_infcyl (c e : infcyl xr) : Prop :=
  exists p u rad D pl pl', is_unit u /\ im_plane pl pl' /\ c = mkInfCyl (fv p) (Fin rad) D (fv u) pl /\ e = mkInfCyl (fv (Q p)) (Fin rad) D (fv (Q u)) pl'.
Definition im_sphere (s e : sphere xr) : Prop := im (sp_center s) (sp_center e) /\ sp_R s = sp_R e /\ tame (sp_R s) /\ sp_D s = sp_D e.
Definition im_cylinder (c e : cylinder xr) : Prop := im (cy_center c) (cy_center e) /\ cy_R c = cy_R e /\ cy_D c = cy_D e /\ cy_h c = cy_h e.
(** the mirror image of a tangent, reversed; for mirrors and detectors either sign is allowed, see below *)
Definition ax (a b : vec xr) : Prop := (exists x, a = fv x /\ b = fv (- Q x)%r3) \/ (has_nan a /\ has_nan b).
Definition im_tangent (a b : vec xr) : Prop := im a b \/ ax a b.
(** the corners of a rectangle of centre [c] and half sides [a], [b] *)
Definition corners (q : rectangle xr) (c a b : R3) : Prop :=
  re_b0 q = fv (c + a - b)%r3 /\ re_b1 q = fv (c + a + b)%r3 /\ re_b2 q = fv (c - a + b)%r3 /\ re_b3 q = fv (c - a - b)%r3.
Definition no_corners (q : rectangle xr) : Prop := has_nan (re_b0 q) /\ has_nan (re_b1 q) /\ has_nan (re_b2 q) /\ has_nan (re_b3 q).
(** the image of a rectangle has the images of its corners, in an order that depends on the sign of the tangent *)
Definition im_rectangle (q e : rectangle xr) : Prop :=
  im (re_center q) (re_center e) /\ im (re_normal q) (re_normal e) /\ im_tangent (re_tangent q) (re_tangent e) /\
  re_h q = re_h e /\ re_w q = re_w e /\
  ((exists c a b, a ∙ b = 0 /\ corners q c a b /\ (corners e (Q c) (Q a) (- Q b)%r3 \/ corners e (Q c) (- Q a)%r3 (Q b))) \/
   (no_corners q /\ no_corners e)) /\
  im_plane (re_plane q) (re_plane e).
Definition im_shape (s e : shape xr) : Prop :=
  match s, e with
  | SPlane a, SPlane b => im_plane a b | SCircle a, SCircle b => im_circle a b | SInfCyl a, SInfCyl b => im_infcyl a b
  | SSphere a, SSphere b => im_sphere a b | SCylinder a, SCylinder b => im_cylinder a b | SRectangle a, SRectangle b => im_rectangle a b
  | _, _ => False
  end.
Definition im_key (k e : key xr) : Prop :=
  match k, e with KStr a, KStr b => a = b | KShape a, KShape b => im_shape a b | _, _ => False end.
Fixpoint im_tree (t e : tree (key xr)) : Prop :=
  match t, e with
  | Nil, Nil => True
  | Node k l r, Node k' l' r' => im_key k k' /\ im_tree l l' /\ im_tree r r'
  | _, _ => False
  end.
Definition im_base (b e : base xr) : Prop := im (ba_position b) (ba_position e) /\ im (ba_normal b) (ba_normal e).
Definition im_compound (c e : compound xr) : Prop :=
  im_tree (co_tree c) (co_tree e) /\ co_surface_behavior c = co_surface_behavior e /\ co_index c = co_index e /\ tame (co_index c).
Definition im_mirror (m e : mirror xr) : Prop :=
  im (mi_position m) (mi_position e) /\ mi_shape m = mi_shape e /\ imo (mi_normal m) (mi_normal e) /\ mi_type m = mi_type e /\
  im (mi_dmd_normal m) (mi_dmd_normal e) /\ Forall2 im_shape (mi_surfaces m) (mi_surfaces e).
(** any lens but the ideal thin lens *)
Definition im_lens (l e : lens xr) : Prop :=
  im (le_position l) (le_position e) /\ imo (le_normal l) (le_normal e) /\ le_shape l = le_shape e /\ le_f l = le_f e /\ le_type l = le_type e /\
  le_index l = le_index e /\ Forall2 im_shape (le_surfaces l) (le_surfaces e) /\
  le_type l <> "ideal"%string /\ tame (le_index l) /\ (forall f, le_f l = Some f -> tame f).
Definition im_grating (g e : grating xr) : Prop :=
  im (gr_position g) (gr_position e) /\ im (gr_normal g) (gr_normal e) /\ ax (gr_tangent g) (gr_tangent e) /\ gr_shape g = gr_shape e /\
  gr_G g = gr_G e /\ Forall2 im_shape (gr_surfaces g) (gr_surfaces e).
Definition im_record (a b : vec xr * xr) : Prop := im (fst a) (fst b) /\ snd a = snd b.
Definition im_detector (d e : detector xr) : Prop :=
  im (de_position d) (de_position e) /\ im (de_normal d) (de_normal e) /\ im_tangent (de_tangent d) (de_tangent e) /\ de_shape d = de_shape e /\
  Forall2 im_shape (de_surfaces d) (de_surfaces e) /\ Forall2 im_record (de_hit_data d) (de_hit_data e).
Definition im_optic (o e : optic xr) : Prop :=
  match o, e with
  | OOptic a, OOptic b => im_base a b | OCompound a, OCompound b => im_compound a b | OMirror a, OMirror b => im_mirror a b
  | OLens a, OLens b => im_lens a b | OGrating a, OGrating b => im_grating a b | ODetector a, ODetector b => im_detector a b
  | OAnnotation a, OAnnotation b => im_base a b | OFilter a, OFilter b => im_base a b | OWindow a, OWindow b => im_base a b
  | OBlock a, OBlock b => im_base a b | _, _ => False
  end.

(* ---- results of the internal functions ---- *)
Definition im_hit3 (h e : hit3 xr) : Prop := h3_flag h = h3_flag e /\ imo (h3_pt h) (h3_pt e) /\ imo (h3_normal h) (h3_normal e).
Definition im_hit6 (h e : hit6 xr) : Prop :=
  h6_flag h = h6_flag e /\ imo (h6_p1 h) (h6_p1 e) /\ imo (h6_p2 h) (h6_p2 e) /\ imo (h6_n1 h) (h6_n1 e) /\ imo (h6_n2 h) (h6_n2 e) /\ h6_count h = h6_count e.
Definition im_ires (i e : ires xr) : Prop :=
  match i, e with INone, INone => True | I3 a, I3 b => im_hit3 a b | I6 a, I6 b => im_hit6 a b | _, _ => False end.
Definition im_hit4 (h e : hit4 xr) : Prop := h4_flag h = h4_flag e /\ imo (h4_pt h) (h4_pt e) /\ imo (h4_normal h) (h4_normal e) /\ h4_sfo h = h4_sfo e.
Definition im_flat (s e : flat_st) : Prop :=
  fs_hit s = fs_hit e /\ fs_min s = fs_min e /\ imo (fs_pt s) (fs_pt e) /\ opt_rel imo (fs_normal s) (fs_normal e).
Definition im_ball (s e : ball_st) : Prop :=
  bs_hit s = bs_hit e /\ bs_min s = bs_min e /\ imo (bs_pt s) (bs_pt e) /\ imo (bs_normal s) (bs_normal e) /\ bs_sfo s = bs_sfo e.
Definition im_sel (s e : sel) : Prop := se_idx s = se_idx e /\ im (se_pt s) (se_pt e) /\ imo (se_normal s) (se_normal e).
Definition im_scan (s e : scan_st) : Prop :=
  sc_hit s = sc_hit e /\ sc_min s = sc_min e /\ opt_rel im_sel (sc_sel s) (sc_sel e) /\ sc_sfo s = sc_sfo e.
Definition im_run (s e : run_st) : Prop :=
  im_ray (rs_ray s) (rs_ray e) /\ Forall2 im_optic (rs_world s) (rs_world e) /\ rs_count s = rs_count e /\ rs_remaining s = rs_remaining e /\
  tame (rs_remaining s) /\ opt_rel im_sel (rs_sel s) (rs_sel e) /\ rs_sfo s = rs_sfo e.

Hint Resolve tame_fin tame_nan tame_nofZ tame_opp tame_add tame_sub tame_mul tame_sqrt tame_asin tame_sin tame_atan2 : im.
Hint Resolve nan_add_l nan_add_r nan_sub_l nan_sub_r nan_opp nan_scale nan_scale_l nan_divs nan_divs_r nan_cross_l nan_cross_r all_nan : im.
Hypothesis HQ : mirror_map Q.
Lemma q_sub a b : Q (a - b)%r3 = (Q a - Q b)%r3.
Proof.
  assert (E : forall x y, (x - y)%r3 = (x + (-1) * y)%r3) by (intros; clear; r3_ring).
  rewrite !E, (m_add Q HQ), (m_scale Q HQ). reflexivity.
Qed.
Lemma q_opp a : Q (- a)%r3 = (- Q a)%r3.
Proof.
  assert (E : forall x, (- x)%r3 = ((-1) * x)%r3) by (intros; clear; r3_ring).
  rewrite !E, (m_scale Q HQ). reflexivity.
Qed.
Lemma q_zero : Q r3zero = r3zero.
Proof.
  assert (E : forall x, (0 * x)%r3 = r3zero) by (intros; clear; r3_ring).
  rewrite <- (E r3zero) at 1. rewrite (m_scale Q HQ). apply E.
Qed.
Lemma q_len a : len (Q a) = len a.
Proof. apply len_eq_of_sq; [apply len_nonneg|]. rewrite (m_dot Q HQ), len_sq. reflexivity. Qed.
Lemma q_dirn a : Q (dirn a) = dirn (Q a).
Proof. unfold dirn. rewrite (m_scale Q HQ), q_len. reflexivity. Qed.
Lemma q_nonzero a : a <> r3zero -> Q a <> r3zero.
Proof. intros H E. apply H. apply len_zero. rewrite <- q_len, E. apply len_zero_r3. Qed.
Lemma q_unit a : is_unit a -> is_unit (Q a).
Proof. unfold is_unit. now rewrite (m_dot Q HQ). Qed.
Lemma q_perp u a : Q (perp u a) = perp (Q u) (Q a).
Proof. unfold perp. rewrite q_sub, (m_scale Q HQ), (m_dot Q HQ). reflexivity. Qed.

Lemma imv_fv x : im (fv x) (fv (Q x)). Proof. left. eauto. Qed.
Lemma imv_nan a b : has_nan a -> has_nan b -> im a b. Proof. right. auto. Qed.
Ltac rvs := repeat match goal with H : im _ _ |- _ => destruct H as [(? & -> & ->)|[? ?]] end.
Lemma imv_add a a' b b' : im a a' -> im b b' -> im (vadd a b) (vadd a' b').
Proof. intros. rvs; [|right; auto with im..]. rewrite !vadd_fv, <- (m_add Q HQ). apply imv_fv. Qed.
Lemma imv_sub a a' b b' : im a a' -> im b b' -> im (vsub a b) (vsub a' b').
Proof. intros. rvs; [|right; auto with im..]. rewrite !vsub_fv, <- q_sub. apply imv_fv. Qed.
Lemma imv_opp a a' : im a a' -> im (vopp a) (vopp a').
Proof. intros. rvs; [|right; auto with im..]. rewrite !vopp_fv, <- q_opp. apply imv_fv. Qed.
Lemma imv_scale s a a' : tame s -> im a a' -> im (vscale s a) (vscale s a').
Proof.
  intros Hs H. destruct (tame_cases s Hs) as [[x ->]| ->]; [|right; auto with im]. rvs; [|right; auto with im..].
  rewrite !vscale_fv, <- (m_scale Q HQ). apply imv_fv.
Qed.
Lemma r3_opp_opp (x : R3) : (- - x)%r3 = x. Proof. clear. r3_ring. Qed.
Lemma ax_fv x : ax (fv x) (fv (- Q x)%r3). Proof. left. eauto. Qed.
Lemma imv_cross_ax a a' b b' : im a a' -> ax b b' -> im (cross a b) (cross a' b').
Proof.
  intros [(x & -> & ->)|[? ?]] [(y & -> & ->)|[? ?]]; [|right; auto with im..]. rewrite !cross_fv.
  replace (Q x × - Q y)%r3 with (Q (x × y)%r3) by (rewrite (m_cross Q HQ); clear; r3_ring). apply imv_fv.
Qed.
Lemma ax_cross a a' b b' : im a a' -> im b b' -> ax (cross a b) (cross a' b').
Proof.
  intros [(x & -> & ->)|[? ?]] [(y & -> & ->)|[? ?]]; [|right; auto with im..]. rewrite !cross_fv.
  replace (Q x × Q y)%r3 with (- Q (x × y)%r3)%r3 by (rewrite (m_cross Q HQ); clear; r3_ring). apply ax_fv.
Qed.
Lemma imv_dot a a' b b' : im a a' -> im b b' -> dot a b = dot a' b'.
Proof.
  intros [(x & -> & ->)|[N N']] [(y & -> & ->)|[M M']]; [rewrite !dot_fv, (m_dot Q HQ); reflexivity|rewrite !nan_dot_r by assumption; reflexivity|..];
  rewrite !nan_dot_l by assumption; reflexivity.
Qed.
Lemma tame_dot a a' b b' : im a a' -> im b b' -> tame (dot a b).
Proof.
  intros [(x & -> & ->)|[N N']] [(y & -> & ->)|[M M']]; [exact I|rewrite nan_dot_r by assumption; exact I|rewrite nan_dot_l by assumption; exact I..].
Qed.
Lemma imv_norm a a' : im a a' -> norm a = norm a'.
Proof. intros. unfold norm. f_equal. now apply imv_dot. Qed.
Lemma imv_dist a a' b b' : im a a' -> im b b' -> distance_between a b = distance_between a' b'.
Proof. intros. unfold distance_between. apply imv_norm. now apply imv_sub. Qed.
Lemma tame_norm a a' : im a a' -> tame (norm a).
Proof. intros. unfold norm. apply tame_sqrt. eapply tame_dot; eassumption. Qed.
Lemma tame_dist a a' b b' : im a a' -> im b b' -> tame (distance_between a b).
Proof. intros. unfold distance_between. eapply tame_norm. eapply imv_sub; eassumption. Qed.
Lemma imv_unit a a' : im a a' -> im (unit_vector a) (unit_vector a').
Proof.
  intros H. rvs.
  - destruct (Req_EM_T (len x) 0) as [E|E].
    + apply len_zero in E. subst. rewrite q_zero, unit_vector_zero. right; auto with im.
    + assert (x <> r3zero) by (intros ->; apply E, len_zero_r3). rewrite !unit_vector_fv by (try apply q_nonzero; assumption). rewrite <- q_dirn. apply imv_fv.
  - right. unfold unit_vector. auto with im.
Qed.
Lemma imv_divs_norm a a' : im a a' -> im (vdivs a (norm a)) (vdivs a' (norm a')).
Proof. apply imv_unit. Qed.
Lemma norm_zero_unit a a' : im a a' -> norm a = Fin 0 -> has_nan (unit_vector a) /\ has_nan (unit_vector a').
Proof.
  intros H E. rvs.
  - rewrite norm_fv in E. injection E as E. apply len_zero in E. subst. rewrite q_zero, unit_vector_zero. auto with im.
  - split; unfold unit_vector; auto with im.
Qed.
Lemma imv_project x x' n n' : im x x' -> im n n' -> im (project_onto_plane x n) (project_onto_plane x' n').
Proof.
  intros Hx Hn. rewrite !project_alt. rewrite <- (imv_dot _ _ _ _ Hx Hn), <- (imv_norm _ _ Hn). apply imv_sub; [exact Hx|].
  assert (D : norm n = Fin 0 \/ norm n <> Fin 0).
  { destruct (norm n) as [l| | |]; try (right; discriminate). destruct (Req_EM_T l 0); [left; congruence|right; congruence]. }
  destruct D as [D|D].
  - destruct (norm_zero_unit _ _ Hn D). right. auto with im.
  - apply imv_scale; [|now apply imv_unit]. apply tame_div; [eapply tame_dot; eassumption|eapply tame_norm; eassumption|exact D].
Qed.
Hint Resolve imv_add imv_sub imv_opp imv_unit imv_divs_norm imv_project imv_fv tame_dot tame_norm tame_dist imv_scale : im.

Lemma imo_some a b : im a b -> imo (Some a) (Some b). Proof. auto. Qed.
Lemma imo_none : imo None None. Proof. exact I. Qed.
Hint Resolve imo_some imo_none : im.

(* ---- shapes ---- *)
Lemma im_plane_test p p' r r' : im_plane p p' -> im_ray r r' -> im_hit3 (plane_test_intersect p r) (plane_test_intersect p' r').
Proof.
  intros [Hc Hn] (Hp & Hd & _). unfold plane_test_intersect. cbv zeta.
  rewrite <- (imv_dot _ _ _ _ (imv_unit _ _ Hn) (imv_unit _ _ Hd)), <- (imv_dot _ _ _ _ (imv_sub _ _ _ _ Hc Hp) Hn).
  set (dn := dot (unit_vector (pl_normal p)) (unit_vector (direction r))). set (nm := dot (vsub (pl_center p) (position r)) (pl_normal p)).
  destruct (ngt (nabs dn) _) eqn:G; [|repeat split; auto with im].
  destruct (ngt (ndiv nm dn) _); [|repeat split; auto with im].
  assert (T : tame (ndiv nm dn)).
  { destruct (tame_nonzero_gt dn _ G arb_eps) as (x & E & Nz); [eapply tame_dot; eauto with im|]. apply tame_div; [eapply tame_dot; eauto with im|rewrite E; exact I|].
    rewrite E. congruence. }
  repeat split; cbn; auto with im.
Qed.
Lemma im_miss3 : im_hit3 miss3 miss3. Proof. repeat split. Qed.
Hint Resolve im_miss3 : im.
Lemma im_circle_test c c' r r' : im_circle c c' -> im_ray r r' -> res_rel im_hit3 (circle_test_intersect c r) (circle_test_intersect c' r').
Proof.
  intros (Hc & HR & _ & _ & Hpl) Hr. unfold circle_test_intersect. destruct (ci_plane c) as [p|], (ci_plane c') as [p'|]; cbn in Hpl; try tauto; [|reflexivity]. cbv zeta.
  destruct (im_plane_test p p' r r' Hpl Hr) as (F & Pt & Nm). rewrite <- F. destruct (h3_flag _); [|cbn; auto with im].
  eapply res_bind; [apply need_rel, Pt|]. intros x y Hxy. rewrite <- (imv_dist _ _ _ _ Hxy Hc), <- HR. destruct (nlt _ _); [|cbn; auto with im].
  repeat split; cbn; auto with im.
Qed.
Lemma inside_rectangle q c a b x : corners q c a b -> a ∙ b = 0 ->
  (let A := re_b0 q in let B := re_b1 q in let C := re_b2 q in let AB := vsub B A in let BC := vsub C B in let AM := vsub (fv x) A in let BM := vsub (fv x) B in
   if ((nofZ 0 <=? dot AB AM) && (dot AB AM <=? dot AB AB))%num%bool then ((nofZ 0 <=? dot BC BM) && (dot BC BM <=? dot BC BC))%num%bool else false)
  = (Rleb (Rabs (b ∙ (x - c)%r3)) (b ∙ b) && Rleb (Rabs (a ∙ (x - c)%r3)) (a ∙ a))%bool.
Proof.
  intros (-> & -> & -> & _) Hab. cbv zeta. rewrite !vsub_fv, !dot_fv, nofZ_fin, !nle_fin.
  replace (c + a + b - (c + a - b))%r3 with (2 * b)%r3 by (clear; r3_ring). replace (c - a + b - (c + a + b))%r3 with (-2 * a)%r3 by (clear; r3_ring).
  replace ((2 * b)%r3 ∙ (x - (c + a - b))%r3) with (2 * (b ∙ (x - c)%r3 + b ∙ b)) by (autorewrite with dotr; rewrite (dot_comm b a), Hab; ring).
  replace ((-2 * a)%r3 ∙ (x - (c + a + b))%r3) with (2 * (- (a ∙ (x - c)%r3) + a ∙ a)) by (autorewrite with dotr; rewrite Hab; ring).
  replace ((2 * b)%r3 ∙ (2 * b)%r3) with (4 * (b ∙ b)) by (autorewrite with dotr; ring). replace ((-2 * a)%r3 ∙ (-2 * a)%r3) with (4 * (a ∙ a)) by (autorewrite with dotr; ring).
  generalize (b ∙ (x - c)%r3) (b ∙ b) (a ∙ (x - c)%r3) (a ∙ a). clear. intros u v w z.
  assert (K : forall u v, (Rleb 0 (2 * (u + v)) && Rleb (2 * (u + v)) (4 * v))%bool = Rleb (Rabs u) v).
  { clear. intros u v. unfold Rleb. destruct (Rle_dec 0 _), (Rle_dec (2 * _) _), (Rle_dec (Rabs u) v) as [L|L]; cbn; try reflexivity; exfalso; revert L; unfold Rabs; destruct (Rcase_abs u); intros; lra. }
  assert (Rz : forall t, IZR t = IZR t) by reflexivity. rewrite (K u v). destruct (Rleb (Rabs u) v); [|reflexivity]. rewrite <- (Rabs_Ropp w). apply K.
Qed.
Lemma rectangle_form q r : rectangle_test_intersect q r =
  let h := plane_test_intersect (re_plane q) r in
  if h3_flag h then do M <- need (h3_pt h);
   (let A := re_b0 q in let B := re_b1 q in let C := re_b2 q in let AB := vsub B A in let BC := vsub C B in let AM := vsub M A in let BM := vsub M B in
   if (if ((nofZ 0 <=? dot AB AM) && (dot AB AM <=? dot AB AB))%num%bool then ((nofZ 0 <=? dot BC BM) && (dot BC BM <=? dot BC BC))%num%bool else false)
   then Ok (H3 true (Some M) (h3_normal h)) else Ok miss3)
  else Ok miss3.
Proof.
  unfold rectangle_test_intersect. cbv zeta. destruct (h3_flag _); [|reflexivity]. destruct (need _); [|reflexivity]. cbn [bind]. destruct (andb _ _); reflexivity.
Qed.
Lemma im_rectangle_test q q' r r' : im_rectangle q q' -> im_ray r r' -> res_rel im_hit3 (rectangle_test_intersect q r) (rectangle_test_intersect q' r').
Proof.
  intros (_ & _ & _ & _ & _ & Hk & Hpl) Hr. rewrite !rectangle_form. cbv zeta.
  destruct (im_plane_test _ _ r r' Hpl Hr) as (F & Pt & Nm). rewrite <- F. destruct (h3_flag _); [|cbn; auto with im].
  eapply res_bind; [apply need_rel, Pt|]. intros x y Hxy.
  assert (Far : forall A B C M, has_nan A \/ has_nan M ->
    (if ((nofZ 0 <=? dot (vsub B A) (vsub M A)) && (dot (vsub B A) (vsub M A) <=? dot (vsub B A) (vsub B A)))%num%bool then ((nofZ 0 <=? dot (vsub C B) (vsub M B)) && (dot (vsub C B) (vsub M B) <=? dot (vsub C B) (vsub C B)))%num%bool else false) = false).
  { intros A B C M H. rewrite (nan_dot_r (vsub B A) (vsub M A)) by (destruct H; auto with im). reflexivity. }
  assert (Miss : res_rel im_hit3 (Ok miss3) (Ok miss3)) by (cbn; auto with im).
  destruct Hk as [(c & a & b & O & Cq & Ce)|((Nq & _) & (Ne & _))]; [|rewrite !Far by auto; exact Miss].
  destruct Hxy as [(z & -> & ->)|[N N']]; [|rewrite !Far by auto; exact Miss].
  pose proof (inside_rectangle q c a b z Cq O) as Eq. cbv zeta in Eq. rewrite Eq.
  assert (Ee : exists a' b', corners q' (Q c) a' b' /\ a' ∙ b' = 0 /\ Rabs (a' ∙ (Q z - Q c)%r3) = Rabs (a ∙ (z - c)%r3) /\ Rabs (b' ∙ (Q z - Q c)%r3) = Rabs (b ∙ (z - c)%r3) /\ a' ∙ a' = a ∙ a /\ b' ∙ b' = b ∙ b).
  { destruct Ce as [Ce|Ce]; eexists _, _; (split; [exact Ce|]); rewrite <- q_sub, ?dot_opp_l, ?dot_opp_r, ?dot_opp_l, !(m_dot Q HQ), ?Rabs_Ropp; repeat split; rewrite ?O; ring. }
  destruct Ee as (a' & b' & Ce' & O' & E1 & E2 & E3 & E4). pose proof (inside_rectangle q' (Q c) a' b' (Q z) Ce' O') as Eq'. cbv zeta in Eq'. rewrite Eq', E1, E2, E3, E4. clear Eq Eq'.
  destruct (andb _ _); [|exact Miss]. repeat split; cbn; auto with im.
Qed.
Lemma im_sphere_normal s s' x x' : im_sphere s s' -> im x x' -> im (sphere_normal s x) (sphere_normal s' x').
Proof. intros (Hc & _) Hx. unfold sphere_normal. auto with im. Qed.
Lemma im_sphere_point s s' x x' : im_sphere s s' -> im x x' -> sphere_test_point s x = sphere_test_point s' x'.
Proof. intros (Hc & HR & _) Hx. unfold sphere_test_point. rewrite (imv_dist _ _ _ _ Hx Hc), HR. reflexivity. Qed.
Lemma im_sphere_test s s' r r' : im_sphere s s' -> im_ray r r' -> im_hit6 (sphere_test_intersect s r) (sphere_test_intersect s' r').
Proof.
  intros Hs Hr. pose proof Hs as (Hc & HR & TR & _). pose proof Hr as (Hp & Hd & _). unfold sphere_test_intersect. cbv zeta.
  pose proof (imv_sub _ _ _ _ Hc Hp) as Hq.
  rewrite <- (imv_dot _ _ _ _ Hd Hq), <- (imv_dot _ _ _ _ Hq Hq), <- HR.
  assert (Tb : tame (dot (direction r) (vsub (sp_center s) (position r)))) by (eapply tame_dot; eassumption).
  assert (Tq : tame (dot (vsub (sp_center s) (position r)) (vsub (sp_center s) (position r)))) by (eapply tame_dot; eassumption).
  set (b := dot (direction r) _) in *. set (qq := dot (vsub _ _) _) in *.
  set (disc := nsub (nmul b b) (nsub qq (nmul (sp_R s) (sp_R s)))).
  assert (Td : tame disc) by (unfold disc; auto with im).
  assert (Pt : forall t, tame t -> im (vadd (position r) (vscale t (direction r))) (vadd (position r') (vscale t (direction r')))) by (auto with im).
  assert (Nm : forall t, tame t -> im (sphere_normal s (vadd (position r) (vscale t (direction r)))) (sphere_normal s' (vadd (position r') (vscale t (direction r')))))
    by (intros; apply im_sphere_normal; auto).
  destruct (ngt disc _).
  - repeat match goal with |- context [if ?c then _ else _] => destruct c end; repeat split; cbn; auto with im.
  - destruct (neqb _ _); repeat split; cbn; auto with im.
Qed.

(* ---- cylinders ---- *)
Lemma im_infcyl_normal c c' x x' : im_infcyl c c' -> im x x' -> im (infcyl_normal c x) (infcyl_normal c' x').
Proof. intros (p & u & rad & D & pl & pl' & Hu & _ & -> & ->) Hx. unfold infcyl_normal. cbn [ic_center ic_direction]. auto with im. Qed.
Lemma im_cyl_hits c c' r r' sf A B C : im_infcyl c c' -> im_ray r r' -> sf <> 0 -> (A = 0 -> B = 0) ->
  im_hit6 (cyl_hits c r (Fin sf) (Fin A) (Fin B) (Fin C)) (cyl_hits c' r' (Fin sf) (Fin A) (Fin B) (Fin C)).
Proof.
  intros Hc Hr Hs HAB. pose proof Hr as (Hp & Hd & _). unfold cyl_hits. cbv zeta.
  assert (Pt : forall t, tame t -> im (vadd (position r) (vscale t (direction r))) (vadd (position r') (vscale t (direction r')))) by (auto with im).
  assert (Nm : forall t, tame t -> im (infcyl_normal c (vadd (position r) (vscale t (direction r)))) (infcyl_normal c' (vadd (position r') (vscale t (direction r')))))
    by (intros; apply im_infcyl_normal; auto).
  assert (Ts : forall t, tame t -> tame (ndiv t (Fin sf))) by (intros; apply tame_div; auto with im; congruence).
  rewrite !nofZ_fin, !nmul_fin, nsub_fin, ngt_fin, neqb_fin. unfold Rltb. destruct (Rlt_dec 0 _) as [L|L].
  - rewrite nsqrt_fin by lra. set (w := sqrt (B * B - 4 * A * C)). assert (W : 0 < w) by (apply sqrt_lt_R0; exact L).
    assert (A0 : A <> 0) by (intros E; rewrite (HAB E), E in L; lra).
    assert (T0 : tame (fst (if nle (Fin 0) (Fin B) then (ndiv (nsub (nopp (Fin B)) (Fin w)) (Fin (2 * A)), ndiv (Fin (2 * C)) (nsub (nopp (Fin B)) (Fin w)))
       else (ndiv (Fin (2 * C)) (nadd (nopp (Fin B)) (Fin w)), ndiv (nadd (nopp (Fin B)) (Fin w)) (Fin (2 * A)))))
      /\ tame (snd (if nle (Fin 0) (Fin B) then (ndiv (nsub (nopp (Fin B)) (Fin w)) (Fin (2 * A)), ndiv (Fin (2 * C)) (nsub (nopp (Fin B)) (Fin w)))
       else (ndiv (Fin (2 * C)) (nadd (nopp (Fin B)) (Fin w)), ndiv (nadd (nopp (Fin B)) (Fin w)) (Fin (2 * A)))))).
    { rewrite nle_fin, nopp_fin, nsub_fin, nadd_fin. unfold Rleb. destruct (Rle_dec 0 B); cbn [fst snd]; rewrite !ndiv_fin by lra; split; exact I. }
    destruct T0 as [T0 T1]. apply Ts in T0. apply Ts in T1.
    set (t0 := ndiv (fst _) _) in *. set (t1 := ndiv (snd _) _) in *. clearbody t0 t1.
    repeat match goal with |- context [if ?c then _ else _] => destruct c end; repeat split; cbn; auto with im.
  - unfold Reqb. destruct (Req_EM_T _ 0) as [Z|Z]; [|repeat split].
    assert (T : tame (ndiv (nopp (Fin B)) (Fin (2 * A)))).
    { rewrite nopp_fin. destruct (Req_EM_T A 0) as [E|E]; [|rewrite ndiv_fin by lra; exact I]. rewrite (HAB E), E.
      replace (- 0) with 0 by ring. replace (2 * 0) with 0 by ring. rewrite ndiv_0_0. exact I. }
    apply Ts in T. repeat split; cbn; auto with im.
Qed.
Lemma im_infcyl_test c c' r r' : im_infcyl c c' -> im_ray r r' -> res_rel im_hit6 (infcyl_test_intersect c r) (infcyl_test_intersect c' r').
Proof.
  intros Hc Hr. pose proof Hr as (Hp & Hd & _). pose proof Hc as (p & u & rad & D & pl & pl' & Hu & _ & -> & ->).
  assert (Bad : (has_nan (position r) /\ has_nan (position r')) \/ (has_nan (direction r) /\ has_nan (direction r')) ->
     res_rel im_hit6 (infcyl_test_intersect (mkInfCyl (fv p) (Fin rad) D (fv u) pl) r) (infcyl_test_intersect (mkInfCyl (fv (Q p)) (Fin rad) D (fv (Q u)) pl') r')).
  { intros H. rewrite !infcyl_test_nan by tauto. cbn [ic_R]. destruct (neqb _ _); [reflexivity|]. repeat split. }
  destruct Hp as [(x & Ep & Ep')|Hp]; [|tauto]. destruct Hd as [(d & Ed & Ed')|Hd]; [|tauto]. clear Bad.
  destruct (Req_EM_T rad 0) as [E|E].
  - unfold infcyl_test_intersect. cbn [ic_R]. change (neqb (Fin rad) (nofZ 0)) with (Reqb rad 0). unfold Reqb. destruct (Req_EM_T rad 0); [reflexivity|contradiction].
  - fold (cyl p u rad D pl) (cyl (Q p) (Q u) rad D pl'). rewrite (cyl_form p u rad D pl x d r Hu E Ep Ed), (cyl_form _ _ rad D pl' (Q x) (Q d) r' (q_unit u Hu) E Ep' Ed').
    replace (cA (Q u) (Q d)) with (cA u d) by (unfold cA; rewrite <- q_perp, (m_dot Q HQ); reflexivity).
    replace (cB (Q p) (Q u) (Q x) (Q d)) with (cB p u x d) by (unfold cB; rewrite <- q_sub, <- !q_perp, (m_dot Q HQ); reflexivity).
    replace (cC (Q p) (Q u) (Q x)) with (cC p u x) by (unfold cC; rewrite <- q_sub, <- !q_perp, (m_dot Q HQ); reflexivity).
    cbn [res_rel]. apply im_cyl_hits; [exact Hc|exact Hr|intros Z; apply E; unfold Rdiv in Z; apply Rmult_integral in Z; destruct Z as [Z|Z]; [lra|exfalso; apply (Rinv_neq_0_compat rad E Z)]|].
    intros Z. unfold cA in Z. apply dot_self_zero in Z. unfold cB. rewrite Z. rewrite dot_zero_r. ring.
Qed.
Lemma im_infcyl_point c c' x x' : im_infcyl c c' -> im x x' -> infcyl_test_point c x = infcyl_test_point c' x'.
Proof.
  intros (p & u & rad & D & pl & pl' & Hu & _ & -> & ->) Hx. unfold infcyl_test_point. cbn [ic_R]. change (neqb (Fin rad) (nofZ 0)) with (Reqb rad 0). unfold Reqb. destruct (Req_EM_T rad 0) as [E|E]; [reflexivity|].
  cbv zeta. destruct Hx as [(y & -> & ->)|[H H']].
  - fold (cyl p u rad D pl) (cyl (Q p) (Q u) rad D pl'). destruct (cyl_object p u rad D pl Hu) as (f & Fm & Fi & Fp & Fd).
    destruct (cyl_object (Q p) (Q u) rad D pl' (q_unit u Hu)) as (g & Gm & Gi & Gp & Gd).
    rewrite (nofZ_fin 1), ndiv_fin, Fp, Gp by exact E. cbn [v4x v4y]. rewrite !nmul_fin, !nadd_fin.
    assert (K : cx (f (y - p)%r3) * cx (f (y - p)%r3) + cy (f (y - p)%r3) * cy (f (y - p)%r3) = cx (g (Q y - Q p)%r3) * cx (g (Q y - Q p)%r3) + cy (g (Q y - Q p)%r3) * cy (g (Q y - Q p)%r3)).
    { rewrite (iso_xy f u), (iso_xy g (Q u)) by (try apply q_unit; assumption). rewrite <- q_sub, <- q_perp, (m_dot Q HQ). reflexivity. }
    replace (1 / rad * cx (f (y - p)%r3) * (1 / rad * cx (f (y - p)%r3)) + 1 / rad * cy (f (y - p)%r3) * (1 / rad * cy (f (y - p)%r3)))
      with (1 / rad * (1 / rad) * (cx (f (y - p)%r3) * cx (f (y - p)%r3) + cy (f (y - p)%r3) * cy (f (y - p)%r3))) by ring.
    rewrite K. match goal with |- Ok (if nlt (nsqrt (Fin ?a)) _ then _ else _) = Ok (if nlt (nsqrt (Fin ?b)) _ then _ else _) => replace b with a by ring end. reflexivity.
  - rewrite !infcyl_point_nan by assumption. reflexivity.
Qed.

Lemma im_shape_test s s' r r' : im_shape s s' -> im_ray r r' -> res_rel im_ires (shape_test_intersect s r) (shape_test_intersect s' r').
Proof.
  intros Hs Hr. destruct s, s'; cbn in Hs; try contradiction; cbn [shape_test_intersect].
  - now apply im_plane_test.
  - eapply res_bind; [apply im_circle_test; eassumption|]. auto.
  - eapply res_bind; [apply im_infcyl_test; eassumption|]. auto.
  - now apply im_sphere_test.
  - exact I.
  - eapply res_bind; [apply im_rectangle_test; eassumption|]. auto.
Qed.
Lemma im_shape_point s s' x x' : im_shape s s' -> im x x' -> shape_test_point s x = shape_test_point s' x'.
Proof.
  intros Hs Hx. destruct s, s'; cbn in Hs; try contradiction; cbn [shape_test_point]; try reflexivity.
  - now rewrite (im_infcyl_point _ _ _ _ Hs Hx).
  - now rewrite (im_sphere_point _ _ _ _ Hs Hx).
Qed.
Lemma im_unpack3 i i' : im_ires i i' -> res_rel im_hit3 (unpack3 i) (unpack3 i'). Proof. destruct i, i'; cbn; tauto. Qed.
Lemma im_unpack6 i i' : im_ires i i' -> res_rel im_hit6 (unpack6 i) (unpack6 i'). Proof. destruct i, i'; cbn; tauto. Qed.
Lemma im_index6 i i' : im_ires i i' -> res_rel im_hit6 (index6 i) (index6 i'). Proof. destruct i, i'; cbn; tauto. Qed.

(* ---- trees ---- *)
Definition im_find (a b : option (vec xr) * option (vec xr) * option xr * Z) : Prop :=
  match a, b with (p, n, d, k), (p', n', d', k') => imo p p' /\ imo n n' /\ d = d' /\ k = k' end.
Ltac hits := repeat match goal with
  | |- context [if ?c then _ else _] => destruct c
  end; repeat split; cbn; auto with im.
Lemma im_helper h h' r r' m : im_hit6 h h' -> im_ray r r' -> res_rel im_find (helper_findIntersects h r m) (helper_findIntersects h' r' m).
Proof.
  intros (F & P1 & P2 & N1 & N2 & K) (Hp & _). unfold helper_findIntersects.
  destruct (h6_p1 h) as [a|], (h6_p1 h') as [a'|]; cbn in P1; try contradiction; destruct (h6_p2 h) as [b|], (h6_p2 h') as [b'|]; cbn in P2; try contradiction; cbv zeta.
  - rewrite <- (imv_dist _ _ _ _ Hp P1), <- (imv_dist _ _ _ _ Hp P2). destruct m; hits.
  - rewrite <- (imv_dist _ _ _ _ Hp P1). hits.
  - reflexivity.
  - hits.
Qed.
Ltac help2 := eapply res_bind; [apply im_helper; eassumption|]; intros [[[? ?] ?] ?] [[[? ?] ?] ?] (? & ? & ? & ?); subst.
Lemma im_union a a' b b' r r' : im_hit6 a a' -> im_hit6 b b' -> im_ray r r' -> res_rel im_hit6 (operCsgUnion a b r) (operCsgUnion a' b' r').
Proof.
  intros Ha Hb Hr. pose proof Ha as (Fa & _ & _ & _ & _ & Ka). pose proof Hb as (Fb & _ & _ & _ & _ & Kb).
  unfold operCsgUnion. rewrite <- Fa, <- Fb, <- Ka, <- Kb. cbv zeta. destruct (h6_flag a), (h6_flag b); cbn [andb].
  - help2. help2. repeat match goal with H : imo ?x ?y |- context [match ?x with _ => _ end] => destruct x, y; cbn in H; try contradiction end.
    + eapply res_bind; [apply res_refl|]. intros ? ? <-. hits.
    + hits.
    + hits.
  - help2. hits.
  - help2. hits.
  - hits.
Qed.
Lemma im_intersect a a' b b' r r' : im_hit6 a a' -> im_hit6 b b' -> im_ray r r' -> res_rel im_hit6 (operCsgIntersect a b r) (operCsgIntersect a' b' r').
Proof.
  intros Ha Hb Hr. pose proof Ha as (Fa & _ & _ & _ & _ & Ka). pose proof Hb as (Fb & _ & _ & _ & _ & Kb).
  unfold operCsgIntersect. rewrite <- Fa, <- Fb, <- Ka, <- Kb. cbv zeta. destruct (h6_flag a && h6_flag b)%bool; [|hits].
  do 4 help2. destruct (_ && _)%bool; [|destruct (evenb _); [|destruct (evenb _)]].
  - eapply res_bind; [apply res_refl|]. intros ? ? <-. eapply res_bind; [apply res_refl|]. intros ? ? <-. match goal with |- context [if ?c then _ else _] => destruct c end; [hits|].
    eapply res_bind; [apply res_refl|]. intros ? ? <-. eapply res_bind; [apply res_refl|]. intros ? ? <-. hits.
  - eapply res_bind; [apply res_refl|]. intros ? ? <-. eapply res_bind; [apply res_refl|]. intros ? ? <-. hits.
  - eapply res_bind; [apply res_refl|]. intros ? ? <-. eapply res_bind; [apply res_refl|]. intros ? ? <-. hits.
  - eapply res_bind; [apply res_refl|]. intros ? ? <-. hits.
Qed.
Lemma im_difference a a' b b' r r' : im_hit6 a a' -> im_hit6 b b' -> im_ray r r' -> res_rel im_hit6 (operCsgDifference a b r) (operCsgDifference a' b' r').
Proof.
  intros Ha Hb Hr. pose proof Ha as (Fa & _ & _ & _ & _ & Ka). pose proof Hb as (Fb & _ & _ & _ & _ & Kb).
  unfold operCsgDifference. rewrite <- Fa, <- Fb, <- Ka, <- Kb. cbv zeta. destruct (h6_flag a), (h6_flag b); cbn [andb].
  - do 4 help2. eapply res_bind; [apply res_refl|]. intros ? ? <-. match goal with |- context [if ?c then _ else _] => destruct c end; [hits|].
    eapply res_bind; [apply res_refl|]. intros ? ? <-. hits.
  - help2. reflexivity.
  - hits.
  - hits.
Qed.
Lemma im_csg_oper k k' : im_key k k' ->
  res_rel (fun f g => forall a a' b b' r r', im_hit6 a a' -> im_hit6 b b' -> im_ray r r' -> res_rel im_hit6 (f a b r) (g a' b' r')) (csg_oper k) (csg_oper k').
Proof.
  destruct k, k'; cbn [im_key]; try contradiction; [intros <-|intros; reflexivity]. cbn [csg_oper].
  destruct (_ =? "union")%string; [|destruct (_ =? "difference")%string; [|destruct (_ =? "intersect")%string; [|reflexivity]]]; cbn [res_rel].
  - apply im_union.
  - apply im_difference.
  - apply im_intersect.
Qed.
Lemma im_tree_test t : forall t' r r', im_tree t t' -> im_ray r r' -> res_rel im_ires (test_tree_intersect t r) (test_tree_intersect t' r').
Proof.
  induction t as [|k l IHl rt IHr]; intros [|k' l' rt'] r r' Ht Hr; cbn in Ht; try contradiction; [exact I|]. destruct Ht as (Hk & Hl & Hrt).
  cbn [test_tree_intersect]. eapply res_bind; [apply IHl; eassumption|]. intros i i' Hi. eapply res_bind; [apply IHr; eassumption|]. intros j j' Hj.
  assert (Key : res_rel im_ires (key_test_intersect k r) (key_test_intersect k' r')).
  { destruct k, k'; cbn in Hk; try contradiction; [reflexivity|]. cbn [key_test_intersect]. now apply im_shape_test. }
  assert (Op : res_rel im_ires (do f <- csg_oper k; do a <- index6 i; do b <- index6 j; do h <- f a b r; Ok (I6 h))
     (do f <- csg_oper k'; do a <- index6 i'; do b <- index6 j'; do h <- f a b r'; Ok (I6 h))).
  { eapply res_bind; [apply im_csg_oper, Hk|]. intros f g Hfg. eapply res_bind; [apply im_index6, Hi|]. intros a a' Haa. eapply res_bind; [apply im_index6, Hj|]. intros b b' Hbb.
    eapply res_bind; [apply Hfg; eassumption|]. auto. }
  destruct i, i'; cbn in Hi; try contradiction; destruct j, j'; cbn in Hj; try contradiction; assumption.
Qed.
Lemma im_tree_point t : forall t' x x', im_tree t t' -> im x x' -> test_tree_point t x = test_tree_point t' x'.
Proof.
  induction t as [|k l IHl rt IHr]; intros [|k' l' rt'] x x' Ht Hx; cbn in Ht; try contradiction; [reflexivity|]. destruct Ht as (Hk & Hl & Hrt).
  cbn [test_tree_point]. rewrite (IHl _ _ _ Hl Hx), (IHr _ _ _ Hrt Hx).
  assert (Key : key_test_point k x = key_test_point k' x').
  { destruct k, k'; cbn in Hk; try contradiction; [reflexivity|]. cbn [key_test_point]. now apply im_shape_point. }
  rewrite Key. assert (Ix : index_oper k = index_oper k') by (destruct k, k'; cbn in Hk; try contradiction; [subst; reflexivity|reflexivity]).
  rewrite Ix. reflexivity.
Qed.

(* ---- rays ---- *)
Lemma im_set_direction r r' d d' : im_ray r r' -> im d d' -> im_ray (set_direction r d) (set_direction r' d').
Proof. intros (A & B & C & D & E & F & G) H. repeat split; assumption. Qed.
Lemma im_set_blocked r r' : im_ray r r' -> im_ray (set_blocked r) (set_blocked r').
Proof. intros (A & B & C & D & E & F & G). repeat split; assumption. Qed.
Lemma im_fly r r' t : tame t -> im_ray r r' -> im_ray (fly r t) (fly r' t).
Proof.
  intros T (A & B & C & D & E & F & G). assert (im (vadd (position r) (vscale t (direction r))) (vadd (position r') (vscale t (direction r')))) by auto with im.
  unfold fly. repeat split; cbn; try assumption. apply Forall2_app; [assumption|]. constructor; [assumption|constructor].
Qed.
Lemma im_reflect r r' n n' : im_ray r r' -> im n n' -> im_ray (reflect_specular r n) (reflect_specular r' n').
Proof.
  intros Hr Hn. pose proof Hr as (_ & Hd & _). unfold reflect_specular. cbv zeta. apply im_set_direction; [exact Hr|]. apply imv_unit.
  pose proof (imv_unit _ _ Hd) as Hi. pose proof (imv_unit _ _ Hn) as Hu. rewrite <- (imv_dot _ _ _ _ Hi Hu). apply imv_sub; [exact Hi|]. apply imv_scale; [|exact Hu].
  apply tame_mul; [exact I|]. eapply tame_dot; eassumption.
Qed.
Lemma im_oriented n n' d d' : im n n' -> im d d' -> im (oriented_normal n d) (oriented_normal n' d').
Proof. intros Hn Hd. unfold oriented_normal. rewrite <- (imv_dot _ _ _ _ Hn Hd). destruct (nlt _ _); auto with im. Qed.
Lemma im_collimate l l' r r' : im_lens l l' -> im_ray r r' -> res_rel im_ray (refract_ideal_collimate r l) (refract_ideal_collimate r' l').
Proof.
  intros (_ & Hn & _) Hr. unfold refract_ideal_collimate. eapply res_bind; [apply need_rel, Hn|]. intros n n' Hnn. cbv zeta. cbn [res_rel].
  apply im_set_direction; [exact Hr|]. apply imv_unit, im_oriented; [exact Hnn|]. apply Hr.
Qed.
Lemma im_focus l l' r r' : im_lens l l' -> im_ray r r' -> res_rel im_ray (refract_ideal_focus r l) (refract_ideal_focus r' l').
Proof.
  intros (Hp & Hn & _ & Hf & _ & _ & _ & _ & _ & Tf) Hr. unfold refract_ideal_focus. eapply res_bind; [apply need_rel, Hn|]. intros n n' Hnn. cbv zeta. rewrite <- Hf.
  destruct (le_f l) as [f|] eqn:E; [|reflexivity]. cbn [need bind res_rel]. apply im_set_direction; [exact Hr|]. apply imv_divs_norm.
  apply imv_sub; [|apply Hr]. apply imv_add; [exact Hp|]. apply imv_scale; [now apply Tf|]. apply im_oriented; [exact Hnn|apply Hr].
Qed.
Lemma im_snell r r' n n' e1 e2 : im_ray r r' -> im n n' -> tame e1 -> tame e2 -> res_rel im_ray (refract_snells_law r n e1 e2) (refract_snells_law r' n' e1 e2).
Proof.
  intros Hr Hn T1 T2. pose proof Hr as (_ & Hd & _). unfold refract_snells_law. cbv zeta.
  assert (Ho : im (if nlt (dot (direction r) n) (nofZ 0) then n else vopp n) (if nlt (dot (direction r') n') (nofZ 0) then n' else vopp n')).
  { rewrite <- (imv_dot _ _ _ _ Hd Hn). destruct (nlt _ _); auto with im. }
  set (m := if nlt (dot (direction r) n) _ then _ else _) in *. set (m' := if nlt (dot (direction r') n') _ then _ else _) in *. clearbody m m'.
  rewrite <- (imv_dot _ _ _ _ (imv_opp _ _ Hd) Ho). assert (Tc : tame (dot (vopp (direction r)) m)) by (eapply tame_dot; [apply imv_opp|]; eassumption).
  set (c := dot _ m) in *. clearbody c. destruct (neqb e2 _) eqn:Ez; [reflexivity|].
  assert (Tr : tame (ndiv e1 e2)).
  { apply tame_div; [exact T1|exact T2|]. intros ->. change (Reqb 0 0 = false) in Ez. unfold Reqb in Ez. destruct (Req_EM_T 0 0); [discriminate|contradiction]. }
  set (q := ndiv e1 e2) in *. clearbody q. match goal with |- context [if (if ?x then ?y else ?z) then _ else _] => destruct (if x then y else z) end; cbn [res_rel].
  - now apply im_reflect.
  - apply im_set_direction; [exact Hr|]. apply imv_add; [now apply imv_scale|]. apply imv_scale; [|exact Ho]. auto 10 with im.
Qed.

(* ---- the grating ---- *)
Lemma q_rodr c s u x : Q (rodr c s u x) = rodr c s (- Q u)%r3 (Q x).
Proof.
  unfold rodr. rewrite !(m_add Q HQ), !(m_scale Q HQ), (m_cross Q HQ).
  replace ((- Q u)%r3 ∙ Q x) with (- (u ∙ x)) by (rewrite dot_opp_l, (m_dot Q HQ); reflexivity). clear. generalize (u ∙ x). intros. r3_ring.
Qed.
Lemma ax_unit a a' : ax a a' -> ax (unit_vector a) (unit_vector a').
Proof.
  intros [(x & -> & ->)|[N N']].
  - destruct (Req_EM_T (len x) 0) as [E|E].
    + apply len_zero in E. subst. replace (- Q r3zero)%r3 with r3zero by (rewrite q_zero; clear; r3_ring). rewrite unit_vector_zero. right; auto with im.
    + assert (x <> r3zero) by (intros ->; apply E, len_zero_r3). rewrite <- q_opp.
      assert ((- x)%r3 <> r3zero) by (intros K; apply H; rewrite <- (r3_opp_opp x), K; clear; r3_ring).
      rewrite !unit_vector_fv by (try apply q_nonzero; assumption). rewrite <- q_dirn, dirn_opp, q_opp. apply ax_fv.
  - right. unfold unit_vector. auto with im.
Qed.
Lemma imv_project_ax x x' n n' : im x x' -> ax n n' -> im (project_onto_plane x n) (project_onto_plane x' n').
Proof.
  intros Hx Hn. destruct Hx as [(z & -> & ->)|[M M']]; [|rewrite !project_alt; right; auto with im].
  assert (Hx : im (fv z) (fv (Q z))) by apply imv_fv. assert (D : exists m, im n m /\ project_onto_plane (fv (Q z)) n' = project_onto_plane (fv (Q z)) m).
  { destruct Hn as [(y & -> & ->)|[N N']]; [|exists n'; split; [right; auto|reflexivity]]. exists (fv (Q y)). split; [apply imv_fv|].
    destruct (Req_EM_T (len y) 0) as [E|E].
      + apply len_zero in E. subst y. rewrite q_zero. replace (- r3zero)%r3 with r3zero by (clear; r3_ring). reflexivity.
      + assert (y <> r3zero) by (intros ->; apply E, len_zero_r3). assert (Q y <> r3zero) by now apply q_nonzero.
        assert ((- Q y)%r3 <> r3zero) by (intros K; apply H0; rewrite <- (r3_opp_opp (Q y)), K; clear; r3_ring).
        rewrite !project_alt, !unit_vector_fv, !dot_fv, !norm_fv, dirn_opp, len_opp, dot_opp_r by assumption.
        assert (len (Q y) <> 0) by (rewrite q_len; exact E). rewrite !ndiv_fin, !vscale_fv, !vsub_fv by assumption. f_equal.
        generalize (dirn (Q y)) (len (Q y)) (Q z ∙ Q y). clear. intros u l d. unfold Rdiv. r3_ring.
  }
  destruct D as (m & Hm & ->). now apply imv_project.
Qed.
Lemma imv_rotate axis axis' th x x' : tame th -> ax axis axis' -> im x x' -> im (mv (rotation_matrix_axis_angle axis th) x) (mv (rotation_matrix_axis_angle axis' th) x').
Proof.
  intros T Ha Hx. destruct Hx as [(y & -> & ->)|[N N']]; [|rewrite !mv_nan by assumption; right; auto with im].
  destruct Ha as [(a & -> & ->)|[N N']]; [|rewrite !rot_mat_nan by auto; right; auto with im].
  destruct (tame_cases th T) as [[t ->]| ->]; [|rewrite !rot_mat_nan by auto; right; auto with im].
  destruct (Req_EM_T (len a) 0) as [E|E].
  - apply len_zero in E. subst a. replace (- Q r3zero)%r3 with r3zero by (rewrite q_zero; clear; r3_ring). rewrite !rot_mat_nan by (right; left; eauto). right; auto with im.
  - assert (a <> r3zero) by (intros ->; apply E, len_zero_r3). rewrite (axis_angle_acts a t) by assumption. assert (Q a <> r3zero) by now apply q_nonzero.
    rewrite (axis_angle_acts (- Q a)%r3 t) by (intros K; apply H0; rewrite <- (r3_opp_opp (Q a)), K; clear; r3_ring).
    rewrite dirn_opp, <- q_dirn, <- q_rodr. apply imv_fv.
Qed.
Lemma im_angle a a' b b' n n' : im a a' -> im b b' -> ax n n' -> angle_between a b (Some n) = angle_between a' b' (Some n').
Proof.
  intros Ha Hb Hn. unfold angle_between. cbv zeta. pose proof (imv_unit _ _ Ha) as Ua. pose proof (imv_unit _ _ Hb) as Ub.
  pose proof (ax_cross _ _ _ _ Ub Ua) as C.
  assert (E : dot (cross (unit_vector b) (unit_vector a)) n = dot (cross (unit_vector b') (unit_vector a')) n').
  { destruct C as [(x & -> & ->)|[N N']]; [|now rewrite !nan_dot_l by assumption]. destruct Hn as [(y & -> & ->)|[N N']]; [|now rewrite !nan_dot_r by assumption].
    rewrite !dot_fv, dot_opp_l, dot_opp_r, (m_dot Q HQ). f_equal. ring. }
  rewrite E, (imv_dot _ _ _ _ Ua Ub). reflexivity.
Qed.
Lemma im_reflect_grating g g' r r' n n' : im_grating g g' -> im_ray r r' -> im n n' -> res_rel im_ray (reflect_grating r n g) (reflect_grating r' n' g').
Proof.
  intros (_ & _ & Ht & _ & HG & _) Hr Hn. pose proof Hr as (_ & Hd & Hw & Ho & _). unfold reflect_grating. cbv zeta.
  pose proof (imv_unit _ _ Hn) as Hu. pose proof (imv_unit _ _ Hd) as Hi.
  pose proof (imv_unit _ _ (imv_project_ax _ _ _ _ Hu Ht)) as Hpn. pose proof (imv_unit _ _ (imv_project_ax _ _ _ _ Hi Ht)) as Hpi.
  rewrite <- (im_angle _ _ _ _ _ _ (imv_opp _ _ Hpi) Hpn Ht), <- HG, <- Hw, <- Ho.
  assert (Ta : tame (angle_between (vopp (unit_vector (project_onto_plane (unit_vector (direction r)) (gr_tangent g)))) (unit_vector (project_onto_plane (unit_vector n) (gr_tangent g))) (Some (gr_tangent g)))).
  { unfold angle_between. auto with im. }
  set (al := angle_between _ _ _) in *. clearbody al. eapply res_bind; [apply res_refl|]. intros G ? <-. cbn [res_rel].
  assert (Ts : tame (if nlt al (nofZ 0) then nofZ (-1) else nofZ 1)) by (destruct (nlt _ _); exact I). set (sg := if nlt al _ then _ else _) in *. clearbody sg.
  apply im_set_direction; [exact Hr|]. apply imv_unit. apply imv_rotate; [auto with im|exact Ht|]. apply imv_unit. apply imv_rotate; [auto with im|exact Ht|].
  rewrite <- (imv_dot _ _ _ _ Hi Hu). apply imv_sub; [exact Hi|]. apply imv_scale; [|exact Hu]. apply tame_mul; [exact I|]. eapply tame_dot; eassumption.
Qed.

(* ---- optics ---- *)
Lemma im_index_inside c c' x x' : im_compound c c' -> im x x' -> compound_index_if_inside c x = compound_index_if_inside c' x'.
Proof. intros (Ht & _ & Hi & _) Hx. unfold compound_index_if_inside. rewrite (im_tree_point _ _ _ _ Ht Hx), Hi. reflexivity. Qed.
Lemma im_compound_test c c' r r' : im_compound c c' -> im_ray r r' -> res_rel im_hit4 (compound_test_intersect c r) (compound_test_intersect c' r').
Proof.
  intros (Ht & _) Hr. unfold compound_test_intersect. eapply res_bind; [apply im_tree_test; eassumption|]. intros i i' Hi. eapply res_bind; [apply im_unpack6, Hi|].
  intros h h' (F & P1 & _ & N1 & _ & K). cbn. rewrite <- F, <- K. repeat split; cbn; auto.
Qed.
Lemma im_compound_do c c' r r' x x' n n' : im_compound c c' -> im_ray r r' -> im x x' -> imo n n' ->
  res_rel im_ray (compound_do_intersect c r x n) (compound_do_intersect c' r' x' n').
Proof.
  intros Hc Hr Hx Hn. pose proof Hc as (_ & Hb & Hi & Ti). unfold compound_do_intersect. rewrite <- Hb. destruct (_ =? "reflect")%string; [|destruct (_ =? "refract")%string; [|reflexivity]].
  - eapply res_bind; [apply need_rel, Hn|]. intros a b Hab. now apply im_reflect.
  - pose proof Hr as (_ & Hd & _).
    assert (Hy : im (vadd x (vscale (dec 1 8) (direction r))) (vadd x' (vscale (dec 1 8) (direction r')))) by (apply imv_add; [exact Hx|]; apply imv_scale; [apply tame_dec; lia|exact Hd]).
    rewrite <- (im_index_inside _ _ _ _ Hc Hy), <- Hi. eapply res_bind; [apply res_refl|]. intros oi ? <-. destruct oi; (eapply res_bind; [apply need_rel, Hn|]); intros a b Hab; apply im_snell; auto; exact I.
Qed.
Lemma im_surface_normal s s' : im_shape s s' -> res_rel imo (surface_normal s) (surface_normal s').
Proof.
  destruct s, s'; cbn [im_shape]; try contradiction; cbn [surface_normal]; try (intros; reflexivity).
  - intros (_ & H). exact H.
  - intros (_ & _ & _ & H & _). destruct (ci_normal c), (ci_normal c0); cbn in H; try contradiction; [exact H|reflexivity].
  - intros (_ & H & _). exact H.
Qed.
Lemma im_flat_step o r r' st st' s s' : im_ray r r' -> im_flat st st' -> im_shape s s' -> res_rel im_flat (flat_step o r st s) (flat_step o r' st' s').
Proof.
  intros Hr (Fh & Fm & Fp & Fn) Hs. unfold flat_step. eapply res_bind; [apply im_shape_test; eassumption|]. intros i i' Hi. eapply res_bind; [apply im_unpack3, Hi|].
  intros h h' (F & Pt & Nm). rewrite <- F, <- Fm, <- Fh. destruct (h3_flag h); [|repeat split; cbn; auto].
  eapply res_bind; [apply need_rel, Pt|]. intros x x' Hx. cbv zeta. rewrite <- (imv_dist _ _ _ _ (proj1 Hr) Hx). destruct (nlt _ _); [|repeat split; cbn; auto].
  apply (res_bind imo).
  - destruct o; [now apply im_surface_normal|exact Nm].
  - intros n n' Hn. repeat split; cbn; auto.
Qed.
Lemma im_flat_loop o r r' l : forall st st' l', im_ray r r' -> im_flat st st' -> Forall2 im_shape l l' -> res_rel im_flat (flat_loop o r st l) (flat_loop o r' st' l').
Proof.
  induction l as [|s l IH]; intros st st' l' Hr Hst Hl; inversion Hl; subst; [exact Hst|]. cbn [flat_loop].
  eapply res_bind; [apply im_flat_step; eassumption|]. intros a b Hab. now apply IH.
Qed.
Lemma im_first_sphere l : forall l', Forall2 im_shape l l' -> opt_rel im_sphere (first_sphere l) (first_sphere l').
Proof. induction l as [|s l IH]; intros l' Hl; inversion Hl as [|? s' ? l'' Hs Hl']; subst; [exact I|]. destruct s, s'; cbn in Hs; try contradiction; cbn [first_sphere]; auto. Qed.
Lemma im_first_circle l : forall l', Forall2 im_shape l l' -> opt_rel im_circle (first_circle l) (first_circle l').
Proof. induction l as [|s l IH]; intros l' Hl; inversion Hl as [|? s' ? l'' Hs Hl']; subst; [exact I|]. destruct s, s'; cbn in Hs; try contradiction; cbn [first_circle]; auto. Qed.
Lemma im_ball_update r r' st st' h h' : im_ray r r' -> im_ball st st' -> im_hit6 h h' -> res_rel im_ball (ball_update r st h) (ball_update r' st' h').
Proof.
  intros Hr Hst (F & P1 & P2 & N1 & N2 & K). pose proof Hst as (Bh & Bm & Bp & Bn & Bs). pose proof Hr as (Hp & _). unfold ball_update. rewrite <- F. destruct (h6_flag h); [|exact Hst].
  eapply res_bind; [apply need_rel, P1|]. intros a a' Ha. cbv zeta.
  apply (res_bind im_ball).
  - rewrite <- (imv_dist _ _ _ _ Hp Ha), <- Bm. destruct (nlt _ _).
    + eapply res_bind; [apply need_rel, N1|]. intros n n' Hn. repeat split; cbn; auto with im.
    + repeat split; cbn; auto.
  - intros s1 s1' (Ch & Cm & Cp & Cn & Cs). destruct (h6_p2 h) as [b|], (h6_p2 h') as [b'|]; cbn in P2; try contradiction; [|repeat split; auto].
    rewrite <- (imv_dist _ _ _ _ Hp P2), <- Cm. destruct (nlt _ _); [|repeat split; auto].
    eapply res_bind; [apply need_rel, N2|]. intros n n' Hn. repeat split; cbn; auto with im.
Qed.
Lemma im_mirror_loop r r' l : forall st st' la la' l', im_ray r r' -> im_ball st st' -> opt_rel im_hit6 la la' -> Forall2 im_shape l l' ->
  res_rel im_ball (mirror_ball_loop r st la l) (mirror_ball_loop r' st' la' l').
Proof.
  induction l as [|s l IH]; intros st st' la la' l' Hr Hst Hla Hl; inversion Hl as [|? s' ? l'' Hs Hl']; subst; [exact Hst|]. cbn [mirror_ball_loop].
  pose proof Hst as (Bh & Bm & Bp & Bn & Bs).
  assert (Go : forall x x' y y', im_ball x x' -> opt_rel im_hit6 y y' -> res_rel im_ball (do h <- bound y; do st2 <- ball_update r x h; mirror_ball_loop r st2 y l) (do h <- bound y'; do st2 <- ball_update r' x' h; mirror_ball_loop r' st2 y' l'')).
  { intros x x' y y' Hx Hy. eapply res_bind; [apply bound_rel, Hy|]. intros h h' Hh. eapply res_bind; [apply im_ball_update; eassumption|]. intros z z' Hz. now apply IH. }
  destruct s, s'; cbn [im_shape] in Hs; try contradiction; cbv zeta; apply Go; try assumption.
  - pose proof (im_sphere_test _ _ _ _ Hs Hr) as (_ & _ & _ & _ & _ & K). rewrite <- K. repeat split; cbn; auto.
  - cbn. now apply im_sphere_test.
Qed.
Lemma im_lens_loop r r' l : forall st st' l', im_ray r r' -> im_ball st st' -> Forall2 im_shape l l' -> res_rel im_ball (lens_ball_loop r st l) (lens_ball_loop r' st' l').
Proof.
  induction l as [|s l IH]; intros st st' l' Hr Hst Hl; inversion Hl as [|? s' ? l'' Hs Hl']; subst; [exact Hst|]. cbn [lens_ball_loop].
  pose proof Hst as (Bh & Bm & Bp & Bn & Bs). apply (res_bind im_ball).
  - destruct s, s'; cbn [im_shape] in Hs; try contradiction; try exact Hst. cbv zeta. pose proof (im_sphere_test _ _ _ _ Hs Hr) as Hh. apply im_ball_update; [exact Hr| |exact Hh].
    pose proof Hh as (_ & _ & _ & _ & _ & K). rewrite <- K. repeat split; cbn; auto.
  - intros x x' Hx. now apply IH.
Qed.
Lemma im_mirror_test m m' r r' : im_mirror m m' -> im_ray r r' -> res_rel im_hit4 (mirror_test_intersect m r) (mirror_test_intersect m' r').
Proof.
  intros (_ & Hs & _ & _ & _ & Hl) Hr. unfold mirror_test_intersect. rewrite <- Hs. destruct (_ || _)%bool; [|destruct (_ =? "circular_concave_spherical")%string; [|destruct (_ =? "circular_convex_spherical")%string; [|reflexivity]]].
  - eapply res_bind; [apply im_flat_loop; [exact Hr|repeat split|exact Hl]|]. intros st st' (A & _ & B & C). eapply res_bind; [apply bound_rel, C|]. intros n n' Hn. cbn. rewrite A. repeat split; auto.
  - eapply res_bind; [apply bound_rel, im_first_sphere, Hl|]. intros s s' Hss. cbv zeta. pose proof (im_sphere_test _ _ _ _ Hss Hr) as (F & P1 & P2 & N1 & N2 & K). rewrite <- F, <- K.
    destruct (h6_flag _); [|repeat split]. eapply res_bind; [apply bound_rel, im_first_circle, Hl|]. intros c c' Hc. eapply res_bind; [apply im_circle_test; eassumption|].
    intros hc hc' (Fc & Pc & _). rewrite <- Fc. destruct (h3_flag hc); [|repeat split]. eapply res_bind; [apply need_rel, Pc|]. intros x x' Hx. eapply res_bind; [apply need_rel, P1|]. intros y y' Hy.
    rewrite <- (imv_dist _ _ _ _ Hx Hy). destruct (h6_p2 (sphere_test_intersect s r)) as [z|], (h6_p2 (sphere_test_intersect s' r')) as [z'|]; cbn in P2; try contradiction; [|repeat split; auto].
    rewrite <- (imv_dist _ _ _ _ Hx P2). destruct (nlt _ _); repeat split; auto.
  - eapply res_bind; [apply im_mirror_loop; [exact Hr|repeat split|exact I|exact Hl]|]. intros st st' (A & _ & B & C & D). cbn. rewrite A, D. repeat split; auto.
Qed.
Lemma im_mirror_do m m' r r' n n' : im_mirror m m' -> im_ray r r' -> imo n n' -> res_rel im_ray (mirror_do_intersect m r n) (mirror_do_intersect m' r' n').
Proof.
  intros (_ & _ & _ & Ht & Hd & _) Hr Hn. unfold mirror_do_intersect. rewrite <- Ht. destruct (_ =? "normal")%string; [|destruct (_ =? "dmd")%string; [|exact Hr]].
  - eapply res_bind; [apply need_rel, Hn|]. intros a b Hab. now apply im_reflect.
  - now apply im_reflect.
Qed.
Lemma im_lens_test l l' r r' : im_lens l l' -> im_ray r r' -> res_rel im_hit4 (lens_test_intersect l r) (lens_test_intersect l' r').
Proof.
  intros (_ & _ & Hs & _ & _ & _ & Hl & _) Hr. unfold lens_test_intersect. rewrite <- Hs. destruct (_ =? "spherical_biconvex")%string; [|destruct (_ =? "spherical")%string; [|reflexivity]].
  - eapply res_bind; [apply im_flat_loop; [exact Hr|repeat split|exact Hl]|]. intros st st' (A & _ & B & C). eapply res_bind; [apply bound_rel, C|]. intros n n' Hn. cbn. rewrite A. repeat split; auto.
  - eapply res_bind; [apply im_lens_loop; [exact Hr|repeat split|exact Hl]|]. intros st st' (A & _ & B & C & D). cbn. rewrite A, D. repeat split; auto.
Qed.
Lemma im_lens_do l l' r r' x x' n n' s : im_lens l l' -> im_ray r r' -> imo n n' -> res_rel im_ray (lens_do_intersect l r x n s) (lens_do_intersect l' r' x' n' s).
Proof.
  intros Hl Hr Hn. pose proof Hl as (_ & _ & _ & _ & Ht & Hi & _ & Nt & Ti & _). unfold lens_do_intersect. rewrite <- Ht, <- Hi. destruct (String.eqb_spec (le_type l) "ideal"); [contradiction|].
  destruct (_ =? "ideal_collimate")%string; [now apply im_collimate|]. destruct (_ =? "ideal_focus")%string; [now apply im_focus|].
  eapply res_bind; [apply need_rel, Hn|]. intros a b Hab. destruct (sfo_truthy s); apply im_snell; auto with im.
Qed.
Lemma im_flat_test shp l l' r r' : Forall2 im_shape l l' -> im_ray r r' -> res_rel im_hit4 (flat_test_intersect shp l r) (flat_test_intersect shp l' r').
Proof.
  intros Hl Hr. unfold flat_test_intersect. apply (res_bind im_flat).
  - destruct (_ || _)%bool; [apply im_flat_loop; [exact Hr|repeat split|exact Hl]|repeat split].
  - intros st st' (A & _ & B & C). eapply res_bind; [apply bound_rel, C|]. intros n n' Hn. cbn. rewrite A. repeat split; auto.
Qed.
Lemma im_grating_do g g' r r' n n' : im_grating g g' -> im_ray r r' -> imo n n' -> res_rel im_ray (grating_do_intersect g r n) (grating_do_intersect g' r' n').
Proof.
  intros Hg Hr Hn. unfold grating_do_intersect. eapply res_bind; [apply need_rel, Hn|]. intros a b Hab. pose proof Hr as (_ & _ & _ & Ho & _). rewrite <- Ho.
  destruct (neqb _ _); [now apply im_reflect|now apply im_reflect_grating].
Qed.
Lemma im_optic_test o o' r r' : im_optic o o' -> im_ray r r' -> res_rel im_hit4 (optic_test_intersect o r) (optic_test_intersect o' r').
Proof.
  intros Ho Hr. destruct o, o'; cbn [im_optic] in Ho; try contradiction; cbn [optic_test_intersect]; try reflexivity.
  - now apply im_compound_test.
  - now apply im_mirror_test.
  - now apply im_lens_test.
  - destruct Ho as (_ & _ & _ & Hs & _ & Hl). rewrite <- Hs. now apply im_flat_test.
  - destruct Ho as (_ & _ & _ & Hs & Hl & _). rewrite <- Hs. now apply im_flat_test.
Qed.
Definition im_pair (a b : ray xr * optic xr) : Prop := im_ray (fst a) (fst b) /\ im_optic (snd a) (snd b).
Lemma im_optic_do o o' r r' x x' n n' s : im_optic o o' -> im_ray r r' -> im x x' -> imo n n' -> res_rel im_pair (optic_do_intersect o r x n s) (optic_do_intersect o' r' x' n' s).
Proof.
  intros Ho Hr Hx Hn. destruct o, o'; cbn [im_optic] in Ho; try contradiction; cbn [optic_do_intersect]; try (split; [exact Hr|exact Ho]).
  - eapply res_bind; [apply im_compound_do; eassumption|]. intros a b Hab. split; [exact Hab|exact Ho].
  - eapply res_bind; [apply im_mirror_do; eassumption|]. intros a b Hab. split; [exact Hab|exact Ho].
  - eapply res_bind; [apply im_lens_do; eassumption|]. intros a b Hab. split; [exact Hab|exact Ho].
  - eapply res_bind; [apply im_grating_do; eassumption|]. intros a b Hab. split; [exact Hab|exact Ho].
  - split; [now apply im_set_blocked|]. destruct Ho as (A & B & C & D & E & F). cbn. repeat split; cbn; auto. apply Forall2_app; [exact F|]. constructor; [|constructor].
    split; cbn; [exact Hx|apply Hr].
  - split; [now apply im_set_blocked|exact Ho].
Qed.
Lemma im_skipped o o' : im_optic o o' -> skipped o = skipped o'.
Proof. destruct o, o'; cbn; try contradiction; reflexivity. Qed.

(* ---- the run ---- *)
Lemma im_scan_step r r' rm st st' k o o' : im_ray r r' -> im_scan st st' -> im_optic o o' -> res_rel im_scan (scan_step r rm st k o) (scan_step r' rm st' k o').
Proof.
  intros Hr Hst Ho. pose proof Hst as (A & B & C & D). unfold scan_step. rewrite <- (im_skipped _ _ Ho). destruct (skipped o); [exact Hst|].
  eapply res_bind; [apply im_optic_test; eassumption|]. intros h h' (F & P & N & S). cbv zeta. rewrite <- F, <- S. destruct (h4_flag h); [|repeat split; cbn; auto].
  eapply res_bind; [apply need_rel, P|]. intros x x' Hx. rewrite <- (imv_dist _ _ _ _ (proj1 Hr) Hx), <- A, <- B. destruct (ngt _ _); [repeat split; cbn; auto|]. destruct (ngt _ _); [|repeat split; cbn; auto].
  destruct (nlt _ _); repeat split; cbn; auto.
Qed.
Lemma im_scan_loop r r' rm w : forall st st' k w', im_ray r r' -> im_scan st st' -> Forall2 im_optic w w' -> res_rel im_scan (scan r rm st k w) (scan r' rm st' k w').
Proof.
  induction w as [|o w IH]; intros st st' k w' Hr Hst Hw; inversion Hw; subst; [exact Hst|]. cbn [scan]. eapply res_bind; [apply im_scan_step; eassumption|]. intros a b Hab. now apply IH.
Qed.
Lemma im_set_nth w : forall w' k o o', Forall2 im_optic w w' -> im_optic o o' -> Forall2 im_optic (set_nth w k o) (set_nth w' k o').
Proof. induction w as [|a w IH]; intros w' [|k] o o' Hw Ho; inversion Hw; subst; cbn; auto. Qed.
Lemma im_nth w : forall w' k, Forall2 im_optic w w' -> opt_rel im_optic (nth_error w k) (nth_error w' k).
Proof. induction w as [|a w IH]; intros w' [|k] Hw; inversion Hw; subst; cbn; auto. Qed.
Lemma im_run_cond mi st st' : im_run st st' -> run_cond mi st = run_cond mi st'.
Proof. intros ((_ & _ & _ & _ & _ & Hb & _) & _ & Hc & Hm & _). unfold run_cond. rewrite Hb, Hc, Hm. reflexivity. Qed.
Lemma im_run_body m st st' : tame m -> im_run st st' -> res_rel im_run (run_body m st) (run_body m st').
Proof.
  intros Tm (Hr & Hw & Hc & Hm & Tr & Hs & Hf). unfold run_body. cbv zeta. rewrite <- Hm.
  eapply res_bind; [apply im_scan_loop; [exact Hr|split; [reflexivity|]; split; [reflexivity|]; split; [exact Hs|exact Hf]|exact Hw]|].
  intros sc sc' (A & B & C & D). rewrite <- A. destruct (sc_hit sc); cbn [negb].
  2: { cbn [res_rel]. unfold im_run; cbn [rs_ray rs_world rs_count rs_remaining rs_sel rs_sfo]. split; [now apply im_fly|]. repeat split; auto with im. }
  eapply res_bind; [apply bound_rel, C|]. intros s s' (Ei & Ep & En). pose proof (imv_dist _ _ _ _ (proj1 Hr) Ep) as Ed. rewrite <- Ed.
  assert (Td : tame (distance_between (position (rs_ray st)) (se_pt s))) by (eapply tame_dist; [apply Hr|exact Ep]).
  set (x := distance_between _ _) in *. clearbody x. pose proof (im_fly _ _ x Td Hr) as Hfl.
  assert (Et : ray_type (rs_ray st') = ray_type (rs_ray st)) by (symmetry; apply Hr). rewrite Et, <- Hc. destruct (_ =? "faerie_fire")%string.
  - cbn [res_rel]. unfold im_run; cbn [rs_ray rs_world rs_count rs_remaining rs_sel rs_sfo]. split; [now apply im_set_blocked|]. repeat split; auto with im.
  - rewrite <- D, <- Ei. eapply res_bind; [apply res_refl|]. intros f ? <-. pose proof (im_nth _ _ (se_idx s) Hw) as Hn.
    destruct (nth_error (rs_world st) (se_idx s)) as [o|], (nth_error (rs_world st') (se_idx s)) as [o'|]; cbn in Hn; try contradiction; [|reflexivity].
    eapply res_bind; [apply im_optic_do; eassumption|]. intros [r2 o2] [r2' o2'] [H1 H2]. cbn [res_rel]. unfold im_run; cbn [rs_ray rs_world rs_count rs_remaining rs_sel rs_sfo fst snd] in *.
    split; [exact H1|]. split; [now apply im_set_nth|]. repeat split; auto with im.
Qed.
Lemma im_run_loop m mi fuel : forall st st', tame m -> im_run st st' -> res_rel im_run (run_loop fuel m mi st) (run_loop fuel m mi st').
Proof.
  induction fuel as [|fuel IH]; intros st st' Tm Hst; cbn [run_loop]; rewrite <- (im_run_cond mi _ _ Hst); destruct (run_cond mi st); try exact Hst; [reflexivity|].
  eapply res_bind; [apply im_run_body; eassumption|]. intros a b Hab. now apply IH.
Qed.
(** what a run returns: the ray and the optics *)
Definition im_result (a b : ray xr * list (optic xr)) : Prop := im_ray (fst a) (fst b) /\ Forall2 im_optic (snd a) (snd b).
Lemma im_run_run fuel m mi r r' w w' : tame m -> im_ray r r' -> Forall2 im_optic w w' -> res_rel im_result (run fuel r m w mi) (run fuel r' m w' mi).
Proof.
  intros Tm Hr Hw. unfold run. eapply res_bind; [apply im_run_loop; [exact Tm|]|].
  - unfold run_init, im_run; cbn. split; [exact Hr|]. repeat split; auto.
  - intros st st' (A & B & _). split; cbn; assumption.
Qed.
Definition im_results (a b : list (ray xr) * list (optic xr)) : Prop := Forall2 im_ray (fst a) (fst b) /\ Forall2 im_optic (snd a) (snd b).
Lemma im_run_all fuel m mi rs : forall rs' w w', tame m -> Forall2 im_ray rs rs' -> Forall2 im_optic w w' -> res_rel im_results (run_all fuel rs m w mi) (run_all fuel rs' m w' mi).
Proof.
  induction rs as [|r rs IH]; intros rs' w w' Tm Hr Hw; inversion Hr; subst; cbn [run_all]; [split; [constructor|exact Hw]|].
  eapply res_bind; [apply im_run_run; eassumption|]. intros [a wa] [b wb] [H1' H2']. cbn in *. eapply res_bind; [apply IH; eassumption|]. intros [c wc] [d wd] [H3' H4']. cbn in *.
  split; cbn; auto.
Qed.

(* ---- constructors ---- *)
Lemma im_mk_plane c c' n n' : im c c' -> im n n' -> im_plane (mk_plane c n) (mk_plane c' n').
Proof. intros Hc Hn. split; cbn; auto with im. Qed.
Lemma im_mk_ray p p' d d' wl o ty : im p p' -> im d d' -> im_ray (mk_ray p d wl o ty) (mk_ray p' d' wl o ty).
Proof. intros Hp Hd. repeat split; cbn; auto with im. Qed.
Lemma im_mk_circle c c' n n' R D : im c c' -> imo n n' -> res_rel im_circle (mk_circle c n R D) (mk_circle c' n' R D).
Proof.
  intros Hc Hn. unfold mk_circle. eapply res_bind; [apply res_refl|]. intros [a b] ? <-. destruct n, n'; cbn in Hn; try contradiction; repeat split; cbn; auto with im.
Qed.
Lemma im_mk_sphere c c' R D : im c c' -> otame R -> otame D -> res_rel im_sphere (mk_sphere c R D) (mk_sphere c' R D).
Proof.
  intros Hc HR HD. unfold mk_sphere. destruct (check_R_and_D R D) as [[a b]|e] eqn:E; [|reflexivity]. cbn [bind res_rel]. split; [exact Hc|]. split; [reflexivity|]. split; [|reflexivity]. cbn [sp_R]. exact (check_tame R D a b HR HD E).
Qed.
Lemma im_mk_infcyl c u R D : u <> r3zero -> (exists x, R = Some (Fin x)) \/ (R = None /\ exists x, D = Some (Fin x)) ->
  res_rel im_infcyl (mk_infcyl (fv c) (fv u) R D) (mk_infcyl (fv (Q c)) (fv (Q u)) R D).
Proof.
  intros Hu Hf. unfold mk_infcyl. destruct (check_R_and_D R D) as [[a b]|e] eqn:E; [|reflexivity].
  assert (Fa : exists x, a = Fin x).
  { destruct Hf as [[x ->]|[-> [x ->]]]; cbn [check_R_and_D] in E.
    - destruct D; [destruct (isclose _ _ _ _); [|discriminate]|]; injection E as <- <-; eauto.
    - rewrite nofZ_fin, ndiv_fin in E by lra. injection E as <- <-. eauto. }
  destruct Fa as [x ->]. cbn. exists c, (dirn u), x, b, (mk_plane (fv c) (fv u)), (mk_plane (fv (Q c)) (fv (Q u))). split; [now apply dirn_unit|]. split; [apply im_mk_plane; apply imv_fv|].
  rewrite !unit_vector_fv by (try apply q_nonzero; assumption). rewrite q_dirn. auto.
Qed.
Lemma im_unit_o n n' : imo n n' -> res_rel im (unit_vector_o n) (unit_vector_o n').
Proof. destruct n, n'; cbn; try tauto. apply imv_unit. Qed.
Definition imo_tangent := opt_rel im_tangent.
Lemma im_unit_tangent t t' : imo_tangent t t' -> res_rel im_tangent (unit_vector_o t) (unit_vector_o t').
Proof. destruct t, t'; cbn; try tauto. intros [H|H]; [left; now apply imv_unit|right; now apply ax_unit]. Qed.
Lemma isclose_opp x : isclose (Fin (- x)) (nofZ 0) (dec 1 5) (dec 1 8) = isclose (Fin x) (nofZ 0) (dec 1 5) (dec 1 8).
Proof. unfold isclose. rewrite nofZ_fin, !dec_fin by lia. rewrite ?nsub_fin, ?nabs_fin. replace (- x - 0) with (- (x - 0)) by ring. rewrite Rabs_Ropp. rewrite !nisfinite_fin. reflexivity. Qed.
Lemma im_close n n' t t' : im n n' -> im_tangent t t' -> isclose (dot n t) (nofZ 0) (dec 1 5) (dec 1 8) = isclose (dot n' t') (nofZ 0) (dec 1 5) (dec 1 8).
Proof.
  intros Hn [Ht|[(y & -> & ->)|[N N']]]; [now rewrite (imv_dot _ _ _ _ Hn Ht)| |now rewrite !nan_dot_r by assumption].
  destruct Hn as [(x & -> & ->)|[N N']]; [|now rewrite !nan_dot_l by assumption]. rewrite !dot_fv, dot_opp_r, (m_dot Q HQ), isclose_opp. reflexivity.
Qed.
Lemma im_mk_rectangle c c' n n' t t' h w : im c c' -> imo n n' -> imo_tangent t t' -> otame h -> otame w -> res_rel im_rectangle (mk_rectangle c n t h w) (mk_rectangle c' n' t' h w).
Proof.
  intros Hc Hn Ht Th Tw. unfold mk_rectangle. eapply res_bind; [apply im_unit_o, Hn|]. intros a a' Ha. eapply res_bind; [apply im_unit_tangent, Ht|]. intros b b' Hb.
  rewrite <- (im_close _ _ _ _ Ha Hb). destruct (negb _); [reflexivity|]. cbv zeta.
  destruct (check_h_and_w h w) as [[x y]|e] eqn:E; [|reflexivity]. cbn [bind]. eapply res_bind; [apply need_rel, Hn|]. intros d d' Hd.
  assert (tame x /\ tame y) as [Tx Ty].
  { destruct h as [h0|], w as [w0|]; cbn [check_h_and_w] in E; try discriminate. destruct (nlt h0 _); [discriminate|]. destruct (nlt w0 _); [discriminate|]. injection E as <- <-. split; [now apply Th|now apply Tw]. }
  assert (T2 : forall z, tame z -> (exists u, ndiv z (nofZ 2) = Fin u) \/ ndiv z (nofZ 2) = XNaN).
  { intros z Z. destruct (tame_cases z Z) as [[u ->]| ->]; [left; exists (u / 2); rewrite nofZ_fin, ndiv_fin by lra; reflexivity|right; apply div_nan_l]. }
  cbn [res_rel]. unfold im_rectangle; cbn [re_center re_normal re_tangent re_h re_w re_plane]. split; [exact Hc|]. split; [exact Ha|]. split; [exact Hb|]. split; [reflexivity|]. split; [reflexivity|].
  split; [|now apply im_mk_plane].
  unfold no_corners; cbn [re_b0 re_b1 re_b2 re_b3].
  assert (Bad : forall c c' u u' v v', (has_nan c /\ has_nan c') \/ (has_nan u /\ has_nan u') \/ (has_nan v /\ has_nan v') ->
    (has_nan (vsub (vadd c u) v) /\ has_nan (vadd (vadd c u) v) /\ has_nan (vadd (vsub c u) v) /\ has_nan (vsub (vsub c u) v)) /\
    (has_nan (vsub (vadd c' u') v') /\ has_nan (vadd (vadd c' u') v') /\ has_nan (vadd (vsub c' u') v') /\ has_nan (vsub (vsub c' u') v'))) by (intros ? ? ? ? ? ? [[? ?]|[[? ?]|[? ?]]]; repeat split; auto with im).
  destruct (T2 x Tx) as [[hx ->]| ->]; [|right; apply Bad; right; left; split; auto with im]. destruct (T2 y Ty) as [[wy ->]| ->]; [|right; apply Bad; right; right; split; auto with im].
  destruct Hc as [(c0 & -> & ->)|[N N']]; [|right; apply Bad; auto]. destruct Ha as [(n0 & -> & ->)|[N N']]; [|right; apply Bad; right; right; split; auto with im].
  assert (Orth : forall n t : R3, (hx * t)%r3 ∙ (wy * (n × t))%r3 = 0) by (clear; intros; r3_ring).
  unfold corners; cbn [re_b0 re_b1 re_b2 re_b3].
  destruct Hb as [[(t0 & -> & ->)|[N N']]|[(t0 & -> & ->)|[N N']]]; [| right; apply Bad; right; left; split; auto with im| |right; apply Bad; right; left; split; auto with im];
    left; exists c0, (hx * t0)%r3, (wy * (n0 × t0))%r3; (split; [apply Orth|]); rewrite !cross_fv, !vscale_fv, ?vadd_fv, ?vsub_fv, ?vadd_fv, ?vsub_fv; (split; [repeat split|]).
  - left. rewrite !(m_scale Q HQ), (m_cross Q HQ). clear. repeat split; f_equal; r3_ring.
  - right. rewrite !(m_scale Q HQ), (m_cross Q HQ). clear. repeat split; f_equal; r3_ring.
Qed.
Lemma im_mk_mirror c c' shp n n' D w h f t t' ty dm dm' : im c c' -> imo n n' -> imo_tangent t t' -> imo dm dm' -> otame D -> otame w -> otame h -> otame f ->
  res_rel im_mirror (mk_mirror c shp n D w h f t ty dm) (mk_mirror c' shp n' D w h f t' ty dm').
Proof.
  intros Hc Hn Ht Hm TD Tw Th Tf. unfold mk_mirror. eapply res_bind; [apply im_unit_o, Hm|]. intros m m' Hmm.
  destruct (_ =? "circular_flat")%string; [|destruct (_ =? "rectangular_flat")%string; [|destruct (_ =? "circular_concave_spherical")%string; [|destruct (_ =? "circular_convex_spherical")%string; [|reflexivity]]]].
  - eapply res_bind; [apply im_unit_o, Hn|]. intros a a' Ha. eapply res_bind; [apply im_mk_circle; eassumption|]. intros e e' He. cbn. repeat split; cbn; auto.
  - eapply res_bind; [apply im_unit_o, Hn|]. intros a a' Ha. eapply res_bind; [apply im_mk_rectangle; eassumption|]. intros e e' He. cbn. repeat split; cbn; auto.
  - eapply res_bind; [apply im_unit_o, Hn|]. intros a a' Ha. destruct f as [f|]; [|reflexivity]. cbn [need bind]. cbv zeta. assert (Tr : tame (nmul f (nofZ 2))) by (apply tame_mul; [now apply Tf|exact I]).
    eapply res_bind; [apply im_mk_circle; eassumption|]. intros e e' He. eapply res_bind; [apply im_mk_sphere; [apply imv_add; [exact Hc|apply imv_scale; [exact Tr|exact Ha]]|intros z Z; injection Z as <-; exact Tr|intros z Z; discriminate]|].
    intros s s' Hs. cbn. repeat split; cbn; auto.
  - eapply res_bind; [apply im_mk_sphere; [exact Hc|intros z Z; discriminate|exact TD]|]. intros s s' Hs. cbn. repeat split; cbn; auto.
Qed.
Lemma im_mk_lens c c' n n' shp D f ty ix : im c c' -> imo n n' -> otame D -> otame f -> tame ix -> ty <> "ideal"%string -> res_rel im_lens (mk_lens c n shp D f ty ix) (mk_lens c' n' shp D f ty ix).
Proof.
  intros Hc Hn TD Tf Ti Nt. unfold mk_lens. cbv zeta.
  assert (Hu : imo (match n with Some v => Some (unit_vector v) | None => None end) (match n' with Some v => Some (unit_vector v) | None => None end)) by (destruct n, n'; cbn in *; auto with im).
  destruct (_ =? "spherical_biconvex")%string; [|destruct (_ =? "spherical")%string; [|reflexivity]].
  - eapply res_bind; [apply im_mk_circle; eassumption|]. intros e e' He. cbn [res_rel]. unfold im_lens; cbn [le_position le_normal le_shape le_f le_type le_index le_surfaces]. repeat (split; auto).
  - eapply res_bind; [apply im_mk_sphere; [exact Hc|intros z Z; discriminate|exact TD]|]. intros s s' Hs. cbn [res_rel]. unfold im_lens; cbn [le_position le_normal le_shape le_f le_type le_index le_surfaces]. repeat (split; auto).
Qed.
Lemma im_mk_grating c c' n n' t t' shp w h G : im c c' -> imo n n' -> opt_rel ax t t' -> otame w -> otame h -> res_rel im_grating (mk_grating c n t shp w h G) (mk_grating c' n' t' shp w h G).
Proof.
  intros Hc Hn Ht Tw Th. unfold mk_grating. eapply res_bind; [apply im_unit_o, Hn|]. intros a a' Ha. eapply (res_bind ax); [destruct t, t'; cbn in Ht |- *; try tauto; now apply ax_unit|]. intros b b' Hb. destruct (_ =? _)%string; [|reflexivity].
  eapply res_bind; [apply im_mk_rectangle; try eassumption; destruct t, t'; cbn in Ht |- *; try tauto; now right|]. intros e e' He. cbn. repeat split; cbn; auto.
Qed.
Lemma im_mk_detector c c' n n' t t' shp w h : im c c' -> imo n n' -> imo_tangent t t' -> otame w -> otame h -> res_rel im_detector (mk_detector c n t shp w h) (mk_detector c' n' t' shp w h).
Proof.
  intros Hc Hn Ht Tw Th. unfold mk_detector. eapply res_bind; [apply im_unit_o, Hn|]. intros a a' Ha. eapply res_bind; [apply im_unit_tangent, Ht|]. intros b b' Hb. destruct (_ =? _)%string; [|reflexivity].
  eapply res_bind; [apply im_mk_rectangle; eassumption|]. intros e e' He. cbn. repeat split; cbn; auto.
Qed.
Lemma im_mk_base c c' n n' : im c c' -> imo n n' -> res_rel im_base (mk_base c n) (mk_base c' n').
Proof. intros Hc Hn. unfold mk_base. eapply res_bind; [apply im_unit_o, Hn|]. intros a a' Ha. split; cbn; auto. Qed.
End Mir.
