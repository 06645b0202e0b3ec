(** Rotation of rays and scenes about the origin, and its effect on every modelled function except the ideal thin lens. *)
From Coq Require Import Reals ZArith Lra Lia String List Bool.
From Verif Require Import PyErr Num Vec Shapes Csg Optics Spec XReal RVec VecProofs CylProofs.
Import ListNotations.
Local Open Scope R_scope.

(** A rotation of space: linear, keeps scalar products and orientation. *)
Record rotation (Q : R3 -> R3) : Prop := {
  q_add : forall a b, Q (a + b)%r3 = (Q a + Q b)%r3;
  q_scale : forall s a, Q (s * a)%r3 = (s * Q a)%r3;
  q_dot : forall a b, Q a ∙ Q b = a ∙ b;
  q_cross : forall a b, Q (a × b)%r3 = (Q a × Q b)%r3 }.

(** vectors with a NaN component *)
Definition has_nan (a : vec xr) : Prop := vx a = XNaN \/ vy a = XNaN \/ vz a = XNaN.
(** numbers that are not infinite *)
Definition tame (s : xr) : Prop := match s with Fin _ | XNaN => True | _ => False end.

(* ---- relations between values with options and exceptions ---- *)
Definition opt_rel {A B} (P : A -> B -> Prop) (a : option A) (b : option B) : Prop :=
  match a, b with Some x, Some y => P x y | None, None => True | _, _ => False end.
Definition res_rel {A B} (P : A -> B -> Prop) (a : Res A) (b : Res B) : Prop :=
  match a, b with Ok x, Ok y => P x y | Err e, Err f => e = f | _, _ => False end.

Section Rot.
Variable Q : R3 -> R3.

(* ---- what turning a scene means: positions and directions turn, sizes and strings do not ---- *)
(** [b] is the vector [a] turned; vectors that contain a NaN count as one. *)
Definition rv (a b : vec xr) : Prop := (exists x, a = fv x /\ b = fv (Q x)) \/ (has_nan a /\ has_nan b).
Definition rov := opt_rel rv.
Definition r_ray (r s : ray xr) : Prop :=
  rv (position r) (position s) /\ rv (direction r) (direction s) /\ wavelength r = wavelength s /\ order r = order s /\
  Forall2 rv (point_history r) (point_history s) /\ blocked r = blocked s /\ ray_type r = ray_type s.
Definition r_plane (p q : plane xr) : Prop := rv (pl_center p) (pl_center q) /\ rv (pl_normal p) (pl_normal q).
Definition r_circle (c e : circle xr) : Prop :=
  rv (ci_center c) (ci_center e) /\ ci_R c = ci_R e /\ ci_D c = ci_D e /\ rov (ci_normal c) (ci_normal e) /\ opt_rel r_plane (ci_plane c) (ci_plane e).
(** cylinders: finite centre, unit axis, finite radius *)
Definition r_infcyl (c e : infcyl xr) : Prop :=
  exists p u rad D pl pl', is_unit u /\ r_plane pl pl' /\ c = mkInfCyl (fv p) (Fin rad) D (fv u) pl /\ e = mkInfCyl (fv (Q p)) (Fin rad) D (fv (Q u)) pl'.
Definition r_sphere (s e : sphere xr) : Prop := rv (sp_center s) (sp_center e) /\ sp_R s = sp_R e /\ tame (sp_R s) /\ sp_D s = sp_D e.
Definition r_cylinder (c e : cylinder xr) : Prop := rv (cy_center c) (cy_center e) /\ cy_R c = cy_R e /\ cy_D c = cy_D e /\ cy_h c = cy_h e.
Definition r_rectangle (q e : rectangle xr) : Prop :=
  rv (re_center q) (re_center e) /\ rv (re_normal q) (re_normal e) /\ rv (re_tangent q) (re_tangent e) /\ rv (re_tangent2 q) (re_tangent2 e) /\
  re_h q = re_h e /\ re_w q = re_w e /\ rv (re_b0 q) (re_b0 e) /\ rv (re_b1 q) (re_b1 e) /\ rv (re_b2 q) (re_b2 e) /\ rv (re_b3 q) (re_b3 e) /\
  r_plane (re_plane q) (re_plane e).
Definition r_shape (s e : shape xr) : Prop :=
  match s, e with
  | SPlane a, SPlane b => r_plane a b | SCircle a, SCircle b => r_circle a b | SInfCyl a, SInfCyl b => r_infcyl a b
  | SSphere a, SSphere b => r_sphere a b | SCylinder a, SCylinder b => r_cylinder a b | SRectangle a, SRectangle b => r_rectangle a b
  | _, _ => False
  end.
Definition r_key (k e : key xr) : Prop :=
  match k, e with KStr a, KStr b => a = b | KShape a, KShape b => r_shape a b | _, _ => False end.
Fixpoint r_tree (t e : tree (key xr)) : Prop :=
  match t, e with
  | Nil, Nil => True
  | Node k l r, Node k' l' r' => r_key k k' /\ r_tree l l' /\ r_tree r r'
  | _, _ => False
  end.
Definition r_base (b e : base xr) : Prop := rv (ba_position b) (ba_position e) /\ rv (ba_normal b) (ba_normal e).
Definition r_compound (c e : compound xr) : Prop :=
  r_tree (co_tree c) (co_tree e) /\ co_surface_behavior c = co_surface_behavior e /\ co_index c = co_index e /\ tame (co_index c).
Definition r_mirror (m e : mirror xr) : Prop :=
  rv (mi_position m) (mi_position e) /\ mi_shape m = mi_shape e /\ rov (mi_normal m) (mi_normal e) /\ mi_type m = mi_type e /\
  rv (mi_dmd_normal m) (mi_dmd_normal e) /\ Forall2 r_shape (mi_surfaces m) (mi_surfaces e).
(** any lens but the ideal thin lens *)
Definition r_lens (l e : lens xr) : Prop :=
  rv (le_position l) (le_position e) /\ rov (le_normal l) (le_normal e) /\ le_shape l = le_shape e /\ le_f l = le_f e /\ le_type l = le_type e /\
  le_index l = le_index e /\ Forall2 r_shape (le_surfaces l) (le_surfaces e) /\
  le_type l <> "ideal"%string /\ tame (le_index l) /\ (forall f, le_f l = Some f -> tame f).
Definition r_grating (g e : grating xr) : Prop :=
  rv (gr_position g) (gr_position e) /\ rv (gr_normal g) (gr_normal e) /\ rv (gr_tangent g) (gr_tangent e) /\ gr_shape g = gr_shape e /\
  gr_G g = gr_G e /\ Forall2 r_shape (gr_surfaces g) (gr_surfaces e).
Definition r_record (a b : vec xr * xr) : Prop := rv (fst a) (fst b) /\ snd a = snd b.
Definition r_detector (d e : detector xr) : Prop :=
  rv (de_position d) (de_position e) /\ rv (de_normal d) (de_normal e) /\ rv (de_tangent d) (de_tangent e) /\ de_shape d = de_shape e /\
  Forall2 r_shape (de_surfaces d) (de_surfaces e) /\ Forall2 r_record (de_hit_data d) (de_hit_data e).
Definition r_optic (o e : optic xr) : Prop :=
  match o, e with
  | OOptic a, OOptic b => r_base a b | OCompound a, OCompound b => r_compound a b | OMirror a, OMirror b => r_mirror a b
  | OLens a, OLens b => r_lens a b | OGrating a, OGrating b => r_grating a b | ODetector a, ODetector b => r_detector a b
  | OAnnotation a, OAnnotation b => r_base a b | OFilter a, OFilter b => r_base a b | OWindow a, OWindow b => r_base a b
  | OBlock a, OBlock b => r_base a b | _, _ => False
  end.

(* ---- results of the internal functions ---- *)
Definition r_hit3 (h e : hit3 xr) : Prop := h3_flag h = h3_flag e /\ rov (h3_pt h) (h3_pt e) /\ rov (h3_normal h) (h3_normal e).
Definition r_hit6 (h e : hit6 xr) : Prop :=
  h6_flag h = h6_flag e /\ rov (h6_p1 h) (h6_p1 e) /\ rov (h6_p2 h) (h6_p2 e) /\ rov (h6_n1 h) (h6_n1 e) /\ rov (h6_n2 h) (h6_n2 e) /\ h6_count h = h6_count e.
Definition r_ires (i e : ires xr) : Prop :=
  match i, e with INone, INone => True | I3 a, I3 b => r_hit3 a b | I6 a, I6 b => r_hit6 a b | _, _ => False end.
Definition r_hit4 (h e : hit4 xr) : Prop := h4_flag h = h4_flag e /\ rov (h4_pt h) (h4_pt e) /\ rov (h4_normal h) (h4_normal e) /\ h4_sfo h = h4_sfo e.
Definition r_flat (s e : flat_st) : Prop :=
  fs_hit s = fs_hit e /\ fs_min s = fs_min e /\ rov (fs_pt s) (fs_pt e) /\ opt_rel rov (fs_normal s) (fs_normal e).
Definition r_ball (s e : ball_st) : Prop :=
  bs_hit s = bs_hit e /\ bs_min s = bs_min e /\ rov (bs_pt s) (bs_pt e) /\ rov (bs_normal s) (bs_normal e) /\ bs_sfo s = bs_sfo e.
Definition r_sel (s e : sel) : Prop := se_idx s = se_idx e /\ rv (se_pt s) (se_pt e) /\ rov (se_normal s) (se_normal e).
Definition r_scan (s e : scan_st) : Prop :=
  sc_hit s = sc_hit e /\ sc_min s = sc_min e /\ opt_rel r_sel (sc_sel s) (sc_sel e) /\ sc_sfo s = sc_sfo e.
Definition r_run (s e : run_st) : Prop :=
  r_ray (rs_ray s) (rs_ray e) /\ Forall2 r_optic (rs_world s) (rs_world e) /\ rs_count s = rs_count e /\ rs_remaining s = rs_remaining e /\
  tame (rs_remaining s) /\ opt_rel r_sel (rs_sel s) (rs_sel e) /\ rs_sfo s = rs_sfo e.

(* ---- numbers ---- *)
Lemma tame_fin x : tame (Fin x). Proof. exact I. Qed.
Lemma tame_nan : tame XNaN. Proof. exact I. Qed.
Lemma tame_nofZ z : tame (nofZ z). Proof. exact I. Qed.
Lemma tame_cases s : tame s -> (exists x, s = Fin x) \/ s = XNaN.
Proof. destruct s; cbn; intuition eauto. Qed.
Lemma tame_opp a : tame a -> tame (nopp a). Proof. destruct a; cbn; tauto. Qed.
Lemma tame_add a b : tame a -> tame b -> tame (nadd a b). Proof. destruct a, b; cbn; tauto. Qed.
Lemma tame_sub a b : tame a -> tame b -> tame (nsub a b). Proof. destruct a, b; cbn; tauto. Qed.
Lemma tame_mul a b : tame a -> tame b -> tame (nmul a b). Proof. destruct a, b; cbn; tauto. Qed.
Lemma tame_sqrt a : tame a -> tame (nsqrt a). Proof. destruct a; try (cbn; tauto). intros _. change (tame (if Rlt_dec r 0 then XNaN else Fin (sqrt r))). destruct (Rlt_dec r 0); exact I. Qed.
Lemma tame_div a b : tame a -> tame b -> b <> Fin 0 -> tame (ndiv a b).
Proof. destruct a, b; try (cbn; tauto). intros _ _ H. change (tame (if Req_EM_T r0 0 then (if Rlt_dec 0 r then PInf else if Rlt_dec r 0 then NInf else XNaN) else Fin (r / r0))). destruct (Req_EM_T r0 0); [subst; now contradiction H|exact I]. Qed.
Lemma tame_dec m k : (0 <= k)%Z -> tame (dec m k). Proof. intros H. rewrite dec_fin by exact H. exact I. Qed.
Lemma tame_asin a : tame (narcsin a).
Proof. destruct a; try exact I. change (tame (xasin (Fin r))). unfold xasin. destruct (Rle_dec _ _); [destruct (Rle_dec _ _)|]; exact I. Qed.
Lemma tame_sin a : tame (nsin a). Proof. destruct a; exact I. Qed.
Lemma tame_atan2 a b : tame (narctan2 a b). Proof. destruct a, b; exact I. Qed.
Hint Resolve tame_fin tame_nan tame_nofZ tame_opp tame_add tame_sub tame_mul tame_sqrt tame_asin tame_sin tame_atan2 : rot.

Lemma mul_nan_l a : nmul XNaN a = XNaN. Proof. now destruct a. Qed.
Lemma mul_nan_r a : nmul a XNaN = XNaN. Proof. now destruct a. Qed.
Lemma add_nan_l a : nadd XNaN a = XNaN. Proof. now destruct a. Qed.
Lemma add_nan_r a : nadd a XNaN = XNaN. Proof. now destruct a. Qed.
Lemma sub_nan_l a : nsub XNaN a = XNaN. Proof. now destruct a. Qed.
Lemma sub_nan_r a : nsub a XNaN = XNaN. Proof. now destruct a. Qed.
Lemma div_nan_l a : ndiv XNaN a = XNaN. Proof. now destruct a. Qed.
Lemma div_nan_r a : ndiv a XNaN = XNaN. Proof. now destruct a. Qed.
Hint Rewrite mul_nan_l mul_nan_r add_nan_l add_nan_r sub_nan_l sub_nan_r div_nan_l div_nan_r : nan.

(* ---- vectors with a NaN ---- *)
Lemma nan_dot_l a b : has_nan a -> dot a b = XNaN.
Proof. unfold dot. intros [-> | [-> | -> ]]; autorewrite with nan; reflexivity. Qed.
Lemma nan_dot_r a b : has_nan b -> dot a b = XNaN.
Proof. unfold dot. intros [-> | [-> | -> ]]; autorewrite with nan; reflexivity. Qed.
Lemma nan_norm a : has_nan a -> norm a = XNaN.
Proof. intros H. unfold norm. rewrite nan_dot_l by exact H. reflexivity. Qed.
Lemma nan_add_l a b : has_nan a -> has_nan (vadd a b).
Proof. unfold has_nan, vadd; cbn [vx vy vz]. intros [-> | [-> | -> ]]; autorewrite with nan; auto. Qed.
Lemma nan_add_r a b : has_nan b -> has_nan (vadd a b).
Proof. unfold has_nan, vadd; cbn [vx vy vz]. intros [-> | [-> | -> ]]; autorewrite with nan; auto. Qed.
Lemma nan_sub_l a b : has_nan a -> has_nan (vsub a b).
Proof. unfold has_nan, vsub; cbn [vx vy vz]. intros [-> | [-> | -> ]]; autorewrite with nan; auto. Qed.
Lemma nan_sub_r a b : has_nan b -> has_nan (vsub a b).
Proof. unfold has_nan, vsub; cbn [vx vy vz]. intros [-> | [-> | -> ]]; autorewrite with nan; auto. Qed.
Lemma nan_opp a : has_nan a -> has_nan (vopp a).
Proof. unfold has_nan, vopp; cbn [vx vy vz]. intros [-> | [-> | -> ]]; auto. Qed.
Lemma nan_scale s a : has_nan a -> has_nan (vscale s a).
Proof. unfold has_nan, vscale; cbn [vx vy vz]. intros [-> | [-> | -> ]]; autorewrite with nan; auto. Qed.
Lemma nan_scale_l a : has_nan (vscale XNaN a).
Proof. left. unfold vscale; cbn [vx]. apply mul_nan_l. Qed.
Lemma nan_divs a s : has_nan a -> has_nan (vdivs a s).
Proof. unfold has_nan, vdivs; cbn [vx vy vz]. intros [-> | [-> | -> ]]; autorewrite with nan; auto. Qed.
Lemma nan_divs_r a : has_nan (vdivs a XNaN).
Proof. left. unfold vdivs; cbn [vx]. apply div_nan_r. Qed.
Lemma nan_cross_l a b : has_nan a -> has_nan (cross a b).
Proof. unfold has_nan, cross; cbn [vx vy vz]. intros [-> | [-> | -> ]]; autorewrite with nan; auto. Qed.
Lemma nan_cross_r a b : has_nan b -> has_nan (cross a b).
Proof. unfold has_nan, cross; cbn [vx vy vz]. intros [-> | [-> | -> ]]; autorewrite with nan; auto. Qed.
Lemma all_nan : has_nan (V XNaN XNaN XNaN). Proof. now left. Qed.
Hint Resolve nan_add_l nan_add_r nan_sub_l nan_sub_r nan_opp nan_scale nan_scale_l nan_divs nan_divs_r nan_cross_l nan_cross_r all_nan : rot.

Hypothesis HQ : rotation Q.
Lemma q_sub a b : Q (a - b)%r3 = (Q a - Q b)%r3.
Proof.
  assert (E : forall x y, (x - y)%r3 = (x + (-1) * y)%r3) by (intros; clear; r3_ring).
  rewrite !E, (q_add Q HQ), (q_scale Q HQ). reflexivity.
Qed.
Lemma q_opp a : Q (- a)%r3 = (- Q a)%r3.
Proof.
  assert (E : forall x, (- x)%r3 = ((-1) * x)%r3) by (intros; clear; r3_ring).
  rewrite !E, (q_scale Q HQ). reflexivity.
Qed.
Lemma q_zero : Q r3zero = r3zero.
Proof.
  assert (E : forall x, (0 * x)%r3 = r3zero) by (intros; clear; r3_ring).
  rewrite <- (E r3zero) at 1. rewrite (q_scale Q HQ). apply E.
Qed.
Lemma q_len a : len (Q a) = len a.
Proof. apply len_eq_of_sq; [apply len_nonneg|]. rewrite (q_dot Q HQ), len_sq. reflexivity. Qed.
Lemma q_dirn a : Q (dirn a) = dirn (Q a).
Proof. unfold dirn. rewrite (q_scale Q HQ), q_len. reflexivity. Qed.
Lemma q_nonzero a : a <> r3zero -> Q a <> r3zero.
Proof. intros H E. apply H. apply len_zero. rewrite <- q_len, E. apply len_zero_r3. Qed.
Lemma q_unit a : is_unit a -> is_unit (Q a).
Proof. unfold is_unit. now rewrite (q_dot Q HQ). Qed.
Lemma q_perp u a : Q (perp u a) = perp (Q u) (Q a).
Proof. unfold perp. rewrite q_sub, (q_scale Q HQ), (q_dot Q HQ). reflexivity. Qed.

Lemma rv_fv x : rv (fv x) (fv (Q x)). Proof. left. eauto. Qed.
Lemma rv_nan a b : has_nan a -> has_nan b -> rv a b. Proof. right. auto. Qed.
Ltac rvs := repeat match goal with H : rv _ _ |- _ => destruct H as [(? & -> & ->)|[? ?]] end.
Lemma rv_add a a' b b' : rv a a' -> rv b b' -> rv (vadd a b) (vadd a' b').
Proof. intros. rvs; [|right; auto with rot..]. rewrite !vadd_fv, <- (q_add Q HQ). apply rv_fv. Qed.
Lemma rv_sub a a' b b' : rv a a' -> rv b b' -> rv (vsub a b) (vsub a' b').
Proof. intros. rvs; [|right; auto with rot..]. rewrite !vsub_fv, <- q_sub. apply rv_fv. Qed.
Lemma rv_opp a a' : rv a a' -> rv (vopp a) (vopp a').
Proof. intros. rvs; [|right; auto with rot..]. rewrite !vopp_fv, <- q_opp. apply rv_fv. Qed.
Lemma rv_scale s a a' : tame s -> rv a a' -> rv (vscale s a) (vscale s a').
Proof.
  intros Hs H. destruct (tame_cases s Hs) as [[x ->]| ->]; [|right; auto with rot]. rvs; [|right; auto with rot..].
  rewrite !vscale_fv, <- (q_scale Q HQ). apply rv_fv.
Qed.
Lemma rv_cross a a' b b' : rv a a' -> rv b b' -> rv (cross a b) (cross a' b').
Proof. intros. rvs; [|right; auto with rot..]. rewrite !cross_fv, <- (q_cross Q HQ). apply rv_fv. Qed.
Lemma rv_dot a a' b b' : rv a a' -> rv b b' -> dot a b = dot a' b'.
Proof.
  intros [(x & -> & ->)|[N N']] [(y & -> & ->)|[M M']]; [rewrite !dot_fv, (q_dot Q HQ); reflexivity|rewrite !nan_dot_r by assumption; reflexivity|..];
  rewrite !nan_dot_l by assumption; reflexivity.
Qed.
Lemma tame_dot a a' b b' : rv a a' -> rv b b' -> tame (dot a b).
Proof.
  intros [(x & -> & ->)|[N N']] [(y & -> & ->)|[M M']]; [exact I|rewrite nan_dot_r by assumption; exact I|rewrite nan_dot_l by assumption; exact I..].
Qed.
Lemma rv_norm a a' : rv a a' -> norm a = norm a'.
Proof. intros. unfold norm. f_equal. now apply rv_dot. Qed.
Lemma rv_dist a a' b b' : rv a a' -> rv b b' -> distance_between a b = distance_between a' b'.
Proof. intros. unfold distance_between. apply rv_norm. now apply rv_sub. Qed.
Lemma tame_norm a a' : rv a a' -> tame (norm a).
Proof. intros. unfold norm. apply tame_sqrt. eapply tame_dot; eassumption. Qed.
Lemma tame_dist a a' b b' : rv a a' -> rv b b' -> tame (distance_between a b).
Proof. intros. unfold distance_between. eapply tame_norm. eapply rv_sub; eassumption. Qed.
Lemma rv_unit a a' : rv a a' -> rv (unit_vector a) (unit_vector a').
Proof.
  intros H. rvs.
  - destruct (Req_EM_T (len x) 0) as [E|E].
    + apply len_zero in E. subst. rewrite q_zero, unit_vector_zero. right; auto with rot.
    + assert (x <> r3zero) by (intros ->; apply E, len_zero_r3). rewrite !unit_vector_fv by (try apply q_nonzero; assumption). rewrite <- q_dirn. apply rv_fv.
  - right. unfold unit_vector. auto with rot.
Qed.
Lemma rv_divs_norm a a' : rv a a' -> rv (vdivs a (norm a)) (vdivs a' (norm a')).
Proof. apply rv_unit. Qed.
Lemma project_alt x n : project_onto_plane x n = vsub x (vscale (ndiv (dot x n) (norm n)) (unit_vector n)).
Proof. reflexivity. Qed.
Lemma norm_zero_unit a a' : rv a a' -> norm a = Fin 0 -> has_nan (unit_vector a) /\ has_nan (unit_vector a').
Proof.
  intros H E. rvs.
  - rewrite norm_fv in E. injection E as E. apply len_zero in E. subst. rewrite q_zero, unit_vector_zero. auto with rot.
  - split; unfold unit_vector; auto with rot.
Qed.
Lemma rv_project x x' n n' : rv x x' -> rv n n' -> rv (project_onto_plane x n) (project_onto_plane x' n').
Proof.
  intros Hx Hn. rewrite !project_alt. rewrite <- (rv_dot _ _ _ _ Hx Hn), <- (rv_norm _ _ Hn). apply rv_sub; [exact Hx|].
  assert (D : norm n = Fin 0 \/ norm n <> Fin 0).
  { destruct (norm n) as [l| | |]; try (right; discriminate). destruct (Req_EM_T l 0); [left; congruence|right; congruence]. }
  destruct D as [D|D].
  - destruct (norm_zero_unit _ _ Hn D). right. auto with rot.
  - apply rv_scale; [|now apply rv_unit]. apply tame_div; [eapply tame_dot; eassumption|eapply tame_norm; eassumption|exact D].
Qed.
Hint Resolve rv_add rv_sub rv_opp rv_cross rv_unit rv_divs_norm rv_project rv_fv tame_dot tame_norm tame_dist rv_scale : rot.

(* ---- options and exceptions ---- *)
Lemma res_bind {A B C D} (P : A -> B -> Prop) (R : C -> D -> Prop) a b f g :
  res_rel P a b -> (forall x y, P x y -> res_rel R (f x) (g y)) -> res_rel R (bind a f) (bind b g).
Proof. destruct a, b; cbn; try tauto. intros H K. now apply K. Qed.
Lemma res_refl {A} (a : Res A) : res_rel eq a a. Proof. destruct a; reflexivity. Qed.
Lemma need_rel {A B} (P : A -> B -> Prop) a b : opt_rel P a b -> res_rel P (need a) (need b).
Proof. destruct a, b; cbn; tauto. Qed.
Lemma bound_rel {A B} (P : A -> B -> Prop) a b : opt_rel P a b -> res_rel P (bound a) (bound b).
Proof. destruct a, b; cbn; tauto. Qed.
Lemma rov_some a b : rv a b -> rov (Some a) (Some b). Proof. auto. Qed.
Lemma rov_none : rov None None. Proof. exact I. Qed.
Hint Resolve rov_some rov_none : rot.

(* ---- shapes ---- *)
Lemma tame_nonzero_gt d (e : xr) : ngt (nabs d) e = true -> e = Fin 1e-9 -> tame d -> exists x, d = Fin x /\ x <> 0.
Proof.
  intros H -> T. destruct (tame_cases d T) as [[x ->]| ->]; [|discriminate]. exists x. split; [reflexivity|].
  rewrite nabs_fin, ngt_fin in H. unfold Rltb in H. destruct (Rlt_dec _ _) as [L|]; [|discriminate]. intros ->. rewrite Rabs_R0 in L. lra.
Qed.
Lemma arb_eps : ARB_EPSILON_VALUE = Fin 1e-9.
Proof. unfold ARB_EPSILON_VALUE. rewrite dec_fin by lia. f_equal. Qed.
Lemma r_plane_test p p' r r' : r_plane p p' -> r_ray r r' -> r_hit3 (plane_test_intersect p r) (plane_test_intersect p' r').
Proof.
  intros [Hc Hn] (Hp & Hd & _). unfold plane_test_intersect. cbv zeta.
  rewrite <- (rv_dot _ _ _ _ (rv_unit _ _ Hn) (rv_unit _ _ Hd)), <- (rv_dot _ _ _ _ (rv_sub _ _ _ _ Hc Hp) Hn).
  set (dn := dot (unit_vector (pl_normal p)) (unit_vector (direction r))). set (nm := dot (vsub (pl_center p) (position r)) (pl_normal p)).
  destruct (ngt (nabs dn) _) eqn:G; [|repeat split; auto with rot].
  destruct (ngt (ndiv nm dn) _); [|repeat split; auto with rot].
  assert (T : tame (ndiv nm dn)).
  { destruct (tame_nonzero_gt dn _ G arb_eps) as (x & E & Nz); [eapply tame_dot; eauto with rot|]. apply tame_div; [eapply tame_dot; eauto with rot|rewrite E; exact I|].
    rewrite E. congruence. }
  repeat split; cbn; auto with rot.
Qed.
Lemma r_miss3 : r_hit3 miss3 miss3. Proof. repeat split. Qed.
Hint Resolve r_miss3 : rot.
Lemma r_circle_test c c' r r' : r_circle c c' -> r_ray r r' -> res_rel r_hit3 (circle_test_intersect c r) (circle_test_intersect c' r').
Proof.
  intros (Hc & HR & _ & _ & Hpl) Hr. unfold circle_test_intersect. destruct (ci_plane c) as [p|], (ci_plane c') as [p'|]; cbn in Hpl; try tauto; [|reflexivity]. cbv zeta.
  destruct (r_plane_test p p' r r' Hpl Hr) as (F & Pt & Nm). rewrite <- F. destruct (h3_flag _); [|cbn; auto with rot].
  eapply res_bind; [apply need_rel, Pt|]. intros x y Hxy. rewrite <- (rv_dist _ _ _ _ Hxy Hc), <- HR. destruct (nlt _ _); [|cbn; auto with rot].
  repeat split; cbn; auto with rot.
Qed.
Lemma r_rectangle_test q q' r r' : r_rectangle q q' -> r_ray r r' -> res_rel r_hit3 (rectangle_test_intersect q r) (rectangle_test_intersect q' r').
Proof.
  intros (_ & _ & _ & _ & _ & _ & H0 & H1 & H2 & _ & Hpl) Hr. unfold rectangle_test_intersect. cbv zeta.
  destruct (r_plane_test _ _ r r' Hpl Hr) as (F & Pt & Nm). rewrite <- F. destruct (h3_flag _); [|cbn; auto with rot].
  eapply res_bind; [apply need_rel, Pt|]. intros x y Hxy.
  rewrite <- (rv_dot _ _ _ _ (rv_sub _ _ _ _ H1 H0) (rv_sub _ _ _ _ Hxy H0)), <- (rv_dot _ _ _ _ (rv_sub _ _ _ _ H1 H0) (rv_sub _ _ _ _ H1 H0)),
    <- (rv_dot _ _ _ _ (rv_sub _ _ _ _ H2 H1) (rv_sub _ _ _ _ Hxy H1)), <- (rv_dot _ _ _ _ (rv_sub _ _ _ _ H2 H1) (rv_sub _ _ _ _ H2 H1)).
  destruct (andb _ _); [|cbn; auto with rot]. destruct (andb _ _); [|cbn; auto with rot]. repeat split; cbn; auto with rot.
Qed.
Lemma r_sphere_normal s s' x x' : r_sphere s s' -> rv x x' -> rv (sphere_normal s x) (sphere_normal s' x').
Proof. intros (Hc & _) Hx. unfold sphere_normal. auto with rot. Qed.
Lemma r_sphere_point s s' x x' : r_sphere s s' -> rv x x' -> sphere_test_point s x = sphere_test_point s' x'.
Proof. intros (Hc & HR & _) Hx. unfold sphere_test_point. rewrite (rv_dist _ _ _ _ Hx Hc), HR. reflexivity. Qed.
Lemma r_sphere_test s s' r r' : r_sphere s s' -> r_ray r r' -> r_hit6 (sphere_test_intersect s r) (sphere_test_intersect s' r').
Proof.
  intros Hs Hr. pose proof Hs as (Hc & HR & TR & _). pose proof Hr as (Hp & Hd & _). unfold sphere_test_intersect. cbv zeta.
  pose proof (rv_sub _ _ _ _ Hc Hp) as Hq.
  rewrite <- (rv_dot _ _ _ _ Hd Hq), <- (rv_dot _ _ _ _ Hq Hq), <- HR.
  assert (Tb : tame (dot (direction r) (vsub (sp_center s) (position r)))) by (eapply tame_dot; eassumption).
  assert (Tq : tame (dot (vsub (sp_center s) (position r)) (vsub (sp_center s) (position r)))) by (eapply tame_dot; eassumption).
  set (b := dot (direction r) _) in *. set (qq := dot (vsub _ _) _) in *.
  set (disc := nsub (nmul b b) (nsub qq (nmul (sp_R s) (sp_R s)))).
  assert (Td : tame disc) by (unfold disc; auto with rot).
  assert (Pt : forall t, tame t -> rv (vadd (position r) (vscale t (direction r))) (vadd (position r') (vscale t (direction r')))) by (auto with rot).
  assert (Nm : forall t, tame t -> rv (sphere_normal s (vadd (position r) (vscale t (direction r)))) (sphere_normal s' (vadd (position r') (vscale t (direction r')))))
    by (intros; apply r_sphere_normal; auto).
  destruct (ngt disc _).
  - repeat match goal with |- context [if ?c then _ else _] => destruct c end; repeat split; cbn; auto with rot.
  - destruct (neqb _ _); repeat split; cbn; auto with rot.
Qed.

(* ---- cylinders ---- *)
Lemma mv4_nan M x y z w : x = XNaN \/ y = XNaN \/ z = XNaN -> mv4 M (V4 x y z w) = V4 XNaN XNaN XNaN XNaN.
Proof. intros H. unfold mv4, dot4; cbn [v4x v4y v4z v4w]. destruct H as [-> | [-> | -> ]]; autorewrite with nan; reflexivity. Qed.
Lemma infcyl_point_nan c s p : has_nan p -> infcyl_point_objectSpace c s p = V4 XNaN XNaN XNaN XNaN.
Proof. intros H. unfold infcyl_point_objectSpace. rewrite (mv4_nan (translation_matrix4 _)) by exact H. now rewrite !mv4_nan by auto. Qed.
Lemma infcyl_dir_nan c d : has_nan d -> infcyl_dir_objectSpace c d = V4 XNaN XNaN XNaN XNaN.
Proof. intros H. unfold infcyl_dir_objectSpace. now apply mv4_nan. Qed.
Lemma infcyl_test_nan c r : has_nan (position r) \/ has_nan (direction r) ->
  infcyl_test_intersect c r = if neqb (ic_R c) (nofZ 0) then Err ZeroDivisionError else Ok (H6 false None None None None 0).
Proof.
  intros H. unfold infcyl_test_intersect. destruct (neqb (ic_R c) _); [reflexivity|]. cbv zeta.
  destruct H as [H|H]; [rewrite infcyl_point_nan by exact H|rewrite infcyl_dir_nan by exact H]; cbn [v4x v4y v4z v4w]; autorewrite with nan; reflexivity.
Qed.

(** the intersection parameters, given the three coefficients of the quadratic equation *)
Definition cyl_hits (c : infcyl xr) (r : ray xr) (sf A B C : xr) : hit6 xr :=
  (let discriminant := B * B - #4 * A * C in
  if discriminant >? #0 then
    let root := nsqrt discriminant in
    let t01 :=
      if #0 <=? B then ((- B - root) / (#2 * A), (#2 * C) / (- B - root))
      else ((#2 * C) / (- B + root), (- B + root) / (#2 * A)) in
    let t0 := fst t01 / sf in
    let t1 := snd t01 / sf in
    let pt0 := vadd (position r) (vscale t0 (direction r)) in
    let pt1 := vadd (position r) (vscale t1 (direction r)) in
    let normal0 := infcyl_normal c pt0 in
    let normal1 := infcyl_normal c pt1 in
    (if ((t0 >? INTERSECT_CLIPPING_FLOOR) && (t1 >? INTERSECT_CLIPPING_FLOOR))%bool then
          if t0 <? t1 then H6 true (Some pt0) (Some pt1) (Some normal0) (Some normal1) 2
          else H6 true (Some pt1) (Some pt0) (Some normal1) (Some normal0) 2
        else if t1 >? INTERSECT_CLIPPING_FLOOR then H6 true (Some pt1) None (Some normal1) None 1
        else if t0 >? INTERSECT_CLIPPING_FLOOR then H6 true (Some pt0) None (Some normal0) None 1
        else H6 false None None None None 0)
  else if discriminant =? #0 then
    let t0 := (- B / (#2 * A)) / sf in
    let pt0 := vadd (position r) (vscale t0 (direction r)) in
    H6 true (Some pt0) None (Some (infcyl_normal c pt0)) None 2
  else H6 false None None None None 0)%num.
Lemma cyl_form c u rad D pl p d r : is_unit u -> rad <> 0 -> position r = fv p -> direction r = fv d ->
  infcyl_test_intersect (cyl c u rad D pl) r
  = Ok (cyl_hits (cyl c u rad D pl) r (Fin (1 / rad)) (Fin (cA u d)) (Fin (2 * ((1 / rad) * cB c u p d))) (Fin ((1 / rad) * ((1 / rad) * cC c u p) - 1))).
Proof.
  intros Hu HR Hp Hd. destruct (cyl_object c u rad D pl Hu) as (f & Fm & Fi & Fp & Fd).
  unfold infcyl_test_intersect. cbn [ic_R cyl]. change (neqb (Fin rad) (nofZ 0)) with (Reqb rad 0). unfold Reqb. destruct (Req_EM_T rad 0); [contradiction|].
  rewrite (nofZ_fin 1), ndiv_fin by exact HR. cbv zeta. fold (cyl c u rad D pl). rewrite Hp, Hd, Fp, Fd. cbn [v4x v4y].
  rewrite <- Hp, <- Hd. rewrite !nofZ_fin, !nmul_fin, !nadd_fin, nsub_fin.
  replace (Fin (cx (f d) * cx (f d) + cy (f d) * cy (f d))) with (Fin (cA u d)) by (unfold cA; now rewrite (iso_xy f u) by assumption).
  replace (2 * (1 / rad * cx (f (p - c)%r3)) * cx (f d) + 2 * (1 / rad * cy (f (p - c)%r3)) * cy (f d)) with (2 * ((1 / rad) * cB c u p d))
    by (unfold cB; rewrite <- (iso_xy f u) by assumption; ring).
  replace (1 / rad * cx (f (p - c)%r3) * (1 / rad * cx (f (p - c)%r3)) + 1 / rad * cy (f (p - c)%r3) * (1 / rad * cy (f (p - c)%r3)))
    with ((1 / rad) * ((1 / rad) * cC c u p)) by (unfold cC; rewrite <- (iso_xy f u) by assumption; ring).
  unfold cyl_hits. cbv zeta. rewrite !nofZ_fin, !nmul_fin, !nsub_fin. destruct (ngt _ _); [reflexivity|]. destruct (neqb _ _); reflexivity.
Qed.
Lemma r_infcyl_normal c c' x x' : r_infcyl c c' -> rv x x' -> rv (infcyl_normal c x) (infcyl_normal c' x').
Proof. intros (p & u & rad & D & pl & pl' & Hu & _ & -> & ->) Hx. unfold infcyl_normal. cbn [ic_center ic_direction]. auto with rot. Qed.
Lemma r_cyl_hits c c' r r' sf A B C : r_infcyl c c' -> r_ray r r' -> sf <> 0 -> (A = 0 -> B = 0) ->
  r_hit6 (cyl_hits c r (Fin sf) (Fin A) (Fin B) (Fin C)) (cyl_hits c' r' (Fin sf) (Fin A) (Fin B) (Fin C)).
Proof.
  intros Hc Hr Hs HAB. pose proof Hr as (Hp & Hd & _). unfold cyl_hits. cbv zeta.
  assert (Pt : forall t, tame t -> rv (vadd (position r) (vscale t (direction r))) (vadd (position r') (vscale t (direction r')))) by (auto with rot).
  assert (Nm : forall t, tame t -> rv (infcyl_normal c (vadd (position r) (vscale t (direction r)))) (infcyl_normal c' (vadd (position r') (vscale t (direction r')))))
    by (intros; apply r_infcyl_normal; auto).
  assert (Ts : forall t, tame t -> tame (ndiv t (Fin sf))) by (intros; apply tame_div; auto with rot; congruence).
  rewrite !nofZ_fin, !nmul_fin, nsub_fin, ngt_fin, neqb_fin. unfold Rltb. destruct (Rlt_dec 0 _) as [L|L].
  - rewrite nsqrt_fin by lra. set (w := sqrt (B * B - 4 * A * C)). assert (W : 0 < w) by (apply sqrt_lt_R0; exact L).
    assert (A0 : A <> 0) by (intros E; rewrite (HAB E), E in L; lra).
    assert (T0 : tame (fst (if nle (Fin 0) (Fin B) then (ndiv (nsub (nopp (Fin B)) (Fin w)) (Fin (2 * A)), ndiv (Fin (2 * C)) (nsub (nopp (Fin B)) (Fin w)))
       else (ndiv (Fin (2 * C)) (nadd (nopp (Fin B)) (Fin w)), ndiv (nadd (nopp (Fin B)) (Fin w)) (Fin (2 * A)))))
      /\ tame (snd (if nle (Fin 0) (Fin B) then (ndiv (nsub (nopp (Fin B)) (Fin w)) (Fin (2 * A)), ndiv (Fin (2 * C)) (nsub (nopp (Fin B)) (Fin w)))
       else (ndiv (Fin (2 * C)) (nadd (nopp (Fin B)) (Fin w)), ndiv (nadd (nopp (Fin B)) (Fin w)) (Fin (2 * A)))))).
    { rewrite nle_fin, nopp_fin, nsub_fin, nadd_fin. unfold Rleb. destruct (Rle_dec 0 B); cbn [fst snd]; rewrite !ndiv_fin by lra; split; exact I. }
    destruct T0 as [T0 T1]. apply Ts in T0. apply Ts in T1.
    set (t0 := ndiv (fst _) _) in *. set (t1 := ndiv (snd _) _) in *. clearbody t0 t1.
    repeat match goal with |- context [if ?c then _ else _] => destruct c end; repeat split; cbn; auto with rot.
  - unfold Reqb. destruct (Req_EM_T _ 0) as [Z|Z]; [|repeat split].
    assert (T : tame (ndiv (nopp (Fin B)) (Fin (2 * A)))).
    { rewrite nopp_fin. destruct (Req_EM_T A 0) as [E|E]; [|rewrite ndiv_fin by lra; exact I]. rewrite (HAB E), E.
      replace (- 0) with 0 by ring. replace (2 * 0) with 0 by ring. rewrite ndiv_0_0. exact I. }
    apply Ts in T. repeat split; cbn; auto with rot.
Qed.
Lemma r_infcyl_test c c' r r' : r_infcyl c c' -> r_ray r r' -> res_rel r_hit6 (infcyl_test_intersect c r) (infcyl_test_intersect c' r').
Proof.
  intros Hc Hr. pose proof Hr as (Hp & Hd & _). pose proof Hc as (p & u & rad & D & pl & pl' & Hu & _ & -> & ->).
  assert (Bad : (has_nan (position r) /\ has_nan (position r')) \/ (has_nan (direction r) /\ has_nan (direction r')) ->
     res_rel r_hit6 (infcyl_test_intersect (mkInfCyl (fv p) (Fin rad) D (fv u) pl) r) (infcyl_test_intersect (mkInfCyl (fv (Q p)) (Fin rad) D (fv (Q u)) pl') r')).
  { intros H. rewrite !infcyl_test_nan by tauto. cbn [ic_R]. destruct (neqb _ _); [reflexivity|]. repeat split. }
  destruct Hp as [(x & Ep & Ep')|Hp]; [|tauto]. destruct Hd as [(d & Ed & Ed')|Hd]; [|tauto]. clear Bad.
  destruct (Req_EM_T rad 0) as [E|E].
  - unfold infcyl_test_intersect. cbn [ic_R]. change (neqb (Fin rad) (nofZ 0)) with (Reqb rad 0). unfold Reqb. destruct (Req_EM_T rad 0); [reflexivity|contradiction].
  - fold (cyl p u rad D pl) (cyl (Q p) (Q u) rad D pl'). rewrite (cyl_form p u rad D pl x d r Hu E Ep Ed), (cyl_form _ _ rad D pl' (Q x) (Q d) r' (q_unit u Hu) E Ep' Ed').
    replace (cA (Q u) (Q d)) with (cA u d) by (unfold cA; rewrite <- q_perp, (q_dot Q HQ); reflexivity).
    replace (cB (Q p) (Q u) (Q x) (Q d)) with (cB p u x d) by (unfold cB; rewrite <- q_sub, <- !q_perp, (q_dot Q HQ); reflexivity).
    replace (cC (Q p) (Q u) (Q x)) with (cC p u x) by (unfold cC; rewrite <- q_sub, <- !q_perp, (q_dot Q HQ); reflexivity).
    cbn [res_rel]. apply r_cyl_hits; [exact Hc|exact Hr|intros Z; apply E; unfold Rdiv in Z; apply Rmult_integral in Z; destruct Z as [Z|Z]; [lra|exfalso; apply (Rinv_neq_0_compat rad E Z)]|].
    intros Z. unfold cA in Z. apply dot_self_zero in Z. unfold cB. rewrite Z. rewrite dot_zero_r. ring.
Qed.
Lemma r_infcyl_point c c' x x' : r_infcyl c c' -> rv x x' -> infcyl_test_point c x = infcyl_test_point c' x'.
Proof.
  intros (p & u & rad & D & pl & pl' & Hu & _ & -> & ->) Hx. unfold infcyl_test_point. cbn [ic_R]. change (neqb (Fin rad) (nofZ 0)) with (Reqb rad 0). unfold Reqb. destruct (Req_EM_T rad 0) as [E|E]; [reflexivity|].
  cbv zeta. destruct Hx as [(y & -> & ->)|[H H']].
  - fold (cyl p u rad D pl) (cyl (Q p) (Q u) rad D pl'). destruct (cyl_object p u rad D pl Hu) as (f & Fm & Fi & Fp & Fd).
    destruct (cyl_object (Q p) (Q u) rad D pl' (q_unit u Hu)) as (g & Gm & Gi & Gp & Gd).
    rewrite (nofZ_fin 1), ndiv_fin, Fp, Gp by exact E. cbn [v4x v4y]. rewrite !nmul_fin, !nadd_fin.
    assert (K : cx (f (y - p)%r3) * cx (f (y - p)%r3) + cy (f (y - p)%r3) * cy (f (y - p)%r3) = cx (g (Q y - Q p)%r3) * cx (g (Q y - Q p)%r3) + cy (g (Q y - Q p)%r3) * cy (g (Q y - Q p)%r3)).
    { rewrite (iso_xy f u), (iso_xy g (Q u)) by (try apply q_unit; assumption). rewrite <- q_sub, <- q_perp, (q_dot Q HQ). reflexivity. }
    replace (1 / rad * cx (f (y - p)%r3) * (1 / rad * cx (f (y - p)%r3)) + 1 / rad * cy (f (y - p)%r3) * (1 / rad * cy (f (y - p)%r3)))
      with (1 / rad * (1 / rad) * (cx (f (y - p)%r3) * cx (f (y - p)%r3) + cy (f (y - p)%r3) * cy (f (y - p)%r3))) by ring.
    rewrite K. match goal with |- Ok (if nlt (nsqrt (Fin ?a)) _ then _ else _) = Ok (if nlt (nsqrt (Fin ?b)) _ then _ else _) => replace b with a by ring end. reflexivity.
  - rewrite !infcyl_point_nan by assumption. reflexivity.
Qed.

Lemma r_shape_test s s' r r' : r_shape s s' -> r_ray r r' -> res_rel r_ires (shape_test_intersect s r) (shape_test_intersect s' r').
Proof.
  intros Hs Hr. destruct s, s'; cbn in Hs; try contradiction; cbn [shape_test_intersect].
  - now apply r_plane_test.
  - eapply res_bind; [apply r_circle_test; eassumption|]. auto.
  - eapply res_bind; [apply r_infcyl_test; eassumption|]. auto.
  - now apply r_sphere_test.
  - exact I.
  - eapply res_bind; [apply r_rectangle_test; eassumption|]. auto.
Qed.
Lemma r_shape_point s s' x x' : r_shape s s' -> rv x x' -> shape_test_point s x = shape_test_point s' x'.
Proof.
  intros Hs Hx. destruct s, s'; cbn in Hs; try contradiction; cbn [shape_test_point]; try reflexivity.
  - now rewrite (r_infcyl_point _ _ _ _ Hs Hx).
  - now rewrite (r_sphere_point _ _ _ _ Hs Hx).
Qed.
Lemma r_unpack3 i i' : r_ires i i' -> res_rel r_hit3 (unpack3 i) (unpack3 i'). Proof. destruct i, i'; cbn; tauto. Qed.
Lemma r_unpack6 i i' : r_ires i i' -> res_rel r_hit6 (unpack6 i) (unpack6 i'). Proof. destruct i, i'; cbn; tauto. Qed.
Lemma r_index6 i i' : r_ires i i' -> res_rel r_hit6 (index6 i) (index6 i'). Proof. destruct i, i'; cbn; tauto. Qed.

(* ---- trees ---- *)
Definition r_find (a b : option (vec xr) * option (vec xr) * option xr * Z) : Prop :=
  match a, b with (p, n, d, k), (p', n', d', k') => rov p p' /\ rov n n' /\ d = d' /\ k = k' end.
Ltac hits := repeat match goal with
  | |- context [if ?c then _ else _] => destruct c
  end; repeat split; cbn; auto with rot.
Lemma r_helper h h' r r' m : r_hit6 h h' -> r_ray r r' -> res_rel r_find (helper_findIntersects h r m) (helper_findIntersects h' r' m).
Proof.
  intros (F & P1 & P2 & N1 & N2 & K) (Hp & _). unfold helper_findIntersects.
  destruct (h6_p1 h) as [a|], (h6_p1 h') as [a'|]; cbn in P1; try contradiction; destruct (h6_p2 h) as [b|], (h6_p2 h') as [b'|]; cbn in P2; try contradiction; cbv zeta.
  - rewrite <- (rv_dist _ _ _ _ Hp P1), <- (rv_dist _ _ _ _ Hp P2). destruct m; hits.
  - rewrite <- (rv_dist _ _ _ _ Hp P1). hits.
  - reflexivity.
  - hits.
Qed.
Ltac help2 := eapply res_bind; [apply r_helper; eassumption|]; intros [[[? ?] ?] ?] [[[? ?] ?] ?] (? & ? & ? & ?); subst.
Lemma r_union a a' b b' r r' : r_hit6 a a' -> r_hit6 b b' -> r_ray r r' -> res_rel r_hit6 (operCsgUnion a b r) (operCsgUnion a' b' r').
Proof.
  intros Ha Hb Hr. pose proof Ha as (Fa & _ & _ & _ & _ & Ka). pose proof Hb as (Fb & _ & _ & _ & _ & Kb).
  unfold operCsgUnion. rewrite <- Fa, <- Fb, <- Ka, <- Kb. cbv zeta. destruct (h6_flag a), (h6_flag b); cbn [andb].
  - help2. help2. repeat match goal with H : rov ?x ?y |- context [match ?x with _ => _ end] => destruct x, y; cbn in H; try contradiction end.
    + eapply res_bind; [apply res_refl|]. intros ? ? <-. hits.
    + hits.
    + hits.
  - help2. hits.
  - help2. hits.
  - hits.
Qed.
Lemma r_intersect a a' b b' r r' : r_hit6 a a' -> r_hit6 b b' -> r_ray r r' -> res_rel r_hit6 (operCsgIntersect a b r) (operCsgIntersect a' b' r').
Proof.
  intros Ha Hb Hr. pose proof Ha as (Fa & _ & _ & _ & _ & Ka). pose proof Hb as (Fb & _ & _ & _ & _ & Kb).
  unfold operCsgIntersect. rewrite <- Fa, <- Fb, <- Ka, <- Kb. cbv zeta. destruct (h6_flag a && h6_flag b)%bool; [|hits].
  do 4 help2. destruct (_ && _)%bool; [|destruct (evenb _); [|destruct (evenb _)]].
  - eapply res_bind; [apply res_refl|]. intros ? ? <-. eapply res_bind; [apply res_refl|]. intros ? ? <-. match goal with |- context [if ?c then _ else _] => destruct c end; [hits|].
    eapply res_bind; [apply res_refl|]. intros ? ? <-. eapply res_bind; [apply res_refl|]. intros ? ? <-. hits.
  - eapply res_bind; [apply res_refl|]. intros ? ? <-. eapply res_bind; [apply res_refl|]. intros ? ? <-. hits.
  - eapply res_bind; [apply res_refl|]. intros ? ? <-. eapply res_bind; [apply res_refl|]. intros ? ? <-. hits.
  - eapply res_bind; [apply res_refl|]. intros ? ? <-. hits.
Qed.
Lemma r_difference a a' b b' r r' : r_hit6 a a' -> r_hit6 b b' -> r_ray r r' -> res_rel r_hit6 (operCsgDifference a b r) (operCsgDifference a' b' r').
Proof.
  intros Ha Hb Hr. pose proof Ha as (Fa & _ & _ & _ & _ & Ka). pose proof Hb as (Fb & _ & _ & _ & _ & Kb).
  unfold operCsgDifference. rewrite <- Fa, <- Fb, <- Ka, <- Kb. cbv zeta. destruct (h6_flag a), (h6_flag b); cbn [andb].
  - do 4 help2. eapply res_bind; [apply res_refl|]. intros ? ? <-. match goal with |- context [if ?c then _ else _] => destruct c end; [hits|].
    eapply res_bind; [apply res_refl|]. intros ? ? <-. hits.
  - help2. reflexivity.
  - hits.
  - hits.
Qed.
Lemma r_csg_oper k k' : r_key k k' ->
  res_rel (fun f g => forall a a' b b' r r', r_hit6 a a' -> r_hit6 b b' -> r_ray r r' -> res_rel r_hit6 (f a b r) (g a' b' r')) (csg_oper k) (csg_oper k').
Proof.
  destruct k, k'; cbn [r_key]; try contradiction; [intros <-|intros; reflexivity]. cbn [csg_oper].
  destruct (_ =? "union")%string; [|destruct (_ =? "difference")%string; [|destruct (_ =? "intersect")%string; [|reflexivity]]]; cbn [res_rel].
  - apply r_union.
  - apply r_difference.
  - apply r_intersect.
Qed.
Lemma r_tree_test t : forall t' r r', r_tree t t' -> r_ray r r' -> res_rel r_ires (test_tree_intersect t r) (test_tree_intersect t' r').
Proof.
  induction t as [|k l IHl rt IHr]; intros [|k' l' rt'] r r' Ht Hr; cbn in Ht; try contradiction; [exact I|]. destruct Ht as (Hk & Hl & Hrt).
  cbn [test_tree_intersect]. eapply res_bind; [apply IHl; eassumption|]. intros i i' Hi. eapply res_bind; [apply IHr; eassumption|]. intros j j' Hj.
  assert (Key : res_rel r_ires (key_test_intersect k r) (key_test_intersect k' r')).
  { destruct k, k'; cbn in Hk; try contradiction; [reflexivity|]. cbn [key_test_intersect]. now apply r_shape_test. }
  assert (Op : res_rel r_ires (do f <- csg_oper k; do a <- index6 i; do b <- index6 j; do h <- f a b r; Ok (I6 h))
     (do f <- csg_oper k'; do a <- index6 i'; do b <- index6 j'; do h <- f a b r'; Ok (I6 h))).
  { eapply res_bind; [apply r_csg_oper, Hk|]. intros f g Hfg. eapply res_bind; [apply r_index6, Hi|]. intros a a' Haa. eapply res_bind; [apply r_index6, Hj|]. intros b b' Hbb.
    eapply res_bind; [apply Hfg; eassumption|]. auto. }
  destruct i, i'; cbn in Hi; try contradiction; destruct j, j'; cbn in Hj; try contradiction; assumption.
Qed.
Lemma r_tree_point t : forall t' x x', r_tree t t' -> rv x x' -> test_tree_point t x = test_tree_point t' x'.
Proof.
  induction t as [|k l IHl rt IHr]; intros [|k' l' rt'] x x' Ht Hx; cbn in Ht; try contradiction; [reflexivity|]. destruct Ht as (Hk & Hl & Hrt).
  cbn [test_tree_point]. rewrite (IHl _ _ _ Hl Hx), (IHr _ _ _ Hrt Hx).
  assert (Key : key_test_point k x = key_test_point k' x').
  { destruct k, k'; cbn in Hk; try contradiction; [reflexivity|]. cbn [key_test_point]. now apply r_shape_point. }
  rewrite Key. assert (Ix : index_oper k = index_oper k') by (destruct k, k'; cbn in Hk; try contradiction; [subst; reflexivity|reflexivity]).
  rewrite Ix. reflexivity.
Qed.

(* ---- rays ---- *)
Lemma r_set_direction r r' d d' : r_ray r r' -> rv d d' -> r_ray (set_direction r d) (set_direction r' d').
Proof. intros (A & B & C & D & E & F & G) H. repeat split; assumption. Qed.
Lemma r_set_blocked r r' : r_ray r r' -> r_ray (set_blocked r) (set_blocked r').
Proof. intros (A & B & C & D & E & F & G). repeat split; assumption. Qed.
Lemma r_fly r r' t : tame t -> r_ray r r' -> r_ray (fly r t) (fly r' t).
Proof.
  intros T (A & B & C & D & E & F & G). assert (rv (vadd (position r) (vscale t (direction r))) (vadd (position r') (vscale t (direction r')))) by auto with rot.
  unfold fly. repeat split; cbn; try assumption. apply Forall2_app; [assumption|]. constructor; [assumption|constructor].
Qed.
Lemma r_reflect r r' n n' : r_ray r r' -> rv n n' -> r_ray (reflect_specular r n) (reflect_specular r' n').
Proof.
  intros Hr Hn. pose proof Hr as (_ & Hd & _). unfold reflect_specular. cbv zeta. apply r_set_direction; [exact Hr|]. apply rv_unit.
  pose proof (rv_unit _ _ Hd) as Hi. pose proof (rv_unit _ _ Hn) as Hu. rewrite <- (rv_dot _ _ _ _ Hi Hu). apply rv_sub; [exact Hi|]. apply rv_scale; [|exact Hu].
  apply tame_mul; [exact I|]. eapply tame_dot; eassumption.
Qed.
Lemma r_oriented n n' d d' : rv n n' -> rv d d' -> rv (oriented_normal n d) (oriented_normal n' d').
Proof. intros Hn Hd. unfold oriented_normal. rewrite <- (rv_dot _ _ _ _ Hn Hd). destruct (nlt _ _); auto with rot. Qed.
Lemma r_collimate l l' r r' : r_lens l l' -> r_ray r r' -> res_rel r_ray (refract_ideal_collimate r l) (refract_ideal_collimate r' l').
Proof.
  intros (_ & Hn & _) Hr. unfold refract_ideal_collimate. eapply res_bind; [apply need_rel, Hn|]. intros n n' Hnn. cbv zeta. cbn [res_rel].
  apply r_set_direction; [exact Hr|]. apply rv_unit, r_oriented; [exact Hnn|]. apply Hr.
Qed.
Lemma r_focus l l' r r' : r_lens l l' -> r_ray r r' -> res_rel r_ray (refract_ideal_focus r l) (refract_ideal_focus r' l').
Proof.
  intros (Hp & Hn & _ & Hf & _ & _ & _ & _ & _ & Tf) Hr. unfold refract_ideal_focus. eapply res_bind; [apply need_rel, Hn|]. intros n n' Hnn. cbv zeta. rewrite <- Hf.
  destruct (le_f l) as [f|] eqn:E; [|reflexivity]. cbn [need bind res_rel]. apply r_set_direction; [exact Hr|]. apply rv_divs_norm.
  apply rv_sub; [|apply Hr]. apply rv_add; [exact Hp|]. apply rv_scale; [now apply Tf|]. apply r_oriented; [exact Hnn|apply Hr].
Qed.
Lemma r_snell r r' n n' e1 e2 : r_ray r r' -> rv n n' -> tame e1 -> tame e2 -> res_rel r_ray (refract_snells_law r n e1 e2) (refract_snells_law r' n' e1 e2).
Proof.
  intros Hr Hn T1 T2. pose proof Hr as (_ & Hd & _). unfold refract_snells_law. cbv zeta.
  assert (Ho : rv (if nlt (dot (direction r) n) (nofZ 0) then n else vopp n) (if nlt (dot (direction r') n') (nofZ 0) then n' else vopp n')).
  { rewrite <- (rv_dot _ _ _ _ Hd Hn). destruct (nlt _ _); auto with rot. }
  set (m := if nlt (dot (direction r) n) _ then _ else _) in *. set (m' := if nlt (dot (direction r') n') _ then _ else _) in *. clearbody m m'.
  rewrite <- (rv_dot _ _ _ _ (rv_opp _ _ Hd) Ho). assert (Tc : tame (dot (vopp (direction r)) m)) by (eapply tame_dot; [apply rv_opp|]; eassumption).
  set (c := dot _ m) in *. clearbody c. destruct (neqb e2 _) eqn:Ez; [reflexivity|].
  assert (Tr : tame (ndiv e1 e2)).
  { apply tame_div; [exact T1|exact T2|]. intros ->. change (Reqb 0 0 = false) in Ez. unfold Reqb in Ez. destruct (Req_EM_T 0 0); [discriminate|contradiction]. }
  set (q := ndiv e1 e2) in *. clearbody q. match goal with |- context [if (if ?x then ?y else ?z) then _ else _] => destruct (if x then y else z) end; cbn [res_rel].
  - now apply r_reflect.
  - apply r_set_direction; [exact Hr|]. apply rv_add; [now apply rv_scale|]. apply rv_scale; [|exact Ho]. auto 10 with rot.
Qed.

(* ---- the grating ---- *)
Lemma rot_mat_nan axis th : has_nan axis \/ (exists x, axis = fv x /\ x = r3zero) \/ th = XNaN -> forall x, mv (rotation_matrix_axis_angle axis th) x = V XNaN XNaN XNaN.
Proof.
  intros H x.
  assert (E : vdivs axis (nsqrt (dot axis axis)) = V XNaN XNaN XNaN \/ th = XNaN).
  { destruct H as [H|[(y & -> & ->)|H]]; [left|left|right; exact H].
    - change (nsqrt (dot axis axis)) with (norm axis). rewrite nan_norm by exact H. unfold vdivs. now autorewrite with nan.
    - change (nsqrt (dot (fv r3zero) (fv r3zero))) with (norm (fv r3zero)). apply unit_vector_zero. }
  unfold rotation_matrix_axis_angle. cbv zeta. destruct E as [-> | -> ]; cbn [vx vy vz].
  - change (nopp XNaN) with XNaN. unfold mv, dot; cbn [row0 row1 row2 vx vy vz]. autorewrite with nan. reflexivity.
  - rewrite !div_nan_l. change (ncos XNaN) with XNaN. change (nsin XNaN) with XNaN. unfold mv, dot; cbn [row0 row1 row2 vx vy vz]. autorewrite with nan. reflexivity.
Qed.
Lemma mv_nan M x : has_nan x -> mv M x = V XNaN XNaN XNaN.
Proof. intros H. unfold mv. rewrite !nan_dot_r by exact H. reflexivity. Qed.
Lemma q_rodr c s u x : Q (rodr c s u x) = rodr c s (Q u) (Q x).
Proof. unfold rodr. rewrite !(q_add Q HQ), !(q_scale Q HQ), (q_cross Q HQ), (q_dot Q HQ). reflexivity. Qed.
Lemma rv_rotate axis axis' th x x' : tame th -> rv axis axis' -> rv x x' -> rv (mv (rotation_matrix_axis_angle axis th) x) (mv (rotation_matrix_axis_angle axis' th) x').
Proof.
  intros T Ha Hx. destruct Hx as [(y & -> & ->)|[N N']]; [|rewrite !mv_nan by assumption; right; auto with rot].
  destruct Ha as [(a & -> & ->)|[N N']]; [|rewrite !rot_mat_nan by auto; right; auto with rot].
  destruct (tame_cases th T) as [[t ->]| ->]; [|rewrite !rot_mat_nan by auto; right; auto with rot].
  destruct (Req_EM_T (len a) 0) as [E|E].
  - apply len_zero in E. subst a. rewrite q_zero, !rot_mat_nan by (right; left; eauto). right; auto with rot.
  - assert (a <> r3zero) by (intros ->; apply E, len_zero_r3). rewrite (axis_angle_acts a t) by assumption. rewrite (axis_angle_acts (Q a) t) by (now apply q_nonzero).
    rewrite <- q_dirn, <- q_rodr. apply rv_fv.
Qed.
Lemma r_angle a a' b b' n n' : rv a a' -> rv b b' -> rv n n' -> angle_between a b (Some n) = angle_between a' b' (Some n').
Proof.
  intros Ha Hb Hn. unfold angle_between. cbv zeta. pose proof (rv_unit _ _ Ha) as Ua. pose proof (rv_unit _ _ Hb) as Ub.
  rewrite (rv_dot _ _ _ _ (rv_cross _ _ _ _ Ub Ua) Hn), (rv_dot _ _ _ _ Ua Ub). reflexivity.
Qed.
Lemma r_reflect_grating g g' r r' n n' : r_grating g g' -> r_ray r r' -> rv n n' -> res_rel r_ray (reflect_grating r n g) (reflect_grating r' n' g').
Proof.
  intros (_ & _ & Ht & _ & HG & _) Hr Hn. pose proof Hr as (_ & Hd & Hw & Ho & _). unfold reflect_grating. cbv zeta.
  pose proof (rv_unit _ _ Hn) as Hu. pose proof (rv_unit _ _ Hd) as Hi.
  pose proof (rv_unit _ _ (rv_project _ _ _ _ Hu Ht)) as Hpn. pose proof (rv_unit _ _ (rv_project _ _ _ _ Hi Ht)) as Hpi.
  rewrite <- (r_angle _ _ _ _ _ _ (rv_opp _ _ Hpi) Hpn Ht), <- HG, <- Hw, <- Ho.
  assert (Ta : tame (angle_between (vopp (unit_vector (project_onto_plane (unit_vector (direction r)) (gr_tangent g)))) (unit_vector (project_onto_plane (unit_vector n) (gr_tangent g))) (Some (gr_tangent g)))).
  { unfold angle_between. auto with rot. }
  set (al := angle_between _ _ _) in *. clearbody al. eapply res_bind; [apply res_refl|]. intros G ? <-. cbn [res_rel].
  assert (Ts : tame (if nlt al (nofZ 0) then nofZ (-1) else nofZ 1)) by (destruct (nlt _ _); exact I). set (sg := if nlt al _ then _ else _) in *. clearbody sg.
  apply r_set_direction; [exact Hr|]. apply rv_unit. apply rv_rotate; [auto with rot|exact Ht|]. apply rv_unit. apply rv_rotate; [auto with rot|exact Ht|].
  rewrite <- (rv_dot _ _ _ _ Hi Hu). apply rv_sub; [exact Hi|]. apply rv_scale; [|exact Hu]. apply tame_mul; [exact I|]. eapply tame_dot; eassumption.
Qed.

(* ---- optics ---- *)
Lemma r_index_inside c c' x x' : r_compound c c' -> rv x x' -> compound_index_if_inside c x = compound_index_if_inside c' x'.
Proof. intros (Ht & _ & Hi & _) Hx. unfold compound_index_if_inside. rewrite (r_tree_point _ _ _ _ Ht Hx), Hi. reflexivity. Qed.
Lemma r_compound_test c c' r r' : r_compound c c' -> r_ray r r' -> res_rel r_hit4 (compound_test_intersect c r) (compound_test_intersect c' r').
Proof.
  intros (Ht & _) Hr. unfold compound_test_intersect. eapply res_bind; [apply r_tree_test; eassumption|]. intros i i' Hi. eapply res_bind; [apply r_unpack6, Hi|].
  intros h h' (F & P1 & _ & N1 & _ & K). cbn. rewrite <- F, <- K. repeat split; cbn; auto.
Qed.
Lemma r_compound_do c c' r r' x x' n n' : r_compound c c' -> r_ray r r' -> rv x x' -> rov n n' ->
  res_rel r_ray (compound_do_intersect c r x n) (compound_do_intersect c' r' x' n').
Proof.
  intros Hc Hr Hx Hn. pose proof Hc as (_ & Hb & Hi & Ti). unfold compound_do_intersect. rewrite <- Hb. destruct (_ =? "reflect")%string; [|destruct (_ =? "refract")%string; [|reflexivity]].
  - eapply res_bind; [apply need_rel, Hn|]. intros a b Hab. now apply r_reflect.
  - pose proof Hr as (_ & Hd & _).
    assert (Hy : rv (vadd x (vscale (dec 1 8) (direction r))) (vadd x' (vscale (dec 1 8) (direction r')))) by (apply rv_add; [exact Hx|]; apply rv_scale; [apply tame_dec; lia|exact Hd]).
    rewrite <- (r_index_inside _ _ _ _ Hc Hy), <- Hi. eapply res_bind; [apply res_refl|]. intros oi ? <-. destruct oi; (eapply res_bind; [apply need_rel, Hn|]); intros a b Hab; apply r_snell; auto; exact I.
Qed.
Lemma r_surface_normal s s' : r_shape s s' -> res_rel rov (surface_normal s) (surface_normal s').
Proof.
  destruct s, s'; cbn [r_shape]; try contradiction; cbn [surface_normal]; try (intros; reflexivity).
  - intros (_ & H). exact H.
  - intros (_ & _ & _ & H & _). destruct (ci_normal c), (ci_normal c0); cbn in H; try contradiction; [exact H|reflexivity].
  - intros (_ & H & _). exact H.
Qed.
Lemma r_flat_step o r r' st st' s s' : r_ray r r' -> r_flat st st' -> r_shape s s' -> res_rel r_flat (flat_step o r st s) (flat_step o r' st' s').
Proof.
  intros Hr (Fh & Fm & Fp & Fn) Hs. unfold flat_step. eapply res_bind; [apply r_shape_test; eassumption|]. intros i i' Hi. eapply res_bind; [apply r_unpack3, Hi|].
  intros h h' (F & Pt & Nm). rewrite <- F, <- Fm, <- Fh. destruct (h3_flag h); [|repeat split; cbn; auto].
  eapply res_bind; [apply need_rel, Pt|]. intros x x' Hx. cbv zeta. rewrite <- (rv_dist _ _ _ _ (proj1 Hr) Hx). destruct (nlt _ _); [|repeat split; cbn; auto].
  apply (res_bind rov).
  - destruct o; [now apply r_surface_normal|exact Nm].
  - intros n n' Hn. repeat split; cbn; auto.
Qed.
Lemma r_flat_loop o r r' l : forall st st' l', r_ray r r' -> r_flat st st' -> Forall2 r_shape l l' -> res_rel r_flat (flat_loop o r st l) (flat_loop o r' st' l').
Proof.
  induction l as [|s l IH]; intros st st' l' Hr Hst Hl; inversion Hl; subst; [exact Hst|]. cbn [flat_loop].
  eapply res_bind; [apply r_flat_step; eassumption|]. intros a b Hab. now apply IH.
Qed.
Lemma r_first_sphere l : forall l', Forall2 r_shape l l' -> opt_rel r_sphere (first_sphere l) (first_sphere l').
Proof. induction l as [|s l IH]; intros l' Hl; inversion Hl as [|? s' ? l'' Hs Hl']; subst; [exact I|]. destruct s, s'; cbn in Hs; try contradiction; cbn [first_sphere]; auto. Qed.
Lemma r_first_circle l : forall l', Forall2 r_shape l l' -> opt_rel r_circle (first_circle l) (first_circle l').
Proof. induction l as [|s l IH]; intros l' Hl; inversion Hl as [|? s' ? l'' Hs Hl']; subst; [exact I|]. destruct s, s'; cbn in Hs; try contradiction; cbn [first_circle]; auto. Qed.
Lemma r_ball_update r r' st st' h h' : r_ray r r' -> r_ball st st' -> r_hit6 h h' -> res_rel r_ball (ball_update r st h) (ball_update r' st' h').
Proof.
  intros Hr Hst (F & P1 & P2 & N1 & N2 & K). pose proof Hst as (Bh & Bm & Bp & Bn & Bs). pose proof Hr as (Hp & _). unfold ball_update. rewrite <- F. destruct (h6_flag h); [|exact Hst].
  eapply res_bind; [apply need_rel, P1|]. intros a a' Ha. cbv zeta.
  apply (res_bind r_ball).
  - rewrite <- (rv_dist _ _ _ _ Hp Ha), <- Bm. destruct (nlt _ _).
    + eapply res_bind; [apply need_rel, N1|]. intros n n' Hn. repeat split; cbn; auto with rot.
    + repeat split; cbn; auto.
  - intros s1 s1' (Ch & Cm & Cp & Cn & Cs). destruct (h6_p2 h) as [b|], (h6_p2 h') as [b'|]; cbn in P2; try contradiction; [|repeat split; auto].
    rewrite <- (rv_dist _ _ _ _ Hp P2), <- Cm. destruct (nlt _ _); [|repeat split; auto].
    eapply res_bind; [apply need_rel, N2|]. intros n n' Hn. repeat split; cbn; auto with rot.
Qed.
Lemma r_mirror_loop r r' l : forall st st' la la' l', r_ray r r' -> r_ball st st' -> opt_rel r_hit6 la la' -> Forall2 r_shape l l' ->
  res_rel r_ball (mirror_ball_loop r st la l) (mirror_ball_loop r' st' la' l').
Proof.
  induction l as [|s l IH]; intros st st' la la' l' Hr Hst Hla Hl; inversion Hl as [|? s' ? l'' Hs Hl']; subst; [exact Hst|]. cbn [mirror_ball_loop].
  pose proof Hst as (Bh & Bm & Bp & Bn & Bs).
  assert (Go : forall x x' y y', r_ball x x' -> opt_rel r_hit6 y y' -> res_rel r_ball (do h <- bound y; do st2 <- ball_update r x h; mirror_ball_loop r st2 y l) (do h <- bound y'; do st2 <- ball_update r' x' h; mirror_ball_loop r' st2 y' l'')).
  { intros x x' y y' Hx Hy. eapply res_bind; [apply bound_rel, Hy|]. intros h h' Hh. eapply res_bind; [apply r_ball_update; eassumption|]. intros z z' Hz. now apply IH. }
  destruct s, s'; cbn [r_shape] in Hs; try contradiction; cbv zeta; apply Go; try assumption.
  - pose proof (r_sphere_test _ _ _ _ Hs Hr) as (_ & _ & _ & _ & _ & K). rewrite <- K. repeat split; cbn; auto.
  - cbn. now apply r_sphere_test.
Qed.
Lemma r_lens_loop r r' l : forall st st' l', r_ray r r' -> r_ball st st' -> Forall2 r_shape l l' -> res_rel r_ball (lens_ball_loop r st l) (lens_ball_loop r' st' l').
Proof.
  induction l as [|s l IH]; intros st st' l' Hr Hst Hl; inversion Hl as [|? s' ? l'' Hs Hl']; subst; [exact Hst|]. cbn [lens_ball_loop].
  pose proof Hst as (Bh & Bm & Bp & Bn & Bs). apply (res_bind r_ball).
  - destruct s, s'; cbn [r_shape] in Hs; try contradiction; try exact Hst. cbv zeta. pose proof (r_sphere_test _ _ _ _ Hs Hr) as Hh. apply r_ball_update; [exact Hr| |exact Hh].
    pose proof Hh as (_ & _ & _ & _ & _ & K). rewrite <- K. repeat split; cbn; auto.
  - intros x x' Hx. now apply IH.
Qed.
Lemma r_mirror_test m m' r r' : r_mirror m m' -> r_ray r r' -> res_rel r_hit4 (mirror_test_intersect m r) (mirror_test_intersect m' r').
Proof.
  intros (_ & Hs & _ & _ & _ & Hl) Hr. unfold mirror_test_intersect. rewrite <- Hs. destruct (_ || _)%bool; [|destruct (_ =? "circular_concave_spherical")%string; [|destruct (_ =? "circular_convex_spherical")%string; [|reflexivity]]].
  - eapply res_bind; [apply r_flat_loop; [exact Hr|repeat split|exact Hl]|]. intros st st' (A & _ & B & C). eapply res_bind; [apply bound_rel, C|]. intros n n' Hn. cbn. rewrite A. repeat split; auto.
  - eapply res_bind; [apply bound_rel, r_first_sphere, Hl|]. intros s s' Hss. cbv zeta. pose proof (r_sphere_test _ _ _ _ Hss Hr) as (F & P1 & P2 & N1 & N2 & K). rewrite <- F, <- K.
    destruct (h6_flag _); [|repeat split]. eapply res_bind; [apply bound_rel, r_first_circle, Hl|]. intros c c' Hc. eapply res_bind; [apply r_circle_test; eassumption|].
    intros hc hc' (Fc & Pc & _). rewrite <- Fc. destruct (h3_flag hc); [|repeat split]. eapply res_bind; [apply need_rel, Pc|]. intros x x' Hx. eapply res_bind; [apply need_rel, P1|]. intros y y' Hy.
    rewrite <- (rv_dist _ _ _ _ Hx Hy). destruct (h6_p2 (sphere_test_intersect s r)) as [z|], (h6_p2 (sphere_test_intersect s' r')) as [z'|]; cbn in P2; try contradiction; [|repeat split; auto].
    rewrite <- (rv_dist _ _ _ _ Hx P2). destruct (nlt _ _); repeat split; auto.
  - eapply res_bind; [apply r_mirror_loop; [exact Hr|repeat split|exact I|exact Hl]|]. intros st st' (A & _ & B & C & D). cbn. rewrite A, D. repeat split; auto.
Qed.
Lemma r_mirror_do m m' r r' n n' : r_mirror m m' -> r_ray r r' -> rov n n' -> res_rel r_ray (mirror_do_intersect m r n) (mirror_do_intersect m' r' n').
Proof.
  intros (_ & _ & _ & Ht & Hd & _) Hr Hn. unfold mirror_do_intersect. rewrite <- Ht. destruct (_ =? "normal")%string; [|destruct (_ =? "dmd")%string; [|exact Hr]].
  - eapply res_bind; [apply need_rel, Hn|]. intros a b Hab. now apply r_reflect.
  - now apply r_reflect.
Qed.
Lemma r_lens_test l l' r r' : r_lens l l' -> r_ray r r' -> res_rel r_hit4 (lens_test_intersect l r) (lens_test_intersect l' r').
Proof.
  intros (_ & _ & Hs & _ & _ & _ & Hl & _) Hr. unfold lens_test_intersect. rewrite <- Hs. destruct (_ =? "spherical_biconvex")%string; [|destruct (_ =? "spherical")%string; [|reflexivity]].
  - eapply res_bind; [apply r_flat_loop; [exact Hr|repeat split|exact Hl]|]. intros st st' (A & _ & B & C). eapply res_bind; [apply bound_rel, C|]. intros n n' Hn. cbn. rewrite A. repeat split; auto.
  - eapply res_bind; [apply r_lens_loop; [exact Hr|repeat split|exact Hl]|]. intros st st' (A & _ & B & C & D). cbn. rewrite A, D. repeat split; auto.
Qed.
Lemma r_lens_do l l' r r' x x' n n' s : r_lens l l' -> r_ray r r' -> rov n n' -> res_rel r_ray (lens_do_intersect l r x n s) (lens_do_intersect l' r' x' n' s).
Proof.
  intros Hl Hr Hn. pose proof Hl as (_ & _ & _ & _ & Ht & Hi & _ & Nt & Ti & _). unfold lens_do_intersect. rewrite <- Ht, <- Hi. destruct (String.eqb_spec (le_type l) "ideal"); [contradiction|].
  destruct (_ =? "ideal_collimate")%string; [now apply r_collimate|]. destruct (_ =? "ideal_focus")%string; [now apply r_focus|].
  eapply res_bind; [apply need_rel, Hn|]. intros a b Hab. destruct (sfo_truthy s); apply r_snell; auto with rot.
Qed.
Lemma r_flat_test shp l l' r r' : Forall2 r_shape l l' -> r_ray r r' -> res_rel r_hit4 (flat_test_intersect shp l r) (flat_test_intersect shp l' r').
Proof.
  intros Hl Hr. unfold flat_test_intersect. apply (res_bind r_flat).
  - destruct (_ || _)%bool; [apply r_flat_loop; [exact Hr|repeat split|exact Hl]|repeat split].
  - intros st st' (A & _ & B & C). eapply res_bind; [apply bound_rel, C|]. intros n n' Hn. cbn. rewrite A. repeat split; auto.
Qed.
Lemma r_grating_do g g' r r' n n' : r_grating g g' -> r_ray r r' -> rov n n' -> res_rel r_ray (grating_do_intersect g r n) (grating_do_intersect g' r' n').
Proof.
  intros Hg Hr Hn. unfold grating_do_intersect. eapply res_bind; [apply need_rel, Hn|]. intros a b Hab. pose proof Hr as (_ & _ & _ & Ho & _). rewrite <- Ho.
  destruct (neqb _ _); [now apply r_reflect|now apply r_reflect_grating].
Qed.
Lemma r_optic_test o o' r r' : r_optic o o' -> r_ray r r' -> res_rel r_hit4 (optic_test_intersect o r) (optic_test_intersect o' r').
Proof.
  intros Ho Hr. destruct o, o'; cbn [r_optic] in Ho; try contradiction; cbn [optic_test_intersect]; try reflexivity.
  - now apply r_compound_test.
  - now apply r_mirror_test.
  - now apply r_lens_test.
  - destruct Ho as (_ & _ & _ & Hs & _ & Hl). rewrite <- Hs. now apply r_flat_test.
  - destruct Ho as (_ & _ & _ & Hs & Hl & _). rewrite <- Hs. now apply r_flat_test.
Qed.
Definition r_pair (a b : ray xr * optic xr) : Prop := r_ray (fst a) (fst b) /\ r_optic (snd a) (snd b).
Lemma r_optic_do o o' r r' x x' n n' s : r_optic o o' -> r_ray r r' -> rv x x' -> rov n n' -> res_rel r_pair (optic_do_intersect o r x n s) (optic_do_intersect o' r' x' n' s).
Proof.
  intros Ho Hr Hx Hn. destruct o, o'; cbn [r_optic] in Ho; try contradiction; cbn [optic_do_intersect]; try (split; [exact Hr|exact Ho]).
  - eapply res_bind; [apply r_compound_do; eassumption|]. intros a b Hab. split; [exact Hab|exact Ho].
  - eapply res_bind; [apply r_mirror_do; eassumption|]. intros a b Hab. split; [exact Hab|exact Ho].
  - eapply res_bind; [apply r_lens_do; eassumption|]. intros a b Hab. split; [exact Hab|exact Ho].
  - eapply res_bind; [apply r_grating_do; eassumption|]. intros a b Hab. split; [exact Hab|exact Ho].
  - split; [now apply r_set_blocked|]. destruct Ho as (A & B & C & D & E & F). cbn. repeat split; cbn; auto. apply Forall2_app; [exact F|]. constructor; [|constructor].
    split; cbn; [exact Hx|apply Hr].
  - split; [now apply r_set_blocked|exact Ho].
Qed.
Lemma r_skipped o o' : r_optic o o' -> skipped o = skipped o'.
Proof. destruct o, o'; cbn; try contradiction; reflexivity. Qed.

(* ---- the run ---- *)
Lemma r_scan_step r r' rm st st' k o o' : r_ray r r' -> r_scan st st' -> r_optic o o' -> res_rel r_scan (scan_step r rm st k o) (scan_step r' rm st' k o').
Proof.
  intros Hr Hst Ho. pose proof Hst as (A & B & C & D). unfold scan_step. rewrite <- (r_skipped _ _ Ho). destruct (skipped o); [exact Hst|].
  eapply res_bind; [apply r_optic_test; eassumption|]. intros h h' (F & P & N & S). cbv zeta. rewrite <- F, <- S. destruct (h4_flag h); [|repeat split; cbn; auto].
  eapply res_bind; [apply need_rel, P|]. intros x x' Hx. rewrite <- (rv_dist _ _ _ _ (proj1 Hr) Hx), <- A, <- B. destruct (ngt _ _); [repeat split; cbn; auto|]. destruct (ngt _ _); [|repeat split; cbn; auto].
  destruct (nlt _ _); repeat split; cbn; auto.
Qed.
Lemma r_scan_loop r r' rm w : forall st st' k w', r_ray r r' -> r_scan st st' -> Forall2 r_optic w w' -> res_rel r_scan (scan r rm st k w) (scan r' rm st' k w').
Proof.
  induction w as [|o w IH]; intros st st' k w' Hr Hst Hw; inversion Hw; subst; [exact Hst|]. cbn [scan]. eapply res_bind; [apply r_scan_step; eassumption|]. intros a b Hab. now apply IH.
Qed.
Lemma r_set_nth w : forall w' k o o', Forall2 r_optic w w' -> r_optic o o' -> Forall2 r_optic (set_nth w k o) (set_nth w' k o').
Proof. induction w as [|a w IH]; intros w' [|k] o o' Hw Ho; inversion Hw; subst; cbn; auto. Qed.
Lemma r_nth w : forall w' k, Forall2 r_optic w w' -> opt_rel r_optic (nth_error w k) (nth_error w' k).
Proof. induction w as [|a w IH]; intros w' [|k] Hw; inversion Hw; subst; cbn; auto. Qed.
Lemma r_run_cond mi st st' : r_run st st' -> run_cond mi st = run_cond mi st'.
Proof. intros ((_ & _ & _ & _ & _ & Hb & _) & _ & Hc & Hm & _). unfold run_cond. rewrite Hb, Hc, Hm. reflexivity. Qed.
Lemma r_run_body m st st' : tame m -> r_run st st' -> res_rel r_run (run_body m st) (run_body m st').
Proof.
  intros Tm (Hr & Hw & Hc & Hm & Tr & Hs & Hf). unfold run_body. cbv zeta. rewrite <- Hm.
  eapply res_bind; [apply r_scan_loop; [exact Hr|split; [reflexivity|]; split; [reflexivity|]; split; [exact Hs|exact Hf]|exact Hw]|].
  intros sc sc' (A & B & C & D). rewrite <- A. destruct (sc_hit sc); cbn [negb].
  2: { cbn [res_rel]. unfold r_run; cbn [rs_ray rs_world rs_count rs_remaining rs_sel rs_sfo]. split; [now apply r_fly|]. repeat split; auto with rot. }
  eapply res_bind; [apply bound_rel, C|]. intros s s' (Ei & Ep & En). pose proof (rv_dist _ _ _ _ (proj1 Hr) Ep) as Ed. rewrite <- Ed.
  assert (Td : tame (distance_between (position (rs_ray st)) (se_pt s))) by (eapply tame_dist; [apply Hr|exact Ep]).
  set (x := distance_between _ _) in *. clearbody x. pose proof (r_fly _ _ x Td Hr) as Hfl.
  assert (Et : ray_type (rs_ray st') = ray_type (rs_ray st)) by (symmetry; apply Hr). rewrite Et, <- Hc. destruct (_ =? "faerie_fire")%string.
  - cbn [res_rel]. unfold r_run; cbn [rs_ray rs_world rs_count rs_remaining rs_sel rs_sfo]. split; [now apply r_set_blocked|]. repeat split; auto with rot.
  - rewrite <- D, <- Ei. eapply res_bind; [apply res_refl|]. intros f ? <-. pose proof (r_nth _ _ (se_idx s) Hw) as Hn.
    destruct (nth_error (rs_world st) (se_idx s)) as [o|], (nth_error (rs_world st') (se_idx s)) as [o'|]; cbn in Hn; try contradiction; [|reflexivity].
    eapply res_bind; [apply r_optic_do; eassumption|]. intros [r2 o2] [r2' o2'] [H1 H2]. cbn [res_rel]. unfold r_run; cbn [rs_ray rs_world rs_count rs_remaining rs_sel rs_sfo fst snd] in *.
    split; [exact H1|]. split; [now apply r_set_nth|]. repeat split; auto with rot.
Qed.
Lemma r_run_loop m mi fuel : forall st st', tame m -> r_run st st' -> res_rel r_run (run_loop fuel m mi st) (run_loop fuel m mi st').
Proof.
  induction fuel as [|fuel IH]; intros st st' Tm Hst; cbn [run_loop]; rewrite <- (r_run_cond mi _ _ Hst); destruct (run_cond mi st); try exact Hst; [reflexivity|].
  eapply res_bind; [apply r_run_body; eassumption|]. intros a b Hab. now apply IH.
Qed.
(** what a run returns: the ray and the optics *)
Definition r_result (a b : ray xr * list (optic xr)) : Prop := r_ray (fst a) (fst b) /\ Forall2 r_optic (snd a) (snd b).
Lemma r_run_run fuel m mi r r' w w' : tame m -> r_ray r r' -> Forall2 r_optic w w' -> res_rel r_result (run fuel r m w mi) (run fuel r' m w' mi).
Proof.
  intros Tm Hr Hw. unfold run. eapply res_bind; [apply r_run_loop; [exact Tm|]|].
  - unfold run_init, r_run; cbn. split; [exact Hr|]. repeat split; auto.
  - intros st st' (A & B & _). split; cbn; assumption.
Qed.
Definition r_results (a b : list (ray xr) * list (optic xr)) : Prop := Forall2 r_ray (fst a) (fst b) /\ Forall2 r_optic (snd a) (snd b).
Lemma r_run_all fuel m mi rs : forall rs' w w', tame m -> Forall2 r_ray rs rs' -> Forall2 r_optic w w' -> res_rel r_results (run_all fuel rs m w mi) (run_all fuel rs' m w' mi).
Proof.
  induction rs as [|r rs IH]; intros rs' w w' Tm Hr Hw; inversion Hr; subst; cbn [run_all]; [split; [constructor|exact Hw]|].
  eapply res_bind; [apply r_run_run; eassumption|]. intros [a wa] [b wb] [H1' H2']. cbn in *. eapply res_bind; [apply IH; eassumption|]. intros [c wc] [d wd] [H3' H4']. cbn in *.
  split; cbn; auto.
Qed.

(* ---- constructors ---- *)
Lemma r_mk_plane c c' n n' : rv c c' -> rv n n' -> r_plane (mk_plane c n) (mk_plane c' n').
Proof. intros Hc Hn. split; cbn; auto with rot. Qed.
Lemma r_mk_ray p p' d d' wl o ty : rv p p' -> rv d d' -> r_ray (mk_ray p d wl o ty) (mk_ray p' d' wl o ty).
Proof. intros Hp Hd. repeat split; cbn; auto with rot. Qed.
Lemma r_mk_circle c c' n n' R D : rv c c' -> rov n n' -> res_rel r_circle (mk_circle c n R D) (mk_circle c' n' R D).
Proof.
  intros Hc Hn. unfold mk_circle. eapply res_bind; [apply res_refl|]. intros [a b] ? <-. destruct n, n'; cbn in Hn; try contradiction; repeat split; cbn; auto with rot.
Qed.
Definition otame (s : option xr) : Prop := forall x, s = Some x -> tame x.
Lemma check_tame R D a b : otame R -> otame D -> check_R_and_D R D = Ok (a, b) -> tame a.
Proof.
  intros HR HD H. destruct R as [x|], D as [y|]; cbn [check_R_and_D] in H; try discriminate.
  - destruct (isclose _ _ _ _); [|discriminate]. injection H as <- <-. now apply HR.
  - injection H as <- <-. now apply HR.
  - injection H as <- <-. apply tame_div; [now apply HD|exact I|]. intros E. rewrite nofZ_fin in E. injection E. lra.
Qed.
Lemma r_mk_sphere c c' R D : rv c c' -> otame R -> otame D -> res_rel r_sphere (mk_sphere c R D) (mk_sphere c' R D).
Proof.
  intros Hc HR HD. unfold mk_sphere. destruct (check_R_and_D R D) as [[a b]|e] eqn:E; [|reflexivity]. cbn [bind res_rel]. split; [exact Hc|]. split; [reflexivity|]. split; [|reflexivity]. cbn [sp_R]. exact (check_tame R D a b HR HD E).
Qed.
Lemma r_mk_infcyl c u R D : u <> r3zero -> (exists x, R = Some (Fin x)) \/ (R = None /\ exists x, D = Some (Fin x)) ->
  res_rel r_infcyl (mk_infcyl (fv c) (fv u) R D) (mk_infcyl (fv (Q c)) (fv (Q u)) R D).
Proof.
  intros Hu Hf. unfold mk_infcyl. destruct (check_R_and_D R D) as [[a b]|e] eqn:E; [|reflexivity].
  assert (Fa : exists x, a = Fin x).
  { destruct Hf as [[x ->]|[-> [x ->]]]; cbn [check_R_and_D] in E.
    - destruct D; [destruct (isclose _ _ _ _); [|discriminate]|]; injection E as <- <-; eauto.
    - rewrite nofZ_fin, ndiv_fin in E by lra. injection E as <- <-. eauto. }
  destruct Fa as [x ->]. cbn. exists c, (dirn u), x, b, (mk_plane (fv c) (fv u)), (mk_plane (fv (Q c)) (fv (Q u))). split; [now apply dirn_unit|]. split; [apply r_mk_plane; apply rv_fv|].
  rewrite !unit_vector_fv by (try apply q_nonzero; assumption). rewrite q_dirn. auto.
Qed.
Lemma r_unit_o n n' : rov n n' -> res_rel rv (unit_vector_o n) (unit_vector_o n').
Proof. destruct n, n'; cbn; try tauto. apply rv_unit. Qed.
Lemma r_mk_rectangle c c' n n' t t' h w : rv c c' -> rov n n' -> rov t t' -> otame h -> otame w -> res_rel r_rectangle (mk_rectangle c n t h w) (mk_rectangle c' n' t' h w).
Proof.
  intros Hc Hn Ht Th Tw. unfold mk_rectangle. eapply res_bind; [apply r_unit_o, Hn|]. intros a a' Ha. eapply res_bind; [apply r_unit_o, Ht|]. intros b b' Hb.
  rewrite <- (rv_dot _ _ _ _ Ha Hb). destruct (negb _); [reflexivity|]. cbv zeta.
  destruct (check_h_and_w h w) as [[x y]|e] eqn:E; [|reflexivity]. cbn [bind]. eapply res_bind; [apply need_rel, Hn|]. intros d d' Hd.
  assert (tame x /\ tame y) as [Tx Ty].
  { destruct h as [h0|], w as [w0|]; cbn [check_h_and_w] in E; try discriminate. destruct (nlt h0 _); [discriminate|]. destruct (nlt w0 _); [discriminate|]. injection E as <- <-. split; [now apply Th|now apply Tw]. }
  assert (T2 : forall z, tame z -> tame (ndiv z (nofZ 2))) by (intros; apply tame_div; auto with rot; intros K; rewrite nofZ_fin in K; injection K; lra).
  assert (Xa : rv (vscale (ndiv x (nofZ 2)) b) (vscale (ndiv x (nofZ 2)) b')) by auto with rot.
  assert (Xb : rv (vscale (ndiv y (nofZ 2)) (cross a b)) (vscale (ndiv y (nofZ 2)) (cross a' b'))) by auto with rot.
  set (va := vscale (ndiv x (nofZ 2)) b) in *. set (va' := vscale (ndiv x (nofZ 2)) b') in *. set (vb := vscale (ndiv y (nofZ 2)) (cross a b)) in *. set (vb' := vscale (ndiv y (nofZ 2)) (cross a' b')) in *. clearbody va va' vb vb'.
  cbn [res_rel]. unfold r_rectangle; cbn [re_center re_normal re_tangent re_tangent2 re_h re_w re_b0 re_b1 re_b2 re_b3 re_plane]. do 10 (split; [auto with rot|]). split; cbn; auto with rot.
Qed.
Lemma r_mk_mirror c c' shp n n' D w h f t t' ty dm dm' : rv c c' -> rov n n' -> rov t t' -> rov dm dm' -> otame D -> otame w -> otame h -> otame f ->
  res_rel r_mirror (mk_mirror c shp n D w h f t ty dm) (mk_mirror c' shp n' D w h f t' ty dm').
Proof.
  intros Hc Hn Ht Hm TD Tw Th Tf. unfold mk_mirror. eapply res_bind; [apply r_unit_o, Hm|]. intros m m' Hmm.
  destruct (_ =? "circular_flat")%string; [|destruct (_ =? "rectangular_flat")%string; [|destruct (_ =? "circular_concave_spherical")%string; [|destruct (_ =? "circular_convex_spherical")%string; [|reflexivity]]]].
  - eapply res_bind; [apply r_unit_o, Hn|]. intros a a' Ha. eapply res_bind; [apply r_mk_circle; eassumption|]. intros e e' He. cbn. repeat split; cbn; auto.
  - eapply res_bind; [apply r_unit_o, Hn|]. intros a a' Ha. eapply res_bind; [apply r_mk_rectangle; eassumption|]. intros e e' He. cbn. repeat split; cbn; auto.
  - eapply res_bind; [apply r_unit_o, Hn|]. intros a a' Ha. destruct f as [f|]; [|reflexivity]. cbn [need bind]. cbv zeta. assert (Tr : tame (nmul f (nofZ 2))) by (apply tame_mul; [now apply Tf|exact I]).
    eapply res_bind; [apply r_mk_circle; eassumption|]. intros e e' He. eapply res_bind; [apply r_mk_sphere; [apply rv_add; [exact Hc|apply rv_scale; [exact Tr|exact Ha]]|intros z Z; injection Z as <-; exact Tr|intros z Z; discriminate]|].
    intros s s' Hs. cbn. repeat split; cbn; auto.
  - eapply res_bind; [apply r_mk_sphere; [exact Hc|intros z Z; discriminate|exact TD]|]. intros s s' Hs. cbn. repeat split; cbn; auto.
Qed.
Lemma r_mk_lens c c' n n' shp D f ty ix : rv c c' -> rov n n' -> otame D -> otame f -> tame ix -> ty <> "ideal"%string -> res_rel r_lens (mk_lens c n shp D f ty ix) (mk_lens c' n' shp D f ty ix).
Proof.
  intros Hc Hn TD Tf Ti Nt. unfold mk_lens. cbv zeta.
  assert (Hu : rov (match n with Some v => Some (unit_vector v) | None => None end) (match n' with Some v => Some (unit_vector v) | None => None end)) by (destruct n, n'; cbn in *; auto with rot).
  destruct (_ =? "spherical_biconvex")%string; [|destruct (_ =? "spherical")%string; [|reflexivity]].
  - eapply res_bind; [apply r_mk_circle; eassumption|]. intros e e' He. cbn [res_rel]. unfold r_lens; cbn [le_position le_normal le_shape le_f le_type le_index le_surfaces]. repeat (split; auto).
  - eapply res_bind; [apply r_mk_sphere; [exact Hc|intros z Z; discriminate|exact TD]|]. intros s s' Hs. cbn [res_rel]. unfold r_lens; cbn [le_position le_normal le_shape le_f le_type le_index le_surfaces]. repeat (split; auto).
Qed.
Lemma r_mk_grating c c' n n' t t' shp w h G : rv c c' -> rov n n' -> rov t t' -> otame w -> otame h -> res_rel r_grating (mk_grating c n t shp w h G) (mk_grating c' n' t' shp w h G).
Proof.
  intros Hc Hn Ht Tw Th. unfold mk_grating. eapply res_bind; [apply r_unit_o, Hn|]. intros a a' Ha. eapply res_bind; [apply r_unit_o, Ht|]. intros b b' Hb. destruct (_ =? _)%string; [|reflexivity].
  eapply res_bind; [apply r_mk_rectangle; eassumption|]. intros e e' He. cbn. repeat split; cbn; auto.
Qed.
Lemma r_mk_detector c c' n n' t t' shp w h : rv c c' -> rov n n' -> rov t t' -> otame w -> otame h -> res_rel r_detector (mk_detector c n t shp w h) (mk_detector c' n' t' shp w h).
Proof.
  intros Hc Hn Ht Tw Th. unfold mk_detector. eapply res_bind; [apply r_unit_o, Hn|]. intros a a' Ha. eapply res_bind; [apply r_unit_o, Ht|]. intros b b' Hb. destruct (_ =? _)%string; [|reflexivity].
  eapply res_bind; [apply r_mk_rectangle; eassumption|]. intros e e' He. cbn. repeat split; cbn; auto.
Qed.
Lemma r_mk_base c c' n n' : rv c c' -> rov n n' -> res_rel r_base (mk_base c n) (mk_base c' n').
Proof. intros Hc Hn. unfold mk_base. eapply res_bind; [apply r_unit_o, Hn|]. intros a a' Ha. split; cbn; auto. Qed.
End Rot.
