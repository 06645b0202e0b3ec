(** Property C62: a train of ideal lenses on an axis obeys the ray-transfer ("ABCD") law exactly.
    Property C63: imaging by such a train. *)
From Coq Require Import Reals ZArith Lra Lia Psatz String List Bool Sorting.Sorted.
From Verif Require Import PyErr Num Vec Shapes Csg Optics Spec XReal RVec VecProofs AngleProofs FlatProofs SphereProofs CylProofs ShapeExtra
  TreeProofs SolidProofs CsgProofs RayProofs RunGen NoFuel RunXr OpticHits StateXr OrderProofs FlatOptic Props_Ray Props_Loop Props_Run Props_Rehit SceneProofs Props_Scene.
Import ListNotations.
Local Open Scope R_scope.

(** an ideal lens of the train: axial position, focal length, diameter, normal as given to the constructor, index (unused by ideal lenses), the object *)
Record thin := mkThin { tz : R; tf : R; tD : R; tn : R3; tix : xr; tl : lens xr }.
Definition thin_built (N c : R3) (e : thin) : Prop :=
  tn e <> r3zero /\ along (dirn (tn e)) N /\ 0 < tf e /\
  mk_lens (fv (c + tz e * N)%r3) (Some (fv (tn e))) "spherical_biconvex" (Some (Fin (tD e))) (Some (Fin (tf e))) "ideal" (tix e) = Ok (tl e).

(** the point with axial coordinate z on the ray from p with direction N + g (g is the slope, orthogonal to the axis N) *)
Definition reach (N c p g : R3) (z : R) : R3 := (p + (z - (p - c) ∙ N) * (N + g))%r3.

(** how an ideal lens of focal length f changes the slope g of a ray arriving at offset h: the ray-transfer law, and what the code does with rays
    that are parallel to the axis up to its tolerance, which it aims at the focal point *)
Definition exact_rule (N g h : R3) (f : R) (g1 : R3) : Prop := (g = r3zero \/ ~ near3 (dirn (N + g)%r3) N) /\ g1 = (g - / f * h)%r3.
Definition code_rule (N g h : R3) (f : R) (g1 : R3) : Prop := exact_rule N g h f g1 \/ near3 (dirn (N + g)%r3) N /\ g1 = (- (/ f * h))%r3.

(** [passes rule N c p g es hits p' g' s]: the specification of the journey of a ray starting at p with slope g through the lenses es: it meets the lenses in
    order; inside the aperture the slope changes by the rule, outside nothing happens; the lenses hit are hit at the points hits; it leaves the last one at p'
    with slope g', having covered the distance s.  Excluded are steep rays (1e8 and more). *)
Inductive passes (rule : R3 -> R3 -> R3 -> R -> R3 -> Prop) (N c : R3) : R3 -> R3 -> list thin -> list R3 -> R3 -> R3 -> R -> Prop :=
| passes_nil p g : passes rule N c p g [] [] p g 0
| passes_hit p g g1 e es hits p' g' s : let q := reach N c p g (tz e) in let h := (q - (c + tz e * N))%r3 in
    1e-9 < tz e - (p - c)%r3 ∙ N -> len h < tD e / 2 -> len (N + g)%r3 < 1e8 -> rule N g h (tf e) g1 ->
    passes rule N c q g1 es hits p' g' s ->
    passes rule N c p g (e :: es) (q :: hits) p' g' ((tz e - (p - c)%r3 ∙ N) * len (N + g)%r3 + s)
| passes_beside p g e es hits p' g' s : let q := reach N c p g (tz e) in let h := (q - (c + tz e * N))%r3 in
    tD e / 2 <= len h ->
    passes rule N c p g es hits p' g' s -> passes rule N c p g (e :: es) hits p' g' s.
Lemma passes_code N c p g es hits p' g' s : passes exact_rule N c p g es hits p' g' s -> passes code_rule N c p g es hits p' g' s.
Proof. induction 1; [constructor|eapply passes_hit; eauto; now left|eapply passes_beside; eauto]. Qed.

Lemma slope_dot N g : is_unit N -> g ∙ N = 0 -> (N + g)%r3 ∙ N = 1.
Proof. intros U G. unfold is_unit in U. rewrite dot_add_l, U, G. ring. Qed.
Lemma slope_nz N g : is_unit N -> g ∙ N = 0 -> (N + g)%r3 <> r3zero.
Proof. intros U G E. pose proof (slope_dot N g U G) as H. rewrite E, dot_zero_l in H. lra. Qed.
Lemma slope_len N g : is_unit N -> g ∙ N = 0 -> 1 <= len (N + g)%r3.
Proof.
  intros U G. pose proof (cauchy_schwarz_sq (N + g)%r3 N) as C. unfold is_unit in U. rewrite U, slope_dot, <- len_sq in C by assumption. pose proof (len_nonneg (N + g)%r3). nra.
Qed.
Lemma slope_dir N g : is_unit N -> g ∙ N = 0 -> dirn (N + g)%r3 ∙ N = 1 / len (N + g)%r3.
Proof. intros U G. apply dirn_dot_sign; [apply slope_dot; assumption|apply slope_nz; assumption]. Qed.
Lemma at_slope N g p t : is_unit N -> g ∙ N = 0 -> at_t p (dirn (N + g)%r3) (t * len (N + g)%r3) = (p + t * (N + g))%r3.
Proof.
  intros U G. pose proof (slope_len N g U G). unfold at_t, dirn. set (v := (N + g)%r3) in *. replace (p + t * len v * (/ len v * v))%r3 with (p + (t * (len v * / len v)) * v)%r3 by r3r.
  rewrite Rinv_r by lra. rewrite Rmult_1_r. reflexivity.
Qed.
Lemma reach_axial N c p g z : is_unit N -> g ∙ N = 0 -> (reach N c p g z - c)%r3 ∙ N = z.
Proof.
  intros U G. unfold reach. pose proof (slope_dot N g U G) as H. set (v := (N + g)%r3) in *. set (k := (z - (p - c)%r3 ∙ N)).
  replace ((p + k * v - c)%r3 ∙ N) with ((p - c)%r3 ∙ N + k * (v ∙ N)) by r3r. rewrite H. unfold k. ring.
Qed.
Lemma centre_axial N c z p : is_unit N -> ((c + z * N)%r3 - p)%r3 ∙ N = z - (p - c)%r3 ∙ N.
Proof. intros U. unfold is_unit in U. replace (((c + z * N)%r3 - p)%r3 ∙ N) with (z * (N ∙ N) - (p - c)%r3 ∙ N) by r3r. rewrite U. ring. Qed.
Lemma offset_perp N c p g z : is_unit N -> g ∙ N = 0 -> (reach N c p g z - (c + z * N))%r3 ∙ N = 0.
Proof.
  intros U G. pose proof (reach_axial N c p g z U G) as H. set (q := reach N c p g z) in *. unfold is_unit in U.
  replace ((q - (c + z * N))%r3 ∙ N) with ((q - c)%r3 ∙ N - z * (N ∙ N)) by r3r. rewrite H, U. ring.
Qed.

(** an optic in front of which, or beside which, the ray travels: it does not report *)
Definition quiet (N c p g : R3) (zs : list R) (o : optic xr) : Prop :=
  exists co u A, flat_optic o co u A /\ along u N /\ ((co - p)%r3 ∙ N <= 0 \/ ~ A (p + ((co - p) ∙ N) * (N + g))%r3) /\ Forall (Rlt ((co - c)%r3 ∙ N)) zs.
Lemma quiet_no N c p g zs o r rm x pt n : is_unit N -> g ∙ N = 0 -> ray_is r p (dirn (N + g)%r3) -> quiet N c p g zs o -> ~ reports r rm o x pt n.
Proof.
  intros U G Hr (co & u & A & V & Al & H & _) R. pose proof (slope_len N g U G) as L1.
  destruct (flat_axis _ _ _ _ N r p _ rm x pt n V Al Hr (dirn_unit _ (slope_nz N g U G)) R) as (E & X & _ & At & _). rewrite (slope_dir N g U G) in E.
  destruct H as [H|H].
  - assert (0 < x * (1 / len (N + g)%r3)) by (apply Rmult_lt_0_compat; [lra|apply Rdiv_lt_0_compat; lra]). lra.
  - apply H. replace x with (((co - p)%r3 ∙ N) * len (N + g)%r3) in At by (rewrite E; field; lra). rewrite at_slope in At by assumption. exact At.
Qed.
Lemma quiet_after N c p g zs z o p' g' : quiet N c p g (z :: zs) o -> (p' - c)%r3 ∙ N = z -> quiet N c p' g' zs o.
Proof.
  intros (co & u & A & V & Al & _ & F) E. exists co, u, A. pose proof (Forall_inv F) as F1. pose proof (Forall_inv_tail F) as F2. cbv beta in F1. repeat split; auto. left.
  replace ((co - p')%r3 ∙ N) with ((co - c)%r3 ∙ N - (p' - c)%r3 ∙ N) by r3r. rewrite E. lra.
Qed.

(** what an ideal lens does to a ray of slope g arriving at offset h *)
Lemma rule_perp N g h f g1 : g ∙ N = 0 -> h ∙ N = 0 -> code_rule N g h f g1 -> g1 ∙ N = 0.
Proof. intros G H [[_ ->]|[_ ->]]; [rewrite dot_sub_l, dot_scale_l, G, H|rewrite dot_opp_l, dot_scale_l, H]; ring. Qed.
Lemma thin_transfer N c e r g q g1 : is_unit N -> g ∙ N = 0 -> thin_built N c e -> ray_is r q (dirn (N + g)%r3) ->
  let h := (q - (c + tz e * N))%r3 in h ∙ N = 0 -> len (N + g)%r3 < 1e8 -> code_rule N g h (tf e) g1 ->
  refract_thin_lens r (tl e) (fv q) = Ok (set_direction r (fv (dirn (N + g1)%r3))).
Proof.
  intros U G (Hn & Al & Hf & B) [Hp Hd] h Hh St Rule. pose proof (rule_perp N g h (tf e) g1 G Hh Rule) as G'. set (co := (c + tz e * N)%r3) in *. set (f := tf e) in *. clearbody f. clearbody co. fold h.
  destruct (mk_lens_thin _ _ _ _ _ _ _ _ Hn B) as [Th _]. set (d := dirn (N + g)%r3) in *.
  pose proof (slope_len N g U G) as L1. pose proof (slope_dir N g U G) as Dd. fold d in Dd.
  assert (FW : forward (dirn (tn e)) d = N). { apply forward_along; [exact Al|]. rewrite Dd. apply Rdiv_lt_0_compat; lra. }
  destruct (thin_fv r (tl e) co (dirn (tn e)) f d q Th (dirn_unit _ Hn) Hd ltac:(lra)) as (_ & E2 & E3). rewrite FW in E2, E3.
  assert (Steep : ~ Rabs (N ∙ d) <= 1e-8).
  { rewrite dot_comm, Dd, Rabs_right by (apply Rle_ge, Rlt_le, Rdiv_lt_0_compat; lra). intros K.
    apply (Rmult_le_compat_r (len (N + g)%r3)) in K; [|lra]. replace (1 / len (N + g)%r3 * len (N + g)%r3) with 1 in K by (field; lra). lra. }
  assert (Par : near3 d N -> g1 = (- (/ f * h))%r3 -> refract_thin_lens r (tl e) (fv q) = Ok (set_direction r (fv (dirn (N + g1)%r3)))).
  { intros Nr E1. assert (V : (co + f * N - q)%r3 = (f * (N + g1))%r3).
    { rewrite E1. replace (f * (N + - (/ f * h)))%r3 with (f * N - (f * / f) * h)%r3 by r3r. rewrite Rinv_r by lra. unfold h. r3r. }
    rewrite (E2 Steep Nr q Hp).
    + rewrite V, dirn_pos_scale by (try lra; apply slope_nz; assumption). reflexivity.
    + rewrite V. intros K. apply (slope_nz N g1 U G'). replace (N + g1)%r3 with ((/ f * f) * (N + g1))%r3 by (rewrite Rinv_l by lra; r3r).
      replace ((/ f * f) * (N + g1))%r3 with (/ f * (f * (N + g1)))%r3 by r3r. rewrite K. r3r. }
  destruct Rule as [[[Z|NN] E1]|[Nr E1]]; [| |exact (Par Nr E1)].
  - apply Par; [|rewrite E1, Z; r3r]. unfold d. rewrite Z. replace (N + r3zero)%r3 with N by r3r. rewrite dirn_of_unit by exact U. apply near3_refl.
  - assert (V : ((2 * f / (N ∙ d)) * d - 2 * (q - co))%r3 = ((2 * f) * (N + g1))%r3).
    { rewrite dot_comm, Dd, E1. unfold d, dirn. set (v := (N + g)%r3) in *. fold h.
      replace (2 * f / (1 / len v) * (/ len v * v) - 2 * h)%r3 with ((2 * f * (/ (1 / len v) * / len v)) * v - 2 * h)%r3 by (unfold Rdiv; r3r).
      replace (/ (1 / len v) * / len v) with 1 by (field; lra). unfold v.
      replace (2 * f * (N + (g - / f * h)))%r3 with (2 * f * (N + g) - (2 * (f * / f)) * h)%r3 by r3r. rewrite Rinv_r by lra. r3r. }
    cbv zeta in E3. rewrite V in E3. rewrite E3; [|exact Steep|exact NN|].
    + rewrite dirn_pos_scale by (try lra; apply slope_nz; assumption). reflexivity.
    + intros K. apply (slope_nz N g1 U G'). replace (N + g1)%r3 with ((/ (2 * f) * (2 * f)) * (N + g1))%r3 by (rewrite Rinv_l by lra; r3r).
      replace ((/ (2 * f) * (2 * f)) * (N + g1))%r3 with (/ (2 * f) * (2 * f * (N + g1)))%r3 by r3r. rewrite K. r3r.
Qed.

Lemma set_nth_same {A} (w : list A) k o : nth_error w k = Some o -> set_nth w k o = w.
Proof. revert k. induction w as [|a w IH]; intros [|k] E; cbn in *; try discriminate; [injection E as <-; reflexivity|]. f_equal. apply IH, E. Qed.
Lemma nth_other {A} (pre rest : list A) o j o' : nth_error (pre ++ o :: rest) j = Some o' -> j <> length pre -> In o' pre \/ In o' rest.
Proof.
  intros E Ne. destruct (Nat.lt_ge_cases j (length pre)) as [L|L].
  - left. rewrite nth_error_app1 in E by exact L. eapply nth_error_In, E.
  - right. rewrite nth_error_app2 in E by exact L. destruct (j - length pre)%nat as [|i] eqn:K; [lia|]. eapply nth_error_In. exact E.
Qed.
Definition ahead (N c : R3) (z : R) (o : optic xr) : Prop := exists co u A, flat_optic o co u A /\ along u N /\ z < (co - c)%r3 ∙ N.
Lemma ahead_far N c p g z o r rm x pt n : is_unit N -> g ∙ N = 0 -> ray_is r p (dirn (N + g)%r3) -> ahead N c z o -> reports r rm o x pt n -> (z - (p - c)%r3 ∙ N) * len (N + g)%r3 < x.
Proof.
  intros U G Hr (co & u & A & V & Al & H) R. pose proof (slope_len N g U G) as L1.
  destruct (flat_axis _ _ _ _ N r p _ rm x pt n V Al Hr (dirn_unit _ (slope_nz N g U G)) R) as (E & X & _). rewrite (slope_dir N g U G) in E.
  replace ((co - p)%r3 ∙ N) with ((co - c)%r3 ∙ N - (p - c)%r3 ∙ N) in E by r3r.
  replace x with (((co - c)%r3 ∙ N - (p - c)%r3 ∙ N) * len (N + g)%r3) by (rewrite E; field; lra). apply Rmult_lt_compat_r; lra.
Qed.
Lemma passes_nonneg rule N c p g es hits p' g' s : passes rule N c p g es hits p' g' s -> 0 <= s.
Proof.
  induction 1; [lra| |assumption]. pose proof (len_nonneg (N + g)%r3). assert (0 <= (tz e - (p - c)%r3 ∙ N) * len (N + g)%r3) by (apply Rmult_le_pos; lra). lra.
Qed.
Lemma thin_flat N c e : thin_built N c e -> flat_optic (OLens (tl e)) (c + tz e * N)%r3 (dirn (tn e)) (fun q => dist3 q (c + tz e * N)%r3 < tD e / 2).
Proof. intros (Hn & Al & Hf & B). eapply FO_lens; eassumption. Qed.
Lemma thin_ahead N c z es : is_unit N -> Forall (thin_built N c) es -> Forall (Rlt z) (map tz es) -> Forall (ahead N c z) (map (fun e => OLens (tl e)) es).
Proof.
  intros U B. induction B as [|e es Be Bs IH]; cbn; intros F; constructor.
  - pose proof (Forall_inv F) as F1. cbv beta in F1. exists (c + tz e * N)%r3, (dirn (tn e)), (fun q => dist3 q (c + tz e * N)%r3 < tD e / 2). split; [apply thin_flat, Be|]. split; [apply Be|].
    rewrite centre_axial by exact U. replace (c - c)%r3 with r3zero by r3r. rewrite dot_zero_l. lra.
  - apply IH. exact (Forall_inv_tail F).
Qed.
Lemma quiet_ok N c p g zs r o d : quiet N c p g zs o -> ray_is r p d -> is_unit d -> test_ok r o.
Proof. intros (co & u & A & V & _) Hr Hd. eapply flat_test_ok; eassumption. Qed.
Lemma ahead_ok N c z r o p d : ahead N c z o -> ray_is r p d -> is_unit d -> test_ok r o.
Proof. intros (co & u & A & V & _) Hr Hd. eapply flat_test_ok; eassumption. Qed.

Lemma train_steps N c m dopt cd ud Ad zd : is_unit N -> flat_optic dopt cd ud Ad -> along ud N -> (cd - c)%r3 ∙ N = zd ->
  forall p g es hits p' g' s, passes code_rule N c p g es hits p' g' s -> g ∙ N = 0 ->
  forall pre st rm, rs_world st = pre ++ map (fun e => OLens (tl e)) es ++ [dopt] -> ray_is (rs_ray st) p (dirn (N + g)%r3) -> rs_remaining st = Fin rm ->
    blocked (rs_ray st) = false -> ray_type (rs_ray st) <> "faerie_fire"%string -> Forall (quiet N c p g (map tz es ++ [zd])) pre ->
    StronglySorted Rlt (map tz es ++ [zd]) -> Forall (thin_built N c) es -> s <= rm ->
  exists n st', (n <= length es)%nat /\ steps (Fin m) None n st st' /\ rs_world st' = rs_world st /\ ray_is (rs_ray st') p' (dirn (N + g')%r3) /\ g' ∙ N = 0 /\
    blocked (rs_ray st') = false /\ ray_type (rs_ray st') = ray_type (rs_ray st) /\ wavelength (rs_ray st') = wavelength (rs_ray st) /\
    point_history (rs_ray st') = point_history (rs_ray st) ++ map fv hits /\ rs_remaining st' = Fin (rm - s) /\
    Forall (quiet N c p' g' [zd]) (pre ++ map (fun e => OLens (tl e)) es).
Proof.
  intros U Vd Ad' Zd p g es hits p' g' s P. induction P as [p g|p g g1 e es hits p' g' s q h T Ap St Rule P IH|p g e es hits p' g' s q h Ap P IH]; intros G pre st rm W Hr Hrm Hb Hty Q So B Bud.
  - exists 0%nat, st. cbn [map length] in *. rewrite !app_nil_r. replace (rm - 0) with rm by ring. repeat split; auto; try (apply Hr). apply steps_O.
  - cbn [map app] in *. apply StronglySorted_inv in So. destruct So as [So' Fo]. pose proof (Forall_inv B) as Be. pose proof (Forall_inv_tail B) as Bs. clear B.
    pose proof (slope_len N g U G) as L1. set (t := tz e - (p - c)%r3 ∙ N) in *. set (x := t * len (N + g)%r3) in *.
    assert (Px : 1e-9 < x). { unfold x. replace 1e-9 with (1e-9 * 1) by ring. apply Rlt_le_trans with (t * 1); [lra|apply Rmult_le_compat_l; lra]. }
    pose proof (passes_nonneg _ _ _ _ _ _ _ _ _ _ P) as Ps.
    set (d := dirn (N + g)%r3) in *. assert (Ud : is_unit d) by (apply dirn_unit, slope_nz; assumption).
    pose proof (slope_dir N g U G) as Dd. fold d in Dd.
    assert (Eq : at_t p d x = q) by (unfold x, d; rewrite at_slope by assumption; reflexivity).
    pose proof (offset_perp N c p g (tz e) U G) as Hh. fold q h in Hh.
    pose proof (reach_axial N c p g (tz e) U G) as Aq. fold q in Aq.
    apply Forall_app in Fo. destruct Fo as [Fo Fd]. apply Forall_inv in Fd.
    assert (Ah : Forall (ahead N c (tz e)) (map (fun e => OLens (tl e)) es ++ [dopt])).
    { apply Forall_app. split; [apply thin_ahead; assumption|]. constructor; [|constructor]. exists cd, ud, Ad. rewrite Zd. auto. }
    assert (R1 : reports (rs_ray st) rm (OLens (tl e)) x (fv q) (Some (fv (dirn (tn e))))).
    { rewrite <- Eq. pose proof Be as (_ & Al & _). eapply (flat_axis_yes _ _ _ _ N _ p d rm x (thin_flat N c e Be) Al Hr Ud).
      - rewrite centre_axial by exact U. fold t. rewrite Dd. unfold x. field. lra.
      - exact Px.
      - rewrite Dd, Rabs_right by (apply Rle_ge, Rlt_le, Rdiv_lt_0_compat; lra). apply Rmult_lt_reg_r with (len (N + g)%r3); [lra|]. replace (1 / len (N + g)%r3 * len (N + g)%r3) with 1 by (field; lra). lra.
      - rewrite Eq. exact Ap.
      - lra. }
    assert (Ch : chosen (rs_ray st) rm (rs_world st) (length pre) x (fv q) (Some (fv (dirn (tn e))))).
    { eapply chosen_intro; [rewrite W, nth_error_app2, Nat.sub_diag by lia; reflexivity|exact R1|].
      intros j o' x' pt' n' Ej Ne Rp. rewrite W in Ej. destruct (nth_other _ _ _ _ _ Ej Ne) as [I|I].
      - exfalso. rewrite Forall_forall in Q. exact (quiet_no N c p g _ o' _ rm x' pt' n' U G Hr (Q _ I) Rp).
      - rewrite Forall_forall in Ah. exact (ahead_far N c p g (tz e) o' _ rm x' pt' n' U G Hr (Ah _ I) Rp). }
    assert (En : nth_error (rs_world st) (length pre) = Some (OLens (tl e))) by (rewrite W, nth_error_app2, Nat.sub_diag by lia; reflexivity).
    pose proof (fly_ray _ p d x Hr) as Hq. rewrite Eq in Hq.
    pose proof (rule_perp N g h (tf e) g1 G Hh Rule) as G1.
    assert (Do : forall sf, optic_do_intersect (OLens (tl e)) (fly (rs_ray st) (Fin x)) (fv q) (Some (fv (dirn (tn e)))) sf =
      Ok (set_direction (fly (rs_ray st) (Fin x)) (fv (dirn (N + g1)%r3)), OLens (tl e))).
    { intros sf. cbn [optic_do_intersect]. unfold lens_do_intersect. pose proof Be as (Hn & _ & _ & Bl). destruct (mk_lens_thin _ _ _ _ _ _ _ _ Hn Bl) as [_ Ty]. rewrite Ty.
      change (String.eqb "ideal" "ideal") with true. cbn iota. rewrite (thin_transfer N c e _ g q g1 U G Be Hq Hh St Rule). reflexivity. }
    assert (TO : Forall (test_ok (rs_ray st)) (rs_world st)).
    { rewrite W. apply Forall_app. split; [|constructor].
      - eapply Forall_impl; [|exact Q]. intros o' Qo. exact (quiet_ok _ _ _ _ _ _ _ _ Qo Hr Ud).
      - exact (flat_test_ok _ _ _ _ _ _ _ (thin_flat N c e Be) Hr Ud).
      - eapply Forall_impl; [|exact Ah]. intros o' Qo. exact (ahead_ok _ _ _ _ _ _ _ Qo Hr Ud). }
    destruct (body_chosen m st rm (length pre) x _ _ _ _ _ Hrm TO Ch En Hty Do) as (st1 & S1 & Ry1 & W1 & Rm1 & _).
    rewrite set_nth_same in W1 by exact En.
    assert (Hr1 : ray_is (rs_ray st1) q (dirn (N + g1)%r3)) by (rewrite Ry1; apply (set_dir_ray _ _ d); exact Hq).
    destruct (IH G1 (pre ++ [OLens (tl e)]) st1 (rm - x)) as (n & st' & Ln & S' & W' & Hr' & G' & Hb' & Ty' & Wl' & Hi' & Rm' & Q').
    + rewrite W1, W, <- app_assoc. reflexivity.
    + exact Hr1.
    + exact Rm1.
    + rewrite Ry1. exact Hb.
    + rewrite Ry1. exact Hty.
    + apply Forall_app. split.
      * eapply Forall_impl; [|exact Q]. intros o' Qo. eapply quiet_after; [exact Qo|exact Aq].
      * constructor; [|constructor]. exists (c + tz e * N)%r3, (dirn (tn e)), (fun q => dist3 q (c + tz e * N)%r3 < tD e / 2). split; [apply thin_flat, Be|]. split; [apply Be|].
        split; [left; rewrite centre_axial, Aq by exact U; lra|]. rewrite centre_axial by exact U. replace (c - c)%r3 with r3zero by r3r. rewrite dot_zero_l, Rminus_0_r.
        apply Forall_app. split; [exact Fo|]. constructor; [exact Fd|constructor].
    + exact So'.
    + exact Bs.
    + lra.
    + exists (Datatypes.S n), st'. split; [cbn; lia|]. split; [eapply steps_cons; [eapply cond_go; [exact Hrm|lra|reflexivity|exact Hb]|exact S1|exact S']|].
      split; [congruence|]. split; [exact Hr'|]. split; [exact G'|]. split; [exact Hb'|]. split; [rewrite Ty', Ry1; reflexivity|]. split; [rewrite Wl', Ry1; reflexivity|].
      split. { rewrite Hi', Ry1. change (point_history (set_direction (fly (rs_ray st) (Fin x)) (fv (dirn (N + g1)%r3)))) with (point_history (fly (rs_ray st) (Fin x))).
        rewrite (fly_history _ p d x Hr), Eq, <- app_assoc. reflexivity. }
      split; [rewrite Rm'; f_equal; ring|]. rewrite <- app_assoc in Q'. exact Q'.
  - cbn [map app] in *. apply StronglySorted_inv in So. destruct So as [So' Fo]. pose proof (Forall_inv B) as Be. pose proof (Forall_inv_tail B) as Bs.
    destruct (IH G (pre ++ [OLens (tl e)]) st rm) as (n & st' & Ln & S' & W' & Hr' & G' & Hb' & Ty' & Wl' & Hi' & Rm' & Q').
    + rewrite W, <- app_assoc. reflexivity.
    + exact Hr.
    + exact Hrm.
    + exact Hb.
    + exact Hty.
    + apply Forall_app. split.
      * eapply Forall_impl; [|exact Q]. intros o' (co & u & A & V & Al & H & F). exists co, u, A. pose proof (Forall_inv_tail F). auto.
      * constructor; [|constructor]. exists (c + tz e * N)%r3, (dirn (tn e)), (fun q => dist3 q (c + tz e * N)%r3 < tD e / 2). split; [apply thin_flat, Be|]. split; [apply Be|].
        rewrite !centre_axial by exact U. replace (c - c)%r3 with r3zero by r3r. rewrite dot_zero_l, Rminus_0_r. split; [|exact Fo].
        right. unfold h, q, reach in Ap. rewrite dist_len. lra.
    + exact So'.
    + exact Bs.
    + exact Bud.
    + exists n, st'. split; [cbn; lia|]. rewrite <- app_assoc in Q'. repeat split; auto; apply Hr'.
Qed.

(** C62: the whole run of a train of ideal lenses followed by a detector is the specified journey: the lenses are hit in order at the specified points, then the
    detector records the ray exactly when it arrives inside its bounds; otherwise the ray flies on to the full distance. *)
Theorem C62_train : forall N c es nd td w h zd det log r p g hits p' g' s m fuel, is_unit N -> Forall (thin_built N c) es ->
  nd <> r3zero -> td <> r3zero -> along (dirn nd) N ->
  mk_detector (fv (c + zd * N)%r3) (Some (fv nd)) (Some (fv td)) "rectangular_flat" (Some (Fin w)) (Some (Fin h)) = Ok det ->
  StronglySorted Rlt (map tz es ++ [zd]) ->
  ray_is r p (dirn (N + g)%r3) -> g ∙ N = 0 -> blocked r = false -> ray_type r <> "faerie_fire"%string ->
  passes code_rule N c p g es hits p' g' s -> len (N + g')%r3 < 1e9 -> (length es < fuel)%nat ->
  let world l := map (fun e => OLens (tl e)) es ++ [with_log (ODetector det) l] in
  let X := reach N c p' g' zd in let inside := in_rect (c + zd * N)%r3 (dirn nd) (dirn td) h w X in
  (inside -> 1e-9 < zd - (p' - c)%r3 ∙ N -> s + (zd - (p' - c)%r3 ∙ N) * len (N + g')%r3 <= m ->
     exists r', run fuel r (Fin m) (world log) None = Ok (r', world (log ++ [(fv X, wavelength r)])) /\
       blocked r' = true /\ position r' = fv X /\ point_history r' = point_history r ++ map fv hits ++ [fv X]) /\
  (~ inside -> s < m ->
     let Y := at_t p' (dirn (N + g')%r3) (m - s) in
     exists r', run fuel r (Fin m) (world log) None = Ok (r', world log) /\
       blocked r' = false /\ position r' = fv Y /\ direction r' = fv (dirn (N + g')%r3) /\ point_history r' = point_history r ++ map fv hits ++ [fv Y]).
Proof.
  intros N c es nd td w h zd det log r p g hits p' g' s m fuel U B Hn Ht Al Ed So Hr G Hb Hty P St HF world X inside.
  set (cd := (c + zd * N)%r3) in *.
  pose proof (FO_detector cd nd td w h det log Hn Ht Ed) as Vd.
  assert (Zd : (cd - c)%r3 ∙ N = zd). { unfold cd. rewrite centre_axial by exact U. replace (c - c)%r3 with r3zero by r3r. rewrite dot_zero_l. ring. }
  assert (Steps : s <= m -> exists n st', (n <= length es)%nat /\ steps (Fin m) None n (run_init r (Fin m) (world log)) st' /\ rs_world st' = world log /\ ray_is (rs_ray st') p' (dirn (N + g')%r3) /\
    g' ∙ N = 0 /\ blocked (rs_ray st') = false /\ ray_type (rs_ray st') = ray_type r /\ wavelength (rs_ray st') = wavelength r /\
    point_history (rs_ray st') = point_history r ++ map fv hits /\ rs_remaining st' = Fin (m - s) /\ Forall (quiet N c p' g' [zd]) (map (fun e => OLens (tl e)) es)).
  { intros Hs. exact (train_steps N c m _ cd _ _ zd U Vd Al Zd p g es hits p' g' s P G [] (run_init r (Fin m) (world log)) m eq_refl Hr eq_refl Hb Hty ltac:(constructor) So B Hs). }
  pose proof (passes_nonneg _ _ _ _ _ _ _ _ _ _ P) as Ps.
  split.
  - intros In T Bud. destruct Steps as (n & st & Ln & S1 & W1 & Hr1 & G' & Hb1 & Ty1 & Wl1 & Hi1 & Rm1 & Q1).
    { pose proof (len_nonneg (N + g')%r3). assert (0 <= (zd - (p' - c)%r3 ∙ N) * len (N + g')%r3) by (apply Rmult_le_pos; lra). lra. }
    pose proof (slope_len N g' U G') as L1. set (t := zd - (p' - c)%r3 ∙ N) in *. set (x := t * len (N + g')%r3) in *. set (d := dirn (N + g')%r3) in *.
    assert (Px : 1e-9 < x). { unfold x. apply Rlt_le_trans with (t * 1); [lra|apply Rmult_le_compat_l; lra]. }
    assert (Ud : is_unit d) by (apply dirn_unit, slope_nz; assumption). pose proof (slope_dir N g' U G') as Dd. fold d in Dd.
    assert (EX : at_t p' d x = X) by (unfold x, d; rewrite at_slope by assumption; reflexivity).
    assert (R1 : reports (rs_ray st) (m - s) (with_log (ODetector det) log) x (fv X) (Some (fv (dirn nd)))).
    { rewrite <- EX. eapply (flat_axis_yes _ _ _ _ N _ p' d (m - s) x Vd Al Hr1 Ud).
      - unfold cd. rewrite centre_axial by exact U. fold t. rewrite Dd. unfold x. field. lra.
      - exact Px.
      - rewrite Dd, Rabs_right by (apply Rle_ge, Rlt_le, Rdiv_lt_0_compat; lra). apply Rmult_lt_reg_r with (len (N + g')%r3); [lra|]. replace (1 / len (N + g')%r3 * len (N + g')%r3) with 1 by (field; lra). lra.
      - rewrite EX. exact In.
      - lra. }
    set (k := length (map (fun e => OLens (tl e)) es)).
    assert (En : nth_error (rs_world st) k = Some (with_log (ODetector det) log)) by (rewrite W1; unfold world, k; rewrite nth_error_app2, Nat.sub_diag by lia; reflexivity).
    assert (Ch : chosen (rs_ray st) (m - s) (rs_world st) k x (fv X) (Some (fv (dirn nd)))).
    { eapply chosen_intro; [exact En|exact R1|]. intros j o' x' pt' n' Ej Ne Rp. rewrite W1 in Ej. destruct (nth_other _ _ _ _ _ Ej Ne) as [I|[]].
      exfalso. rewrite Forall_forall in Q1. exact (quiet_no N c p' g' _ o' _ (m - s) x' pt' n' U G' Hr1 (Q1 _ I) Rp). }
    assert (TO : Forall (test_ok (rs_ray st)) (rs_world st)).
    { rewrite W1. apply Forall_app. split; [|constructor; [|constructor]].
      - eapply Forall_impl; [|exact Q1]. intros o' Qo. exact (quiet_ok _ _ _ _ _ _ _ _ Qo Hr1 Ud).
      - exact (flat_test_ok _ _ _ _ _ _ _ Vd Hr1 Ud). }
    assert (Do : forall sf, optic_do_intersect (with_log (ODetector det) log) (fly (rs_ray st) (Fin x)) (fv X) (Some (fv (dirn nd))) sf =
      Ok (set_blocked (fly (rs_ray st) (Fin x)), with_log (ODetector det) (log ++ [(fv X, wavelength (rs_ray st))]))) by reflexivity.
    destruct (body_chosen m st (m - s) k x _ _ _ _ _ Rm1 TO Ch En ltac:(rewrite Ty1; exact Hty) Do) as (st2 & S2 & Ry2 & W2 & Rm2 & _).
    assert (W3 : rs_world st2 = world (log ++ [(fv X, wavelength r)])).
    { rewrite W2, W1, Wl1. unfold world, k. clear. induction (map (fun e => OLens (tl e)) es) as [|a l IH]; [reflexivity|]. cbn. f_equal. exact IH. }
    exists (set_blocked (fly (rs_ray st) (Fin x))). split; [|split; [reflexivity|split]].
    + rewrite <- W3, <- Ry2. eapply (run_steps m None (Datatypes.S n)); [eapply steps_S; [exact S1|eapply cond_go; [exact Rm1|lra|reflexivity|exact Hb1]|exact S2]|apply cond_blocked; rewrite Ry2; reflexivity|lia].
    + change (position (set_blocked (fly (rs_ray st) (Fin x)))) with (position (fly (rs_ray st) (Fin x))). rewrite (proj1 (fly_ray _ p' _ x Hr1)), EX. reflexivity.
    + change (point_history (set_blocked (fly (rs_ray st) (Fin x)))) with (point_history (fly (rs_ray st) (Fin x))). rewrite (fly_history _ p' _ x Hr1), EX, Hi1, <- app_assoc. reflexivity.
  - intros Out Hs Y. destruct Steps as (n & st & Ln & S1 & W1 & Hr1 & G' & Hb1 & Ty1 & Wl1 & Hi1 & Rm1 & Q1); [lra|].
    set (d := dirn (N + g')%r3) in *. assert (Ud : is_unit d) by (apply dirn_unit, slope_nz; assumption).
    assert (Qd : quiet N c p' g' [] (with_log (ODetector det) log)).
    { exists cd, (dirn nd), (in_rect cd (dirn nd) (dirn td) h w). split; [exact Vd|]. split; [exact Al|]. split; [|constructor]. right. unfold cd at 2. rewrite centre_axial by exact U. exact Out. }
    assert (TO : Forall (test_ok (rs_ray st)) (rs_world st)).
    { rewrite W1. apply Forall_app. split; [|constructor; [|constructor]].
      - eapply Forall_impl; [|exact Q1]. intros o' Qo. exact (quiet_ok _ _ _ _ _ _ _ _ Qo Hr1 Ud).
      - exact (flat_test_ok _ _ _ _ _ _ _ Vd Hr1 Ud). }
    assert (No : none_reports (rs_ray st) (m - s) (rs_world st)).
    { intros j o' x' pt' n' Ej Rp. rewrite W1 in Ej. apply nth_error_In in Ej. apply in_app_or in Ej. destruct Ej as [I|[<-|[]]].
      - rewrite Forall_forall in Q1. exact (quiet_no N c p' g' _ o' _ (m - s) x' pt' n' U G' Hr1 (Q1 _ I) Rp).
      - exact (quiet_no N c p' g' _ _ _ (m - s) x' pt' n' U G' Hr1 Qd Rp). }
    destruct (body_free m st (m - s) p' d Rm1 Hr1 TO No) as (st2 & S2 & Ry2 & W2 & Rm2 & _).
    exists (fly (rs_ray st) (Fin (m - s))). split; [|split; [exact Hb1|split; [|split]]].
    + assert (W3 : rs_world st2 = world log) by congruence. rewrite <- Ry2. rewrite <- W3 at 2. eapply (run_steps m None (Datatypes.S n)); [eapply steps_S; [exact S1|eapply cond_go; [exact Rm1|lra|reflexivity|exact Hb1]|exact S2]|eapply cond_spent; [exact Rm2|lra]|lia].
    + apply (fly_ray _ p' _ _ Hr1).
    + apply (fly_ray _ p' _ _ Hr1).
    + rewrite (fly_history _ p' _ _ Hr1), Hi1, <- app_assoc. reflexivity.
Qed.
Print Assumptions C62_train.

(** the ray-transfer matrix of the train: offset and slope behind the last lens (at axial coordinate zl) are a h + b g and a' h + b' g *)
Record matrix := mkMatrix { m_a : R; m_b : R; m_a' : R; m_b' : R; m_z : R }.
Definition move (z : R) (M : matrix) : matrix := mkMatrix (m_a M + (z - m_z M) * m_a' M) (m_b M + (z - m_z M) * m_b' M) (m_a' M) (m_b' M) z.
Definition bend (f : R) (M : matrix) : matrix := mkMatrix (m_a M) (m_b M) (m_a' M - m_a M / f) (m_b' M - m_b M / f) (m_z M).
Definition through (M : matrix) (e : thin) : matrix := bend (tf e) (move (tz e) M).
Definition train_matrix (z : R) (es : list thin) : matrix := fold_left through es (mkMatrix 1 0 0 1 z).
Definition offset (N c p : R3) : R3 := (p - c - ((p - c) ∙ N) * N)%r3.

Lemma train_linear N c es : is_unit N -> forall p g hits p' g' s, passes exact_rule N c p g es hits p' g' s -> length hits = length es -> g ∙ N = 0 ->
  forall M h0 g0, m_z M = (p - c)%r3 ∙ N -> offset N c p = (m_a M * h0 + m_b M * g0)%r3 -> g = (m_a' M * h0 + m_b' M * g0)%r3 ->
  let M' := fold_left through es M in m_z M' = (p' - c)%r3 ∙ N /\ offset N c p' = (m_a M' * h0 + m_b M' * g0)%r3 /\ g' = (m_a' M' * h0 + m_b' M' * g0)%r3 /\ g' ∙ N = 0.
Proof.
  intros U p g hits p' g' s P. induction P as [p g|p g g1 e es hits p' g' s q h T Ap St [Near E1] P IH|p g e es hits p' g' s q h Ap P IH]; intros Ln G M h0 g0 Z Eo Eg.
  - cbn. auto.
  - cbn [fold_left]. cbn [length] in Ln. pose proof (offset_perp N c p g (tz e) U G) as Hh. fold q h in Hh. pose proof (reach_axial N c p g (tz e) U G) as Aq. fold q in Aq.
    assert (Oq : offset N c q = h). { unfold offset. rewrite Aq. unfold h. r3r. }
    assert (Eh : h = (offset N c p + (tz e - (p - c)%r3 ∙ N) * g)%r3). { unfold h, q, reach, offset. set (k := (p - c)%r3 ∙ N). clearbody k. r3r. }
    rewrite <- Z, Eo, Eg in Eh.
    apply IH.
    + lia.
    + rewrite E1, dot_sub_l, dot_scale_l, G, Hh. ring.
    + unfold through, bend, move; cbn [m_z]. symmetry. exact Aq.
    + unfold through, bend, move; cbn [m_a m_b]. rewrite Oq, Eh. r3r.
    + unfold through, bend, move; cbn [m_a m_b m_a' m_b']. rewrite E1, Eh, Eg. unfold Rdiv. r3r.
  - exfalso. assert (Hl : (length hits <= length es)%nat) by (clear - P; induction P; cbn; lia). cbn in Ln. lia.
Qed.

(** C63: the offset on a screen at zd is a fixed linear combination A h + B g of the offset h and the slope g at the start, with coefficients depending only on the positions and focal
    lengths of the lenses, and the matrix has determinant 1; so if B = 0, the screen is the image plane: every ray that leaves p and goes through all the lenses arrives at the
    same point, with magnification A. *)
Theorem C63_transfer : forall N c es p g hits p' g' s zd, is_unit N -> g ∙ N = 0 -> passes exact_rule N c p g es hits p' g' s -> length hits = length es ->
  let M := train_matrix ((p - c)%r3 ∙ N) es in let S := move zd M in
  m_a S * m_b' S - m_b S * m_a' S = 1 /\
  reach N c p' g' zd = (c + zd * N + (m_a S * offset N c p + m_b S * g))%r3 /\ g' = (m_a' M * offset N c p + m_b' M * g)%r3 /\
  (m_b S = 0 -> reach N c p' g' zd = (c + zd * N + m_a S * offset N c p)%r3).
Proof.
  intros N c es p g hits p' g' s zd U G P Ln M S.
  destruct (train_linear N c es U p g hits p' g' s P Ln G (mkMatrix 1 0 0 1 ((p - c)%r3 ∙ N)) (offset N c p) g) as (Zp & Eo & Eg & G'); cbn [m_z m_a m_b m_a' m_b']; [reflexivity|r3r|r3r|].
  fold (train_matrix ((p - c)%r3 ∙ N) es) in Zp, Eo, Eg. fold M in Zp, Eo, Eg.
  assert (EX : reach N c p' g' zd = (c + zd * N + (m_a S * offset N c p + m_b S * g))%r3).
  { assert (E0 : reach N c p' g' zd = (c + zd * N + (offset N c p' + (zd - (p' - c)%r3 ∙ N) * g'))%r3) by (unfold reach, offset; set (k := (p' - c)%r3 ∙ N); clearbody k; r3r).
    rewrite E0, <- Zp, Eo. rewrite Eg. unfold S, move; cbn [m_a m_b]. set (v := offset N c p). clearbody v. r3r. }
  split; [|split; [exact EX|split; [exact Eg|]]].
  - assert (D : forall es M0, m_a M0 * m_b' M0 - m_b M0 * m_a' M0 = 1 -> let M1 := fold_left through es M0 in m_a M1 * m_b' M1 - m_b M1 * m_a' M1 = 1).
    { clear. induction es as [|e es IH]; intros M0 H0; [exact H0|]. cbn [fold_left]. apply IH. unfold through, bend, move; cbn [m_a m_b m_a' m_b' m_z]. rewrite <- H0. unfold Rdiv. ring. }
    specialize (D es (mkMatrix 1 0 0 1 ((p - c)%r3 ∙ N)) ltac:(cbn; ring)). cbv zeta in D. fold (train_matrix ((p - c)%r3 ∙ N) es) in D. fold M in D.
    unfold S, move; cbn [m_a m_b m_a' m_b']. rewrite <- D. ring.
  - intros B0. rewrite EX, B0. set (v := offset N c p). clearbody v. r3r.
Qed.
Print Assumptions C63_transfer.

(** a nearly parallel ray (which the code aims at the focal point) is off by at most 2e-8 per unit of distance *)
Lemma near_slope N g : is_unit N -> g ∙ N = 0 -> near3 (dirn (N + g)%r3) N -> len g <= 2e-8.
Proof.
  intros U G (A & B & C). pose proof (slope_len N g U G) as L1. pose proof (slope_dir N g U G) as Dd. pose proof (dirn_unit _ (slope_nz N g U G)) as Ud. set (d := dirn (N + g)%r3) in *.
  pose proof (len_sq (N + g)%r3) as Lq. replace ((N + g)%r3 ∙ (N + g)%r3) with (N ∙ N + 2 * (g ∙ N) + g ∙ g) in Lq by r3r. set (l := len (N + g)%r3) in *. clearbody l d.
  unfold is_unit in U, Ud. rewrite U, G in Lq.
  assert (K : forall a b, Rabs b <= 1 -> near1 a b -> (a - b) * (a - b) <= 1.03e-16).
  { unfold near1. intros a b Hb H. assert (Rabs (a - b) <= 1.01e-8) by lra. apply Rabs_le_iff in H0. nra. }
  assert (Hx : Rabs (cx N) <= 1) by (apply Rabs_le_iff; unfold r3dot in U; nra). assert (Hy : Rabs (cy N) <= 1) by (apply Rabs_le_iff; unfold r3dot in U; nra).
  assert (Hz : Rabs (cz N) <= 1) by (apply Rabs_le_iff; unfold r3dot in U; nra).
  apply K in A; [|exact Hx]. apply K in B; [|exact Hy]. apply K in C; [|exact Hz].
  assert (E : 2 - 2 * (d ∙ N) <= 3.1e-16). { replace (2 - 2 * (d ∙ N)) with (d ∙ d - 2 * (d ∙ N) + N ∙ N) by lra. unfold r3dot. lra. }
  rewrite Dd in E. assert (El : l * (1 / l) = 1) by (field; lra). assert (Hl : l <= 1 + 1.6e-16) by nra.
  apply len_bound; [lra|]. nra.
Qed.

(** one lens: the thin-lens equation; rays through the lens from p at distance a in front of it arrive on the image plane at a' behind it within 2e-8 a' of the image point, and exactly there
    unless they are nearly but not exactly parallel to the axis *)
Theorem C63_single : forall N c e p g p' g' s q a a', is_unit N -> g ∙ N = 0 -> passes code_rule N c p g [e] [q] p' g' s ->
  0 < tf e -> tz e - (p - c)%r3 ∙ N = a -> 0 < a' -> / a + / a' = / tf e ->
  let X := reach N c p' g' (tz e + a') in let I := (c + (tz e + a') * N - (a' / a) * offset N c p)%r3 in
  dist3 X I <= 2e-8 * a' /\ (g = r3zero \/ ~ near3 (dirn (N + g)%r3) N -> X = I).
Proof.
  intros N c e p g p' g' s q a a' U G P Hf Ea Pa' Eq X I. inversion P as [|? ? g1 ? ? ? ? ? s1 q1 h1 T Ap St Rule P1|? ? ? ? ? ? ? ? q1 h1 Ap P1]; subst; [|inversion P1].
  inversion P1; subst. clear P P1. set (a := tz e - (p - c)%r3 ∙ N) in *. set (f := tf e) in *.
  set (q := reach N c p g (tz e)) in *. pose proof (reach_axial N c p g (tz e) U G) as Aq. fold q in Aq.
  assert (Eh : h1 = (offset N c p + a * g)%r3). { unfold h1, q1, q, reach, offset, a. set (k := (p - c)%r3 ∙ N). clearbody k. r3r. }
  assert (Eq' : q = (c + tz e * N + h1)%r3) by (unfold h1, q1; r3r).
  assert (Ef : a' / f = 1 + a' / a). { unfold Rdiv. rewrite <- Eq. field. lra. }
  assert (EX : X = (c + (tz e + a') * N + h1 + a' * g')%r3). { unfold X, q1, reach. rewrite Aq. rewrite Eq' at 1. r3r. }
  assert (EI : g' = (g - / f * h1)%r3 -> X = I).
  { intros ->. rewrite EX. unfold I. replace (c + (tz e + a') * N + h1 + a' * (g - / f * h1))%r3 with (c + (tz e + a') * N + ((1 - a' / f) * h1 + a' * g))%r3 by (unfold Rdiv; r3r).
    rewrite Ef, Eh. set (v := offset N c p). clearbody v. replace ((1 - (1 + a' / a)) * (v + a * g) + a' * g)%r3 with ((- (a' / a)) * v + (a' - a' / a * a) * g)%r3 by r3r.
    replace (a' - a' / a * a) with 0 by (field; lra). r3r. }
  assert (D0 : X = I -> dist3 X I <= 2e-8 * a'). { intros ->. rewrite dist_len. replace (I - I)%r3 with r3zero by r3r. apply len_bound; [lra|]. rewrite dot_zero_l. nra. }
  destruct Rule as [[Nr E1]|[Nr E1]].
  - split; [apply D0, EI, E1|intros _; apply EI, E1].
  - split.
    + assert (E2 : (X - I)%r3 = ((- a') * g)%r3).
      { rewrite EX, E1. unfold I. replace (c + (tz e + a') * N + h1 + a' * - (/ f * h1))%r3 with (c + (tz e + a') * N + (1 - a' / f) * h1)%r3 by (unfold Rdiv; r3r).
        rewrite Ef, Eh. set (v := offset N c p). clearbody v. replace (c + (tz e + a') * N + (1 - (1 + a' / a)) * (v + a * g) - (c + (tz e + a') * N - a' / a * v))%r3 with (- (a' / a * a) * g)%r3 by r3r.
        replace (a' / a * a) with a' by (field; lra). reflexivity. }
      rewrite dist_len, E2, len_scale, Rabs_Ropp, Rabs_right by lra. rewrite Rmult_comm. apply Rmult_le_compat_r; [lra|]. apply (near_slope N g U G Nr).
    + intros [Z|NN]; [|contradiction]. apply EI. rewrite E1, Z. r3r.
Qed.
Print Assumptions C63_single.

(** two lenses (f = 1 at z = 0 and f = 1/2 at z = 1), a ray from the axis point z = -2 with slope 1/10; the first lens alone images at z = 2 *)
Definition train_e1 : thin := mkThin 0 1 2 e_z (Fin 1) (flat_lens 0 (Some (Fin 1)) "ideal").
Definition train_e2 : thin := mkThin 1 (1/2) 2 e_z (Fin 1) (flat_lens 1 (Some (Fin (1/2))) "ideal").
Lemma sl x : (e_z + mk3 x 0 0)%r3 = mk3 x 0 1. Proof. apply r3_ext; unfold e_z; cbn; ring. Qed.
Example C62_hyp : let c := at_z 0 in let g := mk3 (1/10) 0 0 in Forall (thin_built e_z c) [train_e1; train_e2] /\ StronglySorted Rlt (map tz [train_e1; train_e2] ++ [2]) /\ g ∙ e_z = 0 /\
  exists s, passes exact_rule e_z c (at_z (-2)) g [train_e1; train_e2] [mk3 (2/10) 0 0; mk3 (1/10) 0 1] (mk3 (1/10) 0 1) (mk3 (-3/10) 0 0) s.
Proof.
  assert (LB : forall x, -1 <= x <= 1 -> len (mk3 x 0 1) <= 2) by (intros x Hx; apply len_bound; [lra|unfold r3dot; cbn; nra]).
  assert (LP : forall x, 0 < len (mk3 x 0 1)) by (intros x; apply len_pos; intros E; injection E; lra).
  assert (NN : forall x, -1 <= x <= 1 -> 1/100 <= Rabs x -> ~ near3 (dirn (mk3 x 0 1)) e_z).
  { intros x Hx Hb (A & _). unfold near1, dirn, e_z in A; cbn in A. rewrite Rabs_R0, Rminus_0_r, Rabs_mult, Rabs_inv, (Rabs_right (len _)) in A by (apply Rle_ge, Rlt_le, LP).
    assert (/ 2 <= / len (mk3 x 0 1)) by (apply Rinv_le_contravar; [apply LP|apply LB, Hx]). nra. }
  intros c g. split; [|split; [|split]].
  - repeat (apply Forall_cons || apply Forall_nil); (split; [apply e_z_nz|]); (split; [left; apply dirn_of_unit, e_z_unit|]); (split; [cbn; lra|]).
    + cbn [train_e1 tz tn tD tf tix tl]. replace (c + 0 * e_z)%r3 with (at_z 0) by (unfold c; r3r). apply flat_lens_built.
    + cbn [train_e2 tz tn tD tf tix tl]. replace (c + 1 * e_z)%r3 with (at_z 1) by (unfold c; rewrite <- at_z_up; f_equal; lra). apply flat_lens_built.
  - cbn. repeat constructor; lra.
  - unfold g, e_z, r3dot; cbn; ring.
  - assert (Q1 : reach e_z c (at_z (-2)) g (tz train_e1) = mk3 (2/10) 0 0) by (unfold reach, c, g, e_z, at_z, train_e1, r3dot; apply r3_ext; cbn; lra).
    assert (Q2 : reach e_z c (mk3 (2/10) 0 0) (mk3 (-1/10) 0 0) (tz train_e2) = mk3 (1/10) 0 1) by (unfold reach, c, g, e_z, at_z, train_e2, r3dot; apply r3_ext; cbn; lra).
    eexists. rewrite <- Q1 at 1. eapply (passes_hit _ _ _ _ g (mk3 (-1/10) 0 0)).
    + unfold train_e1, c, at_z, e_z, r3dot; cbn. lra.
    + rewrite Q1. apply Rle_lt_trans with (2/10); [|unfold train_e1; cbn; lra]. apply len_bound; [lra|]. unfold c, at_z, e_z, train_e1, r3dot; cbn. lra.
    + unfold g. rewrite sl. pose proof (LB (1/10)). lra.
    + split; [right; unfold g; rewrite sl; apply NN; [lra|rewrite Rabs_right; lra]|]. rewrite Q1. unfold g, c, at_z, e_z, train_e1. apply r3_ext; cbn; lra.
    + rewrite Q1. rewrite <- Q2 at 1. eapply (passes_hit _ _ _ _ _ (mk3 (-3/10) 0 0)).
      * unfold train_e2, c, at_z, e_z, r3dot; cbn. lra.
      * rewrite Q2. apply Rle_lt_trans with (1/10); [|unfold train_e2; cbn; lra]. apply len_bound; [lra|]. unfold c, at_z, e_z, train_e2, r3dot; cbn. lra.
      * rewrite sl. pose proof (LB (-1/10)). lra.
      * split; [right; rewrite sl; apply NN; [lra|rewrite Rabs_left; lra]|]. rewrite Q2. unfold c, at_z, e_z, train_e2. apply r3_ext; cbn; lra.
      * rewrite Q2. constructor.
Qed.
Example C63_hyp : let M := train_matrix (-2) [train_e1] in m_b (move 2 M) = 0 /\ m_a (move 2 M) = -1 /\ / 2 + / 2 = / tf train_e1.
Proof. cbn. repeat split; lra. Qed.
