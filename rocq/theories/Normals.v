(** The normals that optics built by their constructors report, and how an interaction turns the ray relative to the normal. *)
From Coq Require Import Reals ZArith Lra Lia Psatz String List Bool.
From Verif Require Import PyErr Num Vec Shapes Csg Optics Spec XReal RVec VecProofs AngleProofs FlatProofs SphereProofs CylProofs ShapeExtra
  TreeProofs SolidProofs CsgProofs RayProofs RunGen RunXr OpticHits StateXr Props_Reports.
Import ListNotations.
Local Open Scope R_scope.

(** [normal_of s q u]: u is orthogonal to the surface of the solid s at q *)
Definition normal_of (s : solid) (q u : R3) : Prop :=
  match s with Ball c _ => exists k, u = (k * (q - c))%r3 | Cyl c ax _ => exists k, u = (k * perp (dirn ax) (q - c))%r3 end.

(** [normals o N]: o is built by a constructor call with sensible arguments, and at a point q of its surface it has the normal u when N q u.
    Mirrors of type "dmd" and thin lenses do not turn the light about their normal and are left out. *)
Inductive normals : optic xr -> (R3 -> R3 -> Prop) -> Prop :=
| NO_mirror_circ c n D w h f tg ty dmd m : n <> r3zero -> dmd <> r3zero -> ty <> "dmd"%string ->
    mk_mirror (fv c) "circular_flat" (Some (fv n)) (Some (Fin D)) w h f tg ty (Some (fv dmd)) = Ok m ->
    normals (OMirror m) (fun q u => u = dirn n)
| NO_mirror_rect c n t D w h f ty dmd m : n <> r3zero -> t <> r3zero -> dmd <> r3zero -> ty <> "dmd"%string ->
    mk_mirror (fv c) "rectangular_flat" (Some (fv n)) D (Some (Fin w)) (Some (Fin h)) f (Some (fv t)) ty (Some (fv dmd)) = Ok m ->
    normals (OMirror m) (fun q u => u = dirn n)
| NO_mirror_concave c n D w h f tg ty dmd m : n <> r3zero -> dmd <> r3zero -> f <> 0 -> ty <> "dmd"%string ->
    mk_mirror (fv c) "circular_concave_spherical" (Some (fv n)) (Some (Fin D)) w h (Some (Fin f)) tg ty (Some (fv dmd)) = Ok m ->
    normals (OMirror m) (normal_of (Ball (c + (f * 2) * dirn n)%r3 (Rabs (f * 2))))
| NO_mirror_convex c n D w h f tg ty dmd m : dmd <> r3zero -> D <> 0 -> ty <> "dmd"%string ->
    mk_mirror (fv c) "circular_convex_spherical" n (Some (Fin D)) w h f tg ty (Some (fv dmd)) = Ok m ->
    normals (OMirror m) (normal_of (Ball c (Rabs (D / 2))))
| NO_ball_lens c n D f ty ix l : real_type ty -> D <> 0 -> 0 < ix ->
    mk_lens (fv c) n "spherical" (Some (Fin D)) f ty (Fin ix) = Ok l ->
    normals (OLens l) (normal_of (Ball c (Rabs (D / 2))))
| NO_detector c n t w h d log : n <> r3zero -> t <> r3zero ->
    mk_detector (fv c) (Some (fv n)) (Some (fv t)) "rectangular_flat" (Some (Fin w)) (Some (Fin h)) = Ok d ->
    normals (with_log (ODetector d) log) (fun q u => True)
| NO_compound e t beh ix : tree_of e t -> positive e -> 0 < ix ->
    normals (OCompound (mkCompound t beh (Fin ix))) (fun q u => exists s, In s (solids e) /\ surface s q /\ normal_of s q u).

Lemma normals_valid o N : normals o N -> exists S G, valid_optic o S G.
Proof.
  destruct 1; do 2 eexists.
  - eapply VO_mirror_circ; [| |eassumption]; assumption.
  - eapply VO_mirror_rect; [| | |eassumption]; assumption.
  - eapply VO_mirror_concave; [| | |eassumption]; assumption.
  - eapply VO_mirror_convex; [| |eassumption]; assumption.
  - eapply VO_ball_lens; [| | |eassumption]; assumption.
  - eapply VO_detector; [| |eassumption]; assumption.
  - eapply VO_compound; eassumption.
Qed.

(** the reported pair: the normal is the one of the surface, and the point is ahead unless the ray is orthogonal to the normal *)
Definition Pn (N : R3 -> R3 -> Prop) (p d : R3) (x : vec xr) (n : option (vec xr)) : Prop :=
  forall q, x = fv q -> exists u, n = Some (fv u) /\ N q u /\ exists t, q = at_t p d t /\ (1e-12 < t \/ d ∙ u = 0).
Lemma Pn_weaken (N N' : R3 -> R3 -> Prop) p d x n : (forall q u, N q u -> N' q u) -> Pn N p d x n -> Pn N' p d x n.
Proof. intros H P q E. destruct (P q E) as (u & A & B & C). exists u. auto. Qed.

Lemma tangent_orth c rad p d t : is_unit d -> tangent c rad p d -> on_sphere c (Rabs rad) (at_t p d t) -> d ∙ (at_t p d t - c)%r3 = 0.
Proof.
  intros Hd Ht On. apply tangent_disc in Ht; [|exact Hd]. apply on_sphere_param in On; [|exact Hd]. rewrite Ht in On.
  assert (E : t - d ∙ (c - p)%r3 = 0) by (apply Rsqr_0_uniq; exact On). replace (at_t p d t - c)%r3 with (t * d - (c - p))%r3 by (unfold at_t; clear; r3_ring).
  autorewrite with dotr. autorewrite with dotr in E. unfold is_unit in Hd. rewrite Hd. lra.
Qed.
Lemma sphere_normals c rad D p d r : rad <> 0 -> is_unit d -> ray_is r p d ->
  pairs_ok (Pn (fun q u => on_sphere c (Rabs rad) q /\ normal_of (Ball c (Rabs rad)) q u) p d) (sphere_test_intersect (sph c rad D) r).
Proof.
  intros HR Hd Hr. destruct (sphere_pairs c rad D p d r HR Hd Hr) as [P1 P2]. destruct (C108_sphere (sph c rad D) r) as (_ & _ & _ & _ & N1 & N2).
  assert (K : forall v n, Pq (on_sphere c (Rabs rad)) (tangent c rad p d) p d v n -> n = Some (sphere_normal (sph c rad D) v) -> Pn (fun q u => on_sphere c (Rabs rad) q /\ normal_of (Ball c (Rabs rad)) q u) p d v n).
  { intros v n P -> q ->. destruct (P q eq_refl) as (On & _ & t & Eq & L). destruct (sphere_normal_on c rad D q HR On) as [E U]. rewrite E. eexists. split; [reflexivity|].
    split; [split; [exact On|]; exists (- / Rabs rad); clear; r3_ring|]. exists t. split; [exact Eq|]. destruct L as [L|L]; [left; exact L|right].
    subst q. pose proof (tangent_orth c rad p d t Hd L On) as Z. replace (c - at_t p d t)%r3 with (- (at_t p d t - c))%r3 by (clear; r3_ring). rewrite dot_scale_r, dot_opp_r, Z. ring. }
  split; intros v E; [exact (K v _ (P1 v E) (N1 v E))|exact (K v _ (P2 v E) (N2 v E))].
Qed.
Lemma ctangent_orth c u rad p d t : 0 < rad -> is_unit u -> is_unit d -> ctangent c u rad p d -> on_cylinder c u rad (at_t p d t) -> d ∙ perp u (at_t p d t - c) = 0.
Proof.
  intros HR Hu Hd (Np & t0 & On0 & Out) On.
  assert (E : t = t0). { destruct (Req_dec t t0) as [E|E]; [exact E|]. specialize (Out t E). unfold on_cylinder in On. lra. } subst t0.
  (* the function t' |-> axis_dist^2 has its minimum at t *)
  rewrite on_cyl_param in On by exact HR.
  assert (M : forall s, s <> t -> rad * rad < s * s * cA u d + 2 * s * cB c u p d + cC c u p).
  { intros s Hs. rewrite <- axis_dist_param. specialize (Out s Hs). pose proof (axis_dist_nonneg c u (at_t p d s)). nra. }
  assert (Z : t * cA u d + cB c u p d = 0).
  { set (B := t * cA u d + cB c u p d). assert (Q : forall h, h <> 0 -> 0 < 2 * h * B + h * h * cA u d). { intros h Hh. specialize (M (t + h) ltac:(lra)). unfold B. nra. }
    destruct (Req_dec B 0) as [E|E]; [exact E|]. exfalso. set (A := cA u d) in *. assert (PA : 0 < 1 + A * A) by nra.
    assert (Hq : forall k, k <> 0 -> 0 < k * (2 * (B * B) + k * (B * B) * A)).
    { intros k Hk. specialize (Q (k * B) ltac:(now apply Rmult_integral_contrapositive_currified)). replace (k * (2 * (B * B) + k * (B * B) * A)) with (2 * (k * B) * B + k * B * (k * B) * A) by ring. exact Q. }
    specialize (Hq (- / (1 + A * A)) ltac:(apply Ropp_neq_0_compat, Rinv_neq_0_compat; lra)).
    assert (BB : 0 < B * B) by (destruct (Rtotal_order B 0) as [|[|]]; [nra|contradiction|nra]).
    assert (W : 0 < / (1 + A * A)) by now apply Rinv_0_lt_compat. set (w := / (1 + A * A)) in *. assert (Ew : w * (1 + A * A) = 1) by (unfold w; apply Rinv_l; lra). clearbody w.
    assert (S : 0 < 2 - w * A) by nra. assert (0 < w * ((B * B) * (2 - w * A))) by (apply Rmult_lt_0_compat; [exact W|now apply Rmult_lt_0_compat]). nra. }
  rewrite <- Z. unfold cA, cB.
  replace (perp u (at_t p d t - c)) with (perp u (p - c) + t * perp u d)%r3 by (unfold at_t, perp; clear; r3_ring).
  assert (X : forall y, d ∙ perp u y = perp u d ∙ perp u y). { intros y. rewrite (perp_dot u d y Hu). unfold perp. autorewrite with dotr. ring. }
  rewrite dot_add_r, dot_scale_r, !X, (dot_comm (perp u d) (perp u (p - c))). ring.
Qed.

Lemma cyl_normals c u rad D pl p d r h : 0 < rad -> is_unit u -> is_unit d -> ray_is r p d -> infcyl_test_intersect (cyl c u rad D pl) r = Ok h ->
  pairs_ok (Pn (fun q n => on_cylinder c u rad q /\ exists k, n = (k * perp u (q - c))%r3) p d) h.
Proof.
  intros HR Hu Hd Hr E. destruct (cyl_pairs c u rad D pl p d r h HR Hu Hd Hr E) as [P1 P2]. destruct (C108_cylinder (cyl c u rad D pl) r) as [_ K]. destruct K as (h' & E' & _ & _ & _ & N1 & N2).
  { cbn [cyl ic_R]. rewrite nofZ_fin, neqb_fin. apply Reqb_false. lra. }
  rewrite E in E'. injection E' as <-.
  assert (K : forall v n, Pq (on_cylinder c u rad) (ctangent c u rad p d) p d v n -> n = Some (infcyl_normal (cyl c u rad D pl) v) -> Pn (fun q n => on_cylinder c u rad q /\ exists k, n = (k * perp u (q - c))%r3) p d v n).
  { intros v n P -> q ->. destruct (P q eq_refl) as (On & _ & t & Eq & L). destruct (infcyl_normal_on c u rad D pl q HR Hu On) as [En U]. rewrite En. eexists. split; [reflexivity|].
    assert (X : perp u (c - q) = (- perp u (q - c))%r3) by (unfold perp; clear; r3_ring).
    split; [split; [exact On|]; exists (- / rad); rewrite X; clear; r3_ring|]. exists t. split; [exact Eq|]. destruct L as [L|L]; [left; exact L|right].
    subst q. pose proof (ctangent_orth c u rad p d t HR Hu Hd L On) as Z. rewrite X, dot_scale_r, dot_opp_r, Z. ring. }
  split; intros v Ev; [exact (K v _ (P1 v Ev) (N1 v Ev))|exact (K v _ (P2 v Ev) (N2 v Ev))].
Qed.
Definition tree_normal (e : expr solid) (q u : R3) : Prop := exists s, In s (solids e) /\ surface s q /\ normal_of s q u.
Lemma tree_normals e t p d r : tree_of e t -> positive e -> is_unit d -> ray_is r p d ->
  forall i, test_tree_intersect t r = Ok i -> exists h, i = I6 h /\ pairs_ok (Pn (tree_normal e) p d) h.
Proof.
  intros HT. induction HT as [c rad Ro Do s HR E|c u rad Ro Do s Hu Hp HR E|o a b ta tb Ha IHa Hb IHb]; intros Pos Hd Hr i Ei.
  - destruct (mk_sphere_inv _ _ _ _ _ HR E) as [D ->]. cbn in Ei. injection Ei as <-. eexists. split; [reflexivity|].
    assert (0 < rad) by (apply (Pos c); left; reflexivity).
    eapply pairs_weaken; [|apply sphere_normals; [lra|exact Hd|exact Hr]].
    intros x n. apply Pn_weaken. intros q u [On Nu]. exists (Ball c rad). split; [left; reflexivity|]. rewrite Rabs_right in On by lra. split; [exact On|exact Nu].
  - destruct (mk_infcyl_inv _ _ _ _ _ _ Hu HR E) as (D & pl & ->). cbn [test_tree_intersect mk_tree bind key_test_intersect shape_test_intersect] in Ei.
    apply bind_ok in Ei. destruct Ei as (h & Eh & Ei). injection Ei as <-. exists h. split; [reflexivity|].
    eapply pairs_weaken; [|eapply cyl_normals; [exact Hp|apply dirn_unit, Hu|exact Hd|exact Hr|exact Eh]].
    intros x n. apply Pn_weaken. intros q v [On Nu]. exists (Cyl c u rad). split; [left; reflexivity|]. split; [exact On|exact Nu].
  - assert (Pa : positive a) by (intros c rad H; apply (Pos c); cbn; apply in_or_app; auto).
    assert (Pb : positive b) by (intros c rad H; apply (Pos c); cbn; apply in_or_app; auto).
    cbn [test_tree_intersect] in Ei. apply bind_ok in Ei. destruct Ei as (ia & Ea & Ei). apply bind_ok in Ei. destruct Ei as (ib & Eb & Ei).
    destruct (IHa Pa Hd Hr _ Ea) as (ha & -> & Qa). destruct (IHb Pb Hd Hr _ Eb) as (hb & -> & Qb).
    apply bind_ok in Ei. destruct Ei as (f & Ef & Ei). cbn [index6 bind] in Ei. apply bind_ok in Ei. destruct Ei as (h & Eh & Ei).
    injection Ei as <-. exists h. split; [reflexivity|]. eapply oper_pairs; [exact Ef| | |exact Eh]; (eapply pairs_weaken; [|eassumption]); intros x n; apply Pn_weaken; intros q u (s & I & J); exists s; (split; [cbn; apply in_or_app; auto|exact J]).
Qed.

(** the hit of such an optic *)
Definition normal_hit (N : R3 -> R3 -> Prop) (p d : R3) (h : hit4 xr) : Prop :=
  forall q, h4_pt h = Some (fv q) -> exists u, h4_normal h = Some (fv u) /\ N q u /\ exists t, q = at_t p d t /\ (1e-12 < t \/ d ∙ u = 0).
Lemma hit_of_Pn N p d flag x n s : (forall v, x = Some v -> Pn N p d v n) -> normal_hit N p d (H4 flag x n s).
Proof. intros H q E. cbn in *. exact (H _ E q eq_refl). Qed.
Lemma Pn_opp s p d x n : Pn (fun q u => on_sphere (fst s) (Rabs (snd s)) q /\ normal_of (Ball (fst s) (Rabs (snd s))) q u) p d x (Some n) -> Pn (normal_of (Ball (fst s) (Rabs (snd s)))) p d x (Some (vopp n)).
Proof.
  intros H q E. destruct (H q E) as (u & B & (_ & k & Hk) & t & Et & L). injection B as ->.
  exists (- u)%r3. split; [rewrite vopp_fv; reflexivity|]. split; [exists (- k); rewrite Hk; clear; r3_ring|]. exists t. split; [exact Et|]. destruct L as [L|L]; [auto|right]. rewrite dot_opp_r, L. ring.
Qed.
Lemma normals_hit o N r p d h : normals o N -> ray_is r p d -> is_unit d -> optic_test_intersect o r = Ok h -> h4_flag h = true -> normal_hit N p d h.
Proof.
  intros V Hr Hd Ht Hf. destruct V as [c n D w hh f tg ty dmd m Hn Hdm Hty E|c n t D w hh f ty dmd m Hn Htn Hdm Hty E|c n D w hh f tg ty dmd m Hn Hdm Hf0 Hty E|
    c n D w hh f tg ty dmd m Hdm HD Hty E|c n D f ty ix l Hty HD Hix E|c n t w hh de log Hn Htn E|e t beh ix HT Pos Hix].
  - unfold mk_mirror in E. apply bind_ok in E. destruct E as (dm & Edm & E). change (String.eqb "circular_flat" "circular_flat") with true in E. cbn iota in E.
    apply bind_ok in E. destruct E as (nn & Enn & E). apply bind_ok in E. destruct E as (ci & Eci & E). injection E as <-.
    cbn [optic_test_intersect] in Ht. unfold mirror_test_intersect in Ht. cbn [mi_shape mi_surfaces] in Ht.
    change (String.eqb "circular_flat" "circular_flat") with true in Ht. cbn [orb] in Ht.
    apply bind_ok in Ht. destruct Ht as (st & Est & Ht). apply bind_ok in Ht. destruct Ht as (no & Eno & Ht). apply bound_ok in Eno. injection Ht as <-. cbn in Hf.
    destruct (flat_single _ _ _ _ _ Est eq_refl eq_refl) as (h3 & Eh & Fh & Q). cbn [shape_test_intersect] in Eh. apply bind_ok in Eh. destruct Eh as (h3' & Eh & X). injection X as ->.
    intros q Hq. cbn in Hq. rewrite Hf in Fh. symmetry in Fh. destruct (Q Fh q Hq eq_refl) as (Q1 & _ & Q3). destruct (Q3 eq_refl) as (nn' & Sn & Fn).
    destruct (circle_hit _ _ _ _ _ _ _ _ _ Hn Hd Hr Eci Eh Fh Q1) as (A & B & t & C & L). exists (dirn n). split.
    + cbn. cbn [surface_normal] in Sn. unfold mk_circle in Eci. rewrite check_D_only in Eci. cbn [bind] in Eci. injection Eci as <-.
      cbn in Sn. injection Sn as <-. rewrite unit_vector_fv in Fn by exact Hn. congruence.
    + split; [reflexivity|]. exists t. split; [exact C|left; lra].
  - unfold mk_mirror in E. apply bind_ok in E. destruct E as (dm & Edm & E). change (String.eqb "rectangular_flat" "circular_flat") with false in E.
    change (String.eqb "rectangular_flat" "rectangular_flat") with true in E. cbn iota in E.
    apply bind_ok in E. destruct E as (nn & Enn & E). apply bind_ok in E. destruct E as (qq & Eqq & E). injection E as <-.
    cbn [optic_test_intersect] in Ht. unfold mirror_test_intersect in Ht. cbn [mi_shape mi_surfaces] in Ht.
    change (String.eqb "rectangular_flat" "rectangular_flat") with true in Ht. rewrite orb_true_r in Ht.
    apply bind_ok in Ht. destruct Ht as (st & Est & Ht). apply bind_ok in Ht. destruct Ht as (no & Eno & Ht). apply bound_ok in Eno. injection Ht as <-. cbn in Hf.
    destruct (flat_single _ _ _ _ _ Est eq_refl eq_refl) as (h3 & Eh & Fh & Q). cbn [shape_test_intersect] in Eh. apply bind_ok in Eh. destruct Eh as (h3' & Eh & X). injection X as ->.
    intros q Hq. cbn in Hq. rewrite Hf in Fh. symmetry in Fh. destruct (Q Fh q Hq eq_refl) as (Q1 & _ & Q3). destruct (Q3 eq_refl) as (nn' & Sn & Fn).
    destruct (rect_hit _ _ _ _ _ _ _ _ _ _ _ Hn Htn Hd Hr Eqq Eh Fh Q1) as (A & B & B' & s & C & L). exists (dirn n). split.
    + cbn. cbn [surface_normal] in Sn. injection Sn as <-. congruence.
    + split; [reflexivity|]. exists s. split; [exact C|left; lra].
  - unfold mk_mirror in E. apply bind_ok in E. destruct E as (dm & Edm & E). change (String.eqb "circular_concave_spherical" "circular_flat") with false in E.
    change (String.eqb "circular_concave_spherical" "rectangular_flat") with false in E. change (String.eqb "circular_concave_spherical" "circular_concave_spherical") with true in E. cbn iota in E.
    apply bind_ok in E. destruct E as (nn & Enn & E). cbn [unit_vector_o] in Enn. rewrite unit_vector_fv in Enn by exact Hn. injection Enn as <-.
    cbn [need bind] in E. rewrite nofZ_fin, nmul_fin, vscale_fv, vadd_fv in E.
    apply bind_ok in E. destruct E as (ci & Eci & E). apply bind_ok in E. destruct E as (sp & Esp & E). injection E as <-.
    destruct (mk_sphere_R _ _ _ Esp) as [Ds ->].
    cbn [optic_test_intersect] in Ht. unfold mirror_test_intersect in Ht. cbn [mi_shape mi_surfaces] in Ht.
    change (String.eqb "circular_concave_spherical" "circular_flat") with false in Ht. change (String.eqb "circular_concave_spherical" "rectangular_flat") with false in Ht.
    change (String.eqb "circular_concave_spherical" "circular_concave_spherical") with true in Ht. cbn [orb first_sphere first_circle bound bind] in Ht. cbv zeta in Ht.
    assert (Hrc : f * 2 <> 0) by (apply Rmult_integral_contrapositive_currified; lra).
    destruct (sphere_normals (c + f * 2 * dirn n)%r3 (f * 2) Ds p d r Hrc Hd Hr) as [P1 P2].
    destruct (h6_flag _); [|injection Ht as <-; discriminate Hf].
    apply bind_ok in Ht. destruct Ht as (hc & Ehc & Ht). destruct (h3_flag hc); [|injection Ht as <-; discriminate Hf].
    apply bind_ok in Ht. destruct Ht as (pc & Epc & Ht). apply bind_ok in Ht. destruct Ht as (p1 & Ep1 & Ht). apply need_ok in Ep1.
    destruct (h6_p2 _) as [p2|]; [destruct (nlt _ _)|]; injection Ht as <-; apply hit_of_Pn; intros v Ev; injection Ev as <-; (eapply Pn_weaken; [|first [apply P1; exact Ep1|apply P2; reflexivity]]); intros q u [_ X]; exact X.
  - unfold mk_mirror in E. apply bind_ok in E. destruct E as (dm & Edm & E). change (String.eqb "circular_convex_spherical" "circular_flat") with false in E.
    change (String.eqb "circular_convex_spherical" "rectangular_flat") with false in E. change (String.eqb "circular_convex_spherical" "circular_concave_spherical") with false in E.
    change (String.eqb "circular_convex_spherical" "circular_convex_spherical") with true in E. cbn iota in E.
    apply bind_ok in E. destruct E as (sp & Esp & E). injection E as <-. apply mk_sphere_D in Esp. subst sp.
    cbn [optic_test_intersect] in Ht. unfold mirror_test_intersect in Ht. cbn [mi_shape mi_surfaces] in Ht.
    change (String.eqb "circular_convex_spherical" "circular_flat") with false in Ht. change (String.eqb "circular_convex_spherical" "rectangular_flat") with false in Ht.
    change (String.eqb "circular_convex_spherical" "circular_concave_spherical") with false in Ht. change (String.eqb "circular_convex_spherical" "circular_convex_spherical") with true in Ht.
    cbn [orb] in Ht. apply bind_ok in Ht. destruct Ht as (st & Est & Ht). injection Ht as <-. cbn [mirror_ball_loop] in Est. cbv zeta in Est. cbn [bound bind] in Est.
    apply bind_ok in Est. destruct Est as (st2 & Eu & Est). injection Est as <-.
    assert (Hrc : D / 2 <> 0) by lra. pose proof (sphere_normals c (D / 2) (Fin D) p d r Hrc Hd Hr) as PP.
    apply hit_of_Pn. intros v Ev. destruct (ball_single _ _ _ _ _ Eu eq_refl PP v Ev) as (nn & -> & Q). apply (Pn_opp (c, D / 2)), Q.
  - unfold mk_lens in E. change (String.eqb "spherical" "spherical_biconvex") with false in E. change (String.eqb "spherical" "spherical") with true in E. cbn iota in E.
    apply bind_ok in E. destruct E as (sp & Esp & E). injection E as <-. apply mk_sphere_D in Esp. subst sp.
    cbn [optic_test_intersect] in Ht. unfold lens_test_intersect in Ht. cbn [le_shape le_surfaces] in Ht.
    change (String.eqb "spherical" "spherical_biconvex") with false in Ht. change (String.eqb "spherical" "spherical") with true in Ht. cbn iota in Ht.
    apply bind_ok in Ht. destruct Ht as (st & Est & Ht). injection Ht as <-. cbn [lens_ball_loop] in Est. cbv zeta in Est.
    apply bind_ok in Est. destruct Est as (st2 & Eu & Est). injection Est as <-.
    assert (Hrc : D / 2 <> 0) by lra. pose proof (sphere_normals c (D / 2) (Fin D) p d r Hrc Hd Hr) as PP.
    apply hit_of_Pn. intros v Ev. destruct (ball_single _ _ _ _ _ Eu eq_refl PP v Ev) as (nn & -> & Q). apply (Pn_opp (c, D / 2)), Q.
  - intros q Hq. destruct (valid_hit _ _ _ r p d h (VO_detector c n t w hh de log Hn Htn E) Hr Hd Ht Hf q Hq) as (_ & (u & Eu & _) & s & Es & [L|[]]). exists u. split; [exact Eu|]. split; [exact I|]. exists s. auto.
  - cbn [optic_test_intersect] in Ht. unfold compound_test_intersect in Ht. cbn [co_tree] in Ht. apply bind_ok in Ht. destruct Ht as (i & Ei & Ht).
    destruct (tree_normals e t p d r HT Pos Hd Hr i Ei) as (h6 & -> & [P1 _]). cbn [unpack6 bind] in Ht. injection Ht as <-. apply hit_of_Pn. intros v Ev. exact (P1 v Ev).
Qed.
