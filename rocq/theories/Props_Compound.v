(** Property C48: refracting compounds made of one sphere. *)
From Coq Require Import Reals ZArith Lra Lia Psatz String List Bool Classical_Prop.
From Verif Require Import PyErr Num Vec Shapes Csg Optics Spec XReal RVec VecProofs AngleProofs FlatProofs SphereProofs TreeProofs SolidProofs RayProofs ShapeExtra
  RunGen NoFuel RunXr OpticHits StateXr OrderProofs Props_Ray Props_Loop Props_Run.
Import ListNotations.
Local Open Scope R_scope.

(** what a ray of unit direction d does at an interface with unit normal u (either orientation), from index eta1 to eta2: its new direction is o *)
Definition bends (eta1 eta2 : R) (u d o : R3) : Prop :=
  (total_reflection eta1 eta2 u d -> o = refl u d) /\
  (~ total_reflection eta1 eta2 u d -> is_unit o /\ (eta1 * perp u d)%r3 = (eta2 * perp u o)%r3 /\ 0 <= (d ∙ u) * (o ∙ u)).
Lemma refract_bends r d u eta1 eta2 : direction r = fv d -> is_unit d -> is_unit u -> 0 < eta1 -> 0 < eta2 ->
  exists o, refract_snells_law r (fv u) (Fin eta1) (Fin eta2) = Ok (set_direction r (fv o)) /\ bends eta1 eta2 u d o.
Proof.
  intros Hd Ud Uu H1 H2. destruct (classic (total_reflection eta1 eta2 u d)) as [T|T].
  - destruct (snell_fv r d u eta1 eta2 Hd Ud Uu H1 H2) as [A _]. exists (refl u d). split; [apply A, T|]. split; [reflexivity|contradiction].
  - destruct (snell_spec r d u eta1 eta2 Hd Ud Uu H1 H2 T) as (o & A & B & C & _ & D & _). exists o. split; [exact A|]. split; [contradiction|auto].
Qed.
Lemma bends_opp eta1 eta2 u d o : bends eta1 eta2 (- u)%r3 d o -> bends eta1 eta2 u d o.
Proof.
  intros [A B]. split; intros T.
  - rewrite A by (apply total_opp; exact T). apply refl_opp.
  - rewrite total_opp in B. destruct (B T) as (U & P & S). split; [exact U|]. rewrite !perp_opp in P. split; [exact P|]. rewrite !dot_opp_r in S. lra.
Qed.

(** the point 1e-8 further along: inside the ball exactly when the chord ahead is longer than 1e-8 *)
Lemma step_inside c rad q d : 0 < rad -> is_unit d -> on_sphere c rad q ->
  (in_ball c rad (q + 1e-8 * d)%r3 <-> 1e-8 < - 2 * (d ∙ (q - c)%r3)).
Proof.
  intros Hr Hd On. unfold in_ball, on_sphere in *. assert (Sq := dist3_sq (q + 1e-8 * d)%r3 c). assert (Sq0 := dist3_sq q c). rewrite On in Sq0.
  replace (q + 1e-8 * d - c)%r3 with ((q - c) + 1e-8 * d)%r3 in Sq by r3_ring. autorewrite with dotr in Sq. autorewrite with dotr in Sq0. autorewrite with dotr. unfold is_unit in Hd. rewrite Hd in Sq.
  assert (0 <= dist3 (q + 1e-8 * d)%r3 c) by apply len_nonneg. set (e := dist3 (q + 1e-8 * d)%r3 c) in *.
  rewrite ?(dot_comm q d), ?(dot_comm c d) in *. assert (E : e * e = rad * rad + 2 * 1e-8 * (d ∙ q - d ∙ c) + 1e-8 * 1e-8) by lra.
  split; intros H1.
  - assert (e * e < rad * rad) by nra. lra.
  - assert (e * e < rad * rad) by lra. nra.
Qed.
(** the chord of the sphere ahead of q in direction d: its length *)
Lemma chord_ahead c rad q d : 0 < rad -> is_unit d -> on_sphere c rad q -> d ∙ (q - c)%r3 < 0 ->
  on_sphere c rad (at_t q d (- 2 * (d ∙ (q - c)%r3))).
Proof.
  intros Hr Hd On L. unfold on_sphere in *. set (t := - 2 * (d ∙ (q - c)%r3)). assert (Sq := dist3_sq (at_t q d t) c). assert (Sq0 := dist3_sq q c). rewrite On in Sq0.
  unfold at_t in *. replace (q + t * d - c)%r3 with ((q - c) + t * d)%r3 in Sq by r3_ring.
  assert (E : ((q - c) + t * d)%r3 ∙ ((q - c) + t * d)%r3 = (q - c)%r3 ∙ (q - c)%r3 + 2 * t * (d ∙ (q - c)%r3) + t * t * (d ∙ d)) by (unfold r3dot; cbn; ring).
  rewrite E, Hd in Sq. assert (0 <= dist3 (q + t * d)%r3 c) by apply len_nonneg. set (e := dist3 (q + t * d)%r3 c) in *. assert (e * e = rad * rad) by (unfold t in *; lra). nra.
Qed.

(** a refracting compound made of one sphere *)
Definition ball_compound (k : compound xr) (c : R3) (rad ix : R) : Prop :=
  exists t, tree_of (Leaf (Ball c rad)) t /\ k = mkCompound t "refract" (Fin ix).
Lemma compound_media k c rad ix r q d u : ball_compound k c rad ix -> 0 < rad -> 0 < ix -> direction r = fv d -> is_unit d -> is_unit u -> on_sphere c rad q ->
  (1e-8 < - 2 * (d ∙ (q - c)%r3) -> exists o, compound_do_intersect k r (fv q) (Some (fv u)) = Ok (set_direction r (fv o)) /\ bends 1 ix u d o) /\
  (- 2 * (d ∙ (q - c)%r3) <= 1e-8 -> exists o, compound_do_intersect k r (fv q) (Some (fv u)) = Ok (set_direction r (fv o)) /\ bends ix 1 u d o).
Proof.
  intros (t & Ht & ->) Hr Hi Hd Ud Uu On. unfold compound_do_intersect. cbn [co_surface_behavior].
  change (String.eqb "refract" "reflect") with false. change (String.eqb "refract" "refract") with true. cbn iota.
  rewrite Hd, dec_fin by discriminate. change (IZR 1 / IZR (10 ^ 8)) with 1e-8. rewrite vscale_fv, vadd_fv. unfold compound_index_if_inside. cbn [co_tree].
  destruct (tree_point_den _ _ (q + 1e-8 * d)%r3 Ht) as (b & Eb & Ib). rewrite Eb. cbn [bind den member co_index] in *. rewrite (step_inside c rad q d Hr Ud On) in Ib.
  unfold INDEX_OF_THE_WORLD. rewrite nofZ_fin. split; intros L.
  - rewrite (proj2 Ib L). cbn [bind need]. apply refract_bends; auto; lra.
  - destruct b; [pose proof (proj1 Ib eq_refl); lra|]. cbn [bind need]. apply refract_bends; auto; lra.
Qed.
Lemma ball_compound_test k c rad ix p d r : ball_compound k c rad ix -> 0 < rad -> is_unit d -> ray_is r p d -> ~ tangent c rad p d ->
  exists h, compound_test_intersect k r = Ok h /\
  ((exists t0 t1, t0 < t1 /\ 1e-12 < t1 /\ on_sphere c rad (at_t p d t0) /\ on_sphere c rad (at_t p d t1) /\ h4_flag h = true /\
      h4_pt h = Some (fv (at_t p d t1)) /\ h4_normal h = Some (fv (- outward c rad (at_t p d t1))%r3) /\ is_unit (outward c rad (at_t p d t1)) /\
      0 < d ∙ outward c rad (at_t p d t1)) \/
   ((forall t, 1e-12 < t -> ~ on_sphere c rad (at_t p d t)) /\ h4_flag h = false)).
Proof.
  intros (t & Ht & ->) Hr Ud Ry NT. inversion Ht as [c' rad' Ro Do s HR E| |]; subst. destruct (mk_sphere_inv _ _ _ _ _ HR E) as [D ->].
  unfold compound_test_intersect. cbn [co_tree test_tree_intersect bind key_test_intersect shape_test_intersect mk_tree unpack6]. eexists. split; [reflexivity|].
  assert (Ra : Rabs rad = rad) by (apply Rabs_right; lra). assert (HR0 : rad <> 0) by lra.
  destruct (sphere_cases c rad D p d r Ud Ry) as [t0 t1 Lt On _ _ Res|? ? ? Tg|On _ _ Res]; [|contradiction|].
  - destruct (outward_normal c rad D (at_t p d t1) HR0 (proj2 (On t1) (or_intror eq_refl))) as [N1 U1]. rewrite Ra in *.
    destruct (cross_sides c rad p d t0 t1 Ud Hr Lt On) as [_ S1].
    assert (N : sphere_normal (sph c rad D) (fv (at_t p d t1)) = fv (- outward c rad (at_t p d t1))%r3).
    { destruct (sphere_normal_on c rad D (at_t p d t1) HR0) as [E1 _]; [rewrite Ra; apply On; auto|]. rewrite E1, Ra. f_equal. unfold outward. r3_ring. }
    rewrite Res. cbv zeta. destruct (Rltb_spec 1e-12 t0) as [L0|L0]; [|destruct (Rltb_spec 1e-12 t1) as [L1|L1]]; cbn [h4_flag h4_pt h4_normal h6_flag h6_p1 h6_n1].
    + left. exists t0, t1. rewrite N. repeat split; auto; try lra; apply On; auto.
    + left. exists t0, t1. rewrite N. repeat split; auto; try lra; apply On; auto.
    + right. split; [|reflexivity]. intros s Ls Os. apply On in Os. destruct Os; lra.
  - right. rewrite Res. split; [|reflexivity]. intros s _ Os. rewrite Ra in On. destruct (On s Os).
Qed.

(** C48 (partial): Compound.do_intersect at a point q of the sphere with a unit normal of either orientation: a ray that enters (chord ahead longer than
    1e-8) refracts from the world index 1 to ix, a ray that leaves (d points outward or tangentially) from ix to 1.  Missing: that an entering
    ray is sent to do_intersect at its entry point; it is not, see below. *)
Theorem C48_media_partial : forall k c rad ix r q d u, ball_compound k c rad ix -> 0 < rad -> 0 < ix -> direction r = fv d -> is_unit d -> is_unit u ->
  on_sphere c rad q ->
  ((exists s, 1e-8 < s /\ on_sphere c rad (at_t q d s)) ->
     exists o, compound_do_intersect k r (fv q) (Some (fv u)) = Ok (set_direction r (fv o)) /\ bends 1 ix u d o) /\
  (0 <= d ∙ (q - c)%r3 -> exists o, compound_do_intersect k r (fv q) (Some (fv u)) = Ok (set_direction r (fv o)) /\ bends ix 1 u d o).
Proof.
  intros k c rad ix r q d u K Hr Hi Hd Ud Uu On. destruct (compound_media k c rad ix r q d u K Hr Hi Hd Ud Uu On) as [A B]. split.
  - intros (s & Ls & Os). apply A. unfold on_sphere in *. assert (Sq := dist3_sq (at_t q d s) c). assert (Sq0 := dist3_sq q c). rewrite On in Sq0. rewrite Os in Sq.
    unfold at_t in Sq. replace (q + s * d - c)%r3 with ((q - c) + s * d)%r3 in Sq by r3_ring.
    assert (E : ((q - c) + s * d)%r3 ∙ ((q - c) + s * d)%r3 = (q - c)%r3 ∙ (q - c)%r3 + 2 * s * (d ∙ (q - c)%r3) + s * s * (d ∙ d)) by (unfold r3dot; cbn; ring).
    rewrite E, Ud in Sq. assert (s * (2 * (d ∙ (q - c)%r3) + s) = 0) as Z by lra. apply Rmult_integral in Z. destruct Z; lra.
  - intros L. apply B. lra.
Qed.
Print Assumptions C48_media_partial.
(** a ray inside the sphere leaves it correctly: the reported point is its exit, refraction is from ix to 1 *)
Theorem C48_leaving_partial : forall k c rad ix r p d, ball_compound k c rad ix -> 0 < rad -> 0 < ix -> ray_is r p d -> is_unit d -> in_ball c rad p ->
  (forall t, on_sphere c rad (at_t p d t) -> 1e-12 < Rabs t) ->
  exists t h o, first_ahead c rad p d t /\ compound_test_intersect k r = Ok h /\ h4_flag h = true /\ h4_pt h = Some (fv (at_t p d t)) /\
    compound_do_intersect k (fly r (Fin t)) (fv (at_t p d t)) (h4_normal h) = Ok (set_direction (fly r (Fin t)) (fv o)) /\
    bends ix 1 (outward c rad (at_t p d t)) d o.
Proof.
  intros k c rad ix r p d K Hr Hi Ry Ud In Cl. assert (Ra : Rabs rad = rad) by (apply Rabs_right; lra).
  assert (X : exists t0 t1, t0 < 0 < t1 /\ (forall t, on_sphere c rad (at_t p d t) <-> t = t0 \/ t = t1) /\ ~ tangent c rad p d).
  { destruct K as (t & Ht & _). inversion Ht as [c' rad' Ro Do s HR E| |]; subst. destruct (mk_sphere_inv _ _ _ _ _ HR E) as [D _].
    assert (P0 : at_t p d 0 = p) by (unfold at_t; r3_ring).
    destruct (sphere_cases c rad D p d r Ud Ry) as [t0 t1 Lt On In' NT _|t0 On In' Tg _|On In' NT _]; rewrite Ra in *.
    - exists t0, t1. split; [apply In'; rewrite P0; exact In|]. auto.
    - destruct (In' 0). rewrite P0. exact In.
    - destruct (In' 0). rewrite P0. exact In. }
  destruct X as (t0 & t1 & Lt & On & NT). assert (L1 : 1e-12 < t1). { specialize (Cl t1 (proj2 (On t1) (or_intror eq_refl))). rewrite Rabs_right in Cl by lra. exact Cl. }
  destruct (ball_compound_test k c rad ix p d r K Hr Ud Ry NT) as (h & Eh & [(a & b & Lab & Lb & Oa & Ob & Fl & Pt & Nn & U & S)|(No & _)]).
  2:{ exfalso. apply (No t1 L1). apply On. auto. }
  assert (b = t1) as -> by (apply On in Oa; apply On in Ob; destruct Oa, Ob; lra).
  destruct (compound_media k c rad ix (fly r (Fin t1)) (at_t p d t1) d (- outward c rad (at_t p d t1))%r3 K Hr Hi) as [_ M]; [destruct Ry; assumption|exact Ud|apply unit_opp, U|exact Ob|].
  destruct M as (o & Eo & Bo).
  { assert (0 < d ∙ (at_t p d t1 - c)%r3); [|lra]. unfold outward in S. autorewrite with dotr in S. autorewrite with dotr. assert (0 < / rad) by (apply Rinv_0_lt_compat; lra). 
    apply Rmult_lt_reg_l with (/ rad); [assumption|]. lra. }
  exists t1, h, o. split; [|split; [exact Eh|]; split; [exact Fl|]; split; [exact Pt|]; rewrite Nn; split; [exact Eo|apply bends_opp, Bo]].
  split; [exact L1|]. split; [exact Ob|]. intros s Ls Os. apply On in Os. destruct Os; lra.
Qed.
Print Assumptions C48_leaving_partial.
(** C48 is false for rays that enter: for every outside ray that crosses the sphere ahead, the reported point is not the entry t0 but the exit t1, and there
    the ray is refracted from ix to 1: such a ray never refracts from 1 to ix. *)
Theorem C48_entering_refuted : forall k c rad ix r p d t0 t1, ball_compound k c rad ix -> 0 < rad -> 0 < ix -> ray_is r p d -> is_unit d ->
  1e-12 < t0 -> t0 < t1 -> on_sphere c rad (at_t p d t0) -> on_sphere c rad (at_t p d t1) ->
  exists h o, compound_test_intersect k r = Ok h /\ h4_flag h = true /\ h4_pt h = Some (fv (at_t p d t1)) /\ at_t p d t1 <> at_t p d t0 /\
    compound_do_intersect k (fly r (Fin t1)) (fv (at_t p d t1)) (h4_normal h) = Ok (set_direction (fly r (Fin t1)) (fv o)) /\
    bends ix 1 (outward c rad (at_t p d t1)) d o.
Proof.
  intros k c rad ix r p d t0 t1 K Hr Hi Ry Ud L0 L01 O0 O1. assert (Ra : Rabs rad = rad) by (apply Rabs_right; lra).
  assert (X : (forall t, on_sphere c rad (at_t p d t) <-> t = t0 \/ t = t1) /\ ~ tangent c rad p d).
  { destruct K as (t & Ht & _). inversion Ht as [c' rad' Ro Do s HR E| |]; subst. destruct (mk_sphere_inv _ _ _ _ _ HR E) as [D _].
    destruct (sphere_cases c rad D p d r Ud Ry) as [a b Lt On In' NT _|a On In' Tg _|On In' NT _]; rewrite Ra in *.
    - split; [|exact NT]. apply On in O0. apply On in O1. assert (a = t0 /\ b = t1) as [-> ->] by (destruct O0, O1; lra). exact On.
    - apply On in O0. apply On in O1. lra.
    - destruct (On t0 O0). }
  destruct X as (On & NT).
  destruct (ball_compound_test k c rad ix p d r K Hr Ud Ry NT) as (h & Eh & [(a & b & Lab & Lb & Oa & Ob & Fl & Pt & Nn & U & S)|(No & _)]).
  2:{ exfalso. apply (No t0 L0 O0). }
  assert (b = t1) as -> by (apply On in Oa; apply On in Ob; destruct Oa, Ob; lra).
  destruct (compound_media k c rad ix (fly r (Fin t1)) (at_t p d t1) d (- outward c rad (at_t p d t1))%r3 K Hr Hi) as [_ M]; [destruct Ry; assumption|exact Ud|apply unit_opp, U|exact Ob|].
  destruct M as (o & Eo & Bo).
  { assert (0 < d ∙ (at_t p d t1 - c)%r3); [|lra]. unfold outward in S. autorewrite with dotr in S. autorewrite with dotr. assert (0 < / rad) by (apply Rinv_0_lt_compat; lra). 
    apply Rmult_lt_reg_l with (/ rad); [assumption|]. lra. }
  exists h, o. split; [exact Eh|]. split; [exact Fl|]. split; [exact Pt|]. split; [|rewrite Nn; split; [exact Eo|apply bends_opp, Bo]].
  intros E. assert ((t1 - t0) * (d ∙ d) = 0) as Y.
  { assert (at_t p d t1 ∙ d = at_t p d t0 ∙ d) as Z by (rewrite E; reflexivity). unfold at_t in Z. autorewrite with dotr in Z. lra. }
  unfold is_unit in Ud. rewrite Ud in Y. lra.
Qed.
Print Assumptions C48_entering_refuted.
Example C48_hyp : exists k, ball_compound k r3zero 1 (3/2) /\ ray_is out_ray p_out e_x /\ on_sphere r3zero 1 (at_t p_out e_x (22/5)) /\ on_sphere r3zero 1 (at_t p_out e_x (28/5)) /\
  in_ball r3zero 1 r3zero /\ (forall t, on_sphere r3zero 1 (at_t r3zero e_x t) -> 1e-12 < Rabs t).
Proof.
  destruct (mk_sphere (fv r3zero) (fo (Some 1)) (fo None)) as [s|] eqn:E.
  2:{ exfalso. revert E. unfold mk_sphere. cbn [fo option_map]. rewrite check_R_only. discriminate. }
  eexists. split; [eexists; split; [eapply TO_ball; [|exact E]; reflexivity|reflexivity]|]. split; [apply out_ray_is|]. split; [apply out_on; auto|]. split; [apply out_on; auto|].
  split; [unfold in_ball; rewrite dist_self; lra|]. intros t On. unfold on_sphere in On. assert (Sq := dist3_sq (at_t r3zero e_x t) r3zero). rewrite On in Sq.
  unfold at_t, r3dot in Sq; cbn in Sq. destruct (Rlt_le_dec t 0); [rewrite Rabs_left by lra|rewrite Rabs_right by lra]; nra.
Qed.

(** C19: a Compound made of one flat shape or of one unfinished Cylinder raises in its intersection query, for every number type. *)
Theorem C19_compound_leaf : forall T (N : Num T) (k : compound T) f,
  (exists p, f = SPlane p) \/ (exists c, f = SCircle c) \/ (exists q, f = SRectangle q) \/ (exists c, f = SCylinder c) ->
  co_tree k = Node (KShape f) Nil Nil -> forall r, exists e, compound_test_intersect k r = Err e.
Proof.
  intros T N k f Hf Ek r. unfold compound_test_intersect. rewrite Ek. cbn [test_tree_intersect bind key_test_intersect].
  destruct Hf as [(p & ->)|[(c & ->)|[(q & ->)|(c & ->)]]]; cbn [shape_test_intersect].
  - eexists; reflexivity.
  - destruct (circle_test_intersect c r); eexists; reflexivity.
  - destruct (rectangle_test_intersect q r); eexists; reflexivity.
  - eexists; reflexivity.
Qed.
Print Assumptions C19_compound_leaf.
Example C19_compound_leaf_hyp : forall (p : plane xr) k, let k' := mkCompound (mk_tree (KShape (SPlane p))) "refract" (co_index k) in
  co_tree k' = Node (KShape (SPlane p)) Nil Nil.
Proof. reflexivity. Qed.
