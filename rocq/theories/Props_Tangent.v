(** Properties C13, C16, C17, C28: the cases excluded from the partial theorems are false. *)
From Coq Require Import Reals ZArith Lra Psatz List String Bool.
From Verif Require Import PyErr Num Vec Shapes Csg Optics Spec XReal RVec VecProofs AngleProofs FlatProofs SphereProofs CylProofs ShapeExtra TreeProofs SolidProofs CsgProofs RayProofs.
Import ListNotations.
Local Open Scope R_scope.

(** C13 is false for lines that touch the cylinder behind the start: they are reported as hits there, though no point ahead is on the cylinder.
    The cylinder of radius 1 around the z axis, a ray along x = 1 from y = 10 in the direction of y. *)
Definition away_p : R3 := mk3 1 10 0.
Definition away_d : R3 := mk3 0 1 0.
Theorem C13_tangent_refuted : forall D pl r, ray_is r away_p away_d ->
  (exists h, infcyl_test_intersect (cyl r3zero (mk3 0 0 1) 1 D pl) r = Ok h /\ h6_flag h = true /\ h6_p1 h = Some (fv (at_t away_p away_d (-10)))) /\
  (forall t, 0 <= t -> ~ on_cylinder r3zero (mk3 0 0 1) 1 (at_t away_p away_d t)).
Proof.
  intros D pl r Hr. assert (Ud : is_unit away_d) by (unfold is_unit, r3dot; cbn; ring). assert (Uu : is_unit (mk3 0 0 1)) by (unfold is_unit, r3dot; cbn; ring).
  assert (On : forall t, on_cylinder r3zero (mk3 0 0 1) 1 (at_t away_p away_d t) <-> t = -10).
  { intros t. rewrite on_cyl_param by lra. unfold cA, cB, cC, away_p, away_d; r3_unf; cbn. split; intros H; [nra|subst; ring]. }
  split; [|intros t L H; apply On in H; lra].
  destruct (infcyl_cases r3zero (mk3 0 0 1) 1 D pl _ _ r ltac:(lra) Uu Ud Hr) as (h & E & C). exists h. split; [exact E|]. destruct C.
  - exfalso. pose proof (proj1 (On _) (proj2 (CR_on t0) (or_introl eq_refl))). pose proof (proj1 (On _) (proj2 (CR_on t1) (or_intror eq_refl))). lra.
  - rewrite (proj1 (On _) (proj2 (CT_on t0) eq_refl)) in CT_res. rewrite CT_res. split; reflexivity.
  - exfalso. revert CP_p. unfold parallel, away_d; r3_unf; cbn. intros H. injection H. lra.
  - exfalso. apply (CM_on (-10)), On. reflexivity.
Qed.
Print Assumptions C13_tangent_refuted.

(** the unit ball around (-5, 1, 0): the x axis touches it at x = -5, behind the origin *)
Definition side_ball : solid := Ball (mk3 (-5) 1 0) 1.
Lemma side_tree o x rad : exists t, tree_of (Bin o (Leaf side_ball) (Leaf (axis_ball x rad))) t.
Proof.
  destruct (axis_tree x rad) as [b Hb]. eexists. apply TO_bin; [|exact Hb]. eapply TO_ball with (Ro := Some 1) (Do := None); [reflexivity|].
  unfold mk_sphere. cbn [fo option_map]. rewrite check_R_only. reflexivity.
Qed.
Lemma side_sq t : dist3 (at_t org ex t) (mk3 (-5) 1 0) * dist3 (at_t org ex t) (mk3 (-5) 1 0) = (t + 5) * (t + 5) + 1.
Proof. rewrite dist3_sq. unfold r3dot, org, ex; cbn. ring. Qed.
Lemma side_member t : ~ member side_ball (at_t org ex t).
Proof. cbn. unfold in_ball. pose proof (side_sq t) as Q. pose proof (dist3_nonneg (at_t org ex t) (mk3 (-5) 1 0)) as P. intros H. revert Q P H. generalize (dist3 (at_t org ex t) (mk3 (-5) 1 0)). intros x Q P H. pose proof (Rle_0_sqr (t + 5)) as S5. unfold Rsqr in S5. assert (x * x < 1) by nra. lra. Qed.
Lemma side_hit t r : tree_of (Leaf side_ball) t -> ray_is r org ex ->
  exists h, test_tree_intersect t r = Ok (I6 h) /\ h6_flag h = true /\ h6_p1 h = Some (fv (at_t org ex (-5))) /\ h6_p2 h = None.
Proof.
  intros HT Hr. inversion HT as [c rad Ro Do sp HR E| |]; subst; clear HT. destruct (mk_sphere_inv _ _ _ _ _ HR E) as [D ->].
  cbn [test_tree_intersect bind key_test_intersect shape_test_intersect mk_tree]. eexists; split; [reflexivity|].
  assert (On : forall t, on_sphere (mk3 (-5) 1 0) (Rabs 1) (at_t org ex t) <-> t = -5).
  { intros t. unfold on_sphere. pose proof (side_sq t) as Q. pose proof (dist3_nonneg (at_t org ex t) (mk3 (-5) 1 0)). rewrite Rabs_R1. split; intros H1; [rewrite H1 in Q; nra|subst; nra]. }
  destruct (sphere_cases (mk3 (-5) 1 0) 1 D org ex r ex_unit Hr).
  - exfalso. pose proof (proj1 (On _) (proj2 (SR_on t0) (or_introl eq_refl))). pose proof (proj1 (On _) (proj2 (SR_on t1) (or_intror eq_refl))). lra.
  - rewrite (proj1 (On _) (proj2 (ST_on t0) eq_refl)) in ST_res. rewrite ST_res. repeat split; reflexivity.
  - exfalso. apply (SM_on (-5)), On. reflexivity.
Qed.
Lemma ball_hit x rad t r : 0 < rad -> 1e-12 < x - rad -> tree_of (Leaf (axis_ball x rad)) t -> ray_is r org ex ->
  exists n1 n0, test_tree_intersect t r = Ok (I6 (H6 true (Some (fv (at_t org ex (x + rad)))) (Some (fv (at_t org ex (x - rad)))) (Some n1) (Some n0) 2)).
Proof.
  intros P L HT Hr. inversion HT as [c rad' Ro Do sp HR E| |]; subst; clear HT. destruct (mk_sphere_inv _ _ _ _ _ HR E) as [D ->].
  cbn [test_tree_intersect bind key_test_intersect shape_test_intersect mk_tree].
  assert (RR : Rabs rad = rad) by (apply Rabs_right; lra). pose proof (fun t => axis_surface x rad t P) as On. cbn [surface axis_ball] in On.
  destruct (sphere_cases (mk3 x 0 0) rad D org ex r ex_unit Hr); rewrite RR in *.
  - pose proof (proj1 (On _) (proj2 (SR_on t0) (or_introl eq_refl))) as A. pose proof (proj1 (On _) (proj2 (SR_on t1) (or_intror eq_refl))) as B.
    assert (t0 = x - rad /\ t1 = x + rad) as [-> ->] by lra. rewrite SR_res. cbv zeta. rewrite Rltb_true_intro by lra. do 2 eexists. reflexivity.
  - exfalso. pose proof (proj1 (ST_on _) (proj2 (On (x - rad)) (or_introl eq_refl))). pose proof (proj1 (ST_on _) (proj2 (On (x + rad)) (or_intror eq_refl))). lra.
  - exfalso. apply (SM_on (x - rad)), On. auto.
Qed.
Lemma org_dist r t : ray_is r org ex -> distance_between (position r) (fv (at_t org ex t)) = Fin (Rabs t).
Proof.
  intros [-> _]. rewrite distance_fv. f_equal. rewrite dist3_sym. change org with (mk3 0 0 0) at 2. rewrite axis_dist3. f_equal. ring.
Qed.

(** C16 is false for lines that touch a member behind the start: the union is met at 19, the point reported is 5 behind the start. *)
Theorem C16_tangent_refuted : exists t, tree_of (Bin OpUnion (Leaf side_ball) (Leaf (axis_ball 20 1))) t /\
  (forall r, ray_is r org ex -> exists h, test_tree_intersect t r = Ok (I6 h) /\ h6_flag h = true /\ h6_p1 h = Some (fv (at_t org ex (-5)))) /\
  first_crossing (fun u => den (Bin OpUnion (Leaf side_ball) (Leaf (axis_ball 20 1))) (at_t org ex u)) 19.
Proof.
  destruct (side_tree OpUnion 20 1) as [t Ht]. exists t. split; [exact Ht|]. split.
  - intros r Hr. inversion Ht as [| |o a b ta tb Ha Hb]; subst. destruct (side_hit _ r Ha Hr) as (h & Eh & Hf & H1 & H2). destruct (ball_hit 20 1 _ r ltac:(lra) ltac:(lra) Hb Hr) as (n1 & n0 & Eb).
    cbn [test_tree_intersect]. rewrite Eh, Eb. cbn [bind]. change (csg_oper (KStr (op_name OpUnion))) with (Ok (@operCsgUnion xr _)). cbn [bind index6]. unfold operCsgUnion. cbn [h6_flag]. rewrite Hf. cbn [andb].
    unfold helper_findIntersects. cbn [h6_p1 h6_p2]. rewrite H1, H2, !(org_dist r) by exact Hr. cbn [bind]. rewrite nlt_fin. rewrite (Rltb_false_intro (Rabs (20 + 1))) by (rewrite !Rabs_right by lra; lra).
    unfold olt. cbn [bind need]. rewrite nlt_fin, Rltb_true_intro by (rewrite Rabs_left, Rabs_right by lra; lra). cbn [bind]. eexists. split; [reflexivity|]. split; reflexivity.
  - split; [lra|]. left. cbn [den].
    assert (X : forall u, member side_ball (at_t org ex u) \/ member (axis_ball 20 1) (at_t org ex u) <-> 19 < u < 21).
    { intros u. rewrite axis_member. pose proof (side_member u). intuition lra. }
    split.
    + exists 1. split; [lra|]. split; intros s Hs; [intros K; apply X in K|apply X]; lra.
    + intros s Hs K. apply X in K. lra.
Qed.
Print Assumptions C16_tangent_refuted.

(** C17 is false for such lines: the ray meets no point of the intersection, a hit is reported. *)
Theorem C17_tangent_refuted : exists t, tree_of (Bin OpIntersect (Leaf side_ball) (Leaf (axis_ball 3 1))) t /\
  (forall r, ray_is r org ex -> exists h, test_tree_intersect t r = Ok (I6 h) /\ h6_flag h = true /\ h6_p1 h = Some (fv (at_t org ex 2))) /\
  (forall u, ~ den (Bin OpIntersect (Leaf side_ball) (Leaf (axis_ball 3 1))) (at_t org ex u)).
Proof.
  destruct (side_tree OpIntersect 3 1) as [t Ht]. exists t. split; [exact Ht|]. split.
  - intros r Hr. inversion Ht as [| |o a b ta tb Ha Hb]; subst. destruct (side_hit _ r Ha Hr) as (h & Eh & Hf & H1 & H2). destruct (ball_hit 3 1 _ r ltac:(lra) ltac:(lra) Hb Hr) as (n1 & n0 & Eb).
    cbn [test_tree_intersect]. rewrite Eh, Eb. cbn [bind]. change (csg_oper (KStr (op_name OpIntersect))) with (Ok (@operCsgIntersect xr _)). cbn [bind index6]. unfold operCsgIntersect. cbn [h6_flag]. rewrite Hf. cbn [andb].
    unfold helper_findIntersects. cbn [h6_p1 h6_p2]. rewrite H1, H2, !(org_dist r) by exact Hr. cbn [bind].
    replace (Rabs (3 + 1)) with 4 by (rewrite Rabs_right; lra). replace (Rabs (3 - 1)) with 2 by (rewrite Rabs_right; lra). replace (Rabs (-5)) with 5 by (rewrite Rabs_left; lra).
    rewrite nlt_fin, ngt_fin. rewrite (Rltb_false_intro 4 2), (Rltb_true_intro 2 4) by lra. unfold olt, evenb. cbn [bind Z.even andb need]. rewrite ?nlt_fin. rewrite (Rltb_false_intro 5 2) by lra. cbn [bind].
    eexists. split; [reflexivity|]. split; [reflexivity|]. cbn [h6_p1]. do 3 f_equal. lra.
  - intros u [A _]. exact (side_member _ A).
Qed.
Print Assumptions C17_tangent_refuted.

(** C28 is false within the tolerance: a ray through the centre that is parallel to the axis up to 1e-8 in each component is turned into the axis. *)
Theorem C28_tolerance_refuted : forall r l c n f d, thin_lens l c n f -> is_unit n -> 0 < f -> direction r = fv d -> is_unit d -> position r = fv c ->
  near3 d (forward n d) -> 1e-8 < forward n d ∙ d -> refract_thin_lens r l (fv c) = Ok (set_direction r (fv (forward n d))).
Proof.
  intros r l c n f d HL Hn Hf Hd Ud Hp Nr Pos. pose proof (thin_fv r l c n f d c HL Hn Hd ltac:(lra)) as (_ & T & _). pose proof (forward_unit n d Hn) as UN.
  set (N := forward n d) in *. assert (E : (c + f * N - c)%r3 = (f * N)%r3) by r3_ring.
  assert (Nz : (f * N)%r3 <> r3zero). { intros Z. apply (f_equal (fun v => v ∙ N)) in Z. rewrite dot_scale_l in Z. unfold is_unit in UN. rewrite UN in Z. unfold r3dot, r3zero in Z. cbn in Z. nra. }
  rewrite (T ltac:(rewrite Rabs_right; lra) Nr c Hp ltac:(rewrite E; exact Nz)). rewrite E. unfold dirn. rewrite len_scale, (len_unit N UN), Rabs_right by lra. do 3 f_equal. clear - Hf. clearbody N. destruct N as [x y z]. r3_unf. cbn. f_equal; field; lra.
Qed.
Print Assumptions C28_tolerance_refuted.
Lemma zdot a b c : mk3 0 0 1 ∙ mk3 a b c = c. Proof. unfold r3dot. cbn. ring. Qed.
(** a direction at an angle of about 2e-9 to the axis *)
Definition slant : R3 := mk3 (2 * 1e-9 / (1 + 1e-18)) 0 ((1 - 1e-18) / (1 + 1e-18)).
Example C28_tolerance_hyp : is_unit slant /\ forward (mk3 0 0 1) slant = mk3 0 0 1 /\ near3 slant (mk3 0 0 1) /\ 1e-8 < mk3 0 0 1 ∙ slant /\ slant <> mk3 0 0 1.
Proof.
  assert (K : forall s, mk3 (2 * s / (1 + s * s)) 0 ((1 - s * s) / (1 + s * s)) ∙ mk3 (2 * s / (1 + s * s)) 0 ((1 - s * s) / (1 + s * s)) = 1) by (intros s; unfold r3dot; cbn; field; nra).
  assert (X : 0 < 2 * 1e-9 / (1 + 1e-18) <= 2e-9) by (unfold Rdiv; lra). assert (Z : 1 - 1e-8 <= (1 - 1e-18) / (1 + 1e-18) <= 1) by (unfold Rdiv; lra).
  split; [|split; [|split; [|split]]].
  - specialize (K 1e-9). replace (1e-9 * 1e-9) with 1e-18 in K by lra. exact K.
  - unfold forward. unfold slant. rewrite zdot. rewrite Rltb_false_intro by lra. reflexivity.
  - unfold near3, near1, slant. cbn [cx cy cz]. rewrite !Rminus_0_r, !Rabs_R0, Rabs_R1. rewrite (Rabs_right (2 * 1e-9 / _)) by lra. rewrite (Rabs_left1 (_ - 1)) by lra. repeat split; lra.
  - unfold slant. rewrite zdot. lra.
  - intros E. apply (f_equal cx) in E. unfold slant in E. cbn [cx] in E. lra.
Qed.
