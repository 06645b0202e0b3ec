(** Property C71: a ray through a singlet lens, the intersection of two solids made of glass. *)
From Coq Require Import Reals ZArith Lra Lia Psatz String List Bool Classical_Prop.
From Verif Require Import PyErr Num Vec Shapes Csg Optics Spec XReal RVec VecProofs AngleProofs FlatProofs SphereProofs CylProofs ShapeExtra
  TreeProofs SolidProofs CsgProofs RayProofs RunGen NoFuel RunXr OpticHits StateXr OrderProofs FlatOptic Props_Ray Props_Loop Props_Run Props_Rehit SceneProofs Props_Scene
  Props_Compound Props_Ball.
Import ListNotations.
Local Open Scope R_scope.

(* ---- geometry of one solid ---- *)
Definition radius (s : solid) : R := match s with Ball _ rad => rad | Cyl _ _ rad => rad end.
(** the direction is not along the axis of a cylinder *)
Definition skew (s : solid) (d : R3) : Prop := match s with Ball _ _ => True | Cyl _ u _ => ~ parallel (dirn u) d end.
(** a proper solid: positive radius, cylinder axis not zero *)
Definition proper (s : solid) : Prop := match s with Ball _ rad => 0 < rad | Cyl _ u rad => u <> r3zero /\ 0 < rad end.
Lemma proper_pos s : proper s -> 0 < radius s. Proof. destruct s; cbn; tauto. Qed.

(** along a line the squared distance to centre or axis is a quadratic; its slope is the inward component of the direction *)
Lemma solid_quad s q d : proper s -> is_unit d -> exists A B C, 0 <= A /\ (skew s d -> 0 < A) /\ (d ∙ inward s q) * radius s = - B /\
  (forall t, surface s (at_t q d t) <-> A * t * t + 2 * B * t + C = radius s * radius s) /\
  (forall t, member s (at_t q d t) <-> A * t * t + 2 * B * t + C < radius s * radius s).
Proof.
  intros Pr Ud. destruct s as [c rad|c u rad]; cbn [radius inward surface member proper skew] in *.
  - exists 1, (d ∙ (q - c)%r3), ((q - c)%r3 ∙ (q - c)%r3). split; [lra|]. split; [lra|]. split.
    + rewrite dot_scale_r. replace (c - q)%r3 with (- (q - c))%r3 by r3_ring. rewrite dot_opp_r. field. lra.
    + assert (Sq : forall t, dist3 (at_t q d t) c * dist3 (at_t q d t) c = 1 * t * t + 2 * (d ∙ (q - c)%r3) * t + (q - c)%r3 ∙ (q - c)%r3).
      { intros t. rewrite dist3_sq. replace (at_t q d t - c)%r3 with ((q - c) + t * d)%r3 by (unfold at_t; r3_ring). generalize (q - c)%r3. intros v. unfold is_unit in Ud.
        rewrite dot_add_l, !dot_add_r, !dot_scale_l, !dot_scale_r, Ud, (dot_comm v d). ring. }
      split; intros t; unfold on_sphere, in_ball; rewrite <- Sq; assert (0 <= dist3 (at_t q d t) c) by apply len_nonneg; split; intros; nra.
  - destruct Pr as [Hu Pr]. pose proof (dirn_unit u Hu) as Uu. set (v := dirn u) in *. clearbody v. clear Hu u.
    assert (Sq : forall t, perp v (at_t q d t - c)%r3 ∙ perp v (at_t q d t - c)%r3 = (perp v d ∙ perp v d) * t * t + 2 * (perp v d ∙ perp v (q - c)%r3) * t + perp v (q - c)%r3 ∙ perp v (q - c)%r3).
    { intros t. replace (perp v (at_t q d t - c)%r3) with (perp v (q - c) + t * perp v d)%r3 by (unfold at_t; r3_ring). generalize (perp v (q - c)%r3) (perp v d). intros x y.
      rewrite dot_add_l, !dot_add_r, !dot_scale_l, !dot_scale_r, (dot_comm x y). ring. }
    exists (perp v d ∙ perp v d), (perp v d ∙ perp v (q - c)%r3), (perp v (q - c)%r3 ∙ perp v (q - c)%r3). split; [apply dot_self_nonneg|]. split; [|split].
    + intros NP. pose proof (dot_self_nonneg (perp v d)). destruct (Req_dec (perp v d ∙ perp v d) 0) as [Z|Z]; [|lra]. exfalso. apply NP. unfold parallel. apply dot_self_zero, Z.
    + rewrite dot_scale_r. replace (d ∙ perp v (c - q)%r3) with (- (perp v d ∙ perp v (q - c)%r3)); [field; lra|].
      replace (perp v (c - q)%r3) with (- perp v (q - c))%r3 by r3_ring. rewrite dot_opp_r. f_equal. pose proof (perp_orth v (q - c)%r3 Uu) as O. revert O. generalize (perp v (q - c)%r3). intros x O.
      unfold perp. rewrite dot_sub_l, dot_scale_l, (dot_comm v x), O. ring.
    + assert (E : forall t, axis_dist c v (at_t q d t) * axis_dist c v (at_t q d t) = perp v (at_t q d t - c)%r3 ∙ perp v (at_t q d t - c)%r3) by (intros t; unfold axis_dist; rewrite len_sq; reflexivity).
      split; intros t; unfold on_cylinder, in_cylinder; rewrite <- Sq, <- E; assert (0 <= axis_dist c v (at_t q d t)) by (unfold axis_dist; apply len_nonneg); split; intros; nra.
Qed.
Lemma at_t_at p d s t : at_t (at_t p d s) d t = at_t p d (s + t). Proof. unfold at_t. r3_ring. Qed.
(** just past a crossing point towards the inside, and just before it *)
Lemma cross_side s q d : proper s -> is_unit d -> surface s q -> d ∙ inward s q <> 0 ->
  exists e, 0 < e /\ (forall x, 0 < x <= e -> (0 < d ∙ inward s q -> member s (at_t q d x)) /\ (d ∙ inward s q < 0 -> member s (at_t q d (- x)))).
Proof.
  intros Pr Ud Sf Nz. destruct (solid_quad s q d Pr Ud) as (A & B & C & PA & _ & EB & HS & HM). pose proof (proper_pos s Pr) as PR.
  assert (EC : C = radius s * radius s). { assert (K : surface s (at_t q d 0)) by (rewrite at_t_0; exact Sf). apply HS in K. lra. }
  assert (NB : B <> 0). { intros Z. rewrite Z in EB. apply Nz. assert (K : (d ∙ inward s q) * radius s = 0) by lra. apply Rmult_integral in K. destruct K; lra. }
  exists (Rabs B / (A + 1)). assert (0 < Rabs B) by (apply Rabs_pos_lt, NB). split; [apply Rmult_lt_0_compat; [lra|apply Rinv_0_lt_compat; lra]|]. intros x [L1 L2].
  assert (L3 : x * (A + 1) <= Rabs B). { apply Rmult_le_compat_r with (r := A + 1) in L2; [|lra]. replace (Rabs B / (A + 1) * (A + 1)) with (Rabs B) in L2 by (field; lra). exact L2. }
  assert (L4 : A * x < 2 * Rabs B) by nra.
  split; intros K; apply HM; rewrite EC.
  - assert (B < 0) by nra. rewrite Rabs_left in L4 by assumption. nra.
  - assert (0 < B) by nra. rewrite Rabs_right in L4 by lra. nra.
Qed.
Lemma inside_regular s p d t : proper s -> is_unit d -> skew s d -> member s (at_t p d t) -> regular s p d.
Proof.
  intros Pr Ud Sk M. destruct s as [c rad|c u rad]; cbn [proper skew member regular] in *.
  - split; [exact Pr|]. unfold tangent, axis_dist. intros K. rewrite Rabs_right in K by lra. unfold in_ball in M.
    assert (L : len (perp d (c - p)) * len (perp d (c - p)) <= dist3 (at_t p d t) c * dist3 (at_t p d t) c).
    { rewrite len_sq, dist3_sq. replace (at_t p d t - c)%r3 with (- ((c - p) - t * d))%r3 by (unfold at_t; r3_ring). generalize (c - p)%r3. intros v.
      replace ((- (v - t * d))%r3 ∙ (- (v - t * d))%r3) with ((v - t * d)%r3 ∙ (v - t * d)%r3) by r3_ring.
      unfold perp. unfold is_unit in Ud. rewrite !dot_sub_l, !dot_sub_r, !dot_scale_l, !dot_scale_r, Ud, !(dot_comm d v).
      assert (0 <= (v ∙ d - t) * (v ∙ d - t)) by apply Rle_0_sqr. lra. }
    rewrite K in L. assert (0 <= dist3 (at_t p d t) c) by apply len_nonneg. nra.
  - destruct Pr as [Hu Pr]. split; [exact Pr|]. split; [exact Sk|]. intros (_ & t0 & On & Out). unfold in_cylinder, on_cylinder in *.
    destruct (Req_dec t t0) as [->|N]; [lra|]. specialize (Out t N). lra.
Qed.
Lemma cross_skew s q d : proper s -> d ∙ inward s q <> 0 -> skew s d.
Proof.
  intros Pr Nz. destruct s as [c rad|c u rad]; [exact I|]. cbn [skew inward proper] in *. destruct Pr as [Hu Pr]. intros P. apply Nz. pose proof (dirn_unit u Hu) as Uu. rewrite dot_scale_r.
  pose proof (perp_orth (dirn u) (c - q)%r3 Uu) as O. revert O. generalize (perp (dirn u) (c - q)%r3). intros x O.
  unfold parallel in P. replace d with (perp (dirn u) d + (d ∙ dirn u) * dirn u)%r3 by (unfold perp; generalize (d ∙ dirn u) (dirn u); intros; r3_ring).
  rewrite P, dot_add_l, dot_scale_l, (dot_comm (dirn u) x), O. unfold r3dot, r3zero; cbn; ring.
Qed.
Lemma cross_regular s p d t : proper s -> is_unit d -> surface s (at_t p d t) -> d ∙ inward s (at_t p d t) <> 0 -> regular s p d.
Proof.
  intros Pr Ud Sf Nz. destruct (cross_side s _ d Pr Ud Sf Nz) as (e & Pe & H). destruct (H e ltac:(lra)) as [H1 H2].
  pose proof (cross_skew s _ d Pr Nz) as Sk.
  destruct (Rdichotomy _ _ Nz) as [L|L]; [specialize (H2 L)|specialize (H1 L)]; rewrite at_t_at in *; eapply inside_regular; eassumption.
Qed.
(** which end of the chord a crossing is *)
Lemma cross_end s p d t0 t1 t : proper s -> is_unit d -> t0 < t1 -> (forall x, surface s (at_t p d x) <-> x = t0 \/ x = t1) -> (forall x, member s (at_t p d x) <-> t0 < x < t1) ->
  surface s (at_t p d t) -> (0 < d ∙ inward s (at_t p d t) -> t = t0) /\ (d ∙ inward s (at_t p d t) < 0 -> t = t1).
Proof.
  intros Pr Ud L HS HM Sf. split; intros K; destruct (cross_side s _ d Pr Ud Sf ltac:(lra)) as (e & Pe & H); destruct (H e ltac:(lra)) as [H1 H2].
  - specialize (H1 K). rewrite at_t_at in H1. apply HM in H1. apply HS in Sf. destruct Sf; lra.
  - specialize (H2 K). rewrite at_t_at in H2. apply HM in H2. apply HS in Sf. destruct Sf; lra.
Qed.
Lemma inward_unit s q : proper s -> surface s q -> is_unit (inward s q).
Proof.
  intros Pr Sf. destruct s as [c rad|c u rad]; cbn [inward surface proper] in *; unfold is_unit; rewrite dot_scale_l, dot_scale_r.
  - unfold on_sphere in Sf. replace ((c - q)%r3 ∙ (c - q)%r3) with (rad * rad); [field; lra|]. rewrite <- Sf, dist3_sym, dist3_sq. reflexivity.
  - destruct Pr as [_ Pr]. unfold on_cylinder, axis_dist in Sf. replace (perp (dirn u) (c - q)%r3 ∙ perp (dirn u) (c - q)%r3) with (rad * rad); [field; lra|].
    rewrite <- Sf, len_sq. replace (perp (dirn u) (c - q)%r3) with (- perp (dirn u) (q - c))%r3 by r3_ring. generalize (perp (dirn u) (q - c)%r3). intros v. r3_ring.
Qed.
Lemma tree_proper s t : tree_of (Leaf s) t -> 0 < radius s -> proper s.
Proof. intros HT PR. inversion HT; subst; cbn in *; auto. Qed.

(* ---- the two solids together ---- *)
(** [sa] is entered at parameter t while inside [sb]: the intersection is reported there *)
Lemma report_enter sa sb p d r hA hB t : is_unit d -> proper sa -> proper sb -> ray_is r p d -> leaf_result sa p d hA -> leaf_result sb p d hB -> 1e-12 < t ->
  surface sa (at_t p d t) -> 0 < d ∙ inward sa (at_t p d t) -> member sb (at_t p d t) ->
  exists k k', operCsgIntersect hA hB r = Ok (H6 true (Some (fv (at_t p d t))) None (Some (fv (inward sa (at_t p d t)))) None k) /\
    operCsgIntersect hB hA r = Ok (H6 true (Some (fv (at_t p d t))) None (Some (fv (inward sa (at_t p d t)))) None k').
Proof.
  intros Ud Pa Pb Hr LA LB Lt Sf In Mb.
  destruct LA as [a0 a1 La HSa HMa Ra|Hn _ _]; [|destruct (Hn _ Sf)]. destruct LB as [b0 b1 Lb HSb HMb Rb|_ Hn _]; [|destruct (Hn _ Mb)].
  destruct (cross_end sa p d a0 a1 t Pa Ud La HSa HMa Sf) as [E _]. specialize (E In). subst t. apply HMb in Mb.
  destruct Ra as [[_ Ra]|[[K _]|[K _]]]; [|lra|lra].
  destruct (helper_two sa p d r a0 a1 hA Ud Hr ltac:(lra) Ra) as (A1 & A2 & A3 & A4).
  unfold operCsgIntersect. destruct Rb as [[L0 Rb]|[[L0 [L1 Rb]]|[K _]]]; [| |lra].
  - destruct (helper_two sb p d r b0 b1 hB Ud Hr ltac:(lra) Rb) as (B1 & B2 & B3 & B4).
    rewrite A1, A2, A3, B1, B2, B3. cbn [andb bind olt need evenb Z.even]. rewrite !nlt_fin.
    rewrite (Rltb_false a0 b0), (Rltb_true b0 a0), (Rltb_true a0 b1) by lra. cbn [bind]. eauto.
  - destruct (helper_one sb p d r b1 hB nearest Ud Hr ltac:(lra) Rb) as (B1 & B3 & B4). destruct (helper_one sb p d r b1 hB farthest Ud Hr ltac:(lra) Rb) as (B2 & _ & _).
    rewrite A1, A2, A3, B1, B2, B3. cbn [andb bind olt need evenb Z.even]. rewrite !nlt_fin. rewrite (Rltb_false b1 a0) by lra. cbn [bind]. eauto.
Qed.
(** the ray starts in the intersection (or on its boundary) and leaves it through [sc] at parameter t *)
Lemma report_exit sc sd q o r hA hB t : is_unit o -> proper sc -> proper sd -> ray_is r q o -> leaf_result sc q o hA -> leaf_result sd q o hB -> 1e-12 < t ->
  surface sc (at_t q o t) -> o ∙ inward sc (at_t q o t) < 0 -> member sd (at_t q o t) ->
  (forall x, 0 < x < t -> member sc (at_t q o x) /\ member sd (at_t q o x)) ->
  exists k k', operCsgIntersect hA hB r = Ok (H6 true (Some (fv (at_t q o t))) None (Some (fv (inward sc (at_t q o t)))) None k) /\
    operCsgIntersect hB hA r = Ok (H6 true (Some (fv (at_t q o t))) None (Some (fv (inward sc (at_t q o t)))) None k').
Proof.
  intros Ud Pa Pb Hr LA LB Lt Sf In Mb All.
  destruct LA as [a0 a1 La HSa HMa Ra|Hn _ _]; [|destruct (Hn _ Sf)]. destruct LB as [b0 b1 Lb HSb HMb Rb|_ Hn _]; [|destruct (Hn _ Mb)].
  destruct (cross_end sc q o a0 a1 t Pa Ud La HSa HMa Sf) as [_ E]. specialize (E In). subst t. apply HMb in Mb.
  assert (a0 <= 0 /\ b0 <= 0) as [A0 B0].
  { split; apply Rnot_lt_le; intros K.
    - destruct (All (Rmin a0 a1 / 2)) as [M _]; [unfold Rmin; destruct (Rle_dec a0 a1); lra|]. apply HMa in M. unfold Rmin in M. destruct (Rle_dec a0 a1); lra.
    - destruct (All (Rmin b0 a1 / 2)) as [_ M]; [unfold Rmin; destruct (Rle_dec b0 a1); lra|]. apply HMb in M. unfold Rmin in M. destruct (Rle_dec b0 a1); lra. }
  destruct Ra as [[K _]|[[_ [_ Ra]]|[K _]]]; [lra| |lra]. destruct Rb as [[K _]|[[_ [_ Rb]]|[K _]]]; [lra| |lra].
  destruct (helper_one sc q o r a1 hA nearest Ud Hr ltac:(lra) Ra) as (A1 & A3 & A4). destruct (helper_one sc q o r a1 hA farthest Ud Hr ltac:(lra) Ra) as (A2 & _ & _).
  destruct (helper_one sd q o r b1 hB nearest Ud Hr ltac:(lra) Rb) as (B1 & B3 & B4). destruct (helper_one sd q o r b1 hB farthest Ud Hr ltac:(lra) Rb) as (B2 & _ & _).
  unfold operCsgIntersect. rewrite A1, A2, A3, B1, B2, B3. cbn [andb bind olt need evenb Z.even]. rewrite !nlt_fin.
  rewrite (Rltb_true a1 b1), (Rltb_false b1 a1) by lra. eauto.
Qed.
Lemma report_none hA hB r : none hA -> operCsgIntersect hA hB r = Ok (H6 false None None None None (h6_count hB)) /\ operCsgIntersect hB hA r = Ok (H6 false None None None None (h6_count hB)).
Proof. intros ->. unfold operCsgIntersect. cbn [h6_flag h6_count]. rewrite andb_false_r. cbn [andb]. rewrite Z.add_0_r. auto. Qed.
(** every shape query on a ray returns *)
Lemma leaf_total s t p d r : tree_of (Leaf s) t -> is_unit d -> ray_is r p d -> exists h, test_tree_intersect t r = Ok (I6 h).
Proof.
  intros HT Hd Hr. inversion HT as [c rad Ro Do sp HR E|c u rad Ro Do sp Hu Hp HR E|]; subst; clear HT.
  - cbn [test_tree_intersect bind key_test_intersect shape_test_intersect mk_tree]. eauto.
  - destruct (mk_infcyl_inv _ _ _ _ _ _ Hu HR E) as (D & pl & ->). cbn [test_tree_intersect bind key_test_intersect shape_test_intersect mk_tree].
    destruct (infcyl_cases c (dirn u) rad D pl p d r Hp (dirn_unit u Hu) Hd Hr) as (h & -> & RC). cbn [bind]. eauto.
Qed.

(** Snell's law determines the direction *)
Lemma bends_unique e1 e2 u d o o' : is_unit u -> d ∙ u <> 0 -> 0 < e2 -> bends e1 e2 u d o -> bends e1 e2 u d o' -> o = o'.
Proof.
  intros Uu Nz P2 [A B] [A' B']. destruct (classic (total_reflection e1 e2 u d)) as [T|T]; [rewrite A, A' by exact T; reflexivity|].
  destruct (B T) as (U1 & Q1 & S1). destruct (B' T) as (U2 & Q2 & S2). clear A B A' B'.
  assert (Pe : perp u o = perp u o').
  { assert (K : (e2 * perp u o)%r3 = (e2 * perp u o')%r3) by congruence. revert K. generalize (perp u o) (perp u o'). intros x y K.
    replace x with (/ e2 * (e2 * x))%r3 by (replace (/ e2 * (e2 * x))%r3 with ((/ e2 * e2) * x)%r3 by r3_ring; rewrite Rinv_l by lra; r3_ring). rewrite K.
    replace (/ e2 * (e2 * y))%r3 with ((/ e2 * e2) * y)%r3 by r3_ring. rewrite Rinv_l by lra. r3_ring. }
  pose proof (sine_sq u o Uu U1) as SQ1. pose proof (sine_sq u o' Uu U2) as SQ2. assert (Si : sine u o = sine u o') by (unfold sine; rewrite Pe; reflexivity). rewrite Si in SQ1.
  assert (E : o ∙ u = o' ∙ u).
  { assert (K : (o ∙ u) * (o ∙ u) = (o' ∙ u) * (o' ∙ u)) by lra. clear - K S1 S2 Nz. revert K S1 S2 Nz. generalize (o ∙ u) (o' ∙ u) (d ∙ u). intros a b c K S1 S2 Nz.
    assert (X : (a - b) * (a + b) = 0) by lra. apply Rmult_integral in X. destruct X as [X|X]; [lra|]. assert (b = - a) as -> by lra.
    assert (Y : c * a = 0) by lra. apply Rmult_integral in Y. destruct Y; lra. }
  replace o with (perp u o + (o ∙ u) * u)%r3 by (unfold perp; generalize (o ∙ u); intros; r3_ring). rewrite Pe, E. unfold perp. generalize (o' ∙ u). intros. r3_ring.
Qed.

Section Singlet.
Variables (s1 s2 : solid) (tr : tree (key xr)) (ix : R).
Hypotheses (HT : tree_of (Bin OpIntersect (Leaf s1) (Leaf s2)) tr) (P1 : 0 < radius s1) (P2 : 0 < radius s2) (Hix : 0 < ix).
Let k : compound xr := mkCompound tr "refract" (Fin ix).
(** the two faces, in either order *)
Definition faces (sa sb : solid) : Prop := (sa = s1 /\ sb = s2) \/ (sa = s2 /\ sb = s1).

(** the ray comes from outside and crosses the face sa, inside sb, at distance t *)
Definition entry (sa sb : solid) (p d : R3) (t : R) : Prop :=
  1e-12 < t /\ surface sa (at_t p d t) /\ 0 < d ∙ inward sa (at_t p d t) /\ member sb (at_t p d t).
(** the ray leaves the lens through the face sc, at distance t *)
Definition exit (sc sd : solid) (q o : R3) (t : R) : Prop :=
  1e-12 < t /\ surface sc (at_t q o t) /\ o ∙ inward sc (at_t q o t) < 0 /\ member sd (at_t q o t).
(** the path in the glass from a point q of a face in direction o, of length L, with vertices pts: total reflections at the faces until the ray leaves at x in direction e *)
Inductive glass : R3 -> R3 -> R -> list R3 -> R3 -> R3 -> Prop :=
| glass_out sc sd q o t e : faces sc sd -> exit sc sd q o t -> skew sd o ->
    ~ total_reflection ix 1 (inward sc (at_t q o t)) o -> bends ix 1 (inward sc (at_t q o t)) o e -> e ∙ inward sc (at_t q o t) < 0 ->
    glass q o t [at_t q o t] (at_t q o t) e
| glass_in sc sd q o t L pts x e : faces sc sd -> exit sc sd q o t -> skew sd o ->
    total_reflection ix 1 (inward sc (at_t q o t)) o -> glass (at_t q o t) (refl (inward sc (at_t q o t)) o) L pts x e ->
    glass q o (t + L) (at_t q o t :: pts) x e.

Lemma trees : exists ta tb, tree_of (Leaf s1) ta /\ tree_of (Leaf s2) tb /\ tr = Node (KStr "intersect") ta tb.
Proof. inversion HT as [| |o a b ta tb Ha Hb]; subst. exists ta, tb. auto. Qed.
Lemma faces_proper sa sb : faces sa sb -> proper sa /\ proper sb.
Proof.
  destruct trees as (ta & tb & Ha & Hb & _). pose proof (tree_proper _ _ Ha P1). pose proof (tree_proper _ _ Hb P2). intros [[-> -> ]|[-> -> ]]; auto.
Qed.
(** the report of the compound from the reports of its faces *)
Lemma singlet_test sa sb p d r : faces sa sb -> is_unit d -> ray_is r p d ->
  exists hA hB, (regular sa p d -> leaf_result sa p d hA) /\ (regular sb p d -> leaf_result sb p d hB) /\
    (test_tree_intersect tr r = (do h <- operCsgIntersect hA hB r; Ok (I6 h)) \/ test_tree_intersect tr r = (do h <- operCsgIntersect hB hA r; Ok (I6 h))).
Proof.
  intros F Ud Hr. destruct trees as (ta & tb & Ha & Hb & E).
  assert (X : forall s t, tree_of (Leaf s) t -> exists h, test_tree_intersect t r = Ok (I6 h) /\ (regular s p d -> leaf_result s p d h)).
  { intros s t H. destruct (leaf_total s t p d r H Ud Hr) as (h & Eh). exists h. split; [exact Eh|]. intros Rg. destruct (leaf_query s t p d r H Ud Hr Rg) as (h' & Eh' & L). congruence. }
  destruct (X s1 ta Ha) as (h1 & E1 & L1). destruct (X s2 tb Hb) as (h2 & E2 & L2).
  assert (T : test_tree_intersect tr r = (do h <- operCsgIntersect h1 h2 r; Ok (I6 h))).
  { rewrite E. cbn [test_tree_intersect]. rewrite E1, E2. cbn [bind index6 csg_oper]. reflexivity. }
  destruct F as [[-> -> ]|[-> -> ]]; [exists h1, h2|exists h2, h1]; auto.
Qed.
Lemma den_faces sa sb x : faces sa sb -> (den (Bin OpIntersect (Leaf s1) (Leaf s2)) x <-> member sa x /\ member sb x).
Proof. intros [[-> -> ]|[-> -> ]]; cbn; tauto. Qed.

(** one iteration of run that bends the ray at a face *)
Lemma singlet_body m st rm p d t u n e1 e2 : rs_remaining st = Fin rm -> ray_is (rs_ray st) p d -> is_unit d -> ray_type (rs_ray st) <> "faerie_fire"%string -> rs_world st = [OCompound k] ->
  test_tree_intersect tr (rs_ray st) = Ok (I6 (H6 true (Some (fv (at_t p d t))) None (Some (fv u)) None n)) -> 1e-12 < t <= rm -> is_unit u ->
  (den (Bin OpIntersect (Leaf s1) (Leaf s2)) (at_t p d t + 1e-8 * d)%r3 /\ e1 = 1 /\ e2 = ix \/ ~ den (Bin OpIntersect (Leaf s1) (Leaf s2)) (at_t p d t + 1e-8 * d)%r3 /\ e1 = ix /\ e2 = 1) ->
  exists o st', bends e1 e2 u d o /\ run_body (Fin m) st = Ok st' /\ rs_ray st' = set_direction (fly (rs_ray st) (Fin t)) (fv o) /\ rs_world st' = [OCompound k] /\ rs_remaining st' = Fin (rm - t).
Proof.
  intros Hrm Hr Ud NF W Et Lt Uu Med. set (r1 := fly (rs_ray st) (Fin t)). assert (Hd1 : direction r1 = fv d) by (destruct Hr; assumption).
  assert (Dx : distance_between (position (rs_ray st)) (fv (at_t p d t)) = Fin t) by (apply dist_fv; auto; lra).
  assert (Law : exists o, bends e1 e2 u d o /\ optic_do_intersect (OCompound k) r1 (fv (at_t p d t)) (Some (fv u)) (SfoBool (evenb n)) = Ok (set_direction r1 (fv o), OCompound k)).
  { cbn [optic_do_intersect]. unfold compound_do_intersect, k. cbn [co_surface_behavior]. change (String.eqb "refract" "reflect") with false. change (String.eqb "refract" "refract") with true. cbn iota.
    rewrite Hd1, dec_fin by discriminate. change (IZR 1 / IZR (10 ^ 8)) with 1e-8. rewrite vscale_fv, vadd_fv. unfold compound_index_if_inside. cbn [co_tree].
    destruct (tree_point_den _ _ (at_t p d t + 1e-8 * d)%r3 HT) as (b & Eb & Ib). rewrite Eb. cbn [bind co_index]. unfold INDEX_OF_THE_WORLD. rewrite nofZ_fin.
    destruct Med as [(M & -> & ->)|(M & -> & ->)].
    - rewrite (proj2 Ib M). cbn [bind need]. destruct (refract_bends r1 d u 1 ix Hd1 Ud Uu ltac:(lra) Hix) as (o & A & B). exists o. split; [exact B|]. rewrite A. reflexivity.
    - destruct b; [destruct (M (proj1 Ib eq_refl))|]. cbn [bind need]. destruct (refract_bends r1 d u ix 1 Hd1 Ud Uu Hix ltac:(lra)) as (o & A & B). exists o. split; [exact B|]. rewrite A. reflexivity. }
  destruct Law as (o & Bo & Ed). exists o. eexists. split; [exact Bo|].
  assert (Eh : optic_test_intersect (OCompound k) (rs_ray st) = Ok (H4 true (Some (fv (at_t p d t))) (Some (fv u)) (SfoBool (evenb n)))).
  { cbn [optic_test_intersect]. unfold compound_test_intersect, k. cbn [co_tree]. rewrite Et. reflexivity. }
  split.
  - eapply (body_sel m st rm _ 0 (fv (at_t p d t)) (Some (fv u)) (SfoBool (evenb n)) (OCompound k) t Hrm).
    + rewrite W. cbn [scan]. rewrite (step_hit (rs_ray st) rm _ _ 0 (OCompound k) _ _ _ t eq_refl Eh Dx) by lra. cbn [bind]. reflexivity.
    + reflexivity.
    + reflexivity.
    + reflexivity.
    + rewrite W. reflexivity.
    + exact Dx.
    + exact NF.
    + exact Ed.
  - cbn. rewrite W. auto.
Qed.
(** the iteration of a ray that is on a face and heads away from it *)
Lemma singlet_free sa sb m st rm q d : faces sa sb -> rs_remaining st = Fin rm -> ray_is (rs_ray st) q d -> is_unit d -> rs_world st = [OCompound k] -> surface sa q -> d ∙ inward sa q < 0 ->
  exists st', run_body (Fin m) st = Ok st' /\ rs_ray st' = fly (rs_ray st) (Fin rm) /\ rs_world st' = [OCompound k] /\ rs_remaining st' = Fin (rm - m).
Proof.
  intros F Hrm Hr Ud W Sf Out. destruct (faces_proper sa sb F) as [Pa Pb].
  assert (Sf0 : surface sa (at_t q d 0)) by (rewrite at_t_0; exact Sf). assert (Out0 : d ∙ inward sa (at_t q d 0) < 0) by (rewrite at_t_0; exact Out).
  assert (Rg : regular sa q d) by (eapply cross_regular; [exact Pa|exact Ud|exact Sf0|lra]).
  destruct (singlet_test sa sb q d (rs_ray st) F Ud Hr) as (hA & hB & LA & _ & Et). specialize (LA Rg).
  assert (Nn : none hA).
  { destruct LA as [a0 a1 La HSa HMa Ra|_ _ N]; [|exact N]. destruct (cross_end sa q d a0 a1 0 Pa Ud La HSa HMa Sf0) as [_ E]. specialize (E Out0). subst a1.
    destruct Ra as [[K _]|[[_ [K _]]|[_ N]]]; [lra|lra|exact N]. }
  destruct (report_none hA hB (rs_ray st) Nn) as [N1 N2]. rewrite N1, N2 in Et. cbn [bind] in Et.
  assert (Eh : optic_test_intersect (OCompound k) (rs_ray st) = Ok (H4 false None None (SfoBool (evenb (h6_count hB))))).
  { cbn [optic_test_intersect]. unfold compound_test_intersect, k. cbn [co_tree]. destruct Et as [-> | ->]; reflexivity. }
  destruct (body_free m st rm q d Hrm Hr) as (st' & B & Ry & W' & Rm & _).
  - rewrite W. apply Forall_cons; [|apply Forall_nil]. right. rewrite Eh. eexists. split; [reflexivity|cbn; discriminate].
  - rewrite W. intros [|[|j]] o x pt nn Ej; try discriminate Ej. injection Ej as <-. intros (_ & s & E & _). rewrite Eh in E. discriminate E.
  - exists st'. rewrite W in W'. auto.
Qed.
(** the iteration that enters *)
Lemma singlet_enter sa sb m st rm p d t : faces sa sb -> rs_remaining st = Fin rm -> ray_is (rs_ray st) p d -> is_unit d -> ray_type (rs_ray st) <> "faerie_fire"%string -> rs_world st = [OCompound k] ->
  entry sa sb p d t -> skew sb d -> t <= rm -> member sa (at_t p d (t + 1e-8)) -> member sb (at_t p d (t + 1e-8)) ->
  exists o st', bends 1 ix (inward sa (at_t p d t)) d o /\ run_body (Fin m) st = Ok st' /\ rs_ray st' = set_direction (fly (rs_ray st) (Fin t)) (fv o) /\ rs_world st' = [OCompound k] /\ rs_remaining st' = Fin (rm - t).
Proof.
  intros F Hrm Hr Ud NF W (Lt & Sf & In & Mb) Sk Le M1 M2. destruct (faces_proper sa sb F) as [Pa Pb].
  destruct (singlet_test sa sb p d (rs_ray st) F Ud Hr) as (hA & hB & LA & LB & Et).
  specialize (LA (cross_regular sa p d t Pa Ud Sf ltac:(lra))). specialize (LB (inside_regular sb p d t Pb Ud Sk Mb)).
  destruct (report_enter sa sb p d (rs_ray st) hA hB t Ud Pa Pb Hr LA LB Lt Sf In Mb) as (n & n' & E1 & E2). rewrite E1, E2 in Et. cbn [bind] in Et.
  assert (D : den (Bin OpIntersect (Leaf s1) (Leaf s2)) (at_t p d t + 1e-8 * d)%r3) by (apply (den_faces sa sb _ F); fold (at_t (at_t p d t) d 1e-8); rewrite at_t_at; auto).
  destruct Et as [Et|Et]; eapply (singlet_body m st rm p d t _ _ 1 ix Hrm Hr Ud NF W Et); auto using inward_unit.
Qed.
(** the iteration that reaches a face from inside *)
Lemma singlet_exit sa sb sc sd m st rm q o t : faces sa sb -> surface sa q -> member sb q -> faces sc sd -> rs_remaining st = Fin rm -> ray_is (rs_ray st) q o -> is_unit o -> ray_type (rs_ray st) <> "faerie_fire"%string -> rs_world st = [OCompound k] ->
  exit sc sd q o t -> skew sd o -> t <= rm ->
  exists e st', bends ix 1 (inward sc (at_t q o t)) o e /\ run_body (Fin m) st = Ok st' /\ rs_ray st' = set_direction (fly (rs_ray st) (Fin t)) (fv e) /\ rs_world st' = [OCompound k] /\ rs_remaining st' = Fin (rm - t).
Proof.
  intros Fa Sa Mb F Hrm Hr Ud NF W (Lt & Sf & Out & Md) Sk Le. destruct (faces_proper sc sd F) as [Pc Pd].
  destruct (singlet_test sc sd q o (rs_ray st) F Ud Hr) as (hA & hB & LA & LB & Et).
  specialize (LA (cross_regular sc q o t Pc Ud Sf ltac:(lra))). specialize (LB (inside_regular sd q o t Pd Ud Sk Md)).
  assert (Sa0 : surface sa (at_t q o 0)) by (rewrite at_t_0; exact Sa). assert (Mb0 : member sb (at_t q o 0)) by (rewrite at_t_0; exact Mb).
  assert (X : (forall x, 0 < x < t -> member sc (at_t q o x) /\ member sd (at_t q o x)) /\ ~ member sc (at_t q o (t + 1e-8))).
  { destruct LA as [c0 c1 Lc HSc HMc _|Hn _ _]; [|destruct (Hn _ Sf)]. destruct LB as [d0 d1 Ld HSd HMd _|_ Hn _]; [|destruct (Hn _ Md)].
    destruct (cross_end sc q o c0 c1 t Pc Ud Lc HSc HMc Sf) as [_ E]. specialize (E Out). subst t. apply HMd in Md. split; [|rewrite HMc; lra].
    assert (Or : (sa = sc /\ sb = sd) \/ (sa = sd /\ sb = sc)) by (destruct Fa as [[-> -> ]|[-> -> ]], F as [[-> -> ]|[-> -> ]]; auto).
    intros x Lx. rewrite HMc, HMd. destruct Or as [[-> -> ]|[-> -> ]].
    - apply HSc in Sa0. apply HMd in Mb0. lra.
    - apply HSd in Sa0. apply HMc in Mb0. lra. }
  destruct X as [All Past].
  destruct (report_exit sc sd q o (rs_ray st) hA hB t Ud Pc Pd Hr LA LB Lt Sf Out Md All) as (n & n' & E1 & E2). rewrite E1, E2 in Et. cbn [bind] in Et.
  assert (D : ~ den (Bin OpIntersect (Leaf s1) (Leaf s2)) (at_t q o t + 1e-8 * o)%r3). { rewrite (den_faces sc sd _ F). fold (at_t (at_t q o t) o 1e-8). rewrite at_t_at. tauto. }
  destruct Et as [Et|Et]; eapply (singlet_body m st rm q o t _ _ ix 1 Hrm Hr Ud NF W Et); auto using inward_unit.
Qed.

Lemma history_step r p d t o : ray_is r p d -> ray_is (set_direction (fly r (Fin t)) (fv o)) (at_t p d t) o /\ point_history (set_direction (fly r (Fin t)) (fv o)) = point_history r ++ [fv (at_t p d t)].
Proof. intros Hr. split; [apply (set_dir_ray _ _ d), fly_ray, Hr|]. cbn [point_history set_direction]. apply (fly_history _ p d _ Hr). Qed.

(** the whole path in the glass *)
Lemma glass_path m q o L pts x e : glass q o L pts x e -> forall sa sb st rm, faces sa sb -> surface sa q -> member sb q -> is_unit o -> rs_remaining st = Fin rm -> ray_is (rs_ray st) q o ->
  ray_type (rs_ray st) <> "faerie_fire"%string -> blocked (rs_ray st) = false -> rs_world st = [OCompound k] -> L < rm ->
  exists st', steps (Fin m) None (length pts + 1) st st' /\ is_unit e /\ 0 < L /\ rs_world st' = [OCompound k] /\ rs_remaining st' = Fin (rm - L - m) /\ blocked (rs_ray st') = false /\
    ray_is (rs_ray st') (at_t x e (rm - L)) e /\ point_history (rs_ray st') = point_history (rs_ray st) ++ map fv pts ++ [fv (at_t x e (rm - L))].
Proof.
  induction 1 as [sc sd q o t e F X Sk NT Be Oe|sc sd q o t L pts x e F X Sk T G IH]; intros sa sb st rm Fa Sa Mb Uo Hrm Hr NF Hb W Le;
    destruct (singlet_exit sa sb sc sd m st rm q o t Fa Sa Mb F Hrm Hr Uo NF W X Sk) as (e' & st1 & Be' & B1 & Ry1 & W1 & Rm1).
  1: lra.
  - destruct (faces_proper sc sd F) as [Pc Pd]. pose proof X as (Lt & Sf & Out & Md). pose proof (inward_unit sc _ Pc Sf) as Uu.
    assert (e' = e) as -> by (apply (bends_unique ix 1 (inward sc (at_t q o t)) o); [exact Uu|lra|lra|exact Be'|exact Be]).
    assert (Ue : is_unit e) by (apply Be, NT). destruct (history_step _ q o t e Hr) as [Hr1 H1]. rewrite <- Ry1 in Hr1, H1.
    destruct (singlet_free sc sd m st1 (rm - t) _ e F Rm1 Hr1 Ue W1 Sf Oe) as (st2 & B2 & Ry2 & W2 & Rm2).
    exists st2. split.
    { eapply steps_cons; [eapply cond_go; [exact Hrm|lra|reflexivity|exact Hb]|exact B1|]. eapply steps_cons; [eapply cond_go; [exact Rm1|lra|reflexivity|rewrite Ry1; exact Hb]|exact B2|]. constructor. }
    split; [exact Ue|]. split; [lra|]. split; [exact W2|]. split; [exact Rm2|]. split; [rewrite Ry2; cbn; rewrite Ry1; exact Hb|]. split; [rewrite Ry2; apply fly_ray, Hr1|].
    rewrite Ry2, (fly_history _ _ e _ Hr1), H1, <- app_assoc. reflexivity.
  - assert (PL : 0 < L). { clear - G. induction G as [? ? ? ? ? ? ? X|? ? ? ? ? ? ? ? ? ? X]; destruct X as [X _]; lra. }
    destruct X as (Lt & _). lra.
  - assert (PL : 0 < L). { clear - G. induction G as [? ? ? ? ? ? ? X|? ? ? ? ? ? ? ? ? ? X]; destruct X as [X _]; lra. }
    destruct (faces_proper sc sd F) as [Pc Pd]. pose proof X as (Lt & Sf & Out & Md). pose proof (inward_unit sc _ Pc Sf) as Uu.
    assert (e' = refl (inward sc (at_t q o t)) o) as -> by (apply Be', T).
    destruct (history_step _ q o t (refl (inward sc (at_t q o t)) o) Hr) as [Hr1 H1]. rewrite <- Ry1 in Hr1, H1.
    destruct (IH sc sd st1 (rm - t) F Sf Md) as (st2 & St & Ue & _ & W2 & Rm2 & Hb2 & Hr2 & H2); [apply refl_unit; auto|exact Rm1|exact Hr1|rewrite Ry1; exact NF|rewrite Ry1; exact Hb|exact W1|lra|].
    exists st2. replace (rm - (t + L)) with (rm - t - L) by ring. split; [|split; [exact Ue|split; [lra|split; [exact W2|split; [exact Rm2|split; [exact Hb2|split; [exact Hr2|]]]]]]].
    + eapply steps_cons; [eapply cond_go; [exact Hrm|lra|reflexivity|exact Hb]|exact B1|exact St].
    + rewrite H2, H1, <- app_assoc. reflexivity.
Qed.
End Singlet.

(** C71: a refracting Compound that is the intersection of two solids s1, s2 (spheres or infinite cylinders), alone in the scene, and a ray that enters the lens through the face sa, at a point strictly
    inside the other solid, from anywhere more than 1e-12 away.  At the entry it obeys Snell's law from the world index to ix.  If it is totally reflected there it flies on to the full
    distance.  Otherwise, for every path in the glass that is made of straight segments and total reflections at the faces and ends with a refraction out of the glass by Snell's law (any number of
    reflections), run follows exactly that path, then flies straight on without further interaction for the rest of max_distance: the history gains the entry point, the vertices in the glass and the
    end point.  (Excluded: simultaneous crossings of both faces, grazing exits, segments up to 1e-12, lenses thinner than 1e-8 along the incoming ray, cylinders parallel to the ray.) *)
Theorem C71_singlet : forall s1 s2 tr ix r p d m sa sb t1, tree_of (Bin OpIntersect (Leaf s1) (Leaf s2)) tr -> 0 < radius s1 -> 0 < radius s2 -> 0 < ix ->
  ray_is r p d -> is_unit d -> blocked r = false -> ray_type r <> "faerie_fire"%string -> faces s1 s2 sa sb -> entry sa sb p d t1 -> skew sb d ->
  member sa (at_t p d (t1 + 1e-8)) -> member sb (at_t p d (t1 + 1e-8)) ->
  let w := [OCompound (mkCompound tr "refract" (Fin ix))] in let q1 := at_t p d t1 in let u1 := inward sa q1 in
  exists o, is_unit o /\ bends 1 ix u1 d o /\
    (total_reflection 1 ix u1 d -> t1 < m -> forall fuel, (2 <= fuel)%nat -> exists r', run fuel r (Fin m) w None = Ok (r', w) /\ blocked r' = false /\
       ray_is r' (at_t q1 o (m - t1)) o /\ point_history r' = point_history r ++ [fv q1; fv (at_t q1 o (m - t1))]) /\
    (~ total_reflection 1 ix u1 d -> forall L pts x e, glass s1 s2 ix q1 o L pts x e -> t1 + L < m -> forall fuel, (length pts + 2 <= fuel)%nat ->
       exists r', run fuel r (Fin m) w None = Ok (r', w) /\ blocked r' = false /\ ray_is r' (at_t x e (m - t1 - L)) e /\
         point_history r' = point_history r ++ fv q1 :: map fv pts ++ [fv (at_t x e (m - t1 - L))]).
Proof.
  intros s1 s2 tr ix r p d m sa sb t1 HT P1 P2 Hix Hr Ud Hb NF F En Sk M1 M2 w q1 u1. destruct (faces_proper s1 s2 tr 1 HT P1 P2 sa sb F) as [Pa Pb].
  pose proof En as (Lt & Sf & In & Mb). fold q1 in Sf, In, Mb. fold u1 in In. pose proof (inward_unit sa q1 Pa Sf) as Uu. fold u1 in Uu.
  destruct (refract_bends (set_direction r (fv d)) d u1 1 ix eq_refl Ud Uu ltac:(lra) Hix) as (o & _ & Bo).
  assert (Uo : is_unit o). { destruct (classic (total_reflection 1 ix u1 d)) as [T|T]; [rewrite (proj1 Bo T); apply refl_unit; auto|apply Bo, T]. }
  exists o. split; [exact Uo|]. split; [exact Bo|].
  assert (St1 : t1 < m -> exists st1, run_body (Fin m) (run_init r (Fin m) w) = Ok st1 /\ rs_ray st1 = set_direction (fly r (Fin t1)) (fv o) /\ rs_world st1 = w /\ rs_remaining st1 = Fin (m - t1)).
  { intros Bud. destruct (singlet_enter s1 s2 tr ix HT P1 P2 Hix sa sb m (run_init r (Fin m) w) m p d t1 F eq_refl Hr Ud NF eq_refl En Sk ltac:(lra) M1 M2) as (o1 & st1 & Bo1 & B1 & Ry1 & W1 & Rm1).
    fold q1 u1 in Bo1. assert (o1 = o) as -> by (apply (bends_unique 1 ix u1 d); auto; lra). exists st1. auto. }
  split.
  - intros T Bud fuel HF. destruct (St1 Bud) as (st1 & B1 & Ry1 & W1 & Rm1). destruct (history_step r p d t1 o Hr) as [Hr1 H1]. rewrite <- Ry1 in Hr1, H1. fold q1 in Hr1, H1.
    assert (Oo : o ∙ u1 < 0). { rewrite (proj1 Bo T), refl_normal by exact Uu. lra. }
    destruct (singlet_free s1 s2 tr ix HT P1 P2 sa sb m st1 (m - t1) q1 o F Rm1 Hr1 Uo W1 Sf Oo) as (st2 & B2 & Ry2 & W2 & Rm2).
    exists (rs_ray st2). split; [|split; [|split]].
    + assert (St : steps (Fin m) None 2 (run_init r (Fin m) w) st2).
      { eapply steps_cons; [eapply cond_go; [reflexivity|lra|reflexivity|exact Hb]|exact B1|]. eapply steps_cons; [eapply cond_go; [exact Rm1|lra|reflexivity|rewrite Ry1; exact Hb]|exact B2|]. constructor. }
      fold w in W2. rewrite <- W2 at 2. apply (run_steps m None 2 r w st2 fuel St); [|exact HF]. eapply cond_spent; [exact Rm2|lra].
    + rewrite Ry2. cbn. rewrite Ry1. exact Hb.
    + rewrite Ry2. apply fly_ray, Hr1.
    + rewrite Ry2, (fly_history _ q1 o _ Hr1), H1, <- app_assoc. reflexivity.
  - intros T L pts x e G Bud fuel HF.
    assert (PL : 0 < L). { clear - G. induction G as [? ? ? ? ? ? ? X|? ? ? ? ? ? ? ? ? ? X]; destruct X as [X _]; lra. }
    destruct (St1 ltac:(lra)) as (st1 & B1 & Ry1 & W1 & Rm1). destruct (history_step r p d t1 o Hr) as [Hr1 H1]. rewrite <- Ry1 in Hr1, H1. fold q1 in Hr1, H1.
    destruct (glass_path s1 s2 tr ix HT P1 P2 Hix m q1 o L pts x e G sa sb st1 (m - t1) F Sf Mb Uo Rm1 Hr1) as (st2 & St & Ue & _ & W2 & Rm2 & Hb2 & Hr2 & H2).
    { rewrite Ry1. exact NF. } { rewrite Ry1. exact Hb. } { exact W1. } { lra. }
    exists (rs_ray st2). split; [|split; [exact Hb2|split; [exact Hr2|]]].
    + assert (St' : steps (Fin m) None (Datatypes.S (length pts + 1)) (run_init r (Fin m) w) st2).
      { eapply steps_cons; [eapply cond_go; [reflexivity|lra|reflexivity|exact Hb]|exact B1|exact St]. }
      fold w in W2. rewrite <- W2 at 2. apply (run_steps m None _ r w st2 fuel St'); [|lia]. eapply cond_spent; [exact Rm2|lra].
    + rewrite H2, H1, <- app_assoc. reflexivity.
Qed.
Print Assumptions C71_singlet.

(** from a point of a face, heading into the lens, there is always a way out: through exactly one of the faces, or through the edge where both meet *)
Theorem C71_way_out : forall s1 s2 tr r q o sa sb, tree_of (Bin OpIntersect (Leaf s1) (Leaf s2)) tr -> 0 < radius s1 -> 0 < radius s2 -> ray_is r q o -> is_unit o ->
  faces s1 s2 sa sb -> surface sa q -> 0 < o ∙ inward sa q -> member sb q -> skew sb o ->
  exists t, 0 < t /\ (forall x, 0 < x < t -> member sa (at_t q o x) /\ member sb (at_t q o x)) /\
   ((surface sa (at_t q o t) /\ surface sb (at_t q o t)) \/
    (1e-12 < t -> exists sc sd, faces s1 s2 sc sd /\ exit sc sd q o t /\ forall sc' sd' t', faces s1 s2 sc' sd' -> exit sc' sd' q o t' -> t' = t /\ surface sc (at_t q o t'))).
Proof.
  intros s1 s2 tr r q o sa sb HT P1 P2 Hr Uo F Sa In Mb Sk. destruct (faces_proper s1 s2 tr 1 HT P1 P2 sa sb F) as [Pa Pb].
  assert (Sa0 : surface sa (at_t q o 0)) by (rewrite at_t_0; exact Sa). assert (Mb0 : member sb (at_t q o 0)) by (rewrite at_t_0; exact Mb).
  assert (In0 : 0 < o ∙ inward sa (at_t q o 0)) by (rewrite at_t_0; exact In).
  destruct (singlet_test s1 s2 tr 1 HT sa sb q o r F Uo Hr) as (hA & hB & LA & LB & _).
  specialize (LA (cross_regular sa q o 0 Pa Uo Sa0 ltac:(lra))). specialize (LB (inside_regular sb q o 0 Pb Uo Sk Mb0)).
  destruct LA as [a0 a1 La HSa HMa _|Hn _ _]; [|destruct (Hn _ Sa0)]. destruct LB as [b0 b1 Lb HSb HMb _|_ Hn _]; [|destruct (Hn _ Mb0)].
  destruct (cross_end sa q o a0 a1 0 Pa Uo La HSa HMa Sa0) as [E _]. specialize (E In0). subst a0. apply HMb in Mb0.
  assert (Oa : o ∙ inward sa (at_t q o a1) <= 0). { apply Rnot_lt_le. intros K. pose proof (proj1 (cross_end sa q o 0 a1 a1 Pa Uo La HSa HMa (proj2 (HSa a1) (or_intror eq_refl))) K). lra. }
  assert (Ob : o ∙ inward sb (at_t q o b1) <= 0). { apply Rnot_lt_le. intros K. pose proof (proj1 (cross_end sb q o b0 b1 b1 Pb Uo Lb HSb HMb (proj2 (HSb b1) (or_intror eq_refl))) K). lra. }
  assert (Strict : forall s t0 t1, proper s -> t0 < t1 -> (forall x, surface s (at_t q o x) <-> x = t0 \/ x = t1) -> (forall x, member s (at_t q o x) <-> t0 < x < t1) -> o ∙ inward s (at_t q o t1) <> 0).
  { intros s t0 t1' Ps L HS HM Z. destruct (solid_quad s (at_t q o t1') o Ps Uo) as (A & B & C & PA & _ & EB & QS & QM). rewrite Z in EB.
    assert (K1 : surface s (at_t (at_t q o t1') o 0)) by (rewrite at_t_at; apply HS; right; ring). apply QS in K1.
    assert (K2 : member s (at_t (at_t q o t1') o ((t0 - t1') / 2))) by (rewrite at_t_at; apply HM; lra). apply QM in K2. assert (0 <= A * ((t0 - t1') / 2 * ((t0 - t1') / 2))) by (apply Rmult_le_pos; [exact PA|apply Rle_0_sqr]). nra. }
  pose proof (Strict sa 0 a1 Pa La HSa HMa) as Na. pose proof (Strict sb b0 b1 Pb Lb HSb HMb) as Nb.
  assert (Un : forall sc' sd' t', faces s1 s2 sc' sd' -> exit sc' sd' q o t' -> (sc' = sa /\ t' = a1 /\ a1 < b1) \/ (sc' = sb /\ t' = b1 /\ b1 < a1)).
  { intros sc' sd' t' F' (L' & S' & O' & M'). assert (Or : (sc' = sa /\ sd' = sb) \/ (sc' = sb /\ sd' = sa)) by (destruct F' as [[-> -> ]|[-> -> ]], F as [[-> -> ]|[-> -> ]]; auto).
    destruct Or as [[-> -> ]|[-> -> ]]; [left|right]; (split; [reflexivity|]).
    - assert (t' = a1) as -> by (apply (cross_end sa q o 0 a1 t' Pa Uo La HSa HMa S'), O'). apply HMb in M'. lra.
    - assert (t' = b1) as -> by (apply (cross_end sb q o b0 b1 t' Pb Uo Lb HSb HMb S'), O'). apply HMa in M'. lra. }
  destruct (Rtotal_order a1 b1) as [L|[E|L]].
  - exists a1. split; [lra|]. split; [intros x Lx; rewrite HMa, HMb; lra|]. right. intros T. exists sa, sb. split; [exact F|]. split.
    + split; [exact T|]. split; [apply HSa; auto|]. split; [lra|apply HMb; lra].
    + intros sc' sd' t' F' X. destruct (Un sc' sd' t' F' X) as [(_ & -> & _)|(_ & _ & K)]; [|lra]. split; [reflexivity|apply HSa; auto].
  - subst b1. exists a1. split; [lra|]. split; [intros x Lx; rewrite HMa, HMb; lra|]. left. split; [apply HSa|apply HSb]; auto.
  - exists b1. split; [lra|]. split; [intros x Lx; rewrite HMa, HMb; lra|]. right. intros T. exists sb, sa. split; [destruct F as [[-> -> ]|[-> -> ]]; [right|left]; auto|]. split.
    + split; [exact T|]. split; [apply HSb; auto|]. split; [lra|apply HMa; lra].
    + intros sc' sd' t' F' X. destruct (Un sc' sd' t' F' X) as [(_ & _ & K)|(_ & -> & _)]; [lra|]. split; [reflexivity|apply HSb; auto].
Qed.
Print Assumptions C71_way_out.

(** a lens between the spheres of radius 5 around the origin and of radius 66 around (-67, 19, 0), index 39/25: the ray along x at height 3 meets the first at (-4, 3, 0), is refracted into the
    direction (63/65, -16/65, 0) and leaves at distance 1 through the second, perpendicularly *)
Definition lens_a : solid := Ball (mk3 0 0 0) 5.
Definition lens_b : solid := Ball (mk3 (-67) 19 0) 66.
Definition lens_o : R3 := mk3 (63/65) (-16/65) 0.
Definition lens_ray : ray xr := mkRay (fv (mk3 (-14) 3 0)) (fv ex) (Fin 532) (Fin 0) [fv (mk3 (-14) 3 0)] false "normal".
Lemma len_of v a : 0 <= a -> v ∙ v = a * a -> len v = a.
Proof. intros Ha E. apply Rsqr_inj; [apply len_nonneg|exact Ha|]. unfold Rsqr. rewrite len_sq. exact E. Qed.
Lemma lt_of v a : 0 < a -> v ∙ v < a * a -> len v < a.
Proof. intros Ha E. rewrite <- len_sq in E. pose proof (len_nonneg v). nra. Qed.
Example C71_hyp : (exists tr, tree_of (Bin OpIntersect (Leaf lens_a) (Leaf lens_b)) tr) /\ ray_is lens_ray (mk3 (-14) 3 0) ex /\ is_unit ex /\ faces lens_a lens_b lens_a lens_b /\
  entry lens_a lens_b (mk3 (-14) 3 0) ex 10 /\ skew lens_b ex /\ member lens_a (at_t (mk3 (-14) 3 0) ex (10 + 1e-8)) /\ member lens_b (at_t (mk3 (-14) 3 0) ex (10 + 1e-8)) /\
  let q1 := at_t (mk3 (-14) 3 0) ex 10 in ~ total_reflection 1 (39/25) (inward lens_a q1) ex /\ bends 1 (39/25) (inward lens_a q1) ex lens_o /\
  glass lens_a lens_b (39/25) q1 lens_o 1 [at_t q1 lens_o 1] (at_t q1 lens_o 1) lens_o.
Proof.
  assert (NT : forall e1 e2 u v, is_unit u -> is_unit v -> 0 < e2 -> 0 < e1 -> (e1 * e1) * (1 - (v ∙ u) * (v ∙ u)) <= e2 * e2 -> ~ total_reflection e1 e2 u v).
  { intros e1 e2 u v Uu Uv H2 H1 H T. unfold total_reflection in T. pose proof (sine_sq u v Uu Uv). pose proof (sine_bound u v Uu Uv). nra. }
  assert (Ui : is_unit (inward lens_a (at_t (mk3 (-14) 3 0) ex 10))) by (unfold is_unit, inward, lens_a, at_t, ex, r3dot; cbn; field).
  assert (Uo : is_unit lens_o) by (unfold is_unit, lens_o, r3dot; cbn; field).
  split; [|split; [|split; [|split; [|split; [|split; [|split; [|split; [|split; [|split]]]]]]]]].
  - assert (T : forall c rad, exists t, tree_of (Leaf (Ball c rad)) t).
    { intros c rad. eexists. eapply TO_ball with (Ro := Some rad) (Do := None); [reflexivity|]. unfold mk_sphere. cbn [fo option_map]. rewrite check_R_only. reflexivity. }
    destruct (T (mk3 0 0 0) 5) as [a Ha], (T (mk3 (-67) 19 0) 66) as [b Hb]. eexists. apply TO_bin; eassumption.
  - split; reflexivity.
  - apply ex_unit.
  - left. auto.
  - split; [lra|]. split; [|split].
    + apply len_of; [lra|]. unfold at_t, ex, r3dot; cbn. field.
    + unfold inward, lens_a, at_t, ex, r3dot; cbn. lra.
    + apply lt_of; [lra|]. unfold at_t, ex, r3dot; cbn. lra.
  - exact I.
  - apply lt_of; [lra|]. unfold at_t, ex, r3dot; cbn. lra.
  - apply lt_of; [lra|]. unfold at_t, ex, r3dot; cbn. lra.
  - apply NT; auto using ex_unit; try lra. unfold inward, lens_a, at_t, ex, r3dot; cbn. lra.
  - split; [|intros _; split; [exact Uo|split]].
    + intros T. exfalso. revert T. apply NT; auto using ex_unit; try lra. unfold inward, lens_a, at_t, ex, r3dot; cbn. lra.
    + unfold perp, inward, lens_a, at_t, ex, lens_o, r3dot, r3sub, r3add, r3scale; cbn. f_equal; field.
    + unfold inward, lens_a, at_t, ex, lens_o, r3dot; cbn. lra.
  - assert (Ei : inward lens_b (at_t (at_t (mk3 (-14) 3 0) ex 10) lens_o 1) = (- lens_o)%r3) by (unfold inward, lens_b, at_t, ex, lens_o, r3sub, r3add, r3scale, r3opp; cbn; f_equal; field).
    apply (glass_out lens_a lens_b (39/25) lens_b lens_a); rewrite ?Ei.
    + right. auto.
    + split; [lra|]. rewrite Ei. split; [|split].
      * apply len_of; [lra|]. unfold at_t, ex, lens_o, r3dot; cbn. field.
      * rewrite dot_opp_r. unfold is_unit in Uo. lra.
      * apply lt_of; [lra|]. unfold at_t, ex, lens_o, r3dot; cbn. lra.
    + exact I.
    + apply NT; auto using unit_opp; try lra. rewrite dot_opp_r. unfold is_unit in Uo. rewrite Uo. lra.
    + split.
      * intros T. exfalso. revert T. apply NT; auto using unit_opp; try lra. rewrite dot_opp_r. unfold is_unit in Uo. rewrite Uo. lra.
      * intros _. split; [exact Uo|]. split; [rewrite !perp_opp; unfold perp, lens_o, r3dot, r3sub, r3scale; cbn; f_equal; field|]. rewrite dot_opp_r. unfold is_unit in Uo. rewrite Uo. lra.
    + rewrite dot_opp_r. unfold is_unit in Uo. lra.
Qed.
