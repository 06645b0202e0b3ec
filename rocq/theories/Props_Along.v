(** C97: rays along the axis of a cylinder, in compounds and in scenes (shapes.py:286-345, general_optics.py:308-624). *)
From Coq Require Import Reals ZArith Lra Lia Psatz List String Bool.
From Verif Require Import PyErr Num Vec Shapes Csg Optics Spec XReal RVec VecProofs FlatProofs SphereProofs CylProofs ShapeExtra TreeProofs SolidProofs CsgProofs CsgStart CsgExact Props_Nested
  SceneProofs OrderProofs RunXr Continue Props_Shape Props_Compound Props_UnionDiff.
Import ListNotations.
Local Open Scope R_scope.

(** the point without coordinates; what a query says *)
Definition lost : vec xr := V XNaN XNaN XNaN.
Definition says (t : tree (key xr)) (r : ray xr) (v : vec xr) : Prop := exists n k, test_tree_intersect t r = Ok (I6 (H6 true (Some v) None n None k)).
Definition says_miss (t : tree (key xr)) (r : ray xr) : Prop := exists k, test_tree_intersect t r = Ok (I6 (H6 false None None None None k)).
(** the first point of a surface ahead *)
Definition first_of (s : solid) (p d : R3) (u : R) : Prop := 0 < u /\ surface s (at_t p d u) /\ forall v, 0 < v < u -> ~ surface s (at_t p d v).
Definition unmet (s : solid) (p d : R3) : Prop := forall v, 0 < v -> ~ surface s (at_t p d v).

Lemma along_leaf c u rad t p d r : tree_of (Leaf (Cyl c u rad)) t -> is_unit d -> ray_is r p d -> parallel (dirn u) d -> test_tree_intersect t r = Ok (I6 (H6 true (Some lost) None (Some lost) None 2)).
Proof.
  intros HT Hd Hr P. inversion HT as [|c' u' rad' Ro Do sp Hu Hp HR E|]; subst; clear HT. destruct (mk_infcyl_inv _ _ _ _ _ _ Hu HR E) as (D & pl & ->).
  cbn [test_tree_intersect bind key_test_intersect shape_test_intersect mk_tree].
  rewrite (infcyl_parallel c (dirn u) rad D pl p d r Hp (dirn_unit u Hu) Hd Hr P). reflexivity.
Qed.
Lemma lost_distance p d (r : ray xr) : ray_is r p d -> distance_between (position r) lost = XNaN.
Proof. intros [-> _]. reflexivity. Qed.
Lemma lost_helper p d (r : ray xr) m n k : ray_is r p d -> helper_findIntersects (H6 true (Some lost) None n None k) r m = Ok (Some lost, n, Some XNaN, 1%Z).
Proof. intros Hr. unfold helper_findIntersects. cbn [h6_p1 h6_p2 h6_n1]. now rewrite (lost_distance p d r Hr). Qed.
Lemma olt_nan_l (x : option xr) : x <> None -> olt (Some XNaN) x = Ok false.
Proof. destruct x as [x|]; [intros _|congruence]. unfold olt. cbn. destruct x; reflexivity. Qed.
Lemma olt_nan_r (x : option xr) : x <> None -> olt x (Some XNaN) = Ok false.
Proof. destruct x as [x|]; [intros _|congruence]. unfold olt. cbn. destruct x; reflexivity. Qed.
(** what the query of a regular solid says, in the form that the operators use *)
Inductive heard (s : solid) (p d : R3) (r : ray xr) (h : hit6 xr) : Prop :=
| Hd_ahead u u1 n n1 (H0 : first_of s p d u) (H1 : forall v, member s (at_t p d v) <-> u < v < u1)
    (Hn : helper_findIntersects h r nearest = Ok (Some (fv (at_t p d u)), n, Some (Fin u), 2%Z)) (Hf : helper_findIntersects h r farthest = Ok (Some (fv (at_t p d u1)), n1, Some (Fin u1), 2%Z)) (Hb : h6_flag h = true)
| Hd_inside u n (H0 : first_of s p d u) (H1 : forall v, 0 < v -> (member s (at_t p d v) <-> v < u)) (Hn : forall m, helper_findIntersects h r m = Ok (Some (fv (at_t p d u)), n, Some (Fin u), 1%Z)) (Hb : h6_flag h = true)
| Hd_miss (H0 : unmet s p d) (Hb : h6_flag h = false).
Lemma heard_leaf s t p d r : tree_of (Leaf s) t -> is_unit d -> ray_is r p d -> regular s p d -> clear0 s p d -> exists h, test_tree_intersect t r = Ok (I6 h) /\ heard s p d r h.
Proof.
  intros HT Hd Hr Rg Cl. destruct (leaf_pos0 s t p d r HT Hd Hr Rg Cl) as (h & E & P). exists h. split; [exact E|].
  destruct P as [t0 t1 Hp Hs Hm Ht|t0 t1 Hi Hi1 Hs Hm Ho|Hn Hf Hz].
  - destruct (helper_two s p d r t0 t1 h Hd Hr ltac:(lra) Ht) as (A1 & A2 & A3 & _). eapply Hd_ahead; [|exact Hm|exact A1|exact A2|exact A3].
    split; [lra|]. split; [apply Hs; auto|]. intros v Hv X. apply Hs in X. lra.
  - eapply Hd_inside with (u := t1).
    + split; [lra|]. split; [apply Hs; auto|]. intros v Hv X. apply Hs in X. lra.
    + intros v Hv. rewrite Hm. lra.
    + intros m. destruct (helper_one s p d r t1 h m Hd Hr ltac:(lra) Ho) as (A1 & _). exact A1.
    + destruct (helper_one s p d r t1 h nearest Hd Hr ltac:(lra) Ho) as (_ & A & _). exact A.
  - apply Hd_miss; [exact Hf|]. rewrite Hz. reflexivity.
Qed.
Lemma first_unique s p d u v : first_of s p d u -> first_of s p d v -> u = v.
Proof. intros (P & S & M) (P' & S' & M'). destruct (Rtotal_order u v) as [L|[E|L]]; [destruct (M' u (conj P L) S)|exact E|destruct (M v (conj P' L) S')]. Qed.
Lemma first_met s p d u : first_of s p d u -> unmet s p d -> False. Proof. intros (P & S & _) U. exact (U u P S). Qed.

(** A cylinder along the ray is always reported, at a point without coordinates. *)
Theorem C97_alone : forall c u rad t p d r, tree_of (Leaf (Cyl c u rad)) t -> is_unit d -> ray_is r p d -> parallel (dirn u) d -> says t r lost.
Proof. intros c u rad t p d r HT Hd Hr P. eexists _, _. exact (along_leaf c u rad t p d r HT Hd Hr P). Qed.
Print Assumptions C97_alone.

(** Unions: with the cylinder second the other solid is never seen; with the cylinder first it is seen where it is met. *)
Theorem C97_union : forall s c u rad t p d r, let cy := Cyl c u rad in is_unit d -> ray_is r p d -> parallel (dirn u) d -> regular s p d -> clear0 s p d ->
  (tree_of (Bin OpUnion (Leaf s) (Leaf cy)) t -> says t r lost) /\
  (tree_of (Bin OpUnion (Leaf cy) (Leaf s)) t -> (forall x, first_of s p d x -> says t r (fv (at_t p d x))) /\ (unmet s p d -> says t r lost)).
Proof.
  intros s c u rad t p d r cy Hd Hr P Rg Cl. split; intros HT; inversion HT as [| |o a b ta tb Ha Hb]; subst; clear HT.
  - destruct (heard_leaf s ta p d r Ha Hd Hr Rg Cl) as (h & E & Hh). pose proof (along_leaf c u rad tb p d r Hb Hd Hr P) as E'.
    unfold says. cbn [test_tree_intersect]. rewrite E, E'. cbn [bind index6]. change (csg_oper (KStr (op_name OpUnion))) with (Ok (A := _) (@operCsgUnion xr _)). cbn [bind].
    unfold operCsgUnion. cbn [h6_flag h6_count]. rewrite !(lost_helper p d r) by exact Hr. destruct Hh as [x x1 n n1 H0 H1 Hn Hf Hb'|x n H0 H1 Hn Hb'|H0 Hb']; rewrite Hb'; cbn [andb bind].
    + rewrite Hn. cbn [bind]. rewrite olt_nan_r by discriminate. cbn [bind]. eauto.
    + rewrite Hn. cbn [bind]. rewrite olt_nan_r by discriminate. cbn [bind]. eauto.
    + eauto.
  - destruct (heard_leaf s tb p d r Hb Hd Hr Rg Cl) as (h & E & Hh). pose proof (along_leaf c u rad ta p d r Ha Hd Hr P) as E'.
    unfold says. cbn [test_tree_intersect]. rewrite E, E'. cbn [bind index6]. change (csg_oper (KStr (op_name OpUnion))) with (Ok (A := _) (@operCsgUnion xr _)). cbn [bind].
    unfold operCsgUnion. cbn [h6_flag h6_count]. rewrite !(lost_helper p d r) by exact Hr. destruct Hh as [x x1 n n1 H0 H1 Hn Hf Hb'|x n H0 H1 Hn Hb'|H0 Hb']; rewrite Hb'; cbn [andb bind].
    + rewrite Hn. cbn [bind]. rewrite olt_nan_l by discriminate. cbn [bind]. split; [intros y Fy; rewrite (first_unique _ _ _ _ _ Fy H0); eauto|intros U; destruct (first_met _ _ _ _ H0 U)].
    + rewrite Hn. cbn [bind]. rewrite olt_nan_l by discriminate. cbn [bind]. split; [intros y Fy; rewrite (first_unique _ _ _ _ _ Fy H0); eauto|intros U; destruct (first_met _ _ _ _ H0 U)].
    + split; [intros y Fy; destruct (first_met _ _ _ _ Fy H0)|eauto].
Qed.
Print Assumptions C97_union.

(** Differences: a solid with a hole along the ray is never seen, wherever the hole is; a cylinder minus a solid is not seen either, and the query raises ValueError if the solid is not met. *)
Theorem C97_difference : forall s c u rad t p d r, let cy := Cyl c u rad in is_unit d -> ray_is r p d -> parallel (dirn u) d -> regular s p d -> clear0 s p d ->
  (tree_of (Bin OpDifference (Leaf s) (Leaf cy)) t -> says_miss t r) /\
  (tree_of (Bin OpDifference (Leaf cy) (Leaf s)) t -> ((exists x, first_of s p d x) -> says_miss t r) /\ (unmet s p d -> test_tree_intersect t r = Err ValueError)).
Proof.
  intros s c u rad t p d r cy Hd Hr P Rg Cl. split; intros HT; inversion HT as [| |o a b ta tb Ha Hb]; subst; clear HT.
  - destruct (heard_leaf s ta p d r Ha Hd Hr Rg Cl) as (h & E & Hh). pose proof (along_leaf c u rad tb p d r Hb Hd Hr P) as E'.
    unfold says_miss. cbn [test_tree_intersect]. rewrite E, E'. cbn [bind index6]. change (csg_oper (KStr (op_name OpDifference))) with (Ok (A := _) (@operCsgDifference xr _)). cbn [bind].
    unfold operCsgDifference. cbn [h6_flag h6_count]. rewrite !(lost_helper p d r) by exact Hr. destruct Hh as [x x1 n n1 H0 H1 Hn Hf Hb'|x n H0 H1 Hn Hb'|H0 Hb']; rewrite Hb'; cbn [andb bind].
    + rewrite Hn, Hf. cbn [bind]. rewrite olt_nan_r, olt_nan_l by discriminate. cbn [bind]. eauto.
    + rewrite !Hn. cbn [bind]. rewrite olt_nan_r, olt_nan_l by discriminate. cbn [bind]. eauto.
    + eauto.
  - destruct (heard_leaf s tb p d r Hb Hd Hr Rg Cl) as (h & E & Hh). pose proof (along_leaf c u rad ta p d r Ha Hd Hr P) as E'.
    unfold says_miss. cbn [test_tree_intersect]. rewrite E, E'. cbn [bind index6]. change (csg_oper (KStr (op_name OpDifference))) with (Ok (A := _) (@operCsgDifference xr _)). cbn [bind].
    unfold operCsgDifference. cbn [h6_flag h6_count]. rewrite !(lost_helper p d r) by exact Hr. destruct Hh as [x x1 n n1 H0 H1 Hn Hf Hb'|x n H0 H1 Hn Hb'|H0 Hb']; rewrite Hb'; cbn [andb bind].
    + rewrite Hn, Hf. cbn [bind]. rewrite olt_nan_r, olt_nan_l by discriminate. cbn [bind]. split; [eauto|intros U; destruct (first_met _ _ _ _ H0 U)].
    + rewrite !Hn. cbn [bind]. rewrite olt_nan_r, olt_nan_l by discriminate. cbn [bind]. split; [eauto|intros U; destruct (first_met _ _ _ _ H0 U)].
    + split; [intros (y & Fy); destruct (first_met _ _ _ _ Fy H0)|reflexivity].
Qed.
Print Assumptions C97_difference.

(** Intersections: from outside the other solid, its first point is reported whether or not it is in the cylinder; from inside it depends on the order. *)
Theorem C97_intersect : forall s c u rad t p d r, let cy := Cyl c u rad in is_unit d -> ray_is r p d -> parallel (dirn u) d -> regular s p d -> clear0 s p d ->
  (tree_of (Bin OpIntersect (Leaf s) (Leaf cy)) t \/ tree_of (Bin OpIntersect (Leaf cy) (Leaf s)) t ->
     (forall x, first_of s p d x -> starts_outside (fun v => member s (at_t p d v)) -> says t r (fv (at_t p d x))) /\ (unmet s p d -> says_miss t r)) /\
  (forall x, first_of s p d x -> starts_in (fun v => member s (at_t p d v)) ->
     (tree_of (Bin OpIntersect (Leaf cy) (Leaf s)) t -> says t r (fv (at_t p d x))) /\ (tree_of (Bin OpIntersect (Leaf s) (Leaf cy)) t -> says t r lost)).
Proof.
  intros s c u rad t p d r cy Hd Hr P Rg Cl.
  assert (Aheads : forall x x1, 0 < x -> (forall v, member s (at_t p d v) <-> x < v < x1) -> ~ starts_in (fun v => member s (at_t p d v))).
  { intros x x1 Px H (e & He & A). specialize (A (Rmin e x / 2)). rewrite H in A. unfold Rmin in A. destruct (Rle_dec e x); lra. }
  assert (Insides : forall x, 0 < x -> (forall v, 0 < v -> (member s (at_t p d v) <-> v < x)) -> ~ starts_outside (fun v => member s (at_t p d v))).
  { intros x Px H (e & He & A). specialize (A (Rmin e x / 2)). unfold Rmin in A. destruct (Rle_dec e x); rewrite H in A by lra; lra. }
  assert (A : tree_of (Bin OpIntersect (Leaf s) (Leaf cy)) t ->
     (forall x, first_of s p d x -> starts_outside (fun v => member s (at_t p d v)) -> says t r (fv (at_t p d x))) /\ (unmet s p d -> says_miss t r) /\
     (forall x, first_of s p d x -> starts_in (fun v => member s (at_t p d v)) -> says t r lost)).
  { intros HT; inversion HT as [| |o a b ta tb Ha Hb]; subst; clear HT.
    destruct (heard_leaf s ta p d r Ha Hd Hr Rg Cl) as (h & E & Hh). pose proof (along_leaf c u rad tb p d r Hb Hd Hr P) as E'.
    unfold says, says_miss. cbn [test_tree_intersect]. rewrite E, E'. cbn [bind index6]. change (csg_oper (KStr (op_name OpIntersect))) with (Ok (A := _) (@operCsgIntersect xr _)). cbn [bind].
    unfold operCsgIntersect. cbn [h6_flag h6_count]. rewrite !(lost_helper p d r) by exact Hr. destruct Hh as [x x1 n n1 H0 H1 Hn Hf Hb'|x n H0 H1 Hn Hb'|H0 Hb']; rewrite Hb'; cbn [andb bind].
    + rewrite Hn, Hf. cbn [bind]. change (evenb 2) with true. change (evenb 1) with false. cbn [andb]. rewrite !olt_nan_l by discriminate. cbn [bind]. split; [intros y Fy _; rewrite (first_unique _ _ _ _ _ Fy H0); eauto|].
      split; [intros U; destruct (first_met _ _ _ _ H0 U)|]. intros y Fy I. destruct (Aheads x x1 (proj1 H0) H1 I).
    + rewrite !Hn. cbn [bind]. change (evenb 1) with false. cbn [andb]. rewrite olt_nan_r by discriminate. cbn [bind]. split; [intros y Fy O; destruct (Insides x (proj1 H0) H1 O)|].
      split; [intros U; destruct (first_met _ _ _ _ H0 U)|]. eauto.
    + split; [intros y Fy; destruct (first_met _ _ _ _ Fy H0)|]. split; [eauto|intros y Fy; destruct (first_met _ _ _ _ Fy H0)]. }
  assert (B : tree_of (Bin OpIntersect (Leaf cy) (Leaf s)) t ->
     (forall x, first_of s p d x -> says t r (fv (at_t p d x))) /\ (unmet s p d -> says_miss t r)).
  { intros HT; inversion HT as [| |o a b ta tb Ha Hb]; subst; clear HT.
    destruct (heard_leaf s tb p d r Hb Hd Hr Rg Cl) as (h & E & Hh). pose proof (along_leaf c u rad ta p d r Ha Hd Hr P) as E'.
    unfold says, says_miss. cbn [test_tree_intersect]. rewrite E, E'. cbn [bind index6]. change (csg_oper (KStr (op_name OpIntersect))) with (Ok (A := _) (@operCsgIntersect xr _)). cbn [bind].
    unfold operCsgIntersect. cbn [h6_flag h6_count]. rewrite !(lost_helper p d r) by exact Hr. destruct Hh as [x x1 n n1 H0 H1 Hn Hf Hb'|x n H0 H1 Hn Hb'|H0 Hb']; rewrite Hb'; cbn [andb bind].
    + rewrite Hn, Hf. cbn [bind]. change (evenb 2) with true. change (evenb 1) with false. cbn [andb]. rewrite !olt_nan_l by discriminate. cbn [bind]. split; [intros y Fy; rewrite (first_unique _ _ _ _ _ Fy H0); eauto|].
      intros U; destruct (first_met _ _ _ _ H0 U).
    + rewrite !Hn. cbn [bind]. change (evenb 1) with false. cbn [andb]. rewrite olt_nan_l by discriminate. cbn [bind]. split; [intros y Fy; rewrite (first_unique _ _ _ _ _ Fy H0); eauto|].
      intros U; destruct (first_met _ _ _ _ H0 U).
    + split; [intros y Fy; destruct (first_met _ _ _ _ Fy H0)|eauto]. }
  split.
  - intros [HT|HT]; [destruct (A HT) as (A1 & A2 & _); auto|destruct (B HT) as (B1 & B2); auto].
  - intros x Fx I. split; intros HT; [exact (proj1 (B HT) x Fx)|exact (proj2 (proj2 (A HT)) x Fx I)].
Qed.
Print Assumptions C97_intersect.

(** Consequence: a rod's end (cylinder and solid) is hit by rays beside the rod, though no point of the ray is in it. *)
Theorem C97_phantom : forall s c u rad t p d r x, let cy := Cyl c u rad in is_unit d -> ray_is r p d -> parallel (dirn u) d -> regular s p d -> clear0 s p d ->
  tree_of (Bin OpIntersect (Leaf s) (Leaf cy)) t \/ tree_of (Bin OpIntersect (Leaf cy) (Leaf s)) t ->
  first_of s p d x -> starts_outside (fun v => member s (at_t p d v)) -> ~ member cy p ->
  says t r (fv (at_t p d x)) /\ forall v, ~ den (Bin OpIntersect (Leaf s) (Leaf cy)) (at_t p d v).
Proof.
  intros s c u rad t p d r x cy Hd Hr P Rg Cl HT Fx O Nm. split; [exact (proj1 (proj1 (C97_intersect s c u rad t p d r Hd Hr P Rg Cl) HT) x Fx O)|].
  intros v [_ M]. apply Nm. clear - P M. cbn [member den cy] in *. unfold in_cylinder, axis_dist in *.
  replace (perp (dirn u) (p - c)%r3) with (perp (dirn u) (at_t p d v - c)%r3); [exact M|].
  unfold parallel in P. generalize dependent (dirn u). intros U P M.
  assert (X : perp U (at_t p d v - c)%r3 = (perp U (p - c) + v * perp U d)%r3) by (unfold perp, at_t; clear; r3_ring). rewrite X, P. clear. r3_ring.
Qed.
Print Assumptions C97_phantom.

(** optics that a ray from p along d does not see: compounds of a cylinder along the ray, alone, as the second member of a union, or subtracted from a solid *)
Inductive unseen (p d : R3) : optic xr -> Prop :=
| U_skip o : skipped o = true -> unseen p d o
| U_alone c u rad t b x : parallel (dirn u) d -> tree_of (Leaf (Cyl c u rad)) t -> unseen p d (OCompound (mkCompound t b x))
| U_union s c u rad t b x : parallel (dirn u) d -> regular s p d -> clear0 s p d -> tree_of (Bin OpUnion (Leaf s) (Leaf (Cyl c u rad))) t -> unseen p d (OCompound (mkCompound t b x))
| U_hole s c u rad t b x : parallel (dirn u) d -> regular s p d -> clear0 s p d -> tree_of (Bin OpDifference (Leaf s) (Leaf (Cyl c u rad))) t -> unseen p d (OCompound (mkCompound t b x)).
(** A ray flies straight through any scene of such optics. *)
Theorem C97_through : forall w p d L (r : ray xr), Forall (unseen p d) w -> is_unit d -> ray_is r p d -> 0 < L -> blocked r = false ->
  exists r', (forall fuel, L / 1e-12 + 1 < INR fuel -> run fuel r (Fin L) w None = Ok (r', w)) /\ ray_is r' (at_t p d L) d /\ point_history r' = point_history r ++ [fv (at_t p d L)].
Proof.
  intros w p d L r W Hd Hr HL Hb.
  assert (K : forall o, unseen p d o -> test_ok r o /\ forall x pt n, ~ reports r L o x pt n).
  { assert (Says : forall t b x, says t r lost -> test_ok r (OCompound (mkCompound t b x)) /\ forall y pt n, ~ reports r L (OCompound (mkCompound t b x)) y pt n).
    { intros t b x (n & k & E). assert (Q : optic_test_intersect (OCompound (mkCompound t b x)) r = Ok (H4 true (Some lost) n (SfoBool (evenb k)))) by (cbn [optic_test_intersect]; unfold compound_test_intersect; cbn [co_tree]; rewrite E; reflexivity).
      split; [right; eexists; split; [exact Q|discriminate]|]. intros y pt n' (_ & sd & Q' & Dy & _). rewrite Q in Q'. injection Q' as <- _ _. rewrite (lost_distance p d r Hr) in Dy. discriminate. }
    assert (Miss : forall t b x, says_miss t r -> test_ok r (OCompound (mkCompound t b x)) /\ forall y pt n, ~ reports r L (OCompound (mkCompound t b x)) y pt n).
    { intros t b x (k & E). assert (Q : optic_test_intersect (OCompound (mkCompound t b x)) r = Ok (H4 false None None (SfoBool (evenb k)))) by (cbn [optic_test_intersect]; unfold compound_test_intersect; cbn [co_tree]; rewrite E; reflexivity).
      split; [right; eexists; split; [exact Q|discriminate]|]. intros y pt n' (_ & sd & Q' & Dy & _). rewrite Q in Q'. discriminate. }
    intros o [o' Sk|c u rad t b x P HT|s c u rad t b x P Rg Cl HT|s c u rad t b x P Rg Cl HT].
    - split; [left; exact Sk|]. intros y pt n (Sk' & _). congruence.
    - apply Says. exact (C97_alone c u rad t p d r HT Hd Hr P).
    - apply Says. exact (proj1 (C97_union s c u rad t p d r Hd Hr P Rg Cl) HT).
    - apply Miss. exact (proj1 (C97_difference s c u rad t p d r Hd Hr P Rg Cl) HT). }
  assert (F : flows r w L (Ok (fly r (Fin L), w))).
  { apply F_free; [exact HL|exact Hb|revert W; apply Forall_impl; intros o U; exact (proj1 (K o U))|].
    intros j o x pt n E. apply nth_error_In in E. rewrite Forall_forall in W. exact (proj2 (K o (W o E)) x pt n). }
  exists (fly r (Fin L)). split; [|split; [apply fly_ray, Hr|apply (fly_history r p d L Hr)]].
  intros fuel Lf. symmetry. eapply flows_det; [exact F|]. apply run_flows, run_terminates. now left.
Qed.
Print Assumptions C97_through.

(** a ball of radius 3 at distance 10 on the x axis, and cylinders along the x axis beside the ray: the ball is met, the ray is in no cylinder, and the trees exist *)
Example C97_hyp : let s := axis_ball 10 3 in let cy := Cyl (mk3 0 5 0) ex 1 in parallel (dirn ex) ex /\ regular s org ex /\ clear0 s org ex /\ first_of s org ex 7 /\
  starts_outside (fun v => member s (at_t org ex v)) /\ ~ member cy org /\ (exists t, tree_of (Bin OpDifference (Leaf s) (Leaf cy)) t) /\ (exists t, tree_of (Bin OpIntersect (Leaf cy) (Leaf s)) t).
Proof.
  intros s cy. assert (Ux : is_unit ex) by (unfold is_unit, ex, r3dot; cbn; ring). assert (Dx : dirn ex = ex) by (apply dirn_of_unit; exact Ux).
  assert (Sf : forall u, surface s (at_t org ex u) <-> u = 7 \/ u = 13) by (intros u; unfold s; cbn [surface axis_ball]; unfold on_sphere; rewrite axis_dist3; unfold Rabs; destruct (Rcase_abs (u - 10)); lra).
  assert (Nz : ex <> r3zero) by (intros E; unfold is_unit in Ux; rewrite E in Ux; unfold r3dot, r3zero in Ux; cbn in Ux; lra).
  assert (Tc : exists t, tree_of (Leaf cy) t).
  { eexists. eapply (TO_cyl _ _ _ (Some 1) None); [exact Nz|lra|reflexivity|]. unfold mk_infcyl. cbn [fo option_map]. rewrite check_R_only. reflexivity. }
  assert (Ts : exists t, tree_of (Leaf s) t).
  { destruct (axis_tree2 OpUnion 10 3 10 3) as (t & HT). inversion HT as [| |o a b ta tb Ha Hb]; subst. eexists; exact Ha. }
  split; [rewrite Dx; unfold parallel, perp; rewrite Ux; r3_ring|]. split; [apply axis_regular; lra|]. split; [unfold s; cl0|]. split; [split; [lra|]; split; [apply Sf; auto|intros v Hv X; apply Sf in X; lra]|].
  split; [exists 7; split; [lra|]; intros v Hv X; unfold s in X; apply axis_member in X; lra|]. split.
  - unfold cy. cbn [member]. rewrite Dx. unfold in_cylinder, axis_dist. replace (perp ex (org - mk3 0 5 0)%r3) with (mk3 0 (-5) 0) by (unfold perp, ex, org; r3_unf; cbn; f_equal; ring).
    assert (Q : len (mk3 0 (-5) 0) * len (mk3 0 (-5) 0) = 25) by (rewrite len_sq; unfold r3dot; cbn; ring). pose proof (len_nonneg (mk3 0 (-5) 0)). nra.
  - destruct Tc as (tc & Tc), Ts as (ts & Ts). split; eexists; apply TO_bin; eassumption.
Qed.
