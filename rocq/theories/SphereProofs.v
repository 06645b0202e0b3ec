(** Sphere at [xr] (Shapes/shapes.py:277-356). *)
From Coq Require Import Reals ZArith Lra Lia Psatz Bool List String.
From Verif Require Import PyErr Num Vec Shapes Spec XReal RVec VecProofs FlatProofs.
Local Open Scope R_scope.

Definition sph (c : R3) (rad : R) (D : xr) : sphere xr := mkSphere (fv c) (Fin rad) D.
(** the line through p with direction d touches the sphere without crossing it *)
Definition tangent (c : R3) (rad : R) (p d : R3) : Prop := axis_dist p d c = Rabs rad.

Definition sdisc (c : R3) (rad : R) (p d : R3) : R :=
  (d ∙ (c - p)%r3) * (d ∙ (c - p)%r3) - ((c - p)%r3 ∙ (c - p)%r3 - rad * rad).

Lemma dist3_sq a b : dist3 a b * dist3 a b = (a - b)%r3 ∙ (a - b)%r3.
Proof. apply len_sq. Qed.
Lemma dist3_nonneg a b : 0 <= dist3 a b. Proof. apply len_nonneg. Qed.
Lemma sq_eq_abs x y : 0 <= x -> (x = Rabs y <-> x * x = y * y).
Proof.
  intros Hx. pose proof (Rabs_pos y). assert (E : Rabs y * Rabs y = y * y) by (rewrite <- Rabs_mult; apply Rabs_right; nra).
  split; intros A; [rewrite A; exact E|]. rewrite <- E in A. nra.
Qed.
Lemma sq_lt_abs x y : 0 <= x -> (x < Rabs y <-> x * x < y * y).
Proof.
  intros Hx. pose proof (Rabs_pos y). assert (E : Rabs y * Rabs y = y * y) by (rewrite <- Rabs_mult; apply Rabs_right; nra).
  rewrite <- E. split; nra.
Qed.

Lemma at_dist_sq c p d t : is_unit d ->
  dist3 (at_t p d t) c * dist3 (at_t p d t) c =
  (t - d ∙ (c - p)%r3) * (t - d ∙ (c - p)%r3) + ((c - p)%r3 ∙ (c - p)%r3 - (d ∙ (c - p)%r3) * (d ∙ (c - p)%r3)).
Proof.
  intros Hd. rewrite dist3_sq.
  transitivity (t * t * (d ∙ d) - 2 * t * (d ∙ (c - p)%r3) + (c - p)%r3 ∙ (c - p)%r3).
  - unfold at_t. r3_ring.
  - unfold is_unit in Hd. rewrite Hd. ring.
Qed.
Lemma on_sphere_param c rad p d t : is_unit d ->
  (on_sphere c (Rabs rad) (at_t p d t) <-> (t - d ∙ (c - p)%r3) * (t - d ∙ (c - p)%r3) = sdisc c rad p d).
Proof.
  intros Hd. unfold on_sphere. rewrite sq_eq_abs by apply dist3_nonneg. rewrite at_dist_sq by exact Hd.
  unfold sdisc. split; lra.
Qed.
Lemma in_ball_param c rad p d t : is_unit d ->
  (in_ball c (Rabs rad) (at_t p d t) <-> (t - d ∙ (c - p)%r3) * (t - d ∙ (c - p)%r3) < sdisc c rad p d).
Proof.
  intros Hd. unfold in_ball. rewrite sq_lt_abs by apply dist3_nonneg. rewrite at_dist_sq by exact Hd.
  unfold sdisc. split; lra.
Qed.
Lemma tangent_disc c rad p d : is_unit d -> (tangent c rad p d <-> sdisc c rad p d = 0).
Proof.
  intros Hd. unfold tangent, axis_dist. rewrite sq_eq_abs by apply len_nonneg. rewrite len_sq.
  assert (E : perp d (c - p) ∙ perp d (c - p) = (c - p)%r3 ∙ (c - p)%r3 - (d ∙ (c - p)%r3) * (d ∙ (c - p)%r3)).
  { transitivity ((c - p)%r3 ∙ (c - p)%r3 - 2 * (d ∙ (c - p)%r3) * (d ∙ (c - p)%r3)
       + (d ∙ (c - p)%r3) * (d ∙ (c - p)%r3) * (d ∙ d)).
    - r3_ring.
    - unfold is_unit in Hd. rewrite Hd. ring. }
  rewrite E. unfold sdisc. split; lra.
Qed.
Lemma at_t_0 p d : at_t p d 0 = p.
Proof. apply r3_ext; r3_unf; cbn; ring. Qed.
Lemma at_t_inj p d t t' : d <> r3zero -> at_t p d t = at_t p d t' -> t = t'.
Proof.
  intros Hd E. assert (H : ((t - t') * d)%r3 = r3zero).
  { apply r3_ext; [apply (f_equal cx) in E|apply (f_equal cy) in E|apply (f_equal cz) in E]; r3_unf; cbn in *; lra. }
  destruct (Req_dec (t - t') 0) as [Z|Z]; [lra|]. exfalso. exact (scale_nonzero _ _ Z Hd H).
Qed.

Lemma sphere_normal_on c rad D x : rad <> 0 -> on_sphere c (Rabs rad) x ->
  sphere_normal (sph c rad D) (fv x) = fv (/ Rabs rad * (c - x))%r3 /\ is_unit (/ Rabs rad * (c - x))%r3.
Proof.
  intros HR On. unfold sphere_normal, sph; cbn [sp_center]. rewrite vsub_fv.
  assert (L : len (c - x)%r3 = Rabs rad) by (unfold on_sphere in On; rewrite dist3_sym in On; exact On).
  assert (P : 0 < Rabs rad) by (apply Rabs_pos_lt; exact HR).
  assert (NZ : (c - x)%r3 <> r3zero) by (intros E; rewrite E, len_zero_r3 in L; lra).
  rewrite unit_vector_fv by exact NZ. unfold dirn. rewrite <- L. split; [reflexivity|]. apply (dirn_unit _ NZ).
Qed.

(** Complete case analysis of Sphere.test_intersect. *)
Inductive sphere_result (c : R3) (rad : R) (D : xr) (p d : R3) (h : hit6 xr) : Prop :=
| SR_cross (t0 t1 : R) (SR_lt : t0 < t1)
    (SR_on : forall t, on_sphere c (Rabs rad) (at_t p d t) <-> t = t0 \/ t = t1)
    (SR_in : forall t, in_ball c (Rabs rad) (at_t p d t) <-> t0 < t < t1)
    (SR_nt : ~ tangent c rad p d)
    (SR_res : h =
      let pt0 := fv (at_t p d t0) in let pt1 := fv (at_t p d t1) in
      let n0 := sphere_normal (sph c rad D) pt0 in let n1 := sphere_normal (sph c rad D) pt1 in
      if Rltb 1e-12 t0 then H6 true (Some pt1) (Some pt0) (Some n1) (Some n0) 2
      else if Rltb 1e-12 t1 then H6 true (Some pt1) None (Some n1) None 1
      else H6 false None None None None 0)
| SR_touch (t0 : R)
    (ST_on : forall t, on_sphere c (Rabs rad) (at_t p d t) <-> t = t0)
    (ST_in : forall t, ~ in_ball c (Rabs rad) (at_t p d t))
    (ST_t : tangent c rad p d)
    (ST_res : h = H6 true (Some (fv (at_t p d t0))) None (Some (sphere_normal (sph c rad D) (fv (at_t p d t0)))) None 2)
| SR_miss
    (SM_on : forall t, ~ on_sphere c (Rabs rad) (at_t p d t))
    (SM_in : forall t, ~ in_ball c (Rabs rad) (at_t p d t))
    (SM_nt : ~ tangent c rad p d)
    (SM_res : h = H6 false None None None None 0).

Lemma Rltb_false_intro x y : ~ x < y -> Rltb x y = false.
Proof. intros H. destruct (Rltb_spec x y); [contradiction|reflexivity]. Qed.
Lemma Rltb_true_intro x y : x < y -> Rltb x y = true.
Proof. intros H. destruct (Rltb_spec x y); [reflexivity|contradiction]. Qed.

Lemma sphere_cases c rad D p d r : is_unit d -> ray_is r p d ->
  sphere_result c rad D p d (sphere_test_intersect (sph c rad D) r).
Proof.
  intros Hd [Hp Hdir]. remember (sphere_test_intersect (sph c rad D) r) as h eqn:Eh.
  unfold sphere_test_intersect in Eh; cbn [sph sp_center sp_R] in Eh.
  rewrite Hp, Hdir, vsub_fv, !dot_fv, !nmul_fin, !nsub_fin, nofZ_fin, ngt_fin, neqb_fin in Eh.
  change (d ∙ (c - p)%r3 * (d ∙ (c - p)%r3) - ((c - p)%r3 ∙ (c - p)%r3 - rad * rad)) with (sdisc c rad p d) in Eh.
  destruct (Rltb_spec 0 (sdisc c rad p d)) as [P|P].
  - rewrite nsqrt_fin in Eh by lra. rewrite nsub_fin, nadd_fin, !vscale_fv, !vadd_fv in Eh.
    rewrite clip_fin, !ngt_fin, nlt_fin in Eh.
    set (b := d ∙ (c - p)%r3) in *. set (s := sqrt (sdisc c rad p d)) in *.
    assert (Ps : 0 < s) by (apply sqrt_lt_R0; exact P).
    assert (Es : s * s = sdisc c rad p d) by (apply sqrt_sqrt; lra).
    apply SR_cross with (t0 := b - s) (t1 := b + s).
    + lra.
    + intros t. rewrite on_sphere_param by exact Hd. fold b. rewrite <- Es. split.
      * intros E. assert ((t - b - s) * (t - b + s) = 0) by lra.
        apply Rmult_integral in H. destruct H; [right|left]; lra.
      * intros [->| ->]; ring.
    + intros t. rewrite in_ball_param by exact Hd. fold b. rewrite <- Es. split; intros; [split|]; nra.
    + rewrite tangent_disc by exact Hd. lra.
    + rewrite Eh. cbv zeta. fold (at_t p d (b - s)) (at_t p d (b + s)). rewrite (Rltb_true_intro (b - s) (b + s)) by lra.
      destruct (Rltb_spec 1e-12 (b - s)) as [A|A]; cbn [andb].
      * rewrite (Rltb_true_intro 1e-12 (b + s)) by lra. reflexivity.
      * destruct (Rltb_spec 1e-12 (b + s)); reflexivity.
  - destruct (Reqb_spec (sdisc c rad p d) 0) as [Z|Z].
    + rewrite vscale_fv, vadd_fv in Eh. eapply SR_touch; [| | |exact Eh].
      * intros t. rewrite on_sphere_param, Z by exact Hd. split.
        -- intros E. apply Rmult_integral in E. lra.
        -- intros ->. ring.
      * intros t. rewrite in_ball_param, Z by exact Hd. intros E; pose proof (Rle_0_sqr (t - d ∙ (c - p)%r3)) as Q; unfold Rsqr in Q; lra.
      * now apply tangent_disc.
    + assert (L : sdisc c rad p d < 0) by (apply Rnot_lt_le in P; destruct P; [assumption|contradiction]).
      apply SR_miss; [| | |exact Eh].
      * intros t. rewrite on_sphere_param by exact Hd. intros E; pose proof (Rle_0_sqr (t - d ∙ (c - p)%r3)) as Q; unfold Rsqr in Q; lra.
      * intros t. rewrite in_ball_param by exact Hd. intros E; pose proof (Rle_0_sqr (t - d ∙ (c - p)%r3)) as Q; unfold Rsqr in Q; lra.
      * rewrite tangent_disc by exact Hd. exact Z.
Qed.

(** point x with normal n is one of the intersections a 6-tuple result reports *)
Definition reported (h : hit6 xr) (x n : vec xr) : Prop :=
  h6_flag h = true /\
  ((h6_p1 h = Some x /\ h6_n1 h = Some n) \/ (h6_p2 h = Some x /\ h6_n2 h = Some n)).

Lemma sphere_sound c rad D p d r x n : rad <> 0 -> is_unit d -> ray_is r p d ->
  (tangent c rad p d -> 1e-12 < d ∙ (c - p)%r3) ->
  reported (sphere_test_intersect (sph c rad D) r) x n ->
  exists t, 1e-12 < t /\ x = fv (at_t p d t) /\ on_sphere c (Rabs rad) (at_t p d t) /\
    n = fv (/ Rabs rad * (c - at_t p d t))%r3 /\ is_unit (/ Rabs rad * (c - at_t p d t))%r3.
Proof.
  intros HR Hd Hr HT [F Rep].
  assert (Aux : forall t, 1e-12 < t -> on_sphere c (Rabs rad) (at_t p d t) ->
    x = fv (at_t p d t) -> n = sphere_normal (sph c rad D) (fv (at_t p d t)) ->
    exists t, 1e-12 < t /\ x = fv (at_t p d t) /\ on_sphere c (Rabs rad) (at_t p d t) /\
    n = fv (/ Rabs rad * (c - at_t p d t))%r3 /\ is_unit (/ Rabs rad * (c - at_t p d t))%r3).
  { intros t Ht On Ex En. exists t. destruct (sphere_normal_on c rad D _ HR On) as [E U].
    rewrite E in En. auto. }
  destruct (sphere_cases c rad D p d r Hd Hr).
  - assert (O0 : on_sphere c (Rabs rad) (at_t p d t0)) by (apply SR_on; auto).
    assert (O1 : on_sphere c (Rabs rad) (at_t p d t1)) by (apply SR_on; auto).
    rewrite SR_res in *. cbv zeta in *. destruct (Rltb_spec 1e-12 t0) as [A|A].
    + cbn in Rep. destruct Rep as [[E1 E2]|[E1 E2]]; injection E1 as <-; injection E2 as <-.
      * apply (Aux t1); auto. lra.
      * apply (Aux t0); auto.
    + destruct (Rltb_spec 1e-12 t1) as [B|B]; cbn in Rep, F; [|discriminate].
      destruct Rep as [[E1 E2]|[E1 E2]]; [|discriminate]. injection E1 as <-; injection E2 as <-. apply (Aux t1); auto.
  - rewrite ST_res in Rep. cbn in Rep. destruct Rep as [[E1 E2]|[E1 E2]]; [|discriminate].
    injection E1 as <-; injection E2 as <-. assert (O : on_sphere c (Rabs rad) (at_t p d t0)) by (apply ST_on; auto).
    apply (Aux t0); auto. specialize (HT ST_t).
    apply on_sphere_param in O; auto. apply tangent_disc in ST_t; auto. rewrite ST_t in O. nra.
  - rewrite SM_res in F. discriminate.
Qed.

Lemma sphere_complete c rad D p d r : rad <> 0 -> is_unit d -> ray_is r p d ->
  (forall t, 1e-12 < t -> on_sphere c (Rabs rad) (at_t p d t) ->
     reported (sphere_test_intersect (sph c rad D) r) (fv (at_t p d t)) (fv (/ Rabs rad * (c - at_t p d t))%r3)) /\
  (~ tangent c rad p d -> (forall t, 1e-12 < t -> ~ on_sphere c (Rabs rad) (at_t p d t)) ->
     sphere_test_intersect (sph c rad D) r = H6 false None None None None 0).
Proof.
  intros HR Hd Hr. destruct (sphere_cases c rad D p d r Hd Hr).
  - split.
    + intros t Ht On. destruct (sphere_normal_on c rad D _ HR On) as [E _]. rewrite <- E.
      apply SR_on in On. rewrite SR_res; cbv zeta. unfold reported.
      destruct (Rltb_spec 1e-12 t0) as [A|A]; [|destruct (Rltb_spec 1e-12 t1) as [B|B]]; destruct On as [->| ->];
        try lra; cbn; auto.
    + intros _ N. rewrite SR_res; cbv zeta.
      destruct (Rltb_spec 1e-12 t0) as [A|A]; [exfalso; apply (N t0 A), SR_on; auto|].
      destruct (Rltb_spec 1e-12 t1) as [B|B]; [exfalso; apply (N t1 B), SR_on; auto|]. reflexivity.
  - split.
    + intros t Ht On. destruct (sphere_normal_on c rad D _ HR On) as [E _]. rewrite <- E.
      apply ST_on in On. subst t. rewrite ST_res. unfold reported. cbn. auto.
    + intros NT. contradiction.
  - split; [|auto]. intros t _ On. exfalso. eapply SM_on; eassumption.
Qed.

Lemma sphere_test_point_fv c rad D x : sphere_test_point (sph c rad D) (fv x) = true <-> in_ball c rad x.
Proof.
  unfold sphere_test_point, sph, in_ball; cbn [sp_center sp_R]. rewrite distance_fv, nlt_fin.
  destruct (Rltb_spec (dist3 x c) rad); split; auto; discriminate.
Qed.

Lemma sphere_parity c rad D p d r : 0 < rad -> is_unit d -> ray_is r p d ->
  ~ tangent c rad p d -> (forall t, on_sphere c rad (at_t p d t) -> 1e-12 < Rabs t) ->
  (Z.Odd (h6_count (sphere_test_intersect (sph c rad D) r)) <-> in_ball c rad p) /\
  (in_ball c rad p <-> sphere_test_point (sph c rad D) (position r) = true).
Proof.
  intros HR Hd Hr NT Far. assert (RR : Rabs rad = rad) by (apply Rabs_right; lra). split.
  2:{ destruct Hr as [-> _]. symmetry. apply sphere_test_point_fv. }
  destruct (sphere_cases c rad D p d r Hd Hr); [|contradiction|].
  - rewrite RR in SR_on, SR_in.
    assert (F0 : 1e-12 < Rabs t0) by (apply Far, SR_on; auto).
    assert (F1 : 1e-12 < Rabs t1) by (apply Far, SR_on; auto).
    assert (I : in_ball c rad p <-> t0 < 0 < t1).
    { rewrite <- (at_t_0 p d) at 1. apply SR_in. }
    rewrite I, SR_res; cbv zeta. unfold Rabs in F0, F1. destruct (Rcase_abs t0), (Rcase_abs t1);
    destruct (Rltb_spec 1e-12 t0) as [A|A]; try lra; destruct (Rltb_spec 1e-12 t1) as [B|B]; try lra; cbn [h6_count];
      split; intros O; try lra; try (destruct O as [k Hk]; lia).
    exists 0%Z; reflexivity.
  - rewrite RR in SM_in. rewrite SM_res; cbn [h6_count]. split.
    + intros [k Hk]. lia.
    + intros I. exfalso. apply (SM_in 0). rewrite at_t_0. exact I.
Qed.
