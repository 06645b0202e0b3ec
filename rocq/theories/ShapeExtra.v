(** Constructor-level corollaries and witnesses for the shape properties. *)
From Coq Require Import Reals ZArith Lra Lia Psatz Bool.
From Verif Require Import PyErr Num Vec Shapes Spec XReal RVec VecProofs FlatProofs SphereProofs CylProofs.
Local Open Scope R_scope.

Lemma radius_arg_det Ro Do x y : radius_arg Ro Do x -> radius_arg Ro Do y -> x = y.
Proof. destruct Ro, Do; cbn; intros A B; try congruence; try (destruct A, B; congruence); contradiction. Qed.
Lemma radius_arg_check Ro Do rad : radius_arg Ro Do rad ->
  check_R_and_D (fo Ro) (fo Do) = Ok (Fin rad, Fin (match Do with Some y => y | None => 2 * rad end)).
Proof.
  intros H. destruct (check_R_and_D_iff Ro Do) as [(rad' & dia & A & B & E)|[A _]]; [|exfalso; eapply A; eassumption].
  rewrite (radius_arg_det _ _ _ _ H A). rewrite B. destruct Do; subst; reflexivity.
Qed.
Lemma mk_sphere_inv c Ro Do rad s : radius_arg Ro Do rad -> mk_sphere (fv c) (fo Ro) (fo Do) = Ok s ->
  exists D, s = sph c rad D.
Proof.
  intros H E. unfold mk_sphere in E. rewrite (radius_arg_check _ _ _ H) in E. cbn [bind] in E. injection E as <-.
  eexists; reflexivity.
Qed.
Lemma mk_infcyl_inv c u Ro Do rad k : u <> r3zero -> radius_arg Ro Do rad ->
  mk_infcyl (fv c) (fv u) (fo Ro) (fo Do) = Ok k -> exists D pl, k = cyl c (dirn u) rad D pl.
Proof.
  intros Hu H E. unfold mk_infcyl in E. rewrite (radius_arg_check _ _ _ H) in E. cbn [bind] in E. injection E as <-.
  rewrite unit_vector_fv by exact Hu. do 2 eexists; reflexivity.
Qed.

Lemma sphere_sound_mk c Ro Do rad s p d r x n :
  radius_arg Ro Do rad -> mk_sphere (fv c) (fo Ro) (fo Do) = Ok s ->
  rad <> 0 -> is_unit d -> ray_is r p d ->
  (tangent c rad p d -> 1e-12 < d ∙ (c - p)%r3) ->
  reported (sphere_test_intersect s r) x n ->
  exists t, 1e-12 < t /\ x = fv (at_t p d t) /\ on_sphere c (Rabs rad) (at_t p d t) /\
    n = fv (/ Rabs rad * (c - at_t p d t))%r3 /\ is_unit (/ Rabs rad * (c - at_t p d t))%r3.
Proof. intros A B. destruct (mk_sphere_inv _ _ _ _ _ A B) as [D ->]. apply sphere_sound. Qed.
Lemma sphere_complete_mk c Ro Do rad s p d r :
  radius_arg Ro Do rad -> mk_sphere (fv c) (fo Ro) (fo Do) = Ok s ->
  rad <> 0 -> is_unit d -> ray_is r p d ->
  (forall t, 1e-12 < t -> on_sphere c (Rabs rad) (at_t p d t) ->
     reported (sphere_test_intersect s r) (fv (at_t p d t)) (fv (/ Rabs rad * (c - at_t p d t))%r3)) /\
  (~ tangent c rad p d -> (forall t, 1e-12 < t -> ~ on_sphere c (Rabs rad) (at_t p d t)) ->
     sphere_test_intersect s r = H6 false None None None None 0).
Proof. intros A B. destruct (mk_sphere_inv _ _ _ _ _ A B) as [D ->]. apply sphere_complete. Qed.
Lemma sphere_parity_mk c Ro Do rad s p d r :
  radius_arg Ro Do rad -> mk_sphere (fv c) (fo Ro) (fo Do) = Ok s ->
  0 < rad -> is_unit d -> ray_is r p d ->
  ~ tangent c rad p d -> (forall t, on_sphere c rad (at_t p d t) -> 1e-12 < Rabs t) ->
  (Z.Odd (h6_count (sphere_test_intersect s r)) <-> in_ball c rad p) /\
  (in_ball c rad p <-> sphere_test_point s (position r) = true).
Proof. intros A B. destruct (mk_sphere_inv _ _ _ _ _ A B) as [D ->]. apply sphere_parity. Qed.

Lemma sphere_tangent_behind : exists c rad p d, 0 < rad /\ is_unit d /\
  forall D r, ray_is r p d ->
  exists t n, t < 0 /\ reported (sphere_test_intersect (sph c rad D) r) (fv (at_t p d t)) n.
Proof.
  exists (mk3 1 (-10) 0), 1, r3zero, (mk3 0 1 0).
  assert (U : is_unit (mk3 0 1 0)) by (unfold is_unit, r3dot; cbn; ring).
  split; [lra|]. split; [exact U|]. intros D r Hr.
  assert (T : tangent (mk3 1 (-10) 0) 1 r3zero (mk3 0 1 0)).
  { rewrite tangent_disc by exact U. unfold sdisc; r3_unf; cbn. ring. }
  destruct (sphere_cases (mk3 1 (-10) 0) 1 D r3zero (mk3 0 1 0) r U Hr); try contradiction.
  exists t0. eexists. split.
  - assert (O : on_sphere (mk3 1 (-10) 0) (Rabs 1) (at_t r3zero (mk3 0 1 0) t0)) by (apply ST_on; reflexivity).
    apply on_sphere_param in O; [|exact U]. unfold sdisc in O; r3_unf; cbn in O. nra.
  - rewrite ST_res. split; [reflexivity|]. left. split; reflexivity.
Qed.

Lemma rect_example : orth (mk3 0 0 1) (mk3 1 0 0) /\ exists q,
  mk_rectangle (fv r3zero) (Some (fv (mk3 0 0 1))) (Some (fv (mk3 1 0 0))) (Some (Fin 2)) (Some (Fin 4)) = Ok q.
Proof.
  assert (U1 : is_unit (mk3 0 0 1)) by (unfold is_unit, r3dot; cbn; ring).
  assert (U2 : is_unit (mk3 1 0 0)) by (unfold is_unit, r3dot; cbn; ring).
  split; [unfold orth, r3dot; cbn; ring|].
  rewrite mk_rectangle_fv by (apply unit_nonzero; assumption). rewrite !dirn_of_unit by assumption.
  replace (mk3 0 0 1 ∙ mk3 1 0 0) with 0 by (unfold r3dot; cbn; ring). rewrite Rabs_R0.
  destruct (Rleb_spec 0 1e-8); [|lra]. rewrite !Rltb_false_intro by lra. eexists; reflexivity.
Qed.

Lemma rect_zero_width : exists c n t h q p d,
  n <> r3zero /\ t <> r3zero /\ orth n t /\ 0 < h /\ is_unit d /\
  mk_rectangle (fv c) (Some (fv n)) (Some (fv t)) (Some (Fin h)) (Some (Fin 0)) = Ok q /\
  forall r, ray_is r p d -> exists x,
    rectangle_test_intersect q r = Ok (H3 true (Some (fv x)) (Some (fv n))) /\
    100 <= Rabs ((x - c)%r3 ∙ (n × t)%r3).
Proof.
  assert (U1 : is_unit (mk3 0 0 1)) by (unfold is_unit, r3dot; cbn; ring).
  assert (U2 : is_unit (mk3 1 0 0)) by (unfold is_unit, r3dot; cbn; ring).
  exists r3zero, (mk3 0 0 1), (mk3 1 0 0), 2.
  exists (rect_of r3zero (mk3 0 0 1) (mk3 1 0 0) 2 0), (mk3 0 100 (-1)), (mk3 0 0 1).
  split; [apply unit_nonzero; assumption|]. split; [apply unit_nonzero; assumption|].
  split; [unfold orth, r3dot; cbn; ring|]. split; [lra|]. split; [assumption|]. split.
  - rewrite mk_rectangle_fv by (apply unit_nonzero; assumption). rewrite !dirn_of_unit by assumption.
    replace (mk3 0 0 1 ∙ mk3 1 0 0) with 0 by (unfold r3dot; cbn; ring). rewrite Rabs_R0.
    destruct (Rleb_spec 0 1e-8); [|lra]. rewrite !Rltb_false_intro by lra. reflexivity.
  - intros r Hr.
    assert (M : meets_plane r3zero (mk3 0 0 1) (mk3 0 100 (-1)) (mk3 0 0 1) 1).
    { unfold meets_plane, on_plane; r3_unf; cbn. replace (0 * 0 + 0 * 0 + 1 * 1) with 1 by ring. rewrite Rabs_R1.
      repeat split; lra. }
    assert (I : in_rect r3zero (mk3 0 0 1) (mk3 1 0 0) 2 0 (at_t (mk3 0 100 (-1)) (mk3 0 0 1) 1)).
    { split; [right|left; reflexivity]. r3_unf; cbn. match goal with |- Rabs ?e <= _ => replace e with 0 by ring end.
      rewrite Rabs_R0. lra. }
    destruct (rectangle_test_spec r3zero (mk3 0 0 1) (mk3 1 0 0) 2 0 (mk3 0 100 (-1)) (mk3 0 0 1) r U1 U2 U1
       ltac:(lra) ltac:(lra) Hr) as [(s & M' & _ & E)|[N _]].
    + rewrite (meets_plane_unique _ _ _ _ _ _ M' M) in E. eexists. split; [exact E|]. r3_unf; cbn.
      match goal with |- _ <= Rabs ?e => replace e with 100 by ring end. rewrite Rabs_right; lra.
    + exfalso. exact (N 1 M I).
Qed.

Lemma infcyl_sound_mk c u Ro Do rad k p d r h x n :
  u <> r3zero -> radius_arg Ro Do rad -> mk_infcyl (fv c) (fv u) (fo Ro) (fo Do) = Ok k ->
  0 < rad -> is_unit d -> ray_is r p d -> ~ parallel (dirn u) d -> ~ ctangent c (dirn u) rad p d ->
  infcyl_test_intersect k r = Ok h -> reported h x n ->
  exists t, 1e-12 < t /\ x = fv (at_t p d t) /\ on_cylinder c (dirn u) rad (at_t p d t) /\
    n = fv (/ rad * perp (dirn u) (c - at_t p d t))%r3 /\
    is_unit (/ rad * perp (dirn u) (c - at_t p d t))%r3 /\
    orth (/ rad * perp (dirn u) (c - at_t p d t))%r3 (dirn u).
Proof.
  intros Hu A B. destruct (mk_infcyl_inv _ _ _ _ _ _ Hu A B) as (D & pl & ->). intros.
  eapply infcyl_sound; eauto using dirn_unit.
Qed.
Lemma infcyl_complete_mk c u Ro Do rad k p d r :
  u <> r3zero -> radius_arg Ro Do rad -> mk_infcyl (fv c) (fv u) (fo Ro) (fo Do) = Ok k ->
  0 < rad -> is_unit d -> ray_is r p d -> ~ parallel (dirn u) d ->
  exists h, infcyl_test_intersect k r = Ok h /\
  (forall t, 1e-12 < t -> on_cylinder c (dirn u) rad (at_t p d t) ->
     reported h (fv (at_t p d t)) (fv (/ rad * perp (dirn u) (c - at_t p d t))%r3) /\
     (exists t1, h6_p1 h = Some (fv (at_t p d t1)) /\ 1e-12 < t1 <= t)) /\
  (~ ctangent c (dirn u) rad p d -> (forall t, 1e-12 < t -> ~ on_cylinder c (dirn u) rad (at_t p d t)) ->
     h = H6 false None None None None 0).
Proof.
  intros Hu A B. destruct (mk_infcyl_inv _ _ _ _ _ _ Hu A B) as (D & pl & ->). intros.
  apply infcyl_complete; auto using dirn_unit.
Qed.
Lemma infcyl_parallel c u rad D pl p d r : 0 < rad -> is_unit u -> is_unit d -> ray_is r p d ->
  parallel u d ->
  infcyl_test_intersect (cyl c u rad D pl) r
  = Ok (H6 true (Some (V XNaN XNaN XNaN)) None (Some (V XNaN XNaN XNaN)) None 2).
Proof.
  intros HR Hu Hd Hr HP. destruct (infcyl_cases c u rad D pl p d r HR Hu Hd Hr) as (h & -> & RC).
  destruct RC; try contradiction. now rewrite CP_res.
Qed.
Lemma infcyl_point_mk c u Ro Do rad k x :
  u <> r3zero -> radius_arg Ro Do rad -> mk_infcyl (fv c) (fv u) (fo Ro) (fo Do) = Ok k -> 0 < rad ->
  exists b, infcyl_test_point k (fv x) = Ok b /\ (b = true <-> in_cylinder c (dirn u) rad x).
Proof.
  intros Hu A B. destruct (mk_infcyl_inv _ _ _ _ _ _ Hu A B) as (D & pl & ->). intros.
  apply infcyl_test_point_fv; auto using dirn_unit.
Qed.
Lemma cyl_example : ~ parallel (mk3 0 0 1) (mk3 1 0 0) /\
  ~ ctangent r3zero (mk3 0 0 1) 1 (mk3 (-5) 0 0) (mk3 1 0 0) /\
  on_cylinder r3zero (mk3 0 0 1) 1 (at_t (mk3 (-5) 0 0) (mk3 1 0 0) 4).
Proof.
  assert (On : on_cylinder r3zero (mk3 0 0 1) 1 (at_t (mk3 (-5) 0 0) (mk3 1 0 0) 4)).
  { apply on_cyl_param; [lra|]. unfold cA, cB, cC; r3_unf; cbn. ring. }
  assert (On' : on_cylinder r3zero (mk3 0 0 1) 1 (at_t (mk3 (-5) 0 0) (mk3 1 0 0) 6)).
  { apply on_cyl_param; [lra|]. unfold cA, cB, cC; r3_unf; cbn. ring. }
  split; [|split; [|exact On]].
  - unfold parallel; r3_unf; cbn. intros H. injection H. lra.
  - intros (_ & t & _ & O). unfold on_cylinder in *. destruct (Req_dec t 4) as [->|N].
    + specialize (O 6 ltac:(lra)). lra.
    + specialize (O 4 ltac:(lra)). lra.
Qed.

Lemma radius_validation c n u Ro Do :
  (forall rad, radius_arg Ro Do rad ->
     let dia := match Do with Some y => y | None => 2 * rad end in
     mk_sphere (fv c) (fo Ro) (fo Do) = Ok (mkSphere (fv c) (Fin rad) (Fin dia)) /\
     (exists k, mk_infcyl (fv c) (fv u) (fo Ro) (fo Do) = Ok k /\ ic_R k = Fin rad /\ ic_D k = Fin dia) /\
     (exists k, mk_circle (fv c) n (fo Ro) (fo Do) = Ok k /\ ci_R k = Fin rad /\ ci_D k = Fin dia) /\
     Rabs (dia - 2 * rad) <= 1e-8 + 1e-8 * Rabs (2 * rad) /\
     (Ro = None \/ Do = None -> dia = 2 * rad)) /\
  ((forall rad, ~ radius_arg Ro Do rad) ->
     mk_sphere (fv c) (fo Ro) (fo Do) = Err ValueError /\
     mk_infcyl (fv c) (fv u) (fo Ro) (fo Do) = Err ValueError /\
     mk_circle (fv c) n (fo Ro) (fo Do) = Err ValueError).
Proof.
  split.
  - intros rad H dia. unfold mk_sphere, mk_infcyl, mk_circle. rewrite (radius_arg_check _ _ _ H). fold dia. cbn [bind].
    split; [reflexivity|]. split; [eexists; repeat split|]. split; [destruct n; eexists; repeat split|].
    assert (Z : forall x, Rabs (2 * x - 2 * x) <= 1e-8 + 1e-8 * Rabs (2 * x)).
    { intros x. replace (2 * x - 2 * x) with 0 by ring. rewrite Rabs_R0. pose proof (Rabs_pos (2 * x)). lra. }
    destruct Ro, Do; cbn in H; unfold dia.
    + destruct H as [-> H]. split; [exact H|]. intros [E|E]; discriminate.
    + split; [apply Z|reflexivity].
    + subst rad. replace (2 * (r / 2)) with r by field. split; [|reflexivity].
      replace (r - r) with 0 by ring. rewrite Rabs_R0. pose proof (Rabs_pos r). lra.
    + contradiction.
  - intros H. destruct (check_R_and_D_iff Ro Do) as [(rad & dia & A & _)|[_ E]]; [exfalso; eapply H, A|].
    unfold mk_sphere, mk_infcyl, mk_circle. rewrite E. auto.
Qed.
Lemma rectangle_validation c n t ho wo : n <> r3zero -> t <> r3zero ->
  let good := exists h w, ho = Some h /\ wo = Some w /\ 0 <= h /\ 0 <= w /\ Rabs (dirn n ∙ dirn t) <= 1e-8 in
  (good -> exists q, mk_rectangle (fv c) (Some (fv n)) (Some (fv t)) (fo ho) (fo wo) = Ok q) /\
  (~ good -> mk_rectangle (fv c) (Some (fv n)) (Some (fv t)) (fo ho) (fo wo) = Err ValueError).
Proof.
  intros Hn Ht good. split.
  - intros (h & w & -> & -> & A & B & C). cbn [fo option_map]. rewrite mk_rectangle_fv by assumption.
    destruct (Rleb_spec (Rabs (dirn n ∙ dirn t)) 1e-8); [|contradiction]. rewrite !Rltb_false_intro by lra.
    eexists; reflexivity.
  - intros NG. destruct ho as [h|], wo as [w|]; cbn [fo option_map].
    + rewrite mk_rectangle_fv by assumption.
      destruct (Rleb_spec (Rabs (dirn n ∙ dirn t)) 1e-8); [|reflexivity].
      destruct (Rltb_spec h 0); [reflexivity|]. destruct (Rltb_spec w 0); [reflexivity|].
      exfalso. apply NG. exists h, w. repeat split; auto; lra.
    + unfold mk_rectangle. cbn [unit_vector_o bind]. destruct (negb _); reflexivity.
    + unfold mk_rectangle. cbn [unit_vector_o bind]. destruct (negb _); reflexivity.
    + unfold mk_rectangle. cbn [unit_vector_o bind]. destruct (negb _); reflexivity.
Qed.
