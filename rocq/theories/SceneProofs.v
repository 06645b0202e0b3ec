(** Whole runs of scenes of flat optics. *)
From Coq Require Import Reals ZArith Lra Lia Psatz String List Bool.
From Verif Require Import PyErr Num Vec Shapes Csg Optics Spec XReal RVec VecProofs AngleProofs FlatProofs SphereProofs CylProofs ShapeExtra
  TreeProofs SolidProofs CsgProofs RayProofs RunGen NoFuel RunXr OpticHits StateXr OrderProofs FlatOptic Props_Ray Props_Loop Props_Run Props_Rehit.
Import ListNotations.
Local Open Scope R_scope.

Definition along (u N : R3) : Prop := u = N \/ u = (- N)%r3.
Lemma along_abs u N d : along u N -> Rabs (u ∙ d) = Rabs (d ∙ N).
Proof. intros [->| ->]; [|rewrite dot_opp_l, Rabs_Ropp]; rewrite dot_comm; reflexivity. Qed.
Lemma along_plane u N c x : along u N -> (on_plane c u x <-> (x - c)%r3 ∙ N = 0).
Proof. unfold on_plane. intros [->| ->]; [reflexivity|]. rewrite dot_opp_r. split; lra. Qed.
Lemma plane_at c N p d t : (at_t p d t - c)%r3 ∙ N = 0 <-> (c - p)%r3 ∙ N = t * (d ∙ N).
Proof. replace ((at_t p d t - c)%r3 ∙ N) with (t * (d ∙ N) - (c - p)%r3 ∙ N) by (unfold at_t; r3_ring). split; lra. Qed.
Lemma meets_along c u N p d t : along u N -> (meets_plane c u p d t <-> 1e-9 < Rabs (d ∙ N) /\ 1e-9 < t /\ (c - p)%r3 ∙ N = t * (d ∙ N)).
Proof. intros H. unfold meets_plane. rewrite (along_abs u N d H), (along_plane u N c _ H), plane_at. reflexivity. Qed.

Lemma flat_not_skipped o c u A : flat_optic o c u A -> skipped o = false.
Proof. intros []; reflexivity. Qed.
Lemma flat_test_ok o c u A r p d : flat_optic o c u A -> ray_is r p d -> is_unit d -> test_ok r o.
Proof. intros V Hr Hd. right. destruct (flat_report o c u A r p d V Hr Hd) as [t _ _ E|_ E]; rewrite E; eexists; (split; [reflexivity|]); cbn; discriminate. Qed.
Lemma flat_axis o c u A N r p d rm x pt n : flat_optic o c u A -> along u N -> ray_is r p d -> is_unit d -> reports r rm o x pt n ->
  (c - p)%r3 ∙ N = x * (d ∙ N) /\ 1e-9 < x /\ 1e-9 < Rabs (d ∙ N) /\ A (at_t p d x) /\ pt = fv (at_t p d x) /\ n = Some (fv u) /\ x <= rm.
Proof.
  intros V Al Hr Hd (_ & s & E & D & L). destruct (flat_report o c u A r p d V Hr Hd) as [t M At R|_ R]; rewrite R in E; [|discriminate]. injection E as <- <- _.
  apply (meets_along c u N p d t Al) in M. destruct M as (M1 & M2 & M3). rewrite (proj1 Hr), distance_fv, fly_to in D by (try assumption; lra). injection D as <-. repeat split; auto; lra.
Qed.
Lemma flat_axis_yes o c u A N r p d rm t : flat_optic o c u A -> along u N -> ray_is r p d -> is_unit d ->
  (c - p)%r3 ∙ N = t * (d ∙ N) -> 1e-9 < t -> 1e-9 < Rabs (d ∙ N) -> A (at_t p d t) -> t <= rm ->
  reports r rm o t (fv (at_t p d t)) (Some (fv u)).
Proof.
  intros V Al Hr Hd E L C At B. split; [eapply flat_not_skipped; exact V|].
  assert (M : meets_plane c u p d t) by (apply (meets_along c u N p d t Al); auto).
  destruct (flat_report o c u A r p d V Hr Hd) as [t' M' _ R|No _]; [|exfalso; exact (No t M At)].
  rewrite (meets_plane_unique _ _ _ _ _ _ M' M) in R. exists (flat_side o). split; [exact R|]. rewrite (proj1 Hr), distance_fv, fly_to by (try assumption; lra). split; [reflexivity|lra].
Qed.

(** the iteration in which optic k is the nearest, for optics that ignore the side flag *)
Lemma body_chosen m st rm k x pt n o r2 o' : rs_remaining st = Fin rm -> Forall (test_ok (rs_ray st)) (rs_world st) ->
  chosen (rs_ray st) rm (rs_world st) k x pt n -> nth_error (rs_world st) k = Some o -> ray_type (rs_ray st) <> "faerie_fire"%string ->
  (forall s, optic_do_intersect o (fly (rs_ray st) (Fin x)) pt n s = Ok (r2, o')) ->
  exists st', run_body (Fin m) st = Ok st' /\ rs_ray st' = r2 /\ rs_world st' = set_nth (rs_world st) k o' /\ rs_remaining st' = Fin (rm - x) /\ rs_count st' = (rs_count st + 1)%Z.
Proof.
  intros Hrm Ok Ch En F Ed. destruct (proj2 (scan_ok (rs_ray st) (Fin rm) (rs_world st) (mkScan false ninf (rs_sel st) (rs_sfo st)) 0) Ok) as (sc & Sc).
  destruct (scan_nearest _ _ _ _ _ _ Sc) as [(_ & _ & No)|(Hh & k1 & x1 & pt1 & n1 & Hs & Ch1)].
  - exfalso. destruct (proj1 Ch) as (o1 & En1 & R). exact (No _ _ _ _ _ En1 R).
  - destruct (chosen_unique _ _ _ _ _ _ _ _ _ _ _ Ch Ch1) as (<- & <- & <- & <-).
    destruct (sc_sfo sc) as [s|] eqn:Es; [|destruct (scan_hit_sfo _ _ _ _ _ _ Sc Hh) as [X|X]; [discriminate X|contradiction]].
    destruct (proj1 Ch) as (o1 & En1 & (_ & s1 & _ & D & _)).
    eexists. split; [exact (body_sel m st rm sc k pt n s o x Hrm Sc Hh Hs Es En D F r2 o' (Ed s))|]. cbn. auto.
Qed.
(** the iteration in which nothing is hit *)
Lemma body_free m st rm p d : rs_remaining st = Fin rm -> ray_is (rs_ray st) p d -> Forall (test_ok (rs_ray st)) (rs_world st) -> none_reports (rs_ray st) rm (rs_world st) ->
  exists st', run_body (Fin m) st = Ok st' /\ rs_ray st' = fly (rs_ray st) (Fin rm) /\ rs_world st' = rs_world st /\ rs_remaining st' = Fin (rm - m) /\ rs_count st' = rs_count st.
Proof.
  intros Hrm Hr Ok No. destruct (proj2 (scan_ok (rs_ray st) (Fin rm) (rs_world st) (mkScan false ninf (rs_sel st) (rs_sfo st)) 0) Ok) as (sc & Sc).
  destruct (scan_nearest _ _ _ _ _ _ Sc) as [(Hh & _ & _)|(Hh & k1 & x1 & pt1 & n1 & Hs & [(o & En & R) _])]; [|exfalso; exact (No _ _ _ _ _ En R)].
  unfold run_body. rewrite Hrm, Sc. cbn [bind]. rewrite Hh. cbn [negb]. rewrite nsub_fin. eexists. split; [reflexivity|]. cbn. auto.
Qed.

Lemma fly_ray r p d x : ray_is r p d -> ray_is (fly r (Fin x)) (at_t p d x) d.
Proof. intros [Hp Hd]. split; [unfold fly; cbn; rewrite Hp, Hd, vscale_fv, vadd_fv; reflexivity|exact Hd]. Qed.
Lemma fly_history r p d x : ray_is r p d -> point_history (fly r (Fin x)) = point_history r ++ [fv (at_t p d x)].
Proof. intros [Hp Hd]. unfold fly. rewrite Hp, Hd, vscale_fv, vadd_fv. reflexivity. Qed.
Lemma set_dir_ray r p d v : ray_is r p d -> ray_is (set_direction r (fv v)) p v.
Proof. intros [Hp _]. split; [exact Hp|reflexivity]. Qed.
Lemma forward_along n N d : along n N -> 0 < d ∙ N -> forward n d = N.
Proof.
  intros Al P. unfold forward. destruct Al as [->| ->].
  - rewrite Rltb_false; [reflexivity|]. rewrite dot_comm. lra.
  - rewrite Rltb_true; [r3_ring|]. rewrite dot_opp_l, (dot_comm N). lra.
Qed.
Lemma run_steps m maxi n (r : ray xr) w st fuel : steps (Fin m) maxi n (run_init r (Fin m) w) st -> run_cond maxi st = false -> (n <= fuel)%nat ->
  run fuel r (Fin m) w maxi = Ok (rs_ray st, rs_world st).
Proof. intros S C L. unfold run. rewrite (steps_loop _ _ _ _ _ _ S C L). reflexivity. Qed.
Lemma cond_go maxi (st : @run_st xr) rm : rs_remaining st = Fin rm -> 0 < rm -> maxi = None -> blocked (rs_ray st) = false -> run_cond maxi st = true.
Proof. intros Hrm P -> B. unfold run_cond. rewrite Hrm, nofZ_fin, ngt_fin, Rltb_true, B by exact P. reflexivity. Qed.
Lemma cond_blocked maxi (st : @run_st xr) : blocked (rs_ray st) = true -> run_cond maxi st = false.
Proof. intros B. unfold run_cond. rewrite B. apply andb_false_r. Qed.
Lemma cond_spent maxi (st : @run_st xr) rm : rs_remaining st = Fin rm -> rm <= 0 -> run_cond maxi st = false.
Proof. intros Hrm P. unfold run_cond. rewrite Hrm, nofZ_fin, ngt_fin, Rltb_false by lra. reflexivity. Qed.
