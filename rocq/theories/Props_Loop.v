(** Properties C33, C35, C38-C42, C44, C45: the loop of Ray.run (optics3d.py:822-873).
    Theorems quantified over [Num T] hold for every number type, floating point included. *)
From Coq Require Import Reals ZArith Lra Lia Psatz String List Bool.
From Verif Require Import PyErr Num Vec Shapes Csg Optics Spec XReal RVec VecProofs AngleProofs FlatProofs SphereProofs RayProofs Props_Ray
  RunGen NoFuel RunXr OpticHits StateXr OrderProofs.
Import ListNotations.
Local Open Scope R_scope.

(* ---- a worked scene: a ray along z, a mirror at z = 5 facing it, a detector behind, an annotation ---- *)
Lemma neg_z_nz : mk3 0 0 (-1) <> r3zero. Proof. intros H. injection H. lra. Qed.
Lemma e_z_nz : e_z <> r3zero. Proof. apply unit_nonzero, e_z_unit. Qed.
Definition at_z (z : R) : R3 := mk3 0 0 z.
Definition mirror_at (z : R) : mirror xr :=
  mkMirror (fv (at_z z)) "circular_flat" (Some (fv e_z)) "normal" (fv e_z)
    [SCircle (mkCircle (fv (at_z z)) (Fin 1) (Fin 2) (Some (fv e_z)) (Some (mkPlane (fv (at_z z)) (fv e_z))))].
Lemma mirror_at_built z : mk_mirror (fv (at_z z)) "circular_flat" (Some (fv e_z)) (Some (Fin 2)) None None None None "normal" (Some (fv e_z)) = Ok (mirror_at z).
Proof.
  unfold mk_mirror, mirror_at. cbn [unit_vector_o]. rewrite unit_vector_unit by apply e_z_unit.
  change (String.eqb "circular_flat" "circular_flat") with true. cbn [bind]. unfold mk_circle. rewrite check_D_only. cbn [bind].
  unfold mk_plane. rewrite unit_vector_unit by apply e_z_unit. replace (2 / 2) with 1 by lra. reflexivity.
Qed.
Lemma mirror_at_valid z : valid_optic (OMirror (mirror_at z)) (fun q => on_plane (at_z z) (dirn e_z) q /\ dist3 q (at_z z) < 2 / 2) never.
Proof. eapply VO_mirror_circ; [apply e_z_nz|apply e_z_nz|apply mirror_at_built]. Qed.
Lemma mirror_at_hit z r p d t : ray_is r p d -> is_unit d -> meets_plane (at_z z) e_z p d t -> dist3 (at_t p d t) (at_z z) < 1 ->
  mirror_test_intersect (mirror_at z) r = Ok (H4 true (Some (fv (at_t p d t))) (Some (fv e_z)) SfoNone).
Proof.
  intros Hr Hd M L. assert (Ec : mk_circle (fv (at_z z)) (Some (fv e_z)) (fo None) (fo (Some 2)) = Ok (mkCircle (fv (at_z z)) (Fin 1) (Fin 2) (Some (fv e_z)) (Some (mkPlane (fv (at_z z)) (fv e_z))))).
  { change (fo None) with (@None xr). change (fo (Some 2)) with (Some (Fin 2)). unfold mk_circle. rewrite check_D_only. cbn [bind]. unfold mk_plane. rewrite unit_vector_unit by apply e_z_unit. replace (2 / 2) with 1 by lra. reflexivity. }
  assert (Ra : radius_arg None (Some 2) 1) by (cbn; lra).
  destruct (circle_spec (at_z z) e_z None (Some 2) _ 1 p d r e_z_nz Hd Hr Ra Ec) as [(t' & M' & L' & E)|(No & E)].
  - rewrite dirn_of_unit in * by apply e_z_unit.
    assert (t' = t) as ->.
    { destruct M as (M1 & _ & M2), M' as (_ & _ & M2'). unfold on_plane, at_t in *. autorewrite with dotr in M2, M2'.
      rewrite (dot_comm d e_z) in *. assert ((t' - t) * (e_z ∙ d) = 0) as X by lra. apply Rmult_integral in X. destruct X as [X|X]; [lra|]. rewrite X, Rabs_R0 in M1. lra. }
    unfold mirror_test_intersect, mirror_at. cbn [mi_shape mi_surfaces]. change (String.eqb "circular_flat" "circular_flat") with true. cbn [orb flat_loop].
    unfold flat_step. cbn [shape_test_intersect]. rewrite E. cbn [bind unpack3 h3_flag h3_pt h3_normal need flat_init fs_min]. cbv zeta.
    destruct Hr as [Hp _]. rewrite Hp, distance_fv. change (nlt (Fin (dist3 p (at_t p d t))) ninf) with true. cbn iota. cbn [surface_normal ci_normal bind]. reflexivity.
  - exfalso. specialize (No t). rewrite ?dirn_of_unit in No by apply e_z_unit. specialize (No M). lra.
Qed.

Definition z_ray : ray xr := a_ray (at_z 0) e_z 0 500.
Lemma z_ray_is : ray_is z_ray (at_z 0) e_z. Proof. split; reflexivity. Qed.
Lemma z_meets : meets_plane (at_z 5) e_z (at_z 0) e_z 5.
Proof. unfold meets_plane, on_plane, at_t, at_z, e_z, r3dot; cbn. rewrite Rabs_right; lra. Qed.
Lemma z_at : at_t (at_z 0) e_z 5 = at_z 5. Proof. apply r3_ext; cbn; ring. Qed.
Lemma dist_self a : dist3 a a = 0.
Proof. unfold dist3. replace (a - a)%r3 with r3zero by (unfold r3zero; r3_ring). apply len_zero_r3. Qed.
Definition bounced : ray xr := mkRay (fv (at_z 5)) (fv (- e_z)%r3) (Fin 500) (Fin 0) [fv (at_z 0); fv (at_z 5)] false "light".
(** one iteration in the scene made of the mirror *)
Lemma z_body m rm : 5 <= rm -> run_body (Fin m) (mkRun z_ray [OMirror (mirror_at 5)] 0 (Fin rm) None None) =
  Ok (mkRun bounced [OMirror (mirror_at 5)] 1 (Fin (rm - 5)) (Some (mkSel 0 (fv (at_z 5)) (Some (fv e_z)))) (Some SfoNone)).
Proof.
  intros L. unfold run_body. cbn [rs_ray rs_remaining rs_world scan]. unfold scan_step. cbn [skipped optic_test_intersect].
  rewrite (mirror_at_hit 5 z_ray (at_z 0) e_z 5 z_ray_is e_z_unit z_meets) by (rewrite z_at, dist_self; lra).
  cbn [bind h4_flag h4_pt h4_normal h4_sfo need]. rewrite z_at.
  assert (D : distance_between (position z_ray) (fv (at_z 5)) = Fin 5).
  { change (position z_ray) with (fv (at_z 0)). rewrite distance_fv, <- z_at, fly_to; [reflexivity|apply e_z_unit|lra]. }
  rewrite D, clip_fin, !ngt_fin, !Rltb_false, (Rltb_true _ 5) by lra. cbn [rs_sel rs_sfo sc_min]. change (nlt (Fin 5) ninf) with true. cbn iota.
  cbn [bind negb sc_hit sc_sel sc_sfo bound se_pt se_idx se_normal]. rewrite D. change (String.eqb (ray_type z_ray) "faerie_fire") with false. cbn iota. cbn [nth_error optic_do_intersect].
  unfold mirror_do_intersect. change (String.eqb (mi_type (mirror_at 5)) "normal") with true. cbn [need bind].
  rewrite (reflect_fv (fly z_ray (Fin 5)) e_z e_z eq_refl e_z_nz e_z_nz), dirn_of_unit by apply e_z_unit. rewrite refl_self by (auto; apply e_z_unit).
  unfold fly, set_direction. cbn [position direction wavelength order point_history blocked ray_type z_ray a_ray]. rewrite vscale_fv, vadd_fv. fold (at_t (at_z 0) e_z 5). rewrite z_at.
  rewrite nsub_fin. reflexivity.
Qed.

Lemma active r m w : 0 < m -> blocked r = false -> run_cond None (run_init r (Fin m) w) = true.
Proof. intros Hm B. unfold run_cond. cbn [run_init rs_remaining rs_count rs_ray]. rewrite nofZ_fin, ngt_fin, Rltb_true, B by exact Hm. reflexivity. Qed.

(** C33: at most max_distance/1e-12 + 1 iterations for a finite max_distance, at most N with max_interactions = N, whatever the
    optics do; so for enough fuel the result no longer depends on the fuel. *)
Theorem C33_terminates : forall r w,
  (forall m maxi, 0 <= m ->
    (forall n st, steps (Fin m) maxi n (run_init r (Fin m) w) st -> INR n <= m / 1e-12 + 1) /\
    exists res, res <> Err OutOfFuel /\ forall fuel, m / 1e-12 + 1 < INR fuel -> run fuel r (Fin m) w maxi = res) /\
  (forall md N, (0 <= N)%Z ->
    (forall n st, steps md (Some N) n (run_init r md w) st -> (Z.of_nat n <= N)%Z) /\
    exists res, res <> Err OutOfFuel /\ forall fuel, (N < Z.of_nat fuel)%Z -> run fuel r md w (Some N) = res).
Proof.
  intros r w. split.
  - intros m maxi Hm. split; [intros n st S; exact (iterations_bound _ _ _ _ _ _ Hm S)|].
    assert (B : 0 <= m / 1e-12 + 1). { assert (0 <= m / 1e-12) by (apply Rmult_le_pos; [exact Hm|apply Rlt_le, Rinv_0_lt_compat; lra]). lra. }
    assert (Hk : exists k, m / 1e-12 + 1 < INR k).
    { destruct (archimed (m / 1e-12 + 1)) as [A _]. exists (Z.to_nat (up (m / 1e-12 + 1))). rewrite INR_IZR_INZ, Z2Nat.id; [lra|]. apply le_IZR. lra. }
    destruct Hk as (k & Hk).
    exists (run k r (Fin m) w maxi). split; [apply run_terminates; lra|]. intros fuel Hf.
    assert (K : run k r (Fin m) w maxi <> Err OutOfFuel) by (apply run_terminates; lra).
    assert (F : run fuel r (Fin m) w maxi <> Err OutOfFuel) by (apply run_terminates; lra).
    apply run_fuel; assumption.
  - intros md N HN. split.
    + intros n st S. destruct (steps_count _ _ _ _ _ _ S) as [[_ Q] _]. lia.
    + exists (run (Z.to_nat (N + 1)) r md w (Some N)). assert (K : run (Z.to_nat (N + 1)) r md w (Some N) <> Err OutOfFuel) by (apply run_terminates_count; lia).
      split; [exact K|]. intros fuel Hf. apply run_fuel; [apply run_terminates_count; lia|exact K].
Qed.
Print Assumptions C33_terminates.
Example C33_hyp : steps (Fin 100) None 1 (run_init z_ray (Fin 100) [OMirror (mirror_at 5)])
  (mkRun bounced [OMirror (mirror_at 5)] 1 (Fin (100 - 5)) (Some (mkSel 0 (fv (at_z 5)) (Some (fv e_z)))) (Some SfoNone)).
Proof. eapply steps_S; [apply steps_O| |apply z_body; lra]. apply active; [lra|reflexivity]. Qed.

(** C35: at every state reached by run, the next iteration goes to the nearest reported point, the first optic in the list on ties,
    and flies the remaining distance when no optic reports a point in (1e-12, remaining].  ([chosen], [none_reports], [advance] are
    defined in RunXr.v on top of [reports].) *)
Theorem C35_nearest : forall m maxi r w n st, steps (Fin m) maxi n (run_init r (Fin m) w) st ->
  exists rm, rs_remaining st = Fin rm /\ rm <= m /\
  forall st', run_body (Fin m) st = Ok st' -> advance m st st' rm.
Proof.
  intros m maxi r w n st S. destruct (steps_budget _ _ _ _ _ _ S) as (rm & Hr & L & _). exists rm. split; [exact Hr|]. split; [exact L|].
  intros st' B. exact (body_advance _ _ _ _ Hr B).
Qed.
Print Assumptions C35_nearest.
Example C35_hyp : exists st', run_body (Fin 100) (run_init z_ray (Fin 100) [OMirror (mirror_at 5)]) = Ok st'.
Proof. eexists. apply z_body. lra. Qed.

(** C38, any number type: at most one record, on a detector, appended last, and then the ray is blocked *)
Theorem C38_detector : forall T (N : Num T) (TT : Trig T) fuel r md w maxi (r' : ray T) w', run fuel r md w maxi = Ok (r', w') ->
  w' = w \/
  (blocked r' = true /\ exists k d pt, nth_error w k = Some (ODetector d) /\
     nth_error w' k = Some (ODetector (mkDetector (de_position d) (de_normal d) (de_tangent d) (de_shape d) (de_surfaces d)
        (de_hit_data d ++ [(pt, wavelength r)]))) /\
     length w' = length w /\ forall j, j <> k -> nth_error w' j = nth_error w j).
Proof.
  intros T N TT fuel r md w maxi r' w' H. unfold run in H. apply bind_ok in H. destruct H as (st & L & H). injection H as <- <-.
  apply loop_steps in L. destruct L as (n & _ & S & _). destruct (steps_world _ _ _ _ _ S) as [E|(B & pt & k & d & En & E)]; [left; exact E|right].
  split; [exact B|]. exists k, d, pt. split; [exact En|]. rewrite E. cbn [run_init rs_world rs_ray]. split; [eapply nth_set_same, En|].
  split; [apply set_nth_length|]. intros j Hj. apply nth_set_other, Hj.
Qed.
Print Assumptions C38_detector.
(** C38, exact arithmetic: the recorded point is the point the detector reported, at the distance the ray then flew *)
Theorem C38_point : forall m maxi fuel r w r' w', run fuel r (Fin m) w maxi = Ok (r', w') -> w' <> w ->
  exists n st rm k d x pt nn, steps (Fin m) maxi n (run_init r (Fin m) w) st /\ rs_remaining st = Fin rm /\
    chosen (rs_ray st) rm w k x pt nn /\ nth_error w k = Some (ODetector d) /\
    w' = set_nth w k (ODetector (record_hit d pt (wavelength r))) /\ r' = set_blocked (fly (rs_ray st) (Fin x)).
Proof.
  intros m maxi fuel r w r' w' H NE. unfold run in H. apply bind_ok in H. destruct H as (st & L & H). injection H as <- <-.
  apply loop_steps in L. destruct L as (n & _ & S & _). destruct (steps_record _ _ _ _ _ _ S) as [E|E]; [contradiction|exact E].
Qed.
Print Assumptions C38_point.

(** C39: any number type.  [add_logs w ls] appends to each detector's hit_data the records ls, and changes nothing else. *)
Theorem C39_independent : forall T (N : Num T) (TT : Trig T) fuel rs md maxi (w : list (optic T)),
  (forall rs' w', run_all fuel rs md w maxi = Ok (rs', w') -> exists lss,
     w' = fold_left add_logs lss w /\ length lss = length rs /\
     Forall2 (fun r p => run fuel r md w maxi = Ok (fst p, add_logs w (snd p)) /\ length (snd p) = length w) rs (combine rs' lss) /\
     length rs' = length rs) /\
  ((forall r, In r rs -> exists x, run fuel r md w maxi = Ok x) -> exists x, run_all fuel rs md w maxi = Ok x).
Proof. intros T N TT fuel rs md maxi w. apply run_all_log. Qed.
Print Assumptions C39_independent.
Lemma z_run k m : 5 <= m -> run (Datatypes.S k) z_ray (Fin m) [OMirror (mirror_at 5)] (Some 1%Z) = Ok (bounced, [OMirror (mirror_at 5)]).
Proof.
  intros L. unfold run. cbn [run_loop]. unfold run_cond at 1. cbn [run_init rs_remaining rs_count rs_ray]. rewrite nofZ_fin, ngt_fin, Rltb_true by lra. cbn [andb negb z_ray a_ray blocked Z.ltb Z.compare].
  change (run_init z_ray (Fin m) [OMirror (mirror_at 5)]) with (mkRun z_ray [OMirror (mirror_at 5)] 0 (Fin m) None None). rewrite (z_body m m L). cbn [bind].
  destruct k; cbn [run_loop]; unfold run_cond; cbn [rs_count]; change (1 <? 1)%Z with false; rewrite andb_false_r; reflexivity.
Qed.
Example C39_hyp : exists x, run_all 3 [z_ray; z_ray] (Fin 10) [OMirror (mirror_at 5)] (Some 1%Z) = Ok x.
Proof. eexists. cbn [run_all]. rewrite z_run by lra. cbn [bind]. rewrite z_run by lra. reflexivity. Qed.

(** C40, any number type: direction and optics are left alone *)
Theorem C40_faerie : forall T (N : Num T) (TT : Trig T) fuel r md w maxi (r' : ray T) w', ray_type r = "faerie_fire"%string ->
  run fuel r md w maxi = Ok (r', w') -> direction r' = direction r /\ w' = w.
Proof.
  intros T N TT fuel r md w maxi r' w' F H. unfold run in H. apply bind_ok in H. destruct H as (st & L & H). injection H as <- <-.
  apply loop_steps in L. destruct L as (n & _ & S & _). exact (steps_faerie _ _ _ _ _ S F).
Qed.
Print Assumptions C40_faerie.
(** C40, exact arithmetic: exactly one point, the nearest reported one (blocked) or the end of the free flight (not blocked) *)
Theorem C40_one_point : forall m maxi fuel r w r' w', 0 < m -> ray_type r = "faerie_fire"%string -> blocked r = false ->
  (forall N, maxi = Some N -> (0 < N)%Z) -> run fuel r (Fin m) w maxi = Ok (r', w') ->
  (none_reports r m w /\ r' = fly r (Fin m)) \/ (exists k x pt n, chosen r m w k x pt n /\ r' = set_blocked (fly r (Fin x))).
Proof.
  intros m maxi fuel r w r' w' Hm F Bl HN H. unfold run in H. apply bind_ok in H. destruct H as (st & L & H). injection H as <- <-.
  assert (C0 : run_cond maxi (run_init r (Fin m) w) = true).
  { unfold run_cond. cbn [run_init rs_remaining rs_count rs_ray]. rewrite nofZ_fin, ngt_fin, Rltb_true, Bl by exact Hm. destruct maxi as [N|]; [|reflexivity]. specialize (HN N eq_refl). rewrite (proj2 (Z.ltb_lt 0 N) HN). reflexivity. }
  destruct fuel as [|k]; cbn [run_loop] in L; rewrite C0 in L; [discriminate|]. apply bind_ok in L. destruct L as (st1 & B & L).
  assert (Stop : run_cond maxi st1 = false -> st1 = st).
  { intros C1. destruct k; cbn [run_loop] in L; rewrite C1 in L; injection L as <-; reflexivity. }
  destruct (body_advance m (run_init r (Fin m) w) st1 m eq_refl B) as [No R1 R2 R3 R4|j x pt n Ch R3 R4 Out].
  - rewrite <- Stop; [left; split; [exact No|exact R1]|]. unfold run_cond. rewrite R4, nofZ_fin, ngt_fin, Rltb_false by lra. reflexivity.
  - destruct Out as [(_ & Er & _)|(NF & _)]; [|destruct (NF F)]. rewrite <- Stop; [right; exists j, x, pt, n; split; [exact Ch|exact Er]|].
    unfold run_cond. rewrite Er. cbn. rewrite !andb_false_r. reflexivity.
Qed.
Print Assumptions C40_one_point.
Example C40_hyp : exists r', run 2 (mkRay (fv (at_z 0)) (fv e_z) (Fin 500) (Fin 0) [fv (at_z 0)] false "faerie_fire") (Fin 10) [] None = Ok (r', []).
Proof.
  eexists. unfold run. cbn [run_loop]. rewrite active by (try reflexivity; lra).
  unfold run_body at 1. cbn [scan bind run_init rs_ray rs_remaining rs_world rs_count rs_sel rs_sfo negb sc_hit sc_sel sc_sfo]. rewrite nsub_fin.
  unfold run_cond. cbn [rs_remaining]. rewrite nofZ_fin, ngt_fin, Rltb_false by lra. reflexivity.
Qed.

(** C41, any number type *)
Theorem C41_inert : forall T (N : Num T) (TT : Trig T) fuel r md w maxi, 
  (blocked r = true \/ ngt md (nofZ 0) = false \/ exists k, maxi = Some k /\ (k <= 0)%Z) ->
  run fuel r md w maxi = Ok (r, w).
Proof.
  intros T N TT fuel r md w maxi H. apply run_inert. unfold run_cond. cbn [run_init rs_ray rs_remaining rs_count].
  destruct H as [->|[->|(k & -> & Hk)]]; [apply andb_false_r|reflexivity|]. rewrite (proj2 (Z.ltb_ge 0 k) Hk), andb_false_r. reflexivity.
Qed.
Print Assumptions C41_inert.
Example C41_hyp : ngt (Fin (-3)) (nofZ 0) = false.
Proof. rewrite nofZ_fin, ngt_fin, Rltb_false by lra. reflexivity. Qed.

(** C42, any number type: what one iteration and a whole run do to the history *)
Theorem C42_history : forall T (N : Num T) (TT : Trig T) md maxi,
  (forall st st' : @run_st T, run_body md st = Ok st' -> exists dist,
     position (rs_ray st') = vadd (position (rs_ray st)) (vscale dist (direction (rs_ray st))) /\
     point_history (rs_ray st') = point_history (rs_ray st) ++ [position (rs_ray st')]) /\
  (forall fuel r w r' w', run fuel r md w maxi = Ok (r', w') -> exists added,
     point_history r' = point_history r ++ added /\ (added = [] -> r' = r) /\ (chained r -> chained r') /\
     wavelength r' = wavelength r /\ order r' = order r /\ ray_type r' = ray_type r) /\
  (forall pos dir wl ord ty, chained (mk_ray pos dir wl ord ty) /\ hd_error (point_history (mk_ray pos dir wl ord ty)) = Some pos).
Proof.
  intros T N TT md maxi. split; [|split].
  - intros st st' B. destruct (body_history _ _ _ B) as (dist & A & C & _). eauto.
  - intros fuel r w r' w' H. unfold run in H. apply bind_ok in H. destruct H as (st & L & H). injection H as <- <-.
    apply loop_steps in L. destruct L as (n & _ & S & _). destruct (steps_history _ _ _ _ _ S) as (added & Ln & Hh & Hc & Hz & W & O & Y).
    cbn [run_init rs_ray] in *. exists added. split; [exact Hh|]. split.
    + intros ->. cbn in Ln. rewrite (Hz (eq_sym Ln)). reflexivity.
    + repeat split; auto. intros (l & El). destruct (Nat.eq_dec n 0) as [Z|Z].
      * rewrite (Hz Z). exists l. exact El.
      * destruct (Hc Z) as (l2 & E2). exists (point_history r ++ l2). rewrite Hh, E2, app_assoc. reflexivity.
  - intros. split; [exists []; reflexivity|reflexivity].
Qed.
Print Assumptions C42_history.
(** C42, any number type: what is plotted (get_plot_repr) of a new ray is its starting point; a run, and fly, only add to it; fly without a distance fails *)
Theorem C42_plot : forall T (N : Num T) (TT : Trig T),
  (forall pos dir wl ord ty, get_plot_repr (mk_ray pos dir wl ord ty) = [pos]) /\
  (forall md maxi fuel r w r' w', run fuel r md w maxi = Ok (r', w') -> exists added, get_plot_repr r' = get_plot_repr r ++ added) /\
  (forall r dist, exists r', fly_o r (Some dist) = Ok r' /\ get_plot_repr r' = get_plot_repr r ++ [position r'] /\
     position r' = vadd (position r) (vscale dist (direction r)) /\ direction r' = direction r /\ blocked r' = blocked r) /\
  (forall r, fly_o r None = Err ValueError).
Proof.
  intros T N TT. split; [reflexivity|]. split; [|split].
  - intros md maxi fuel r w r' w' H. destruct (C42_history T N TT md maxi) as (_ & A & _). destruct (A _ _ _ _ _ H) as (added & E & _). exists added. exact E.
  - intros r dist. exists (fly r dist). repeat split.
  - reflexivity.
Qed.
Print Assumptions C42_plot.
(** C42: with max_interactions = N at most N points are added (every max_distance, finite or not) *)
Theorem C42_bound : forall fuel r md w N r' w', (0 <= N)%Z -> run fuel r md w (Some N) = Ok (r', w') -> exists added,
  point_history r' = point_history r ++ added /\ (Z.of_nat (length added) <= N)%Z.
Proof.
  intros fuel r md w N r' w' HN H. unfold run in H. apply bind_ok in H. destruct H as (st & L & H). injection H as <- <-.
  apply loop_steps in L. destruct L as (n & _ & S & _). destruct (steps_history _ _ _ _ _ S) as (added & Ln & Hh & _).
  exists added. split; [exact Hh|]. destruct (steps_count _ _ _ _ _ _ S) as [[_ Q] _]. lia.
Qed.
Print Assumptions C42_bound.
Example C42_hyp : run 3 z_ray (Fin 10) [OMirror (mirror_at 5)] (Some 1%Z) = Ok (bounced, [OMirror (mirror_at 5)]).
Proof. apply z_run. lra. Qed.

(** C44, any number type.  [optical_part] removes the annotations, filters and windows. *)
Definition transparent {T} (o : optic T) : bool := match o with OAnnotation _ | OFilter _ | OWindow _ => true | _ => false end.
Definition optical_part {T} (w : list (optic T)) : list (optic T) := filter (fun o => negb (transparent o)) w.
Lemma optical_strip T (w : list (optic T)) : optical_part w = strip w.
Proof. apply filter_ext. intros []; reflexivity. Qed.
Theorem C44_transparent : forall T (N : Num T) (TT : Trig T) fuel (r : ray T) md w1 w2 maxi, optical_part w1 = optical_part w2 ->
  run fuel r md (optical_part w1) maxi = (do (r', w') <- run fuel r md w1 maxi; Ok (r', optical_part w')) /\
  (do (r', w') <- run fuel r md w1 maxi; Ok (r', optical_part w')) = (do (r', w') <- run fuel r md w2 maxi; Ok (r', optical_part w')).
Proof.
  intros T N TT fuel r md w1 w2 maxi E. rewrite !optical_strip in E.
  assert (X : forall w, (do (r', w') <- run fuel r md w maxi; Ok (r', optical_part w')) = (do (r', w') <- run fuel r md w maxi; Ok (r', strip w'))).
  { intros w. destruct (run fuel r md w maxi) as [[r' w']|]; cbn [bind]; [rewrite optical_strip|]; reflexivity. }
  rewrite !X, optical_strip. split; [apply run_strip|]. rewrite <- !run_strip, E. reflexivity.
Qed.
Print Assumptions C44_transparent.
Example C44_hyp : forall b : base xr, optical_part [OAnnotation b; OMirror (mirror_at 5)] = optical_part [OMirror (mirror_at 5); OFilter b; OWindow b].
Proof. reflexivity. Qed.

(** C45 is false: with a Block anywhere in the list, every run that would do anything raises. *)
Theorem C45_block_refuted : forall T (N : Num T) (TT : Trig T) fuel (r : ray T) md w maxi b, In (OBlock b) w ->
  run_cond maxi (run_init r md w) = true -> exists e, run fuel r md w maxi = Err e.
Proof. intros T N TT fuel r md w maxi b I C. apply (run_err fuel r md w maxi (OBlock b)); auto. cbn. eauto. Qed.
Print Assumptions C45_block_refuted.
Theorem C45_error_refuted : forall T (N : Num T) (TT : Trig T) fuel (r : ray T) md maxi b,
  run_cond maxi (run_init r md [OBlock b]) = true -> run (S fuel) r md [OBlock b] maxi = Err AttributeError.
Proof. intros T N TT fuel r md maxi b C. unfold run. cbn [run_loop]. rewrite C. reflexivity. Qed.
Print Assumptions C45_error_refuted.
Example C45_hyp : forall b, run_cond None (run_init z_ray (Fin 10) [OBlock b]) = true.
Proof. intros b. apply active; [lra|reflexivity]. Qed.
