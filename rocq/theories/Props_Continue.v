(** Property C83: stopping a run and continuing it. *)
From Coq Require Import Reals ZArith Lra Lia Psatz String List Bool.
From Verif Require Import PyErr Num Vec Shapes Csg Optics Spec XReal RVec VecProofs AngleProofs FlatProofs SphereProofs CylProofs ShapeExtra
  TreeProofs SolidProofs CsgProofs RayProofs RunGen NoFuel RunXr OpticHits StateXr OrderProofs FlatOptic Props_Ray Props_Loop Props_Run Props_Rehit SceneProofs Props_Scene Props_Train Props_Images Continue.
Import ListNotations.
Local Open Scope R_scope.

(** ** Specification *)
(** the same ray but for its recorded history *)
Definition same_but_history (r r' : ray xr) : Prop :=
  position r' = position r /\ direction r' = direction r /\ wavelength r' = wavelength r /\ order r' = order r /\ blocked r' = blocked r /\ ray_type r' = ray_type r.
(** every optic of w is skipped by run, or is built by a constructor call as a flat one *)
Definition flat_scene (w : list (optic xr)) : Prop := Forall (fun o => skipped o = true \/ exists c u A, flat_optic o c u A) w.
(** no flat optic of w lies less than 1e-9 ahead of the point P in the direction d (optics parallel to d up to 1e-9 do not count: run never meets them) *)
Definition clear_ahead (w : list (optic xr)) (P d : R3) : Prop :=
  forall o c u A t, In o w -> flat_optic o c u A -> 1e-9 < Rabs (d ∙ u) -> 0 < t <= 1e-9 -> on_plane c u (at_t P d t) -> ~ A (at_t P d t).

(** ** Proofs *)
Lemma skipn_hist {A} (h l : list A) : skipn (length h) (h ++ l) = l.
Proof. rewrite skipn_app, skipn_all, Nat.sub_diag. reflexivity. Qed.

(** Any scene: what a shorter run has recorded, up to its stopping point, is the beginning of what a longer run records. *)
Theorem C83_prefix : forall f f' (r : ray xr) w a b r1 w1 r3 w3, 0 <= a -> 0 <= b ->
  run f r (Fin a) w None = Ok (r1, w1) -> run f' r (Fin (a + b)) w None = Ok (r3, w3) ->
  exists l, point_history r3 = point_history r1 ++ l \/ point_history r3 = removelast (point_history r1) ++ l.
Proof.
  intros f f' r w a b r1 w1 r3 w3 La Lb E1 E3.
  pose proof (run_flows f r a w ltac:(rewrite E1; discriminate)) as F1. rewrite E1 in F1.
  pose proof (run_flows f' r (a + b) w ltac:(rewrite E3; discriminate)) as F3. rewrite E3 in F3.
  destruct (flows_split _ _ _ _ F1 _ _ eq_refl La b Lb) as [I|(r0 & a0 & -> & _ & _ & _ & _ & I)].
  - destruct (flows_total r1 w1 b) as (res & F2). pose proof (flows_det _ _ _ _ (I _ F2) _ F3) as ->. destruct (proj2 (flows_hist _ _ _ _ F2 []) _ _ eq_refl) as (l & El). exists l. auto.
  - destruct (flows_total r0 w1 (a0 + b)) as (res & F2). pose proof (flows_det _ _ _ _ (I _ F2) _ F3) as ->. destruct (proj2 (flows_hist _ _ _ _ F2 []) _ _ eq_refl) as (l & El). exists l. right.
    unfold fly. cbn [point_history]. rewrite removelast_last. exact El.
Qed.
Print Assumptions C83_prefix.

(** Flat scenes: stopping after the distance a and running on for the distance b is running for a + b, but for the stopping point in the history,
    unless an optic lies within 1e-9 ahead of the stopping point. *)
Theorem C83_continue : forall f1 f2 f3 (r : ray xr) w a b r1 w1 P d, 0 <= a -> 0 <= b -> flat_scene w ->
  run f1 r (Fin a) w None = Ok (r1, w1) -> ray_is r1 P d -> is_unit d -> clear_ahead w1 P d ->
  run f2 r1 (Fin b) w1 None <> Err OutOfFuel -> run f3 r (Fin (a + b)) w None <> Err OutOfFuel ->
  (exists e, run f2 r1 (Fin b) w1 None = Err e /\ run f3 r (Fin (a + b)) w None = Err e) \/
  exists r2 r3 w2 l, run f2 r1 (Fin b) w1 None = Ok (r2, w2) /\ run f3 r (Fin (a + b)) w None = Ok (r3, w2) /\ same_but_history r2 r3 /\
    point_history r2 = point_history r1 ++ l /\ (point_history r3 = point_history r1 ++ l \/ point_history r3 = removelast (point_history r1) ++ l).
Proof.
  intros f1 f2 f3 r w a b r1 w1 P d La Lb Fw E1 Hr1 Hd G N2 N3.
  pose proof (run_flows f1 r a w ltac:(rewrite E1; discriminate)) as F1. rewrite E1 in F1. apply run_flows in N2, N3.
  destruct (flows_split _ _ _ _ F1 _ _ eq_refl La b Lb) as [I|(r0 & a0 & -> & L0 & B0 & _ & No & I)].
  - rewrite (flows_det _ _ _ _ N3 _ (I _ N2)). pose proof (proj2 (flows_hist _ _ _ _ N2 [])) as Hl. destruct (run f2 r1 (Fin b) w1 None) as [[r2 w2]|e]; [right|left; eauto].
    destruct (Hl _ _ eq_refl) as (l & El). exists r2, r2, w2, l. repeat split; auto.
  - destruct (flows_continue r0 w1 a0 b P d _ Hr1 Hd (flows_flat _ _ _ _ F1 Fw _ _ eq_refl) G (proj1 L0) Lb B0 No N2) as (h & Hh & F3).
    rewrite (flows_det _ _ _ _ N3 _ (I _ F3)). pose proof (proj2 (flows_hist _ _ _ _ N2 [])) as Hl. destruct (run f2 (fly r0 (Fin a0)) (Fin b) w1 None) as [[r2 w2]|e]; [right|left; exists e; auto].
    destruct (Hl _ _ eq_refl) as (l & El). exists r2. cbn [hmap]. unfold rebase. cbn [fst snd]. rewrite El, skipn_hist. exists (with_hist r2 (h ++ l)), w2, l.
    split; [reflexivity|]. split; [reflexivity|]. split; [repeat split|]. split; [reflexivity|]. cbn [with_hist point_history]. destruct Hh as [-> | ->]; [left; reflexivity|right].
    unfold fly. cbn [point_history]. rewrite removelast_last. reflexivity.
Qed.
Print Assumptions C83_continue.

(** One mirror at 1 + 5e-10, a ray along the axis: run 2 turns the ray around, run 1 twice lets it pass through the mirror. *)
Definition near1 : optic xr := OMirror (mirror_at (1 + 5e-10)).
Lemma near1_flat : flat_mirror near1 (at_z (1 + 5e-10)) e_z (fun q => dist3 q (at_z (1 + 5e-10)) < 2 / 2).
Proof. pose proof (mirror_at_flat (1 + 5e-10)) as V. rewrite (dirn_of_unit e_z e_z_unit) in V. exact V. Qed.
Lemma near1_opt : flat_optic near1 (at_z (1 + 5e-10)) e_z (fun q => dist3 q (at_z (1 + 5e-10)) < 2 / 2).
Proof. destruct near1_flat as (m & _ & _ & V). exact V. Qed.
Lemma at_z_t z t : at_t (at_z z) e_z t = at_z (z + t). Proof. unfold at_t, at_z, e_z. r3r. Qed.
Lemma at_z_back z t : at_t (at_z z) (- e_z)%r3 t = at_z (z - t). Proof. unfold at_t, at_z, e_z. r3r. Qed.
Lemma near1_dist z r rm x pt n : ray_is r (at_z z) e_z -> reports r rm near1 x pt n -> x = 1 + 5e-10 - z /\ 1e-9 < x /\ x <= rm /\ pt = fv (at_z (z + x)) /\ n = Some (fv e_z).
Proof.
  intros Hr R. destruct (flat_axis _ _ _ _ e_z _ _ _ _ _ _ _ near1_opt (or_introl eq_refl) Hr e_z_unit R) as (E & L & _ & _ & -> & -> & Lx). rewrite at_z_t.
  replace ((at_z (1 + 5e-10) - at_z z)%r3 ∙ e_z) with (1 + 5e-10 - z) in E by (unfold at_z, e_z; r3r). replace (e_z ∙ e_z) with 1 in E by (unfold e_z; r3r). repeat split; auto; lra.
Qed.
Lemma near1_tests z r : ray_is r (at_z z) e_z -> Forall (test_ok r) [near1].
Proof. intros Hr. apply Forall_cons; [|apply Forall_nil]. exact (flat_test_ok _ _ _ _ _ _ _ near1_opt Hr e_z_unit). Qed.
Lemma near1_free z r rm : ray_is r (at_z z) e_z -> (rm < 1 + 5e-10 - z \/ 1 + 5e-10 - z <= 1e-9) -> none_reports r rm [near1].
Proof. intros Hr L [|[|j]] o x pt n E R; try discriminate E. injection E as <-. destruct (near1_dist _ _ _ _ _ _ Hr R). lra. Qed.

Theorem C83_refuted : exists f r1 w1 r2 w2 r3 w3,
  run f z_ray (Fin 1) [near1] None = Ok (r1, w1) /\ run f r1 (Fin 1) w1 None = Ok (r2, w2) /\ run f z_ray (Fin (1 + 1)) [near1] None = Ok (r3, w3) /\
  point_history r2 = point_history z_ray ++ [fv (at_z 1); fv (at_z 2)] /\ direction r2 = fv e_z /\
  point_history r3 = point_history z_ray ++ [fv (at_z (1 + 5e-10)); fv (at_z 1e-9)] /\ direction r3 = fv (- e_z)%r3.
Proof.
  assert (exists f, 2 / 1e-12 + 1 < INR f) as (f & Lf) by apply nat_above.
  assert (Run : forall r m res, m <= 2 -> flows r [near1] m res -> run f r (Fin m) [near1] None = res).
  { intros r m res Lm F. eapply flows_det; [|exact F]. apply run_flows, run_terminates. left. eapply Rle_lt_trans; [|exact Lf]. unfold Rdiv. lra. }
  pose proof (fly_ray _ _ _ 1 z_ray_is) as H1. rewrite at_z_t in H1. replace (0 + 1) with 1 in H1 by lra.
  pose proof (fly_ray _ _ _ 1 H1) as H2. rewrite at_z_t in H2. replace (1 + 1) with 2 in H2 by lra.
  pose proof (fly_ray _ _ _ (1 + 5e-10) z_ray_is) as H3. rewrite at_z_t in H3. replace (0 + (1 + 5e-10)) with (1 + 5e-10) in H3 by lra.
  set (r3 := set_direction (fly z_ray (Fin (1 + 5e-10))) (fv (- e_z)%r3)). pose proof (set_dir_ray _ _ _ (- e_z)%r3 H3) as H3'. fold r3 in H3'.
  exists f, (fly z_ray (Fin 1)), [near1], (fly (fly z_ray (Fin 1)) (Fin 1)), [near1], (fly r3 (Fin (1 - 5e-10))), [near1].
  split. { apply Run; [lra|]. apply F_free; [lra|reflexivity|exact (near1_tests _ _ z_ray_is)|]. apply (near1_free _ _ _ z_ray_is). lra. }
  split. { apply Run; [lra|]. apply F_free; [lra|reflexivity|exact (near1_tests _ _ H1)|]. apply (near1_free _ _ _ H1). lra. }
  split.
  { apply Run; [lra|]. apply F_hit with (k := 0%nat) (x := 1 + 5e-10) (pt := fv (at_z (1 + 5e-10))) (n := Some (fv e_z)) (o := near1) (r2 := r3) (o' := near1);
      [lra|reflexivity|exact (near1_tests _ _ z_ray_is)| |reflexivity| |].
    - split.
      + exists near1. split; [reflexivity|]. pose proof (flat_axis_yes _ _ _ _ e_z _ _ _ (1 + 1) (1 + 5e-10) near1_opt (or_introl eq_refl) z_ray_is e_z_unit) as Y.
        rewrite at_z_t in Y. replace (0 + (1 + 5e-10)) with (1 + 5e-10) in Y by lra. replace (e_z ∙ e_z) with 1 in Y by (unfold e_z; r3r). apply Y; try lra.
        * unfold at_z, e_z. r3r.
        * rewrite Rabs_R1. lra.
        * rewrite dist_self. lra.
      + intros [|[|j]] o x pt n E R; try discriminate E. injection E as <-. destruct (near1_dist _ _ _ _ _ _ z_ray_is R). split; [lra|intros; lia].
    - unfold act. change (String.eqb (ray_type z_ray) "faerie_fire") with false. cbn iota.
      assert (B : exists s, bound (last_side z_ray [near1] None) = Ok s).
      { cbn [last_side]. change (skipped near1) with false. cbn iota. destruct (flat_report _ _ _ _ z_ray _ _ near1_opt z_ray_is e_z_unit) as [t _ _ E|_ E]; rewrite E; eexists; reflexivity. }
      destruct B as (s & ->). cbn [bind]. rewrite (mirror_hit _ _ _ _ _ _ _ s _ near1_flat H3 e_z_unit). unfold r3. do 4 f_equal. unfold refl, e_z. r3r.
    - cbn [set_nth]. replace (1 + 1 - (1 + 5e-10)) with (1 - 5e-10) by lra. apply F_free; [lra|reflexivity| |].
      + apply Forall_cons; [|apply Forall_nil]. eapply flat_test_ok; [exact near1_opt|exact H3'|]. apply unit_opp, e_z_unit.
      + intros [|[|j]] o x pt n E R; try discriminate E. injection E as <-. destruct R as (_ & s & T & _).
        rewrite (flat_from_plane _ _ _ _ _ (at_z (1 + 5e-10)) (- e_z)%r3 near1_opt ltac:(unfold on_plane, at_z, e_z; r3r) H3' (unit_opp _ e_z_unit)) in T. discriminate T. }
  split. { rewrite (fly_history _ _ _ _ H1), (fly_history _ _ _ _ z_ray_is), <- app_assoc, !at_z_t. cbn [app]. repeat f_equal; lra. }
  split; [exact (proj2 H2)|].
  split. { rewrite (fly_history _ _ _ _ H3'). unfold r3. cbn [set_direction point_history]. rewrite (fly_history _ _ _ _ z_ray_is), <- app_assoc, at_z_t. cbn [app].
    replace (0 + (1 + 5e-10)) with (1 + 5e-10) by lra. rewrite at_z_back. replace (1 + 5e-10 - (1 - 5e-10)) with 1e-9 by lra. reflexivity. }
  exact (proj2 H3').
Qed.
Print Assumptions C83_refuted.

(** a mirror at 5, stopped at 3 *)
Example C83_hyp : flat_scene [OMirror (mirror_at 5)] /\ is_unit e_z /\ clear_ahead [OMirror (mirror_at 5)] (at_z 3) e_z /\
  exists f r1, run f z_ray (Fin 3) [OMirror (mirror_at 5)] None = Ok (r1, [OMirror (mirror_at 5)]) /\ ray_is r1 (at_z 3) e_z.
Proof.
  destruct (mirror_at_flat 5) as (m & _ & _ & V). rewrite (dirn_of_unit e_z e_z_unit) in V.
  split; [apply Forall_cons; [right; eauto|apply Forall_nil]|]. split; [apply e_z_unit|]. 
  assert (Far : forall r rm x pt n, ray_is r (at_z 0) e_z -> reports r rm (OMirror (mirror_at 5)) x pt n -> x = 5).
  { intros r rm x pt n Hr R. destruct (flat_axis _ _ _ _ e_z _ _ _ _ _ _ _ V (or_introl eq_refl) Hr e_z_unit R) as (E & _).
    replace ((at_z 5 - at_z 0)%r3 ∙ e_z) with 5 in E by (unfold at_z, e_z; r3r). replace (e_z ∙ e_z) with 1 in E by (unfold e_z; r3r). lra. }
  split.
  - intros o c u A t [<-|[]] V' C Lt On At. assert (Hr : ray_is z_ray (at_z 0) e_z) by apply z_ray_is.
    assert (X : 3 + t = 5); [|lra]. rewrite at_z_t in *.
    eapply (Far z_ray (3 + t)); [exact Hr|]. apply (flat_axis_yes _ c u A u _ (at_z 0) e_z (3 + t) (3 + t) V' (or_introl eq_refl) Hr e_z_unit); try lra; try assumption.
    + unfold on_plane in On. replace (at_z (3 + t) - c)%r3 with ((3 + t) * e_z - (c - at_z 0))%r3 in On by (unfold at_z, e_z; r3_ring || r3r). rewrite dot_sub_l, dot_scale_l in On. lra.
    + rewrite at_z_t. replace (0 + (3 + t)) with (3 + t) by lra. exact At.
  - assert (exists f, 3 / 1e-12 + 1 < INR f) as (f & Lf) by apply nat_above. exists f, (fly z_ray (Fin 3)). split.
    + eapply flows_det; [apply run_flows, run_terminates; left; exact Lf|]. apply F_free; [lra|reflexivity| |].
      * apply Forall_cons; [|apply Forall_nil]. exact (flat_test_ok _ _ _ _ _ _ _ V z_ray_is e_z_unit).
      * intros [|[|j]] o x pt n E R; try discriminate E. injection E as <-. pose proof (Far _ _ _ _ _ z_ray_is R). destruct R as (_ & s & _ & _ & L). lra.
    + pose proof (fly_ray _ _ _ 3 z_ray_is) as H. rewrite at_z_t in H. replace (0 + 3) with 3 in H by lra. exact H.
Qed.
