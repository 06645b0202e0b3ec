(** Properties of light between reflecting optics that are symmetric about an axis or a point. *)
From Coq Require Import Reals ZArith Lra Lia Psatz String List Bool.
From Verif Require Import PyErr Num Vec Shapes Csg Optics Spec XReal RVec VecProofs AngleProofs FlatProofs SphereProofs CylProofs ShapeExtra
  TreeProofs SolidProofs CsgProofs RayProofs RunGen RunXr OpticHits StateXr Props_Ray Props_Loop Props_Run Normals.
Import ListNotations.
Local Open Scope R_scope.

(** the moment of the line through p with direction d about the axis through c with direction a *)
Definition moment (c a p d : R3) : R := ((p - c) × d)%r3 ∙ a.
(** optics that reflect or absorb *)
Definition reflecting (o : optic xr) : Prop :=
  match o with OMirror _ | ODetector _ => True | OCompound k => co_surface_behavior k <> "refract"%string | _ => False end.
(** an optic whose normals have no moment about the axis (they meet the axis or are parallel to it), a detector, or an optic that [run] skips *)
Definition round (c a : R3) (o : optic xr) : Prop :=
  skipped o = true \/ exists N, normals o N /\ reflecting o /\ match o with ODetector _ => True | _ => forall q u, N q u -> moment c a q u = 0 end.

Lemma round_ok c a o : round c a o -> ok_optic o /\ is_grating o = false.
Proof.
  intros [H|(N & H & _)]; [split; [now left|destruct o; try discriminate; reflexivity]|]. split; [right; exact (normals_valid o N H)|]. destruct H; reflexivity.
Qed.
Lemma moment_fly c a p d t : moment c a (at_t p d t) d = moment c a p d.
Proof. unfold moment, at_t. clear. r3_ring. Qed.
Lemma moment_refl c a q u d : moment c a q u = 0 -> moment c a q (refl u d) = moment c a q d.
Proof.
  intros H. unfold refl. replace (moment c a q (d - (2 * (d ∙ u)) * u)%r3) with (moment c a q d - 2 * (d ∙ u) * moment c a q u) by (unfold moment; clear; generalize (d ∙ u); intros; r3_ring). rewrite H. ring.
Qed.
Lemma mirror_type (pos : vec xr) shp n D w h f tg ty dm (m : mirror xr) : mk_mirror pos shp n D w h f tg ty dm = Ok m -> mi_type m = ty.
Proof.
  intros E. unfold mk_mirror in E. repeat match goal with
    | H : bind _ _ = Ok _ |- _ => let a := fresh "a" in let E := fresh "E" in apply bind_ok in H; destruct H as (a & E & H); cbn beta in H
    | H : (if ?b then _ else _) = Ok _ |- _ => destruct b
    end; try discriminate; injection E as <-; reflexivity.
Qed.
Lemma round_do o N r pt n s r' o' d u : normals o N -> reflecting o -> direction r = fv d -> is_unit d -> n = Some (fv u) -> is_unit u ->
  optic_do_intersect o r pt n s = Ok (r', o') -> direction r' = fv d \/ direction r' = fv (refl u d) /\ match o with ODetector _ => False | _ => True end.
Proof.
  intros V Rf Hd Ud -> Uu H.
  assert (Rl : direction (reflect_specular r (fv u)) = fv (refl u d)) by (rewrite (reflect_fv r d u Hd (unit_nonzero _ Ud) (unit_nonzero _ Uu)); cbn; rewrite !dirn_of_unit by assumption; reflexivity).
  assert (Mir : forall m ty r', mi_type m = ty -> ty <> "dmd"%string -> mirror_do_intersect m r (Some (fv u)) = Ok r' -> direction r' = fv d \/ direction r' = fv (refl u d)).
  { intros m ty r1 Et Hty E. unfold mirror_do_intersect in E. rewrite Et in E. apply String.eqb_neq in Hty. rewrite Hty in E. destruct (_ =? "normal")%string; cbn in E; injection E as <-; auto. }
  destruct V as [c n D w hh f tg ty dmd m Hn Hdm Hty E|c n t D w hh f ty dmd m Hn Htn Hdm Hty E|c n D w hh f tg ty dmd m Hn Hdm Hf0 Hty E|
    c n D w hh f tg ty dmd m Hdm HD Hty E|c n D f ty ix l Hty HD Hix E|c n t w hh de log Hn Htn E|e t beh ix HT Pos Hix].
  1,2,3,4: cbn [optic_do_intersect] in H; apply bind_ok in H; destruct H as (r1 & H & X); injection X as <- <-; destruct (Mir m ty r1 (mirror_type _ _ _ _ _ _ _ _ _ _ _ E) Hty H); auto.
  - destruct Rf.
  - cbn [with_log optic_do_intersect] in H. injection H as <- <-. left. exact Hd.
  - cbn [optic_do_intersect] in H; apply bind_ok in H; destruct H as (r1 & H & X); injection X as <- <-.
    unfold compound_do_intersect in H. cbn [co_surface_behavior co_index co_tree] in H. cbn in Rf. apply String.eqb_neq in Rf. rewrite Rf in H. destruct (_ =? "reflect")%string; [|discriminate]. cbn in H. injection H as <-. auto.
Qed.
Lemma normals_do o N r pt n s r' o' : normals o N -> optic_do_intersect o r pt n s = Ok (r', o') -> normals o' N.
Proof.
  intros V H. apply do_turns in H. destruct V.
  6: { cbn [with_log] in H. destruct H as [_ ->]. unfold record_hit. cbn [de_position de_normal de_tangent de_shape de_surfaces de_hit_data]. eapply (NO_detector c n0 t w h d); eassumption. }
  1: destruct H as [_ ->]; eapply NO_mirror_circ; [| | |eassumption]; assumption.
  1: destruct H as [_ ->]; eapply NO_mirror_rect; [| | | |eassumption]; assumption.
  1: destruct H as [_ ->]; eapply NO_mirror_concave; [| | | |eassumption]; assumption.
  1: destruct H as [_ ->]; eapply NO_mirror_convex; [| | |eassumption]; assumption.
  1: destruct H as [_ ->]; eapply NO_ball_lens; [| | |eassumption]; assumption.
  destruct H as [_ ->]. eapply NO_compound; eassumption.
Qed.
Lemma round_do_optic c a o r pt n s r' o' : round c a o -> skipped o = false -> optic_do_intersect o r pt n s = Ok (r', o') -> round c a o'.
Proof.
  intros [K|(N & V & Rf & M)] Sk H; [congruence|]. pose proof (normals_do _ _ _ _ _ _ _ _ V H) as V'. right. exists N. split; [exact V'|]. apply do_turns in H. destruct o; try (destruct H as [_ ->]); auto.
Qed.

(** one iteration *)
Lemma body_moment c a m st st' rm p d : rs_remaining st = Fin rm -> ray_is (rs_ray st) p d -> is_unit d -> Forall (round c a) (rs_world st) -> run_body (Fin m) st = Ok st' -> 0 < rm ->
  Forall (round c a) (rs_world st') /\ exists x d', 0 < x /\ ray_is (rs_ray st') (at_t p d x) d' /\ is_unit d' /\ moment c a (at_t p d x) d' = moment c a p d /\
    point_history (rs_ray st') = point_history (rs_ray st) ++ [fv (at_t p d x)] /\ exists rm', rs_remaining st' = Fin rm'.
Proof.
  intros Hrm Hr Hd Sc B Prm. pose proof Hr as [Hp Hdir].
  assert (Fly : forall x, fly (rs_ray st) (Fin x) = mkRay (fv (at_t p d x)) (fv d) (wavelength (rs_ray st)) (order (rs_ray st))
     (point_history (rs_ray st) ++ [fv (at_t p d x)]) (blocked (rs_ray st)) (ray_type (rs_ray st))).
  { intros x. unfold fly. rewrite Hp, Hdir, vscale_fv, vadd_fv. reflexivity. }
  destruct (body_advance _ _ _ _ Hrm B) as [No R1 R2 R3 R4|k x pt n Ch R3 R4 Out].
  - rewrite R2. split; [exact Sc|]. rewrite Fly in R1. exists rm, d. rewrite R1. cbn. split; [exact Prm|]. split; [split; reflexivity|]. split; [exact Hd|]. split; [apply moment_fly|]. split; [reflexivity|]. eauto.
  - pose proof (chosen_dist _ _ _ _ _ _ _ Ch) as Lx.
    destruct (proj1 Ch) as (o & En & (Sk & sf & Et & Dx & _)). pose proof Dx as Dx0. rewrite Hp in Dx. destruct (finite_distance _ _ _ Dx) as (q & -> & Ex).
    assert (In o (rs_world st)) as Io by (eapply nth_error_In; eassumption). rewrite Forall_forall in Sc.
    destruct (Sc o Io) as [Bad|(N & V & Rf & Mo)]; [congruence|]. destruct (normals_valid o N V) as (S & G & VO).
    destruct (valid_hit o S G (rs_ray st) p d _ VO Hr Hd Et eq_refl q eq_refl) as (_ & (u & Eu & Uu) & _). cbn in Eu. subst n.
    destruct (normals_hit o N (rs_ray st) p d _ V Hr Hd Et eq_refl q eq_refl) as (u' & Eu' & Nq & t & Eq & Lt). cbn in Eu'. injection Eu' as E1 E2 E3. assert (u' = u) as -> by (destruct u, u'; cbn in *; congruence). clear E1 E2 E3.
    destruct Out as [(_ & Er & Ew)|(_ & o1 & o' & f & En1 & Ed & Ew & _)].
    + rewrite Ew. split; [now apply Forall_forall|]. exists x, d. rewrite Er, Fly. cbn. split; [lra|]. split; [split; reflexivity|]. split; [exact Hd|]. split; [apply moment_fly|]. split; [reflexivity|]. eauto.
    + rewrite En in En1. injection En1 as <-. destruct (do_frame _ _ _ _ _ _ _ Ed) as [(F1 & F2 & F3 & F4 & F5) _]. rewrite Fly in F1, F4. cbn in F1, F4. split.
      { rewrite Ew. apply Forall_forall. intros b Hb. apply in_set_nth in Hb. destruct Hb as [->|Hb]; [eapply round_do_optic; [apply Sc, Io|exact Sk|exact Ed]|apply Sc, Hb]. }
      assert (Df : direction (fly (rs_ray st) (Fin x)) = fv d) by (rewrite Fly; reflexivity).
      destruct (round_do o N _ _ _ _ _ _ d u V Rf Df Hd eq_refl Uu Ed) as [D'|[D' Nd]].
      * exists x, d. split; [lra|]. split; [split; assumption|]. split; [exact Hd|]. split; [apply moment_fly|]. split; [exact F4|]. eauto.
      * exists x, (refl u d). split; [lra|]. split; [split; assumption|]. split; [now apply refl_unit|]. split; [|split; [exact F4|eauto]].
        rewrite <- (moment_fly c a p d x). destruct Lt as [Lt|Lt].
        -- assert (q = at_t p d x) as <- by (rewrite Ex, Eq, fly_to by (try assumption; lra); reflexivity). apply moment_refl. destruct o; try contradiction; now apply Mo.
        -- unfold refl. rewrite Lt. f_equal. clear. r3_ring.
Qed.

(** [areal k p l]: along the polyline from p through the points of l, the area swept about the axis is k times the length travelled (twice the area) *)
Fixpoint areal (c a : R3) (k : R) (p : R3) (l : list R3) : Prop :=
  match l with [] => True | q :: l => 0 < dist3 p q /\ ((p - c) × (q - c))%r3 ∙ a = k * dist3 p q /\ areal c a k q l end.
Lemma areal_snoc c a k l : forall p q, areal c a k p l -> 0 < dist3 (last_point p l) q -> ((last_point p l - c) × (q - c))%r3 ∙ a = k * dist3 (last_point p l) q -> areal c a k p (l ++ [q]).
Proof. induction l as [|b l IH]; intros p q; cbn; [auto|]. intros (A0 & A & B) C E. split; [exact A0|]. split; [exact A|]. now apply IH. Qed.
Lemma steps_moment c a m maxi n r w st p0 d0 : ray_is r p0 d0 -> is_unit d0 -> Forall (round c a) w -> steps (Fin m) maxi n (run_init r (Fin m) w) st ->
  Forall (round c a) (rs_world st) /\ exists p d pts, ray_is (rs_ray st) p d /\ is_unit d /\ moment c a p d = moment c a p0 d0 /\
   point_history (rs_ray st) = point_history r ++ map fv pts /\ length pts = n /\ p = last_point p0 pts /\ areal c a (moment c a p0 d0) p0 pts /\ exists rm, rs_remaining st = Fin rm.
Proof.
  intros Hr Hd Sc. remember (run_init r (Fin m) w) as st0 eqn:E0. induction 1 as [st|n st st1 st2 S IH C B]; subst.
  - split; [exact Sc|]. exists p0, d0, []. cbn. rewrite app_nil_r. split; [exact Hr|]. split; [exact Hd|]. repeat split; eauto.
  - destruct (IH eq_refl) as (Sc1 & p & d & pts & Hr1 & Hd1 & Mo & Hh & Ln & Lp & Ar & rm & Hrm). pose proof (cond_pos _ _ _ Hrm C) as P.
    destruct (body_moment c a m st1 st2 rm p d Hrm Hr1 Hd1 Sc1 B P) as (Sc2 & x & d' & Px & Hr2 & Hd2 & Mo2 & Hh2 & rm' & Hrm2). split; [exact Sc2|].
    exists (at_t p d x), d', (pts ++ [at_t p d x]). split; [exact Hr2|]. split; [exact Hd2|]. split; [congruence|]. split; [rewrite Hh2, Hh, map_app, app_assoc; reflexivity|].
    split; [rewrite app_length; cbn; lia|]. split; [now rewrite last_snoc|]. split; [|eauto]. apply areal_snoc; [exact Ar|rewrite <- Lp, fly_to; assumption|]. rewrite <- Lp, fly_to by assumption.
    rewrite <- Mo. unfold moment, at_t. clear. r3_ring.
Qed.

(* C114.  Between reflecting optics that are symmetric about an axis (round), the light of a ray has the same moment about the axis on every leg of its
   path: the recorded points sweep equal areas about the axis in equal lengths.  C114_moment, with c on the axis and a its direction. *)
Theorem C114_moment (c a : R3) fuel (r s : ray xr) (m : R) (world w : list (optic xr)) (max_interactions : option Z) (p d : R3) :
  ray_is r p d -> is_unit d -> Forall (round c a) world -> run fuel r (Fin m) world max_interactions = Ok (s, w) ->
  exists pts p' d', point_history s = point_history r ++ map fv pts /\ areal c a (moment c a p d) p pts /\ p' = last_point p pts /\
    ray_is s p' d' /\ is_unit d' /\ moment c a p' d' = moment c a p d /\ Forall (round c a) w.
Proof.
  intros Hr Hd Sc H. unfold run in H. apply bind_ok in H. destruct H as (st & L & H). injection H as <- <-.
  apply loop_steps in L. destruct L as (n & _ & S & _). destruct (steps_moment c a _ _ _ _ _ _ _ _ Hr Hd Sc S) as (A & p' & d' & pts & B1 & B2 & B3 & B4 & _ & B6 & B7 & _).
  exists pts, p', d'. auto 10.
Qed.
Print Assumptions C114_moment.

(* Which optics are round: flat mirrors orthogonal to the axis, curved mirrors with their centre of curvature on it, compounds of balls centred on it and of
   cylinders about it, detectors of any position. *)
Definition on_axis (c a x : R3) : Prop := ((x - c) × a)%r3 = r3zero.
Definition round_solid (c a : R3) (s : solid) : Prop :=
  match s with Ball b _ => on_axis c a b | Cyl b u _ => on_axis c a b /\ (u × a)%r3 = r3zero end.
Lemma flat_round c a n q : (n × a)%r3 = r3zero -> moment c a q (dirn n) = 0.
Proof.
  intros H. unfold moment. replace (((q - c) × dirn n)%r3 ∙ a) with ((q - c)%r3 ∙ (dirn n × a)%r3) by (clear; generalize (dirn n); intros; r3_ring).
  replace (dirn n × a)%r3 with (/ len n * (n × a))%r3 by (unfold dirn; clear; generalize (/ len n); intros; r3_ring). rewrite H, dot_scale_r, dot_zero_r. ring.
Qed.
Lemma solid_round c a s q u : round_solid c a s -> normal_of s q u -> moment c a q u = 0.
Proof.
  destruct s as [b rad|b v rad]; cbn; unfold on_axis.
  - intros H [k ->]. unfold moment. replace (((q - c) × (k * (q - b)))%r3 ∙ a) with (k * - ((q - c)%r3 ∙ ((b - c) × a)%r3)) by (clear; r3_ring). rewrite H, dot_zero_r. ring.
  - intros [H Hv] [k ->]. unfold moment, perp.
    assert (Hw : (dirn v × a)%r3 = r3zero) by (replace (dirn v × a)%r3 with (/ len v * (v × a))%r3 by (unfold dirn; clear; generalize (/ len v); intros; r3_ring); rewrite Hv; clear; r3_ring).
    set (e := dirn v) in *. clearbody e. set (x := (q - b)%r3 ∙ e).
    replace (((q - c) × (k * ((q - b) - x * e)))%r3 ∙ a) with (k * (- ((q - c)%r3 ∙ ((b - c) × a)%r3) - x * ((q - c)%r3 ∙ (e × a)%r3))) by (clearbody x; clear; r3_ring). rewrite H, Hw, dot_zero_r. ring.
Qed.
Theorem C114_optics (c a : R3) :
  (forall p n D w h f tg ty dmd m, n <> r3zero -> dmd <> r3zero -> ty <> "dmd"%string -> (n × a)%r3 = r3zero ->
     mk_mirror (fv p) "circular_flat" (Some (fv n)) (Some (Fin D)) w h f tg ty (Some (fv dmd)) = Ok m -> round c a (OMirror m)) /\
  (forall p n t D w h f ty dmd m, n <> r3zero -> t <> r3zero -> dmd <> r3zero -> ty <> "dmd"%string -> (n × a)%r3 = r3zero ->
     mk_mirror (fv p) "rectangular_flat" (Some (fv n)) D (Some (Fin w)) (Some (Fin h)) f (Some (fv t)) ty (Some (fv dmd)) = Ok m -> round c a (OMirror m)) /\
  (forall p n D w h f tg ty dmd m, n <> r3zero -> dmd <> r3zero -> f <> 0 -> ty <> "dmd"%string -> on_axis c a (p + (2 * f) * dirn n)%r3 ->
     mk_mirror (fv p) "circular_concave_spherical" (Some (fv n)) (Some (Fin D)) w h (Some (Fin f)) tg ty (Some (fv dmd)) = Ok m -> round c a (OMirror m)) /\
  (forall p n D w h f tg ty dmd m, dmd <> r3zero -> D <> 0 -> ty <> "dmd"%string -> on_axis c a p ->
     mk_mirror (fv p) "circular_convex_spherical" n (Some (Fin D)) w h f tg ty (Some (fv dmd)) = Ok m -> round c a (OMirror m)) /\
  (forall p n t w h e, n <> r3zero -> t <> r3zero -> mk_detector (fv p) (Some (fv n)) (Some (fv t)) "rectangular_flat" (Some (Fin w)) (Some (Fin h)) = Ok e -> round c a (ODetector e)) /\
  (forall e t ix, tree_of e t -> positive e -> 0 < ix -> Forall (round_solid c a) (solids e) -> round c a (OCompound (mkCompound t "reflect" (Fin ix)))) /\
  (forall o, skipped o = true -> round c a o).
Proof.
  split; [|split; [|split; [|split; [|split; [|split]]]]].
  - intros p n D w h f tg ty dmd m Hn Hd Hty Ha E. right. eexists. split; [eapply NO_mirror_circ; [| | |exact E]; assumption|]. split; [exact I|]. intros q u ->. now apply flat_round.
  - intros p n t D w h f ty dmd m Hn Ht Hd Hty Ha E. right. eexists. split; [eapply NO_mirror_rect; [| | | |exact E]; assumption|]. split; [exact I|]. intros q u ->. now apply flat_round.
  - intros p n D w h f tg ty dmd m Hn Hd Hf Hty Ha E. right. eexists. split; [eapply NO_mirror_concave; [| | | |exact E]; assumption|]. split; [exact I|]. intros q u. apply (solid_round c a).
    cbn. rewrite (Rmult_comm f 2). exact Ha.
  - intros p n D w h f tg ty dmd m Hd HD Hty Ha E. right. eexists. split; [eapply NO_mirror_convex; [| | |exact E]; assumption|]. split; [exact I|]. intros q u. now apply (solid_round c a).
  - intros p n t w h e Hn Ht E. right. eexists (fun _ _ => True). split; [|split; exact I]. pose proof (NO_detector p n t w h e (de_hit_data e) Hn Ht E) as X. cbn in X. now destruct e.
  - intros e t ix HT Pos Hix Ha. right. eexists. split; [eapply NO_compound; eassumption|]. split; [cbn; discriminate|]. intros q u (s & Is & _ & Hs). rewrite Forall_forall in Ha. eapply solid_round; eauto.
  - intros o H. now left.
Qed.
Print Assumptions C114_optics.

(* Optics that are round about every axis through c: mirrors and reflecting balls centred at c.  Then the whole vector (p - c) x d is kept: all recorded points
   lie in the plane through c in which the light starts, and every leg of the path (its line) has the same distance from c. *)
Theorem C114_centre (c : R3) fuel (r s : ray xr) (m : R) (world w : list (optic xr)) (max_interactions : option Z) (p d : R3) :
  ray_is r p d -> is_unit d -> (forall a, Forall (round c a) world) -> run fuel r (Fin m) world max_interactions = Ok (s, w) ->
  exists pts p' d', point_history s = point_history r ++ map fv pts /\ ray_is s p' d' /\ is_unit d' /\ ((p' - c) × d')%r3 = ((p - c) × d)%r3 /\
    (forall q, In q pts -> (q - c)%r3 ∙ ((p - c) × d)%r3 = 0) /\ axis_dist p' d' c = axis_dist p d c.
Proof.
  intros Hr Hd Sc H. unfold run in H. apply bind_ok in H. destruct H as (st & L & H). injection H as <- <-. apply loop_steps in L. destruct L as (n & _ & S & _).
  destruct (steps_moment c r3zero _ _ _ _ _ _ _ _ Hr Hd (Sc _) S) as (_ & p' & d' & pts & [Ep Ed] & B2 & _ & B4 & _).
  assert (All : forall a, moment c a p' d' = moment c a p d /\ areal c a (moment c a p d) p pts).
  { intros a. destruct (steps_moment c a _ _ _ _ _ _ _ _ Hr Hd (Sc _) S) as (_ & p1 & d1 & pts1 & [Ep1 Ed1] & _ & M & H4 & _ & _ & Ar & _).
    rewrite Ep in Ep1. rewrite Ed in Ed1. apply fv_inj in Ep1, Ed1. subst p1 d1. rewrite B4 in H4. apply app_inv_head in H4.
    assert (pts = pts1) as -> by (revert H4; clear; revert pts1; induction pts as [|x l IH]; intros [|y l'] E; try discriminate E; [reflexivity|]; cbn [map] in E; inversion E as [[X1 X2 X3 X4]]; f_equal; [destruct x, y; cbn in *; congruence|now apply IH]). auto. }
  exists pts, p', d'. split; [exact B4|]. split; [split; assumption|]. split; [exact B2|].
  assert (V : ((p' - c) × d')%r3 = ((p - c) × d)%r3).
  { unfold moment in All. pose proof (proj1 (All (mk3 1 0 0))) as X. pose proof (proj1 (All (mk3 0 1 0))) as Y. pose proof (proj1 (All (mk3 0 0 1))) as Z.
    revert X Y Z. generalize ((p' - c) × d')%r3 ((p - c) × d)%r3. intros [x1 x2 x3] [y1 y2 y3]. unfold r3dot. cbn. intros. f_equal; lra. }
  split; [exact V|]. split.
  - set (L := ((p - c) × d)%r3) in *. assert (Ar : forall a, areal c a (L ∙ a) p pts) by (intros a; apply (proj2 (All a))). clearbody L. rename L into M. clear - Ar. revert p Ar.
    induction pts as [|x l IH]; intros p Ar q Iq; [destruct Iq|].
    assert (X : (x - c)%r3 ∙ M = 0).
    { assert (E : ((p - c) × (x - c))%r3 = (dist3 p x * M)%r3).
      { pose proof (Ar (mk3 1 0 0)) as (_ & X & _). pose proof (Ar (mk3 0 1 0)) as (_ & Y & _). pose proof (Ar (mk3 0 0 1)) as (_ & Z & _).
        revert X Y Z. generalize ((p - c) × (x - c))%r3. generalize (dist3 p x). destruct M as [y1 y2 y3]. intros s [x1 x2 x3]. unfold r3dot, r3scale. cbn. intros. f_equal; lra. }
      destruct (Ar r3zero) as (P & _). assert (Z : (x - c)%r3 ∙ (dist3 p x * M)%r3 = 0) by (rewrite <- E; clear; r3_ring). rewrite dot_scale_r in Z. apply Rmult_integral in Z. lra. }
    destruct Iq as [<-|Iq]; [exact X|]. apply (IH x); [intros a; apply (Ar a)|exact Iq].
  - assert (G : forall y e, is_unit e -> axis_dist y e c = len ((y - c) × e)%r3).
    { intros y e Ue. unfold axis_dist. change (len (perp e (c - y))) with (sqrt (perp e (c - y) ∙ perp e (c - y))). change (len ((y - c) × e)%r3) with (sqrt (((y - c) × e)%r3 ∙ ((y - c) × e)%r3)). f_equal. rewrite perp_dot by exact Ue. unfold is_unit in Ue. rewrite lagrange, Ue. replace ((c - y)%r3) with (- (y - c))%r3 by (clear; r3_ring). autorewrite with dotr. ring. }
    rewrite (G p' d' B2), (G p d Hd), V. reflexivity.
Qed.
Print Assumptions C114_centre.

(* Refraction at a round surface: the moment times the index is kept; at total reflection the moment is. *)
Theorem C114_refract (c a : R3) (r : ray xr) (d u q : R3) (eta1 eta2 : R) :
  direction r = fv d -> is_unit d -> is_unit u -> 0 < eta1 -> 0 < eta2 -> moment c a q u = 0 ->
  exists d', refract_snells_law r (fv u) (Fin eta1) (Fin eta2) = Ok (set_direction r (fv d')) /\ is_unit d' /\
    (~ total_reflection eta1 eta2 u d -> eta2 * moment c a q d' = eta1 * moment c a q d) /\ (total_reflection eta1 eta2 u d -> moment c a q d' = moment c a q d).
Proof.
  intros Hd Ud Uu H1 H2 M.
  assert (Dec : total_reflection eta1 eta2 u d \/ ~ total_reflection eta1 eta2 u d).
  { unfold total_reflection. destruct (Rgt_dec eta1 eta2), (Rgt_dec (eta1 * sine u d) eta2); tauto. }
  destruct Dec as [Tr|Tr].
  - destruct (snell_fv r d u eta1 eta2 Hd Ud Uu H1 H2) as [A _]. exists (refl u d). split; [exact (A Tr)|]. split; [now apply refl_unit|]. split; [contradiction|]. intros _. now apply moment_refl.
  - destruct (snell_spec r d u eta1 eta2 Hd Ud Uu H1 H2 Tr) as (t & E & U & P & _). exists t. split; [exact E|]. split; [exact U|]. split; [|contradiction]. intros _.
    assert (X : forall x, moment c a q x = moment c a q (perp u x)).
    { intros x. unfold perp. replace (moment c a q (x - (x ∙ u) * u)%r3) with (moment c a q x - (x ∙ u) * moment c a q u) by (unfold moment; clear; generalize (x ∙ u); intros; r3_ring). rewrite M. ring. }
    assert (Sc : forall k x, k * moment c a q x = moment c a q (k * x)%r3) by (intros; unfold moment; clear; r3_ring).
    rewrite (X t), (X d), !Sc, P. reflexivity.
Qed.
Print Assumptions C114_refract.

(* A skew ray before a flat mirror and inside a reflecting ball; and a run. *)
Example C114_hyp : let p := mk3 1 0 0 in let d := mk3 0 (3/5) (4/5) in let r := mkRay (fv p) (fv d) (Fin 500) (Fin 0) [fv p] false "normal"%string in
  ray_is r p d /\ is_unit d /\ moment r3zero e_z p d = 3 / 5 /\
  (exists t, tree_of (Leaf (Ball r3zero 7)) t /\ Forall (round r3zero e_z) [OMirror (mirror_at 5); OCompound (mkCompound t "reflect" (Fin 1))] /\
     forall a, Forall (round r3zero a) [OCompound (mkCompound t "reflect" (Fin 1))]) /\
  run 3 z_ray (Fin 10) [OMirror (mirror_at 5)] (Some 1%Z) = Ok (bounced, [OMirror (mirror_at 5)]).
Proof.
  cbv zeta. split; [split; reflexivity|]. split; [unfold is_unit, r3dot; cbn; lra|]. split; [unfold moment, r3dot, r3cross, r3sub, r3zero, e_z; cbn; lra|]. split; [|apply z_run; lra].
  destruct (mk_sphere (fv r3zero) (Some (Fin 7)) None) as [s|] eqn:E; [|unfold mk_sphere in E; rewrite check_R_only in E; discriminate E].
  assert (HT : tree_of (Leaf (Ball r3zero 7)) (mk_tree (KShape (SSphere s)))) by (apply (TO_ball r3zero 7 (Some 7) None); [reflexivity|exact E]).
  exists (mk_tree (KShape (SSphere s))). split; [exact HT|].
  assert (C : forall a, round r3zero a (OCompound (mkCompound (mk_tree (KShape (SSphere s))) "reflect" (Fin 1)))).
  { intros a. apply (proj1 (proj2 (proj2 (proj2 (proj2 (proj2 (C114_optics r3zero a)))))) _ _ _ HT); [|lra|].
    - intros c rad [X|[]]. injection X as <- <-. lra.
    - constructor; [|constructor]. cbn. unfold on_axis. clear. r3_ring. }
  split; [|intros a; constructor; [apply C|constructor]]. constructor; [|constructor; [apply C|constructor]].
  apply (proj1 (C114_optics r3zero e_z) (at_z 5) e_z 2 None None None None "normal"%string e_z); [apply unit_nonzero|apply unit_nonzero|discriminate| |apply mirror_at_built]; unfold is_unit, r3dot, e_z; cbn; try lra. unfold r3cross. cbn. unfold r3zero. f_equal; ring.
Qed.
