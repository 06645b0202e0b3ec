(** Order of the optic list, the side of a lens, spherical mirrors and ball lenses. *)
From Coq Require Import Reals ZArith Lra Lia Psatz String List Bool Permutation.
From Verif Require Import PyErr Num Vec Shapes Csg Optics Spec XReal RVec VecProofs AngleProofs FlatProofs SphereProofs CylProofs ShapeExtra
  TreeProofs SolidProofs CsgProofs RayProofs RunGen RunXr OpticHits StateXr.
Import ListNotations.
Local Open Scope R_scope.

(* ---- the scan succeeds iff every test does ---- *)
Section ScanOk.
Context {T : Type} {N : Num T} {TT : Trig T}.
Definition test_ok (r : ray T) (o : optic T) : Prop :=
  skipped o = true \/ exists h, optic_test_intersect o r = Ok h /\ (h4_flag h = true -> h4_pt h <> None).
Lemma scan_step_ok r rem st i o : (exists st', scan_step r rem st i o = Ok st') <-> test_ok r o.
Proof.
  unfold scan_step, test_ok. destruct (skipped o); [split; eauto|]. split.
  - intros (st' & H). right. apply bind_ok in H. destruct H as (h & E & H). exists h. split; [exact E|]. intros F. rewrite F in H.
    apply bind_ok in H. destruct H as (pt & En & _). apply need_ok in En. congruence.
  - intros [X|(h & E & F)]; [discriminate|]. rewrite E. cbn [bind]. destruct (h4_flag h); [|eauto]. destruct (h4_pt h); [|destruct (F eq_refl eq_refl)].
    cbn [need bind]. destruct (ngt _ _); [eauto|]. destruct (ngt _ _); [|eauto]. destruct (nlt _ _); eauto.
Qed.
Lemma scan_ok r rem l : forall st i, (exists st', scan r rem st i l = Ok st') <-> Forall (test_ok r) l.
Proof.
  induction l as [|o l IH]; intros st i; cbn [scan].
  - split; [intros _; constructor|eauto].
  - split.
    + intros (st' & H). apply bind_ok in H. destruct H as (st1 & E & H). constructor; [apply (scan_step_ok r rem st i); eauto|apply (IH st1 (S i)); eauto].
    + intros H. inversion H as [|? ? A B]; subst. apply (scan_step_ok r rem st i) in A. destruct A as (st1 & E). rewrite E. cbn [bind]. apply IH, B.
Qed.
(** after a hit the flag local is assigned *)
Lemma scan_sfo_step r rem st i o st' : scan_step r rem st i o = Ok st' -> skipped o = false -> exists h, optic_test_intersect o r = Ok h /\ sc_sfo st' = Some (h4_sfo h).
Proof.
  unfold scan_step. intros H K. rewrite K in H. apply bind_ok in H. destruct H as (h & E & H). exists h. split; [exact E|]. destruct (h4_flag h); [|injection H as <-; reflexivity].
  apply bind_ok in H. destruct H as (pt & _ & H). destruct (ngt _ _); [injection H as <-; reflexivity|]. destruct (ngt _ _); [|injection H as <-; reflexivity].
  destruct (nlt _ _); injection H as <-; reflexivity.
Qed.
Lemma scan_step_skip r rem st i o : skipped o = true -> scan_step r rem st i o = Ok st.
Proof. unfold scan_step. intros ->. reflexivity. Qed.
Lemma scan_app r rem a : forall b st i, scan r rem st i (a ++ b) = do st' <- scan r rem st i a; scan r rem st' (i + length a) b.
Proof.
  induction a as [|o a IH]; intros b st i; cbn [scan app bind length]; [f_equal; lia|]. destruct (scan_step r rem st i o); cbn [bind]; [|reflexivity].
  rewrite IH. replace (S i + length a)%nat with (i + S (length a))%nat by lia. reflexivity.
Qed.
Lemma scan_skip_all r rem l : forall st i, (forall o, In o l -> skipped o = true) -> scan r rem st i l = Ok st.
Proof. induction l as [|o l IH]; intros st i H; cbn [scan]; [reflexivity|]. rewrite scan_step_skip by (apply H; left; reflexivity). cbn [bind]. apply IH. intros; apply H; right; assumption. Qed.
(** the flag is the one of the last optic tested *)
Lemma scan_sfo_last r rem st i a o b st' : skipped o = false -> (forall x, In x b -> skipped x = true) -> scan r rem st i (a ++ o :: b) = Ok st' ->
  exists h, optic_test_intersect o r = Ok h /\ sc_sfo st' = Some (h4_sfo h).
Proof.
  intros So Sb H. rewrite scan_app in H. apply bind_ok in H. destruct H as (st1 & _ & H). cbn [scan] in H. apply bind_ok in H. destruct H as (st2 & E & H).
  rewrite scan_skip_all in H by exact Sb. injection H as <-. eapply scan_sfo_step; eassumption.
Qed.
Lemma scan_sfo_mono r rem l : forall st i st', scan r rem st i l = Ok st' -> sc_sfo st <> None -> sc_sfo st' <> None.
Proof.
  induction l as [|o l IH]; intros st i st' H Hs; cbn [scan] in H; [injection H as <-; exact Hs|]. apply bind_ok in H. destruct H as (st1 & E & H).
  eapply IH; [exact H|]. destruct (skipped o) eqn:So; [rewrite scan_step_skip in E by exact So; injection E as <-; exact Hs|].
  destruct (scan_sfo_step _ _ _ _ _ _ E So) as (h & _ & ->). discriminate.
Qed.
Lemma scan_hit_sfo r rem l : forall st i st', scan r rem st i l = Ok st' -> sc_hit st' = true -> sc_hit st = true \/ sc_sfo st' <> None.
Proof.
  induction l as [|o l IH]; intros st i st' H Hs; cbn [scan] in H; [injection H as <-; auto|]. apply bind_ok in H. destruct H as (st1 & E & H).
  destruct (skipped o) eqn:So; [rewrite scan_step_skip in E by exact So; injection E as <-; eapply IH; eassumption|].
  right. eapply scan_sfo_mono; [exact H|]. destruct (scan_sfo_step _ _ _ _ _ _ E So) as (h & _ & ->). discriminate.
Qed.
(** optics whose interaction does not read the flag *)
Definition flag_free (o : optic T) : Prop :=
  match o with OLens l => le_type l = "ideal"%string \/ le_type l = "ideal_collimate"%string \/ le_type l = "ideal_focus"%string | _ => True end.
Lemma flag_free_do o r pt n s s' : flag_free o -> optic_do_intersect o r pt n s = optic_do_intersect o r pt n s'.
Proof.
  destruct o as [c|m|l|g|d|b|x|x|x|x]; try reflexivity. cbn. unfold lens_do_intersect. intros [->|[->| ->]]; reflexivity.
Qed.
End ScanOk.

(* ---- order of the list ---- *)
Lemma perm_set_nth {A} (l l' : list A) k k' (o o' : A) : Permutation l l' -> nth_error l k = Some o -> nth_error l' k' = Some o ->
  Permutation (set_nth l k o') (set_nth l' k' o').
Proof.
  assert (G : forall l k, nth_error l k = Some o -> exists a b, l = a ++ o :: b /\ set_nth l k o' = a ++ o' :: b).
  { clear. induction l as [|x l IH]; intros [|k] H; try discriminate.
    - injection H as ->. exists [], l. auto.
    - destruct (IH _ H) as (a & b & -> & E). exists (x :: a), b. cbn. rewrite E. auto. }
  intros P H H'. destruct (G _ _ H) as (a & b & -> & ->), (G _ _ H') as (a' & b' & -> & ->).
  apply Permutation_app_inv in P. rewrite <- !Permutation_middle. apply perm_skip, P.
Qed.
(** no two list positions report the same distance *)
Definition no_ties (r : ray xr) (rm : R) (l : list (optic xr)) : Prop :=
  forall j j' o o' d pt pt' n n', nth_error l j = Some o -> nth_error l j' = Some o' -> reports r rm o d pt n -> reports r rm o' d pt' n' -> j = j'.

Definition same_up_to_order (st st' : @run_st xr) : Prop :=
  rs_ray st' = rs_ray st /\ rs_count st' = rs_count st /\ rs_remaining st' = rs_remaining st /\ Permutation (rs_world st) (rs_world st').
Lemma body_permuted m st st1 st' rm : rs_remaining st = Fin rm -> same_up_to_order st st' -> Forall flag_free (rs_world st) -> no_ties (rs_ray st) rm (rs_world st) ->
  run_body (Fin m) st = Ok st1 -> exists st1', run_body (Fin m) st' = Ok st1' /\ same_up_to_order st1 st1' /\ Forall flag_free (rs_world st1).
Proof.
  intros Hrm (E1 & E2 & E3 & P) FF NT B. apply body_outcome in B.
  assert (Sc : exists sc, scan (rs_ray st) (Fin rm) (mkScan false ninf (rs_sel st) (rs_sfo st)) 0 (rs_world st) = Ok sc).
  { destruct B as [sc E _ _|sc s E _ _ _ _|sc s f o r2 o' E _ _ _ _ _ _ _]; rewrite Hrm in E; eauto. }
  apply scan_ok in Sc. rewrite P in Sc. apply (scan_ok _ (Fin rm) _ (mkScan false ninf (rs_sel st') (rs_sfo st')) 0) in Sc. destruct Sc as (sc' & Esc').
  unfold run_body. rewrite E1, E3, Hrm, Esc'. cbn [bind].
  destruct (scan_nearest _ _ _ _ _ _ Esc') as [(A' & B' & C')|(A' & k' & d' & pt' & n' & B' & C')].
  - assert (C : none_reports (rs_ray st) rm (rs_world st)).
    { intros j o d pt n Hn R. apply nth_error_In in Hn. apply (Permutation_in _ P) in Hn. apply In_nth_error in Hn. destruct Hn as (j' & Hn). exact (C' _ _ _ _ _ Hn R). }
    rewrite A'. cbn [negb]. eexists. split; [reflexivity|].
    destruct B as [sc E Hh ->|sc s E Hh Es F ->|sc s f o r2 o' E Hh Es F Ef En Ed ->]; rewrite Hrm in E;
      destruct (scan_nearest _ _ _ _ _ _ E) as [(A2 & _)|(_ & k & d & pt & n & _ & ((o1 & En1 & R1) & _))]; try congruence; try (destruct (C _ _ _ _ _ En1 R1)).
    cbn. rewrite Hrm. split; [|exact FF]. repeat split; auto.
  - destruct C' as [(o1 & En1 & R1) M'].
    assert (Hit : forall sc, scan (rs_ray st) (Fin rm) (mkScan false ninf (rs_sel st) (rs_sfo st)) 0 (rs_world st) = Ok sc ->
      sc_hit sc = true /\ exists k, sc_sel sc = Some (mkSel k pt' n') /\ nth_error (rs_world st) k = Some o1).
    { intros sc E. pose proof (nth_error_In _ _ En1) as I1. apply (Permutation_in _ (Permutation_sym P)) in I1. apply In_nth_error in I1. destruct I1 as (k1 & I1).
      destruct (scan_nearest _ _ _ _ _ _ E) as [(A2 & _ & C2)|(A2 & k & d & pt & n & B2 & ((o & En & R) & M))]; [destruct (C2 _ _ _ _ _ I1 R1)|].
      split; [exact A2|]. exists k. pose proof (nth_error_In _ _ En) as I. apply (Permutation_in _ P) in I. apply In_nth_error in I. destruct I as (j & I).
      destruct (M _ _ _ _ _ I1 R1) as [L1 _], (M' _ _ _ _ _ I R) as [L2 _]. assert (d = d') by lra. subst d'.
      pose proof (NT _ _ _ _ _ _ _ _ _ En I1 R R1) as K. subst k1. rewrite En in I1. injection I1 as ->.
      destruct (reports_det _ _ _ _ _ _ _ _ _ R R1) as (_ & -> & ->). auto. }
    rewrite A', B'. cbn [negb bound bind se_pt se_idx se_normal].
    destruct B as [sc E Hh ->|sc s E Hh Es F ->|sc s f o r2 o' E Hh Es F Ef En Ed ->]; rewrite Hrm in E; destruct (Hit _ E) as (H1 & k & H2 & H3); try congruence.
    + rewrite Es in H2. injection H2 as ->. cbn [se_pt]. apply String.eqb_eq in F. rewrite F. eexists. split; [reflexivity|]. cbn. rewrite E2, Hrm. split; [repeat split; auto|exact FF].
    + rewrite Es in H2. injection H2 as ->. cbn [se_pt se_idx se_normal] in *. rewrite H3 in En. injection En as <-.
      apply String.eqb_neq in F. rewrite F.
      destruct (scan_hit_sfo _ _ _ _ _ _ Esc' A') as [X|X]; [discriminate|]. destruct (sc_sfo sc') as [f'|]; [|destruct (X eq_refl)]. cbn [bound bind].
      rewrite En1. assert (FFo : flag_free o1) by (rewrite Forall_forall in FF; apply FF; eapply nth_error_In; eassumption).
      rewrite (flag_free_do o1 _ _ _ f' f FFo), Ed. cbn [bind]. eexists. split; [reflexivity|]. cbn. rewrite E2, Hrm. split.
      * repeat split. eapply perm_set_nth; eassumption.
      * rewrite Forall_forall in *. intros a Ha. apply in_set_nth in Ha. destruct Ha as [->|Ha]; [|apply FF, Ha].
        apply do_turns in Ed. destruct o1; destruct Ed as [_ ->]; try exact I; exact FFo.
Qed.
(** C36 *)
Lemma run_permuted m maxi fuel r w w' r' w2 : Permutation w w' -> Forall flag_free w ->
  (forall n st rm, steps (Fin m) maxi n (run_init r (Fin m) w) st -> rs_remaining st = Fin rm -> no_ties (rs_ray st) rm (rs_world st)) ->
  run fuel r (Fin m) w maxi = Ok (r', w2) -> exists w2', run fuel r (Fin m) w' maxi = Ok (r', w2') /\ Permutation w2 w2'.
Proof.
  intros P FF NT H. unfold run in H. apply bind_ok in H. destruct H as (st & L & H). injection H as <- <-. apply loop_steps in L. destruct L as (n & Ln & S & C).
  assert (G : exists st', steps (Fin m) maxi n (run_init r (Fin m) w') st' /\ same_up_to_order st st' /\ Forall flag_free (rs_world st)).
  { clear C Ln. remember (run_init r (Fin m) w) as st0 eqn:E0. induction S as [st|n st st1 st2 S IH C B]; subst.
    - exists (run_init r (Fin m) w'). split; [constructor|]. split; [repeat split; exact P|exact FF].
    - destruct (IH eq_refl NT) as (st' & S' & Same & FF1). destruct (steps_budget _ _ _ _ _ _ S) as (rm & Hrm & _).
      destruct (body_permuted m st1 st2 st' rm Hrm Same FF1 (NT _ _ _ S Hrm) B) as (st2' & B' & Same' & FF2). exists st2'. split; [|split; assumption].
      eapply steps_S; [exact S'| |exact B']. destruct Same as (E1 & E2 & E3 & _). unfold run_cond in *. rewrite E1, E2, E3. exact C. }
  destruct G as (st' & S' & (E1 & E2 & E3 & P') & _). exists (rs_world st'). split; [|exact P'].
  unfold run. erewrite steps_loop; [|exact S'| |exact Ln]; [cbn; rewrite E1; reflexivity|]. unfold run_cond in *. rewrite E1, E2, E3. exact C.
Qed.

(* ---- ball lens and convex mirror ---- *)
(** the first forward point on the sphere, beyond the clipping distance *)
Definition first_ahead (c : R3) (rad : R) (p d : R3) (t : R) : Prop :=
  1e-12 < t /\ on_sphere c rad (at_t p d t) /\ forall s, 1e-12 < s -> on_sphere c rad (at_t p d s) -> t <= s.
Definition outward (c : R3) (rad : R) (q : R3) : R3 := (/ rad * (q - c))%r3.
Lemma outward_normal c rad D q : rad <> 0 -> on_sphere c (Rabs rad) q -> vopp (sphere_normal (sph c rad D) (fv q)) = fv (outward c (Rabs rad) q) /\ is_unit (outward c (Rabs rad) q).
Proof.
  intros HR On. destruct (sphere_normal_on c rad D q HR On) as [E U]. rewrite E, vopp_fv. unfold outward.
  replace (/ Rabs rad * (q - c))%r3 with (- (/ Rabs rad * (c - q)))%r3 by r3_ring. split; [reflexivity|apply unit_opp, U].
Qed.
(** d points out of the ball at the far crossing, into it at the near one *)
Lemma cross_sides c rad p d t0 t1 : is_unit d -> 0 < rad -> t0 < t1 -> (forall t, on_sphere c rad (at_t p d t) <-> t = t0 \/ t = t1) ->
  d ∙ outward c rad (at_t p d t0) < 0 /\ 0 < d ∙ outward c rad (at_t p d t1).
Proof.
  intros Hd Hr L On. unfold outward.
  assert (E : forall t, on_sphere c rad (at_t p d t) <-> t * t + 2 * t * ((p - c)%r3 ∙ d) + (p - c)%r3 ∙ (p - c)%r3 = rad * rad).
  { intros t. unfold on_sphere. assert (Sq : dist3 (at_t p d t) c * dist3 (at_t p d t) c = t * t + 2 * t * ((p - c)%r3 ∙ d) + (p - c)%r3 ∙ (p - c)%r3).
    { rewrite dist3_sq. replace (at_t p d t - c)%r3 with ((p - c) + t * d)%r3 by (unfold at_t; r3_ring). generalize (p - c)%r3. intros w. unfold is_unit in Hd. autorewrite with dotr. rewrite (dot_comm d w), Hd. ring. }
    rewrite <- Sq. assert (0 <= dist3 (at_t p d t) c) by apply len_nonneg. split; intros H0; [rewrite H0; reflexivity|nra]. }
  pose proof (proj1 (E t0) (proj2 (On t0) (or_introl eq_refl))) as E0. pose proof (proj1 (E t1) (proj2 (On t1) (or_intror eq_refl))) as E1.
  assert (D : forall t, d ∙ (/ rad * (at_t p d t - c))%r3 = / rad * (t + (p - c)%r3 ∙ d)).
  { intros t. replace (at_t p d t - c)%r3 with ((p - c) + t * d)%r3 by (unfold at_t; r3_ring). generalize (p - c)%r3. intros w. unfold is_unit in Hd. autorewrite with dotr. rewrite (dot_comm d w), Hd. ring. }
  rewrite !D. set (b := (p - c)%r3 ∙ d) in *.
  assert (X : t1 + t0 + 2 * b = 0). { assert ((t1 - t0) * (t1 + t0 + 2 * b) = 0) by lra. apply Rmult_integral in H. destruct H; lra. }
  assert (0 < / rad) by (apply Rinv_0_lt_compat; exact Hr). split; [|apply Rmult_lt_0_compat; [assumption|lra]].
  assert (0 < / rad * - (t0 + b)); [|lra]. apply Rmult_lt_0_compat; [assumption|lra].
Qed.

Inductive ball_report (c : R3) (rad : R) (p d : R3) (h : hit4 xr) : Prop :=
| BR_hit t : first_ahead c rad p d t -> h4_flag h = true -> h4_pt h = Some (fv (at_t p d t)) ->
    h4_normal h = Some (fv (outward c rad (at_t p d t))) -> is_unit (outward c rad (at_t p d t)) ->
    (d ∙ outward c rad (at_t p d t) < 0 /\ (forall b, h4_sfo h = SfoBool b -> b = true) \/
     0 < d ∙ outward c rad (at_t p d t) /\ (forall b, h4_sfo h = SfoBool b -> b = false)) -> ball_report c rad p d h
| BR_miss : (forall t, ~ first_ahead c rad p d t) -> h4_flag h = false -> ball_report c rad p d h.

Lemma ball_report_gen c rad D p d r st st' s : rad <> 0 -> is_unit d -> ray_is r p d -> ~ tangent c rad p d ->
  bs_hit st = false -> bs_min st = PInf -> bs_sfo st = s -> s = SfoBool (evenb (h6_count (sphere_test_intersect (sph c rad D) r))) \/ (exists z, s = SfoInt z) ->
  ball_update r st (sphere_test_intersect (sph c rad D) r) = Ok st' ->
  ball_report c (Rabs rad) p d (H4 (bs_hit st') (bs_pt st') (bs_normal st') (bs_sfo st')).
Proof.
  intros HR Hd Hr NT H1 H2 H3 H4 H. assert (PR : 0 < Rabs rad) by (apply Rabs_pos_lt; exact HR). pose proof Hr as [Hp Hdir].
  assert (Dist : forall t, 1e-12 < t -> distance_between (position r) (fv (at_t p d t)) = Fin t).
  { intros t Lt. rewrite Hp, distance_fv, fly_to by (try assumption; lra). reflexivity. }
  destruct (sphere_cases c rad D p d r Hd Hr); [|contradiction|].
  - rewrite SR_res in H, H4. cbv zeta in H, H4. destruct (cross_sides c (Rabs rad) p d t0 t1 Hd PR SR_lt SR_on) as [Sd0 Sd1].
    destruct (outward_normal c rad D (at_t p d t0) HR (proj2 (SR_on t0) (or_introl eq_refl))) as [N0 U0].
    destruct (outward_normal c rad D (at_t p d t1) HR (proj2 (SR_on t1) (or_intror eq_refl))) as [N1 U1].
    destruct (Rltb_spec 1e-12 t0) as [L0|L0]; [|destruct (Rltb_spec 1e-12 t1) as [L1|L1]].
    + unfold ball_update in H. cbn [h6_flag h6_p1 h6_p2 h6_n1 h6_n2 need bind] in H. cbv zeta in H. rewrite (Dist t1), (Dist t0) in H by lra. rewrite H2 in H.
      change (nlt (Fin t1) PInf) with true in H. cbn iota in H. cbn [bind bs_min bs_sfo] in H. rewrite nlt_fin in H. rewrite Rltb_true_intro in H by lra. injection H as <-.
      apply BR_hit with t0; cbn; auto.
      * split; [exact L0|]. split; [apply SR_on; auto|]. intros x Lx Ox. apply SR_on in Ox. destruct Ox; lra.
      * rewrite N0. reflexivity.
      * left. split; [exact Sd0|]. intros b Eb. rewrite H3 in Eb. destruct H4 as [->|(z & ->)]; [|discriminate]. cbn in Eb. congruence.
    + unfold ball_update in H. cbn [h6_flag h6_p1 h6_p2 h6_n1 h6_n2 need bind] in H. cbv zeta in H. rewrite (Dist t1) in H by lra. rewrite H2 in H.
      change (nlt (Fin t1) PInf) with true in H. cbn iota in H. cbn [bind] in H. injection H as <-.
      apply BR_hit with t1; cbn; auto.
      * split; [exact L1|]. split; [apply SR_on; auto|]. intros x Lx Ox. apply SR_on in Ox. destruct Ox; lra.
      * rewrite N1. reflexivity.
      * right. split; [exact Sd1|]. intros b Eb. rewrite H3 in Eb. destruct H4 as [->|(z & ->)]; [|discriminate]. cbn in Eb. congruence.
    + cbn in H. injection H as <-. apply BR_miss; [|exact H1]. intros t (Lt & Ot & _). apply SR_on in Ot. destruct Ot; lra.
  - rewrite SM_res in H. cbn in H. injection H as <-. apply BR_miss; [|exact H1]. intros t (_ & Ot & _). exact (SM_on _ Ot).
Qed.
Lemma ball_lens_report c n D f ty ix l p d r : D <> 0 -> mk_lens (fv c) n "spherical" (Some (Fin D)) f ty (Fin ix) = Ok l ->
  is_unit d -> ray_is r p d -> ~ tangent c (D / 2) p d -> exists h, lens_test_intersect l r = Ok h /\ ball_report c (Rabs (D / 2)) p d h /\ exists b, h4_sfo h = SfoBool b.
Proof.
  intros HD E Hd Hr NT. assert (HR : D / 2 <> 0) by lra.
  unfold mk_lens in E. change (String.eqb "spherical" "spherical_biconvex") with false in E. change (String.eqb "spherical" "spherical") with true in E. cbn iota in E.
  apply bind_ok in E. destruct E as (sp & Esp & E). injection E as <-. apply mk_sphere_D in Esp. subst sp.
  unfold lens_test_intersect. cbn [le_shape le_surfaces]. change (String.eqb "spherical" "spherical_biconvex") with false. change (String.eqb "spherical" "spherical") with true. cbn iota.
  cbn [lens_ball_loop]. cbv zeta. cbn [bs_hit bs_min bs_pt bs_normal].
  assert (Ex : exists st', ball_update r (mkBall false ninf None None (SfoBool (evenb (h6_count (sphere_test_intersect (sph c (D / 2) (Fin D)) r))))) (sphere_test_intersect (sph c (D / 2) (Fin D)) r) = Ok st'
    /\ exists b, bs_sfo st' = SfoBool b).
  { destruct (sphere_cases c (D / 2) (Fin D) p d r Hd Hr); [rewrite SR_res; cbv zeta; destruct (Rltb 1e-12 t0); [|destruct (Rltb 1e-12 t1)]|contradiction|rewrite SM_res];
    unfold ball_update; cbn [h6_flag h6_p1 h6_p2 h6_n1 h6_n2 need bind bs_min]; cbv zeta; repeat (destruct (nlt _ _); cbn [bind bs_min bs_sfo]); eexists; (split; [reflexivity|cbn; eauto]). }
  destruct Ex as (st' & Eu & b & Eb). rewrite Eu. cbn [bind]. eexists. split; [reflexivity|]. split; [|exists b; exact Eb].
  eapply ball_report_gen with (D := Fin D); [exact HR|exact Hd|exact Hr|exact NT| | | | |exact Eu]; try reflexivity. left. reflexivity.
Qed.
Lemma convex_mirror_report c n D w h0 f tg ty dmd m p d r : D <> 0 -> mk_mirror (fv c) "circular_convex_spherical" n (Some (Fin D)) w h0 f tg ty dmd = Ok m ->
  is_unit d -> ray_is r p d -> ~ tangent c (D / 2) p d -> exists h, mirror_test_intersect m r = Ok h /\ ball_report c (Rabs (D / 2)) p d h.
Proof.
  intros HD E Hd Hr NT. assert (HR : D / 2 <> 0) by lra.
  unfold mk_mirror in E. apply bind_ok in E. destruct E as (dm & Edm & E). change (String.eqb "circular_convex_spherical" "circular_flat") with false in E.
  change (String.eqb "circular_convex_spherical" "rectangular_flat") with false in E. change (String.eqb "circular_convex_spherical" "circular_concave_spherical") with false in E.
  change (String.eqb "circular_convex_spherical" "circular_convex_spherical") with true in E. cbn iota in E.
  apply bind_ok in E. destruct E as (sp & Esp & E). injection E as <-. apply mk_sphere_D in Esp. subst sp.
  unfold mirror_test_intersect. cbn [mi_shape mi_surfaces].
  change (String.eqb "circular_convex_spherical" "circular_flat") with false. change (String.eqb "circular_convex_spherical" "rectangular_flat") with false.
  change (String.eqb "circular_convex_spherical" "circular_concave_spherical") with false. change (String.eqb "circular_convex_spherical" "circular_convex_spherical") with true.
  cbn [orb mirror_ball_loop]. cbv zeta. cbn [bound bind bs_hit bs_min bs_pt bs_normal].
  set (h := sphere_test_intersect (sph c (D / 2) (Fin D)) r).
  assert (Ex : exists st', ball_update r (mkBall false ninf None None (SfoInt (h6_count h))) h = Ok st').
  { unfold h. destruct (sphere_cases c (D / 2) (Fin D) p d r Hd Hr); [rewrite SR_res; cbv zeta; destruct (Rltb 1e-12 t0); [|destruct (Rltb 1e-12 t1)]|contradiction|rewrite SM_res];
    unfold ball_update; cbn [h6_flag h6_p1 h6_p2 h6_n1 h6_n2 need bind bs_min]; cbv zeta; repeat (destruct (nlt _ _); cbn [bind bs_min bs_sfo]); eexists; reflexivity. }
  destruct Ex as (st' & Eu). rewrite Eu. cbn [bind]. eexists. split; [reflexivity|].
  eapply ball_report_gen with (D := Fin D); [exact HR|exact Hd|exact Hr|exact NT| | | | |exact Eu]; try reflexivity. right. eexists. reflexivity.
Qed.

(* ---- concave mirror ---- *)
Definition Ps (c : R3) (rad : R) (p d : R3) (x : vec xr) (n : option (vec xr)) : Prop :=
  exists t, x = fv (at_t p d t) /\ on_sphere c (Rabs rad) (at_t p d t) /\ n = Some (fv (/ Rabs rad * (c - at_t p d t))%r3) /\
    is_unit (/ Rabs rad * (c - at_t p d t))%r3 /\ (1e-12 < t \/ tangent c rad p d).
Lemma sphere_pairs_exact c rad D p d r : rad <> 0 -> is_unit d -> ray_is r p d -> pairs_ok (Ps c rad p d) (sphere_test_intersect (sph c rad D) r).
Proof.
  intros HR Hd Hr.
  assert (K : forall t, on_sphere c (Rabs rad) (at_t p d t) -> 1e-12 < t \/ tangent c rad p d ->
    Ps c rad p d (fv (at_t p d t)) (Some (sphere_normal (sph c rad D) (fv (at_t p d t))))).
  { intros t On L. destruct (sphere_normal_on c rad D _ HR On) as [E U]. exists t. rewrite E. auto. }
  destruct (sphere_cases c rad D p d r Hd Hr).
  - rewrite SR_res. cbv zeta. destruct (Rltb_spec 1e-12 t0); [|destruct (Rltb_spec 1e-12 t1)]; split; cbn [h6_p1 h6_p2 h6_n1 h6_n2]; try apply pair_none;
    apply pair_some, K; try (apply SR_on; auto); left; lra.
  - rewrite ST_res. split; [|apply pair_none]. apply pair_some, K; [apply ST_on; reflexivity|auto].
  - rewrite SM_res. split; apply pair_none.
Qed.
Lemma concave_hit c n D w h0 f tg ty dmd m r p d h : n <> r3zero -> f <> 0 ->
  mk_mirror (fv c) "circular_concave_spherical" (Some (fv n)) (Some (Fin D)) w h0 (Some (Fin f)) tg ty dmd = Ok m ->
  is_unit d -> ray_is r p d -> mirror_test_intersect m r = Ok h -> h4_flag h = true ->
  let C := (c + (2 * f) * dirn n)%r3 in
  (exists t, meets_plane c (dirn n) p d t /\ dist3 (at_t p d t) c < D / 2) /\
  exists t, h4_pt h = Some (fv (at_t p d t)) /\ on_sphere C (2 * Rabs f) (at_t p d t) /\
    h4_normal h = Some (fv (/ (2 * Rabs f) * (C - at_t p d t))%r3) /\ is_unit (/ (2 * Rabs f) * (C - at_t p d t))%r3 /\
    (1e-12 < t \/ tangent C (2 * f) p d).
Proof.
  intros Hn Hf0 E Hd Hr Ht Hf C.
  unfold mk_mirror in E. apply bind_ok in E. destruct E as (dm & Edm & E). change (String.eqb "circular_concave_spherical" "circular_flat") with false in E.
  change (String.eqb "circular_concave_spherical" "rectangular_flat") with false in E. change (String.eqb "circular_concave_spherical" "circular_concave_spherical") with true in E. cbn iota in E.
  apply bind_ok in E. destruct E as (nn & Enn & E). cbn [unit_vector_o] in Enn. rewrite unit_vector_fv in Enn by exact Hn. injection Enn as <-.
  cbn [need bind] in E. rewrite nofZ_fin, nmul_fin, vscale_fv, vadd_fv in E. replace (f * 2) with (2 * f) in E by ring. fold C in E.
  apply bind_ok in E. destruct E as (ci & Eci & E). apply bind_ok in E. destruct E as (sp & Esp & E). injection E as <-.
  destruct (mk_sphere_R _ _ _ Esp) as [Ds ->].
  unfold mirror_test_intersect in Ht. cbn [mi_shape mi_surfaces] in Ht.
  change (String.eqb "circular_concave_spherical" "circular_flat") with false in Ht. change (String.eqb "circular_concave_spherical" "rectangular_flat") with false in Ht.
  change (String.eqb "circular_concave_spherical" "circular_concave_spherical") with true in Ht. cbn [orb first_sphere first_circle bound bind] in Ht. cbv zeta in Ht.
  assert (Hrc : 2 * f <> 0) by (apply Rmult_integral_contrapositive_currified; lra).
  assert (Ra : Rabs (2 * f) = 2 * Rabs f) by (rewrite Rabs_mult, (Rabs_right 2) by lra; reflexivity).
  destruct (sphere_pairs_exact C (2 * f) Ds p d r Hrc Hd Hr) as [P1 P2].
  destruct (h6_flag _); [|injection Ht as <-; discriminate Hf].
  apply bind_ok in Ht. destruct Ht as (hc & Ehc & Ht). destruct (h3_flag hc) eqn:Fc; [|injection Ht as <-; discriminate Hf].
  split.
  { destruct (circle_spec c n None (Some D) ci (D / 2) p d r Hn Hd Hr eq_refl Eci) as [(t & M & L & Ec)|(_ & Ec)]; [eauto|].
    rewrite Ec in Ehc. injection Ehc as <-. discriminate. }
  apply bind_ok in Ht. destruct Ht as (pc & Epc & Ht). apply bind_ok in Ht. destruct Ht as (p1 & Ep1 & Ht). apply need_ok in Ep1.
  assert (Fin1 : forall x nn s, Ps C (2 * f) p d x nn -> h = H4 true (Some x) nn s -> exists t, h4_pt h = Some (fv (at_t p d t)) /\ on_sphere C (2 * Rabs f) (at_t p d t) /\
    h4_normal h = Some (fv (/ (2 * Rabs f) * (C - at_t p d t))%r3) /\ is_unit (/ (2 * Rabs f) * (C - at_t p d t))%r3 /\ (1e-12 < t \/ tangent C (2 * f) p d)).
  { intros x nn s (t & -> & On & -> & U & L) ->. rewrite Ra in *. exists t. cbn. auto. }
  destruct (h6_p2 _) as [p2|]; [destruct (nlt _ _)|]; injection Ht as <-; (eapply Fin1; [|reflexivity]); [apply P1; exact Ep1|apply P2; reflexivity|apply P1; exact Ep1].
Qed.
Lemma refl_self u d : is_unit u -> d = u \/ d = (- u)%r3 -> refl u d = (- d)%r3.
Proof. unfold is_unit, refl. intros U [-> | ->]; autorewrite with dotr; rewrite U; r3_ring. Qed.
(** a ray along the radius comes back along itself *)
Lemma radius_returns m r p d C rad t s n : mi_type m = "normal"%string -> is_unit d -> direction r = fv d -> 0 < rad ->
  at_t p d s = C -> on_sphere C rad (at_t p d t) -> n = (/ rad * (C - at_t p d t))%r3 -> is_unit n ->
  mirror_do_intersect m r (Some (fv n)) = Ok (set_direction r (fv (- d)%r3)).
Proof.
  intros Ty Hd Hdir Hr Hc On -> U. unfold mirror_do_intersect. rewrite Ty, String.eqb_refl. cbn [need bind].
  rewrite (reflect_fv r d _ Hdir (unit_nonzero _ Hd) (unit_nonzero _ U)), !dirn_of_unit by assumption. do 3 f_equal. apply refl_self; [exact U|].
  replace (C - at_t p d t)%r3 with ((s - t) * d)%r3 in * by (rewrite <- Hc; unfold at_t; r3_ring).
  assert (K : (/ rad * (s - t)) * (/ rad * (s - t)) = 1). { unfold is_unit in *. autorewrite with dotr in U. rewrite Hd in U. lra. }
  replace (/ rad * ((s - t) * d))%r3 with ((/ rad * (s - t)) * d)%r3 by r3_ring. set (k := / rad * (s - t)) in *.
  assert ((k - 1) * (k + 1) = 0) as Z by lra. apply Rmult_integral in Z. destruct Z as [Z|Z]; [left|right].
  - replace k with 1 by lra. r3_ring.
  - replace k with (-1) by lra. r3_ring.
Qed.
(** when a concave mirror reports, and which of the two sphere points it picks *)
Lemma concave_complete c n D w h0 f tg ty dmd m r p d : n <> r3zero -> f <> 0 ->
  mk_mirror (fv c) "circular_concave_spherical" (Some (fv n)) (Some (Fin D)) w h0 (Some (Fin f)) tg ty dmd = Ok m ->
  is_unit d -> ray_is r p d ->
  let C := (c + (2 * f) * dirn n)%r3 in
  exists h, mirror_test_intersect m r = Ok h /\
  (h4_flag h = true <-> (exists t, meets_plane c (dirn n) p d t /\ dist3 (at_t p d t) c < D / 2) /\
     (tangent C (2 * f) p d \/ exists t, 1e-12 < t /\ on_sphere C (2 * Rabs f) (at_t p d t))) /\
  (forall t, h4_pt h = Some (fv (at_t p d t)) -> forall a s, meets_plane c (dirn n) p d a -> 1e-12 < s -> on_sphere C (2 * Rabs f) (at_t p d s) ->
     dist3 (at_t p d a) (at_t p d t) <= dist3 (at_t p d a) (at_t p d s)).
Proof.
  intros Hn Hf0 E Hd Hr C.
  unfold mk_mirror in E. apply bind_ok in E. destruct E as (dm & Edm & E). change (String.eqb "circular_concave_spherical" "circular_flat") with false in E.
  change (String.eqb "circular_concave_spherical" "rectangular_flat") with false in E. change (String.eqb "circular_concave_spherical" "circular_concave_spherical") with true in E. cbn iota in E.
  apply bind_ok in E. destruct E as (nn & Enn & E). cbn [unit_vector_o] in Enn. rewrite unit_vector_fv in Enn by exact Hn. injection Enn as <-.
  cbn [need bind] in E. rewrite nofZ_fin, nmul_fin, vscale_fv, vadd_fv in E. replace (f * 2) with (2 * f) in E by ring. fold C in E.
  apply bind_ok in E. destruct E as (ci & Eci & E). apply bind_ok in E. destruct E as (sp & Esp & E). injection E as <-.
  destruct (mk_sphere_R _ _ _ Esp) as [Ds ->].
  unfold mirror_test_intersect. cbn [mi_shape mi_surfaces].
  change (String.eqb "circular_concave_spherical" "circular_flat") with false. change (String.eqb "circular_concave_spherical" "rectangular_flat") with false.
  change (String.eqb "circular_concave_spherical" "circular_concave_spherical") with true. cbn [orb first_sphere first_circle bound bind]. cbv zeta.
  assert (Ra : Rabs (2 * f) = 2 * Rabs f) by (rewrite Rabs_mult, (Rabs_right 2) by lra; reflexivity).
  pose proof (sphere_cases C (2 * f) Ds p d r Hd Hr) as SC.
  pose proof (circle_spec c n None (Some D) ci (D / 2) p d r Hn Hd Hr eq_refl Eci) as CC.
  assert (Un : forall t t', meets_plane c (dirn n) p d t -> meets_plane c (dirn n) p d t' -> t = t').
  { intros t t' (M1 & _ & M2) (_ & _ & M2'). unfold on_plane, at_t in *. autorewrite with dotr in M2, M2'.
    rewrite (dot_comm d (dirn n)) in *. assert ((t' - t) * (dirn n ∙ d) = 0) as X by lra. apply Rmult_integral in X. destruct X as [X|X]; [lra|]. rewrite X, Rabs_R0 in M1. lra. }
  assert (Inj : forall t t', fv (at_t p d t) = fv (at_t p d t') -> t = t').
  { intros t t' X. apply fv_inj in X. assert ((t - t') * (d ∙ d) = 0) as Y.
    { assert (at_t p d t ∙ d = at_t p d t' ∙ d) as Z by (rewrite X; reflexivity). unfold at_t in Z. autorewrite with dotr in Z. lra. }
    unfold is_unit in Hd. rewrite Hd in Y. lra. }
  destruct SC as [t0 t1 Lt On _ NT Res|t0 On _ Tg Res|On _ NT Res]; rewrite Ra in On.
  - rewrite Res. cbv zeta.
    destruct (Rltb_spec 1e-12 t0) as [L0|L0]; [|destruct (Rltb_spec 1e-12 t1) as [L1|L1]]; cbn [h6_flag h6_count h6_p1 h6_p2 h6_n1 h6_n2].
    + destruct CC as [(a & M & L & Ec)|(No & Ec)]; rewrite Ec; cbn [bind h3_flag h3_pt need].
      * rewrite !distance_fv, nlt_fin. destruct (Rltb_spec (dist3 (at_t p d a) (at_t p d t1)) (dist3 (at_t p d a) (at_t p d t0))) as [X|X];
        (eexists; split; [reflexivity|]; split; [split; [intros _; split; [exists a; auto|right; exists t1; split; [lra|apply On; auto]]|reflexivity]|]).
        -- intros t Et a' s M' _ Os. apply some_fv_inj in Et. apply On in Os. rewrite Et, (Un _ _ M' M). destruct Os as [-> | ->]; lra.
        -- intros t Et a' s M' _ Os. apply some_fv_inj in Et. apply On in Os. rewrite Et, (Un _ _ M' M). destruct Os as [-> | ->]; lra.
      * eexists; split; [reflexivity|]. split; [|intros t X; discriminate X]. split; [discriminate|]. intros [(t & M & L) _]. specialize (No t M). lra.
    + destruct CC as [(a & M & L & Ec)|(No & Ec)]; rewrite Ec; cbn [bind h3_flag h3_pt need].
      * eexists; split; [reflexivity|]. split; [split; [intros _; split; [exists a; auto|right; exists t1; split; [lra|apply On; auto]]|reflexivity]|].
        intros t Et a' s M' Ls Os. apply some_fv_inj in Et. apply On in Os. rewrite Et. destruct Os as [-> | ->]; lra.
      * eexists; split; [reflexivity|]. split; [|intros t X; discriminate X]. split; [discriminate|]. intros [(t & M & L) _]. specialize (No t M). lra.
    + eexists; split; [reflexivity|]. split; [|intros t X; discriminate X]. split; [discriminate|]. intros [_ [T|(t & Lt' & Ot)]]; [contradiction|]. apply On in Ot. destruct Ot; lra.
  - rewrite Res. cbn [h6_flag h6_count h6_p1 h6_p2 h6_n1 h6_n2].
    destruct CC as [(a & M & L & Ec)|(No & Ec)]; rewrite Ec; cbn [bind h3_flag h3_pt need].
    + eexists; split; [reflexivity|]. split; [split; [intros _; split; [exists a; auto|left; exact Tg]|reflexivity]|].
      intros t Et a' s M' _ Os. apply some_fv_inj in Et. apply On in Os. rewrite Et, Os. lra.
    + eexists; split; [reflexivity|]. split; [|intros t X; discriminate X]. split; [discriminate|]. intros [(t & M & L) _]. specialize (No t M). lra.
  - rewrite Res. cbn [h6_flag h6_count]. eexists; split; [reflexivity|]. split; [|intros t X; discriminate X]. split; [discriminate|].
    intros [_ [T|(t & _ & Ot)]]; [contradiction|]. destruct (On t Ot).
Qed.
