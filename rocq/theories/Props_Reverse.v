(** Property C70: runs between flat mirrors can be reversed. *)
From Coq Require Import Reals ZArith Lra Lia Psatz String List Bool.
From Verif Require Import PyErr Num Vec Shapes Csg Optics Spec XReal RVec VecProofs AngleProofs FlatProofs SphereProofs CylProofs ShapeExtra
  TreeProofs SolidProofs CsgProofs RayProofs RunGen NoFuel RunXr OpticHits StateXr OrderProofs FlatOptic Props_Ray Props_Loop Props_Run Props_Rehit SceneProofs Props_Scene Props_Train Props_Images Props_Path.
Import ListNotations.
Local Open Scope R_scope.

(** ** Specification: a path of light between flat mirrors *)
(** the mirror o covers the point x *)
Definition covers (o : optic xr) (u x : R3) : Prop := exists c A, flat_mirror o c u A /\ on_plane c u x /\ A x.
(** the open segment of length t from a in direction v touches no mirror; the point x touches no mirror; the first mirror of the list that covers x has the normal u *)
Definition free (w : list (optic xr)) (a v : R3) (t : R) : Prop := forall o u x, In o w -> 0 < x < t -> ~ covers o u (at_t a v x).
Definition off (w : list (optic xr)) (x : R3) : Prop := forall o u, In o w -> ~ covers o u x.
Definition corner (w : list (optic xr)) (x u : R3) : Prop := exists w1 o w2, w = w1 ++ o :: w2 /\ covers o u x /\ forall o' u', In o' w1 -> ~ covers o' u' x.
(** [light w p d m ys q e]: a path of length m from p (direction d) over the corners ys to q (direction e); the legs are longer than 1e-9 and meet the mirrors at angles above 1e-9,
    the tolerances of Plane.test_intersect *)
Inductive light (w : list (optic xr)) : R3 -> R3 -> R -> list R3 -> R3 -> R3 -> Prop :=
| light_last p d t : 1e-9 < t -> free w p d t -> light w p d t [] (at_t p d t) d
| light_bounce p d t u m ys q e : 1e-9 < t -> free w p d t -> corner w (at_t p d t) u -> 1e-9 < Rabs (u ∙ d) -> light w (at_t p d t) (refl u d) m ys q e ->
    light w p d (t + m) (at_t p d t :: ys) q e.

(** ** Proofs *)
Lemma light_pos w p d m ys q e : light w p d m ys q e -> 1e-9 < m.
Proof. induction 1; lra. Qed.
Lemma two_splits {X} (w1 w2 v1 v2 : list X) a b : w1 ++ a :: w2 = v1 ++ b :: v2 -> In b w1 \/ In a v1 \/ a = b.
Proof.
  revert v1. induction w1 as [|x w1 IH]; intros [|y v1] E; cbn in E; injection E as E1 E2; subst; auto; [right; left; left; reflexivity|left; left; reflexivity|].
  destruct (IH v1 E2) as [H|[H|H]]; cbn; auto.
Qed.
Lemma same_normal o c c' u u' A A' : flat_mirror o c u A -> flat_mirror o c' u' A' -> u = u'.
Proof. intros V V'. destruct (mirror_normal _ _ _ _ V) as (m & -> & E). destruct (mirror_normal _ _ _ _ V') as (m' & E1 & E2). apply fv_inj. congruence. Qed.
Lemma refl_neg u d : refl u (- d)%r3 = (- refl u d)%r3.
Proof. unfold refl. replace ((- d)%r3 ∙ u) with (- (d ∙ u)) by r3_ring. generalize (d ∙ u). intros. r3_ring. Qed.
Lemma at_back p d t x : at_t (at_t p d t) (- d)%r3 x = at_t p d (t - x).
Proof. unfold at_t. r3_ring. Qed.
Lemma free_back w p d t : free w p d t -> free w (at_t p d t) (- d)%r3 t.
Proof. intros F o u x Io Hx. rewrite at_back. apply F; [exact Io|lra]. Qed.

Lemma light_snoc w p d m ys y v u t : light w p d m ys y v -> corner w y u -> 1e-9 < Rabs (u ∙ v) -> 1e-9 < t -> free w y (refl u v) t ->
  light w p d (m + t) (ys ++ [y]) (at_t y (refl u v) t) (refl u v).
Proof.
  induction 1 as [p d t0 Ht F|p d t0 u0 m ys q e Ht F Cn An L IH]; intros C A Ht' F'.
  - cbn [app]. eapply light_bounce; try eassumption. constructor; assumption.
  - rewrite Rplus_assoc. cbn [app]. eapply light_bounce; try eassumption. apply IH; assumption.
Qed.
Lemma corner_unit w x u : corner w x u -> is_unit u.
Proof. intros (_ & o & _ & _ & (c & A & (m & _ & _ & V) & _) & _). eapply flat_unit; exact V. Qed.
Lemma light_back w p d m ys q e : light w p d m ys q e -> light w q (- e)%r3 m (rev ys) p (- d)%r3.
Proof.
  induction 1 as [p d t Ht F|p d t u m ys q e Ht F Cn An L IH].
  - replace p with (at_t (at_t p d t) (- d)%r3 t) at 2 by (rewrite at_back; replace (t - t) with 0 by ring; apply at_start). cbn [rev]. constructor; [exact Ht|apply free_back, F].
  - cbn [rev]. rewrite Rplus_comm. pose proof (corner_unit _ _ _ Cn) as Uu.
    assert (E : refl u (- refl u d)%r3 = (- d)%r3) by (rewrite refl_neg, refl_invol by exact Uu; reflexivity).
    assert (Ep : p = at_t (at_t p d t) (- d)%r3 t) by (rewrite at_back; replace (t - t) with 0 by ring; symmetry; apply at_start).
    rewrite Ep at 2. rewrite <- E. apply light_snoc; [exact IH|exact Cn| |exact Ht|rewrite E; apply free_back, F].
    replace (u ∙ (- refl u d)%r3) with (u ∙ d); [exact An|]. rewrite dot_opp_r, (dot_comm u (refl u d)), refl_normal by exact Uu. rewrite (dot_comm d u). ring.
Qed.

(** the loop follows such a path *)
Lemma light_steps w M : mirrors_only w -> forall p d m ys q e, light w p d m ys q e -> off w q -> is_unit d -> m <= M -> forall st : @run_st xr, rs_world st = w -> rs_remaining st = Fin m ->
  ray_is (rs_ray st) p d -> blocked (rs_ray st) = false -> ray_type (rs_ray st) <> "faerie_fire"%string ->
  exists st', steps (Fin M) None (S (List.length ys)) st st' /\ run_cond None st' = false /\ rs_world st' = w /\ ray_is (rs_ray st') q e /\ blocked (rs_ray st') = false /\
    point_history (rs_ray st') = point_history (rs_ray st) ++ map fv (ys ++ [q]).
Proof.
  intros W. induction 1 as [p d t Ht F|p d t u m ys q e Ht F Cn An L IH]; intros Of Ud LM st Hw Hm Hr Hb Ht'.
  - destruct (flat_iteration M st t p d Hm Hr Ud Ht' ltac:(rewrite Hw; exact W)) as (b & B & Wb & Bb & Tb & [(Mb & Cb & Rb & Hh & _)|(x & o & c & u & A & (w1 & w2 & Ew & _) & V & Hx & On & At & _)]).
    + exists b. split; [eapply steps_cons; [eapply cond_go; [exact Hm|lra|reflexivity|exact Hb]|exact B|constructor]|]. split; [eapply cond_spent; [exact Mb|lra]|]. split; [congruence|]. split; [exact Rb|]. split; [congruence|exact Hh].
    + exfalso. assert (Io : In o w) by (rewrite <- Hw, Ew; apply in_elt). destruct (Rle_lt_or_eq_dec x t ltac:(lra)) as [Lt| ->]; [apply (F o u x Io ltac:(lra))|apply (Of o u Io)]; exists c, A; auto.
  - pose proof (light_pos _ _ _ _ _ _ _ L) as Pm. pose proof (corner_unit _ _ _ Cn) as Uu. pose proof Cn as (v1 & o1 & v2 & E1 & (c1 & A1 & V1 & On1 & At1) & Fi). assert (I1 : In o1 w) by (rewrite E1; apply in_elt).
    assert (M1 : meets_plane c1 u p d t) by (split; [exact An|split; [exact Ht|exact On1]]).
    destruct (flat_iteration M st (t + m) p d Hm Hr Ud Ht' ltac:(rewrite Hw; exact W)) as (b & B & Wb & Bb & Tb & [(_ & _ & _ & _ & Cl)|(x & o & c & u' & A & (w1 & w2 & Ew & Fw) & V & Hx & On & At & Cl & Mb & _ & Rb & Hh)]).
    + exfalso. rewrite Hw in Cl. pose proof (Cl o1 c1 u A1 t I1 V1 M1 At1). lra.
    + assert (Io : In o w) by (rewrite <- Hw, Ew; apply in_elt). rewrite Hw in Cl. pose proof (Cl o1 c1 u A1 t I1 V1 M1 At1) as Lx.
      destruct (Rle_lt_or_eq_dec x t Lx) as [Lt| ->]; [exfalso; apply (F o u' x Io ltac:(lra)); exists c, A; auto|].
      assert (Eu : u' = u).
      { rewrite Hw, E1 in Ew. symmetry in Ew. destruct (two_splits _ _ _ _ _ _ Ew) as [H|[H|H]].
        - exfalso. exact (Fw _ _ _ _ H V1 M1 At1).
        - exfalso. apply (Fi o u' H). exists c, A. auto.
        - subst o1. eapply same_normal; eassumption. }
      subst u'.
      replace (t + m - t) with m in Mb by ring.
      destruct (IH Of (refl_unit u d Uu Ud) ltac:(lra) b ltac:(congruence) Mb Rb ltac:(congruence) ltac:(congruence)) as (st' & S & C & Ws & Rs & Bs & Hs).
      exists st'. split; [eapply steps_cons; [eapply cond_go; [exact Hm|lra|reflexivity|exact Hb]|exact B|exact S]|]. split; [exact C|]. split; [exact Ws|]. split; [exact Rs|]. split; [exact Bs|].
      rewrite Hs, Hh, <- app_assoc. reflexivity.
Qed.

(** C70: in a scene of flat mirrors, along every path of light from p to q (no mirror touched other than at the corners, all legs and angles above the tolerances of the code), the run from p
    with the length of the path as max_distance follows the path and ends at q; and the run of any ray sent back from q in the opposite direction runs through the same corners in the
    opposite order and ends at p, in the direction opposite to the original one.  Both runs take one iteration per leg. *)
Theorem C70_reversible : forall w p d m ys q e, mirrors_only w -> light w p d m ys q e -> is_unit d -> off w p -> off w q ->
  forall r r2, ray_is r p d -> ray_is r2 q (- e)%r3 -> blocked r = false -> blocked r2 = false -> ray_type r <> "faerie_fire"%string -> ray_type r2 <> "faerie_fire"%string ->
  forall fuel, (List.length ys < fuel)%nat ->
  (exists r', run fuel r (Fin m) w None = Ok (r', w) /\ ray_is r' q e /\ point_history r' = point_history r ++ map fv (ys ++ [q])) /\
  (exists r', run fuel r2 (Fin m) w None = Ok (r', w) /\ ray_is r' p (- d)%r3 /\ point_history r' = point_history r2 ++ map fv (rev ys ++ [p])).
Proof.
  intros w p d m ys q e W L Ud Op Oq r r2 Hr Hr2 Hb Hb2 T T2 fuel Hf.
  assert (Ue : is_unit e). { clear - L Ud. induction L as [|p d t u m ys q e Ht F Cn An L IH]; [exact Ud|]. apply IH, refl_unit; [eapply corner_unit; exact Cn|exact Ud]. }
  split.
  - destruct (light_steps w m W p d m ys q e L Oq Ud (Rle_refl _) (run_init r (Fin m) w) eq_refl eq_refl Hr Hb T) as (st & S & C & Ws & Rs & _ & Hs).
    exists (rs_ray st). split; [rewrite <- Ws at 2; eapply run_steps; [exact S|exact C|lia]|]. split; [exact Rs|exact Hs].
  - assert (Un : is_unit (- e)%r3) by (apply unit_opp, Ue).
    destruct (light_steps w m W _ _ _ _ _ _ (light_back _ _ _ _ _ _ _ L) Op Un (Rle_refl _) (run_init r2 (Fin m) w) eq_refl eq_refl Hr2 Hb2 T2) as (st & S & C & Ws & Rs & _ & Hs).
    exists (rs_ray st). split; [rewrite <- Ws at 2; eapply run_steps; [exact S|exact C|rewrite rev_length; lia]|]. split; [exact Rs|exact Hs].
Qed.
Print Assumptions C70_reversible.

Lemma mirror_at_covers z u x : covers (OMirror (mirror_at z)) u x -> u = e_z /\ cz x = z.
Proof.
  intros (c & A & V & On & _). pose proof (mirror_at_flat z) as V'. rewrite (dirn_of_unit e_z e_z_unit) in V'. pose proof (same_normal _ _ _ _ _ _ _ V V'). subst u. split; [reflexivity|].
  destruct V as (m & E & _ & V). injection E as <-. inversion V as [c0 n D w h f tg ty dmd m0 Hn E|c0 n t D w h f ty dmd m0 Hn Ht E| | |]; subst.
  - unfold mk_mirror in E. apply bind_ok in E. destruct E as (dm & _ & E). change (String.eqb "circular_flat" "circular_flat") with true in E. cbn iota in E.
    apply bind_ok in E. destruct E as (nn & En & E). apply bind_ok in E. destruct E as (ci & _ & E). apply ok_inj in E. apply (f_equal mi_position) in E. cbn in E. apply fv_inj in E. subst c.
    unfold on_plane, at_z, e_z, r3dot, r3sub in On; cbn in On. lra.
  - exfalso. unfold mk_mirror in E. apply bind_ok in E. destruct E as (dm & _ & E). change (String.eqb "rectangular_flat" "circular_flat") with false in E. change (String.eqb "rectangular_flat" "rectangular_flat") with true in E. cbn iota in E.
    apply bind_ok in E. destruct E as (nn & En & E). apply bind_ok in E. destruct E as (ci & _ & E). apply ok_inj in E. apply (f_equal mi_shape) in E. discriminate E.
Qed.
Lemma mirror_at_covered z : covers (OMirror (mirror_at z)) e_z (at_z z).
Proof.
  pose proof (mirror_at_flat z) as V. rewrite (dirn_of_unit e_z e_z_unit) in V. do 2 eexists. split; [exact V|]. split; [unfold on_plane; r3r|rewrite dist_self; lra].
Qed.
Example C70_hyp : let w := [OMirror (mirror_at 5); OMirror (mirror_at (-2))] in
  mirrors_only w /\ off w (at_z 0) /\ off w (at_z 1) /\ light w (at_z 0) e_z 15 [at_z 5; at_z (-2)] (at_z 1) e_z.
Proof.
  intros w. split; [repeat apply Forall_cons; [do 3 eexists; apply mirror_at_flat..|apply Forall_nil]|].
  split; [intros o u [<-|[<-|[]]] K; apply mirror_at_covers in K; destruct K as [_ K]; cbn in K; lra|].
  split; [intros o u [<-|[<-|[]]] K; apply mirror_at_covers in K; destruct K as [_ K]; cbn in K; lra|].
  assert (R1 : refl e_z e_z = (- e_z)%r3) by (unfold refl, e_z; r3_unf; cbn; apply r3_ext; cbn; ring).
  assert (R2 : refl e_z (- e_z)%r3 = e_z) by (unfold refl, e_z; r3_unf; cbn; apply r3_ext; cbn; ring).
  assert (A1 : forall a t, at_t (at_z a) e_z t = at_z (a + t)) by (intros; unfold at_t, at_z, e_z; r3r).
  assert (A2 : forall a t, at_t (at_z a) (- e_z)%r3 t = at_z (a - t)) by (intros; unfold at_t, at_z, e_z; r3r).
  assert (E5 : e_z ∙ e_z = 1) by apply e_z_unit.
  replace 15 with (5 + (7 + 3)) by lra. replace (at_z 5) with (at_t (at_z 0) e_z 5) by (rewrite A1; f_equal; lra).
  eapply light_bounce with (u := e_z); [lra| | |rewrite E5, Rabs_R1; lra|].
  - intros o u x [<-|[<-|[]]] Hx K; rewrite A1 in K; apply mirror_at_covers in K; destruct K as [_ K]; cbn in K; lra.
  - exists [], (OMirror (mirror_at 5)), [OMirror (mirror_at (-2))]. split; [reflexivity|]. split; [rewrite A1, Rplus_0_l; apply mirror_at_covered|intros o' u' []].
  - rewrite R1, A1, Rplus_0_l. replace (at_z (-2)) with (at_t (at_z 5) (- e_z)%r3 7) by (rewrite A2; f_equal; lra).
    eapply light_bounce with (u := e_z); [lra| | |rewrite dot_opp_r, E5, Rabs_Ropp, Rabs_R1; lra|].
    + intros o u x [<-|[<-|[]]] Hx K; rewrite A2 in K; apply mirror_at_covers in K; destruct K as [_ K]; cbn in K; lra.
    + rewrite A2. replace (5 - 7) with (-2) by lra. exists [OMirror (mirror_at 5)], (OMirror (mirror_at (-2))), []. split; [reflexivity|]. split; [apply mirror_at_covered|].
      intros o' u' [<-|[]] K. apply mirror_at_covers in K. destruct K as [_ K]; cbn in K; lra.
    + rewrite R2, A2. replace (at_z 1) with (at_t (at_z (5 - 7)) e_z 3) by (rewrite A1; f_equal; lra). constructor; [lra|].
      intros o u x [<-|[<-|[]]] Hx K; rewrite A1 in K; apply mirror_at_covers in K; destruct K as [_ K]; cbn in K; lra.
Qed.

(** Below the tolerance the claim is false: from 1e-10 in front of a mirror a ray passes through it, and the ray sent back is reflected. *)
Theorem C70_tolerance_refuted : let w := [OMirror (mirror_at 0)] in let z := 1 - 1e-10 in
  forall r r2, ray_is r (at_z (- 1e-10)) e_z -> ray_is r2 (at_z z) (- e_z)%r3 -> blocked r = false -> blocked r2 = false -> ray_type r <> "faerie_fire"%string -> ray_type r2 <> "faerie_fire"%string ->
  (exists r', forall fuel, (2 <= fuel)%nat -> run fuel r (Fin 1) w None = Ok (r', w) /\ ray_is r' (at_z z) e_z) /\
  (exists r', forall fuel, (2 <= fuel)%nat -> run fuel r2 (Fin 1) w None = Ok (r', w) /\ ray_is r' (at_z 1e-10) e_z).
Proof.
  intros w z r r2 Hr Hr2 Hb Hb2 T T2.
  assert (W : mirrors_only w) by (repeat apply Forall_cons; [do 3 eexists; apply mirror_at_flat|apply Forall_nil]).
  assert (A1 : forall a t, at_t (at_z a) e_z t = at_z (a + t)) by (intros; unfold at_t, at_z, e_z; r3r).
  assert (A2 : forall a t, at_t (at_z a) (- e_z)%r3 t = at_z (a - t)) by (intros; unfold at_t, at_z, e_z; r3r).
  assert (R2 : refl e_z (- e_z)%r3 = e_z) by (unfold refl, e_z; r3_unf; cbn; apply r3_ext; cbn; ring).
  assert (E5 : e_z ∙ e_z = 1) by apply e_z_unit.
  split.
  - destruct (flat_iteration 1 (run_init r (Fin 1) w) 1 _ _ eq_refl Hr e_z_unit T W) as (b & B & Wb & Bb & Tb & [(Mb & Cb & Rb & _)|(x & o & c & u & A & (w1 & w2 & Ew & _) & V & Hx & On & At & _)]).
    + exists (rs_ray b). intros fuel Hf. split; [|rewrite A1 in Rb; unfold z; replace (1 - 1e-10) with (- 1e-10 + 1) by lra; exact Rb].
      change w with (rs_world (run_init r (Fin 1) w)) at 2. rewrite <- Wb. apply (run_steps 1 None 1); [eapply steps_cons; [eapply cond_go; [reflexivity|lra|reflexivity|exact Hb]|exact B|constructor]|eapply cond_spent; [exact Mb|lra]|lia].
    + exfalso. assert (Io : In o w) by (change w with (rs_world (run_init r (Fin 1) w)); rewrite Ew; apply in_elt). destruct Io as [<-|[]]. rewrite A1 in On, At.
      assert (K : covers (OMirror (mirror_at 0)) u (at_z (- 1e-10 + x))) by (exists c, A; auto). apply mirror_at_covers in K. destruct K as [_ K]. cbn in K. lra.
  - destruct (flat_iteration 1 (run_init r2 (Fin 1) w) 1 _ _ eq_refl Hr2 (unit_opp _ e_z_unit) T2 W) as (b & B & Wb & Bb & Tb & [(_ & _ & _ & _ & Cl)|(x & o & c & u & A & (w1 & w2 & Ew & _) & V & Hx & On & At & _ & Mb & _ & Rb & _)]).
    + exfalso. destruct (mirror_at_covered 0) as (c & A & V & On & At). assert (Z : at_t (at_z z) (- e_z)%r3 z = at_z 0) by (rewrite A2; f_equal; ring).
      assert (K : 1 <= z); [|unfold z in K; lra]. apply (Cl _ c e_z A z (or_introl eq_refl) V); [|rewrite Z; exact At].
      split; [rewrite dot_opp_r, E5, Rabs_Ropp, Rabs_R1; lra|]. split; [unfold z; lra|rewrite Z; exact On].
    + assert (Io : In o w) by (change w with (rs_world (run_init r2 (Fin 1) w)); rewrite Ew; apply in_elt). destruct Io as [<-|[]]. rewrite A2 in On, At.
      assert (K : covers (OMirror (mirror_at 0)) u (at_z (z - x))) by (exists c, A; auto). apply mirror_at_covers in K. destruct K as [-> K]. cbn in K. assert (x = z) by lra. subst x.
      rewrite R2, A2 in Rb. replace (z - z) with 0 in Rb by ring.
      destruct (flat_iteration 1 b (1 - z) _ _ Mb Rb e_z_unit) as (b' & B' & Wb' & Bb' & Tb' & [(Mb' & Cb' & Rb' & _)|(x' & o' & c' & u' & A' & _ & _ & Hx' & _)]).
      * rewrite Tb. exact T2.
      * rewrite Wb. exact W.
      * exists (rs_ray b'). intros fuel Hf. split; [|rewrite A1 in Rb'; replace 1e-10 with (0 + (1 - z)) by (unfold z; lra); exact Rb'].
        replace w with (rs_world b') at 2 by (rewrite Wb', Wb; reflexivity). apply (run_steps 1 None 2); [|eapply cond_spent; [exact Mb'|lra]|exact Hf].
        eapply steps_cons; [eapply cond_go; [reflexivity|lra|reflexivity|exact Hb2]|exact B|]. eapply steps_cons; [eapply cond_go; [exact Mb|unfold z; lra|reflexivity|rewrite Bb; exact Hb2]|exact B'|constructor].
      * exfalso. unfold z in Hx'. lra.
Qed.
Print Assumptions C70_tolerance_refuted.
