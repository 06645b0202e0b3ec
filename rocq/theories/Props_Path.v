(** Property C34 for all scenes of constructor-built optics, gratings included. *)
From Coq Require Import Reals ZArith Lra Lia Psatz String List Bool.
From Verif Require Import PyErr Num Vec Shapes Csg Optics Spec XReal RVec VecProofs AngleProofs FlatProofs SphereProofs CylProofs ShapeExtra
  TreeProofs SolidProofs CsgProofs RayProofs GratingProofs RunGen NoFuel RunXr OpticHits StateXr OrderProofs FlatOptic Props_Ray Props_Loop Props_Run Props_Rehit SceneProofs Props_Scene Props_Train.
Import ListNotations.
Local Open Scope R_scope.

Definition has_nan (v : vec xr) : Prop := vx v = XNaN \/ vy v = XNaN \/ vz v = XNaN.
Lemma fv_no_nan a : ~ has_nan (fv a).
Proof. unfold has_nan, fv. cbn. intuition discriminate. Qed.
Lemma nan_add p v : has_nan v -> has_nan (vadd p v).
Proof. destruct p, v. unfold has_nan, vadd. cbn. intros [->|[->| ->]]; [left|right; left|right; right]; destruct vx, vy, vz; reflexivity. Qed.
Lemma nan_add_l p v : has_nan p -> has_nan (vadd p v).
Proof. destruct p, v. unfold has_nan, vadd. cbn. intros [->|[->| ->]]; [left|right; left|right; right]; reflexivity. Qed.
Lemma nan_scale x v : has_nan v -> has_nan (vscale (Fin x) v).
Proof. destruct v. unfold has_nan, vscale. cbn. intros [->|[->| ->]]; [left|right; left|right; right]; reflexivity. Qed.

(** unit_vector gives a unit vector or a vector with a NaN *)
Lemma unit_or_nan v : (exists u, unit_vector v = fv u /\ is_unit u) \/ has_nan (unit_vector v).
Proof.
  destruct v as [a b c].
  assert (C : (exists q, V a b c = fv q) \/ has_nan (unit_vector (V a b c))).
  { destruct a as [a| | |], b as [b| | |], c as [c| | |]; try (left; eexists (mk3 _ _ _); reflexivity); right; unfold has_nan, unit_vector, vdivs, norm, dot; cbn; auto. }
  destruct C as [(q & ->)|N]; [|right; exact N].
  destruct (Req_dec (q ∙ q) 0) as [E|E].
  - right. rewrite (dot_self_zero _ E), unit_vector_zero. left. reflexivity.
  - left. assert (Z : q <> r3zero) by (intros ->; apply E; apply dot_zero_l). exists (dirn q). split; [apply unit_vector_fv, Z|apply dirn_unit, Z].
Qed.
Lemma ok_inj {A} (a b : A) : Ok a = Ok b -> a = b. Proof. intros E. injection E as ->. reflexivity. Qed.
(** a grating leaves a unit direction or a direction with a NaN, whatever the ray, the normal and the grating *)
Lemma grating_unit_or_nan g r n r' : grating_do_intersect g r n = Ok r' -> (exists u, direction r' = fv u /\ is_unit u) \/ has_nan (direction r').
Proof.
  unfold grating_do_intersect. intros H. apply bind_ok in H. destruct H as (nn & _ & H). destruct (neqb (order r) (nofZ 0)).
  - injection H as <-. unfold reflect_specular. cbn [direction set_direction]. apply unit_or_nan.
  - unfold reflect_grating in H. apply bind_ok in H. destruct H as (G & _ & H). apply ok_inj in H. rewrite <- H. apply unit_or_nan.
Qed.

(** one iteration from a ray with a unit direction: the direction stays a unit vector, or a grating makes it NaN *)
Definition grating_fails (st st' : @run_st xr) (rm : R) : Prop := exists k g x q u, chosen (rs_ray st) rm (rs_world st) k x (fv q) (Some (fv u)) /\
  nth_error (rs_world st) k = Some (OGrating g) /\ grating_do_intersect g (fly (rs_ray st) (Fin x)) (Some (fv u)) = Ok (rs_ray st') /\ has_nan (direction (rs_ray st')).
Lemma body_dir m st st' rm p d : rs_remaining st = Fin rm -> ray_is (rs_ray st) p d -> is_unit d -> ok_scene (rs_world st) -> run_body (Fin m) st = Ok st' ->
  (exists d', direction (rs_ray st') = fv d' /\ is_unit d') \/ grating_fails st st' rm.
Proof.
  intros Hrm [Hp Hdir] Hd Sc B. destruct (body_advance _ _ _ _ Hrm B) as [No R1 R2 R3 R4|k x pt n Ch R3 R4 Out].
  - left. exists d. rewrite R1. split; [exact Hdir|exact Hd].
  - destruct Out as [(_ & Er & Ew)|(_ & o1 & o' & f & En1 & Ed & Ew & _)]; [left; exists d; rewrite Er; split; [exact Hdir|exact Hd]|].
    destruct (proj1 Ch) as (o & En & (Sk & sf & Et & Dx & _)). rewrite En in En1. injection En1 as <-. rewrite Hp in Dx. destruct (finite_distance _ _ _ Dx) as (q & -> & Ex).
    pose proof (chosen_dist _ _ _ _ _ _ _ Ch) as Lx.
    destruct (Sc o (nth_error_In _ _ En)) as [Bad|(S & G & V)]; [congruence|].
    destruct (valid_hit o S G (rs_ray st) p d _ V (conj Hp Hdir) Hd Et eq_refl q eq_refl) as (Sq & (u & Eu & Uu) & t & Eq & Lt). cbn in Eu. subst n.
    destruct (is_grating o) eqn:Gr.
    + destruct o; try discriminate Gr. cbn [optic_do_intersect] in Ed. apply bind_ok in Ed. destruct Ed as (r1 & Ed & X). injection X as -> _.
      destruct (grating_unit_or_nan _ _ _ _ Ed) as [U|Nn]; [left; exact U|right]. exists k, g, x, q, u. auto.
    + left. eapply (valid_do o S G (fly (rs_ray st) (Fin x)) d q u f _ o' V Gr Sq Uu); [exact Hdir|exact Hd| |exact Ed].
      destruct Lt as [Lt|Lt]; [left|right; exists p, d; exact Lt]. rewrite (proj1 (fly_ray _ p d x (conj Hp Hdir))). f_equal. rewrite Ex, Eq, fly_to by (try assumption; lra). reflexivity.
Qed.
(** one iteration moves the ray along its direction by a finite distance *)
Lemma body_moves m st st' rm : rs_remaining st = Fin rm -> run_body (Fin m) st = Ok st' -> exists x rm', rs_remaining st' = Fin rm' /\
  position (rs_ray st') = vadd (position (rs_ray st)) (vscale (Fin x) (direction (rs_ray st))) /\ 
  point_history (rs_ray st') = point_history (rs_ray st) ++ [position (rs_ray st')].
Proof.
  intros Hrm B. destruct (body_advance _ _ _ _ Hrm B) as [No R1 R2 R3 R4|k x pt n Ch R3 R4 Out].
  - exists rm, (rm - m). rewrite R1. auto.
  - exists x, (rm - x). split; [exact R4|]. destruct Out as [(_ & Er & Ew)|(_ & o1 & o' & f & En1 & Ed & Ew & _)]; [rewrite Er; auto|].
    destruct (do_frame _ _ _ _ _ _ _ Ed) as [(F1 & F2 & F3 & F4 & F5) _]. rewrite F1, F4. auto.
Qed.

Section Path.
Variables (m : R) (maxi : option Z) (r : ray xr) (w : list (optic xr)) (p0 d0 : R3).
Hypotheses (Hm : 0 <= m) (Hr : ray_is r p0 d0) (Hd : is_unit d0) (Sc : ok_scene w).

(** a grating without the diffraction order of the ray was hit within the first n iterations *)
Definition lost_within (n : nat) : Prop := exists n1 st1 st2 rm, (n1 < n)%nat /\ steps (Fin m) maxi n1 (run_init r (Fin m) w) st1 /\ rs_remaining st1 = Fin rm /\
  unit_state st1 /\ run_body (Fin m) st1 = Ok st2 /\ grating_fails st1 st2 rm.
Definition on_path (n : nat) (st : @run_st xr) : Prop := exists p pts rm, position (rs_ray st) = fv p /\ point_history (rs_ray st) = point_history r ++ map fv pts /\ length pts = n /\ p = last_point p0 pts /\
  rs_remaining st = Fin rm /\ ((0 <= rm /\ path_length p0 pts = m - rm /\ rs_count st = Z.of_nat n) \/ (rm <= 0 /\ path_length p0 pts = m)).
Lemma path_steps n st : steps (Fin m) maxi n (run_init r (Fin m) w) st ->
  (on_path n st /\ ok_scene (rs_world st) /\ exists d, direction (rs_ray st) = fv d /\ is_unit d) \/
  (lost_within n /\ exists rm, rs_remaining st = Fin rm /\ ((on_path n st /\ has_nan (direction (rs_ray st))) \/ has_nan (position (rs_ray st)))).
Proof.
  remember (run_init r (Fin m) w) as st0 eqn:E0. induction 1 as [st|n st st1 st2 S IH C B]; subst.
  - left. split; [|split; [exact Sc|exists d0; split; [apply Hr|exact Hd]]]. exists p0, [], m. cbn. rewrite app_nil_r. split; [apply Hr|]. split; [reflexivity|]. split; [reflexivity|]. split; [reflexivity|].
    split; [reflexivity|]. left. split; [exact Hm|]. split; [ring|reflexivity].
  - destruct (IH eq_refl) as [((p & pts & rm & Hp & Hh & Ln & Lp & Hrm & Inv) & Sc1 & d & Hd1 & Ud1)|((n1 & a & b & rma & Ln1 & Sa & Ma & Ua & Ba & Fa) & rm & Hrm & Rest)].
    + pose proof (cond_pos _ _ _ Hrm C) as P. destruct Inv as [(_ & Pl & Cn)|(X & _)]; [|lra].
      destruct (body_ok m st1 st2 rm p d Hrm (conj Hp Hd1) Ud1 Sc1 B) as (Sc2 & _ & Cases).
      assert (Pt : on_path (Datatypes.S n) st2).
      { destruct Cases as [(Rm & Ps & _ & Hs & _)|(k & o & SS & G & q & u & x & Ch & En & V & Sq & Uu & Ex & Lx & Rm & Ps & Qx & Hs & Ct)].
        - exists (at_t p d rm), (pts ++ [at_t p d rm]), (rm - m).
          rewrite Hs, Hh, map_app, <- app_assoc, app_length, last_snoc, path_snoc, <- Lp, fly_to by assumption. cbn [map length]. repeat split; auto; [lia|]. right.
          pose proof (path_nonneg pts p0). split; lra.
        - exists (at_t p d x), (pts ++ [at_t p d x]), (rm - x).
          rewrite Hs, Hh, map_app, <- app_assoc, app_length, last_snoc, path_snoc, <- Lp, fly_to by (try assumption; lra). cbn [map length]. repeat split; auto; [lia|]. left.
          split; [lra|]. split; [lra|]. rewrite Ct, Cn. lia. }
      destruct (body_dir m st1 st2 rm p d Hrm (conj Hp Hd1) Ud1 Sc1 B) as [U|F].
      * left. auto.
      * right. split.
        -- exists n, st1, st2, rm. split; [lia|]. split; [exact S|]. split; [exact Hrm|]. split; [exists p, d; split; [split; assumption|exact Ud1]|]. auto.
        -- destruct Pt as (p2 & pts2 & rm2 & A1 & A2 & A3 & A4 & A5 & A6). exists rm2. split; [exact A5|]. left. split; [exists p2, pts2, rm2; auto 10|]. destruct F as (k & g & x & q & u & _ & _ & _ & N). exact N.
    + right. split; [exists n1, a, b, rma; split; [lia|auto]|]. destruct (body_moves m st1 st2 rm Hrm B) as (x & rm' & Rm' & Ps & _). exists rm'. split; [exact Rm'|]. right. rewrite Ps.
      destruct Rest as [(_ & N)|N]; [apply nan_add, nan_scale, N|apply nan_add_l, N].
Qed.
End Path.

(** C34 (partial): the length of the polyline added by run never exceeds max_distance and equals it whenever the ray did not end blocked and the interaction limit was not reached, in every
    scene of constructor-built optics, gratings included, unless a grating was hit that does not have the diffraction order of the ray; in that case, the ray leaves the grating with a NaN in its
    direction and, if run goes on, a NaN in its position (refuted below). *)
Theorem C34_path_length_partial : forall m maxi fuel r w r' w' p d, 0 <= m -> ray_is r p d -> is_unit d -> ok_scene w -> run fuel r (Fin m) w maxi = Ok (r', w') ->
  (exists pts, point_history r' = point_history r ++ map fv pts /\ path_length p pts <= m /\
   (blocked r' = false -> (forall N, maxi = Some N -> (Z.of_nat (length pts) < N)%Z) -> path_length p pts = m)) \/
  (has_nan (position r') /\ exists n st st' rm, steps (Fin m) maxi n (run_init r (Fin m) w) st /\ rs_remaining st = Fin rm /\ unit_state st /\ run_body (Fin m) st = Ok st' /\ grating_fails st st' rm).
Proof.
  intros m maxi fuel r w r' w' p d Hm Hr Hd Sc H. unfold run in H. apply bind_ok in H. destruct H as (st & L & H). injection H as <- <-.
  apply loop_steps in L. destruct L as (n & _ & S & C).
  assert (Fine : on_path m r p n st -> exists pts, point_history (rs_ray st) = point_history r ++ map fv pts /\ path_length p pts <= m /\
   (blocked (rs_ray st) = false -> (forall N, maxi = Some N -> (Z.of_nat (length pts) < N)%Z) -> path_length p pts = m)).
  { intros (q & pts & rm & Hp & Hh & Ln & Lp & Hrm & Inv). exists pts. split; [exact Hh|]. destruct Inv as [(P & Q & Ct)|(P & Q)]; [|split; [lra|intros; exact Q]].
    split; [lra|]. intros Bl Lim. destruct (Rle_dec rm 0) as [Z|Z]; [lra|]. exfalso. unfold run_cond in C. rewrite Hrm, Bl, nofZ_fin, ngt_fin, Rltb_true in C by lra. cbn [negb] in C.
    destruct maxi as [N|]; cbn in C; [|discriminate]. rewrite andb_true_r in C. specialize (Lim N eq_refl). rewrite Ct, <- Ln in C. 
    destruct (Z.ltb_spec (Z.of_nat (length pts)) N); [discriminate|lia]. }
  destruct (path_steps m maxi r w p d Hm Hr Hd Sc n st S) as [(Pt & _)|(Lo & rm & Hrm & [(Pt & _)|N])]; [left; auto..|right].
  split; [exact N|]. destruct Lo as (n1 & a & b & rma & _ & Sa & Ma & Ua & Ba & Fa). exists n1, a, b, rma. auto 10.
Qed.
Print Assumptions C34_path_length_partial.

(* ---- a grating without the order of the ray ---- *)
Definition grat5 : grating xr := mkGrating (fv (at_z 5)) (fv e_z) (fv e_x) "rectangular_flat" (Some (Fin 1000)) [SRectangle (rect_of (at_z 5) e_z e_x 2 2)].
Lemma grat5_built : mk_grating (fv (at_z 5)) (Some (fv e_z)) (Some (fv e_x)) "rectangular_flat" (Some (Fin 2)) (Some (Fin 2)) (Some (Fin 1000)) = Ok grat5.
Proof.
  unfold mk_grating. cbn [unit_vector_o]. rewrite !unit_vector_unit by (apply e_z_unit || apply e_x_unit). cbn [bind]. change (String.eqb "rectangular_flat" "rectangular_flat") with true. cbn iota.
  rewrite mk_rectangle_fv by (apply e_z_nz || apply e_x_nz). rewrite !dirn_of_unit by (apply e_z_unit || apply e_x_unit).
  rewrite Rleb_true by (unfold r3dot, e_z, e_x; cbn; rewrite Rabs_right; lra). rewrite !Rltb_false by lra. reflexivity.
Qed.
Lemma grat5_flat : flat_optic (OGrating grat5) (at_z 5) e_z (in_rect (at_z 5) e_z e_x 2 2).
Proof.
  pose proof (FO_grating (at_z 5) e_z e_x 2 2 (Some (Fin 1000)) grat5 e_z_nz e_x_nz grat5_built) as H.
  rewrite (dirn_of_unit e_z e_z_unit), (dirn_of_unit e_x e_x_unit) in H. exact H.
Qed.
Definition ray3 : ray xr := a_ray (at_z 0) e_z 3 500.
Lemma ray3_is : ray_is ray3 (at_z 0) e_z. Proof. split; reflexivity. Qed.
Lemma nan_test r : direction r = V XNaN XNaN XNaN -> optic_test_intersect (OGrating grat5) r = Ok (H4 false None None (flat_side (OGrating grat5))).
Proof.
  intros E. cbn [optic_test_intersect]. unfold flat_test_intersect. cbn [grat5 gr_shape gr_surfaces]. change (String.eqb "rectangular_flat" "rectangular_flat") with true. rewrite orb_true_r. cbn [flat_loop].
  unfold flat_step. cbn [shape_test_intersect]. unfold rectangle_test_intersect.
  assert (P : plane_test_intersect (re_plane (rect_of (at_z 5) e_z e_x 2 2)) r = miss3).
  { unfold plane_test_intersect. rewrite E.
    match goal with |- (if ngt (nabs (dot ?a ?b)) _ then _ else _) = _ => assert (D : dot a b = XNaN) end.
    { cbn [re_plane rect_of mk_plane pl_normal]. rewrite !unit_vector_unit by apply e_z_unit. reflexivity. }
    rewrite D. unfold ARB_EPSILON_VALUE. rewrite dec_fin by lia. reflexivity. }
  rewrite P. reflexivity.
Qed.
(** the third order of 500 nm light does not exist on a grating of 1000 lines/mm at normal incidence: the ray is not blocked and no limit applies, but its last recorded position is not a point *)
Theorem C34_order_refuted : exists r g r', ray_is r (at_z 0) e_z /\ blocked r = false /\
  mk_grating (fv (at_z 5)) (Some (fv e_z)) (Some (fv e_x)) "rectangular_flat" (Some (Fin 2)) (Some (Fin 2)) (Some (Fin 1000)) = Ok g /\ ok_scene [OGrating g] /\
  run 2 r (Fin 10) [OGrating g] None = Ok (r', [OGrating g]) /\ blocked r' = false /\ has_nan (position r') /\ ~ exists pts, point_history r' = point_history r ++ map fv pts.
Proof.
  exists ray3, grat5.
  set (r1 := set_direction (fly ray3 (Fin 5)) (V XNaN XNaN XNaN)).
  assert (At : at_t (at_z 0) e_z 5 = at_z 5) by (unfold at_t, at_z, e_z; r3r).
  assert (Dz : e_z ∙ e_z = 1) by apply e_z_unit.
  assert (Rp : reports ray3 10 (OGrating grat5) 5 (fv (at_t (at_z 0) e_z 5)) (Some (fv e_z))).
  { eapply flat_axis_yes with (N := e_z); [apply grat5_flat|left; reflexivity|apply ray3_is|apply e_z_unit|rewrite Dz; unfold at_z, e_z, r3dot, r3sub; cbn; lra|lra|rewrite Dz, Rabs_R1; lra| |lra].
    rewrite At. unfold in_rect. replace (at_z 5 - at_z 5)%r3 with r3zero by (unfold at_z; r3r). rewrite !dot_zero_l, Rabs_R0.
    split; right; [lra|]. assert (0 <= (e_z × e_x)%r3 ∙ (e_z × e_x)%r3) by apply dot_self_nonneg. lra. }
  assert (Ch : chosen ray3 10 [OGrating grat5] 0 5 (fv (at_t (at_z 0) e_z 5)) (Some (fv e_z))).
  { eapply chosen_intro; [reflexivity|exact Rp|]. intros j o' x' pt' n' Ej Nj _. destruct j as [|[|j]]; [congruence|discriminate..]. }
  assert (Do : forall s, optic_do_intersect (OGrating grat5) (fly ray3 (Fin 5)) (fv (at_t (at_z 0) e_z 5)) (Some (fv e_z)) s = Ok (r1, OGrating grat5)).
  { intros s. cbn [optic_do_intersect].
    destruct (C31_groove (fly ray3 (Fin 5)) grat5 e_z e_z e_x 1000 3 500) as [_ X]; try reflexivity; try apply e_z_unit; try apply e_x_unit; try lra.
    - split; reflexivity.
    - unfold orth, e_z, e_x, r3dot. cbn. ring.
    - replace (perp e_x e_z) with e_z by (unfold perp, e_x, e_z; r3r). apply e_z_nz.
    - rewrite X; [reflexivity|]. replace (perp e_x e_z) with e_z by (unfold perp, e_x, e_z; r3r). rewrite (dirn_of_unit e_z e_z_unit).
      replace (e_z ∙ (e_x × e_z)%r3) with 0 by (unfold e_x, e_z; r3r). rewrite Rabs_R0. unfold gml. lra. }
  destruct (body_chosen 10 (run_init ray3 (Fin 10) [OGrating grat5]) 10 0 5 (fv (at_t (at_z 0) e_z 5)) (Some (fv e_z)) (OGrating grat5) r1 (OGrating grat5)) as (st1 & B1 & R1 & W1 & M1 & C1).
  { reflexivity. } { apply Forall_cons; [|apply Forall_nil]. eapply flat_test_ok; [apply grat5_flat|apply ray3_is|apply e_z_unit]. } { exact Ch. } { reflexivity. } { discriminate. } { exact Do. }
  cbn [set_nth run_init rs_world] in W1. replace (10 - 5) with 5 in M1 by ring.
  assert (B2 : run_body (Fin 10) st1 = Ok (mkRun (fly r1 (Fin 5)) [OGrating grat5] (rs_count st1) (Fin (5 - 10)) (rs_sel st1) (Some (flat_side (OGrating grat5))))).
  { unfold run_body. rewrite R1, W1, M1. cbn [scan]. unfold scan_step. cbn [skipped]. rewrite (nan_test r1 eq_refl). reflexivity. }
  exists (fly r1 (Fin 5)). split; [apply ray3_is|]. split; [reflexivity|]. split; [apply grat5_built|].
  split. { intros o [<-|[]]. right. do 2 eexists. eapply VO_grating; [apply e_z_nz|apply e_x_nz|apply grat5_built]. }
  split. { unfold run. cbn [run_loop]. rewrite (cond_go None _ 10) by (try reflexivity; lra). rewrite B1. cbn [bind]. rewrite (cond_go None st1 5 M1) by (first [reflexivity|lra|rewrite R1; reflexivity]). rewrite B2. cbn [bind].
    rewrite (cond_spent None _ (5 - 10)) by (try reflexivity; lra). reflexivity. }
  split; [reflexivity|]. split; [left; reflexivity|]. intros (pts & H).
  change (point_history (fly r1 (Fin 5))) with (point_history ray3 ++ [position (fly ray3 (Fin 5)); V XNaN XNaN XNaN]) in H. apply app_inv_head in H.
  destruct pts as [|a [|b pts]]; discriminate H.
Qed.
Print Assumptions C34_order_refuted.
Example C34_hyp : exists r', run 3 z_ray (Fin 10) [] None = Ok (r', []) /\ blocked r' = false.
Proof.
  eexists. unfold run. cbn [run_loop]. rewrite active by (try reflexivity; lra).
  unfold run_body at 1. cbn [scan bind run_init rs_ray rs_remaining rs_world rs_count rs_sel rs_sfo negb sc_hit sc_sel sc_sfo]. rewrite nsub_fin.
  unfold run_cond. cbn [rs_remaining]. rewrite nofZ_fin, ngt_fin, Rltb_false by lra. split; reflexivity.
Qed.
