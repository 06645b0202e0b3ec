(** Property C65: the method of images for scenes of flat mirrors. *)
From Coq Require Import Reals ZArith Lra Lia Psatz String List Bool.
From Verif Require Import PyErr Num Vec Shapes Csg Optics Spec XReal RVec VecProofs AngleProofs FlatProofs SphereProofs CylProofs ShapeExtra
  TreeProofs SolidProofs CsgProofs RayProofs RunGen NoFuel RunXr OpticHits StateXr OrderProofs FlatOptic Props_Ray Props_Loop Props_Run Props_Rehit SceneProofs Props_Scene Props_Train.
Import ListNotations.
Local Open Scope R_scope.

(** ** Specification: mirror images *)
(** the mirror image of the point x in the plane through c with unit normal u *)
Definition mir (c u x : R3) : R3 := (x - (2 * ((x - c) ∙ u)) * u)%r3.

(** [flat_mirror o c u A]: o is built as a flat mirror of type "normal" at c with unit normal u and aperture A *)
Definition flat_mirror (o : optic xr) (c u : R3) (A : R3 -> Prop) : Prop := exists m, o = OMirror m /\ mi_type m = "normal"%string /\ flat_optic o c u A.
Definition mirrors_only (w : list (optic xr)) : Prop := Forall (fun o => exists c u A, flat_mirror o c u A) w.

(** successive reflections in a list of planes (point, unit normal), the first of the list first: of points, and of directions *)
Definition images (cs : list (R3 * R3)) (x : R3) : R3 := fold_left (fun y cu => mir (fst cu) (snd cu) y) cs x.
Definition turns (cs : list (R3 * R3)) (d : R3) : R3 := fold_left (fun y cu => refl (snd cu) y) cs d.

(** no mirror of w is met from q in direction e before the distance a (the planes are met only at more than 1e-9 and angles above 1e-9, as coded in Plane.test_intersect) *)
Definition clear_until (w : list (optic xr)) (q e : R3) (a : R) : Prop :=
  forall o c u A t, In o w -> flat_mirror o c u A -> meets_plane c u q e t -> A (at_t q e t) -> a <= t.

(** [unfolds w p d cs s pts]: along the straight line from p in direction d, the ray has met one mirror after the other, with planes cs, the last one at the distance s; the corners of
    its path are pts.  Each mirror is met by the image of the straight line under the reflections in the mirrors met before, inside its aperture, and is the first to be met. *)
Inductive unfolds (w : list (optic xr)) (p d : R3) : list (R3 * R3) -> R -> list (vec xr) -> Prop :=
| uf_start : unfolds w p d [] 0 []
| uf_hit cs s pts o c u A x : unfolds w p d cs s pts -> In o w -> flat_mirror o c u A -> s < x -> on_plane c u (images cs (at_t p d x)) -> A (images cs (at_t p d x)) ->
    clear_until w (images cs (at_t p d s)) (turns cs d) (x - s) ->
    unfolds w p d (cs ++ [(c, u)]) x (pts ++ [fv (images cs (at_t p d x))]).

(** ** Proofs *)
Lemma nat_above x : exists n, x < INR n.
Proof. exists (Z.to_nat (Z.max 0 (up x))). rewrite INR_IZR_INZ, Z2Nat.id by lia. destruct (archimed x) as [A _]. pose proof (IZR_le _ _ (Z.le_max_r 0 (up x))). lra. Qed.
Lemma at_start p d : at_t p d 0 = p. Proof. unfold at_t. r3_ring. Qed.
Lemma mir_fix c u x : on_plane c u x -> mir c u x = x.
Proof. unfold on_plane, mir. intros ->. r3_ring. Qed.
Lemma mir_line c u x v t : mir c u (at_t x v t) = at_t (mir c u x) (refl u v) t.
Proof. unfold mir, at_t, refl. replace ((x + t * v - c)%r3 ∙ u) with ((x - c)%r3 ∙ u + t * (v ∙ u)) by r3_ring. set (a := (x - c)%r3 ∙ u). set (b := v ∙ u). clearbody a b. r3_ring. Qed.
Lemma images_app cs c u x : images (cs ++ [(c, u)]) x = mir c u (images cs x).
Proof. unfold images. rewrite fold_left_app. reflexivity. Qed.
Lemma turns_app cs c u x : turns (cs ++ [(c, u)]) x = refl u (turns cs x).
Proof. unfold turns. rewrite fold_left_app. reflexivity. Qed.
Lemma images_line cs : forall x v t, images cs (at_t x v t) = at_t (images cs x) (turns cs v) t.
Proof. induction cs as [|[c u] cs IH] using rev_ind; intros x v t; [reflexivity|]. rewrite !images_app, turns_app, IH. apply mir_line. Qed.
Lemma images_on cs p d s x : images cs (at_t p d (s + x)) = at_t (images cs (at_t p d s)) (turns cs d) x.
Proof. rewrite <- images_line. f_equal. unfold at_t. r3_ring. Qed.
Lemma unfolds_unit w p d cs s pts : unfolds w p d cs s pts -> is_unit d -> is_unit (turns cs d).
Proof. intros H U. induction H; [exact U|]. rewrite turns_app. destruct H1 as (m & _ & _ & V). apply refl_unit; [eapply flat_unit; exact V|assumption]. Qed.

Lemma mirror_hit o c u A r p d s pt : flat_mirror o c u A -> ray_is r p d -> is_unit d -> 
  optic_do_intersect o r pt (Some (fv u)) s = Ok (set_direction r (fv (refl u d)), o).
Proof.
  intros (m & -> & Ty & V) [Hp Hd] U. pose proof (flat_unit _ _ _ _ V) as Uu. cbn [optic_do_intersect]. unfold mirror_do_intersect. rewrite Ty.
  change (String.eqb "normal" "normal") with true. cbn iota. cbn [need bind]. rewrite (reflect_fv r d u Hd) by (apply unit_nonzero; assumption).
  rewrite !dirn_of_unit by assumption. reflexivity.
Qed.
Lemma meets_reports o c u A r p d t rm : flat_mirror o c u A -> ray_is r p d -> is_unit d -> meets_plane c u p d t -> A (at_t p d t) -> t <= rm -> reports r rm o t (fv (at_t p d t)) (Some (fv u)).
Proof.
  intros (m & _ & _ & V) Hr U M At L. apply (meets_along c u u p d t (or_introl eq_refl)) in M. destruct M as (M1 & M2 & M3).
  eapply flat_axis_yes with (N := u); [exact V|left; reflexivity|eassumption..].
Qed.

(** one iteration in a scene of flat mirrors *)
Lemma flat_iteration m st rm p d : rs_remaining st = Fin rm -> ray_is (rs_ray st) p d -> is_unit d -> ray_type (rs_ray st) <> "faerie_fire"%string ->
  mirrors_only (rs_world st) -> exists st', run_body (Fin m) st = Ok st' /\ rs_world st' = rs_world st /\ blocked (rs_ray st') = blocked (rs_ray st) /\ ray_type (rs_ray st') = ray_type (rs_ray st) /\
  ((rs_remaining st' = Fin (rm - m) /\ rs_count st' = rs_count st /\ ray_is (rs_ray st') (at_t p d rm) d /\ point_history (rs_ray st') = point_history (rs_ray st) ++ [fv (at_t p d rm)] /\
    clear_until (rs_world st) p d rm) \/
   exists x o c u A, (exists w1 w2, rs_world st = w1 ++ o :: w2 /\ forall o' c' u' A', In o' w1 -> flat_mirror o' c' u' A' -> meets_plane c' u' p d x -> ~ A' (at_t p d x)) /\ flat_mirror o c u A /\ 1e-9 < x <= rm /\ on_plane c u (at_t p d x) /\ A (at_t p d x) /\ clear_until (rs_world st) p d x /\
     rs_remaining st' = Fin (rm - x) /\ rs_count st' = (rs_count st + 1)%Z /\
     ray_is (rs_ray st') (at_t p d x) (refl u d) /\ point_history (rs_ray st') = point_history (rs_ray st) ++ [fv (at_t p d x)]).
Proof.
  intros Hrm Hr U NF W.
  assert (Ok : Forall (test_ok (rs_ray st)) (rs_world st)).
  { eapply Forall_impl; [|exact W]. intros o (c & u & A & mm & _ & _ & V). eapply flat_test_ok; eassumption. }
  destruct (proj2 (scan_ok (rs_ray st) (Fin rm) (rs_world st) (mkScan false ninf (rs_sel st) (rs_sfo st)) 0) Ok) as (sc & Sc).
  destruct (scan_nearest _ _ _ _ _ _ Sc) as [(_ & _ & No)|(_ & k & x & pt & n & _ & Ch)].
  - destruct (body_free m st rm p d Hrm Hr Ok No) as (st1 & B1 & R1 & W1 & M1 & C1). exists st1. split; [exact B1|]. rewrite R1. split; [exact W1|]. split; [reflexivity|]. split; [reflexivity|].
    left. split; [exact M1|]. split; [exact C1|]. split; [apply fly_ray, Hr|]. split; [apply fly_history with (1 := Hr)|].
    intros o c u A t Io V M At. destruct (Rle_dec rm t) as [H|H]; [exact H|]. exfalso. apply In_nth_error in Io. destruct Io as (j & En). eapply (No j o _ _ _ En), meets_reports; try eassumption. lra.
  - pose proof Ch as [(o & En & Rp) Mn]. pose proof (nth_error_In _ _ En) as Io. pose proof (proj1 (Forall_forall _ _) W o Io) as (c & u & A & V). pose proof V as (mm & _ & _ & Vf).
    destruct (flat_axis o c u A u _ _ _ _ _ _ _ Vf (or_introl eq_refl) Hr U Rp) as (E1 & E2 & E3 & E4 & -> & -> & E7).
    destruct (body_chosen m st rm k x _ _ o (set_direction (fly (rs_ray st) (Fin x)) (fv (refl u d))) o Hrm Ok Ch En NF) as (st1 & B1 & R1 & W1 & M1 & C1).
    { intros s. apply mirror_hit with (c := c) (A := A) (p := at_t p d x); [exact V|apply fly_ray, Hr|exact U]. }
    exists st1. split; [exact B1|]. rewrite R1, W1. split; [apply set_nth_same; exact En|]. split; [reflexivity|]. split; [reflexivity|].
    right. exists x, o, c, u, A. split.
    { destruct (nth_error_split _ _ En) as (w1 & w2 & Ew & Lw). exists w1, w2. split; [exact Ew|]. intros o' c' u' A' Io' V' M' At'. apply In_nth_error in Io'. destruct Io' as (j & En').
      assert (Lj : (j < k)%nat) by (rewrite <- Lw; apply nth_error_Some; congruence). assert (En2 : nth_error (rs_world st) j = Some o') by (rewrite Ew, nth_error_app1 by lia; exact En').
      pose proof (proj2 (Mn j o' x _ _ En2 (meets_reports _ _ _ _ _ _ _ _ rm V' Hr U M' At' ltac:(lra))) Lj). lra. }
    split; [exact V|]. split; [lra|]. split; [apply along_plane with (N := u); [left; reflexivity|apply plane_at; exact E1]|].
    split; [exact E4|]. split; [|split; [exact M1|]; split; [exact C1|]; split; [eapply set_dir_ray, fly_ray, Hr|apply fly_history with (1 := Hr)]].
    intros o' c' u' A' t Io' V' M' At'. destruct (Rle_dec x t) as [H|H]; [exact H|]. apply In_nth_error in Io'. destruct Io' as (j & En').
    refine (proj1 (Mn j o' t _ _ En' _)). eapply meets_reports; try eassumption. lra.
Qed.

Section Images.
Variables (w : list (optic xr)) (r : ray xr) (p d : R3) (m : R).
Hypotheses (W : mirrors_only w) (Hr : ray_is r p d) (Ud : is_unit d) (NF : ray_type r <> "faerie_fire"%string) (Hm : 0 <= m).

Definition im_inv (st : @run_st xr) : Prop :=
  rs_world st = w /\ blocked (rs_ray st) = blocked r /\ ray_type (rs_ray st) = ray_type r /\
  exists cs s pts rm, unfolds w p d cs s pts /\ 0 <= s <= m /\ rs_count st = Z.of_nat (List.length cs) /\ rs_remaining st = Fin rm /\
   ((rm = m - s /\ ray_is (rs_ray st) (images cs (at_t p d s)) (turns cs d) /\ point_history (rs_ray st) = point_history r ++ pts) \/
    (rm <= 0 /\ s < m /\ ray_is (rs_ray st) (images cs (at_t p d m)) (turns cs d) /\ point_history (rs_ray st) = point_history r ++ pts ++ [fv (images cs (at_t p d m))] /\
     clear_until w (images cs (at_t p d s)) (turns cs d) (m - s))).

Lemma im_body maxi a : run_cond maxi a = true -> im_inv a -> exists b, run_body (Fin m) a = Ok b /\ im_inv b.
Proof.
  intros C (Wa & Ba & Ta & cs & s & pts & rm & Im & Hs & Ca & Ma & Rest).
  pose proof (cond_pos _ _ _ Ma C) as P. destruct Rest as [(-> & Ra & Ha)|(X & _)]; [|lra].
  destruct (flat_iteration m a (m - s) _ _ Ma Ra (unfolds_unit _ _ _ _ _ _ Im Ud)) as (b & B & Wb & Bb & Tb & [(Mb & Cb & Rb & Hb & Cl)|(x & o & c & u & A & (w1 & w2 & Ew & _) & V & Hx & On & At & Cl & Mb & Cb & Rb & Hb)]); try assumption.
  - rewrite Ta. exact NF.
  - rewrite Wa. exact W.
  - exists b. split; [exact B|]. split; [congruence|]. split; [congruence|]. split; [congruence|]. rewrite <- images_on in Rb, Hb. replace (s + (m - s)) with m in Rb, Hb by ring. rewrite Wa in Cl.
    exists cs, s, pts, (m - s - m). split; [exact Im|]. split; [lra|]. split; [congruence|]. split; [exact Mb|]. right. split; [lra|]. split; [lra|]. split; [exact Rb|].
    split; [rewrite Hb, Ha, app_assoc; reflexivity|exact Cl].
  - assert (Io : In o (rs_world a)) by (rewrite Ew; apply in_elt). exists b. split; [exact B|]. split; [congruence|]. split; [congruence|]. split; [congruence|]. rewrite <- images_on in Rb, Hb, On, At. rewrite Wa in Io, Cl.
    exists (cs ++ [(c, u)]), (s + x), (pts ++ [fv (images cs (at_t p d (s + x)))]), (m - s - x).
    split; [eapply uf_hit; try eassumption; [lra|replace (s + x - s) with x by ring; exact Cl]|]. split; [lra|]. split; [rewrite Cb, Ca, app_length; cbn [List.length]; lia|]. split; [exact Mb|].
    left. split; [ring|]. split; [rewrite images_app, turns_app, mir_fix by exact On; exact Rb|]. rewrite Hb, Ha, app_assoc. reflexivity.
Qed.
Lemma im_step maxi a b : run_cond maxi a = true -> run_body (Fin m) a = Ok b -> im_inv a -> im_inv b.
Proof. intros C B I. destruct (im_body maxi a C I) as (b' & B' & I'). rewrite B in B'. injection B' as <-. exact I'. Qed.
Lemma im_start : im_inv (run_init r (Fin m) w).
Proof.
  split; [reflexivity|]. split; [reflexivity|]. split; [reflexivity|]. exists [], 0, [], m. split; [constructor|]. split; [lra|]. split; [reflexivity|]. split; [reflexivity|].
  left. split; [ring|]. split; [|cbn; rewrite app_nil_r; reflexivity]. rewrite at_start. exact Hr.
Qed.
End Images.

(** C65: in a scene of flat mirrors the whole run of a ray unfolds to a straight line.  There is a list cs of mirror planes met one after the other (each the first to be met and inside
    the aperture of the mirror) such that the final position is the image, under the reflections in cs, of the point p + m d straight ahead at the full distance m; the final direction is
    the image of d under the same reflections; the recorded points are the corners and the final point; after the last corner no further mirror is met; the scene is unchanged and the ray is
    not blocked. *)
Theorem C65_images : forall w r p d m, mirrors_only w -> ray_is r p d -> is_unit d -> blocked r = false -> ray_type r <> "faerie_fire"%string -> 0 <= m ->
  exists r', (forall fuel, m / 1e-12 + 1 < INR fuel -> run fuel r (Fin m) w None = Ok (r', w)) /\ blocked r' = false /\
  exists cs s pts, unfolds w p d cs s pts /\ s <= m /\ ray_is r' (images cs (at_t p d m)) (turns cs d) /\
    (s < m -> point_history r' = point_history r ++ pts ++ [fv (images cs (at_t p d m))] /\ clear_until w (images cs (at_t p d s)) (turns cs d) (m - s)) /\
    (s = m -> point_history r' = point_history r ++ pts).
Proof.
  intros w r p d m W Hr Ud Hb NF Hm. destruct (proj1 (C33_terminates r w) m None Hm) as (_ & res & NO & Go).
  assert (Inv : forall n st, steps (Fin m) None n (run_init r (Fin m) w) st -> im_inv w r p d m st).
  { intros n st S. eapply steps_inv; [intros a b; apply im_step; assumption|exact S|apply im_start; assumption]. }
  destruct (nat_above (m / 1e-12 + 1)) as (fuel & Lf). pose proof (Go fuel Lf) as E. unfold run in E.
  destruct (run_loop fuel (Fin m) None (run_init r (Fin m) w)) as [st|e] eqn:El; cbn [bind] in E.
  - destruct (loop_steps _ _ _ _ _ El) as (n & _ & S & C).
    destruct (Inv n st S) as (Wa & Ba & Ta & cs & s & pts & rm & Im & Hs & _ & Ma & Rest). exists (rs_ray st).
    split; [intros k Lk; rewrite (Go k Lk), <- E, Wa; reflexivity|]. split; [congruence|]. exists cs, s, pts. split; [exact Im|]. split; [lra|].
    destruct Rest as [(-> & Ra & Ha)|(L & Ls & Ra & Ha & Cl)].
    + assert (s = m). { destruct (Rle_dec (m - s) 0); [lra|]. rewrite (cond_go None st (m - s) Ma) in C; [discriminate|lra|reflexivity|congruence]. } subst s.
      split; [exact Ra|]. split; [lra|]. intros _. exact Ha.
    + split; [exact Ra|]. split; [auto|lra].
  - exfalso. destruct (loop_err _ _ _ _ _ El) as (n & st & S & C & [[_ B]|[_ ->]]); [|apply NO; symmetry; exact E].
    destruct (im_body w r p d m W Ud NF None st C (Inv n st S)) as (b & B' & _). rewrite B in B'. discriminate.
Qed.
Print Assumptions C65_images.

Lemma two_turns u v x : is_unit u -> is_unit v -> let w := (u × v)%r3 in
  ((2 * (u ∙ v * (u ∙ v)) - 1) * x + (2 * (u ∙ v)) * (w × x) + (2 * (w ∙ x)) * w)%r3 = refl v (refl u x).
Proof.
  intros U V w. assert (E : ((w ∙ x) * w)%r3 = ((u ∙ u * (v ∙ v) - u ∙ v * (u ∙ v)) * x - (x ∙ v) * ((u ∙ u) * v - (u ∙ v) * u) + (x ∙ u) * ((u ∙ v) * v - (v ∙ v) * u))%r3) by (unfold w; clear; r3_ring).
  replace ((2 * (w ∙ x)) * w)%r3 with (2 * ((w ∙ x) * w))%r3 by (set (k := w ∙ x); clearbody k w; clear; r3_ring). rewrite E.
  assert (E2 : (w × x)%r3 = ((x ∙ u) * v - (x ∙ v) * u)%r3) by (unfold w; clear; r3_ring). rewrite E2. unfold is_unit in *. rewrite U, V.
  unfold refl. rewrite dot_sub_l, dot_scale_l. set (a := u ∙ v). set (b := x ∙ u). set (e := x ∙ v). clearbody a b e. clear. r3_ring.
Qed.
(** C65: two successive reflections turn the direction like the rotation matrix of the code about the line of intersection of the two planes, by twice the angle between their normals. *)
Theorem C65_two : forall u v x, is_unit u -> is_unit v -> (u × v)%r3 <> r3zero ->
  mv (rotation_matrix_axis_angle (fv (u × v)%r3) (Fin (2 * acos (u ∙ v)))) (fv x) = fv (refl v (refl u x)).
Proof.
  intros u v x U V N. rewrite (axis_angle_acts _ _ N). f_equal. unfold rodr.
  assert (Ww : (u × v)%r3 ∙ (u × v)%r3 = 1 - (u ∙ v) * (u ∙ v)).
  { unfold is_unit in *. transitivity ((u ∙ u) * (v ∙ v) - (u ∙ v) * (u ∙ v)); [|rewrite U, V; ring]. clear. r3_ring. }
  pose proof (dot_self_pos _ N) as P. pose proof (len_pos _ N) as Q. pose proof (len_sq (u × v)%r3) as Sq. pose proof (dirn_scale (u × v)%r3 N) as Ed.
  assert (Sn : len (u × v)%r3 = sin (acos (u ∙ v))).
  { rewrite sin_acos by nra. unfold Rsqr. rewrite <- Ww, <- Sq. symmetry. apply sqrt_square. lra. }
  assert (Cs : cos (acos (u ∙ v)) = u ∙ v) by (apply cos_acos; nra).
  rewrite sin_2a, cos_2a, <- Sn, Cs. set (q := len (u × v)%r3) in *. set (k := dirn (u × v)%r3) in *. clearbody q k.
  rewrite <- two_turns by assumption. rewrite Ed. rewrite Ww in Sq. clear - Sq. 
  replace (u ∙ v * (u ∙ v) - q * q) with (2 * (u ∙ v * (u ∙ v)) - 1) by lra. replace (1 - (2 * (u ∙ v * (u ∙ v)) - 1)) with (2 * (q * q)) by lra. set (a := u ∙ v). clearbody a. clear. r3r.
Qed.
Print Assumptions C65_two.
Lemma orthonormal_expand u v t d : is_unit u -> is_unit v -> is_unit t -> u ∙ v = 0 -> v ∙ t = 0 -> t ∙ u = 0 -> d = ((d ∙ u) * u + (d ∙ v) * v + (d ∙ t) * t)%r3.
Proof.
  intros U V T E1 E2 E3. unfold is_unit in *. set (D := u ∙ (v × t)%r3).
  assert (G : D * D = 1). { transitivity ((u ∙ u) * ((v ∙ v) * (t ∙ t) - (v ∙ t) * (v ∙ t)) - (u ∙ v) * ((u ∙ v) * (t ∙ t) - (v ∙ t) * (t ∙ u)) + (t ∙ u) * ((u ∙ v) * (v ∙ t) - (v ∙ v) * (t ∙ u)));
    [unfold D; clear; r3_ring|rewrite U, V, T, E1, E2, E3; ring]. }
  assert (A1 : (D * (v × t))%r3 = u). { transitivity (((v ∙ v) * (t ∙ t) - (v ∙ t) * (v ∙ t)) * u - ((u ∙ v) * (t ∙ t) - (t ∙ u) * (v ∙ t)) * v + ((u ∙ v) * (v ∙ t) - (t ∙ u) * (v ∙ v)) * t)%r3;
    [unfold D; clear; r3_ring|rewrite V, T, E1, E2, E3; clear; r3_ring]. }
  assert (A2 : (D * (t × u))%r3 = v). { transitivity (((t ∙ t) * (u ∙ u) - (t ∙ u) * (t ∙ u)) * v - ((v ∙ t) * (u ∙ u) - (u ∙ v) * (t ∙ u)) * t + ((v ∙ t) * (t ∙ u) - (u ∙ v) * (t ∙ t)) * u)%r3;
    [unfold D; clear; r3_ring|rewrite U, T, E1, E2, E3; clear; r3_ring]. }
  assert (A3 : (D * (u × v))%r3 = t). { transitivity (((u ∙ u) * (v ∙ v) - (u ∙ v) * (u ∙ v)) * t - ((t ∙ u) * (v ∙ v) - (v ∙ t) * (u ∙ v)) * u + ((t ∙ u) * (u ∙ v) - (v ∙ t) * (u ∙ u)) * v)%r3;
    [unfold D; clear; r3_ring|rewrite U, V, E1, E2, E3; clear; r3_ring]. }
  assert (Cr : (D * d)%r3 = ((d ∙ u) * (v × t) + (d ∙ v) * (t × u) + (d ∙ t) * (u × v))%r3) by (unfold D; clear; r3_ring).
  transitivity ((d ∙ u) * (D * (v × t)) + (d ∙ v) * (D * (t × u)) + (d ∙ t) * (D * (u × v)))%r3; [|rewrite A1, A2, A3; reflexivity].
  transitivity (D * (D * d))%r3; [|rewrite Cr; set (x := d ∙ u); set (y := d ∙ v); set (z := d ∙ t); clearbody D x y z; clear; r3_ring].
  transitivity ((D * D) * d)%r3; [rewrite G; clear; r3_ring|clearbody D; clear; r3_ring].
Qed.
(** C65: mirrors at right angles turn a direction back: three reflections in planes at right angles (in any order) reverse it (corner cube), wherever the planes are *)
Theorem C65_corner : forall u v t a b c d, is_unit u -> is_unit v -> is_unit t -> u ∙ v = 0 -> v ∙ t = 0 -> t ∙ u = 0 -> turns [(a, u); (b, v); (c, t)] d = (- d)%r3.
Proof.
  intros u v t a b c d U V T E1 E2 E3. unfold turns. cbn [fold_left snd].
  assert (Ex : d = ((d ∙ u) * u + (d ∙ v) * v + (d ∙ t) * t)%r3) by (apply orthonormal_expand; assumption).
  assert (X : forall k x, k ∙ x = 0 -> refl x k = k) by (intros k x Z; unfold refl; rewrite Z; r3_ring).
  unfold refl. repeat (rewrite dot_sub_l || rewrite dot_scale_l). rewrite (dot_comm u t), E1, E2, E3. set (x := d ∙ u) in *. set (y := d ∙ v) in *. set (z := d ∙ t) in *. clearbody x y z.
  rewrite Ex. clear. r3_ring.
Qed.
Print Assumptions C65_corner.
Lemma mirror_normal o c u A : flat_mirror o c u A -> exists m, o = OMirror m /\ mi_normal m = Some (fv u).
Proof.
  intros (m & -> & _ & V). exists m. split; [reflexivity|]. inversion V as [c0 n D w h f tg ty dmd m0 Hn E|c0 n t D w h f ty dmd m0 Hn Ht E| | |]; subst.
  - unfold mk_mirror in E. apply bind_ok in E. destruct E as (dm & _ & E). change (String.eqb "circular_flat" "circular_flat") with true in E. cbn iota in E.
    apply bind_ok in E. destruct E as (nn & En & E). apply bind_ok in E. destruct E as (ci & _ & E). injection E as <-. cbn [unit_vector_o] in En. rewrite unit_vector_fv in En by exact Hn. injection En as <-. reflexivity.
  - unfold mk_mirror in E. apply bind_ok in E. destruct E as (dm & _ & E). change (String.eqb "rectangular_flat" "circular_flat") with false in E. change (String.eqb "rectangular_flat" "rectangular_flat") with true in E. cbn iota in E.
    apply bind_ok in E. destruct E as (nn & En & E). apply bind_ok in E. destruct E as (ci & _ & E). injection E as <-. cbn [unit_vector_o] in En. rewrite unit_vector_fv in En by exact Hn. injection En as <-. reflexivity.
Qed.
(** C65: between parallel mirrors the final direction is the initial one after an even number of reflections and its mirror image after an odd number *)
Theorem C65_parallel : forall w r p d m N, Forall (fun o => exists c u A, flat_mirror o c u A /\ along u N) w ->
  ray_is r p d -> is_unit d -> blocked r = false -> ray_type r <> "faerie_fire"%string -> 0 <= m -> is_unit N ->
  exists r' k pts, (forall fuel, m / 1e-12 + 1 < INR fuel -> run fuel r (Fin m) w None = Ok (r', w)) /\ point_history r' = point_history r ++ pts /\
    (List.length pts = k \/ List.length pts = S k) /\ direction r' = fv (if Nat.even k then d else refl N d).
Proof.
  intros w r p d m N W0 Hr Ud Hb NF Hm UN.
  assert (W : mirrors_only w) by (eapply Forall_impl; [|exact W0]; intros o (c & u & A & V & _); do 3 eexists; exact V).
  assert (Al : forall o c u A, In o w -> flat_mirror o c u A -> along u N).
  { intros o c u A Io V. pose proof (proj1 (Forall_forall _ _) W0 o Io) as (c' & u' & A' & V' & Al). destruct (mirror_normal _ _ _ _ V) as (m1 & E1 & N1). destruct (mirror_normal _ _ _ _ V') as (m2 & E2 & N2).
    assert (E : fv u = fv u') by congruence. apply fv_inj in E. subst u'. exact Al. }
  destruct (C65_images w r p d m W Hr Ud Hb NF Hm) as (r' & Go & _ & cs & s & pts & Un & Ls & [_ Hd] & H1 & H2).
  assert (Ln : List.length pts = List.length cs) by (clear - Un; induction Un; [reflexivity|]; rewrite !app_length, IHUn; reflexivity).
  assert (Tn : turns cs d = if Nat.even (List.length cs) then d else refl N d).
  { clear - Un Al UN. induction Un as [|cs s pts o c u A x Un IH Io V _ _ _ _]; [reflexivity|]. rewrite turns_app, IH, app_length. cbn [List.length]. rewrite Nat.add_1_r, Nat.even_succ, <- Nat.negb_even.
    replace (refl u) with (refl N) by (destruct (Al _ _ _ _ Io V) as [->| ->]; [reflexivity|]; apply FunctionalExtensionality.functional_extensionality; intros y; symmetry; apply refl_opp).
    destruct (Nat.even (List.length cs)); cbn [negb]; [reflexivity|]. apply refl_invol, UN. }
  destruct (Rle_lt_or_eq_dec _ _ Ls) as [L|L].
  - exists r', (List.length cs), (pts ++ [fv (images cs (at_t p d m))]). split; [exact Go|]. split; [apply H1, L|]. split; [right; rewrite app_length; cbn [List.length]; lia|]. rewrite Hd, Tn. reflexivity.
  - exists r', (List.length cs), pts. split; [exact Go|]. split; [apply H2, L|]. split; [left; exact Ln|]. rewrite Hd, Tn. reflexivity.
Qed.
Print Assumptions C65_parallel.
Lemma mirror_at_flat z : flat_mirror (OMirror (mirror_at z)) (at_z z) (dirn e_z) (fun q => dist3 q (at_z z) < 2 / 2).
Proof. exists (mirror_at z). split; [reflexivity|]. split; [reflexivity|]. eapply FO_mirror_circ; [apply e_z_nz|apply mirror_at_built]. Qed.
Example C65_hyp : mirrors_only [OMirror (mirror_at 5); OMirror (mirror_at 1)] /\ Forall (fun o => exists c u A, flat_mirror o c u A /\ along u e_z) [OMirror (mirror_at 5); OMirror (mirror_at 1)] /\ ray_is z_ray (at_z 0) e_z /\ is_unit e_z /\ blocked z_ray = false /\ ray_type z_ray <> "faerie_fire"%string /\
  (e_z × e_x)%r3 <> r3zero /\ unfolds [OMirror (mirror_at 5)] (at_z 0) e_z [(at_z 5, e_z)] 5 [fv (at_z 5)].
Proof.
  split. { repeat apply Forall_cons; [do 3 eexists; apply mirror_at_flat..|apply Forall_nil]. }
  split. { repeat apply Forall_cons; [do 3 eexists; (split; [apply mirror_at_flat|]); rewrite (dirn_of_unit e_z e_z_unit); left; reflexivity..|apply Forall_nil]. }
  split; [apply z_ray_is|]. split; [apply e_z_unit|]. split; [reflexivity|]. split; [discriminate|]. split; [intros E; apply (f_equal cy) in E; cbn in E; lra|].
  pose proof (mirror_at_flat 5) as V. rewrite (dirn_of_unit e_z e_z_unit) in V.
  assert (Q : at_z 5 = images [] (at_t (at_z 0) e_z 5)) by (cbn; unfold at_t, at_z, e_z; r3r).
  change [(at_z 5, e_z)] with ([] ++ [(at_z 5, e_z)]). rewrite Q at 2. change [fv (images [] (at_t (at_z 0) e_z 5))] with ([] ++ [fv (images [] (at_t (at_z 0) e_z 5))]).
  eapply uf_hit; [apply uf_start|left; reflexivity|exact V|lra|rewrite <- Q; unfold on_plane; r3r|rewrite <- Q, dist_self; lra|].
  intros o c u A t [<-|[]] V' M At. replace (images [] (at_t (at_z 0) e_z 0)) with (at_z 0) in M, At by (cbn; rewrite at_start; reflexivity). change (turns [] e_z) with e_z in M, At.
  change (images [] (at_t (at_z 0) e_z 5)) with (at_t (at_z 0) e_z 5) in Q.
  destruct (meets_reports _ _ _ _ z_ray _ _ _ t V' z_ray_is e_z_unit M At (Rle_refl _)) as (_ & s1 & T1 & D1 & _).
  destruct (meets_reports _ _ _ _ z_ray _ _ 5 5 V z_ray_is e_z_unit) as (_ & s2 & T2 & D2 & _).
  - split; [|split; [lra|]]. { replace (e_z ∙ e_z) with 1 by (symmetry; apply e_z_unit). rewrite Rabs_R1. lra. } rewrite <- Q. unfold on_plane. r3r.
  - rewrite <- Q, dist_self. lra.
  - lra.
  - assert (E : fv (at_t (at_z 0) e_z t) = fv (at_t (at_z 0) e_z 5)) by congruence. rewrite E in D1. assert (X : t = 5) by congruence. lra.
Qed.
