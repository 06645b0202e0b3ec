(** Ray traces through scenes of flat and curved optics (general_optics.py:121-220, optics3d.py). *)
From Coq Require Import Reals ZArith Lra Lia Psatz String List Bool Classical_Prop.
From Verif Require Import PyErr Num Vec Shapes Csg Optics Spec XReal RVec VecProofs AngleProofs FlatProofs SphereProofs CylProofs ShapeExtra
  TreeProofs SolidProofs CsgProofs CsgStart RayProofs GratingProofs RunGen NoFuel RunXr OpticHits StateXr OrderProofs FlatOptic Continue Props_Ray Props_Loop Props_Run Props_Rehit SceneProofs Props_Scene Props_Images
  Props_Ball Props_Compound Props_Singlet Props_Trace Scenes.
Import ListNotations.
Local Open Scope R_scope.

(** C93: whatever way the ray has through the scene, Ray.run carries it out: it visits exactly its points, ends in its direction, is blocked iff it ends on a screen, and leaves exactly
    its record there *)
Theorem C93_path : forall lam m w p d L pts e b w' (r : ray xr), path lam m w p d L pts e b w' -> Forall item w ->
  ray_is r p d -> is_unit d -> wavelength r = Fin lam -> order r = Fin m -> ray_type r <> "faerie_fire"%string -> blocked r = false ->
  exists r', (forall fuel, L / 1e-12 + 1 < INR fuel -> run fuel r (Fin L) w None = Ok (r', w')) /\
    ray_is r' (last pts p) e /\ wavelength r' = Fin lam /\ order r' = Fin m /\ ray_type r' = ray_type r /\ blocked r' = b /\
    point_history r' = point_history r ++ map fv pts.
Proof.
  intros lam m w p d L pts e b w' r T W Hr U Hl Ho Ty Hb.
  destruct (path_flows lam m w p d L pts e b w' T W r Hr U (conj Hl (conj Ho Ty)) Hb) as (r' & Fl & Hr' & (Hl' & Ho' & _) & Hb' & Hh & Ty').
  exists r'. split; [|repeat split; try assumption; apply Hr'].
  intros fuel Lf. symmetry. eapply flows_det; [exact Fl|]. apply run_flows, run_terminates. now left.
Qed.
Print Assumptions C93_path.

(** C93: as long as the way of the ray is known, the rest of the run is a run from where the ray has come to *)
Theorem C93_reach : forall lam m w p d L pts q e L' (r : ray xr), reach lam m w p d L pts q e L' -> Forall item w ->
  ray_is r p d -> is_unit d -> wavelength r = Fin lam -> order r = Fin m -> ray_type r <> "faerie_fire"%string -> blocked r = false ->
  exists r', ray_is r' q e /\ is_unit e /\ wavelength r' = Fin lam /\ order r' = Fin m /\ ray_type r' = ray_type r /\ blocked r' = false /\ point_history r' = point_history r ++ map fv pts /\
    forall fuel fuel', L / 1e-12 + 1 < INR fuel -> L' / 1e-12 + 1 < INR fuel' -> run fuel r (Fin L) w None = run fuel' r' (Fin L') w None.
Proof.
  intros lam m w p d L pts q e L' r Re W Hr U Hl Ho Ty Hb.
  destruct (reach_flows lam m w p d L pts q e L' Re W r Hr U (conj Hl (conj Ho Ty)) Hb) as (r' & Fl & Hr' & Ue & (Hl' & Ho' & _) & Hb' & Hh & Ty').
  exists r'. do 7 (split; [assumption|]). intros fuel fuel' Lf Lf'. symmetry. eapply flows_det; [apply Fl, run_flows, run_terminates; now left|]. apply run_flows, run_terminates. now left.
Qed.
Print Assumptions C93_reach.

(** C93: there is at most one way *)
Theorem C93_unique : forall lam m w p d L pts e b w' pts2 e2 b2 w2, Forall item w -> is_unit d ->
  path lam m w p d L pts e b w' -> path lam m w p d L pts2 e2 b2 w2 -> pts2 = pts /\ e2 = e /\ b2 = b /\ w2 = w'.
Proof.
  intros lam m w p d L pts e b w' pts2 e2 b2 w2 W U T1 T2.
  assert (Hr : ray_is (ray_of p d lam m) p d) by (split; reflexivity). assert (Li : light (ray_of p d lam m) lam m) by (repeat split; discriminate).
  destruct (path_flows _ _ _ _ _ _ _ _ _ _ T1 W _ Hr U Li eq_refl) as (r1 & F1 & (_ & D1) & _ & B1 & H1 & _).
  destruct (path_flows _ _ _ _ _ _ _ _ _ _ T2 W _ Hr U Li eq_refl) as (r2 & F2 & (_ & D2) & _ & B2 & H2 & _).
  pose proof (flows_det _ _ _ _ F1 _ F2) as E. injection E as <- <-. rewrite H1 in H2. apply app_inv_head in H2.
  split. { clear - H2. revert pts2 H2. induction pts as [|q pts IH]; intros [|q2 pts2] H; try discriminate; [reflexivity|]. cbn [map] in H.
    pose proof (f_equal (@hd (vec xr) (fv q)) H) as E1. pose proof (f_equal (@tl (vec xr)) H) as E2. cbn [hd tl] in E1, E2. f_equal; [apply fv_inj; symmetry; exact E1|apply IH, E2]. }
  rewrite D1 in D2. apply fv_inj in D2. repeat split; congruence.
Qed.
Print Assumptions C93_unique.

(** C93: every ray has a way through an orderly scene, complete or up to a point from which it does not look cleanly at the scene *)
Theorem C93_complete : forall lam m w p d L, Forall item w -> orderly m w -> is_unit d -> 0 <= L ->
  (exists pts e b w', path lam m w p d L pts e b w') \/ exists pts q e L', reach lam m w p d L pts q e L' /\ 0 < L' /\ ~ clean_all w q e.
Proof.
  intros lam m w p d L W Or U HL. destruct (flows_total (ray_of p d lam m) w L) as (res & F).
  eapply flows_path; [exact F|exact W|exact Or|split; reflexivity|exact U|repeat split; discriminate|reflexivity|exact HL].
Qed.
Print Assumptions C93_complete.

(* ------------------------------------------------------------------ which way a ball of glass refracts *)
Lemma other_crossing C rad p d t : is_unit d -> on_sphere C rad (at_t p d t) -> forall s, on_sphere C rad (at_t p d s) <-> s = t \/ s = t - 2 * (d ∙ (at_t p d t - C)%r3).
Proof.
  intros Ud On s. set (q := at_t p d t) in *. assert (Es : (at_t p d s - C)%r3 = ((q - C) + (s - t) * d)%r3) by (unfold q, at_t; clear; r3_ring).
  unfold on_sphere, dist3 in *. assert (Q : len (at_t p d s - C)%r3 * len (at_t p d s - C)%r3 = rad * rad + (s - t) * ((s - t) + 2 * (d ∙ (q - C)%r3))).
  { rewrite len_sq, Es, <- On, len_sq. generalize (q - C)%r3. intros x. unfold is_unit in Ud. autorewrite with dotr. rewrite Ud, (dot_comm x d). ring. }
  split.
  - intros E. rewrite E in Q. assert (Z : (s - t) * ((s - t) + 2 * (d ∙ (q - C)%r3)) = 0) by lra. apply Rmult_integral in Z. destruct Z; [left|right]; lra.
  - intros E. assert (Z : (s - t) * ((s - t) + 2 * (d ∙ (q - C)%r3)) = 0) by (destruct E as [-> | ->]; ring). rewrite Z in Q.
    assert (0 <= rad) by (rewrite <- On; apply len_nonneg). apply len_of; [assumption|]. rewrite <- len_sq. lra.
Qed.
Lemma bead_flag C rad ix p d t v : is_unit d -> 0 < rad -> first_ahead C rad p d t -> v = outward C rad (at_t p d t) -> d ∙ v <> 0 -> (flagged (Bead C rad ix) p d <-> d ∙ v < 0).
Proof.
  intros Ud Pr (Lt & On & F) -> Nz. cbn [flagged]. pose proof (other_crossing C rad p d t Ud On) as X. revert Nz. unfold outward. rewrite dot_scale_r.
  set (y := d ∙ (at_t p d t - C)%r3) in *. assert (Pi : 0 < / rad) by (apply Rinv_0_lt_compat; exact Pr). intros Nz. assert (Ny : y <> 0) by (intros Z; rewrite Z in Nz; lra). split.
  - intros N. apply Rnot_le_lt. intros Ge. apply N. exists t. split; [split; assumption|]. intros s [Ls Os]. apply X in Os. destruct Os as [ -> |Es]; [reflexivity|]. exfalso.
    assert (0 < y) by nra. assert (on_sphere C rad (at_t p d s)) by (apply X; right; exact Es). specialize (F s Ls H0). lra.
  - intros Neg (s & [Ls Os] & Us). assert (Y : y < 0) by nra. assert (t = t - 2 * y).
    { rewrite <- (Us t (conj Lt On)). apply Us. split; [lra|]. apply X. right. rewrite (Us t (conj Lt On)). reflexivity. }
    lra.
Qed.
Lemma flag_last w o k o' k' p d : Forall item w -> clean_all w p d -> is_unit d -> last_tested w o -> built o k -> ~ is_body k -> last_tested w o' -> built o' k' -> ~ is_body k' ->
  (flagged k p d <-> flagged k' p d).
Proof.
  intros W Cl Ud La B NB La' B' NB'. assert (Hr : ray_is (ray_of p d 0 0) p d) by (split; reflexivity).
  pose proof (clean_tests _ w p d W Cl Hr Ud) as Tk. assert (I1 : forall x, last_tested w x -> In x w) by (intros x (a & b & -> & _); apply in_or_app; right; left; reflexivity).
  destruct (built_views o k _ p d B Hr Ud (Cl o k (I1 o La) B)) as (_ & h & Eh & _ & Fl). destruct (built_views o' k' _ p d B' Hr Ud (Cl o' k' (I1 o' La') B')) as (_ & h' & Eh' & _ & Fl').
  pose proof (last_tested_side _ w o h Tk La Eh) as E1. pose proof (last_tested_side _ w o' h' Tk La' Eh') as E2. rewrite E1 in E2. injection E2 as E2. rewrite <- (Fl NB), <- (Fl' NB'), E2. reflexivity.
Qed.
(** C93: if the ball lens is itself the last optic tested, light entering it is refracted from 1 to its index, light leaving it from its index to 1 *)
Theorem C93_ball_last : forall lam m w o C rad ix p d t v d', Forall item w -> clean_all w p d -> is_unit d -> 0 < rad -> last_tested w o -> built o (Bead C rad ix) ->
  sight (Bead C rad ix) p d t v ->
  (turn lam m w (Bead C rad ix) p d t v d' <-> d ∙ v < 0 /\ bends 1 ix v d d' \/ 0 < d ∙ v /\ bends ix 1 v d d').
Proof.
  intros lam m w o C rad ix p d t v d' W Cl Ud Pr La B Si. assert (Io : In o w) by (destruct La as (a & b & -> & _); apply in_or_app; right; left; reflexivity).
  pose proof (Cl o _ Io B) as Ck. cbn [clean] in Ck. destruct Si as [Fa Ev]. pose proof (bead_cross C rad p d t v Ck Pr Ud Fa Ev) as Nz. pose proof (bead_flag C rad ix p d t v Ud Pr Fa Ev Nz) as Fg.
  cbn [turn]. split.
  - intros (o' & k' & La' & B' & NB' & H). pose proof (flag_last w o' k' o _ p d W Cl Ud La' B' NB' La B (fun X => X)) as FF. destruct H as [[F1 H]|[F1 H]]; [left|right]; split; auto; [apply Fg, FF, F1|].
    rewrite FF, Fg in F1. lra.
  - intros H. exists o, (Bead C rad ix). do 2 (split; [assumption|]). split; [exact (fun X => X)|]. destruct H as [[F1 H]|[F1 H]]; [left|right]; split; auto; [apply Fg, F1|]. rewrite Fg. lra.
Qed.
Print Assumptions C93_ball_last.
(** C93: if the last optic tested is flat, the ball lens refracts every ray as if it entered (after a lens) or as if it left (after anything else) *)
Definition is_lens (l : law) : Prop := match l with LThin _ | LCollimate | LFocus _ => True | _ => False end.
Theorem C93_ball_misled : forall lam m w o c u A l C rad ix p d t v d', Forall item w -> clean_all w p d -> is_unit d -> last_tested w o -> piece o c u A l ->
  (turn lam m w (Bead C rad ix) p d t v d' <-> is_lens l /\ bends 1 ix v d d' \/ ~ is_lens l /\ bends ix 1 v d d').
Proof.
  intros lam m w o c u A l C rad ix p d t v d' W Cl Ud La V. pose proof (B_flat _ _ _ _ _ V) as B. assert (Fg : flagged (Flat c u A l) p d <-> is_lens l) by (destruct l; cbn; tauto).
  cbn [turn]. split.
  - intros (o' & k' & La' & B' & NB' & H). pose proof (flag_last w o' k' o _ p d W Cl Ud La' B' NB' La B (fun X => X)) as FF. rewrite FF, Fg in H. exact H.
  - intros H. exists o, (Flat c u A l). do 2 (split; [assumption|]). split; [exact (fun X => X)|]. rewrite Fg. exact H.
Qed.
Print Assumptions C93_ball_misled.

(* ------------------------------------------------------------------ a scene *)
Lemma visible_fix o k p d t : built o k -> (forall k', built o k' -> clean k' p d) -> is_unit d -> visible o p d t -> exists v, sight k p d t v.
Proof.
  intros B Cl Ud Vi. destruct (visible_reports o p d t (ray_of p d 0 0) t k B (Cl k B) Vi Cl (conj eq_refl eq_refl) Ud (Rle_refl t)) as (v & Si & _). eauto.
Qed.
Lemma concave_record c n D w h f tg ty dmd m : n <> r3zero -> mk_mirror (fv c) "circular_concave_spherical" (Some (fv n)) (Some (Fin D)) w h (Some (Fin f)) tg ty dmd = Ok m ->
  mi_shape m = "circular_concave_spherical"%string /\ exists ci Ds, mi_surfaces m = [SCircle ci; SSphere (sph (c + (2 * f) * dirn n)%r3 (2 * f) Ds)].
Proof.
  intros Hn E. unfold mk_mirror in E. apply bind_ok in E. destruct E as (dm & Edm & E). change (String.eqb "circular_concave_spherical" "circular_flat") with false in E.
  change (String.eqb "circular_concave_spherical" "rectangular_flat") with false in E. change (String.eqb "circular_concave_spherical" "circular_concave_spherical") with true in E. cbn iota in E.
  apply bind_ok in E. destruct E as (nn & Enn & E). cbn [unit_vector_o] in Enn. rewrite unit_vector_fv in Enn by exact Hn. injection Enn as <-.
  cbn [need bind] in E. rewrite nofZ_fin, nmul_fin, vscale_fv, vadd_fv in E. replace (f * 2) with (2 * f) in E by ring.
  apply bind_ok in E. destruct E as (ci & Eci & E). apply bind_ok in E. destruct E as (sp & Esp & E). injection E as <-. destruct (mk_sphere_R _ _ _ Esp) as [Ds ->]. cbn. split; [reflexivity|eauto].
Qed.
Lemma convex_shape (pos : vec xr) n D w h f tg ty dmd m : mk_mirror pos "circular_convex_spherical" n D w h f tg ty dmd = Ok m -> mi_shape m = "circular_convex_spherical"%string.
Proof.
  intros E. unfold mk_mirror in E. apply bind_ok in E. destruct E as (dm & Edm & E). change (String.eqb "circular_convex_spherical" "circular_flat") with false in E.
  change (String.eqb "circular_convex_spherical" "rectangular_flat") with false in E. change (String.eqb "circular_convex_spherical" "circular_concave_spherical") with false in E.
  change (String.eqb "circular_convex_spherical" "circular_convex_spherical") with true in E. cbn iota in E.
  repeat (apply bind_ok in E; destruct E as (? & _ & E)). injection E as <-. reflexivity.
Qed.
Lemma sphere_same (c c' : R3) x x' D D' (l l' : list (shape xr)) : l = l' -> (exists a, l = a ++ [SSphere (sph c x D)]) -> (exists a, l' = a ++ [SSphere (sph c' x' D')]) -> c = c' /\ x = x'.
Proof.
  intros -> (a & Ea) (a' & Ea'). rewrite Ea in Ea'. apply app_inj_tail in Ea'. destruct Ea' as [_ E]. unfold sph in E.
  assert (Ec : fv c = fv c') by congruence. assert (Er : Fin x = Fin x') by congruence. apply fv_inj in Ec. injection Er as ->. auto.
Qed.
Lemma bowl_clean c n D w h f tg dmd m p d k : n <> r3zero -> mk_mirror (fv c) "circular_concave_spherical" (Some (fv n)) (Some (Fin D)) w h (Some (Fin f)) tg "normal" dmd = Ok m ->
  ~ tangent (c + (2 * f) * dirn n)%r3 (2 * f) p d -> built (OMirror m) k -> clean k p d.
Proof.
  intros Hn E NT B. destruct (concave_record _ _ _ _ _ _ _ _ _ _ Hn E) as (Sh & ci & Ds & Su). inversion B as [o c1 u A l V|c1 n1 D1 w1 h1 f1 tg1 dmd1 m1 Hn1 Hf1 E1|c1 n1 D1 w1 h1 f1 tg1 a1 m1 Hn1 Hf1 Ha1 E1|c1 n1 D1 w1 h1 f1 tg1 dmd1 m1 HD E1|c1 n1 D1 w1 h1 f1 tg1 a1 m1 HD Ha E1| | |]; subst.
  - exact I.
  - destruct (concave_record _ _ _ _ _ _ _ _ _ _ Hn1 E1) as (_ & ci1 & Ds1 & Su1). cbn [clean].
    destruct (sphere_same (c + (2 * f) * dirn n)%r3 (c1 + (2 * f1) * dirn n1)%r3 (2 * f) (2 * f1) Ds Ds1 (mi_surfaces m) (mi_surfaces m) eq_refl) as [<- <-]; [exists [SCircle ci]; exact Su|exists [SCircle ci1]; exact Su1|exact NT].
  - destruct (concave_record _ _ _ _ _ _ _ _ _ _ Hn1 E1) as (_ & ci1 & Ds1 & Su1). cbn [clean].
    destruct (sphere_same (c + (2 * f) * dirn n)%r3 (c1 + (2 * f1) * dirn n1)%r3 (2 * f) (2 * f1) Ds Ds1 (mi_surfaces m) (mi_surfaces m) eq_refl) as [<- <-]; [exists [SCircle ci]; exact Su|exists [SCircle ci1]; exact Su1|exact NT].
  - apply convex_shape in E1. rewrite E1 in Sh. discriminate.
  - apply convex_shape in E1. rewrite E1 in Sh. discriminate.
Qed.
Lemma ball_record c n D f ty ix l : mk_lens (fv c) n "spherical" (Some (Fin D)) f ty (Fin ix) = Ok l -> exists Ds, le_surfaces l = [SSphere (sph c (D / 2) Ds)].
Proof.
  unfold mk_lens. change (String.eqb "spherical" "spherical_biconvex") with false. change (String.eqb "spherical" "spherical") with true. cbn iota.
  unfold mk_sphere. rewrite check_D_only. cbn [bind]. intros E. injection E as <-. eexists. reflexivity.
Qed.
Lemma ball_clean c n D f ty ix l p d k : mk_lens (fv c) n "spherical" (Some (Fin D)) f ty (Fin ix) = Ok l -> ~ tangent c (D / 2) p d -> built (OLens l) k -> clean k p d.
Proof.
  intros E NT B. destruct (ball_record _ _ _ _ _ _ _ E) as (Ds & Su). inversion B as [o c1 u A l1 V| | | | |c1 n1 D1 f1 ty1 ix1 l1 HD Ty Hi E1| |]; subst; [exact I|].
  destruct (ball_record _ _ _ _ _ _ _ E1) as (Ds1 & Su1). cbn [clean]. destruct (sphere_same c c1 (D / 2) (D1 / 2) Ds Ds1 (le_surfaces l) (le_surfaces l) eq_refl) as [<- Ed]; [exists []; exact Su|exists []; exact Su1|].
  rewrite <- Ed, tangent_abs. exact NT.
Qed.
Lemma sph_len x : len (mk3 0 0 x) = Rabs x.
Proof. apply len_of; [apply Rabs_pos|]. unfold r3dot. cbn. pose proof (Rsqr_abs x). unfold Rsqr in H. lra. Qed.
Lemma axis_sphere a rad z : on_sphere (at_z a) rad (at_z z) <-> Rabs (z - a) = rad.
Proof. unfold on_sphere, dist3. replace (at_z z - at_z a)%r3 with (mk3 0 0 (z - a)) by (unfold at_z, r3sub; cbn; f_equal; ring). rewrite sph_len. reflexivity. Qed.
Lemma axis_at z s t : at_t (at_z z) (mk3 0 0 s) t = at_z (z + t * s).
Proof. unfold at_t, at_z. r3r. Qed.
Lemma axis_tangent a rad z s : rad <> 0 -> s * s = 1 -> ~ tangent (at_z a) rad (at_z z) (mk3 0 0 s).
Proof.
  intros Hr Hs T. unfold tangent, axis_dist in T. replace (perp (mk3 0 0 s) (at_z a - at_z z)%r3) with r3zero in T.
  2: { unfold perp, at_z, r3zero. apply r3_ext; unfold r3dot; cbn; try ring. transitivity ((a - z) * (1 - s * s)); [rewrite Hs|]; ring. }
  rewrite (len_of r3zero 0) in T by (try lra; unfold r3zero, r3dot; cbn; ring). pose proof (Rabs_pos_lt _ Hr). lra.
Qed.
Lemma axis_bends e1 e2 s v : s * s = 1 -> v * v = 1 -> 0 < e1 -> 0 < e2 -> bends e1 e2 (mk3 0 0 v) (mk3 0 0 s) (mk3 0 0 s).
Proof.
  intros Hs Hv P1 P2. assert (Pz : perp (mk3 0 0 v) (mk3 0 0 s) = r3zero).
  { unfold perp, r3zero. apply r3_ext; unfold r3dot; cbn; try ring. transitivity (s * (1 - v * v)); [|rewrite Hv]; ring. }
  assert (Us : is_unit (mk3 0 0 s)) by (unfold is_unit, r3dot; cbn; lra). assert (Uv : is_unit (mk3 0 0 v)) by (unfold is_unit, r3dot; cbn; lra). split.
  - intros [_ T]. exfalso. pose proof (sine_sq _ _ Uv Us) as Q. pose proof (sine_bound _ _ Uv Us) as Bd. unfold r3dot in Q. cbn in Q. assert (X : 1 - (0 * 0 + 0 * 0 + s * v) * (0 * 0 + 0 * 0 + s * v) = 1 - (s * s) * (v * v)) by ring. rewrite Hs, Hv in X.
    assert (sine (mk3 0 0 v) (mk3 0 0 s) = 0) by (revert Q X Bd; generalize (sine (mk3 0 0 v) (mk3 0 0 s)); clear; intros; nra). rewrite H in T. lra.
  - intros _. split; [exact Us|]. rewrite Pz. split; [unfold r3zero; r3r|]. unfold r3dot. cbn. nra.
Qed.
Lemma axis_meets c z s u t : (u = 1 \/ u = -1) -> (s = 1 \/ s = -1) -> (meets_plane (at_z c) (mk3 0 0 u) (at_z z) (mk3 0 0 s) t <-> 1e-9 < t /\ z + t * s = c).
Proof.
  intros Hu Hs. unfold meets_plane, on_plane. rewrite axis_at. unfold at_z, r3dot, r3sub. cbn.
  assert (Ab : Rabs (0 * 0 + 0 * 0 + u * s) = 1) by (replace (0 * 0 + 0 * 0 + u * s) with (u * s) by ring; rewrite Rabs_mult; destruct Hu as [-> | ->], Hs as [-> | ->]; unfold Rabs; repeat destruct (Rcase_abs _); lra).
  rewrite Ab. split; [intros (_ & L & On)|intros [L On]; split; [lra|split; [exact L|]]]; [split; [exact L|]|]; destruct Hu as [-> | ->]; lra.
Qed.
Definition up : R3 := mk3 0 0 1.
Definition down : R3 := mk3 0 0 (-1).
Lemma up_unit : is_unit up. Proof. unfold is_unit, up, r3dot. cbn. ring. Qed.
Lemma down_unit : is_unit down. Proof. unfold is_unit, down, r3dot. cbn. ring. Qed.
Definition the_bowl (mi : mirror xr) : Prop := mk_mirror (fv (at_z 4)) "circular_concave_spherical" (Some (fv down)) (Some (Fin 2)) None None (Some (Fin 1)) None "normal" (Some (fv up)) = Ok mi.
Definition the_ball (l : lens xr) : Prop := mk_lens (fv (at_z 0)) None "spherical" (Some (Fin 2)) None "real" (Fin (3/2)) = Ok l.
Lemma down_dirn : dirn down = down. Proof. apply dirn_of_unit, down_unit. Qed.
Lemma the_bowl_built mi : the_bowl mi -> built (OMirror mi) (Bowl (at_z 4) down 2 1 LMirror).
Proof. intros E. rewrite <- down_dirn at 1. eapply B_bowl; [apply unit_nonzero, down_unit|lra|exact E]. Qed.
Lemma the_ball_built l : the_ball l -> built (OLens l) (Bead (at_z 0) 1 (3/2)).
Proof. intros E. replace 1 with (Rabs (2 / 2)) by (rewrite Rabs_right; lra). apply (B_bead (at_z 0) None 2 None "real" (3/2) l); [lra|repeat split; discriminate|lra|exact E]. Qed.
Lemma bowl_center : (at_z 4 + (2 * 1) * down)%r3 = at_z 2. Proof. unfold at_z, down. r3r. Qed.
Lemma the_clean mi l z s : the_bowl mi -> the_ball l -> s * s = 1 -> clean_all [OMirror mi; OLens l] (at_z z) (mk3 0 0 s).
Proof.
  intros E1 E2 Hs o k [<-|[<-|[]]] B.
  - eapply bowl_clean; [apply unit_nonzero, down_unit|exact E1| |exact B]. rewrite down_dirn, bowl_center. apply axis_tangent; [lra|exact Hs].
  - eapply ball_clean; [exact E2| |exact B]. apply axis_tangent; [lra|exact Hs].
Qed.
Lemma bowl_seen z s t v : s = 1 \/ s = -1 -> sight (Bowl (at_z 4) down 2 1 LMirror) (at_z z) (mk3 0 0 s) t v -> (1e-9 < (4 - z) * s) /\ (t = (4 - z) * s).
Proof.
  intros Hs [(a & M & _ & (Lt & On & Mi)) _]. rewrite bowl_center, (Rabs_right 1) in * by lra. apply axis_meets in M; [|right; reflexivity|exact Hs]. destruct M as [La Ea].
  assert (Ea' : a = (4 - z) * s) by (destruct Hs as [-> | ->]; lra). split; [lra|]. rewrite <- Ea'.
  destruct (Mi a ltac:(lra)) as [K|[K _]].
  - rewrite axis_at, axis_sphere, Ea. rewrite Rabs_right; lra.
  - replace (a - a) with 0 in K by ring. rewrite Rabs_R0 in K. pose proof (Rabs_pos (t - a)). lra.
  - replace (a - a) with 0 in K by ring. rewrite Rabs_R0 in K. destruct (Req_dec (t - a) 0) as [Z|Z]; [lra|apply Rabs_pos_lt in Z; lra].
Qed.
Lemma ball_seen z s t v : s = 1 \/ s = -1 -> sight (Bead (at_z 0) 1 (3/2)) (at_z z) (mk3 0 0 s) t v -> 1e-12 < t /\ Rabs (z + t * s) = 1 /\ forall u, 1e-12 < u -> Rabs (z + u * s) = 1 -> t <= u.
Proof.
  intros Hs [(Lt & On & F) _]. rewrite axis_at, axis_sphere in On. split; [exact Lt|]. split; [rewrite Rminus_0_r in On; exact On|]. intros u Lu Hu. apply F; [exact Lu|]. rewrite axis_at, axis_sphere, Rminus_0_r. exact Hu.
Qed.
Lemma ball_sight z s t : 1e-12 < t -> Rabs (z + t * s) = 1 -> (forall u, 1e-12 < u -> Rabs (z + u * s) = 1 -> t <= u) -> sight (Bead (at_z 0) 1 (3/2)) (at_z z) (mk3 0 0 s) t (at_z (z + t * s)).
Proof.
  intros Lt On F. split; [split; [exact Lt|split; [rewrite axis_at, axis_sphere, Rminus_0_r; exact On|intros u Lu Hu; rewrite axis_at, axis_sphere, Rminus_0_r in Hu; auto]]|].
  rewrite axis_at. unfold outward, at_z. apply r3_ext; cbn; lra.
Qed.
Lemma abs_one x : Rabs x = 1 -> x = 1 \/ x = -1. Proof. unfold Rabs. destruct (Rcase_abs x); lra. Qed.
Lemma the_nearest mi l z s j t : the_bowl mi -> the_ball l -> s = 1 \/ s = -1 ->
  (forall o, nth_error [OMirror mi; OLens l] j = Some o -> visible o (at_z z) (mk3 0 0 s) t) -> (j < 2)%nat ->
  (forall u, 1e-9 < (4 - z) * s -> u = (4 - z) * s -> t <= u /\ ((0 < j)%nat -> t < u)) ->
  (forall u, 1e-12 < u -> Rabs (z + u * s) = 1 -> (forall u', 1e-12 < u' -> Rabs (z + u' * s) = 1 -> u <= u') -> t <= u /\ ((1 < j)%nat -> t < u)) ->
  nearest_visible [OMirror mi; OLens l] (at_z z) (mk3 0 0 s) j t.
Proof.
  intros E1 E2 Hs Vi Lj H0 H1. assert (Ss : s * s = 1) by (destruct Hs as [-> | ->]; ring). assert (U : is_unit (mk3 0 0 s)) by (unfold is_unit, r3dot; cbn; lra). pose proof (the_clean mi l z s E1 E2 Ss) as Cl. split.
  - destruct (nth_error [OMirror mi; OLens l] j) as [o|] eqn:En; [exists o; auto|apply nth_error_None in En; cbn in En; lia].
  - intros [|[|i]] o u E V; try discriminate E; [| |destruct i; discriminate E]; injection E as <-.
    + destruct (visible_fix _ _ _ _ _ (the_bowl_built mi E1) (fun k B => Cl _ k (or_introl eq_refl) B) U V) as (v & Si). apply bowl_seen in Si; [|exact Hs]. apply H0; tauto.
    + destruct (visible_fix _ _ _ _ _ (the_ball_built l E2) (fun k B => Cl _ k (or_intror (or_introl eq_refl)) B) U V) as (v & Si). apply ball_seen in Si; [|exact Hs]. apply H1; tauto.
Qed.
(** on the way along the axis a ball lens of radius 1 around the origin is crossed at -1 and 1, then a concave mirror of focal length 1 sends the ray back at 4 *)
Lemma the_path mi l : the_bowl mi -> the_ball l -> let w := [OMirror mi; OLens l] in Forall item w /\ orderly 0 w /\ last_tested w (OLens l) /\
  path 500 0 w (at_z (-3)) up 8 [at_z (-1); at_z 1; at_z 4; at_z 3] down false w.
Proof.
  intros E1 E2 w. pose proof (the_bowl_built mi E1) as B1. pose proof (the_ball_built l E2) as B2. pose proof (the_clean mi l) as Cl.
  assert (W : Forall item w) by (apply Forall_cons; [right; eauto|apply Forall_cons; [right; eauto|apply Forall_nil]]).
  assert (La : last_tested w (OLens l)) by (exists [OMirror mi], []; split; [reflexivity|split; [reflexivity|intros x []]]).
  split; [exact W|]. split. { split; [reflexivity|]. intros. exists (OLens l), (Bead (at_z 0) 1 (3/2)). split; [exact La|]. split; [exact B2|exact (fun X => X)]. }
  split; [exact La|].
  assert (Ball : forall z s t d', s = 1 \/ s = -1 -> is_unit (mk3 0 0 s) -> sight (Bead (at_z 0) 1 (3/2)) (at_z z) (mk3 0 0 s) t (at_z (z + t * s)) -> (z + t * s = 1 \/ z + t * s = -1) -> d' = mk3 0 0 s ->
    turn 500 0 w (Bead (at_z 0) 1 (3/2)) (at_z z) (mk3 0 0 s) t (at_z (z + t * s)) d').
  { intros z s t d' Hs Us Si Hz ->. apply (C93_ball_last 500 0 w (OLens l) (at_z 0) 1 (3/2) (at_z z) (mk3 0 0 s) t (at_z (z + t * s)) (mk3 0 0 s) W); auto; [apply Cl; auto; destruct Hs as [-> | ->]; ring|lra|].
    unfold at_z, r3dot. cbn. destruct Hs as [Hs|Hs], Hz as [Hz|Hz]; rewrite Hz, Hs; [right|left|left|right]; (split; [lra|apply axis_bends; lra]). }
  assert (S1 : sight (Bead (at_z 0) 1 (3/2)) (at_z (-3)) up 2 (at_z (-3 + 2 * 1))).
  { apply ball_sight; [lra|rewrite Rabs_left; lra|]. intros u Lu Hu. apply abs_one in Hu. lra. }
  assert (S2 : sight (Bead (at_z 0) 1 (3/2)) (at_z (-1)) up 2 (at_z (-1 + 2 * 1))).
  { apply ball_sight; [lra|rewrite Rabs_right; lra|]. intros u Lu Hu. apply abs_one in Hu. lra. }
  assert (S3 : sight (Bowl (at_z 4) down 2 1 LMirror) (at_z 1) up 3 down).
  { cbn [sight]. unfold up. rewrite bowl_center, (Rabs_right 1), (axis_at 1 1 3) by lra. split; [exists 3; split; [|split; [|split; [|split]]]|].
    - apply axis_meets; auto; lra.
    - rewrite axis_at. unfold dist3. rewrite (len_of _ 0); [lra|lra|]. unfold at_z, r3dot. cbn. ring.
    - lra.
    - rewrite axis_at, axis_sphere. rewrite Rabs_right; lra.
    - intros u Lu Hu. rewrite axis_at, axis_sphere in Hu. replace (3 - 3) with 0 by ring. rewrite Rabs_R0. destruct (Req_dec u 3) as [ -> |N]; [right; replace (3 - 3) with 0 by ring; rewrite Rabs_R0; lra|left; apply Rabs_pos_lt; lra].
    - unfold at_z, down. apply r3_ext; cbn; lra. }
  assert (A1 : at_t (at_z (-3)) up 2 = at_z (-1)) by (unfold up; rewrite axis_at; f_equal; lra). assert (A2 : at_t (at_z (-1)) up 2 = at_z 1) by (unfold up; rewrite axis_at; f_equal; lra).
  assert (A3 : at_t (at_z 1) up 3 = at_z 4) by (unfold up; rewrite axis_at; f_equal; lra). assert (A4 : at_t (at_z 4) down 1 = at_z 3) by (unfold down; rewrite axis_at; f_equal; lra).
  replace [at_z (-1); at_z 1; at_z 4; at_z 3] with ([at_t (at_z (-3)) up 2; at_t (at_z (-1)) up 2; at_t (at_z 1) up 3] ++ [at_t (at_z 4) down 1]) by (rewrite A1, A2, A3, A4; reflexivity).
  eapply H_end with (q := at_z 4).
  - eapply (R_turn 500 0 w (at_z (-3)) up 8 1 2 (OLens l)); [lra|apply Cl; auto; ring| |lra|reflexivity|exact B2|exact S1|apply (Ball (-3) 1 2 up); [left; reflexivity|apply up_unit|exact S1|right; lra|reflexivity]|].
    { apply the_nearest; auto; [intros o E; injection E as <-; exists (Bead (at_z 0) 1 (3/2)), (at_z (-3 + 2 * 1)); auto|intros u H ->; split; intros; lra|intros u Lu Hu _; apply abs_one in Hu; split; [lra|lia]]. }
    rewrite A1. replace (8 - 2) with 6 by ring.
    eapply (R_turn 500 0 w (at_z (-1)) up 6 1 2 (OLens l)); [lra|apply Cl; auto; ring| |lra|reflexivity|exact B2|exact S2|apply (Ball (-1) 1 2 up); [left; reflexivity|apply up_unit|exact S2|left; lra|reflexivity]|].
    { apply the_nearest; auto; [intros o E; injection E as <-; exists (Bead (at_z 0) 1 (3/2)), (at_z (-1 + 2 * 1)); auto|intros u H ->; split; intros; lra|intros u Lu Hu _; apply abs_one in Hu; split; [lra|lia]]. }
    rewrite A2. replace (6 - 2) with 4 by ring.
    eapply (R_turn 500 0 w (at_z 1) up 4 0 3 (OMirror mi)); [lra|apply Cl; auto; ring| |lra|reflexivity|exact B1|exact S3|cbn [turn]; apply V_mirror; reflexivity|].
    { apply the_nearest; auto; [intros o E; injection E as <-; exists (Bowl (at_z 4) down 2 1 LMirror), down; auto|intros u H ->; split; [lra|lia]|intros u Lu Hu _; apply abs_one in Hu; split; [lra|lia]]. }
    rewrite A3. replace (4 - 3) with 1 by ring.
    match goal with |- reach _ _ _ _ ?x _ _ _ _ _ => replace x with down by (unfold up, down, refl; apply r3_ext; unfold r3dot; cbn; lra) end. apply R_here.
  - lra.
  - apply Cl; auto; ring.
  - assert (Q : -1 * -1 = 1) by ring. pose proof (Cl 4 (-1) E1 E2 Q) as Ck. intros o t Io V. destruct Io as [<-|[<-|[]]].
    + destruct (visible_fix _ _ _ _ _ B1 (fun k B => Ck _ k (or_introl eq_refl) B) down_unit V) as (v & Si). apply bowl_seen in Si; [lra|auto].
    + destruct (visible_fix _ _ _ _ _ B2 (fun k B => Ck _ k (or_intror (or_introl eq_refl)) B) down_unit V) as (v & Si). apply ball_seen in Si; [|auto]. destruct Si as (_ & H & _). apply abs_one in H. lra.
Qed.

Example C93_hyp : exists mi l, the_bowl mi /\ the_ball l /\ let w := [OMirror mi; OLens l] in Forall item w /\ orderly 0 w /\ last_tested w (OLens l) /\ is_unit up /\
  path 500 0 w (at_z (-3)) up 8 [at_z (-1); at_z 1; at_z 4; at_z 3] down false w.
Proof.
  assert (X : exists mi l, the_bowl mi /\ the_ball l).
  { eexists. eexists. split.
    - unfold the_bowl, mk_mirror. cbn [unit_vector_o]. rewrite unit_vector_unit by apply up_unit. cbn [bind]. change (String.eqb "circular_concave_spherical" "circular_flat") with false.
      change (String.eqb "circular_concave_spherical" "rectangular_flat") with false. change (String.eqb "circular_concave_spherical" "circular_concave_spherical") with true. cbn iota.
      rewrite unit_vector_unit by apply down_unit. cbn [bind need]. rewrite nofZ_fin, nmul_fin, vscale_fv, vadd_fv. unfold mk_circle, mk_sphere. rewrite check_D_only, check_R_only. cbn [bind]. reflexivity.
    - unfold the_ball, mk_lens. change (String.eqb "spherical" "spherical_biconvex") with false. change (String.eqb "spherical" "spherical") with true. cbn iota. unfold mk_sphere. rewrite check_D_only. cbn [bind]. reflexivity. }
  destruct X as (mi & l & E1 & E2). exists mi, l. split; [exact E1|]. split; [exact E2|]. destruct (the_path mi l E1 E2) as (W & Or & La & P). repeat (split; [assumption|]). split; [apply up_unit|exact P].
Qed.
(** the same ball with a detector behind it in the list: the ray that enters it is refracted as if it left *)
Example C93_misled_hyp : exists l, the_ball l /\ let w := [OLens l; h_det] in Forall item w /\ clean_all w (at_z (-3)) up /\ last_tested w h_det /\
  sight (Bead (at_z 0) 1 (3/2)) (at_z (-3)) up 2 (at_z (-3 + 2 * 1)) /\ up ∙ at_z (-3 + 2 * 1) < 0 /\ turn 500 0 w (Bead (at_z 0) 1 (3/2)) (at_z (-3)) up 2 (at_z (-3 + 2 * 1)) up.
Proof.
  destruct C93_hyp as (_ & l & _ & E2 & _). exists l. split; [exact E2|]. intros w.
  assert (W : Forall item w) by (apply Forall_cons; [right; exists (Bead (at_z 0) 1 (3/2)); apply the_ball_built, E2|apply Forall_cons; [right; eexists; apply B_flat, h_det_piece|apply Forall_nil]]).
  assert (Cl : clean_all w (at_z (-3)) up). { intros o k [<-|[<-|[]]] B; [eapply ball_clean; [exact E2| |exact B]; apply axis_tangent; lra|]. inversion B; subst. exact I. }
  assert (La : last_tested w h_det) by (exists [OLens l], []; split; [reflexivity|split; [reflexivity|intros x []]]).
  do 3 (split; [assumption|]). split; [|split].
  - apply ball_sight; [lra|rewrite Rabs_left; lra|]. intros u Lu Hu. apply abs_one in Hu. lra.
  - unfold up, at_z, r3dot. cbn. lra.
  - apply (C93_ball_misled 500 0 w h_det _ _ _ _ _ _ _ _ _ _ _ _ W Cl up_unit La h_det_piece). right. split; [exact (fun X => X)|]. apply axis_bends; lra.
Qed.
(* ------------------------------------------------------------------ a scene with a compound lens *)
Lemma ball_tree c rad t e : tree_of (Leaf (Ball c rad)) t -> tree_of e t -> e = Leaf (Ball c rad).
Proof.
  intros H1 H2. inversion H1 as [c1 r1 Ro Do s Hr E| |]; subst. destruct (mk_sphere_inv _ _ _ _ _ Hr E) as (D & ->).
  inversion H2 as [c2 r2 Ro2 Do2 s2 Hr2 E2| |]; subst. destruct (mk_sphere_inv _ _ _ _ _ Hr2 E2) as (D2 & Es). unfold sph in Es.
  assert (Ec : fv c = fv c2) by congruence. assert (Er : Fin rad = Fin r2) by congruence. apply fv_inj in Ec. injection Er as ->. congruence.
Qed.
Definition l_front : solid := Ball (at_z 1) 2.
Definition l_back : solid := Ball (at_z (-1)) 2.
Definition l_expr : expr solid := Bin OpIntersect (Leaf l_front) (Leaf l_back).
Lemma l_tree t e : tree_of l_expr t -> tree_of e t -> e = l_expr.
Proof.
  intros H1 H2. inversion H1 as [| |o a b ta tb Ha Hb]; subst. inversion H2 as [| |o2 a2 b2 ta2 tb2 Ha2 Hb2 Eo]; subst. rewrite (ball_tree _ _ _ _ Ha Ha2), (ball_tree _ _ _ _ Hb Hb2).
  destruct o2; try discriminate. reflexivity.
Qed.

Lemma l_built t : tree_of l_expr t -> built (OCompound (mkCompound t "refract" (Fin (3/2)))) (Body l_expr (Some (3/2))).
Proof.
  intros HT. apply B_refract; [exact HT|left; exists l_front, l_back; reflexivity| |lra]. intros s [<-|[<-|[]]]; cbn; lra.
Qed.
Lemma l_front_surface z : surface l_front (at_z z) <-> z = -1 \/ z = 3.
Proof. cbn [surface l_front]. rewrite axis_sphere. unfold Rabs. destruct (Rcase_abs (z - 1)); lra. Qed.
Lemma l_back_surface z : surface l_back (at_z z) <-> z = -3 \/ z = 1.
Proof. cbn [surface l_back]. rewrite axis_sphere. unfold Rabs. destruct (Rcase_abs (z - -1)); lra. Qed.
Lemma axis_ball a rad z : in_ball (at_z a) rad (at_z z) <-> Rabs (z - a) < rad.
Proof. unfold in_ball, dist3. replace (at_z z - at_z a)%r3 with (mk3 0 0 (z - a)) by (unfold at_z, r3sub; cbn; f_equal; ring). rewrite sph_len. reflexivity. Qed.
Lemma l_den z : den l_expr (at_z z) <-> -1 < z < 1.
Proof. cbn [den l_expr member l_front l_back]. rewrite !axis_ball. unfold Rabs. destruct (Rcase_abs (z - 1)), (Rcase_abs (z - -1)); lra. Qed.
Lemma up_at z t : at_t (at_z z) up t = at_z (z + t). Proof. unfold up. rewrite axis_at. f_equal. ring. Qed.
Lemma l_clean z : (z = -4 \/ z = -1 \/ z = 1) -> clean (Body l_expr (Some (3/2))) (at_z z) up.
Proof.
  intros Hz. split; [|split; [|split]].
  - intros s [<-|[<-|[]]].
    + split; [split; [lra|apply axis_tangent; lra]|]. intros t Su. rewrite up_at, l_front_surface in Su. unfold Rabs. destruct (Rcase_abs t); lra.
    + split; [split; [lra|apply axis_tangent; lra]|]. intros t Su. rewrite up_at, l_back_surface in Su. unfold Rabs. destruct (Rcase_abs t); lra.
  - apply FOP_cons; [apply Forall_cons; [|apply Forall_nil]|apply FOP_cons; [apply Forall_nil|apply FOP_nil]]. intros t _ [S1 S2]. rewrite up_at, l_front_surface in S1. rewrite up_at, l_back_surface in S2. lra.
  - intros O. cbn in O. destruct O; discriminate.
  - intros s1 s2 E. discriminate E.
Qed.
Lemma l_next z t : next_crossing (fun s => den l_expr (at_t (at_z z) up s)) t -> (z < -1 -> t = -1 - z) /\ (-1 <= z < 1 -> t = 1 - z) /\ (1 <= z -> False).
Proof.
  intros X. assert (D : forall s, den l_expr (at_t (at_z z) up s) <-> -1 - z < s < 1 - z) by (intros s; rewrite up_at, l_den; lra). split; [|split]; intros Hz.
  - eapply nc_unique; [exact X|]. apply nc_enter with (t1 := 1 - z); [lra|]. intros u _. apply D.
  - eapply nc_unique; [exact X|]. apply nc_leave; [lra|]. intros u Hu. rewrite D. lra.
  - revert X. apply nc_none. intros u Hu. rewrite D. lra.
Qed.
Lemma det_seen z t v : sight (Flat (at_z 2) e_z (in_rect (at_z 2) e_z e_x 1 1) LScreen) (at_z z) up t v -> 1e-9 < t /\ z + t = 2.
Proof. intros (M & _ & _). apply axis_meets in M; [lra|auto|auto]. Qed.
Example C93_lens_hyp : exists t, tree_of l_expr t /\ let w := [OCompound (mkCompound t "refract" (Fin (3/2))); h_det] in Forall item w /\ orderly 0 w /\
  path 500 0 w (at_z (-4)) up 100 [at_z (-1); at_z 1; at_z 2] up true [OCompound (mkCompound t "refract" (Fin (3/2))); add_log h_det [(fv (at_z 2), Fin 500)]].
Proof.
  assert (T : forall c rad, exists t, tree_of (Leaf (Ball c rad)) t).
  { intros c rad. eexists. eapply TO_ball with (Ro := Some rad) (Do := None); [reflexivity|]. unfold mk_sphere. cbn [fo option_map]. rewrite check_R_only. reflexivity. }
  destruct (T (at_z 1) 2) as [ta Ha], (T (at_z (-1)) 2) as [tb Hb]. exists (Node (KStr (op_name OpIntersect)) ta tb). assert (HT : tree_of l_expr (Node (KStr (op_name OpIntersect)) ta tb)) by (apply TO_bin; assumption).
  split; [exact HT|]. set (tr := Node _ _ _) in *. intros w. pose proof (l_built tr HT) as B1. pose proof (B_flat _ _ _ _ _ h_det_piece) as B2.
  split; [apply Forall_cons; [right; eauto|apply Forall_cons; [right; eauto|apply Forall_nil]]|].
  split. { split; [reflexivity|]. intros o C rad ix [<-|[<-|[]]] B; inversion B. }
  assert (Cl : forall z, z = -4 \/ z = -1 \/ z = 1 -> clean_all w (at_z z) up).
  { intros z Hz o k [<-|[<-|[]]] B; [|inversion B; subst; exact I]. pose proof (l_clean z Hz) as L.
    inversion B as [o1 c1 u1 A1 l1 V| | | | | |e t' x HT' Sm Po E1 E2|e t' ix HT' Sm Po Hi E1 E2]; subst.
    - exact I.
    - rewrite (l_tree _ _ HT HT'). exact L. }
  assert (Nv : forall z, z = -4 \/ z = -1 \/ z = 1 -> forall i o t', nth_error w i = Some o -> visible o (at_z z) up t' ->
     (i = 0%nat /\ next_crossing (fun s => den l_expr (at_t (at_z z) up s)) t') \/ (i = 1%nat /\ z + t' = 2)).
  { intros z Hz [|[|i]] o t' E V; try discriminate E; [| |destruct i; discriminate E]; injection E as <-.
    - destruct (visible_fix _ _ _ _ _ B1 (fun k B => Cl z Hz _ k (or_introl eq_refl) B) up_unit V) as (v & Si). left. split; [reflexivity|apply Si].
    - destruct (visible_fix _ _ _ _ _ B2 (fun k B => Cl z Hz _ k (or_intror (or_introl eq_refl)) B) up_unit V) as (v & Si). right. split; [reflexivity|apply (det_seen _ _ _ Si)]. }
  assert (S1 : sight (Body l_expr (Some (3/2))) (at_z (-4)) up 3 up).
  { split; [apply nc_enter with (t1 := 5); [lra|]; intros u _; rewrite up_at, l_den; lra|]. exists l_front. rewrite up_at. split; [left; reflexivity|]. split; [apply l_front_surface; lra|]. unfold up, inward, l_front, at_z. apply r3_ext; cbn; lra. }
  assert (S2 : sight (Body l_expr (Some (3/2))) (at_z (-1)) up 2 down).
  { split; [apply nc_leave; [lra|]; intros u Hu; rewrite up_at, l_den; lra|]. exists l_back. rewrite up_at. split; [right; left; reflexivity|]. split; [apply l_back_surface; lra|]. unfold down, inward, l_back, at_z. apply r3_ext; cbn; lra. }
  assert (A1 : at_t (at_z (-4)) up 3 = at_z (-1)) by (rewrite up_at; f_equal; lra). assert (A2 : at_t (at_z (-1)) up 2 = at_z 1) by (rewrite up_at; f_equal; lra). assert (A3 : at_t (at_z 1) up 1 = at_z 2) by (rewrite up_at; f_equal; lra).
  replace [at_z (-1); at_z 1; at_z 2] with ([at_t (at_z (-4)) up 3; at_t (at_z (-1)) up 2] ++ [at_t (at_z 1) up 1]) by (rewrite A1, A2, A3; reflexivity).
  rewrite <- A3 at 1. change [OCompound (mkCompound tr "refract" (Fin (3/2))); add_log h_det [(fv (at_t (at_z 1) up 1), Fin 500)]] with (set_nth w 1 (add_log h_det [(fv (at_t (at_z 1) up 1), Fin 500)])).
  eapply (H_screen 500 0 w (at_z (-4)) up 100 _ (at_z 1) up 95 1 1 h_det); [|lra|apply Cl; auto| |lra|reflexivity|exact h_det_piece].
  - eapply (R_turn 500 0 w (at_z (-4)) up 100 0 3); [lra|apply Cl; auto| |lra|reflexivity|exact B1|exact S1| |].
    + split; [eexists; split; [reflexivity|]; exists (Body l_expr (Some (3/2))), up; auto|]. intros i o t' E V. destruct (Nv (-4) ltac:(auto) i o t' E V) as [[-> X]|[-> X]]; [apply l_next in X; split; [lra|lia]|split; intros; lra].
    + cbn [turn]. left. split; [rewrite A1; replace (at_z (-1) + 1e-8 * up)%r3 with (at_z (-1 + 1e-8)) by (unfold at_z, up; apply r3_ext; cbn; lra); apply l_den; lra|]. apply (axis_bends 1 (3/2) 1 1); lra.
    + rewrite A1. replace (100 - 3) with 97 by ring. eapply (R_turn 500 0 w (at_z (-1)) up 97 0 2); [lra|apply Cl; auto| |lra|reflexivity|exact B1|exact S2| |].
      * split; [eexists; split; [reflexivity|]; exists (Body l_expr (Some (3/2))), down; auto|]. intros i o t' E V. destruct (Nv (-1) ltac:(auto) i o t' E V) as [[-> X]|[-> X]]; [apply l_next in X; split; [lra|lia]|split; intros; lra].
      * cbn [turn]. right. split; [rewrite A2; replace (at_z 1 + 1e-8 * up)%r3 with (at_z (1 + 1e-8)) by (unfold at_z, up; apply r3_ext; cbn; lra); rewrite l_den; lra|]. apply (axis_bends (3/2) 1 1 (-1)); lra.
      * rewrite A2. replace (97 - 2) with 95 by ring. apply R_here.
  - split; [eexists; split; [reflexivity|]; eexists; exists e_z; split; [exact B2|]|].
    + split; [apply axis_meets; auto; lra|]. split; [|reflexivity]. rewrite A3. split; right; unfold at_z, e_z, e_x, r3dot, r3sub, r3cross; cbn; rewrite Rabs_right; lra.
    + intros i o t' E V. destruct (Nv 1 ltac:(auto) i o t' E V) as [[-> X]|[-> X]]; [apply l_next in X; exfalso; apply X; lra|split; [lra|lia]].
Qed.
