(** C107: which example scripts stop at a constructor call, and what script_testThinlens.py and script_testIdealLenses.py compute. *)
From Coq Require Import Reals ZArith Lra Lia Psatz String List Bool.
From Verif Require Import PyErr Num Vec Shapes Csg Optics General Spec XReal RVec VecProofs AngleProofs FlatProofs SphereProofs CylProofs ShapeExtra
  TreeProofs SolidProofs CsgProofs RayProofs GenProofs RunGen RunXr OpticHits OrderProofs FlatOptic SceneProofs Props_Build Props_Trace Scripts Props_Object MoreScripts.
Import ListNotations.
Local Open Scope R_scope.

(** ** Scripts that stop *)
(** For every number type and whatever the rest of the script: the seven scripts stop with a TypeError. *)
Theorem C107_stop : forall (T : Type) (N : Num T) (A : Type) (rest : mirror T -> Res A) (rest_l : lens T -> Res A),
  script_czerny1 rest = Err TypeError /\ script_test rest = Err TypeError /\ script_testConcaveMirror rest = Err TypeError /\ script_testConvexSphereMirror rest = Err TypeError /\
  script_testRectangleMirror rest = Err TypeError /\ script_testShortRun rest = Err TypeError /\ script_testBallLens rest_l = Err TypeError.
Proof. intros. repeat split. Qed.
Print Assumptions C107_stop.
(** Keywords in general: a call is rejected exactly if some keyword is not a parameter. *)
Theorem C107_keywords : forall params given, check_keywords params given = (Err TypeError : Res unit) <-> exists k, In k given /\ ~ In k params.
Proof.
  intros params given. unfold check_keywords. assert (K : forall k, existsb (String.eqb k) params = true <-> In k params).
  { intros k. rewrite existsb_exists. split; [intros (x & I & E); apply String.eqb_eq in E; now subst|intros I; exists k; split; [exact I|apply String.eqb_refl]]. }
  destruct (forallb _ given) eqn:E; split; try discriminate; try reflexivity.
  - intros (k & I & N). rewrite forallb_forall in E. apply E, K in I. contradiction.
  - intros _. assert (X : ~ forallb (fun k => existsb (String.eqb k) params) given = true) by congruence. clear E. induction given as [|k given IH]; cbn in X; [congruence|].
    destruct (existsb (String.eqb k) params) eqn:Ek; [|exists k; split; [now left|]; intros I; apply K in I; congruence]. cbn in X. destruct (IH X) as (k' & I & N). exists k'. split; [now right|exact N].
Qed.
Print Assumptions C107_keywords.
Example C107_stop_hyp : check_keywords Lens_params ["normal"; "shape"; "tangent"; "D"; "type"; "f"]%string = Ok tt. Proof. reflexivity. Qed.

(** ** Scenes of layers: flat optics at right angles to the y axis *)
Definition layer (o : optic xr) (y : R) : Prop := exists A l, piece o (mk3 0 y 0) (dirn Yn) A l.
Lemma layer_meets y p d t : meets_plane (mk3 0 y 0) (dirn Yn) p d t <-> 1e-9 < Rabs (cy d) /\ 1e-9 < t /\ cy p + t * cy d = y.
Proof.
  rewrite Yn_dirn. unfold meets_plane, on_plane, at_t. destruct p as [a b c], d as [x v z]. unfold r3dot, r3sub, r3add, r3scale. cbn [cx cy cz].
  replace (0 * x + -1 * v + 0 * z) with (- v) by ring. rewrite Rabs_Ropp. intuition lra.
Qed.
Lemma Forall2_at {A B} (P : A -> B -> Prop) l l' j a : Forall2 P l l' -> nth_error l j = Some a -> exists b, nth_error l' j = Some b /\ P a b.
Proof. intros F. revert j. induction F as [|x y l l' H F IH]; intros [|j] E; cbn in *; try discriminate; [injection E as <-; eauto|eauto]. Qed.
Lemma first_layer w ys p d k t o y A l : Forall2 layer w ys -> is_unit d -> nth_error w k = Some o -> piece o (mk3 0 y 0) (dirn Yn) A l -> 1e-9 < cy d -> 1e-9 < t -> cy p + t * cy d = y -> A (at_t p d t) ->
  (forall j yj, nth_error ys j = Some yj -> yj <= cy p \/ y < yj \/ j = k) -> first w p d k t.
Proof.
  intros Ly U Ek V Cd Ct Hy HA Ot. split.
  - exists o. split; [exact Ek|]. do 4 eexists. split; [exact V|]. split; [apply layer_meets; rewrite Rabs_right by lra; auto|exact HA].
  - intros j oj t' Ej Se. destruct (Nat.eq_dec j k) as [->|Jk].
    + rewrite Ek in Ej. injection Ej as <-. destruct (seen_fix _ _ _ _ _ _ _ _ V U Se) as [M _]. apply layer_meets in M. destruct M as (_ & _ & M). split; [|lia]. right. apply Rmult_eq_reg_r with (cy d); lra.
    + destruct (Forall2_at _ _ _ _ _ Ly Ej) as (yj & Ey & Aj & lj & Vj). destruct (seen_fix _ _ _ _ _ _ _ _ Vj U Se) as [M _]. apply layer_meets in M. destruct M as (_ & Pt & M).
      destruct (Ot j yj Ey) as [K|[K|K]]; [exfalso; nra|assert (t < t') by nra; split; [lra|auto]|contradiction].
Qed.
Lemma clear_layers w ys p d o t L : Forall2 layer w ys -> is_unit d -> 0 < cy d -> Forall (fun y => y <= cy p) ys -> In o w -> seen o p d t -> L < t.
Proof.
  intros Ly U Cd Fa Io Se. exfalso. destruct (In_nth_error _ _ Io) as (j & Ej). destruct (Forall2_at _ _ _ _ _ Ly Ej) as (yj & Ey & Aj & lj & Vj). destruct (seen_fix _ _ _ _ _ _ _ _ Vj U Se) as [M _]. apply layer_meets in M.
  apply nth_error_In in Ey. rewrite Forall_forall in Fa. specialize (Fa yj Ey). destruct M as (_ & M1 & M2). nra.
Qed.
Lemma layers_parts w ys : Forall2 layer w ys -> Forall part w.
Proof. induction 1 as [|o y w ys (A & l & V) F IH]; constructor; [right; do 4 eexists; exact V|exact IH]. Qed.
(** the unit vector with the slopes a and b *)
Definition go (a b : R) : R3 := dirn (mk3 a 1 b).
Lemma steep_pos a b : 1 <= steepness a b.
Proof. unfold steepness. rewrite <- sqrt_1 at 1. apply sqrt_le_1_alt. nra. Qed.
Lemma go_is a b : go a b = (/ steepness a b * mk3 a 1 b)%r3.
Proof. unfold go, dirn. do 2 f_equal. rewrite len_sqrt. unfold steepness, r3dot. cbn [cx cy cz]. f_equal. ring. Qed.
Lemma go_unit a b : is_unit (go a b).
Proof. apply dirn_unit. intros E. injection E. lra. Qed.
Lemma go_cy a b : cy (go a b) = / steepness a b.
Proof. rewrite go_is. cbn. ring. Qed.
Lemma go_pos a b : 0 < cy (go a b).
Proof. rewrite go_cy. apply Rinv_0_lt_compat. pose proof (steep_pos a b). lra. Qed.
Lemma go_far a b : steepness a b < 1e9 -> 1e-9 < cy (go a b).
Proof. intros H. rewrite go_cy. pose proof (steep_pos a b). replace 1e-9 with (/ 1e9) by lra. apply Rinv_lt_contravar; nra. Qed.
Lemma at_go p a b h : at_t p (go a b) (h * steepness a b) = (p + h * mk3 a 1 b)%r3.
Proof. rewrite go_is. pose proof (steep_pos a b). unfold at_t. apply r3_ext; cbn; field; lra. Qed.
Lemma go_Y : go 0 0 = Y.
Proof. apply dirn_of_unit. unfold is_unit, r3dot. cbn. lra. Qed.
Lemma go_cos t : 0 < cos t -> mk3 0 (cos t) (sin t) = go 0 (tan t).
Proof. intros C. rewrite <- slope_dirn by exact C. unfold go. f_equal. apply r3_ext; cbn; ring. Qed.
Lemma forward_go a b : forward (dirn Yn) (go a b) = Y.
Proof. rewrite Yn_dirn. unfold forward. pose proof (go_pos a b). rewrite Rltb_true; [apply r3_ext; cbn; ring|]. unfold r3dot. cbn [cx cy cz]. lra. Qed.
Lemma disc_layer x y z D : x * x + z * z < D / 2 * (D / 2) -> 0 < D -> dist3 (mk3 x y z) (mk3 0 y 0) < D / 2.
Proof.
  intros H PD. unfold dist3. rewrite len_sqrt. rewrite <- (sqrt_square (D / 2)) by lra. apply sqrt_lt_1_alt. unfold r3dot. cbn. split; [|lra]. nra.
Qed.
(** light parallel to the axis, or going through the focus of a focusing lens, goes to the focal point *)
Lemma to_focus x y z f : 0 < f -> towards (mk3 x y z) (mk3 0 y 0 + f * Y)%r3 (go (- x / f) (- z / f)).
Proof.
  intros F. split; [apply go_unit|]. exists (f * steepness (- x / f) (- z / f)). pose proof (steep_pos (- x / f) (- z / f)). split; [nra|]. rewrite at_go. apply r3_ext; cbn; field; lra.
Qed.
Lemma lens_layer y D f ty l ix : mk_lens (fv (mk3 0 y 0)) (Some (fv Yn)) "spherical_biconvex" (Some (Fin D)) (Some (Fin f)) ty ix = Ok l -> 0 < f ->
  (ty = "ideal"%string -> piece (OLens l) (mk3 0 y 0) (dirn Yn) (fun q => dist3 q (mk3 0 y 0) < D / 2) (LThin f)) /\
  (ty = "ideal_collimate"%string -> piece (OLens l) (mk3 0 y 0) (dirn Yn) (fun q => dist3 q (mk3 0 y 0) < D / 2) LCollimate) /\
  (ty = "ideal_focus"%string -> piece (OLens l) (mk3 0 y 0) (dirn Yn) (fun q => dist3 q (mk3 0 y 0) < D / 2) (LFocus f)).
Proof.
  intros E F. repeat split; intros ->; [eapply P_thin|eapply P_collimate|eapply P_focus]; try exact E; try exact Yn_nz; exact F.
Qed.
Lemma lens_exists y D f ty : exists l, mk_lens (fv (mk3 0 y 0)) (Some (fv Yn)) "spherical_biconvex" (Some (Fin D)) (Some (Fin f)) ty (Fin (15 / 10)) = Ok l.
Proof.
  pose proof (C95_lens (mk3 0 y 0) (Some Yn) "spherical_biconvex" (Some D) (Some f) ty (15 / 10) (some_nz _ Yn_nz)) as O. apply outcome_ok in O. destruct O as [_ O].
  apply O. split; [now left|eexists; reflexivity].
Qed.

(** ** script_testThinlens.py *)
(** All rays go straight to the lens, and from there towards the focal point (0, y1 + f, 0), for the distance that is left. *)
Theorem C107_thinlens : forall y1 D f L xs ys zs fuel, 0 < D -> 0 < f -> (forall y, In y ys -> 1e-9 < y1 - y < L) -> (forall x z, In x xs -> In z zs -> x * x + z * z < D / 2 * (D / 2)) -> L / 1e-12 + 1 < INR fuel ->
  exists rays o, thinlens_script fuel (Fin y1) (Fin D) (Fin f) (Fin L) (map Fin xs) (map Fin ys) (map Fin zs) = Ok (rays, [o]) /\
    Forall2 (fun '(x, y, z) r => exists e, towards (mk3 x y1 z) (mk3 0 (y1 + f) 0) e /\ blocked r = false /\ direction r = fv e /\
      point_history r = [fv (mk3 x y z); fv (mk3 x y1 z); fv (mk3 x y1 z + (L - (y1 - y)) * e)%r3])
      (flat_map (fun x => flat_map (fun y => map (fun z => (x, y, z)) zs) ys) xs) rays.
Proof.
  intros y1 D f L xs ys zs fuel PD F Hy Hxz Hf. destruct (lens_exists y1 D f "ideal") as (l & El). destruct (lens_layer _ _ _ _ _ _ El F) as (V & _). specialize (V eq_refl).
  unfold thinlens_script, thinlens_scene. rewrite !nofZ_fin. rewrite dec_fin by discriminate. change (IZR 15 / IZR (10 ^ 1)) with (15 / 10). change (Vec.V (Fin 0) (Fin y1) (Fin 0)) with (fv (mk3 0 y1 0)). change (Vec.V (Fin 0) (Fin (-1)) (Fin 0)) with (fv Yn). rewrite El. cbn [bind].
  set (o := OLens l) in *. set (starts := flat_map (fun x => flat_map (fun y => map (fun z => (x, y, z)) zs) ys) xs).
  set (ray0 := fun '(x, y, z) => mk_ray (fv (mk3 x y z)) (fv Y) (Fin 532) (Fin 0) "normal").
  assert (Es : flat_map (fun x => flat_map (fun y => map (fun z => mk_ray (Vec.V x y z) (Vec.V (Fin 0) (Fin 1) (Fin 0)) (Fin 532) (Fin 0) "normal") (map Fin zs)) (map Fin ys)) (map Fin xs) = map ray0 starts).
  { unfold starts. assert (M : forall A B C (k : B -> C) (g : A -> list B) l, map k (flat_map g l) = flat_map (fun x => map k (g x)) l).
    { intros A B C k g l0. induction l0 as [|a l0 IH]; cbn; [reflexivity|]. now rewrite map_app, IH. }
    assert (M2 : forall A B C (k : A -> B) (g : B -> list C) l, flat_map g (map k l) = flat_map (fun x => g (k x)) l) by (intros A B C k g l0; induction l0 as [|a l0 IH]; cbn; [reflexivity|now rewrite IH]).
    rewrite M, M2. apply flat_map_ext. intros x. rewrite M, M2. apply flat_map_ext. intros y. rewrite !map_map. reflexivity. }
  rewrite Es. assert (Hs : forall x y z, In (x, y, z) starts -> 1e-9 < y1 - y < L /\ x * x + z * z < D / 2 * (D / 2)).
  { intros x y z I. unfold starts in I. apply in_flat_map in I. destruct I as (x' & Ix & I). apply in_flat_map in I. destruct I as (y' & Iy & I). apply in_map_iff in I. destruct I as (z' & E & Iz). injection E as -> -> ->. auto. }
  clearbody starts. clear Es. enough (K : exists rays, run_all fuel (map ray0 starts) (Fin L) [o] None = Ok (rays, [o]) /\ Forall2 (fun '(x, y, z) r => exists e, towards (mk3 x y1 z) (mk3 0 (y1 + f) 0) e /\ blocked r = false /\ direction r = fv e /\
      point_history r = [fv (mk3 x y z); fv (mk3 x y1 z); fv (mk3 x y1 z + (L - (y1 - y)) * e)%r3]) starts rays) by (destruct K as (rays & K1 & K2); exists rays, o; auto).
  induction starts as [|((x, y), z) starts IH]; [exists []; split; [reflexivity|constructor]|]. destruct IH as (rays & Ra & Fa); [intros; apply Hs; now right|]. cbn [map run_all].
  destruct (Hs x y z (or_introl eq_refl)) as (By & Bx). set (e := go (- x / f) (- z / f)). set (q := mk3 x y1 z).
  assert (Ly : Forall2 layer [o] [y1]) by (constructor; [do 2 eexists; exact V|constructor]).
  assert (Eq : q = at_t (mk3 x y z) Y (y1 - y)) by (unfold q, at_t; apply r3_ext; cbn; ring).
  assert (Tr : traced 532 0 [o] (mk3 x y z) Y L [q; at_t q e (L - (y1 - y))] e false [o]).
  { eapply T_turn with (k := 0%nat) (t := y1 - y) (o := o); [|lra|reflexivity|exact V|exact Eq| |].
    - eapply first_layer with (ys := [y1]); [exact Ly|exact Y_unit|reflexivity|exact V|cbn; lra|lra|cbn; ring|rewrite <- Eq; unfold q; apply disc_layer; assumption|].
      intros [|j] yj Ej; [auto|destruct j; discriminate].
    - pose proof (forward_go 0 0) as Fw. rewrite go_Y in Fw. eapply V_thin_axial; [reflexivity|rewrite Fw; unfold r3dot; cbn; lra|rewrite Fw|rewrite Fw; apply to_focus; exact F].
      unfold near3, near1. rewrite !Rminus_eq_0, Rabs_R0. cbn. rewrite !Rabs_R0, Rabs_R1. lra.
    - apply T_end; [lra|]. intros o' t' Io Se. eapply (clear_layers [o] [y1] q e o' t'); try eassumption; [apply go_unit|apply go_pos|]. constructor; [cbn; lra|constructor]. }
  destruct (C89_trace 532 0 [o] (mk3 x y z) Y L _ e false [o] (ray0 (x, y, z)) Tr) as (r' & Run & (_ & Hd) & _ & _ & _ & Hb & Hh); try reflexivity; try discriminate; try exact Y_unit; [eapply layers_parts; exact Ly|split; [reflexivity|apply unit_vector_unit; exact Y_unit]|].
  exists (r' :: rays). rewrite (Run fuel Hf). cbn [bind]. rewrite Ra. cbn [bind]. split; [reflexivity|]. constructor; [|exact Fa]. exists e. split; [|split; [exact Hb|split; [exact Hd|exact Hh]]].
  replace (mk3 0 (y1 + f) 0) with (mk3 0 y1 0 + f * Y)%r3 by (apply r3_ext; cbn; ring). apply to_focus. exact F.
Qed.
Print Assumptions C107_thinlens.
(** the script's own numbers *)
Example C107_thinlens_hyp : 0 < 50 /\ 0 < 100 /\ (forall y, In y [0] -> 1e-9 < 50 - y < 150) /\ (forall x z, In x [-15; 0; 15] -> In z [-15; 0; 15] -> x * x + z * z < 50 / 2 * (50 / 2)).
Proof.
  split; [lra|]. split; [lra|]. split; [intros y [<-|[]]; lra|]. intros x z Hx Hz. cbn [In] in Hx, Hz.
  destruct Hx as [<-|[<-|[<-|[]]]]; destruct Hz as [<-|[<-|[<-|[]]]]; lra.
Qed.

(** ** script_testIdealLenses.py *)
(** the object fits into the lenses and, after the focus, on the detector, and the way into L *)
Definition ideal_good (f2 y1 y2 D h w L size angle : R) : Prop := let X := size / 2 in let G := tan angle in let Z := X + y1 * G in
  1e-9 < f2 /\ 1e-9 < y1 /\ 1e-9 < y2 - y1 /\ 0 < D /\ 0 <= h /\ 0 <= w /\ 0 <= size /\ 0 <= angle < PI / 2 /\
  X * X + Z * Z < D / 2 * (D / 2) /\ X <= w / 2 /\ Z <= h / 2 /\
  steepness 0 G < 1e9 /\ steepness (X / f2) (Z / f2) < 1e9 /\ y1 * steepness 0 G + (y2 - y1) + 2 * f2 * steepness (X / f2) (Z / f2) <= L.
Lemma in_screen y h w a b : Rabs a <= w / 2 -> Rabs b <= h / 2 -> in_rect (mk3 0 y 0) (dirn Yn) (dirn Zt) h w (mk3 a y b).
Proof. intros A B. replace (mk3 0 y 0) with (r3zero + y * Y)%r3 by (apply r3_ext; cbn; ring). apply in_detector; assumption. Qed.
Lemma abs_div x f X : 0 < f -> Rabs x <= X -> Rabs (- x / f) <= X / f.
Proof. intros F H. assert (I : 0 < / f) by (apply Rinv_0_lt_compat; lra). unfold Rdiv. rewrite Rabs_mult, Rabs_Ropp, (Rabs_right (/ f)) by lra. apply Rmult_le_compat_r; lra. Qed.

(** one ray *)
Lemma ideal_ray f1 f2 y1 y2 D h w L size angle l1 l2 k x z t lam log fuel : ideal_good f2 y1 y2 D h w L size angle -> L / 1e-12 + 1 < INR fuel ->
  mk_lens (fv (mk3 0 y1 0)) (Some (fv Yn)) "spherical_biconvex" (Some (Fin D)) (Some (Fin f1)) "ideal_collimate" (Fin (15 / 10)) = Ok l1 ->
  mk_lens (fv (mk3 0 y2 0)) (Some (fv Yn)) "spherical_biconvex" (Some (Fin D)) (Some (Fin f2)) "ideal_focus" (Fin (15 / 10)) = Ok l2 ->
  mk_detector (fv (mk3 0 (y2 + 2 * f2) 0)) (Some (fv Yn)) (Some (fv Zt)) "rectangular_flat" (Some (Fin w)) (Some (Fin h)) = Ok k ->
  - size / 2 <= x <= size / 2 -> - size / 2 <= z <= size / 2 -> - angle <= t <= angle -> let z' := z + y1 * tan t in let S := mk3 (- x) (y2 + 2 * f2) (- z') in
  exists r', run fuel (mk_ray (fv (mk3 x 0 z)) (fv (mk3 0 (cos t) (sin t))) (Fin lam) (Fin 0) "normal") (Fin L) [OLens l1; OLens l2; with_log (ODetector k) log] None =
      Ok (r', [OLens l1; OLens l2; with_log (ODetector k) (log ++ [(fv S, Fin lam)])]) /\
    blocked r' = true /\ point_history r' = [fv (mk3 x 0 z); fv (mk3 x y1 z'); fv (mk3 x y2 z'); fv S].
Proof.
  intros Gd Hf E1 E2 Ek Hx Hz Ht z' S. unfold ideal_good in Gd. cbv zeta in Gd. set (X := size / 2) in *. set (G := tan angle) in *. set (Z := X + y1 * G) in *. destruct Gd as (F2 & Y1 & Y2 & PD & Hh & Hw & Hs & Ha & Ap & Wx & Wz & S1 & S2 & HL).
  replace (- size / 2) with (- X) in Hx, Hz by (unfold X; field). assert (C : 0 < cos t) by (apply cos_gt_0; lra). assert (Tb : Rabs (tan t) <= G) by (apply tan_bound; assumption). pose proof Tb as Tb'. apply Rabs_le_inv in Tb'.
  assert (Ax : Rabs x <= X) by (apply Rabs_le; lra).
  assert (Az : Rabs z' <= Z) by (assert (B1 : y1 * tan t <= y1 * G) by (apply Rmult_le_compat_l; lra); assert (B2 : y1 * - G <= y1 * tan t) by (apply Rmult_le_compat_l; lra); apply Rabs_le; unfold z', Z; lra).
  pose proof (P_collimate (mk3 0 y1 0) Yn D (Some (Fin f1)) _ _ Yn_nz E1) as V1. destruct (lens_layer _ _ _ _ _ _ E2 ltac:(lra)) as (_ & _ & V2). specialize (V2 eq_refl).
  pose proof (P_screen (mk3 0 (y2 + 2 * f2) 0) Yn Zt w h k log Yn_nz Zt_nz Ek) as V3. set (o1 := OLens l1) in *. set (o2 := OLens l2) in *. set (o3 := with_log (ODetector k) log) in *.
  assert (Ly : Forall2 layer [o1; o2; o3] [y1; y2; y2 + 2 * f2]) by (repeat constructor; do 2 eexists; eassumption).
  assert (In2 : x * x + z' * z' < D / 2 * (D / 2)) by (apply Rabs_le_inv in Ax, Az; assert (x * x <= X * X) by nra; assert (z' * z' <= Z * Z) by nra; lra).
  set (q1 := mk3 x y1 z'). set (q2 := mk3 x y2 z'). set (a := - x / f2). set (b := - z' / f2).
  assert (St1 : steepness 0 (tan t) <= steepness 0 G) by (apply steep_mono; [rewrite Rabs_R0; lra|exact Tb]).
  assert (St2 : steepness a b <= steepness (X / f2) (Z / f2)) by (apply steep_mono; apply abs_div; (assumption || lra)). pose proof (steep_pos 0 (tan t)) as P1. pose proof (steep_pos a b) as P2.
  set (t1 := y1 * steepness 0 (tan t)). set (t3 := 2 * f2 * steepness a b).
  assert (L1 : t1 <= y1 * steepness 0 G) by (unfold t1; apply Rmult_le_compat_l; lra). assert (L3 : t3 <= 2 * f2 * steepness (X / f2) (Z / f2)) by (unfold t3; apply Rmult_le_compat_l; lra).
  assert (T1 : 1e-9 < t1) by (unfold t1; nra). assert (T3 : 1e-9 < t3) by (unfold t3; nra).
  assert (Q1 : q1 = at_t (mk3 x 0 z) (go 0 (tan t)) t1) by (unfold t1; rewrite at_go; unfold q1, z'; apply r3_ext; cbn; ring).
  assert (Q2 : q2 = at_t q1 (go 0 0) (y2 - y1)) by (rewrite go_Y; unfold q1, q2, at_t; apply r3_ext; cbn; ring).
  assert (QS : S = at_t q2 (go a b) t3) by (unfold t3; rewrite at_go; unfold q2, S, a, b; apply r3_ext; cbn; field; lra).
  assert (Cy : forall p a b h, cy p + h * steepness a b * cy (go a b) = cy p + h) by (intros p a0 b0 h0; rewrite go_cy; pose proof (steep_pos a0 b0); field; lra).
  assert (Tr : traced lam 0 [o1; o2; o3] (mk3 x 0 z) (go 0 (tan t)) L [q1; q2; S] (go a b) true (set_nth [o1; o2; o3] 2 (add_log o3 [(fv S, Fin lam)]))).
  { eapply T_turn with (k := 0%nat) (t := t1) (o := o1) (d' := go 0 0); [|lra|reflexivity|exact V1|exact Q1| |].
    - eapply first_layer; [exact Ly|apply go_unit|reflexivity|exact V1|apply go_far; lra|exact T1|unfold t1; rewrite Cy; cbn; ring|rewrite <- Q1; apply disc_layer; assumption|].
      intros [|[|[|j]]] yj Ej; cbn in Ej; [auto| | |destruct j; discriminate]; injection Ej as <-; right; left; lra.
    - apply V_collimate. rewrite forward_go. apply go_Y.
    - eapply T_turn with (k := 1%nat) (t := y2 - y1) (o := o2) (d' := go a b); [|lra|reflexivity|exact V2|exact Q2| |].
      + eapply first_layer; [exact Ly|apply go_unit|reflexivity|exact V2|rewrite go_Y; cbn; lra|exact Y2|rewrite go_Y; cbn; ring|rewrite <- Q2; apply disc_layer; assumption|].
        intros [|[|[|j]]] yj Ej; cbn in Ej; [|auto| |destruct j; discriminate]; injection Ej as <-; [left; cbn; lra|right; left; lra].
      + eapply V_focus; [reflexivity|]. rewrite forward_go. unfold q2. apply to_focus. lra.
      + eapply T_screen with (k := 2%nat) (t := t3) (o := o3); [|lra|reflexivity|exact V3|exact QS].
        eapply first_layer; [exact Ly|apply go_unit|reflexivity|exact V3|apply go_far; lra|exact T3|unfold t3; rewrite Cy; cbn; ring|rewrite <- QS; apply in_screen; rewrite Rabs_Ropp; lra|].
        intros [|[|[|j]]] yj Ej; cbn in Ej; [| |auto|destruct j; discriminate]; injection Ej as <-; left; cbn; lra. }
  destruct (C89_trace lam 0 _ (mk3 x 0 z) (go 0 (tan t)) L _ _ true _ (mk_ray (fv (mk3 x 0 z)) (fv (mk3 0 (cos t) (sin t))) (Fin lam) (Fin 0) "normal") Tr) as (r' & Run & _ & _ & _ & _ & Hb & Hist); try reflexivity; try discriminate;
    [eapply layers_parts; exact Ly|split; [reflexivity|]; rewrite (go_cos t C); apply unit_vector_unit, go_unit|apply go_unit|].
  exists r'. split; [exact (Run fuel Hf)|]. split; [exact Hb|exact Hist].
Qed.
(** Every ray of the object is collimated, goes through the focal point (0, y2 + f2, 0) and is recorded by the detector, 2 f2 behind the second lens, at the mirror image of the point where it went through the lenses. *)
Theorem C107_ideal : forall f1 f2 y1 y2 D h w L size angle xn zn an fuel, ideal_good f2 y1 y2 D h w L size angle -> (1 <= xn)%Z -> (1 <= zn)%Z -> (1 <= an)%Z -> L / 1e-12 + 1 < INR fuel ->
  exists xs zs ts l1 l2 k rs, evenly (- size / 2) (size / 2) (Z.to_nat xn) xs /\ evenly (- size / 2) (size / 2) (Z.to_nat zn) zs /\ evenly (- angle) angle (Z.to_nat an) ts /\
    ideal_script fuel (Fin f1) (Fin f2) (Fin y1) (Fin y2) (Fin D) (Fin h) (Fin w) (Fin L) (Fin size) (Fin angle) xn zn an = Ok (rs, [OLens l1; OLens l2; ODetector k]) /\
    de_hit_data k = flat_map (fun x => flat_map (fun z => map (fun t => (fv (mk3 (- x) (y2 + 2 * f2) (- (z + y1 * tan t))), Fin (colour x z))) ts) zs) xs /\
    Forall (fun r => blocked r = true) rs /\
    map point_history rs = flat_map (fun x => flat_map (fun z => map (fun t => let z' := z + y1 * tan t in [fv (mk3 x 0 z); fv (mk3 x y1 z'); fv (mk3 x y2 z'); fv (mk3 (- x) (y2 + 2 * f2) (- z'))]) ts) zs) xs.
Proof.
  intros f1 f2 y1 y2 D h w L size angle xn zn an fuel Gd Hx Hz Ha Hf. pose proof Gd as Gd'. unfold ideal_good in Gd'. cbv zeta in Gd'. destruct Gd' as (F2 & Y1 & Y2 & PD & Hh & Hw & Hs & Hang & _).
  destruct (object_rays size angle xn zn an Hx Hz Ha) as (xs & zs & ts & Sx & Sz & St & Sh). exists xs, zs, ts.
  destruct (lens_exists y1 D f1 "ideal_collimate") as (l1 & E1). destruct (lens_exists y2 D f2 "ideal_focus") as (l2 & E2). set (yi := y2 + 2 * f2). destruct (detector_built yi h w Hh Hw) as (k0 & Ek & _ & Kl).
  set (rec x z t := (fv (mk3 (- x) yi (- (z + y1 * tan t))), Fin (colour x z))).
  set (ray0 x z t := mk_ray (fv (mk3 x 0 z)) (fv (mk3 0 (cos t) (sin t))) (Fin (colour x z)) (Fin 0) "normal") in *.
  set (hist x z t := let z' := z + y1 * tan t in [fv (mk3 x 0 z); fv (mk3 x y1 z'); fv (mk3 x y2 z'); fv (mk3 (- x) yi (- z'))]).
  assert (FF : Forall2 (fun r (rh : (vec xr * xr) * list (vec xr)) => forall log, exists r', run fuel r (Fin L) [OLens l1; OLens l2; with_log (ODetector k0) log] None = Ok (r', [OLens l1; OLens l2; with_log (ODetector k0) (log ++ [fst rh])]) /\
       blocked r' = true /\ point_history r' = snd rh) (grid ray0 xs zs ts) (grid (fun x z t => (rec x z t, hist x z t)) xs zs ts)).
  { apply grid_forall2. intros x z t Ix Iz It log. pose proof (evenly_bounds _ _ _ _ _ Sx Ix ltac:(lra)) as Bx. pose proof (evenly_bounds _ _ _ _ _ Sz Iz ltac:(lra)) as Bz. pose proof (evenly_bounds _ _ _ _ _ St It ltac:(lra)) as Bt.
    destruct (ideal_ray f1 f2 y1 y2 D h w L size angle l1 l2 k0 x z t (colour x z) log fuel Gd Hf E1 E2 Ek Bx Bz Bt) as (r' & Run & B & Hi). exists r'. cbn [fst snd]. auto. }
  destruct (shoot (fun log => [OLens l1; OLens l2; with_log (ODetector k0) log]) fuel L _ _ FF []) as (rs & Run & B & P). clear FF. cbn [app] in Run.
  rewrite (grid_map (fun x z t => (rec x z t, hist x z t))) in Run, P. rewrite !map_map in Run, P. cbn [fst snd] in Run, P. rewrite <- (grid_map rec) in Run. rewrite <- (grid_map hist) in P.
  eexists l1, l2, _, rs. split; [exact Sx|]. split; [exact Sz|]. split; [exact St|]. split; [|split; [|split; [exact B|exact P]]].
  - unfold ideal_script, ideal_scene. rewrite !nofZ_fin, nsub_fin, Rminus_0_r, nmul_fin, nadd_fin. rewrite pydiv_fin by lra. cbn [bind]. rewrite dec_fin by discriminate. change (IZR 15 / IZR (10 ^ 1)) with (15 / 10).
    change (Vec.V (Fin 0) (Fin y1) (Fin 0)) with (fv (mk3 0 y1 0)). change (Vec.V (Fin 0) (Fin y2) (Fin 0)) with (fv (mk3 0 y2 0)). change (Vec.V (Fin 0) (Fin (-1)) (Fin 0)) with (fv Yn). rewrite E1. cbn [bind]. rewrite E2. cbn [bind].
    fold yi. change (Vec.V (Fin 0) (Fin yi) (Fin 0)) with (fv (mk3 0 yi 0)). change (Vec.V (Fin 0) (Fin 0) (Fin 1)) with (fv Zt). change (Vec.V (Fin 0) (Fin yi) (Fin 0)) with (fv (mk3 0 yi 0)) in Ek. change (Vec.V (Fin 0) (Fin (-1)) (Fin 0)) with (fv Yn) in Ek. change (Vec.V (Fin 0) (Fin 0) (Fin 1)) with (fv Zt) in Ek. rewrite Ek. cbn [bind].
    rewrite Sh. fold ray0. rewrite Kl in Run. rewrite Run. reflexivity.
  - reflexivity.
Qed.
Print Assumptions C107_ideal.
(** the script's own numbers *)
Theorem C107_ideal_script : ideal_good 25 50 75 50 30 30 150 10 (atan (1 / 16)).
Proof.
  destruct atan_small as (T & A & _). unfold ideal_good. cbv zeta. rewrite T.
  assert (S1 : steepness 0 (1 / 16) <= 11 / 10) by (apply steep_le; lra). assert (S2 : steepness (10 / 2 / 25) ((10 / 2 + 50 * (1 / 16)) / 25) <= 11 / 10) by (apply steep_le; lra).
  repeat split; lra.
Qed.
