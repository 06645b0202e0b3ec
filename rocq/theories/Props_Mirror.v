(** Properties of the mirror images of whole scenes. *)
From Coq Require Import Reals ZArith Lra Lia String List Bool.
From Verif Require Import PyErr Num Vec Shapes Csg Optics Spec XReal RVec VecProofs CylProofs GratingProofs RayProofs RunGen RunXr Props_Ray Props_Loop Rotate Props_Rotate MirrorImage.
Import ListNotations.
Local Open Scope R_scope.

(* C112.  The mirror image of a scene has the mirror image of its light.  [im_ray Q] and [im_optic Q] (MirrorImage.v) say that positions, normals and
   directions are reflected by Q (a vector with a NaN component stays one with a NaN component), that numbers and strings agree, that the tangent of a
   rectangular mirror or detector is reflected with either sign, and that the tangent of a grating is reflected and reversed.  Radii, focal lengths,
   indices and the maximum distance are not infinite; every optic but the ideal thin lens is allowed.  C112_mirror, C112_mirror_all *)
Theorem C112_mirror (Q : R3 -> R3) fuel (r r' : ray xr) (max_distance : xr) (world world' : list (optic xr)) (max_interactions : option Z) :
  mirror_map Q -> tame max_distance -> im_ray Q r r' -> Forall2 (im_optic Q) world world' ->
  match run fuel r max_distance world max_interactions, run fuel r' max_distance world' max_interactions with
  | Ok (s, w), Ok (s', w') => im_ray Q s s' /\ Forall2 (im_optic Q) w w'
  | Err e, Err e' => e = e'
  | _, _ => False
  end.
Proof.
  intros HQ Tm Hr Hw. pose proof (im_run_run Q HQ fuel max_distance max_interactions r r' world world' Tm Hr Hw) as H.
  destruct (run fuel r _ _ _) as [[s w]|], (run fuel r' _ _ _) as [[s' w']|]; exact H.
Qed.
Print Assumptions C112_mirror.
Theorem C112_mirror_all (Q : R3 -> R3) fuel (rays rays' : list (ray xr)) (max_distance : xr) (world world' : list (optic xr)) (max_interactions : option Z) :
  mirror_map Q -> tame max_distance -> Forall2 (im_ray Q) rays rays' -> Forall2 (im_optic Q) world world' ->
  match run_all fuel rays max_distance world max_interactions, run_all fuel rays' max_distance world' max_interactions with
  | Ok (s, w), Ok (s', w') => Forall2 (im_ray Q) s s' /\ Forall2 (im_optic Q) w w'
  | Err e, Err e' => e = e'
  | _, _ => False
  end.
Proof.
  intros HQ Tm Hr Hw. pose proof (im_run_all Q HQ fuel max_distance max_interactions rays rays' world world' Tm Hr Hw) as H.
  destruct (run_all fuel rays _ _ _) as [[s w]|], (run_all fuel rays' _ _ _) as [[s' w']|]; exact H.
Qed.
Print Assumptions C112_mirror_all.

(* When the first run ends without a NaN in its history, the second history is the first one with Q applied to every point. *)
Theorem C112_history (Q : R3 -> R3) fuel (r r' : ray xr) (m : R) (world world' : list (optic xr)) (max_interactions : option Z) s w (pts : list R3) :
  mirror_map Q -> im_ray Q r r' -> Forall2 (im_optic Q) world world' ->
  run fuel r (Fin m) world max_interactions = Ok (s, w) -> point_history s = map fv pts ->
  exists s' w', run fuel r' (Fin m) world' max_interactions = Ok (s', w') /\ point_history s' = map fv (map Q pts) /\ blocked s' = blocked s.
Proof.
  intros HQ Hr Hw E Hh. pose proof (C112_mirror Q fuel r r' (Fin m) world world' max_interactions HQ I Hr Hw) as H. rewrite E in H.
  destruct (run fuel r' (Fin m) world' max_interactions) as [[s' w']|]; [|contradiction]. destruct H as [(_ & _ & _ & _ & H & Hb & _) _]. exists s', w'. split; [reflexivity|]. split; [|now symmetry].
  rewrite Hh in H. clear - H. revert H. generalize (point_history s'). induction pts as [|p pts IH]; intros l H; inversion H as [|? b ? l' Hp Hl]; subst; [reflexivity|]. cbn. f_equal; [|now apply IH].
  destruct Hp as [(x & Ex & ->)|[[N|[N|N]] _]]; try discriminate N. apply fv_inj in Ex. now subst.
Qed.
Print Assumptions C112_history.

(* The reflection in any plane through the origin is such a map. *)
Definition reflection (k : R3) (x : R3) : R3 := (x - (2 * (x ∙ k)) * k)%r3.
Theorem C112_reflections (k : R3) : is_unit k -> mirror_map (reflection k) /\ forall x, reflection k (reflection k x) = x /\ (x ∙ k = 0 -> reflection k x = x).
Proof.
  intros U. unfold is_unit in U. split; [constructor|].
  - intros a b. unfold reflection. clear. r3_ring.
  - intros t a. unfold reflection. clear. r3_ring.
  - intros a b. unfold reflection. autorewrite with dotr. rewrite U, (dot_comm k b). ring.
  - intros a b. unfold reflection. destruct k as [x y z], a as [a1 a2 a3], b as [b1 b2 b3]. unfold r3dot in *. unfold r3sub, r3scale, r3cross, r3opp in *. cbn [cx cy cz] in *.
    apply r3_ext; cbn [cx cy cz]; [set (E := (a2 * b3 - a3 * b2))|set (E := (a3 * b1 - a1 * b3))|set (E := (a1 * b2 - a2 * b1))]; assert (X : E * (x * x + y * y + z * z) = E) by (rewrite U; ring); unfold E in *; clear E.
    + transitivity (a2 * b3 - a3 * b2 - 2 * ((a2 * b3 - a3 * b2) * x + (a3 * b1 - a1 * b3) * y + (a1 * b2 - a2 * b1) * z) * x); [reflexivity|].
      rewrite <- X at 1. ring_simplify. nra.
    + nra.
    + nra.
  - intros x. split.
    + unfold reflection. replace ((x - 2 * (x ∙ k) * k)%r3 ∙ k) with (- (x ∙ k)) by (autorewrite with dotr; rewrite U; ring). clear. generalize (x ∙ k). intros. r3_ring.
    + unfold reflection. intros ->. clear. r3_ring.
Qed.
Print Assumptions C112_reflections.

(* Building an optic from the images of the arguments gives the image of the optic, so the image scenes above are the ones a user would write. *)
Theorem C112_constructors (Q : R3 -> R3) : mirror_map Q ->
  (forall p d wl o ty, im_ray Q (mk_ray (fv p) (fv d) wl o ty) (mk_ray (fv (Q p)) (fv (Q d)) wl o ty)) /\
  (forall p shp n D w h f t t' ty dmd, t' = Q t \/ t' = (- Q t)%r3 -> res_rel (im_mirror Q)
     (mk_mirror (fv p) shp (Some (fv n)) (Some (Fin D)) (Some (Fin w)) (Some (Fin h)) (Some (Fin f)) (Some (fv t)) ty (Some (fv dmd)))
     (mk_mirror (fv (Q p)) shp (Some (fv (Q n))) (Some (Fin D)) (Some (Fin w)) (Some (Fin h)) (Some (Fin f)) (Some (fv t')) ty (Some (fv (Q dmd))))) /\
  (forall p n shp D f ty ix, ty <> "ideal"%string -> res_rel (im_lens Q)
     (mk_lens (fv p) (Some (fv n)) shp (Some (Fin D)) (Some (Fin f)) ty (Fin ix)) (mk_lens (fv (Q p)) (Some (fv (Q n))) shp (Some (Fin D)) (Some (Fin f)) ty (Fin ix))) /\
  (forall p n t shp w h G, res_rel (im_grating Q)
     (mk_grating (fv p) (Some (fv n)) (Some (fv t)) shp (Some (Fin w)) (Some (Fin h)) G) (mk_grating (fv (Q p)) (Some (fv (Q n))) (Some (fv (- Q t)%r3)) shp (Some (Fin w)) (Some (Fin h)) G)) /\
  (forall p n t t' shp w h, t' = Q t \/ t' = (- Q t)%r3 -> res_rel (im_detector Q)
     (mk_detector (fv p) (Some (fv n)) (Some (fv t)) shp (Some (Fin w)) (Some (Fin h))) (mk_detector (fv (Q p)) (Some (fv (Q n))) (Some (fv t')) shp (Some (Fin w)) (Some (Fin h)))) /\
  (forall p R D, otame R -> otame D -> res_rel (im_sphere Q) (mk_sphere (fv p) R D) (mk_sphere (fv (Q p)) R D)) /\
  (forall p u R, u <> r3zero -> res_rel (im_infcyl Q) (mk_infcyl (fv p) (fv u) (Some (Fin R)) None) (mk_infcyl (fv (Q p)) (fv (Q u)) (Some (Fin R)) None)).
Proof.
  intros HQ. assert (T : forall x, otame (Some (Fin x))) by (intros x y E; injection E as <-; exact I).
  assert (Tg : forall t t', t' = Q t \/ t' = (- Q t)%r3 -> imo_tangent Q (Some (fv t)) (Some (fv t'))) by (intros t t' [-> | -> ]; [left; apply imv_fv|right; left; eauto]).
  split; [intros; apply im_mk_ray; auto using imv_fv|]. split; [intros; apply im_mk_mirror; auto; apply imv_fv|]. split; [intros; apply im_mk_lens; auto; try apply imv_fv; exact I|].
  split; [intros; apply im_mk_grating; auto; try apply imv_fv; left; eauto|]. split; [intros; apply im_mk_detector; auto; apply imv_fv|]. split; [intros; apply im_mk_sphere; auto; apply imv_fv|].
  intros. apply im_mk_infcyl; eauto.
Qed.
Print Assumptions C112_constructors.

(* The tangent of a grating has to be reversed.  If it is only reflected, as a drawing of the grooves would be, then the light of the image scene is not
   the image of the light, neither for the same order nor for the opposite one.  Here the ray meets the grating in the plane orthogonal to the grooves,
   from the front, on the side on which C30 has the code follow the grating equation. *)
Lemma same_angle A B t : - (PI / 2) <= A <= PI / 2 -> - (PI / 2) <= B <= PI / 2 -> 0 < t < PI / 2 -> sin A - sin B = 2 * sin t ->
  sin (A - 2 * t) = sin B -> cos (A - 2 * t) = cos B -> sin A + sin B = 0.
Proof.
  intros HA HB Ht HS E1 E2. pose proof PI_RGT_0 as P.
  assert (St : 0 < sin t) by (apply sin_gt_0; lra).
  assert (LB : B < A). { apply Rnot_le_lt. intros L. pose proof (sin_incr_1 A B ltac:(lra) ltac:(lra) ltac:(lra) ltac:(lra) L). lra. }
  set (x := A - 2 * t - B). assert (Cx : cos x = 1).
  { unfold x. rewrite cos_minus, E1, E2. pose proof (sin2_cos2 B) as K. unfold Rsqr in K. lra. }
  assert (Sx : sin x = 0). { unfold x. rewrite sin_minus, E1, E2. ring. }
  assert (X0 : x = 0).
  { destruct (Rtotal_order x 0) as [L|[L|L]]; [exfalso|exact L|exfalso].
    - assert (0 < sin (- x)) by (apply sin_gt_0; unfold x in *; lra). rewrite sin_neg in *. lra.
    - destruct (Rle_lt_or_eq_dec x PI ltac:(unfold x; lra)) as [L'|L']; [assert (0 < sin x) by (apply sin_gt_0; lra); lra|]. rewrite L', cos_PI in Cx. lra. }
  assert (HAB : (A - B) / 2 = t) by (unfold x in X0; lra). rewrite form4, HAB in HS.
  assert (Cm : cos ((A + B) / 2) = 1) by (apply Rmult_eq_reg_r with (sin t); lra).
  assert (Sm : sin ((A + B) / 2) = 0). { pose proof (sin2_cos2 ((A + B) / 2)) as K. unfold Rsqr in K. rewrite Cm in K. apply Rsqr_0_uniq. unfold Rsqr. lra. }
  rewrite form3. rewrite HAB. replace (sin ((A + B) / 2)) with 0. ring.
Qed.
Theorem C112_grating_refuted (Q : R3 -> R3) (g g' : grating xr) (r r' : ray xr) (d n Tg : R3) (G m m' lam : R) :
  mirror_map Q -> grating_is g Tg G -> grating_is g' (Q Tg) G -> is_unit Tg -> is_unit n -> orth n Tg -> is_unit d -> orth d Tg ->
  direction r = fv d -> direction r' = fv (Q d) -> order r = Fin m -> order r' = Fin m' -> m' = m \/ m' = - m -> wavelength r = Fin lam -> wavelength r' = Fin lam ->
  d ∙ n < 0 -> d ∙ (n × Tg)%r3 < 0 -> gml G m lam <> 0 -> -1 <= gml G m lam + d ∙ (n × Tg)%r3 <= 1 -> -1 <= gml G m' lam + d ∙ (n × Tg)%r3 <= 1 ->
  exists o o', grating_do_intersect g r (Some (fv n)) = Ok (set_direction r (fv o)) /\
               grating_do_intersect g' r' (Some (fv (Q n))) = Ok (set_direction r' (fv o')) /\ o' <> Q o.
Proof.
  intros HQ HG HG' HT Hn HO Hd Od Dr Dr' Or Or' Hm Wr Wr' F S Nz K K'.
  assert (Nm : m <> 0) by (intros ->; apply Nz; unfold gml; ring). assert (Nm' : m' <> 0) by (destruct Hm; lra).
  assert (Nz' : gml G m' lam <> 0) by (destruct Hm as [-> | -> ]; [exact Nz|]; intros E; apply Nz; unfold gml in *; lra).
  destruct (grating_eq_good r g d n Tg G m lam HG HT Hn HO Dr Hd Od Or Wr Nm F ltac:(lra) K) as (al & be & Ba & Bb & Ed & Eg & E).
  assert (U : forall x, is_unit x -> is_unit (Q x)) by (intros x; unfold is_unit; now rewrite (m_dot Q HQ)). assert (O : forall x y, orth x y -> orth (Q x) (Q y)) by (intros x y; unfold orth; now rewrite (m_dot Q HQ)).
  assert (Es : (Q Tg × Q n)%r3 = Q (n × Tg)%r3) by (rewrite (m_cross Q HQ); clear; r3_ring).
  assert (Sa : d ∙ (n × Tg)%r3 = - sin al).
  { assert (Y : (- d)%r3 ∙ (n × Tg)%r3 = sin al) by (rewrite Ed; autorewrite with dotr; rewrite (dot_comm n (n × Tg)%r3), (dot_comm (n × Tg)%r3 n); unfold is_unit, orth in *;
      replace ((n × Tg)%r3 ∙ (n × Tg)%r3) with ((n ∙ n) * (Tg ∙ Tg) - (n ∙ Tg) * (n ∙ Tg)) by (clear; r3_ring); replace (n ∙ (n × Tg)%r3) with 0 by (clear; r3_ring); rewrite Hn, HT, HO; ring).
    rewrite dot_opp_l in Y. lra. }
  assert (Pa : 0 < al) by (destruct (Rle_lt_or_eq_dec 0 al ltac:(lra)) as [L|L]; [exact L|]; rewrite <- L, sin_0 in Sa; lra).
  destruct (grating_in_plane r' g' (Q d) (Q n) (Q Tg) G m' lam HG' (U _ HT) (U _ Hn) (O _ _ HO) Dr' (U _ Hd) (O _ _ Od) Or' Wr' Nm' ltac:(rewrite (m_dot Q HQ); exact F)) as (t & Bt & Pt & E').
  assert (St : sin t = sin al).
  { rewrite <- (turned_cross (Q Tg) (Q n) t (U _ HT) (U _ Hn) (O _ _ HO)), <- Pt, Es, dot_opp_l, (m_dot Q HQ). lra. }
  assert (Lt : 0 < t). { apply Rnot_le_lt. intros L. assert (0 <= sin (- t)) by (apply sin_ge_0; lra). rewrite sin_neg in *. assert (0 < sin al) by (apply sin_gt_0; lra). lra. }
  rewrite (Rabs_right t) in E' by lra. rewrite St in E'.
  eexists _, _. split; [exact E|]. split; [apply E'; lra|].
  assert (Qo : Q (cos be * n + sin be * (n × Tg))%r3 = turned (Q Tg) (Q n) be) by (unfold turned; rewrite (m_add Q HQ), !(m_scale Q HQ), Es; reflexivity).
  rewrite Qo. intros X.
  pose proof (f_equal (fun v => v ∙ (Q Tg × Q n)%r3) X) as X1. pose proof (f_equal (fun v => v ∙ Q n) X) as X2. cbv beta in X1, X2.
  rewrite !turned_cross in X1 by auto. rewrite !turned_n in X2 by auto. rewrite cos_neg in X2.
  pose proof (asin_bound (gml G m' lam - sin al)) as Bc. assert (Sc : sin (asin (gml G m' lam - sin al)) = gml G m' lam - sin al) by (apply sin_asin; lra).
  set (c := asin _) in *. clearbody c.
  destruct Hm as [-> | -> ].
  - assert (c = be) as -> by (apply sin_inj; lra).
    assert (Z : sin (2 * (t + be)) = 0).
    { replace (2 * (t + be)) with ((t + t + be) + be) by ring. rewrite sin_plus, X2. rewrite sin_neg in X1. replace (sin be) with (- sin (t + t + be)) by lra. ring. }
    assert (Z2 : cos (2 * (t + be)) = 1).
    { replace (2 * (t + be)) with ((t + t + be) + be) by ring. rewrite cos_plus, X2. rewrite sin_neg in X1. replace (sin (t + t + be)) with (- sin be) by lra. pose proof (sin2_cos2 be) as Y. unfold Rsqr in Y. lra. }
    rewrite cos_2a_sin in Z2. assert (S0 : sin (t + be) = 0) by (apply Rsqr_0_uniq; unfold Rsqr; lra).
    assert (TB : t + be = 0).
    { destruct (Rtotal_order (t + be) 0) as [L|[L|L]]; [exfalso|exact L|exfalso].
      - assert (0 < sin (- (t + be))) by (apply sin_gt_0; lra). rewrite sin_neg in *. lra.
      - assert (0 < sin (t + be)) by (apply sin_gt_0; lra). lra. }
    assert (sin be = - sin t) by (rewrite <- sin_neg; f_equal; lra). lra.
  - assert (Gm : gml G (- m) lam = - gml G m lam) by (unfold gml; ring). rewrite Gm in Sc.
    assert (Y : sin (- c) + sin be = 0).
    { apply (same_angle (- c) be t); try lra; rewrite ?sin_neg.
      - rewrite St. lra.
      - rewrite <- X1. f_equal. ring.
      - rewrite <- X2, <- cos_neg. f_equal. ring. }
    rewrite sin_neg in Y. lra.
Qed.
Print Assumptions C112_grating_refuted.

(* The ideal thin lens is excluded as in C68: a reflection that takes the ray of C68_thin_lens_refuted to the turned one. *)
Definition m345 (a : R3) : R3 := mk3 (3 / 5 * cx a + 4 / 5 * cy a) (4 / 5 * cx a - 3 / 5 * cy a) (cz a).
Lemma m345_mirror : mirror_map m345.
Proof. constructor; intros; unfold m345; try (destruct a, b); try (destruct a); unfold r3add, r3scale, r3dot, r3cross, r3opp; cbn; try (apply r3_ext; cbn); field. Qed.
Theorem C112_thin_lens_refuted :
  let r := a_ray r3zero tilted 0 500 in let r' := a_ray r3zero (m345 tilted) 0 500 in
  mirror_map m345 /\ im_ray m345 r r' /\ m345 e_z = e_z /\
  exists s s', lens_do_intersect ideal_lens r (fv r3zero) (Some (fv e_z)) (SfoBool true) = Ok s /\
               lens_do_intersect ideal_lens r' (fv r3zero) (Some (fv e_z)) (SfoBool true) = Ok s' /\
               direction s = fv tilted /\ direction s' = fv e_z /\ ~ im m345 (direction s) (direction s').
Proof.
  intros r r'. split; [apply m345_mirror|].
  assert (E : m345 tilted = q345 tilted) by (unfold m345, q345, tilted; apply r3_ext; cbn [cx cy cz]; ring).
  assert (E0 : m345 r3zero = r3zero) by (unfold m345, r3zero; cbn; f_equal; ring).
  split. { unfold r, r', a_ray. assert (R0 : im m345 (fv r3zero) (fv r3zero)) by (left; exists r3zero; rewrite E0; auto). repeat split; cbn [position direction wavelength order point_history blocked ray_type]; auto using imv_fv. }
  split. { unfold m345, e_z; apply r3_ext; cbn; ring. }
  unfold r'. rewrite E. destruct C68_thin_lens_refuted as (_ & _ & s & s' & A & B & C & D & N). exists s, s'. split; [exact A|]. split; [exact B|]. split; [exact C|]. split; [exact D|].
  rewrite C, D in *. intros [(x & Ex & Ey)|[[K|[K|K]] _]]; try discriminate K. apply fv_inj in Ex. subst x. apply N. left. exists tilted. rewrite <- E. auto.
Qed.
Print Assumptions C112_thin_lens_refuted.

(* A scene meeting the hypotheses of C112_mirror and C112_history with a run that does something: the ray along z bouncing off the mirror at z = 5,
   reflected in the plane y = z, which takes z to y; and a grating, a ray and both orders meeting those of C112_grating_refuted. *)
Definition my (a : R3) : R3 := mk3 (cx a) (cz a) (cy a).
Lemma my_mirror : mirror_map my.
Proof. constructor; intros; unfold my; try (destruct a, b); try (destruct a); unfold r3add, r3scale, r3dot, r3cross, r3opp; cbn; try (apply r3_ext; cbn); ring. Qed.
Example C112_hyp : mirror_map my /\
  (exists m', mk_mirror (fv (mk3 0 5 0)) "circular_flat" (Some (fv (mk3 0 1 0))) (Some (Fin 2)) None None None None "normal" (Some (fv (mk3 0 1 0))) = Ok m' /\
    im_optic my (OMirror (mirror_at 5)) (OMirror m') /\ im_ray my z_ray (a_ray (mk3 0 0 0) (mk3 0 1 0) 0 500) /\
    steps (Fin 100) None 1 (run_init z_ray (Fin 100) [OMirror (mirror_at 5)])
      (mkRun bounced [OMirror (mirror_at 5)] 1 (Fin (100 - 5)) (Some (mkSel 0 (fv (at_z 5)) (Some (fv e_z)))) (Some SfoNone))) /\
  (let d := mk3 (3/5) 0 (-4/5) in let n := mk3 0 0 1 in let Tg := mk3 0 1 0 in
    is_unit Tg /\ is_unit n /\ orth n Tg /\ is_unit d /\ orth d Tg /\ d ∙ n < 0 /\ d ∙ (n × Tg)%r3 < 0 /\ gml 1000 1 300 <> 0 /\
    -1 <= gml 1000 1 300 + d ∙ (n × Tg)%r3 <= 1 /\ -1 <= gml 1000 (-1) 300 + d ∙ (n × Tg)%r3 <= 1).
Proof.
  split; [apply my_mirror|]. split.
  - assert (Ez : my e_z = mk3 0 1 0) by (unfold my, e_z; cbn; f_equal; ring).
    assert (E5 : my (at_z 5) = mk3 0 5 0) by (unfold my, at_z; cbn; f_equal; ring).
    assert (E0 : my (at_z 0) = mk3 0 0 0) by (unfold my, at_z; cbn; f_equal; ring).
    pose proof (im_mk_mirror my my_mirror (fv (at_z 5)) (fv (my (at_z 5))) "circular_flat" (Some (fv e_z)) (Some (fv (my e_z))) (Some (Fin 2)) None None None None None "normal" (Some (fv e_z)) (Some (fv (my e_z)))) as H.
    rewrite mirror_at_built, Ez, E5 in H.
    assert (T : otame (Some (Fin 2))) by (intros y E; injection E as <-; exact I). assert (Tn : otame None) by (intros y E; discriminate).
    assert (Rz : imo my (Some (fv e_z)) (Some (fv (mk3 0 1 0)))) by (rewrite <- Ez; apply imv_fv).
    specialize (H ltac:(rewrite <- E5; apply imv_fv) Rz I Rz T Tn Tn Tn). destruct (mk_mirror _ _ _ _ _ _ _ _ _ _) as [m'|]; [|contradiction]. exists m'. split; [reflexivity|]. split; [exact H|]. split.
    + unfold z_ray, a_ray. repeat split; cbn [position direction wavelength order point_history blocked ray_type]; try (rewrite <- E0; apply imv_fv); try (rewrite <- Ez; apply imv_fv).
      constructor; [rewrite <- E0; apply imv_fv|constructor].
    + apply C33_hyp.
  - unfold is_unit, orth, gml, r3dot, r3cross; cbn. repeat split; lra.
Qed.
