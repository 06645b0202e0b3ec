(** Diffraction gratings (optics3d.py:512-521, 787-816). *)
From Coq Require Import Reals ZArith Lra Lia Psatz List String Bool.
From Verif Require Import PyErr Num Vec Shapes Csg Optics Spec XReal RVec VecProofs AngleProofs FlatProofs RayProofs.
Import ListNotations.
Local Open Scope R_scope.

(** grating of groove density G (lines/mm), unit groove direction Tg *)
Definition grating_is (g : grating xr) (Tg : R3) (G : R) : Prop := gr_tangent g = fv Tg /\ gr_G g = Some (Fin G).
(** G m lambda, with lambda in nm *)
Definition gml (G m lam : R) : R := G / 10 ^ 6 * m * lam.

Lemma perp_zero_parallel u x : perp u x = r3zero -> x = ((x ∙ u) * u)%r3.
Proof.
  unfold perp. destruct x as [a b c], u as [x y z]. generalize (mk3 a b c ∙ mk3 x y z). intros k. unfold r3sub, r3scale, r3zero. cbn.
  intros H; injection H; intros. apply r3_ext; cbn; lra.
Qed.

Lemma rodr_lin c s u a x b y : rodr c s u (a * x + b * y)%r3 = (a * rodr c s u x + b * rodr c s u y)%r3.
Proof. unfold rodr. r3_ring. Qed.

(** turning n about Tg *)
Definition turned (Tg n : R3) (phi : R) : R3 := (cos phi * n + sin phi * (Tg × n))%r3.
Lemma turned_unit Tg n phi : is_unit Tg -> is_unit n -> orth n Tg -> is_unit (turned Tg n phi).
Proof.
  unfold is_unit, orth, turned. intros HT Hn HO. autorewrite with dotr. rewrite Hn.
  rewrite (dot_comm n (Tg × n)%r3), dot_cross_r, lagrange, HT, Hn, (dot_comm Tg n), HO.
  pose proof (sin2_cos2 phi). unfold Rsqr in *. lra.
Qed.
Lemma turned_orth Tg n phi : orth n Tg -> turned Tg n phi ∙ Tg = 0.
Proof. unfold orth, turned. intros HO. autorewrite with dotr. rewrite HO. ring. Qed.
Lemma cross_cross_unit Tg n : is_unit Tg -> orth n Tg -> (Tg × (Tg × n))%r3 = (- n)%r3.
Proof.
  unfold is_unit, orth. intros HT HO. transitivity ((n ∙ Tg) * Tg - (Tg ∙ Tg) * n)%r3; [r3_ring|]. rewrite HT, HO. r3_ring.
Qed.
Lemma rodr_turned Tg n phi th : is_unit Tg -> orth n Tg ->
  rodr (cos th) (sin th) Tg (turned Tg n phi) = turned Tg n (th + phi).
Proof.
  intros HT HO. rewrite rodr_orth by (rewrite dot_comm; apply turned_orth, HO).
  assert (E : (Tg × turned Tg n phi)%r3 = (cos phi * (Tg × n) - sin phi * n)%r3).
  { unfold turned. transitivity (cos phi * (Tg × n) + sin phi * (Tg × (Tg × n)))%r3; [r3_ring|].
    rewrite cross_cross_unit by assumption. r3_ring. }
  rewrite E. unfold turned. rewrite cos_plus, sin_plus. generalize (Tg × n)%r3. intros w. r3_ring.
Qed.

Lemma rot_nan (axis : vec xr) x : mv (rotation_matrix_axis_angle axis (nopp XNaN)) (fv x) = V XNaN XNaN XNaN.
Proof.
  unfold rotation_matrix_axis_angle. change (nopp XNaN) with XNaN.
  generalize (vdivs axis (nsqrt (dot axis axis))). intros u. destruct u as [a b c]. destruct x as [x y z].
  assert (E : @ndiv xr _ XNaN (nofZ 2) = XNaN) by reflexivity. rewrite E. cbn [ncos nsin].
  destruct a, b, c; reflexivity.
Qed.
Lemma grating_fv r g d n Tg G m lam : grating_is g Tg G -> is_unit Tg -> is_unit n -> orth n Tg ->
  direction r = fv d -> is_unit d -> perp Tg d <> r3zero -> order r = Fin m -> wavelength r = Fin lam ->
  exists t, - PI < t <= PI /\ (- dirn (perp Tg d))%r3 = turned Tg n t /\
  let K := gml G m lam - sin (Rabs t) in
  (-1 <= K <= 1 -> exists o, reflect_grating r (fv n) g = Ok (set_direction r (fv o)) /\
      o = ((d ∙ Tg) * Tg + len (perp Tg d) * turned Tg n (- (t + Rabs t + asin K)))%r3) /\
  (~ -1 <= K <= 1 -> reflect_grating r (fv n) g = Ok (set_direction r (V XNaN XNaN XNaN))).
Proof.
  intros (LT & LG) HT Hn HO Hd Ud Np Hm Hl.
  assert (NZT : Tg <> r3zero) by apply unit_nonzero, HT.
  unfold reflect_grating. rewrite LT, LG, Hd, Hm, Hl. cbn [need bind].
  rewrite !(unit_vector_unit n Hn), !(unit_vector_unit d Ud). rewrite !project_fv by exact NZT. rewrite !(dirn_of_unit Tg HT).
  rewrite (perp_fix Tg n HO). rewrite (unit_vector_unit n Hn), (unit_vector_fv (perp Tg d) Np), vopp_fv.
  set (i := dirn (perp Tg d)).
  assert (Ui : is_unit i) by apply dirn_unit, Np.
  assert (Oi : orth i Tg) by (apply dirn_orth; unfold orth; apply perp_orth, HT).
  destruct (angle_signed_spec (- i)%r3 n Tg) as (t & Et & Bt & _ & Pt); auto using unit_nonzero, opp_nonzero.
  { unfold orth in *. rewrite dot_opp_l, Oi. ring. }
  rewrite (dirn_of_unit n Hn), (dirn_of_unit (- i)%r3 (unit_opp i Ui)) in Pt.
  exists t. split; [exact Bt|]. split; [symmetry; exact Pt|]. set (K := gml G m lam - sin (Rabs t)).
  rewrite Et, (nofZ_fin 0), nlt_fin, (nofZ_fin (-1)), (nofZ_fin 1), (nofZ_fin 2).
  assert (SG : (if Rltb t 0 then Fin (-1) else Fin 1) = Fin (if Rltb t 0 then -1 else 1)) by (destruct (Rltb t 0); reflexivity).
  rewrite SG. set (sg := if Rltb t 0 then -1 else 1).
  assert (AB : sg * t = Rabs t). { unfold sg, Rabs. destruct (Rltb_spec t 0), (Rcase_abs t); lra. }
  rewrite nofZ_fin, ndiv_fin by (apply not_0_IZR; lia). rewrite !nmul_fin, AB, nsin_fin, nsub_fin.
  replace (G / IZR (10 ^ 6) * m * lam - sin (Rabs t)) with K by (unfold K, gml; f_equal; f_equal; f_equal; f_equal; cbn; ring).
  rewrite dot_fv, nmul_fin, vscale_fv, vsub_fv, nopp_fin, nmul_fin. fold (refl n d).
  replace (- sg * t) with (- Rabs t) by (rewrite <- AB; ring).
  assert (A1 := axis_angle_acts Tg (- Rabs t) NZT (refl n d)). rewrite (dirn_of_unit Tg HT) in A1.
  (* decompose *)
  assert (D : d = ((d ∙ Tg) * Tg + len (perp Tg d) * i)%r3).
  { unfold i. rewrite <- (dirn_scale _ Np). unfold perp. r3_ring. }
  assert (RR : refl n d = ((d ∙ Tg) * Tg + len (perp Tg d) * turned Tg n (- t))%r3).
  { unfold refl. assert (dn : d ∙ n = - (len (perp Tg d) * cos t)).
    { rewrite D at 1. autorewrite with dotr. rewrite (dot_comm Tg n). unfold orth in HO. rewrite HO.
      assert (i ∙ n = - cos t); [|rewrite H; ring].
      assert (X : (- i)%r3 ∙ n = cos t). { rewrite <- Pt. autorewrite with dotr. unfold is_unit in Hn. rewrite Hn. ring. }
      rewrite dot_opp_l in X. lra. }
    rewrite dn. rewrite D at 1. unfold turned. rewrite cos_neg, sin_neg.
    assert (I : i = (- (cos t * n + sin t * (Tg × n)))%r3) by (rewrite Pt; r3_ring).
    rewrite I. generalize (Tg × n)%r3 (len (perp Tg d)) (d ∙ Tg). intros. r3_ring. }
  assert (U1 : is_unit (refl n d)) by (apply refl_unit; assumption).
  assert (R1 : rodr (cos (- Rabs t)) (sin (- Rabs t)) Tg (refl n d)
    = ((d ∙ Tg) * Tg + len (perp Tg d) * turned Tg n (- Rabs t + - t))%r3).
  { rewrite RR, rodr_lin, rodr_axis, rodr_turned by assumption. reflexivity. }
  assert (U2 : is_unit (rodr (cos (- Rabs t)) (sin (- Rabs t)) Tg (refl n d))).
  { unfold is_unit in *. rewrite rodr_dot; auto. pose proof (sin2_cos2 (- Rabs t)). unfold Rsqr in *. lra. }
  split; intros HK; rewrite A1, (unit_vector_unit _ U2).
  - rewrite narcsin_fin by exact HK. rewrite nopp_fin, (axis_angle_acts Tg (- asin K) NZT), (dirn_of_unit Tg HT).
    rewrite R1 in U2 |- *. rewrite rodr_lin, rodr_axis, rodr_turned by assumption.
    eexists. split; [rewrite unit_vector_unit; [reflexivity|]|].
    + assert (X : is_unit (rodr (cos (- asin K)) (sin (- asin K)) Tg ((d ∙ Tg) * Tg + len (perp Tg d) * turned Tg n (- Rabs t + - t))%r3)).
      { unfold is_unit in *. rewrite rodr_dot; auto. pose proof (sin2_cos2 (- asin K)). unfold Rsqr in *. lra. }
      rewrite rodr_lin, rodr_axis, rodr_turned in X by assumption. exact X.
    + f_equal. f_equal. f_equal. ring.
  - rewrite narcsin_out by lra. rewrite rot_nan. reflexivity.
Qed.

Lemma conical_unit d Tg n phi : is_unit Tg -> is_unit n -> orth n Tg -> is_unit d ->
  let o := ((d ∙ Tg) * Tg + len (perp Tg d) * turned Tg n phi)%r3 in is_unit o /\ o ∙ Tg = d ∙ Tg.
Proof.
  intros HT Hn HO Hd o. pose proof (turned_unit Tg n phi HT Hn HO) as U. pose proof (turned_orth Tg n phi HO) as O.
  unfold o, is_unit in *. split.
  - autorewrite with dotr. rewrite HT, U, O, (dot_comm Tg (turned _ _ _)), O.
    assert (L : len (perp Tg d) * len (perp Tg d) = 1 - (d ∙ Tg) * (d ∙ Tg)).
    { rewrite len_sq. unfold perp. autorewrite with dotr. rewrite Hd, HT, (dot_comm Tg d). ring. }
    transitivity ((d ∙ Tg) * (d ∙ Tg) + len (perp Tg d) * len (perp Tg d)); [ring|rewrite L; ring].
  - autorewrite with dotr. rewrite HT, O. ring.
Qed.

(** an order exists when the grating equation has a solution beta: |G m lambda - sin alpha| <= 1 (in units of the
    component of the direction perpendicular to the grooves) *)
(** C31 *)
Lemma grating_groove r g d n Tg G m lam : grating_is g Tg G -> is_unit Tg -> is_unit n -> orth n Tg ->
  direction r = fv d -> is_unit d -> perp Tg d <> r3zero -> order r = Fin m -> wavelength r = Fin lam -> m <> 0 ->
  let sin_alpha := Rabs (dirn (perp Tg d) ∙ (Tg × n)%r3) in
  (-1 <= gml G m lam - sin_alpha <= 1 ->
   exists o, grating_do_intersect g r (Some (fv n)) = Ok (set_direction r (fv o)) /\ is_unit o /\ o ∙ Tg = d ∙ Tg) /\
  (~ -1 <= gml G m lam - sin_alpha <= 1 ->
   grating_do_intersect g r (Some (fv n)) = Ok (set_direction r (V XNaN XNaN XNaN))).
Proof.
  intros HG HT Hn HO Hd Ud Np Hm Hl Nm sa.
  destruct (grating_fv r g d n Tg G m lam HG HT Hn HO Hd Ud Np Hm Hl) as (t & Bt & Pt & A & B).
  assert (S : sin (Rabs t) = sa).
  { unfold sa. assert (X : dirn (perp Tg d) ∙ (Tg × n)%r3 = - sin t).
    { assert (Y : (- dirn (perp Tg d))%r3 ∙ (Tg × n)%r3 = sin t).
      { rewrite Pt. unfold turned. autorewrite with dotr. rewrite (dot_comm n (Tg × n)%r3), dot_cross_r, lagrange.
        unfold is_unit, orth in *. rewrite HT, Hn, (dot_comm Tg n), HO. ring. }
      rewrite dot_opp_l in Y. lra. }
    rewrite X, Rabs_Ropp. unfold Rabs at 1. destruct (Rcase_abs t) as [L|L].
    - rewrite sin_neg. rewrite Rabs_left1; [reflexivity|]. assert (0 <= sin (- t)) by (apply sin_ge_0; lra). rewrite sin_neg in *. lra.
    - rewrite Rabs_right; [reflexivity|]. apply Rle_ge, sin_ge_0; lra. }
  cbv zeta in A, B. rewrite S in A, B.
  unfold grating_do_intersect. cbn [need bind]. rewrite Hm, (nofZ_fin 0), neqb_fin, (Reqb_false m 0) by exact Nm.
  split; intros K.
  - destruct (A K) as (o & E & ->). eexists. split; [exact E|]. apply conical_unit; assumption.
  - exact (B K).
Qed.

Lemma grating_order0 r g n : order r = Fin 0 -> grating_do_intersect g r (Some n) = Ok (reflect_specular r n).
Proof. intros Hm. unfold grating_do_intersect. cbn [need bind]. rewrite Hm, (nofZ_fin 0), neqb_fin, Reqb_true; reflexivity. Qed.

(** C30: in-plane incidence from the front *)
Lemma grating_in_plane r g d n Tg G m lam : grating_is g Tg G -> is_unit Tg -> is_unit n -> orth n Tg ->
  direction r = fv d -> is_unit d -> orth d Tg -> order r = Fin m -> wavelength r = Fin lam -> m <> 0 -> d ∙ n < 0 ->
  exists t, - (PI / 2) < t < PI / 2 /\ (- d)%r3 = turned Tg n t /\
  (-1 <= gml G m lam - sin (Rabs t) <= 1 ->
   grating_do_intersect g r (Some (fv n))
     = Ok (set_direction r (fv (turned Tg n (- (t + Rabs t + asin (gml G m lam - sin (Rabs t)))))))).
Proof.
  intros HG HT Hn HO Hd Ud Od Hm Hl Nm Fr.
  assert (P : perp Tg d = d) by (apply perp_fix; exact Od).
  assert (Np : perp Tg d <> r3zero) by (rewrite P; apply unit_nonzero, Ud).
  destruct (grating_fv r g d n Tg G m lam HG HT Hn HO Hd Ud Np Hm Hl) as (t & Bt & Pt & A & B).
  rewrite P, (dirn_of_unit d Ud) in Pt. exists t.
  assert (C : 0 < cos t).
  { assert (Y : (- d)%r3 ∙ n = cos t). { rewrite Pt. unfold turned. autorewrite with dotr. unfold is_unit in Hn. rewrite Hn. ring. }
    rewrite dot_opp_l in Y. lra. }
  split.
  { destruct (Rlt_dec (- (PI/2)) t) as [L|L]; [destruct (Rlt_dec t (PI/2)) as [L'|L']|].
    - lra.
    - exfalso. pose proof (cos_le_0 t ltac:(lra) ltac:(pose proof PI_RGT_0; lra)). lra.
    - exfalso. rewrite <- cos_neg in C. pose proof (cos_le_0 (- t) ltac:(lra) ltac:(pose proof PI_RGT_0; lra)). lra. }
  split; [exact Pt|]. intros K. destruct (A K) as (o & E & Eo).
  unfold grating_do_intersect. cbn [need bind]. rewrite Hm, (nofZ_fin 0), neqb_fin, (Reqb_false m 0) by exact Nm.
  rewrite E. f_equal. f_equal. f_equal. rewrite Eo, P. unfold orth in Od. rewrite Od, (len_unit d Ud). r3_ring.
Qed.

Lemma turned_cross Tg n t : is_unit Tg -> is_unit n -> orth n Tg -> turned Tg n t ∙ (Tg × n)%r3 = sin t.
Proof.
  intros HT Hn HO. unfold turned. autorewrite with dotr. rewrite (dot_comm n (Tg × n)%r3), dot_cross_r, lagrange.
  unfold is_unit, orth in *. rewrite HT, Hn, (dot_comm Tg n), HO. ring.
Qed.
Lemma turned_n Tg n t : is_unit n -> turned Tg n t ∙ n = cos t.
Proof. intros Hn. unfold turned. autorewrite with dotr. unfold is_unit in Hn. rewrite Hn. ring. Qed.

(** right when the ray comes from the side of n x Tg *)
Lemma grating_eq_good r g d n Tg G m lam : grating_is g Tg G -> is_unit Tg -> is_unit n -> orth n Tg ->
  direction r = fv d -> is_unit d -> orth d Tg -> order r = Fin m -> wavelength r = Fin lam -> m <> 0 -> d ∙ n < 0 ->
  let s := (n × Tg)%r3 in d ∙ s <= 0 -> -1 <= gml G m lam + d ∙ s <= 1 ->
  exists alpha beta, 0 <= alpha < PI / 2 /\ - (PI / 2) <= beta <= PI / 2 /\
    (- d)%r3 = (cos alpha * n + sin alpha * s)%r3 /\ gml G m lam = sin alpha + sin beta /\
    grating_do_intersect g r (Some (fv n)) = Ok (set_direction r (fv (cos beta * n + sin beta * s)%r3)).
Proof.
  intros HG HT Hn HO Hd Ud Od Hm Hl Nm Fr s Hs Hex.
  destruct (grating_in_plane r g d n Tg G m lam HG HT Hn HO Hd Ud Od Hm Hl Nm Fr) as (t & Bt & Pt & E).
  assert (St : sin t = d ∙ s).
  { rewrite <- (turned_cross Tg n t HT Hn HO), <- Pt. unfold s. r3_ring. }
  assert (Lt : t <= 0).
  { apply Rnot_lt_le. intros K. assert (0 < sin t) by (apply sin_gt_0; lra). lra. }
  rewrite (Rabs_left1 t Lt) in E. rewrite sin_neg, St in E.
  assert (Sx : forall x, turned Tg n (- x) = (cos x * n + sin x * s)%r3).
  { intros x. unfold turned, s. rewrite cos_neg, sin_neg. generalize (cos x) (sin x). intros. r3_ring. }
  exists (- t), (asin (gml G m lam + d ∙ s)). split; [lra|]. split; [apply asin_bound|]. split.
  { rewrite Pt, <- Sx. now rewrite Ropp_involutive. }
  split. { rewrite sin_asin by lra. rewrite sin_neg, St. ring. }
  replace (gml G m lam - - (d ∙ s)) with (gml G m lam + d ∙ s) in E by ring. rewrite (E Hex). do 3 f_equal. rewrite <- Sx. f_equal. ring.
Qed.

(** wrong from the other side, for every diffracted order *)
Lemma grating_eq_bad r g d n Tg G m lam : grating_is g Tg G -> is_unit Tg -> is_unit n -> orth n Tg ->
  direction r = fv d -> is_unit d -> orth d Tg -> order r = Fin m -> wavelength r = Fin lam -> m <> 0 -> d ∙ n < 0 ->
  let s := (Tg × n)%r3 in d ∙ s < 0 -> -1 <= gml G m lam + d ∙ s <= 1 -> gml G m lam <> 0 ->
  exists o, grating_do_intersect g r (Some (fv n)) = Ok (set_direction r (fv o)) /\ o ∙ s <> gml G m lam + d ∙ s.
Proof.
  intros HG HT Hn HO Hd Ud Od Hm Hl Nm Fr s Hs Hex Hg.
  destruct (grating_in_plane r g d n Tg G m lam HG HT Hn HO Hd Ud Od Hm Hl Nm Fr) as (t & Bt & Pt & E).
  assert (St : sin t = - (d ∙ s)).
  { rewrite <- (turned_cross Tg n t HT Hn HO), <- Pt. unfold s. r3_ring. }
  assert (Lt : 0 < t).
  { apply Rnot_le_lt. intros K. assert (0 <= sin (- t)) by (apply sin_ge_0; lra). rewrite sin_neg in *. lra. }
  rewrite (Rabs_right t) in E by lra. rewrite St in E.
  replace (gml G m lam - - (d ∙ s)) with (gml G m lam + d ∙ s) in E by ring.
  eexists. split; [apply E, Hex|]. unfold s. rewrite turned_cross by assumption. fold s.
  set (b := asin (gml G m lam + d ∙ s)). pose proof (asin_bound (gml G m lam + d ∙ s)) as Bb. fold b in Bb.
  assert (Sb : sin b = gml G m lam + d ∙ s) by (apply sin_asin; lra). rewrite <- Sb. rewrite sin_neg.
  intros X. assert (Z : 2 * (sin (t + b) * cos t) = 0).
  { assert (A1 : sin (t + t + b) = sin ((t + b) + t)) by (f_equal; ring).
    assert (A2 : sin b = sin ((t + b) - t)) by (f_equal; ring). rewrite A1, A2, sin_plus, sin_minus in X. lra. }
  assert (C : 0 < cos t) by (apply cos_gt_0; lra).
  assert (S0 : sin (t + b) = 0) by (apply Rmult_eq_reg_r with (cos t); lra).
  assert (TB : t + b = 0).
  { destruct (Rtotal_order (t + b) 0) as [L|[L|L]]; [exfalso|exact L|exfalso].
    - assert (0 < sin (- (t + b))) by (apply sin_gt_0; lra). rewrite sin_neg in *. lra.
    - assert (0 < sin (t + b)) by (apply sin_gt_0; lra). lra. }
  assert (sin b = - sin t) by (rewrite <- sin_neg; f_equal; lra). lra.
Qed.
