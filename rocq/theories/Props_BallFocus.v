(** C87: the focus of a ball lens. *)
From Coq Require Import ZArith Reals String List Bool Lia Lra Psatz.
From Verif Require Import PyErr Num Vec Shapes Csg Optics Spec XReal RVec VecProofs FlatProofs SphereProofs CylProofs CsgProofs RayProofs RunGen RunXr StateXr OpticHits OrderProofs FlatOptic SceneProofs Props_Run Props_Ray Props_Scene Props_Images Props_Loop Props_Ball Continue Props_Focus.
Import ListNotations.
Local Open Scope R_scope.

(** [a], [b]: cosines of incidence and refraction, [al = a/ix], [de = b - al], [g = 1/ix + a de] the cosine of the deviation at one surface *)
Lemma ball_algebra ix a b : 1 < ix -> b * b = 1 - (1 - a * a) / (ix * ix) -> let de := b - a / ix in let g := / ix + a * de in g * (/ ix) + b * de = 1.
Proof. intros Hix Hb de g. unfold g, de. replace ((/ ix + a * (b - a / ix)) * / ix + b * (b - a / ix)) with (b * b + (1 - a * a) / (ix * ix)) by (field; lra). rewrite Hb. ring. Qed.
Lemma ball_bounds ix a b eta : 1 < ix -> 0 < a <= 1 -> 0 < b <= 1 -> eta = 1 - a * a -> b * b = 1 - eta / (ix * ix) -> let de := b - a / ix in let g := / ix + a * de in
  0 < de <= 1 /\ 0 < g <= 1 /\ Rabs (g * de - (1 - / ix)) <= 3 * eta /\ b * de <= 1 - / ix + eta / ix.
Proof.
  intros Hix A B E Hb de g. assert (I : 0 < / ix < 1) by (split; [apply Rinv_0_lt_compat; lra|rewrite <- Rinv_1; apply Rinv_lt_contravar; lra]). set (j := / ix) in *.
  assert (Ede : de = b - a * j) by reflexivity. assert (Hb' : b * b = 1 - eta * (j * j)). { rewrite Hb. unfold j. field. lra. }
  assert (J2 : 0 < j * j < 1) by nra. assert (E0 : 0 <= eta <= 1) by nra. assert (A1 : 1 - a <= eta) by nra. assert (B1 : 1 - b <= eta * (j * j)) by nra.
  assert (Lab : a <= b). { apply Rnot_lt_le. intros L. assert (b * b < a * a) by nra. assert (eta * (j * j) <= eta * 1) by (apply Rmult_le_compat_l; lra). nra. }
  assert (D0 : 0 < de). { rewrite Ede. assert (a * j < a * 1) by (apply Rmult_lt_compat_l; lra). lra. }
  assert (Aj : 0 < a * j) by (apply Rmult_lt_0_compat; lra).
  assert (D1 : de <= 1) by (rewrite Ede; lra).
  assert (Eg : g = j * eta + a * b). { unfold g. rewrite Ede, E. ring. }
  assert (G0 : 0 < g) by (unfold g; assert (0 < a * de) by (apply Rmult_lt_0_compat; lra); lra).
  assert (Gq : g * g + de * de * eta = 1). { rewrite Eg, Ede. replace ((j * eta + a * b) * (j * eta + a * b) + (b - a * j) * (b - a * j) * eta) with (j * j * eta * (eta + a * a) + b * b * (a * a + eta)) by ring. replace (eta + a * a) with 1 by lra. replace (a * a + eta) with 1 by lra. rewrite Hb'. ring. }
  assert (G1 : g <= 1). { assert (0 <= de * de * eta) by (apply Rmult_le_pos; [nra|lra]). nra. }
  assert (G2 : 1 - g <= 2 * eta). { assert (1 - a * b <= eta + eta * (j * j)) by nra. assert (eta * (j * j) <= eta * 1) by (apply Rmult_le_compat_l; lra). assert (0 <= j * eta) by (apply Rmult_le_pos; lra). rewrite Eg. lra. }
  assert (Ej : eta * (j * j) <= eta * j) by (apply Rmult_le_compat_l; [lra|nra]). assert (Ej2 : 0 <= eta * j <= eta) by nra.
  assert (D2 : - eta <= de - (1 - j) <= eta * j). { rewrite Ede. assert (0 <= (1 - a) * j <= eta * j) by nra. lra. }
  split; [lra|]. split; [lra|]. split.
  - apply Rabs_le. assert (0 <= (1 - g) * de <= 2 * eta) by nra. replace (g * de - (1 - j)) with ((de - (1 - j)) - (1 - g) * de) by ring. lra.
  - unfold Rdiv. fold j. assert (b * de <= 1 * de) by (apply Rmult_le_compat_r; lra). lra.
Qed.

(** C87: a ray that passes a ball lens of glass (index ix > 1, alone in the scene) at the distance h > 0 from the centre.  With R the radius, it enters after t1, leaves after another t2, and the line
    on which it leaves crosses the parallel to the incoming ray through the centre at the distance X behind the centre, s after the exit.  The power 1/X differs from 2 (ix - 1) / (ix R) by at most
    6 h^2 / R^3; the crossing is outside the ball and ahead (s > 0) at least when ix + 2 h^2/R^2 < 2. *)
Theorem C87_focus : forall c n D f ty ix l r p d mx fuel, D <> 0 -> real_type ty -> 1 < ix -> mk_lens (fv c) n "spherical" (Some (Fin D)) f ty (Fin ix) = Ok l ->
  ray_is r p d -> is_unit d -> blocked r = false -> ray_type r <> "faerie_fire"%string ->
  let R := Rabs (D / 2) in let h := axis_dist c d p in 0 < h < R ->
  let t1 := (c - p)%r3 ∙ d - sqrt (R * R - h * h) in let t2 := 2 * sqrt (R * R - h * h / (ix * ix)) in 1e-12 < t1 -> 1e-12 < t2 -> t1 + t2 < mx -> (3 <= fuel)%nat ->
  exists q2 e r' X s, is_unit e /\ on_sphere c R q2 /\
    run fuel r (Fin mx) [OLens l] None = Ok (r', [OLens l]) /\ ray_is r' (at_t q2 e (mx - t1 - t2)) e /\ point_history r' = point_history r ++ [fv (at_t p d t1); fv q2; fv (at_t q2 e (mx - t1 - t2))] /\
    at_t q2 e s = (c + X * d)%r3 /\ 0 < X /\ Rabs (/ X - 2 * (ix - 1) / (ix * R)) <= 6 * (h * h) / (R * R * R) /\ (ix + 2 * (h * h) / (R * R) < 2 -> 0 < s).
Proof.
  intros c n D f ty ix l r p d mx fuel HD Hty Hix El Hr Ud Hb NF R h Hh t1 t2 T1 T2 Bud HF.
  set (v := perp d (p - c)%r3). set (z := (c - p)%r3 ∙ d) in *.
  assert (Vd : v ∙ d = 0) by (unfold v, perp; autorewrite with dotr; unfold is_unit in Ud; rewrite Ud; ring).
  assert (Ez : (p - c)%r3 ∙ d = - z) by (unfold z; autorewrite with dotr; ring).
  assert (Ep : p = (c + v - z * d)%r3) by (unfold v, perp; rewrite Ez; clearbody z; gr).
  assert (Hv : h * h = v ∙ v) by (unfold h, axis_dist; rewrite len_sq; reflexivity).
  assert (PR : 0 < R) by lra. assert (RR : 0 < R * R) by (apply Rmult_lt_0_compat; lra). assert (Hl : h * h < R * R) by (apply Rmult_le_0_lt_compat; lra).
  set (A := sqrt (R * R - h * h)) in *. assert (AA : A * A = R * R - h * h) by (apply sqrt_sqrt; lra). assert (PA : 0 < A) by (apply sqrt_lt_R0; lra).
  assert (XX : 1 < ix * ix) by nra. assert (Hx : h * h / (ix * ix) <= h * h). { unfold Rdiv. rewrite <- (Rmult_1_r (h * h)) at 2. apply Rmult_le_compat_l; [nra|]. rewrite <- Rinv_1. apply Rinv_le_contravar; lra. }
  set (B := sqrt (R * R - h * h / (ix * ix))) in *. assert (BB : B * B = R * R - h * h / (ix * ix)) by (apply sqrt_sqrt; lra). assert (PB : 0 < B) by (apply sqrt_lt_R0; lra).
  set (a := A / R). set (b := B / R). set (eta := h * h / (R * R)).
  assert (Ea : eta = 1 - a * a). { unfold a, eta. replace (A / R * (A / R)) with (A * A / (R * R)) by (field; lra). rewrite AA. field. lra. }
  assert (Eb : b * b = 1 - eta / (ix * ix)). { unfold b, eta. replace (B / R * (B / R)) with (B * B / (R * R)) by (field; lra). rewrite BB. field. split; lra. }
  assert (E0 : 0 < eta < 1). { unfold eta. split; [apply Rdiv_lt_0_compat; [nra|lra]|]. apply Rmult_lt_reg_r with (R * R); [lra|]. unfold Rdiv. rewrite Rmult_assoc, Rinv_l by lra. lra. }
  assert (a0 : 0 < a) by (unfold a; apply Rdiv_lt_0_compat; lra). assert (b0 : 0 < b) by (unfold b; apply Rdiv_lt_0_compat; lra). assert (a1 : a <= 1) by nra.
  assert (Ex : 0 < eta / (ix * ix)) by (apply Rdiv_lt_0_compat; lra). assert (b1 : b <= 1) by nra.
  set (de := b - a / ix). set (g := / ix + a * de).
  destruct (ball_bounds ix a b eta Hix (conj a0 a1) (conj b0 b1) Ea Eb) as (D0 & G0 & GB & BD). fold de g in D0, G0, GB, BD.
  pose proof (ball_algebra ix a b Hix) as Alg. rewrite <- Ea in Alg. specialize (Alg Eb). cbv zeta in Alg. fold de g in Alg.
  set (q1 := at_t p d t1). set (u1 := outward c R q1). assert (RA : R * a = A) by (unfold a; field; lra).
  assert (Eq1 : (q1 - c)%r3 = (v - A * d)%r3). { unfold q1, at_t, t1. rewrite Ep. clearbody z A v. gr. }
  assert (Eu1 : u1 = (/ R * v - a * d)%r3). { unfold u1, outward. rewrite Eq1, <- RA. replace (/ R * (v - R * a * d))%r3 with (/ R * v - (/ R * R * a) * d)%r3 by (set (i := / R); clearbody i a v; gr). rewrite Rinv_l by lra. clearbody a v. gr. }
  assert (vv : v ∙ v = eta * (R * R)). { rewrite <- Hv. unfold eta. field. lra. }
  assert (Du : d ∙ u1 = - a). { rewrite Eu1. autorewrite with dotr. rewrite (dot_comm d v), Vd. unfold is_unit in Ud. rewrite Ud. ring. }
  assert (F1 : first_ahead c R p d t1).
  { assert (Sq : forall s, dist3 (at_t p d s) c * dist3 (at_t p d s) c = h * h + (s - z) * (s - z)). { intros s. rewrite dist3_sq. replace (at_t p d s - c)%r3 with (v + (s - z) * d)%r3 by (rewrite Ep; unfold at_t; clearbody z v; gr). autorewrite with dotr. rewrite (dot_comm d v), Vd, Hv. unfold is_unit in Ud. rewrite Ud. ring. }
    split; [exact T1|]. split.
    - unfold on_sphere. pose proof (Sq t1) as Q. replace (t1 - z) with (- A) in Q by (unfold t1; ring). replace (h * h + - A * - A) with (R * R) in Q by lra. pose proof (len_nonneg (at_t p d t1 - c)%r3) as N. fold (dist3 (at_t p d t1) c) in N. nra.
    - intros s _ On. unfold on_sphere in On. pose proof (Sq s) as Q. rewrite On in Q. apply Rnot_lt_le. intros L. unfold t1 in L. assert (0 < (z - A - s) * (z - s + A)) by (apply Rmult_lt_0_compat; lra). nra. }
  destruct (C64_ball c n D f ty ix l r p d t1 mx fuel HD Hty ltac:(lra) El Hr Ud Hb NF F1) as (o & Uo & Po & No & On2 & Rest); try exact HF; [fold R q1 u1; rewrite Du; lra|right; lra|]. fold R q1 u1 in Po, No, Rest, On2. cbv zeta in Rest, On2.
  assert (Eo' : perp u1 o = (/ ix * perp u1 d)%r3). { rewrite Po. replace (/ ix * (ix * perp u1 o))%r3 with ((/ ix * ix) * perp u1 o)%r3 by (generalize (perp u1 o); set (i := / ix); clearbody i; intros; gr). rewrite Rinv_l by lra. generalize (perp u1 o). intros. gr. }
  assert (U1 : is_unit u1). { unfold is_unit. rewrite Eu1. autorewrite with dotr. rewrite (dot_comm d v), Vd, vv. unfold is_unit in Ud. rewrite Ud. replace (/ R * (/ R * (eta * (R * R)))) with eta by (field; lra). lra. }
  assert (Ou : o ∙ u1 = - b).
  { pose proof (perp_dot u1 o o U1) as P1. rewrite Eo', dot_scale_l, dot_scale_r, (perp_dot u1 d d U1), Du in P1. unfold is_unit in Uo, Ud. rewrite Uo, Ud in P1.
    assert (Q : (o ∙ u1) * (o ∙ u1) = b * b). { rewrite Eb, Ea. replace ((1 - a * a) / (ix * ix)) with (/ ix * (/ ix * (1 - - a * - a))) by (field; lra). lra. }
    assert (X : (o ∙ u1 - b) * (o ∙ u1 + b) = 0) by lra. apply Rmult_integral in X. destruct X; lra. }
  assert (Eo : o = (g * d - (de / R) * v)%r3).
  { assert (o = (perp u1 o + (o ∙ u1) * u1)%r3) as -> by (unfold perp; generalize (o ∙ u1); intros; clearbody u1; gr). rewrite Eo', Ou. unfold perp. rewrite Du, Eu1. unfold g, de, Rdiv. set (i := / ix). set (j := / R). clearbody i j a b v. gr. }
  rewrite Ou in Rest, On2. replace (- 2 * R * - b) with t2 in Rest, On2 by (unfold t2, b; field; lra). destruct (Rest T2 Bud) as (e & r' & Ue & _ & _ & Ee & Run & _ & Ry & Hi).
  assert (Do : d ∙ o = g). { rewrite Eo. autorewrite with dotr. rewrite (dot_comm d v), Vd. unfold is_unit in Ud. rewrite Ud. ring. }
  rewrite Do in Ee. set (q2 := at_t q1 o t2) in *. set (s := R * (1 - 2 * b * de) / (2 * g * de)). set (X := R / (2 * g * de)). exists q2, e, r', X, s.
  assert (GD : 0 < g * de) by (apply Rmult_lt_0_compat; lra). assert (PX : 0 < X) by (unfold X; apply Rdiv_lt_0_compat; lra).
  split; [exact Ue|]. split; [exact On2|]. split; [exact Run|]. split; [exact Ry|]. split; [exact Hi|]. split; [|split; [exact PX|split]].
  - assert (T2b : t2 = 2 * (R * b)) by (unfold t2, b; field; lra).
    assert (Es1 : s * (2 * g * (de / R)) = 1 - 2 * b * de) by (unfold s; field; repeat split; lra).
    assert (Es2 : s * (2 * (g * g) - 1) = X - R * (2 * b * g - a)).
    { unfold s, X. apply Rmult_eq_reg_r with (2 * g * de); [|lra]. replace (R * (1 - 2 * b * de) / (2 * g * de) * (2 * (g * g) - 1) * (2 * g * de)) with (R * (1 - 2 * b * de) * (2 * (g * g) - 1)) by (field; lra).
      replace ((R / (2 * g * de) - R * (2 * b * g - a)) * (2 * g * de)) with (R * (1 - (2 * b * g - a) * (2 * g * de))) by (field; lra).
      assert (Alg2 : g * g - a * g * de + b * de = 1). { rewrite <- Alg. unfold g at 2. ring. }
      replace (R * (1 - 2 * b * de) * (2 * (g * g) - 1)) with (R * (2 * (g * g) - 2 * (a * g * de) + 2 * (b * de) - 1 - (2 * b * g - a) * (2 * g * de))) by ring. replace (2 * (g * g) - 2 * (a * g * de) + 2 * (b * de) - 1) with (2 * (g * g - a * g * de + b * de) - 1) by ring. rewrite Alg2. ring. }
    assert (q1 = (c + (v - A * d))%r3) as Eq by (rewrite <- Eq1; clearbody q1; gr).
    unfold q2. rewrite Ee, Eo, Eq, T2b, <- RA.
    replace (at_t (at_t (c + (v - R * a * d)) (g * d - de / R * v) (2 * (R * b))) (2 * g * (g * d - de / R * v) - d) s)%r3 with
      (c + (1 - 2 * (R * b) * (de / R) - s * (2 * g * (de / R))) * v + (R * (2 * b * g - a) + s * (2 * (g * g) - 1)) * d)%r3 by (unfold at_t; set (y := de / R); clearbody y s g b a v; gr).
    rewrite Es1, Es2. replace (1 - 2 * (R * b) * (de / R) - (1 - 2 * b * de)) with 0 by (field; lra). replace (R * (2 * b * g - a) + (X - R * (2 * b * g - a))) with X by ring. clearbody X v. gr.
  - replace (/ X - 2 * (ix - 1) / (ix * R)) with ((2 / R) * (g * de - (1 - / ix))) by (unfold X; field; repeat split; lra). rewrite Rabs_mult, Rabs_pos_eq by (apply Rlt_le, Rdiv_lt_0_compat; lra).
    replace (6 * (h * h) / (R * R * R)) with (2 / R * (3 * eta)) by (unfold eta; field; lra). apply Rmult_le_compat_l; [apply Rlt_le, Rdiv_lt_0_compat; lra|exact GB].
  - intros S2. replace (2 * (h * h) / (R * R)) with (2 * eta) in S2 by (unfold eta; field; lra). unfold s. apply Rdiv_lt_0_compat; [|lra]. apply Rmult_lt_0_compat; [exact PR|].
    assert (I0 : 0 < / ix) by (apply Rinv_0_lt_compat; lra). assert (K : 0 < / ix * (2 - ix - 2 * eta)) by (apply Rmult_lt_0_compat; lra). replace (/ ix * (2 - ix - 2 * eta)) with (1 - 2 * (1 - / ix + eta / ix)) in K by (field; lra). lra.
Qed.
Print Assumptions C87_focus.

(** the scene of script_testBallLens.py, the ray at z = 5 *)
Example C87_hyp : exists l, mk_lens (fv (mk3 0 100 0)) None "spherical" (Some (Fin 50)) None "real" (Fin (3/2)) = Ok l /\
  let c := mk3 0 100 0 in let p := mk3 0 0 5 in let d := mk3 0 1 0 in let R := Rabs (50 / 2) in let h := axis_dist c d p in real_type "real" /\ is_unit d /\ 0 < h < R /\
  let t1 := (c - p)%r3 ∙ d - sqrt (R * R - h * h) in let t2 := 2 * sqrt (R * R - h * h / (3/2 * (3/2))) in 1e-12 < t1 /\ 1e-12 < t2 /\ t1 + t2 < 150 /\ 3/2 + 2 * (h * h) / (R * R) < 2.
Proof.
  eexists. split. { unfold mk_lens. change (String.eqb "spherical" "spherical_biconvex") with false. change (String.eqb "spherical" "spherical") with true. cbn iota. unfold mk_sphere. rewrite check_D_only. cbn [bind]. reflexivity. }
  intros c p d R h. assert (ER : R = 25) by (unfold R; rewrite Rabs_pos_eq; lra).
  assert (Eh : h = 5). { unfold h, axis_dist, perp. apply len_eq_of_sq; [lra|]. unfold c, p, d, r3sub, r3scale, r3dot. cbn [cx cy cz]. ring. }
  assert (Ez : (c - p)%r3 ∙ d = 100) by (unfold c, p, d, r3sub, r3dot; cbn [cx cy cz]; ring). rewrite Ez, Eh, ER. split; [repeat split; discriminate|]. split; [unfold is_unit, d, r3dot; cbn [cx cy cz]; ring|]. split; [lra|]. intros t1 t2.
  assert (S1 : 24 <= sqrt (25 * 25 - 5 * 5) <= 25) by (split; [rewrite <- (sqrt_square 24) by lra|rewrite <- (sqrt_square 25) at 3 by lra]; apply sqrt_le_1; lra).
  assert (S2 : 24 <= sqrt (25 * 25 - 5 * 5 / (3/2 * (3/2))) <= 25) by (split; [rewrite <- (sqrt_square 24) by lra|rewrite <- (sqrt_square 25) at 3 by lra]; apply sqrt_le_1; lra).
  unfold t1, t2. lra.
Qed.
