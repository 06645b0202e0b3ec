(** C82: flat intersections and reflections in binary64. *)
From Coq Require Import ZArith Reals Floats.SpecFloat String List Bool Lia Lra.
From Flocq Require Import Core IEEE754.BinarySingleNaN.
From Verif Require Import PyErr Num Vec Shapes Csg Optics Spec RVec FloatInst FloatReal FloatVec FloatHit.
Import ListNotations.
Local Open Scope R_scope.

(** [isv v a]: [v] is a vector of finite binary64 numbers whose real values are [a].  The plane passes through [c] with normal [n], the ray starts at [p] along [d]
    (both of length 1 up to rounding, as unit_vector leaves them, C81_unit); [del] bounds the cosine of the angle of incidence from below.
    Exact flight: [t = ((c-p).n) / (n.d)]; [K = |c-p| / del^2] is the condition number of the problem. *)
(** C82: Plane.test_intersect agrees with exact geometry except in a window of width 2e-13 + 4.4e-15 K around the code's own threshold 1e-9, and the hit point is accurate. *)
Theorem C82_plane : forall (pl : plane b64) (r : ray b64) c n p d del,
  isv (pl_center pl) c -> isv (pl_normal pl) n -> isv (position r) p -> isv (direction r) d ->
  Rabs (len n - 1) <= 4e-16 -> Rabs (len d - 1) <= 4e-16 -> 1e-6 <= del -> del <= Rabs (dirn n ∙ dirn d) ->
  len (c - p)%r3 <= bpow radix2 100 -> len p <= bpow radix2 100 ->
  let t := ((c - p)%r3 ∙ dirn n) / (dirn n ∙ dirn d) in let K := len (c - p)%r3 / (del * del) in
  (1.0001e-9 + 2.2e-15 * K < t -> exists pt w, plane_test_intersect pl r = H3 true (Some pt) (Some (pl_normal pl)) /\ isv pt w /\
     len (w - (p + t * dirn d))%r3 <= 2.7e-15 * K + 1.2e-16 * len (p + t * dirn d)%r3 + 1e-30) /\
  (t < 0.9999e-9 - 2.2e-15 * K -> plane_test_intersect pl r = H3 false None None).
Proof. exact plane64. Qed.
Print Assumptions C82_plane.

(** C82: Circle.test_intersect accepts every ray that meets the disc by more than the error bound inside its rim and rejects every ray that passes outside by more than it. *)
Theorem C82_circle : forall (ci : circle b64) (pl : plane b64) (r : ray b64) c n p d del rad,
  ci_plane ci = Some pl -> ci_center ci = pl_center pl -> isr (ci_R ci) rad ->
  isv (pl_center pl) c -> isv (pl_normal pl) n -> isv (position r) p -> isv (direction r) d ->
  Rabs (len n - 1) <= 4e-16 -> Rabs (len d - 1) <= 4e-16 -> 1e-6 <= del -> del <= Rabs (dirn n ∙ dirn d) ->
  len (c - p)%r3 <= bpow radix2 100 -> len p <= bpow radix2 100 ->
  let t := ((c - p)%r3 ∙ dirn n) / (dirn n ∙ dirn d) in let K := len (c - p)%r3 / (del * del) in let P := (p + t * dirn d)%r3 in
  let err := 2.7e-15 * K + 1.2e-16 * len P + 1e-30 in
  (1.0001e-9 + 2.2e-15 * K < t -> len (P - c)%r3 * (1 + 1e-15) + 3 * err < rad ->
     exists pt w, circle_test_intersect ci r = Ok (H3 true (Some pt) (Some (pl_normal pl))) /\ isv pt w /\ len (w - P)%r3 <= err) /\
  (1.0001e-9 + 2.2e-15 * K < t -> rad < len (P - c)%r3 * (1 - 1e-15) - 3 * err -> circle_test_intersect ci r = Ok (H3 false None None)) /\
  (t < 0.9999e-9 - 2.2e-15 * K -> circle_test_intersect ci r = Ok (H3 false None None)).
Proof. exact circle64. Qed.
Print Assumptions C82_circle.

(** C82: a flat mirror is not hit twice: after flying to the hit point and reflecting, the same plane reports no hit, whatever the rounding errors. *)
Theorem C82_no_rehit : forall (pl : plane b64) (r : ray b64) c n p d del,
  isv (pl_center pl) c -> isv (pl_normal pl) n -> isv (position r) p -> isv (direction r) d ->
  Rabs (len n - 1) <= 4e-16 -> Rabs (len d - 1) <= 4e-16 -> 1e-3 <= del -> del <= Rabs (dirn n ∙ dirn d) ->
  len (c - p)%r3 + len p <= 1e5 * (del * (del * del)) ->
  1.0001e-9 + 2.2e-15 * (len (c - p)%r3 / (del * del)) < ((c - p)%r3 ∙ dirn n) / (dirn n ∙ dirn d) ->
  exists pt, plane_test_intersect pl r = H3 true (Some pt) (Some (pl_normal pl)) /\
    plane_test_intersect pl (reflect_specular (fly r (distance_between (position r) pt)) (pl_normal pl)) = H3 false None None.
Proof. exact rehit64. Qed.
Print Assumptions C82_no_rehit.
(** a ray starting off the axis of a disc of radius 2 at distance 10; all hypotheses of the three theorems *)
Example C82_hyp : let c := mk3 0 0 10 in let n := mk3 0 0 (-1) in let p := mk3 1 0 0 in let d := mk3 0 0 1 in
  exists (ci : circle b64) pl, mk_circle (V (nofZ 0) (nofZ 0) (nofZ 10)) (Some (V (nofZ 0) (nofZ 0) (nofZ (-1)))) (Some (nofZ 2)) None = Ok ci /\ ci_plane ci = Some pl /\ ci_center ci = pl_center pl /\
  let r := mk_ray (V (nofZ 1) (nofZ 0) (nofZ 0)) (V (nofZ 0) (nofZ 0) (nofZ 1)) (nofZ 1) (nofZ 0) EmptyString in
  isr (ci_R ci) 2 /\ isv (pl_center pl) c /\ isv (pl_normal pl) n /\ isv (position r) p /\ isv (direction r) d /\
  Rabs (len n - 1) <= 4e-16 /\ Rabs (len d - 1) <= 4e-16 /\ 1 <= Rabs (dirn n ∙ dirn d) /\ len (c - p)%r3 <= bpow radix2 100 /\ len p <= bpow radix2 100 /\
  len (c - p)%r3 + len p <= 1e5 * (1 * (1 * 1)) /\
  1.0001e-9 + 2.2e-15 * (len (c - p)%r3 / (1 * 1)) < ((c - p)%r3 ∙ dirn n) / (dirn n ∙ dirn d) /\
  let P := (p + (((c - p)%r3 ∙ dirn n) / (dirn n ∙ dirn d)) * dirn d)%r3 in
  len (P - c)%r3 * (1 + 1e-15) + 3 * (2.7e-15 * (len (c - p)%r3 / (1 * 1)) + 1.2e-16 * len P + 1e-30) < 2.
Proof.
  intros c n p d.
  assert (Ln : len n = 1) by (apply len_eq_of_sq; [lra|unfold n; r3_unf; cbn [cx cy cz]; ring]). assert (Ld : len d = 1) by (apply len_eq_of_sq; [lra|unfold d; r3_unf; cbn [cx cy cz]; ring]).
  assert (Lp : len p = 1) by (apply len_eq_of_sq; [lra|unfold p; r3_unf; cbn [cx cy cz]; ring]).
  assert (Lc : 0 <= len (c - p)%r3 <= 11). { split; [apply len_nonneg|]. apply len_le_of; [lra|]. unfold c, p. r3_unf. cbn [cx cy cz]. lra. }
  assert (Dn : dirn n = n) by (unfold dirn; rewrite Ln; unfold n; r3_unf; cbn [cx cy cz]; f_equal; field). assert (Dd : dirn d = d) by (unfold dirn; rewrite Ld; unfold d; r3_unf; cbn [cx cy cz]; f_equal; field).
  assert (Et : ((c - p)%r3 ∙ dirn n) / (dirn n ∙ dirn d) = 10) by (rewrite Dn, Dd; unfold c, p, n, d; r3_unf; cbn [cx cy cz]; field).
  assert (Ec : dirn n ∙ dirn d = -1) by (rewrite Dn, Dd; unfold n, d; r3_unf; cbn [cx cy cz]; ring).
  assert (EP : (p + 10 * dirn d)%r3 = mk3 1 0 10) by (rewrite Dd; unfold p, d; r3_unf; cbn [cx cy cz]; f_equal; ring).
  assert (LP : len (mk3 1 0 10) <= 11) by (apply len_le_of; [lra|r3_unf; cbn [cx cy cz]; lra]).
  assert (LPc : len (mk3 1 0 10 - c)%r3 = 1) by (apply len_eq_of_sq; [lra|unfold c; r3_unf; cbn [cx cy cz]; ring]).
  assert (B7 : 128 <= bpow radix2 100) by (change 128 with (bpow radix2 7); apply bpow_le; lia).
  eexists _, _. split; [vm_compute; reflexivity|]. split; [vm_compute; reflexivity|]. split; [vm_compute; reflexivity|]. cbv zeta. rewrite !Et, Ec, !EP, LPc.
  split; [split; [reflexivity|split; [reflexivity|vm_compute; lra]]|].
  do 4 (split; [split; [|split]; (split; [vm_compute; reflexivity|split; [vm_compute; reflexivity|vm_compute; lra]])|]).
  rewrite Ln, Ld, Lp. rewrite (Rabs_left (-1)) by lra. replace (1 - 1) with 0 by ring. rewrite Rabs_R0. repeat split; lra.
Qed.
