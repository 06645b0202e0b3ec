(** C103: sphere intersections and reflections at convex mirrors in binary64. *)
From Coq Require Import ZArith Reals Floats.SpecFloat String List Bool Lia Lra.
From Flocq Require Import Core IEEE754.BinarySingleNaN.
From Verif Require Import PyErr Num Vec Shapes Csg Optics Spec RVec FloatInst FloatReal FloatVec FloatHit FloatRun FloatSphere.
Import ListNotations.
Local Open Scope R_scope.

(** [isv v a]: [v] is a vector of finite binary64 numbers whose real values are [a].  The sphere has centre [c] and radius [R]; the ray starts at [p] along [d] (of length 1 up to rounding).
    [S] bounds the distance of the centre and the radius; [t0 < t1] are the exact parameters of the two crossings of the line, [h] half the chord; [S^2 / h] is the condition number. *)
Definition ball_ray (s : sphere b64) (r : ray b64) (c : R3) (R : Rdefinitions.R) (p d : R3) (S : Rdefinitions.R) : Prop :=
  isv (sp_center s) c /\ isr (sp_R s) R /\ isv (position r) p /\ isv (direction r) d /\ Rabs (len d - 1) <= 4e-16 /\
  len (c - p)%r3 <= S /\ Rabs R <= S /\ bpow radix2 (-100) <= S <= bpow radix2 100 /\ len p <= bpow radix2 100.
Definition crosses (c : R3) (R : Rdefinitions.R) (p e : R3) (t0 t1 : Rdefinitions.R) : Prop := t0 < t1 /\ dist3 (at_t p e t0) c = Rabs R /\ dist3 (at_t p e t1) c = Rabs R.

(** C103: the query agrees with exact geometry except for lines that pass within 3e-15 S^2 / R of touching the sphere and crossings within 1.1e-13 + 4.2e-15 S^2/h of the threshold 1e-12;
    the reported points are accurate. *)
Theorem C103_sphere : forall s r c R p d S t0 t1, ball_ray s r c R p d S -> crosses c R p (dirn d) t0 t1 ->
  let h := (t1 - t0) / 2 in let tau := 4.2e-15 * (S * S / h) in let er := 5.5e-15 * (S * S / h) + 1.2e-16 * (len p + 2 * S) in 3e-15 * (S * S) <= h * h ->
  exists pt0 pt1 w0 w1, isv pt0 w0 /\ isv pt1 w1 /\ len (w0 - at_t p (dirn d) t0)%r3 <= er /\ len (w1 - at_t p (dirn d) t1)%r3 <= er /\
    (1.1e-12 + tau < t0 -> sphere_test_intersect s r = H6 true (Some pt1) (Some pt0) (Some (sphere_normal s pt1)) (Some (sphere_normal s pt0)) 2) /\
    (t0 < 9.9e-13 - tau -> 1.1e-12 + tau < t1 -> sphere_test_intersect s r = H6 true (Some pt1) None (Some (sphere_normal s pt1)) None 1) /\
    (t1 < 9.9e-13 - tau -> sphere_test_intersect s r = H6 false None None None None 0).
Proof.
  intros s r c R p d S t0 t1 (Hc & HR & Hp & Hd & Ld & LS & RS & SS & Bp) (Lt & C0 & C1) h tau er Lh.
  destruct (sphere_hit64 s r c R p d S t0 t1 Hc HR Hp Hd Ld LS RS SS Bp Lt C0 C1 Lh) as (pt0 & pt1 & w0 & w1 & H0 & H1 & E0 & E1 & A & B & C & _). exists pt0, pt1, w0, w1. auto 10.
Qed.
Print Assumptions C103_sphere.
Theorem C103_miss : forall s r c R p d S, ball_ray s r c R p d S ->
  (forall t, R * R + 3e-15 * (S * S) < dist3 (at_t p (dirn d) t) c * dist3 (at_t p (dirn d) t) c) -> sphere_test_intersect s r = H6 false None None None None 0.
Proof. intros s r c R p d S (Hc & HR & Hp & Hd & Ld & LS & RS & SS & Bp). exact (sphere_miss64 s r c R p d S Hc HR Hp Hd Ld LS RS SS). Qed.
Print Assumptions C103_miss.
(** C103: the normal computed at a point within [er] of a point [P] of the sphere *)
Theorem C103_normal : forall (s : sphere b64) (pt : vec b64) c w P rad er, isv (sp_center s) c -> isv pt w -> len (w - P)%r3 <= er -> dist3 P c = rad ->
  bpow radix2 (-100) <= rad <= bpow radix2 100 -> 4 * er <= rad ->
  exists n, isv (sphere_normal s pt) n /\ len (n - dirn (c - P))%r3 <= 2.01 * (er / rad) + 8e-16 /\ Rabs (len n - 1) <= 4e-16.
Proof. intros s pt c w P rad er Hc Hw Ew Er. apply (normal64 s pt c w P rad er Hc Hw Ew). rewrite <- Er. unfold dist3. apply len_sub_comm. Qed.
Print Assumptions C103_normal.

(** C103: a convex mirror met from outside: point, position after the flight and reflected direction.  [mirrored n e = e - 2 (e.n) n]. *)
Theorem C103_mirror : forall m pos n0 Dv w0 h0 f tg dmd r c R p d S t0 t1,
  mk_mirror pos "circular_convex_spherical" n0 (Some Dv) w0 h0 f tg "normal" dmd = Ok m ->
  let s := mkSphere pos (ndiv Dv (nofZ 2)) Dv in ball_ray s r c R p d S -> crosses c R p (dirn d) t0 t1 ->
  let h := (t1 - t0) / 2 in let er := 5.5e-15 * (S * S / h) + 1.2e-16 * (len p + 2 * S) in let P := at_t p (dirn d) t0 in
  1000 * er <= h -> 1.1e-12 + er < t0 ->
  exists pt n w, mirror_test_intersect m r = Ok (H4 true (Some pt) (Some n) (SfoInt 2)) /\ isv pt w /\ len (w - P)%r3 <= er /\
    exists r' a g, mirror_do_intersect m (fly r (distance_between (position r) pt)) (Some n) = Ok r' /\ isv (position r') a /\ isv (direction r') g /\ Rabs (len g - 1) <= 4e-16 /\
      len (a - P)%r3 <= 2.5 * er /\ len (g - mirrored (dirn (P - c)) (dirn d))%r3 <= 8.1 * (er / Rabs R) + 2e-14.
Proof.
  intros m pos n0 Dv w0 h0 f tg dmd r c R p d S t0 t1 E s (Hc & HR & Hp & Hd & Ld & LS & RS & SS & Bp) (Lt & C0 & C1) h er P. unfold mk_mirror in E. destruct (unit_vector_o dmd) as [dm|]; [|discriminate E]. cbn [bind] in E.
  change (String.eqb "circular_convex_spherical" "circular_flat") with false in E. change (String.eqb "circular_convex_spherical" "rectangular_flat") with false in E. change (String.eqb "circular_convex_spherical" "circular_concave_spherical") with false in E.
  change (String.eqb "circular_convex_spherical" "circular_convex_spherical") with true in E. cbn [mk_sphere check_R_and_D bind] in E. injection E as <-.
  eapply (ball_mirror64 _ s r c R p d S t0 t1); try eassumption; reflexivity.
Qed.
Print Assumptions C103_mirror.
(** C103: after the reflection the same mirror is not hit again, as long as the rounding errors stay below the threshold 1e-12 (compare C60_binary64_refuted) *)
Theorem C103_no_rehit : forall m pos n0 Dv w0 h0 f tg dmd r c R p d S t0 t1,
  mk_mirror pos "circular_convex_spherical" n0 (Some Dv) w0 h0 f tg "normal" dmd = Ok m ->
  let s := mkSphere pos (ndiv Dv (nofZ 2)) Dv in ball_ray s r c R p d S -> crosses c R p (dirn d) t0 t1 ->
  let h := (t1 - t0) / 2 in let er := 5.5e-15 * (S * S / h) + 1.2e-16 * (len p + 2 * S) in
  1000 * (er * Rabs R) <= h * h -> 7 * (er * Rabs R / h) <= 9.8e-13 -> 1.1e-12 + er < t0 ->
  exists pt n r', mirror_test_intersect m r = Ok (H4 true (Some pt) (Some n) (SfoInt 2)) /\
    mirror_do_intersect m (fly r (distance_between (position r) pt)) (Some n) = Ok r' /\
    mirror_test_intersect m r' = Ok (H4 false None None (SfoInt 0)).
Proof.
  intros m pos n0 Dv w0 h0 f tg dmd r c R p d S t0 t1 E s (Hc & HR & Hp & Hd & Ld & LS & RS & SS & Bp) (Lt & C0 & C1) h er. unfold mk_mirror in E. destruct (unit_vector_o dmd) as [dm|]; [|discriminate E]. cbn [bind] in E.
  change (String.eqb "circular_convex_spherical" "circular_flat") with false in E. change (String.eqb "circular_convex_spherical" "rectangular_flat") with false in E. change (String.eqb "circular_convex_spherical" "circular_concave_spherical") with false in E.
  change (String.eqb "circular_convex_spherical" "circular_convex_spherical") with true in E. cbn [mk_sphere check_R_and_D bind] in E. injection E as <-.
  eapply (ball_rehit64 _ s r c R p d S t0 t1); try eassumption; reflexivity.
Qed.
Print Assumptions C103_no_rehit.

(** a ball of diameter 2.5 at (0, 0, 2), met by the ray from (0.75, 0, 0) along z at z = 1 and z = 3; and the ray from (3, 0, 0), which misses it *)
Example C103_hyp : let c := mk3 0 0 2 in let p := mk3 (3 / 4) 0 0 in let d := mk3 0 0 1 in let S := 9 / 4 in
  let pos := V (nofZ 0) (nofZ 0) (nofZ 2) in let s := mkSphere pos (ndiv (dec 25 1) (nofZ 2)) (dec 25 1) in
  let r := mk_ray (V (dec 75 2) (nofZ 0) (nofZ 0)) (V (nofZ 0) (nofZ 0) (nofZ 1)) (nofZ 1) (nofZ 0) EmptyString in
  (exists m, mk_mirror pos "circular_convex_spherical" None (Some (dec 25 1)) None None None None "normal" (Some (V (nofZ 0) (nofZ 0) (nofZ 1))) = Ok m) /\
  ball_ray s r c (5 / 4) p d S /\ crosses c (5 / 4) p (dirn d) 1 3 /\
  let h := (3 - 1) / 2 in let er := 5.5e-15 * (S * S / h) + 1.2e-16 * (len p + 2 * S) in
  3e-15 * (S * S) <= h * h /\ 1.1e-12 + 4.2e-15 * (S * S / h) < 1 /\ 1000 * er <= h /\ 1000 * (er * Rabs (5 / 4)) <= h * h /\ 7 * (er * Rabs (5 / 4) / h) <= 9.8e-13 /\ 1.1e-12 + er < 1 /\
  let r2 := mk_ray (V (nofZ 3) (nofZ 0) (nofZ 0)) (V (nofZ 0) (nofZ 0) (nofZ 1)) (nofZ 1) (nofZ 0) EmptyString in
  ball_ray s r2 c (5 / 4) (mk3 3 0 0) d 4 /\ forall t, 5 / 4 * (5 / 4) + 3e-15 * (4 * 4) < dist3 (at_t (mk3 3 0 0) (dirn d) t) c * dist3 (at_t (mk3 3 0 0) (dirn d) t) c.
Proof.
  intros c p d S pos s r.
  assert (Ld : len d = 1) by (apply len_eq_of_sq; [lra|unfold d; r3_unf; cbn [cx cy cz]; ring]). assert (Dd : dirn d = d) by (unfold dirn; rewrite Ld; unfold d; r3_unf; cbn [cx cy cz]; f_equal; field).
  assert (Lp : len p = 3 / 4) by (apply len_eq_of_sq; [lra|unfold p; r3_unf; cbn [cx cy cz]; field]). assert (Lp3 : len (mk3 3 0 0) = 3) by (apply len_eq_of_sq; [lra|r3_unf; cbn [cx cy cz]; field]).
  assert (Lc : len (c - p)%r3 <= S) by (apply len_le_of; [unfold S; lra|unfold c, p, S; r3_unf; cbn [cx cy cz]; lra]). assert (Lc3 : len (c - mk3 3 0 0)%r3 <= 4) by (apply len_le_of; [lra|unfold c; r3_unf; cbn [cx cy cz]; lra]).
  assert (B7 : 128 <= bpow radix2 100) by (change 128 with (bpow radix2 7); apply bpow_le; lia). assert (B8 : bpow radix2 (-100) <= 1) by (change 1 with (bpow radix2 0); apply bpow_le; lia).
  assert (R54 : Rabs (5 / 4) = 5 / 4) by (apply Rabs_pos_eq; lra).
  assert (In : forall x a, valid_binary 53 1024 x = true -> is_finite_SF x = true -> SF2R radix2 x = a -> isr x a) by (intros x a X Y Z; split; [exact X|split; [exact Y|exact Z]]).
  split; [eexists; reflexivity|]. split.
  { split; [split; [|split]; (apply In; [vm_compute; reflexivity|vm_compute; reflexivity|vm_compute; lra])|]. split; [apply In; [vm_compute; reflexivity|vm_compute; reflexivity|vm_compute; lra]|].
    split; [split; [|split]; (apply In; [vm_compute; reflexivity|vm_compute; reflexivity|vm_compute; lra])|]. split; [split; [|split]; (apply In; [vm_compute; reflexivity|vm_compute; reflexivity|vm_compute; lra])|].
    rewrite Ld, Lp, R54. replace (1 - 1) with 0 by ring. rewrite Rabs_R0. split; [lra|]. split; [exact Lc|]. unfold S. split; [lra|]. split; [lra|]. lra. }
  split. { rewrite Dd. unfold crosses. rewrite R54. split; [lra|]. unfold dist3. split; (apply len_eq_of_sq; [lra|unfold at_t, c, p, d; r3_unf; cbn [cx cy cz]; field]). }
  cbv zeta. rewrite Lp, R54. unfold S. split; [lra|]. split; [lra|]. split; [lra|]. split; [lra|]. split; [lra|]. split; [lra|]. split.
  { split; [split; [|split]; (apply In; [vm_compute; reflexivity|vm_compute; reflexivity|vm_compute; lra])|]. split; [apply In; [vm_compute; reflexivity|vm_compute; reflexivity|vm_compute; lra]|].
    split; [split; [|split]; (apply In; [vm_compute; reflexivity|vm_compute; reflexivity|vm_compute; lra])|]. split; [split; [|split]; (apply In; [vm_compute; reflexivity|vm_compute; reflexivity|vm_compute; lra])|].
    rewrite Ld, Lp3, R54. replace (1 - 1) with 0 by ring. rewrite Rabs_R0. split; [lra|]. split; [exact Lc3|]. split; [lra|]. split; lra. }
  intros t. rewrite Dd. unfold dist3. rewrite len_sq. unfold at_t, c, d. r3_unf. cbn [cx cy cz]. pose proof (Rle_0_sqr (0 + t * 1 - 2)) as Q. unfold Rsqr in Q. lra.
Qed.
