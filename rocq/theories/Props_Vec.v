(** Properties C01-C06: vector and rotation helpers of general_optics.py. *)
From Coq Require Import Reals ZArith Lra.
From Verif Require Import PyErr Num Vec Spec XReal RVec VecProofs AngleProofs.
Local Open Scope R_scope.

(** C01: the direction of a non-zero vector is the unique unit vector that is a positive multiple of it;
    unit_vector is idempotent and ignores positive factors; the zero vector gives all-NaN. *)
Theorem C01_normalisation :
  (forall v, v <> r3zero ->
    exists u, unit_vector (fv v) = fv u /\ is_unit u /\ (exists s, 0 < s /\ v = (s * u)%r3) /\
      (forall u', is_unit u' -> (exists s, 0 < s /\ v = (s * u')%r3) -> u' = u)) /\
  unit_vector (fv r3zero) = V XNaN XNaN XNaN /\
  (forall v, v <> r3zero -> unit_vector (unit_vector (fv v)) = unit_vector (fv v)) /\
  (forall s v, 0 < s -> v <> r3zero -> unit_vector (fv (s * v)%r3) = unit_vector (fv v)).
Proof.
  exact (conj unit_vector_spec (conj unit_vector_zero (conj unit_vector_idem unit_vector_scale))).
Qed.
Print Assumptions C01_normalisation.
Example C01_hyp : mk3 3 0 4 <> r3zero.
Proof. intros H; injection H; lra. Qed.

(** C02: projection onto the plane orthogonal to n. *)
Theorem C02_projection : forall x n, n <> r3zero ->
  exists p, project_onto_plane (fv x) (fv n) = fv p
    /\ orth p n
    /\ (exists k, x = (p + k * n)%r3)
    /\ project_onto_plane (fv p) (fv n) = fv p
    /\ (forall s, s <> 0 -> project_onto_plane (fv x) (fv (s * n)%r3) = fv p)
    /\ (forall q, orth q n -> q <> p -> dist3 x p < dist3 x q).
Proof. exact project_spec. Qed.
Print Assumptions C02_projection.
Example C02_hyp : mk3 0 0 2 <> r3zero.
Proof. intros H; injection H; lra. Qed.

(** C03: axis-angle rotation.  [acts M f]: the matrix M maps every real vector x to f x. *)
Theorem C03_axis_angle :
  (forall k t, k <> r3zero ->
    exists f, acts (rotation_matrix_axis_angle (fv k) (Fin t)) f
      /\ (forall x y, f x ∙ f y = x ∙ y)
      /\ (forall x y, (f x × f y)%r3 = f (x × y)%r3)
      /\ f k = k
      /\ (forall x, orth x k -> f x = (cos t * x + sin t * (dirn k × x))%r3)) /\
  (forall k s t, k <> r3zero ->
    mm (rotation_matrix_axis_angle (fv k) (Fin s)) (rotation_matrix_axis_angle (fv k) (Fin t))
    = rotation_matrix_axis_angle (fv k) (Fin (s + t))) /\
  (forall k, k <> r3zero -> rotation_matrix_axis_angle (fv k) (Fin 0) = eye3) /\
  (forall k t, k <> r3zero ->
    mm (rotation_matrix_axis_angle (fv k) (Fin (- t))) (rotation_matrix_axis_angle (fv k) (Fin t)) = eye3).
Proof.
  exact (conj axis_angle_spec (conj axis_angle_compose (conj axis_angle_zero axis_angle_inverse))).
Qed.
Print Assumptions C03_axis_angle.
Example C03_hyp : mk3 1 1 1 <> r3zero.
Proof. intros H; injection H; lra. Qed.

(** C04 (partial): rotation_matrix2 carries the direction of a to that of b and preserves dot products for all
    non-zero a, b; it preserves orientation except for antiparallel vectors, where it is the point reflection. *)
Theorem C04_rotation_matrix2_partial : forall a b, a <> r3zero -> b <> r3zero ->
  exists f, acts (rotation_matrix2 (fv a) (fv b)) f
    /\ f (dirn a) = dirn b /\ (forall x y, f x ∙ f y = x ∙ y)
    /\ (dirn b <> (- dirn a)%r3 -> forall x y, (f x × f y)%r3 = f (x × y)%r3)
    /\ (dirn b = (- dirn a)%r3 -> forall x, f x = (- x)%r3).
Proof. exact rotation_matrix2_spec. Qed.
Print Assumptions C04_rotation_matrix2_partial.
Example C04_hyp : mk3 1 0 0 <> r3zero /\ mk3 0 3 0 <> r3zero.
Proof. split; intros H; injection H; lra. Qed.

(** C04 as stated ("always a proper rotation") is false: a = z, b = -z reverses orientation. *)
Theorem C04_proper_rotation_refuted : exists a b, a <> r3zero /\ b <> r3zero /\
  exists f, acts (rotation_matrix2 (fv a) (fv b)) f /\
  ~ (forall x y, (f x × f y)%r3 = f (x × y)%r3).
Proof.
  exists (mk3 0 0 1), (mk3 0 0 (-1)).
  assert (U : is_unit (mk3 0 0 1)) by (unfold is_unit, r3dot; cbn; ring).
  split; [intros H; injection H; lra|]. split; [intros H; injection H; lra|].
  exists (fun x => (- x)%r3). split.
  - assert (E : mk3 0 0 (-1) = (- mk3 0 0 1)%r3) by (apply r3_ext; cbn; ring). rewrite E.
    rewrite (rotation_matrix2_anti _ U). exact mopp_eye_acts.
  - intros H. specialize (H (mk3 1 0 0) (mk3 0 1 0)). unfold r3cross, r3opp in H; cbn in H.
    injection H. lra.
Qed.
Print Assumptions C04_proper_rotation_refuted.

(** C05 (partial): rotation_matrix is the rotation in the opposite sense: applied to column vectors it carries
    v2 to v1, preserving dot products and (unless antiparallel) orientation; it carries v1 to v2 exactly when the
    two are parallel or antiparallel. *)
Theorem C05_rotation_matrix_partial : forall v1 v2, v1 <> r3zero -> v2 <> r3zero ->
  exists f, acts (rotation_matrix (fv v1) (fv v2)) f
    /\ f (dirn v2) = dirn v1 /\ (forall x y, f x ∙ f y = x ∙ y)
    /\ (dirn v2 <> (- dirn v1)%r3 -> forall x y, (f x × f y)%r3 = f (x × y)%r3)
    /\ (f (dirn v1) = dirn v2 <-> dirn v2 = dirn v1 \/ dirn v2 = (- dirn v1)%r3).
Proof. exact rotation_matrix_spec. Qed.
Print Assumptions C05_rotation_matrix_partial.
Example C05_hyp : mk3 1 0 0 <> r3zero /\ mk3 0 1 0 <> r3zero.
Proof. split; intros H; injection H; lra. Qed.

(** C05 as stated (the docstring: "changes v1 into v2") is false for M.dot(v): witness x axis, y axis. *)
Theorem C05_docstring_refuted : exists v1 v2, is_unit v1 /\ is_unit v2 /\
  mv (rotation_matrix (fv v1) (fv v2)) (fv v1) <> fv v2.
Proof.
  exists (mk3 1 0 0), (mk3 0 1 0).
  assert (U1 : is_unit (mk3 1 0 0)) by (unfold is_unit, r3dot; cbn; ring).
  assert (U2 : is_unit (mk3 0 1 0)) by (unfold is_unit, r3dot; cbn; ring).
  split; [exact U1|]. split; [exact U2|].
  destruct (rotation_matrix_unit _ _ U1 U2) as (f & A & _ & _ & _ & E).
  rewrite A. intros H. apply fv_inj in H. rewrite E in H. unfold r3sub, r3scale, r3dot in H; cbn in H.
  injection H. lra.
Qed.
Print Assumptions C05_docstring_refuted.

(** C06: angles. *)
Theorem C06_angle_between :
  (forall v1 v2, v1 <> r3zero -> v2 <> r3zero ->
    exists t, angle_between (fv v1) (fv v2) None = Fin t
      /\ 0 <= t <= PI
      /\ cos t = (v1 ∙ v2) / (len v1 * len v2)
      /\ angle_between (fv v2) (fv v1) None = Fin t
      /\ (forall s, 0 < s -> angle_between (fv (s * v1)%r3) (fv v2) None = Fin t)
      /\ (t = 0 <-> exists s, 0 < s /\ v1 = (s * v2)%r3)
      /\ (t = PI <-> exists s, 0 < s /\ v1 = (- (s * v2))%r3)) /\
  (forall v1 v2 n, v1 <> r3zero -> v2 <> r3zero -> is_unit n -> orth v1 n -> orth v2 n ->
    exists t, angle_between (fv v1) (fv v2) (Some (fv n)) = Fin t
      /\ - PI < t <= PI
      /\ angle_between (fv v1) (fv v2) None = Fin (Rabs t)
      /\ (cos t * dirn v2 + sin t * (n × dirn v2))%r3 = dirn v1).
Proof. exact (conj angle_unsigned_spec angle_signed_spec). Qed.
Print Assumptions C06_angle_between.
Example C06_hyp : let v1 := mk3 1 0 0 in let v2 := mk3 1 1 0 in let n := mk3 0 0 1 in
  v1 <> r3zero /\ v2 <> r3zero /\ is_unit n /\ orth v1 n /\ orth v2 n.
Proof.
  cbn. unfold is_unit, orth, r3dot; cbn. repeat split; try ring; intros H; injection H; lra.
Qed.
