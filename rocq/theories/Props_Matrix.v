(** C105: homogeneous coordinates and the two rotation matrices (general_optics.py:63-150), as script_testMatrixTransforms.py tries them out. *)
From Coq Require Import Reals ZArith Lra Lia Psatz List String Bool.
From Verif Require Import PyErr Num Vec Spec XReal RVec VecProofs FlatProofs CylProofs.
Import ListNotations.
Local Open Scope R_scope.

(** ** Model *)
Section Script.
Context {T : Type} {N : Num T}.
(** np.dot(v, M) of a 3-vector and a 3x3 matrix *)
Definition vm (v : vec T) (m : mat3 T) : vec T := V (dot v (col0 m)) (dot v (col1 m)) (dot v (col2 m)).
(** script_testMatrixTransforms.py:38-113  the printed results: translated point, direction under rotation_matrix and rotation_matrix2, the latter in homogeneous coordinates, scaled point.
    np.eye(4) with entries set (lines 43-44, 80-81, 103-106) is what translation_matrix4, rotation_matrix4 and scaling_matrix4 do. *)
Definition script_testMatrixTransforms (point1 cyl1_direction world_direction translation_vector scaling_vector : vec T) : vec4 T * vec T * vec T * vec4 T * vec4 T :=
  let point1_4d := V4 (vx point1) (vy point1) (vz point1) (nofZ 1) in
  let d := vdivs cyl1_direction (norm cyl1_direction) in
  let d4 := V4 (vx cyl1_direction) (vy cyl1_direction) (vz cyl1_direction) (nofZ 0) in
  let l4 := nsqrt (dot4 d4 d4) in
  let cyl1_direction_4d := V4 (ndiv (v4x d4) l4) (ndiv (v4y d4) l4) (ndiv (v4z d4) l4) (ndiv (v4w d4) l4) in
  let M := rotation_matrix d world_direction in
  let M2 := rotation_matrix2 d world_direction in
  (mv4 (translation_matrix4 translation_vector) point1_4d, vm d M, mv M2 d, mv4 (rotation_matrix4 d world_direction) cyl1_direction_4d, mv4 (scaling_matrix4 scaling_vector) point1_4d).
End Script.

(** ** Specification *)
(** the 4-vector of a point (w = 1) or direction (w = 0) *)
Definition hom (x : R3) (w : R) : vec4 xr := V4 (Fin (cx x)) (Fin (cy x)) (Fin (cz x)) (Fin w).
Definition stretch (s x : R3) : R3 := mk3 (cx s * cx x) (cy s * cy x) (cz s * cz x).

(** ** Proofs *)
(** Translations move points and leave directions; scalings act on each coordinate; the rotation acts as rotation_matrix2; the last coordinate is kept. *)
Theorem C105_homogeneous : forall x w t s a b, a <> r3zero -> b <> r3zero ->
  mv4 (translation_matrix4 (fv t)) (hom x w) = hom (x + w * t)%r3 w /\
  mv4 (scaling_matrix4 (fv s)) (hom x w) = hom (stretch s x) w /\
  exists f, acts (rotation_matrix2 (fv a) (fv b)) f /\ mv4 (rotation_matrix4 (fv a) (fv b)) (hom x w) = hom (f x) w /\ f (dirn a) = dirn b /\ forall p q, f p ∙ f q = p ∙ q.
Proof.
  intros x w t s a b Ha Hb. split; [|split].
  - unfold mv4, translation_matrix4, dot4, hom, fv, r3add, r3scale. cbn [v4x v4y v4z v4w r4_0 r4_1 r4_2 r4_3 vx vy vz cx cy cz]. rewrite !nofZ_fin, !nmul_fin, !nadd_fin. f_equal; f_equal; ring.
  - unfold mv4, scaling_matrix4, dot4, hom, fv, stretch. cbn [v4x v4y v4z v4w r4_0 r4_1 r4_2 r4_3 vx vy vz cx cy cz]. rewrite !nofZ_fin, !nmul_fin, !nadd_fin. f_equal; f_equal; ring.
  - destruct (rotation_matrix2_spec a b Ha Hb) as (f & A & F1 & F2 & _). exists f. split; [exact A|]. split; [|split; assumption].
    pose proof (A x) as E. unfold mv4, rotation_matrix4, dot4, hom. cbn [v4x v4y v4z v4w r4_0 r4_1 r4_2 r4_3].
    assert (E1 := f_equal (@vx xr) E). assert (E2 := f_equal (@vy xr) E). assert (E3 := f_equal (@vz xr) E). unfold mv, dot in E1, E2, E3. cbn [vx vy vz] in E1, E2, E3. rewrite !vx_fv in E1. rewrite !vy_fv in E1, E2. rewrite !vz_fv in E1, E2, E3. rewrite !vx_fv in E2, E3. rewrite !vy_fv in E3.
    rewrite E1, E2, E3, ?vx_fv, ?vy_fv, ?vz_fv, !nofZ_fin, !nmul_fin, !nadd_fin. f_equal; f_equal; ring.
Qed.
Print Assumptions C105_homogeneous.

(** rotation_matrix is the transpose of rotation_matrix2: np.dot(v, rotation_matrix(a, b)) = np.dot(rotation_matrix2(a, b), v). *)
Theorem C105_transpose : forall a b, a <> r3zero -> b <> r3zero ->
  let M := rotation_matrix (fv a) (fv b) in let M2 := rotation_matrix2 (fv a) (fv b) in
  row0 M = col0 M2 /\ row1 M = col1 M2 /\ row2 M = col2 M2 /\ forall v, vm (fv v) M = mv M2 (fv v).
Proof.
  intros a b Ha Hb. cbv zeta. rewrite rotation_matrix_unitize, rotation_matrix2_unitize by assumption. pose proof (dirn_unit a Ha) as Ua. pose proof (dirn_unit b Hb) as Ub.
  generalize dependent (dirn a). generalize dependent (dirn b). clear a b Ha Hb. intros b Ub a Ua.
  assert (K : exists p q r s t u x y z, rotation_matrix2 (fv a) (fv b) = M3 (fv (mk3 p q r)) (fv (mk3 s t u)) (fv (mk3 x y z)) /\ rotation_matrix (fv a) (fv b) = M3 (fv (mk3 p s x)) (fv (mk3 q t y)) (fv (mk3 r u z))).
  { unfold rotation_matrix, rotation_matrix2.
    change (vdivs (fv a) (norm (fv a))) with (unit_vector (fv a)). change (vdivs (fv b) (norm (fv b))) with (unit_vector (fv b)).
    rewrite !unit_vector_unit by assumption. rewrite cross_fv, norm_fv, dot_fv, !nofZ_fin, neqb_fin.
    assert (Hv : (a × b)%r3 ∙ (a × b)%r3 = 1 - (a ∙ b) * (a ∙ b)) by (rewrite lagrange; unfold is_unit in *; rewrite Ua, Ub; ring).
    destruct (Req_dec (len (a × b)%r3) 0) as [E|NE].
    - rewrite Reqb_true by exact E. unfold eye3, mopp, vopp. cbn [row0 row1 row2 vx vy vz]. rewrite !nofZ_fin, !nopp_fin. destruct (ngt (Fin (a ∙ b)) (Fin 0)); do 9 eexists; split; reflexivity.
    - rewrite Reqb_false by exact NE. rewrite vdivs_fv by exact NE.
      assert (Hc : 1 + a ∙ b <> 0). { intros Z. apply NE. apply len_eq_of_sq; [lra|]. rewrite Hv. replace (a ∙ b) with (-1) by lra. ring. }
      pose proof (len_sq (a × b)%r3) as Hl. rewrite Hv in Hl. revert Hv Hc NE Hl. generalize (a × b)%r3 (a ∙ b) (len (a × b)%r3). clear. intros v c l Hv Hc Hn Hl.
      rewrite !vx_fv, !vy_fv, !vz_fv, outer_fv. destruct v as [v1 v2 v3]. cbn [cx cy cz r3scale] in *.
      rewrite !nopp_fin, !fv_V, !M3_fm, eye_fm, mm_fm, nadd_fin, mdivs_fm, msub_fm, !mscale_fm, !madd_fm by exact Hc.
      do 9 eexists. split; [reflexivity|]. unfold r3dot in Hv; cbn [cx cy cz] in Hv. r3_unf; cbn.
      assert (Hl1 : l * l = (1 - c) * (1 + c)) by lra. assert (Hk : / (l * l) * (1 - c) = / (1 + c)).
      { rewrite Hl1. assert (1 - c <> 0) by (intros Z; rewrite Z, Rmult_0_l in Hl1; apply Rmult_integral in Hl1; destruct Hl1; lra). field. split; lra. }
      assert (HL : l * / l = 1) by (field; exact Hn). assert (HK : / (1 + c) * (1 + c) = 1) by (field; exact Hc). rewrite Rinv_mult in Hk. set (L := / l) in *. set (k := / (1 + c)) in *. clearbody L k.
      assert (P : forall x, L * L * (1 - c) * x = k * x) by (intros; rewrite Hk; reflexivity). assert (Q : forall x, l * L * x = x) by (intros; rewrite HL; ring).
      assert (D : k * (v1 * v1 + v2 * v2 + v3 * v3) = 1 - c) by (rewrite Hv; replace (k * (1 - c * c)) with (k * (1 + c) * (1 - c)) by ring; rewrite HK; ring).
      pose proof (P (v1 * v1)). pose proof (P (v1 * v2)). pose proof (P (v1 * v3)). pose proof (P (v2 * v2)). pose proof (P (v2 * v3)). pose proof (P (v3 * v3)). pose proof (Q v1). pose proof (Q v2). pose proof (Q v3).
      unfold fm. f_equal; f_equal; apply r3_ext; unfold r3dot; cbn [cx cy cz]; lra. }
  destruct K as (p & q & r & s & t & u & x & y & z & -> & ->). cbn [row0 row1 row2]. unfold col0, col1, col2. cbn [row0 row1 row2]. repeat split.
  intros v. unfold vm, mv, col0, col1, col2. cbn [row0 row1 row2]. rewrite !vx_fv, !vy_fv, !vz_fv. unfold dot, fv. cbn [vx vy vz cx cy cz]. rewrite !nmul_fin, !nadd_fin. f_equal; f_equal; ring.
Qed.
Print Assumptions C105_transpose.

(** The script: the point moved by the translation; the direction turned onto the world direction by both methods and in homogeneous coordinates, in exact arithmetic; the point stretched. *)
Theorem C105_script : forall p d w t s, d <> r3zero -> is_unit w ->
  script_testMatrixTransforms (fv p) (fv d) (fv w) (fv t) (fv s) = (hom (p + t)%r3 1, fv w, fv w, hom w 0, hom (stretch s p) 1).
Proof.
  intros p d w t s Hd Hw. pose proof (dirn_unit d Hd) as Ud. pose proof (len_pos d Hd) as Ld. assert (Nu : dirn d <> r3zero) by (intros E; rewrite E in Ud; unfold is_unit, r3dot, r3zero in Ud; cbn [cx cy cz] in Ud; lra).
  assert (Nw : w <> r3zero) by (intros E; rewrite E in Hw; unfold is_unit, r3dot, r3zero in Hw; cbn [cx cy cz] in Hw; lra).
  assert (Ew : dirn w = w) by (apply dirn_of_unit; exact Hw). assert (Ed : dirn (dirn d) = dirn d) by (apply dirn_of_unit; exact Ud).
  unfold script_testMatrixTransforms. change (vdivs (fv d) (norm (fv d))) with (unit_vector (fv d)). rewrite unit_vector_fv by exact Hd.
  destruct (C105_homogeneous p 1 t s (dirn d) w Nu Nw) as (T1 & S1 & _). destruct (C105_homogeneous (dirn d) 0 t s (dirn d) w Nu Nw) as (_ & _ & f & A & R4 & F & _). destruct (C105_transpose (dirn d) w Nu Nw) as (_ & _ & _ & Tr).
  rewrite Ed, Ew in F. rewrite Tr, A, F. rewrite !vx_fv, !vy_fv, !vz_fv, !nofZ_fin. cbn [v4x v4y v4z v4w].
  assert (L4 : nsqrt (dot4 (V4 (Fin (cx d)) (Fin (cy d)) (Fin (cz d)) (Fin 0)) (V4 (Fin (cx d)) (Fin (cy d)) (Fin (cz d)) (Fin 0))) = Fin (len d)).
  { transitivity (norm (fv d)); [|apply norm_fv]. unfold norm. f_equal. rewrite dot_fv. unfold dot4. cbn [v4x v4y v4z v4w]. rewrite !nmul_fin, !nadd_fin. f_equal. unfold r3dot. ring. }
  rewrite L4, !ndiv_fin by lra.
  assert (H4 : V4 (Fin (cx d / len d)) (Fin (cy d / len d)) (Fin (cz d / len d)) (Fin (0 / len d)) = hom (dirn d) 0) by (unfold hom, dirn, r3scale; cbn [cx cy cz]; f_equal; f_equal; field; lra).
  rewrite H4, R4, F. change (V4 (Fin (cx p)) (Fin (cy p)) (Fin (cz p)) (Fin 1)) with (hom p 1). rewrite T1, S1. replace (p + 1 * t)%r3 with (p + t)%r3 by r3_ring. reflexivity.
Qed.
Print Assumptions C105_script.
(** with the script's numbers *)
Example C105_hyp : script_testMatrixTransforms (fv (mk3 100 0 30)) (fv (mk3 1 1 1)) (fv (mk3 0 0 1)) (fv (mk3 (-10) 10 (-10))) (fv (mk3 0.1 1 10))
  = (hom (mk3 90 10 20) 1, fv (mk3 0 0 1), fv (mk3 0 0 1), hom (mk3 0 0 1) 0, hom (mk3 10 0 300) 1).
Proof.
  rewrite C105_script; [|intros E; injection E; lra|unfold is_unit, r3dot; cbn [cx cy cz]; lra]. repeat f_equal; unfold stretch; apply r3_ext; cbn [cx cy cz r3add]; lra.
Qed.
