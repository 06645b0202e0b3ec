(** Proofs about the vector and matrix functions at [xr] (general_optics.py). *)
From Coq Require Import Reals ZArith Lra Psatz Bool List.
From Verif Require Import PyErr Num Vec Spec XReal RVec.
Local Open Scope R_scope.

(* ---- unit_vector ---- *)
Lemma unit_vector_spec v : v <> r3zero ->
  exists u, unit_vector (fv v) = fv u /\ is_unit u /\ (exists s, 0 < s /\ v = (s * u)%r3) /\
    (forall u', is_unit u' -> (exists s, 0 < s /\ v = (s * u')%r3) -> u' = u).
Proof.
  intros H. exists (dirn v). repeat split.
  - apply unit_vector_fv, H.
  - apply dirn_unit, H.
  - exists (len v); split; [apply len_pos, H | apply dirn_scale, H].
  - intros u' Hu' (s & Hs & E). symmetry. eapply dirn_unique; eassumption.
Qed.
Lemma unit_vector_idem v : v <> r3zero -> unit_vector (unit_vector (fv v)) = unit_vector (fv v).
Proof.
  intros H. rewrite (unit_vector_fv v H). apply unit_vector_unit, dirn_unit, H.
Qed.
Lemma unit_vector_scale s v : 0 < s -> v <> r3zero -> unit_vector (fv (s * v)%r3) = unit_vector (fv v).
Proof.
  intros Hs H. rewrite !unit_vector_fv; [now rewrite dirn_pos_scale | exact H | apply scale_nonzero; [lra|exact H]].
Qed.

(* ---- project_onto_plane ---- *)
Lemma project_fv x n : n <> r3zero -> project_onto_plane (fv x) (fv n) = fv (perp (dirn n) x).
Proof.
  intros H. pose proof (len_pos n H) as Hl. unfold project_onto_plane.
  rewrite norm_fv, dot_fv, ndiv_fin by lra. rewrite unit_vector_fv by exact H.
  cbn. rewrite ?nmul_fin, ?nsub_fin. unfold fv, perp, dirn. rewrite dot_scale_r.
  r3_unf; cbn. f_equal; f_equal; field; lra.
Qed.
Lemma perp_orth u x : is_unit u -> perp u x ∙ u = 0.
Proof. unfold is_unit, perp; intros H. autorewrite with dotr. rewrite H. ring. Qed.
Lemma perp_fix u x : x ∙ u = 0 -> perp u x = x.
Proof. unfold perp; intros ->. r3_ring. Qed.
Lemma perp_idem u x : is_unit u -> perp u (perp u x) = perp u x.
Proof. intros H. apply perp_fix, perp_orth, H. Qed.
Lemma perp_opp u x : perp (- u)%r3 x = perp u x. Proof. r3_ring. Qed.
Lemma dirn_scale_any s n : s <> 0 -> n <> r3zero ->
  dirn (s * n)%r3 = dirn n \/ dirn (s * n)%r3 = (- dirn n)%r3.
Proof.
  intros Hs H. destruct (Rtotal_order s 0) as [L|[E|G]]; [right|contradiction|left].
  - replace (s * n)%r3 with (- ((- s) * n))%r3 by r3_ring.
    rewrite dirn_opp. f_equal. apply dirn_pos_scale; [lra|exact H].
  - apply dirn_pos_scale; [lra|exact H].
Qed.
Lemma project_spec x n : n <> r3zero ->
  exists p, project_onto_plane (fv x) (fv n) = fv p
    /\ orth p n
    /\ (exists k, x = (p + k * n)%r3)
    /\ project_onto_plane (fv p) (fv n) = fv p
    /\ (forall s, s <> 0 -> project_onto_plane (fv x) (fv (s * n)%r3) = fv p)
    /\ (forall q, orth q n -> q <> p -> dist3 x p < dist3 x q).
Proof.
  intros H. pose proof (dirn_unit n H) as Hu. pose proof (dirn_scale n H) as Hs. pose proof (len_pos n H) as Hl.
  set (u := dirn n) in *. exists (perp u x).
  assert (Ho : perp u x ∙ u = 0) by (apply perp_orth, Hu).
  split; [|split; [|split; [|split; [|split]]]].
  - apply project_fv, H.
  - unfold orth. rewrite Hs, dot_scale_r, Ho. ring.
  - exists ((x ∙ u) / len n). rewrite Hs at 2. unfold perp.
    destruct x, u; r3_unf; cbn. apply r3_ext; cbn; field; lra.
  - rewrite project_fv by exact H. fold u. now rewrite perp_idem.
  - intros s Hs0. rewrite project_fv by (apply scale_nonzero; assumption).
    destruct (dirn_scale_any s n Hs0 H) as [-> | ->]; fold u; [reflexivity | now rewrite perp_opp].
  - intros q Hq Hne. unfold dist3. apply len_lt.
    assert (Hq' : q ∙ u = 0).
    { unfold orth in Hq. rewrite Hs, dot_scale_r in Hq.
      apply Rmult_integral in Hq; destruct Hq; [lra|assumption]. }
    set (p := perp u x) in *.
    assert (E1 : (x - p)%r3 = ((x ∙ u) * u)%r3) by (unfold p, perp; r3_ring).
    assert (E2 : (x - q)%r3 = ((x ∙ u) * u + (p - q))%r3) by (rewrite <- E1; r3_ring).
    rewrite E2, E1. assert (Hpos : 0 < (p - q)%r3 ∙ (p - q)%r3).
    { apply dot_self_pos. intros Z. apply Hne. destruct p, q; unfold r3sub, r3zero in Z; cbn in Z.
      injection Z; intros. f_equal; lra. }
    rewrite dot_add_l, !dot_add_r. rewrite !(dot_scale_l (x ∙ u) u (p - q)), !(dot_scale_r (x ∙ u) (p - q) u).
    rewrite (dot_comm u (p - q)), dot_sub_l, Ho, Hq'. lra.
Qed.

(* ---- rotations ---- *)
Definition rodr (c s : R) (u x : R3) : R3 := (c * x + (s * (u × x) + ((1 - c) * (u ∙ x)) * u))%r3.
Lemma rodr_dot_gen c s u x y :
  rodr c s u x ∙ rodr c s u y =
  (c * c) * (x ∙ y) + (s * s) * ((u ∙ u) * (x ∙ y) - (u ∙ x) * (u ∙ y))
  + (2 * c * (1 - c) + (1 - c) * (1 - c) * (u ∙ u)) * ((u ∙ x) * (u ∙ y)).
Proof. unfold rodr. r3_ring. Qed.
Lemma rodr_dot c s u x y : c * c + s * s = 1 -> is_unit u -> rodr c s u x ∙ rodr c s u y = x ∙ y.
Proof.
  unfold is_unit; intros H1 H2. rewrite rodr_dot_gen, H2.
  replace (s * s) with (1 - c * c) by lra. ring.
Qed.
Lemma rodr_cross_gen c s u x y :
  (rodr c s u x × rodr c s u y)%r3 =
  ((c * c + c * (1 - c) * (u ∙ u)) * (x × y) + ((c * s + s * (1 - c) * (u ∙ u)) * (u × (x × y))
   + ((s * s - c * (1 - c)) * (u ∙ (x × y)%r3)) * u))%r3.
Proof. unfold rodr. r3_ring. Qed.
Lemma rodr_cross c s u x y : c * c + s * s = 1 -> is_unit u ->
  (rodr c s u x × rodr c s u y)%r3 = rodr c s u (x × y)%r3.
Proof.
  unfold is_unit; intros H1 H2. rewrite rodr_cross_gen, H2. unfold rodr.
  replace (s * s) with (1 - c * c) by lra. f_equal; [f_equal; ring | f_equal; f_equal; ring].
Qed.
Lemma rodr_axis c s u : is_unit u -> rodr c s u u = u.
Proof. unfold is_unit, rodr; intros ->. r3_ring. Qed.
Lemma rodr_orth c s u x : u ∙ x = 0 -> rodr c s u x = (c * x + s * (u × x))%r3.
Proof. unfold rodr; intros ->. r3_ring. Qed.

Lemma double_cos t : cos t = cos (t / 2) * cos (t / 2) - sin (t / 2) * sin (t / 2).
Proof. rewrite <- cos_plus. f_equal; lra. Qed.
Lemma double_sin t : sin t = 2 * (sin (t / 2) * cos (t / 2)).
Proof. replace t with (t / 2 + t / 2) at 1 by lra. rewrite sin_plus. ring. Qed.

(** matrix whose action is a given map on real vectors *)
Definition acts (M : mat3 xr) (f : R3 -> R3) : Prop := forall x, mv M (fv x) = fv (f x).

Lemma axis_angle_acts k t : k <> r3zero ->
  acts (rotation_matrix_axis_angle (fv k) (Fin t)) (rodr (cos t) (sin t) (dirn k)).
Proof.
  intros H x. pose proof (dirn_unit k H) as Hu. pose proof (len_pos k H) as Hl.
  unfold rotation_matrix_axis_angle.
  change (nsqrt (dot (fv k) (fv k))) with (norm (fv k)). rewrite norm_fv, vdivs_fv by lra.
  fold (dirn k). revert Hu. generalize (dirn k). intros u Hu.
  rewrite nofZ_fin, ndiv_fin by lra. rewrite ncos_fin, nsin_fin.
  unfold fv, mv, dot; cbn. rewrite ?nofZ_fin, ?nopp_fin, ?nmul_fin, ?nadd_fin, ?nsub_fin, ?nmul_fin, ?nadd_fin.
  repeat (rewrite ?nsub_fin, ?nmul_fin, ?nadd_fin).
  pose proof (sin2_cos2 (t / 2)) as Hsc. unfold Rsqr in Hsc.
  unfold rodr. rewrite (double_cos t), (double_sin t).
  set (a := cos (t / 2)) in *. set (s := sin (t / 2)) in *.
  assert (E1 : 1 - (a * a - s * s) = 2 * (s * s)) by lra. rewrite E1.
  unfold is_unit in Hu. destruct u as [ux uy uz], x as [x y z]. r3_unf; cbn in *.
  f_equal; f_equal.
  - apply Rminus_diag_uniq. transitivity (s * s * x * (1 - (ux * ux + uy * uy + uz * uz))); [ring | rewrite Hu; ring].
  - apply Rminus_diag_uniq. transitivity (s * s * y * (1 - (ux * ux + uy * uy + uz * uz))); [ring | rewrite Hu; ring].
  - apply Rminus_diag_uniq. transitivity (s * s * z * (1 - (ux * ux + uy * uy + uz * uz))); [ring | rewrite Hu; ring].
Qed.

Lemma axis_angle_spec k t : k <> r3zero ->
  exists f, acts (rotation_matrix_axis_angle (fv k) (Fin t)) f
    /\ (forall x y, f x ∙ f y = x ∙ y)
    /\ (forall x y, (f x × f y)%r3 = f (x × y)%r3)
    /\ f k = k
    /\ (forall x, orth x k -> f x = (cos t * x + sin t * (dirn k × x))%r3).
Proof.
  intros H. pose proof (dirn_unit k H) as Hu. pose proof (sin2_cos2 t) as Hsc. unfold Rsqr in Hsc.
  exists (rodr (cos t) (sin t) (dirn k)). split; [apply axis_angle_acts, H|].
  assert (Hcs : cos t * cos t + sin t * sin t = 1) by lra.
  split; [intros; apply rodr_dot; assumption|]. split; [intros; apply rodr_cross; assumption|].
  split.
  - rewrite (dirn_scale k H) at 2 3. set (u := dirn k) in *. set (l := len k).
    unfold is_unit in Hu. unfold rodr. rewrite dot_scale_r, Hu. r3_ring.
  - intros x Ho. apply rodr_orth. unfold dirn. rewrite dot_scale_l, dot_comm, Ho. ring.
Qed.

Lemma mat3_ext_acts (M1 M2 : mat3 xr) f :
  (exists a b c d e g h i j, M1 = M3 (fv (mk3 a b c)) (fv (mk3 d e g)) (fv (mk3 h i j))) ->
  (exists a b c d e g h i j, M2 = M3 (fv (mk3 a b c)) (fv (mk3 d e g)) (fv (mk3 h i j))) ->
  acts M1 f -> acts M2 f -> M1 = M2.
Proof.
  intros (a&b&c&d&e&g&h&i&j&->) (a'&b'&c'&d'&e'&g'&h'&i'&j'&->) H1 H2.
  assert (H : forall x, mv (M3 (fv (mk3 a b c)) (fv (mk3 d e g)) (fv (mk3 h i j))) (fv x)
                 = mv (M3 (fv (mk3 a' b' c')) (fv (mk3 d' e' g')) (fv (mk3 h' i' j'))) (fv x))
    by (intros; now rewrite H1, H2).
  pose proof (H (mk3 1 0 0)) as Hx; pose proof (H (mk3 0 1 0)) as Hy; pose proof (H (mk3 0 0 1)) as Hz.
  unfold mv in Hx, Hy, Hz; cbn [row0 row1 row2] in *. rewrite !dot_fv in Hx, Hy, Hz. unfold r3dot in *; cbn in *.
  injection Hx; injection Hy; injection Hz; intros.
  f_equal; f_equal; apply r3_ext; cbn; lra.
Qed.
Definition finmat (M : mat3 xr) : Prop :=
  exists a b c d e g h i j, M = M3 (fv (mk3 a b c)) (fv (mk3 d e g)) (fv (mk3 h i j)).
Lemma axis_angle_finmat k t : k <> r3zero -> finmat (rotation_matrix_axis_angle (fv k) (Fin t)).
Proof.
  intros H. pose proof (len_pos k H) as Hl. unfold rotation_matrix_axis_angle.
  change (nsqrt (dot (fv k) (fv k))) with (norm (fv k)). rewrite norm_fv, vdivs_fv by lra.
  rewrite nofZ_fin, ndiv_fin by lra. rewrite ncos_fin, nsin_fin.
  do 9 eexists. reflexivity.
Qed.
Lemma mm_finmat A B : finmat A -> finmat B -> finmat (mm A B).
Proof.
  intros (a&b&c&d&e&g&h&i&j&->) (a'&b'&c'&d'&e'&g'&h'&i'&j'&->). do 9 eexists. reflexivity.
Qed.
Lemma mm_acts A B f g : finmat A -> finmat B -> acts A f -> acts B g -> acts (mm A B) (fun x => f (g x)).
Proof.
  intros (a&b&c&d&e&q&h&i&j&->) (a'&b'&c'&d'&e'&q'&h'&i'&j'&->) HA HB x.
  rewrite <- HA, <- HB. unfold mv, mm, col0, col1, col2, dot, fv; cbn.
  repeat (rewrite ?nmul_fin, ?nadd_fin). f_equal; f_equal; ring.
Qed.
Lemma axis_angle_compose k s t : k <> r3zero ->
  mm (rotation_matrix_axis_angle (fv k) (Fin s)) (rotation_matrix_axis_angle (fv k) (Fin t))
  = rotation_matrix_axis_angle (fv k) (Fin (s + t)).
Proof.
  intros H. pose proof (dirn_unit k H) as Hu.
  apply (mat3_ext_acts _ _ (rodr (cos (s + t)) (sin (s + t)) (dirn k))).
  - apply mm_finmat; apply axis_angle_finmat, H.
  - apply axis_angle_finmat, H.
  - intros x. rewrite (mm_acts _ _ _ _ (axis_angle_finmat k s H) (axis_angle_finmat k t H)
      (axis_angle_acts k s H) (axis_angle_acts k t H)). f_equal.
    rewrite cos_plus, sin_plus. set (u := dirn k) in *. unfold is_unit in Hu.
    set (c1 := cos s). set (s1 := sin s). set (c2 := cos t). set (s2 := sin t).
    transitivity ((c1 * c2 - s1 * s2 * (u ∙ u)) * x + ((s1 * c2 + c1 * s2) * (u × x) +
       ((c1 * (1 - c2) + s1 * s2 + (1 - c1) * c2 + (1 - c1) * (1 - c2) * (u ∙ u)) * (u ∙ x)) * u))%r3.
    { unfold rodr. r3_ring. }
    rewrite Hu. unfold rodr. f_equal; [f_equal; ring | f_equal; f_equal; ring].
  - apply axis_angle_acts, H.
Qed.
Lemma eye_finmat : finmat eye3.
Proof. do 9 eexists. reflexivity. Qed.
Lemma eye_acts : acts eye3 (fun x => x).
Proof.
  intros x. unfold mv, eye3, dot, fv; cbn. repeat (rewrite ?nofZ_fin, ?nmul_fin, ?nadd_fin).
  f_equal; f_equal; ring.
Qed.
Lemma axis_angle_zero k : k <> r3zero -> rotation_matrix_axis_angle (fv k) (Fin 0) = eye3.
Proof.
  intros H. apply (mat3_ext_acts _ _ (fun x => x)); [apply axis_angle_finmat, H | apply eye_finmat | | apply eye_acts].
  intros x. rewrite (axis_angle_acts k 0 H). f_equal. rewrite cos_0, sin_0. unfold rodr. r3_ring.
Qed.
Lemma axis_angle_inverse k t : k <> r3zero ->
  mm (rotation_matrix_axis_angle (fv k) (Fin (- t))) (rotation_matrix_axis_angle (fv k) (Fin t)) = eye3.
Proof. intros H. rewrite axis_angle_compose by exact H. replace (- t + t) with 0 by ring. apply axis_angle_zero, H. Qed.

(* ---- rotation_matrix2 ---- *)
Definition rot2 (c : R) (v x : R3) : R3 := (c * x + ((v × x) + ((v ∙ x) / (1 + c)) * v))%r3.
Lemma rot2_dot c v x y : v ∙ v = 1 - c * c -> 1 + c <> 0 -> rot2 c v x ∙ rot2 c v y = x ∙ y.
Proof.
  intros Hv Hc. unfold rot2, Rdiv. set (k := / (1 + c)).
  transitivity (c * c * (x ∙ y) + ((v ∙ v) * (x ∙ y) - (v ∙ x) * (v ∙ y))
     + (2 * c * k + k * k * (v ∙ v)) * ((v ∙ x) * (v ∙ y))); [r3_ring|].
  rewrite Hv. replace (2 * c * k + k * k * (1 - c * c)) with 1 by (unfold k; field; exact Hc). ring.
Qed.
Lemma rot2_cross c v x y : v ∙ v = 1 - c * c -> 1 + c <> 0 ->
  (rot2 c v x × rot2 c v y)%r3 = rot2 c v (x × y)%r3.
Proof.
  intros Hv Hc. unfold rot2, Rdiv. set (k := / (1 + c)).
  transitivity ((c * c + c * k * (v ∙ v)) * (x × y) + ((c + k * (v ∙ v)) * (v × (x × y))
     + ((1 - c * k) * (v ∙ (x × y)%r3)) * v))%r3; [r3_ring|].
  rewrite Hv. replace (c * c + c * k * (1 - c * c)) with c by (unfold k; field; exact Hc).
  replace (c + k * (1 - c * c)) with 1 by (unfold k; field; exact Hc).
  replace (1 - c * k) with k by (unfold k; field; exact Hc).
  r3_ring.
Qed.
Lemma rot2_maps a b : is_unit a -> is_unit b -> 1 + a ∙ b <> 0 -> rot2 (a ∙ b) (a × b)%r3 a = b.
Proof.
  intros Ha Hb Hc. unfold rot2. rewrite dot_cross_l.
  transitivity ((a ∙ b) * a + ((a ∙ a) * b - (a ∙ b) * a))%r3; [unfold Rdiv; rewrite Rmult_0_l; r3_ring|].
  unfold is_unit in Ha. rewrite Ha. r3_ring.
Qed.
Lemma unit_cross_zero a b : is_unit a -> is_unit b -> len (a × b)%r3 = 0 -> a = b \/ a = (- b)%r3.
Proof.
  intros Ha Hb H. assert (E : (a × b)%r3 ∙ (a × b)%r3 = 0) by (rewrite <- len_sq, H; ring).
  rewrite lagrange in E. unfold is_unit in *. rewrite Ha, Hb in E.
  assert (E2 : (a ∙ b - 1) * (a ∙ b + 1) = 0) by lra.
  apply Rmult_integral in E2. destruct E2 as [E2|E2].
  - left. apply unit_dot_1; auto; lra.
  - right. apply unit_dot_m1; auto; lra.
Qed.
Lemma opp_neq_unit a : is_unit a -> a <> (- a)%r3.
Proof.
  unfold is_unit; intros H E. assert (X : a ∙ a = (- a)%r3 ∙ a) by (rewrite <- E; reflexivity).
  rewrite dot_opp_l in X. lra.
Qed.

Lemma rotation_matrix2_same a : is_unit a -> rotation_matrix2 (fv a) (fv a) = eye3.
Proof.
  intros Ha. unfold rotation_matrix2. change (vdivs (fv a) (norm (fv a))) with (unit_vector (fv a)).
  rewrite unit_vector_unit by exact Ha. rewrite cross_fv.
  replace (a × a)%r3 with r3zero by r3_ring. rewrite norm_fv, len_zero_r3, dot_fv, nofZ_fin, neqb_fin.
  rewrite Reqb_true by reflexivity. rewrite ngt_fin. unfold is_unit in Ha. rewrite Ha.
  now rewrite Rltb_true by lra.
Qed.
Lemma rotation_matrix2_unitize a b : a <> r3zero -> b <> r3zero ->
  rotation_matrix2 (fv a) (fv b) = rotation_matrix2 (fv (dirn a)) (fv (dirn b)).
Proof.
  intros Ha Hb. unfold rotation_matrix2.
  change (vdivs (fv a) (norm (fv a))) with (unit_vector (fv a)).
  change (vdivs (fv b) (norm (fv b))) with (unit_vector (fv b)).
  change (vdivs (fv (dirn a)) (norm (fv (dirn a)))) with (unit_vector (fv (dirn a))).
  change (vdivs (fv (dirn b)) (norm (fv (dirn b)))) with (unit_vector (fv (dirn b))).
  rewrite !(unit_vector_fv a), !(unit_vector_fv b), !unit_vector_unit; auto using dirn_unit.
Qed.
Lemma rotation_matrix2_anti a : is_unit a -> rotation_matrix2 (fv a) (fv (- a)%r3) = mopp eye3.
Proof.
  intros Ha. unfold rotation_matrix2. change (vdivs (fv a) (norm (fv a))) with (unit_vector (fv a)).
  change (vdivs (fv (- a)%r3) (norm (fv (- a)%r3))) with (unit_vector (fv (- a)%r3)).
  rewrite !unit_vector_unit by auto using unit_opp. rewrite cross_fv.
  replace (a × - a)%r3 with r3zero by r3_ring. rewrite norm_fv, len_zero_r3, dot_fv, nofZ_fin, neqb_fin.
  rewrite Reqb_true by reflexivity. rewrite ngt_fin, dot_opp_r. unfold is_unit in Ha. rewrite Ha.
  now rewrite Rltb_false by lra.
Qed.
Lemma mopp_eye_acts : acts (mopp eye3) (fun x => (- x)%r3).
Proof.
  intros x. unfold mv, mopp, eye3, vopp, dot, fv; cbn.
  repeat (rewrite ?nofZ_fin, ?nopp_fin, ?nmul_fin, ?nadd_fin). f_equal; f_equal; ring.
Qed.
Lemma rotation_matrix2_gen a b : is_unit a -> is_unit b -> len (a × b)%r3 <> 0 ->
  1 + a ∙ b <> 0 /\ acts (rotation_matrix2 (fv a) (fv b)) (rot2 (a ∙ b) (a × b)%r3).
Proof.
  intros Ha Hb Hne.
  assert (Hv : (a × b)%r3 ∙ (a × b)%r3 = 1 - (a ∙ b) * (a ∙ b)).
  { rewrite lagrange. unfold is_unit in *. rewrite Ha, Hb. ring. }
  assert (Hc : 1 + a ∙ b <> 0).
  { intros Z. apply Hne. apply len_eq_of_sq; [lra|]. rewrite Hv. replace (a ∙ b) with (-1) by lra. ring. }
  split; [exact Hc|]. intros x. unfold rotation_matrix2.
  change (vdivs (fv a) (norm (fv a))) with (unit_vector (fv a)).
  change (vdivs (fv b) (norm (fv b))) with (unit_vector (fv b)).
  rewrite !unit_vector_unit by assumption. rewrite cross_fv, norm_fv, dot_fv, !nofZ_fin, neqb_fin.
  rewrite Reqb_false by exact Hne. clear Hne Ha Hb. revert Hv Hc. generalize (a × b)%r3 (a ∙ b). intros v c Hv Hc.
  rewrite vx_fv, vy_fv, vz_fv. destruct v as [vx vy vz]. cbn [cx cy cz].
  rewrite !nopp_fin, !fv_V, !M3_fm, eye_fm, mm_fm, nadd_fin, mdivs_fm by exact Hc. rewrite !madd_fm, mv_fm.
  unfold rot2, mrow. destruct x as [x y z]. r3_unf; cbn in *.
  assert (Hvx : vx * vx = 1 - c * c - vy * vy - vz * vz) by lra.
  assert (Hk : (1 - c * c) / (1 + c) = 1 - c) by (field; exact Hc).
  unfold Rdiv in *. set (k := / (1 + c)) in *.
  assert (Hk2 : k * (vx * vx + vy * vy + vz * vz) = 1 - c) by (rewrite Hv, Rmult_comm; exact Hk).
  f_equal; f_equal.
  - transitivity (x - k * (vx * vx + vy * vy + vz * vz) * x + (vy * z - vz * y + (vx * x + vy * y + vz * z) * k * vx)).
    + ring.
    + rewrite Hk2. ring.
  - transitivity (y - k * (vx * vx + vy * vy + vz * vz) * y + (vz * x - vx * z + (vx * x + vy * y + vz * z) * k * vy)).
    + ring.
    + rewrite Hk2. ring.
  - transitivity (z - k * (vx * vx + vy * vy + vz * vz) * z + (vx * y - vy * x + (vx * x + vy * y + vz * z) * k * vz)).
    + ring.
    + rewrite Hk2. ring.
Qed.

(** rotation_matrix2 as a map: isometry carrying a to b; proper unless antiparallel. *)
Lemma rotation_matrix2_unit a b : is_unit a -> is_unit b ->
  exists f, acts (rotation_matrix2 (fv a) (fv b)) f
    /\ f a = b /\ (forall x y, f x ∙ f y = x ∙ y)
    /\ (b <> (- a)%r3 -> forall x y, (f x × f y)%r3 = f (x × y)%r3)
    /\ (b = (- a)%r3 -> forall x, f x = (- x)%r3).
Proof.
  intros Ha Hb. destruct (Req_dec (len (a × b)%r3) 0) as [E|NE].
  - apply unit_cross_zero in E; auto. destruct E as [<-|E].
    + exists (fun x => x). rewrite rotation_matrix2_same by exact Ha. split; [apply eye_acts|].
      repeat split; auto. intros Z. exfalso. now apply (opp_neq_unit a).
    + assert (E2 : b = (- a)%r3) by (rewrite E; r3_ring). subst b.
      exists (fun x => (- x)%r3). rewrite rotation_matrix2_anti by exact Ha.
      split; [apply mopp_eye_acts|]. repeat split; auto.
      * intros; r3_ring.
      * intros N; contradiction.
  - destruct (rotation_matrix2_gen a b Ha Hb NE) as [Hc HA].
    assert (Hv : (a × b)%r3 ∙ (a × b)%r3 = 1 - (a ∙ b) * (a ∙ b)).
    { rewrite lagrange. unfold is_unit in *. rewrite Ha, Hb. ring. }
    eexists. split; [exact HA|]. split; [apply rot2_maps; assumption|].
    split; [intros; apply rot2_dot; assumption|].
    split; [intros; apply rot2_cross; assumption|].
    intros ->. exfalso. apply NE. replace (a × - a)%r3 with r3zero by r3_ring. apply len_zero_r3.
Qed.
Lemma rotation_matrix2_spec a b : a <> r3zero -> b <> r3zero ->
  exists f, acts (rotation_matrix2 (fv a) (fv b)) f
    /\ f (dirn a) = dirn b /\ (forall x y, f x ∙ f y = x ∙ y)
    /\ (dirn b <> (- dirn a)%r3 -> forall x y, (f x × f y)%r3 = f (x × y)%r3)
    /\ (dirn b = (- dirn a)%r3 -> forall x, f x = (- x)%r3).
Proof.
  intros Ha Hb. rewrite rotation_matrix2_unitize by assumption.
  apply rotation_matrix2_unit; apply dirn_unit; assumption.
Qed.

(* ---- rotation_matrix ---- *)
Lemma rotation_matrix_unitize a b : a <> r3zero -> b <> r3zero ->
  rotation_matrix (fv a) (fv b) = rotation_matrix (fv (dirn a)) (fv (dirn b)).
Proof.
  intros Ha Hb. unfold rotation_matrix.
  change (vdivs (fv a) (norm (fv a))) with (unit_vector (fv a)).
  change (vdivs (fv b) (norm (fv b))) with (unit_vector (fv b)).
  change (vdivs (fv (dirn a)) (norm (fv (dirn a)))) with (unit_vector (fv (dirn a))).
  change (vdivs (fv (dirn b)) (norm (fv (dirn b)))) with (unit_vector (fv (dirn b))).
  rewrite !(unit_vector_fv a), !(unit_vector_fv b), !unit_vector_unit; auto using dirn_unit.
Qed.
Lemma rotation_matrix_gen a b : is_unit a -> is_unit b -> len (a × b)%r3 <> 0 ->
  acts (rotation_matrix (fv a) (fv b)) (rodr (a ∙ b) (- len (a × b)%r3) (dirn (a × b)%r3)).
Proof.
  intros Ha Hb NE x. unfold rotation_matrix.
  change (vdivs (fv a) (norm (fv a))) with (unit_vector (fv a)).
  change (vdivs (fv b) (norm (fv b))) with (unit_vector (fv b)).
  rewrite !unit_vector_unit by assumption. rewrite cross_fv, norm_fv, dot_fv, !nofZ_fin, neqb_fin.
  rewrite Reqb_false by exact NE. rewrite vdivs_fv by exact NE. fold (dirn (a × b)%r3).
  generalize (dirn (a × b)%r3) (len (a × b)%r3) (a ∙ b). intros d s c.
  rewrite outer_fv. rewrite !vx_fv, !vy_fv, !vz_fv. destruct d as [dx dy dz]. cbn [cx cy cz].
  rewrite !nopp_fin, !fv_V, !M3_fm, eye_fm, msub_fm, !mscale_fm, !madd_fm, mv_fm.
  unfold rodr. destruct x as [x y z]. r3_unf; cbn in *.
  f_equal; f_equal; ring.
Qed.
Lemma rotation_matrix_unit a b : is_unit a -> is_unit b ->
  exists f, acts (rotation_matrix (fv a) (fv b)) f
    /\ f b = a /\ (forall x y, f x ∙ f y = x ∙ y)
    /\ (b <> (- a)%r3 -> forall x y, (f x × f y)%r3 = f (x × y)%r3)
    /\ f a = ((2 * (a ∙ b)) * a - b)%r3.
Proof.
  intros Ha Hb. destruct (Req_dec (len (a × b)%r3) 0) as [E|NE].
  - assert (M : rotation_matrix (fv a) (fv b) = rotation_matrix2 (fv a) (fv b)).
    { unfold rotation_matrix, rotation_matrix2.
      change (vdivs (fv a) (norm (fv a))) with (unit_vector (fv a)).
      change (vdivs (fv b) (norm (fv b))) with (unit_vector (fv b)).
      rewrite !unit_vector_unit by assumption. rewrite cross_fv, norm_fv, E, nofZ_fin, neqb_fin.
      now rewrite Reqb_true by reflexivity. }
    rewrite M. apply unit_cross_zero in E; auto. destruct E as [<-|E].
    + exists (fun x => x). rewrite rotation_matrix2_same by exact Ha. split; [apply eye_acts|].
      repeat split; auto. unfold is_unit in Ha; rewrite Ha. r3_ring.
    + assert (E2 : b = (- a)%r3) by (rewrite E; r3_ring). subst b.
      exists (fun x => (- x)%r3). rewrite rotation_matrix2_anti by exact Ha.
      split; [apply mopp_eye_acts|]. split; [r3_ring|]. split; [intros; r3_ring|].
      split; [intros; contradiction|]. rewrite dot_opp_r. unfold is_unit in Ha; rewrite Ha. r3_ring.
  - assert (Hne : (a × b)%r3 <> r3zero) by (intros Z; apply NE; rewrite Z; apply len_zero_r3).
    assert (Hu : is_unit (dirn (a × b)%r3)) by (apply dirn_unit, Hne).
    assert (Hv : len (a × b)%r3 * len (a × b)%r3 = 1 - (a ∙ b) * (a ∙ b)).
    { rewrite len_sq, lagrange. unfold is_unit in *. rewrite Ha, Hb. ring. }
    assert (Hcs : (a ∙ b) * (a ∙ b) + (- len (a × b)%r3) * (- len (a × b)%r3) = 1) by lra.
    assert (Hsd : forall x, ((- len (a × b)%r3) * (dirn (a × b)%r3 × x))%r3 = (- ((a × b) × x))%r3).
    { intros x. rewrite (dirn_scale _ Hne) at 3. r3_ring. }
    eexists. split; [apply rotation_matrix_gen; assumption|]. split; [|split; [|split]].
    + unfold rodr. rewrite Hsd. unfold dirn at 1. rewrite dot_scale_l, dot_cross_r.
      transitivity ((a ∙ b) * b - ((a ∙ b) * b - (b ∙ b) * a))%r3; [r3_ring|].
      unfold is_unit in Hb; rewrite Hb. r3_ring.
    + intros; apply rodr_dot; assumption.
    + intros; apply rodr_cross; assumption.
    + unfold rodr. rewrite Hsd. unfold dirn at 1. rewrite dot_scale_l, dot_cross_l.
      transitivity ((a ∙ b) * a - ((a ∙ a) * b - (a ∙ b) * a))%r3; [r3_ring|].
      unfold is_unit in Ha; rewrite Ha. r3_ring.
Qed.
Lemma rotation_matrix_spec a b : a <> r3zero -> b <> r3zero ->
  exists f, acts (rotation_matrix (fv a) (fv b)) f
    /\ f (dirn b) = dirn a /\ (forall x y, f x ∙ f y = x ∙ y)
    /\ (dirn b <> (- dirn a)%r3 -> forall x y, (f x × f y)%r3 = f (x × y)%r3)
    /\ (f (dirn a) = dirn b <-> dirn b = dirn a \/ dirn b = (- dirn a)%r3).
Proof.
  intros Ha Hb. rewrite rotation_matrix_unitize by assumption.
  destruct (rotation_matrix_unit (dirn a) (dirn b)) as (f & A & M & D & C & E); try (apply dirn_unit; assumption).
  exists f. repeat split; auto.
  - intros F. rewrite F in E. apply dirn_unit in Ha; apply dirn_unit in Hb.
    assert (P : dirn b = ((dirn a ∙ dirn b) * dirn a)%r3).
    { revert E. generalize (dirn a ∙ dirn b). intros k E. destruct (dirn a), (dirn b).
      unfold r3scale, r3sub in *; cbn in *. injection E; intros. apply r3_ext; cbn; lra. }
    assert (Q : (dirn a ∙ dirn b) * (dirn a ∙ dirn b) = 1).
    { assert (Q := Hb). unfold is_unit in Q. rewrite P in Q at 1. rewrite dot_scale_l in Q. exact Q. }
    assert (Q2 : (dirn a ∙ dirn b - 1) * (dirn a ∙ dirn b + 1) = 0) by lra.
    apply Rmult_integral in Q2. destruct Q2 as [Q2|Q2].
    + left. symmetry. apply unit_dot_1; auto; lra.
    + right. apply unit_dot_m1; auto. rewrite dot_comm. lra.
  - apply dirn_unit in Ha. unfold is_unit in Ha. intros [F|F]; rewrite E, F.
    + rewrite Ha. r3_ring.
    + rewrite dot_opp_r, Ha. r3_ring.
Qed.
