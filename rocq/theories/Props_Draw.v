(** Property C67: the pictures of the optics show the places where rays can hit them (or not). *)
From Coq Require Import Reals ZArith Lra Lia Psatz String List Bool.
From Verif Require Import PyErr Num Vec Shapes Csg Optics General Drawing Spec XReal RVec VecProofs FlatProofs RayProofs ShapeExtra GenProofs Props_Ray RunGen RunXr OpticHits
  StateXr FlatOptic SceneProofs Props_Scene Props_Loop Props_Run Props_Images Props_Path.
Import ListNotations.
Local Open Scope R_scope.

(** -- specification: the points of space covered by a picture -- *)
(** convex combinations of four points *)
Definition quad (a b c d q : R3) : Prop := exists k l m n, 0 <= k /\ 0 <= l /\ 0 <= m /\ 0 <= n /\ k + l + m + n = 1 /\ q = (k * a + l * b + (m * c + n * d))%r3.
Definition shows (pic : picture xr) (q : R3) : Prop :=
  match pic with
  | PDisc (Fin rad) n c => exists x y, x² + y² <= rad² /\ pathpatch_vertex n (Fin 0) c (Fin x) (Fin y) = fv q
  | PRect (Fin x0) (Fin y0) (Fin w) (Fin h) n c => exists x y, x0 <= x <= x0 + w /\ y0 <= y <= y0 + h /\ pathpatch_vertex n (Fin 0) c (Fin x) (Fin y) = fv q
  | PPoly [a; b; c; d] => exists a' b' c' d', a = fv a' /\ b = fv b' /\ c = fv c' /\ d = fv d' /\ quad a' b' c' d' q
  | PMesh l => In (fv q) l
  | _ => False
  end.
(** q is where some ray is reported to meet o *)
Definition hittable (o : optic xr) (q : R3) : Prop := exists r p d n s, ray_is r p d /\ is_unit d /\ optic_test_intersect o r = Ok (H4 true (Some (fv q)) n s).

(** -- placing a patch in space -- *)
Definition ex3 : R3 := mk3 1 0 0.
Definition ey3 : R3 := mk3 0 1 0.
Definition ez3 : R3 := mk3 0 0 1.
Lemma ez3_unit : is_unit ez3. Proof. unfold is_unit, r3dot; cbn; ring. Qed.
Lemma placed n c : n <> r3zero -> exists E1 E2, is_unit E1 /\ is_unit E2 /\ E1 ∙ E2 = 0 /\ E1 ∙ dirn n = 0 /\ E2 ∙ dirn n = 0 /\
  forall x y, pathpatch_vertex (fv n) (Fin 0) (fv c) (Fin x) (Fin y) = fv (c + (x * E1 + y * E2))%r3.
Proof.
  intros Hn. assert (He : ez3 <> r3zero) by (apply unit_nonzero, ez3_unit).
  destruct (rotation_matrix_spec n ez3 Hn He) as (f & A & Fe & Iso & _). rewrite (dirn_of_unit ez3 ez3_unit) in Fe.
  exists (f ex3), (f ey3). assert (U1 : is_unit (f ex3)) by (unfold is_unit; rewrite Iso; unfold r3dot; cbn; ring).
  assert (U2 : is_unit (f ey3)) by (unfold is_unit; rewrite Iso; unfold r3dot; cbn; ring). assert (O : f ex3 ∙ f ey3 = 0) by (rewrite Iso; unfold r3dot; cbn; ring).
  assert (O1 : f ex3 ∙ dirn n = 0) by (rewrite <- Fe, Iso; unfold r3dot; cbn; ring). assert (O2 : f ey3 ∙ dirn n = 0) by (rewrite <- Fe, Iso; unfold r3dot; cbn; ring).
  do 5 (split; [assumption|]). intros x y.
  assert (L : f (mk3 x y 0) = (x * f ex3 + y * f ey3)%r3).
  { rewrite (orthonormal_expand (f ex3) (f ey3) (dirn n) (f (mk3 x y 0)) U1 U2 (dirn_unit n Hn) O O2) by (rewrite dot_comm; exact O1).
    rewrite <- Fe at 1. rewrite !Iso. replace (mk3 x y 0 ∙ ex3) with x by (unfold r3dot; cbn; ring). replace (mk3 x y 0 ∙ ey3) with y by (unfold r3dot; cbn; ring).
    replace (mk3 x y 0 ∙ ez3) with 0 by (unfold r3dot; cbn; ring). generalize (f ex3) (f ey3) (dirn n). intros. clear. r3_ring. }
  unfold pathpatch_vertex. cbv zeta. change (V (nofZ 0) (nofZ 0) (nofZ 1)) with (fv ez3). change (V (Fin x) (Fin y) (nofZ 0)) with (fv (mk3 x y 0)). rewrite (A (mk3 x y 0)).
  change (V (nofZ 0) (nofZ 0) (Fin 0)) with (fv r3zero). rewrite !vadd_fv, L. f_equal. generalize (f ex3) (f ey3). intros. clear. r3_ring.
Qed.
Lemma comb_dot (E1 E2 : R3) x y : is_unit E1 -> is_unit E2 -> E1 ∙ E2 = 0 -> (x * E1 + y * E2)%r3 ∙ (x * E1 + y * E2)%r3 = x² + y².
Proof.
  intros U1 U2 O. unfold is_unit in *. rewrite dot_add_l, !dot_scale_l, (dot_comm E1), (dot_comm E2), !dot_add_l, !dot_scale_l, (dot_comm E2 E1), U1, U2, O. unfold Rsqr. ring.
Qed.
Lemma comb_n (E1 E2 n : R3) x y : E1 ∙ n = 0 -> E2 ∙ n = 0 -> (x * E1 + y * E2)%r3 ∙ n = 0.
Proof. intros A B. rewrite dot_add_l, !dot_scale_l, A, B. ring. Qed.
(** the disc is the disc *)
Lemma disc_shows n c rad q : n <> r3zero -> 0 <= rad -> (shows (PDisc (Fin rad) (fv n) (fv c)) q <-> on_plane c (dirn n) q /\ dist3 q c <= rad).
Proof.
  intros Hn Hr. destruct (placed n c Hn) as (E1 & E2 & U1 & U2 & O & O1 & O2 & P). unfold shows, on_plane, dist3. split.
  - intros (x & y & L & E). rewrite P in E. apply fv_inj in E. subst q. replace (c + (x * E1 + y * E2) - c)%r3 with (x * E1 + y * E2)%r3 by (clear; r3_ring).
    split; [apply comb_n; assumption|]. rewrite <- (comb_dot E1 E2 x y U1 U2 O), <- len_sq in L. apply Rsqr_incr_0; [exact L|apply len_nonneg|exact Hr].
  - intros (Pl & L). exists ((q - c)%r3 ∙ E1), ((q - c)%r3 ∙ E2).
    assert (Ex := orthonormal_expand E1 E2 (dirn n) (q - c)%r3 U1 U2 (dirn_unit n Hn) O O2 ltac:(rewrite dot_comm; exact O1)). rewrite Pl in Ex.
    set (x := (q - c)%r3 ∙ E1) in *. set (y := (q - c)%r3 ∙ E2) in *. clearbody x y.
    assert (Ex2 : (q - c)%r3 = (x * E1 + y * E2)%r3) by (rewrite Ex; generalize (dirn n); clear; intros; r3_ring). split.
    + rewrite <- (comb_dot E1 E2 x y U1 U2 O), <- Ex2, <- len_sq. apply Rsqr_incr_1; [exact L|apply len_nonneg|exact Hr].
    + rewrite P, <- Ex2. f_equal. clear. r3_ring.
Qed.
(** where a flat optic can be hit *)
Lemma flat_hittable o c u A q : flat_optic o c u A -> (hittable o q <-> on_plane c u q /\ A q).
Proof.
  intros V. split.
  - intros (r & p & d & n & s & Hr & Hd & E). destruct (flat_report o c u A r p d V Hr Hd) as [t (_ & _ & M) At R|_ R]; rewrite R in E; [|discriminate].
    assert (Eq : fv (at_t p d t) = fv q) by congruence. apply fv_inj in Eq. subst q. auto.
  - intros (Pl & Aq). pose proof (flat_unit o c u A V) as U. set (p := (q - u)%r3).
    set (r := mkRay (fv p) (fv u) (Fin 532) (Fin 0) [fv p] false "normal"%string).
    assert (At : at_t p u 1 = q) by (unfold at_t, p; clear; r3_ring).
    exists r, p, u. destruct (flat_report o c u A r p u V (conj eq_refl eq_refl) U) as [t M At' R|M R].
    + assert (t = 1) as ->.
      { destruct M as (_ & _ & M). unfold on_plane, at_t in *. replace (p + t * u - c)%r3 with ((q - c) + (t - 1) * u)%r3 in M by (unfold p; clear; r3_ring).
        rewrite dot_add_l, dot_scale_l, Pl in M. unfold is_unit in U. rewrite U in M. lra. }
      rewrite At in R. do 2 eexists. split; [split; reflexivity|]. split; [exact U|exact R].
    + exfalso. apply (M 1); rewrite ?At; [|exact Aq]. unfold meets_plane. rewrite At. unfold is_unit in U. rewrite U, Rabs_R1. repeat split; try lra. exact Pl.
Qed.

(** C67: the 3-d pictures of circular flat mirrors and of biconvex lenses, however oriented, show exactly the plane disc in which rays can hit them (and its edge). *)
Theorem C67_disc : forall o c n D, n <> r3zero -> 0 <= D ->
  (exists w h f tg ty dmd m, mk_mirror (fv c) "circular_flat" (Some (fv n)) (Some (Fin D)) w h f tg ty dmd = Ok m /\ o = OMirror m) \/
  (exists f ty ix l, mk_lens (fv c) (Some (fv n)) "spherical_biconvex" (Some (Fin D)) f ty ix = Ok l /\ o = OLens l) ->
  exists pic, (forall view w h, view = "3d"%string \/ view = "xyz"%string -> draw_optic (Fin PI) (Some (Fin D)) w h o view = Ok [pic]) /\
    (forall q, shows pic q <-> on_plane c (dirn n) q /\ dist3 q c <= D / 2) /\
    (forall q, hittable o q <-> shows pic q /\ dist3 q c < D / 2).
Proof.
  intros o c n D Hn HD Ho. exists (PDisc (Fin (D / 2)) (fv (dirn n)) (fv c)).
  assert (Sh : forall q, shows (PDisc (Fin (D / 2)) (fv (dirn n)) (fv c)) q <-> on_plane c (dirn n) q /\ dist3 q c <= D / 2).
  { intros q. pose proof (disc_shows (dirn n) c (D / 2) q (unit_nonzero _ (dirn_unit n Hn)) ltac:(lra)) as S. rewrite (dirn_of_unit (dirn n) (dirn_unit n Hn)) in S. exact S. }
  assert (Fl : flat_optic o c (dirn n) (fun q => dist3 q c < D / 2)).
  { destruct Ho as [(w & h & f & tg & ty & dmd & m & E & ->)|(f & ty & ix & l & E & ->)]; [eapply FO_mirror_circ|eapply FO_lens]; eassumption. }
  split; [|split; [exact Sh|]].
  - intros view w h Hv. assert (C : draw_circle (fv c) (Some (fv (dirn n))) (Some (Fin D)) = Ok [PDisc (Fin (D / 2)) (fv (dirn n)) (fv c)]).
    { unfold draw_circle. cbn [need bind]. rewrite nofZ_fin, ndiv_fin by lra. reflexivity. }
    destruct Ho as [(w' & h' & f & tg & ty & dmd & m & E & ->)|(f & ty & ix & l & E & ->)].
    + unfold mk_mirror in E. apply bind_ok in E. destruct E as (dm & _ & E). change (String.eqb "circular_flat" "circular_flat") with true in E. cbn iota in E.
      cbn [unit_vector_o bind] in E. rewrite unit_vector_fv in E by exact Hn. apply bind_ok in E. destruct E as (ci & _ & E). apply ok_inj in E. subst m.
      destruct Hv as [-> | ->]; exact C.
    + unfold mk_lens in E. change (String.eqb "spherical_biconvex" "spherical_biconvex") with true in E. cbn iota in E. rewrite unit_vector_fv in E by exact Hn.
      apply bind_ok in E. destruct E as (ci & _ & E). apply ok_inj in E. subst l. destruct Hv as [-> | ->]; exact C.
  - intros q. rewrite (flat_hittable o c _ _ q Fl), Sh. intuition lra.
Qed.
Print Assumptions C67_disc.

(** -- rectangles -- *)
Lemma frame_of n t : n <> r3zero -> t <> r3zero -> orth n t -> let B := (dirn n × dirn t)%r3 in
  is_unit (dirn n) /\ is_unit (dirn t) /\ is_unit B /\ dirn n ∙ dirn t = 0 /\ dirn t ∙ B = 0 /\ B ∙ dirn n = 0.
Proof.
  intros Hn Ht Ho B. pose proof (dirn_unit n Hn) as Un. pose proof (dirn_unit t Ht) as Ut.
  assert (O : dirn n ∙ dirn t = 0). { unfold dirn. rewrite dot_scale_l, dot_scale_r. unfold orth in Ho. rewrite Ho. ring. }
  do 2 (split; [assumption|]). split; [|split; [exact O|]].
  - unfold is_unit in *. unfold B. rewrite lagrange, O, Un, Ut. ring.
  - unfold B. generalize (dirn n) (dirn t). intros a b. clear. split; r3_ring.
Qed.
Lemma rect_plain c n t h w q : n <> r3zero -> t <> r3zero -> orth n t -> 0 < h -> 0 < w ->
  (in_rect c (dirn n) (dirn t) h w q <-> Rabs ((q - c)%r3 ∙ dirn t) <= h / 2 /\ Rabs ((q - c)%r3 ∙ (dirn n × dirn t)%r3) <= w / 2).
Proof.
  intros Hn Ht Ho Hh Hw. destruct (frame_of n t Hn Ht Ho) as (_ & _ & UB & _). unfold in_rect, is_unit in *. rewrite UB, Rmult_1_r. intuition lra.
Qed.
Lemma quad_rect (c a b q : R3) : (exists x y, -1 <= x <= 1 /\ -1 <= y <= 1 /\ q = (c + (x * a + y * b))%r3) <->
  quad (c + a - b)%r3 (c + a + b)%r3 (c - a + b)%r3 (c - a - b)%r3 q.
Proof.
  split.
  - intros (x & y & Hx & Hy & ->). exists ((1 + x) / 2 * ((1 - y) / 2)), ((1 + x) / 2 * ((1 + y) / 2)), ((1 - x) / 2 * ((1 + y) / 2)), ((1 - x) / 2 * ((1 - y) / 2)).
    split; [nra|]. split; [nra|]. split; [nra|]. split; [nra|]. split; [field|]. clear. destruct a, b, c. r3_field.
  - intros (k & l & m & n & Hk & Hl & Hm & Hn & S & ->). exists (k + l - m - n), (l + m - k - n). split; [lra|]. split; [lra|].
    replace k with (1 - l - m - n) by lra. clear. destruct a, b, c. unfold r3add, r3sub, r3scale; cbn. f_equal; ring.
Qed.
(** C67: the picture of a detector shows exactly the closed rectangle in which rays can hit it. *)
Theorem C67_detector : forall c n t h w d, n <> r3zero -> t <> r3zero -> orth n t -> 0 < h -> 0 < w ->
  mk_detector (fv c) (Some (fv n)) (Some (fv t)) "rectangular_flat" (Some (Fin w)) (Some (Fin h)) = Ok d ->
  exists pic, (forall view D' w' h', view = "3d"%string \/ view = "xyz"%string -> draw_optic (Fin PI) D' w' h' (ODetector d) view = Ok [pic]) /\
    (forall q, hittable (ODetector d) q <-> shows pic q).
Proof.
  intros c n t h w d Hn Ht Ho Hh Hw E. pose proof (FO_detector c n t w h d (de_hit_data d) Hn Ht E) as V.
  assert (L : with_log (ODetector d) (de_hit_data d) = ODetector d) by (destruct d; reflexivity). rewrite L in V. clear L.
  unfold mk_detector in E. cbn [unit_vector_o bind] in E. change (String.eqb "rectangular_flat" "rectangular_flat") with true in E. cbn iota in E.
  rewrite mk_rectangle_fv in E by assumption. destruct (Rleb _ _); [|discriminate E]. destruct (Rltb h 0); [discriminate E|]. destruct (Rltb w 0); [discriminate E|].
  cbn [bind] in E. apply ok_inj in E.
  set (B := (dirn n × dirn t)%r3). destruct (frame_of n t Hn Ht Ho) as (Un & Ut & UB & O1 & O2 & O3). fold B in UB, O2, O3.
  exists (PPoly [fv (c + (h / 2) * dirn t - (w / 2) * B)%r3; fv (c + (h / 2) * dirn t + (w / 2) * B)%r3; fv (c - (h / 2) * dirn t + (w / 2) * B)%r3; fv (c - (h / 2) * dirn t - (w / 2) * B)%r3]).
  split.
  - intros view D' w' h' [-> | ->]; subst d; reflexivity.
  - intros q. rewrite (flat_hittable _ _ _ _ q V), (rect_plain c n t h w q Hn Ht Ho Hh Hw). fold B. cbn [shows]. split.
    + intros (Pl & A1 & A2). do 4 eexists. do 4 (split; [reflexivity|]). apply quad_rect.
      exists ((q - c)%r3 ∙ dirn t / (h / 2)), ((q - c)%r3 ∙ B / (w / 2)).
      assert (Bd : forall x s, 0 < s -> Rabs x <= s / 2 -> -1 <= x / (s / 2) <= 1).
      { intros x s Hs Ab. assert (Ab2 : - (s / 2) <= x <= s / 2) by (revert Ab; unfold Rabs; destruct (Rcase_abs x); lra).
        assert (Ek : x = x / (s / 2) * (s / 2)) by (field; lra). set (k := x / (s / 2)) in *. clearbody k. split; nra. }
      split; [apply Bd; assumption|]. split; [apply Bd; assumption|].
      assert (Ex := orthonormal_expand (dirn n) (dirn t) B (q - c)%r3 Un Ut UB O1 O2 O3). unfold on_plane in Pl. rewrite Pl in Ex.
      set (x := (q - c)%r3 ∙ dirn t) in *. set (y := (q - c)%r3 ∙ B) in *. clearbody x y B.
      transitivity (c + (q - c))%r3; [clear; r3_ring|]. f_equal. rewrite Ex. generalize (dirn n) (dirn t). clear - Hh Hw. intros [] []. destruct B. r3_field; lra.
    + intros (a & b & c' & d' & Ea & Eb & Ec & Ed & Q). apply fv_inj in Ea, Eb, Ec, Ed. subst a b c' d'. apply quad_rect in Q. destruct Q as (x & y & Hx & Hy & ->).
      replace (c + (x * (h / 2 * dirn t) + y * (w / 2 * B)) - c)%r3 with (x * (h / 2) * dirn t + y * (w / 2) * B)%r3 by (generalize (dirn t) B; clear; intros; r3_ring).
      unfold on_plane. replace (c + (x * (h / 2 * dirn t) + y * (w / 2 * B)) - c)%r3 with (x * (h / 2) * dirn t + y * (w / 2) * B)%r3 by (generalize (dirn t) B; clear; intros; r3_ring).
      unfold is_unit in *. rewrite !dot_add_l, !dot_scale_l, Ut, UB, O2, O3, (dot_comm B), O2, (dot_comm (dirn t) (dirn n)), O1.
      split; [ring|]. split; apply Rabs_le; nra.
Qed.
Print Assumptions C67_detector.
(** C67, the claim is false for rectangular mirrors (and gratings, drawn by the same code): the picture ignores the tangent, so turning the rectangle by a
    right angle in its plane leaves the picture as it is.  Whatever the rectangle (h <> w), of the two mirrors with tangents t and n x t, one can be hit outside
    its picture or is drawn where it cannot be hit. *)
Theorem C67_rectangle_refuted : forall c n t h w dmd, n <> r3zero -> t <> r3zero -> orth n t -> 0 < h -> 0 < w -> h <> w -> dmd <> r3zero ->
  exists m1 m2 pic q,
    mk_mirror (fv c) "rectangular_flat" (Some (fv n)) None (Some (Fin w)) (Some (Fin h)) None (Some (fv t)) "normal" (Some (fv dmd)) = Ok m1 /\
    mk_mirror (fv c) "rectangular_flat" (Some (fv n)) None (Some (Fin w)) (Some (Fin h)) None (Some (fv (n × t)%r3)) "normal" (Some (fv dmd)) = Ok m2 /\
    draw_optic (Fin PI) None (Some (Fin w)) (Some (Fin h)) (OMirror m1) "3d" = Ok [pic] /\
    draw_optic (Fin PI) None (Some (Fin w)) (Some (Fin h)) (OMirror m2) "3d" = Ok [pic] /\
    hittable (OMirror m1) q /\ ~ hittable (OMirror m2) q.
Proof.
  intros c n t h w dmd Hn Ht Ho Hh Hw Hne Hd.
  assert (Hnt : (n × t)%r3 <> r3zero).
  { intros Z. assert (X : (n × t)%r3 ∙ (n × t)%r3 = 0) by (rewrite Z; unfold r3dot, r3zero; cbn; ring). rewrite lagrange in X. unfold orth in Ho. rewrite Ho in X.
    assert (P1 : 0 < n ∙ n) by (rewrite <- len_sq; pose proof (len_pos n Hn); nra). assert (P2 : 0 < t ∙ t) by (rewrite <- len_sq; pose proof (len_pos t Ht); nra). nra. }
  assert (Ho2 : orth n (n × t)%r3) by (unfold orth; clear; r3_ring).
  assert (MM : forall t', t' <> r3zero -> orth n t' ->
    mk_mirror (fv c) "rectangular_flat" (Some (fv n)) None (Some (Fin w)) (Some (Fin h)) None (Some (fv t')) "normal" (Some (fv dmd)) =
      Ok (mkMirror (fv c) "rectangular_flat" (Some (fv (dirn n))) "normal" (fv (dirn dmd)) [SRectangle (rect_of c (dirn n) (dirn t') h w)])).
  { intros t' Ht' Ho'. unfold mk_mirror. cbn [unit_vector_o bind]. rewrite !unit_vector_fv by assumption. change (String.eqb "rectangular_flat" "circular_flat") with false.
    change (String.eqb "rectangular_flat" "rectangular_flat") with true. cbn iota. rewrite mk_rectangle_fv by assumption.
    destruct (frame_of n t' Hn Ht' Ho') as (_ & _ & _ & O & _). rewrite O, Rabs_R0. rewrite Rleb_true by lra. rewrite !Rltb_false by lra. reflexivity. }
  pose proof (MM t Ht Ho) as E1. pose proof (MM (n × t)%r3 Hnt Ho2) as E2. do 3 eexists.
  assert (D2 : dirn (n × t)%r3 = (dirn n × dirn t)%r3).
  { assert (L : len (n × t)%r3 = len n * len t).
    { apply Rsqr_inj; [apply len_nonneg|apply Rmult_le_pos; apply len_nonneg|]. unfold Rsqr. rewrite len_sq, lagrange. unfold orth in Ho. rewrite Ho.
      rewrite <- (len_sq n), <- (len_sq t). ring. }
    unfold dirn. rewrite L. pose proof (len_pos n Hn). pose proof (len_pos t Ht). generalize (len n) (len t) H H0. clear. intros x y Hx Hy. destruct n, t. r3_field; lra. }
  destruct (frame_of n t Hn Ht Ho) as (Un & Ut & UB & O1 & O2 & O3). set (B := (dirn n × dirn t)%r3) in *.
  pose proof (FO_mirror_rect c n t _ w h _ _ _ _ Hn Ht E1) as V1. pose proof (FO_mirror_rect c n _ _ w h _ _ _ _ Hn Hnt E2) as V2.
  assert (H1 : forall x y, hittable (OMirror (mkMirror (fv c) "rectangular_flat" (Some (fv (dirn n))) "normal" (fv (dirn dmd)) [SRectangle (rect_of c (dirn n) (dirn t) h w)])) (c + (x * dirn t + y * B))%r3
    <-> Rabs x <= h / 2 /\ Rabs y <= w / 2).
  { intros x y. rewrite (flat_hittable _ _ _ _ _ V1), (rect_plain c n t h w _ Hn Ht Ho Hh Hw). fold B. unfold on_plane.
    replace (c + (x * dirn t + y * B) - c)%r3 with (x * dirn t + y * B)%r3 by (generalize (dirn t) B; clear; intros; r3_ring).
    unfold is_unit in *. rewrite !dot_add_l, !dot_scale_l, Ut, UB, O2, O3, (dot_comm B), O2, (dot_comm (dirn t) (dirn n)), O1. rewrite !Rmult_0_r, !Rmult_1_r, !Rplus_0_r, Rplus_0_l. tauto. }
  assert (BB : (dirn n × B)%r3 = (- dirn t)%r3).
  { unfold B. transitivity ((dirn n ∙ dirn t) * dirn n - (dirn n ∙ dirn n) * dirn t)%r3; [generalize (dirn n) (dirn t); clear; intros; r3_ring|]. rewrite O1. unfold is_unit in Un. rewrite Un. generalize (dirn n) (dirn t); clear; intros; r3_ring. }
  assert (H2 : forall x y, hittable (OMirror (mkMirror (fv c) "rectangular_flat" (Some (fv (dirn n))) "normal" (fv (dirn dmd)) [SRectangle (rect_of c (dirn n) (dirn (n × t)%r3) h w)])) (c + (x * dirn t + y * B))%r3
    <-> Rabs y <= h / 2 /\ Rabs x <= w / 2).
  { intros x y. rewrite (flat_hittable _ _ _ _ _ V2), (rect_plain c n _ h w _ Hn Hnt Ho2 Hh Hw). rewrite D2. fold B. rewrite BB. unfold on_plane.
    replace (c + (x * dirn t + y * B) - c)%r3 with (x * dirn t + y * B)%r3 by (generalize (dirn t) B; clear; intros; r3_ring).
    replace ((x * dirn t + y * B)%r3 ∙ (- dirn t)%r3) with (- ((x * dirn t + y * B)%r3 ∙ dirn t)) by (generalize (dirn t) B; clear; intros; r3_ring).
    unfold is_unit in *. rewrite Rabs_Ropp, !dot_add_l, !dot_scale_l, Ut, UB, O2, O3, (dot_comm B), O2, (dot_comm (dirn t) (dirn n)), O1. rewrite !Rmult_0_r, !Rmult_1_r, !Rplus_0_r, Rplus_0_l. tauto. }
  destruct (Rlt_dec h w) as [L|L].
  - exists (c + (0 * dirn t + (w / 2) * B))%r3. split; [exact E1|]. split; [exact E2|]. split; [reflexivity|]. split; [reflexivity|]. split; [apply H1|rewrite H2]; rewrite Rabs_R0, (Rabs_pos_eq (w / 2)) by lra; lra.
  - exists (c + ((h / 2) * dirn t + 0 * B))%r3. split; [exact E1|]. split; [exact E2|]. split; [reflexivity|]. split; [reflexivity|]. split; [apply H1|rewrite H2]; rewrite Rabs_R0, (Rabs_pos_eq (h / 2)) by lra; lra.
Qed.
Print Assumptions C67_rectangle_refuted.

(** C67: every point of the mesh drawn for a convex mirror or a ball lens of diameter D >= 0 lies on its sphere, and the poles are among them. *)
Theorem C67_sphere : forall c D, 0 <= D -> exists pic, draw_sphere (Fin PI) (fv c) (Some (Fin D)) = Ok [pic] /\
  (forall q, shows pic q -> dist3 q c = D / 2) /\ shows pic (c + mk3 0 0 (D / 2))%r3 /\ shows pic (c - mk3 0 0 (D / 2))%r3.
Proof.
  intros c D HD. eexists. split; [reflexivity|].
  destruct (linspace_fin 0 (2 * PI) 50 ltac:(lia)) as (us & Eu & Lu & _ & Vu). destruct (linspace_fin 0 PI 50 ltac:(lia)) as (vs & Ev & Lv & _ & Vv).
  cbn [shows]. rewrite !nofZ_fin, nmul_fin, Eu, Ev, ndiv_fin by lra.
  assert (Iff : forall q, In (fv q) (flat_map (fun a => map (fun b => V (nadd (vx (fv c)) (nmul (Fin (D / 2)) (nmul (ncos a) (nsin b))))
     (nadd (vy (fv c)) (nmul (Fin (D / 2)) (nmul (nsin a) (nsin b)))) (nadd (vz (fv c)) (nmul (Fin (D / 2)) (nmul (Fin 1) (ncos b))))) (map Fin vs)) (map Fin us)) <->
     exists a b, In a us /\ In b vs /\ q = (c + mk3 (D / 2 * (cos a * sin b)) (D / 2 * (sin a * sin b)) (D / 2 * (1 * cos b)))%r3).
  { intros q. rewrite in_flat_map. split.
    - intros (a & Ia & Ib). apply in_map_iff in Ia. destruct Ia as (a' & <- & Ia). apply in_map_iff in Ib. destruct Ib as (b & Eb & Ib). apply in_map_iff in Ib. destruct Ib as (b' & <- & Ib).
      exists a', b'. split; [exact Ia|]. split; [exact Ib|]. symmetry. apply fv_inj. exact Eb.
    - intros (a & b & Ia & Ib & ->). exists (Fin a). split; [apply in_map; exact Ia|]. apply in_map_iff. exists (Fin b). split; [reflexivity|apply in_map; exact Ib]. }
  assert (N0 : forall l i lo hi, List.length l = 50%nat -> (forall i x, nth_error l i = Some x -> x = lo + INR i * (hi - lo) / INR (50 - 1)) -> (i < 50)%nat -> In (lo + INR i * (hi - lo) / INR (50 - 1)) l).
  { intros l i lo hi Hl Hi Li. destruct (nth_error l i) as [x|] eqn:En; [|apply nth_error_None in En; lia]. rewrite <- (Hi i x En). eapply nth_error_In. exact En. }
  assert (Z0 : In 0 us). { replace 0 with (0 + INR 0 * (2 * PI - 0) / INR (50 - 1)) at 1 by (cbn [INR]; unfold Rdiv; ring). apply N0; [exact Lu| |lia]. apply Vu. lia. }
  split; [|split].
  - intros q Hq. apply Iff in Hq. destruct Hq as (a & b & _ & _ & ->). unfold dist3. apply Rsqr_inj; [apply len_nonneg|lra|]. unfold Rsqr at 1. rewrite len_sq.
    pose proof (sin2_cos2 a) as S1. pose proof (sin2_cos2 b) as S2. unfold Rsqr in *. unfold r3dot, r3sub, r3add; cbn.
    set (ca := cos a) in *. set (sa := sin a) in *. set (cb := cos b) in *. set (sb := sin b) in *. clearbody ca sa cb sb.
    transitivity ((D / 2) * (D / 2) * ((sa * sa + ca * ca) * (sb * sb) + cb * cb)); [field|]. rewrite S1. rewrite Rmult_1_l, S2. ring.
  - apply Iff. exists 0, 0. split; [exact Z0|]. split.
    { replace 0 with (0 + INR 0 * (PI - 0) / INR (50 - 1)) at 1 by (cbn [INR]; unfold Rdiv; ring). apply N0; [exact Lv| |lia]. apply Vv. lia. }
    rewrite cos_0, sin_0. clear. destruct c. unfold r3add; cbn. f_equal; ring.
  - apply Iff. exists 0, PI. split; [exact Z0|]. split.
    { replace PI with (0 + INR 49 * (PI - 0) / INR (50 - 1)) at 1 by (change (50 - 1)%nat with 49%nat; field; apply not_0_INR; lia). apply N0; [exact Lv| |lia]. apply Vv. lia. }
    rewrite cos_0, sin_0, cos_PI, sin_PI. clear. destruct c. unfold r3add, r3sub; cbn. f_equal; ring.
Qed.
Print Assumptions C67_sphere.

(** C67, for every number type: the flat views.  Only circular flat mirrors can be drawn in the xy and xz views; every other mirror raises ValueError; other
    optics and other views draw nothing. *)
Theorem C67_views : forall T (N : Num T) (TT : Trig T) (pi : T) D w h o view, view <> "3d"%string -> view <> "xyz"%string ->
  draw_optic pi D w h o view = match o with
  | OMirror m =>
      let flat := String.eqb (mi_shape m) "circular_flat" in
      if in_dec String.string_dec view ["xy"; "tangential"]%string then if flat then Ok [PMark (vx (mi_position m)) (vy (mi_position m))] else Err ValueError
      else if in_dec String.string_dec view ["xz"; "sagittal"]%string then if flat then Ok [PMark (vx (mi_position m)) (vz (mi_position m))] else Err ValueError
      else Ok []
  | _ => Ok []
  end.
Proof.
  intros T N TT pi D w h o view H1 H2. apply String.eqb_neq in H1, H2.
  destruct o; cbn [draw_optic]; try reflexivity; unfold draw_mirror, draw_lens, draw_grating, draw_detector; rewrite ?H1, ?H2; cbn [orb]; try reflexivity.
  destruct (in_dec String.string_dec view ["xy"; "tangential"]%string) as [[<-|[<-|[]]]|A]; [destruct (String.eqb (mi_shape m) "circular_flat"); reflexivity..|].
  rewrite (proj2 (String.eqb_neq view "xy")), (proj2 (String.eqb_neq view "tangential")) by (intros ->; apply A; cbn; auto). cbn [orb].
  destruct (in_dec String.string_dec view ["xz"; "sagittal"]%string) as [[<-|[<-|[]]]|A2]; [destruct (String.eqb (mi_shape m) "circular_flat"); reflexivity..|].
  rewrite (proj2 (String.eqb_neq view "xz")), (proj2 (String.eqb_neq view "sagittal")) by (intros ->; apply A2; cbn; auto). reflexivity.
Qed.
Print Assumptions C67_views.
(** C67, for every number type: shapes without a picture in the 3-d view *)
Theorem C67_names : forall T (N : Num T) (TT : Trig T) (pi : T) D w h view, view = "3d"%string \/ view = "xyz"%string ->
  (forall m : mirror T, ~ In (mi_shape m) ["circular_flat"; "rectangular_flat"; "circular_concave_spherical"; "circular_convex_spherical"]%string -> draw_optic pi D w h (OMirror m) view = Err ValueError) /\
  (forall l : lens T, ~ In (le_shape l) ["spherical_biconvex"; "spherical"]%string -> draw_optic pi D w h (OLens l) view = Err ValueError) /\
  (forall g : grating T, gr_shape g <> "rectangular_flat"%string -> draw_optic pi D w h (OGrating g) view = Ok []) /\
  (forall d : detector T, de_shape d <> "rectangular_flat"%string -> draw_optic pi D w h (ODetector d) view = Ok []).
Proof.
  assert (Ne : forall (s x : string) l, ~ In s (x :: l) -> String.eqb s x = false /\ ~ In s l) by (intros s x l H; split; [apply String.eqb_neq; intros ->; apply H; now left|intros I; apply H; now right]).
  intros T N TT pi D w h view V. split; [|split; [|split]]; intros o H; cbn [draw_optic]; unfold draw_mirror, draw_lens, draw_grating, draw_detector.
  - apply Ne in H as [A H]. apply Ne in H as [B H]. apply Ne in H as [C H]. apply Ne in H as [E _]. rewrite A, B, C, E. destruct V as [-> | ->]; reflexivity.
  - apply Ne in H as [A H]. apply Ne in H as [B _]. rewrite A, B. destruct V as [-> | ->]; reflexivity.
  - apply String.eqb_neq in H. rewrite H. destruct V as [-> | ->]; reflexivity.
  - apply String.eqb_neq in H. rewrite H. destruct V as [-> | ->]; reflexivity.
Qed.
Print Assumptions C67_names.

Example C67_hyp : exists m d, mk_mirror (fv (at_z 5)) "circular_flat" (Some (fv (mk3 0 3 4))) (Some (Fin 2)) None None None None "normal" (Some (fv e_z)) = Ok m /\
  mk_detector (fv (at_z 5)) (Some (fv (mk3 0 3 4))) (Some (fv (mk3 2 0 0))) "rectangular_flat" (Some (Fin 3)) (Some (Fin 1)) = Ok d /\ orth (mk3 0 3 4) (mk3 2 0 0).
Proof.
  assert (Hn : mk3 0 3 4 <> r3zero) by (intros E; injection E; lra). assert (Ht : mk3 2 0 0 <> r3zero) by (intros E; injection E; lra).
  assert (Ho : orth (mk3 0 3 4) (mk3 2 0 0)) by (unfold orth, r3dot; cbn; ring). do 2 eexists. split; [|split; [|exact Ho]].
  - unfold mk_mirror. cbn [unit_vector_o bind]. change (String.eqb "circular_flat" "circular_flat") with true. cbn iota. unfold mk_circle. rewrite check_D_only. reflexivity.
  - unfold mk_detector. cbn [unit_vector_o bind]. change (String.eqb "rectangular_flat" "rectangular_flat") with true. cbn iota. rewrite mk_rectangle_fv by assumption.
    destruct (frame_of _ _ Hn Ht Ho) as (_ & _ & _ & O & _). rewrite O, Rabs_R0, Rleb_true, !Rltb_false by lra. reflexivity.
Qed.

(** the patch of an optic facing up the z axis is not turned *)
Lemma placed_z (c : R3) x y : pathpatch_vertex (fv ez3) (Fin 0) (fv c) (Fin x) (Fin y) = fv (c + (x * ex3 + y * ey3))%r3.
Proof.
  assert (E : rotation_matrix (fv ez3) (fv ez3) = eye3).
  { unfold rotation_matrix. cbv zeta. rewrite norm_fv, (len_unit ez3 ez3_unit). rewrite vdivs_fv by lra.
    replace ((/ 1) * ez3)%r3 with ez3 by (unfold ez3, r3scale; cbn; f_equal; field).
    rewrite dot_fv, cross_fv. replace (ez3 × ez3)%r3 with r3zero by (unfold ez3, r3zero; r3_ring). rewrite norm_fv.
    rewrite len_zero_r3.
    rewrite !nofZ_fin, neqb_fin, (Reqb_true 0 0 eq_refl), ngt_fin, Rltb_true; [reflexivity|]. rewrite ez3_unit. lra. }
  unfold pathpatch_vertex. cbv zeta. change (V (nofZ 0) (nofZ 0) (nofZ 1)) with (fv ez3). rewrite E.
  change (V (Fin x) (Fin y) (nofZ 0)) with (fv (mk3 x y 0)). change (V (nofZ 0) (nofZ 0) (Fin 0)) with (fv r3zero).
  assert (I : mv eye3 (fv (mk3 x y 0)) = fv (mk3 x y 0)).
  { unfold mv, eye3, dot, fv. cbn [vx vy vz cx cy cz row0 row1 row2]. rewrite !nofZ_fin, !nmul_fin, !nadd_fin. f_equal; f_equal; ring. }
  rewrite I, !vadd_fv. f_equal. unfold ex3, ey3, r3zero. clear. destruct c. unfold r3add, r3scale; cbn. f_equal; ring.
Qed.
Lemma placed_frame n c : n <> r3zero -> exists E1 E2, is_unit E1 /\ is_unit E2 /\ E1 ∙ E2 = 0 /\ E1 ∙ dirn n = 0 /\ E2 ∙ dirn n = 0 /\ (n = ez3 -> E1 = ex3 /\ E2 = ey3) /\
  forall x y, pathpatch_vertex (fv n) (Fin 0) (fv c) (Fin x) (Fin y) = fv (c + (x * E1 + y * E2))%r3.
Proof.
  intros Hn. destruct (placed n c Hn) as (E1 & E2 & U1 & U2 & O & O1 & O2 & P). exists E1, E2. do 5 (split; [assumption|]). split; [|exact P].
  intros ->. assert (A : forall x y, (x * E1 + y * E2)%r3 = (x * ex3 + y * ey3)%r3).
  { intros x y. specialize (P x y). rewrite placed_z in P. apply fv_inj in P. symmetry.
    transitivity ((c + (x * ex3 + y * ey3)) - c)%r3; [clear; r3_ring|]. rewrite P. clear. r3_ring. }
  split.
  - transitivity (1 * E1 + 0 * E2)%r3; [clear; r3_ring|]. rewrite A. clear. unfold ex3, ey3. r3_ring.
  - transitivity (0 * E1 + 1 * E2)%r3; [clear; r3_ring|]. rewrite A. clear. unfold ex3, ey3. r3_ring.
Qed.
(** C67: the pictures of rectangular flat mirrors and of gratings show a closed rectangle of width w and height h about the position in the plane of the optic.
    Its sides follow the normal only; for an optic facing up the z axis the width is along x and the height along y. *)
Theorem C67_rectangle : forall o c n w h, n <> r3zero -> 0 <= w -> 0 <= h ->
  (exists D f tg ty dmd m, mk_mirror (fv c) "rectangular_flat" (Some (fv n)) D (Some (Fin w)) (Some (Fin h)) f tg ty dmd = Ok m /\ o = OMirror m) \/
  (exists tg G g, mk_grating (fv c) (Some (fv n)) tg "rectangular_flat" (Some (Fin w)) (Some (Fin h)) G = Ok g /\ o = OGrating g) ->
  exists pic E1 E2, (forall view D, view = "3d"%string \/ view = "xyz"%string -> draw_optic (Fin PI) D (Some (Fin w)) (Some (Fin h)) o view = Ok [pic]) /\
    is_unit E1 /\ is_unit E2 /\ E1 ∙ E2 = 0 /\ E1 ∙ dirn n = 0 /\ E2 ∙ dirn n = 0 /\ (dirn n = ez3 -> E1 = ex3 /\ E2 = ey3) /\
    (forall q, shows pic q <-> on_plane c (dirn n) q /\ Rabs ((q - c)%r3 ∙ E1) <= w / 2 /\ Rabs ((q - c)%r3 ∙ E2) <= h / 2).
Proof.
  intros o c n w h Hn Hw Hh Ho. pose proof (dirn_unit n Hn) as Un.
  destruct (placed_frame (dirn n) c (unit_nonzero _ Un)) as (E1 & E2 & U1 & U2 & O & O1 & O2 & Z & P). rewrite (dirn_of_unit _ Un) in O1, O2.
  exists (PRect (Fin (- w / 2)) (Fin (- h / 2)) (Fin w) (Fin h) (fv (dirn n)) (fv c)), E1, E2. split.
  { assert (C : draw_rectangle (fv c) (Some (fv (dirn n))) (Some (Fin w)) (Some (Fin h)) = Ok [PRect (Fin (- w / 2)) (Fin (- h / 2)) (Fin w) (Fin h) (fv (dirn n)) (fv c)]).
    { unfold draw_rectangle. cbn [need bind]. rewrite nofZ_fin, !nopp_fin, !ndiv_fin by lra. reflexivity. }
    intros view D Hv. destruct Ho as [(D' & f & tg & ty & dmd & m & E & ->)|(tg & G & g & E & ->)].
    - unfold mk_mirror in E. apply bind_ok in E. destruct E as (dm & _ & E). change (String.eqb "rectangular_flat" "circular_flat") with false in E. change (String.eqb "rectangular_flat" "rectangular_flat") with true in E. cbn iota in E.
      cbn [unit_vector_o bind] in E. rewrite unit_vector_fv in E by exact Hn.
      repeat (apply bind_ok in E; destruct E as (? & _ & E)). apply ok_inj in E. subst m. destruct Hv as [-> | ->]; exact C.
    - unfold mk_grating in E. cbn [unit_vector_o bind] in E. rewrite unit_vector_fv in E by exact Hn. apply bind_ok in E. destruct E as (t & _ & E). change (String.eqb "rectangular_flat" "rectangular_flat") with true in E. cbn iota in E.
      apply bind_ok in E. destruct E as (q & _ & E). apply ok_inj in E. subst g. destruct Hv as [-> | ->]; exact C. }
  do 5 (split; [assumption|]). split; [exact Z|]. intros q. cbn [shows]. unfold on_plane. split.
  - intros (x & y & Hx & Hy & E). rewrite P in E. apply fv_inj in E. subst q. replace (c + (x * E1 + y * E2) - c)%r3 with (x * E1 + y * E2)%r3 by (clear; r3_ring).
    split; [apply comb_n; assumption|]. unfold is_unit in *. rewrite !dot_add_l, !dot_scale_l, U1, U2, O, (dot_comm E2 E1), O. split; apply Rabs_le; lra.
  - intros (Pl & Hx & Hy). pose proof (Rle_abs ((q - c)%r3 ∙ E1)) as B1. pose proof (Rle_abs (- ((q - c)%r3 ∙ E1))) as B2. pose proof (Rle_abs ((q - c)%r3 ∙ E2)) as B3. pose proof (Rle_abs (- ((q - c)%r3 ∙ E2))) as B4. rewrite Rabs_Ropp in B2, B4. exists ((q - c)%r3 ∙ E1), ((q - c)%r3 ∙ E2). split; [lra|]. split; [lra|].
    rewrite P. f_equal. assert (Ex := orthonormal_expand E1 E2 (dirn n) (q - c)%r3 U1 U2 Un O O2 ltac:(rewrite dot_comm; exact O1)). rewrite Pl in Ex.
    set (x := (q - c)%r3 ∙ E1) in *. set (y := (q - c)%r3 ∙ E2) in *. clearbody x y.
    transitivity (c + (q - c))%r3; [rewrite Ex; generalize (dirn n); clear; intros; r3_ring|clear; r3_ring].
Qed.
Print Assumptions C67_rectangle.
(** C67: a concave mirror is drawn as the flat disc of its aperture in the plane through its vertex, a convex mirror and a ball lens as the mesh of C67_sphere. *)
Theorem C67_curved : forall c D view w h, 0 <= D -> view = "3d"%string \/ view = "xyz"%string ->
  (forall n w' h' f tg ty dmd m, n <> r3zero -> mk_mirror (fv c) "circular_concave_spherical" (Some (fv n)) (Some (Fin D)) w' h' f tg ty dmd = Ok m ->
     exists pic, draw_optic (Fin PI) (Some (Fin D)) w h (OMirror m) view = Ok [pic] /\ forall q, shows pic q <-> on_plane c (dirn n) q /\ dist3 q c <= D / 2) /\
  (forall n w' h' f tg ty dmd m, mk_mirror (fv c) "circular_convex_spherical" n (Some (Fin D)) w' h' f tg ty dmd = Ok m ->
     exists pic, draw_optic (Fin PI) (Some (Fin D)) w h (OMirror m) view = Ok [pic] /\ (forall q, shows pic q -> dist3 q c = D / 2) /\ shows pic (c + mk3 0 0 (D / 2))%r3 /\ shows pic (c - mk3 0 0 (D / 2))%r3) /\
  (forall n f ty ix l, mk_lens (fv c) n "spherical" (Some (Fin D)) f ty ix = Ok l ->
     exists pic, draw_optic (Fin PI) (Some (Fin D)) w h (OLens l) view = Ok [pic] /\ (forall q, shows pic q -> dist3 q c = D / 2) /\ shows pic (c + mk3 0 0 (D / 2))%r3 /\ shows pic (c - mk3 0 0 (D / 2))%r3).
Proof.
  intros c D view w h HD Hv. destruct (C67_sphere c D HD) as (pic & Ep & Sp). split; [|split].
  - intros n w' h' f tg ty dmd m Hn E. exists (PDisc (Fin (D / 2)) (fv (dirn n)) (fv c)). split.
    + assert (C : draw_circle (fv c) (Some (fv (dirn n))) (Some (Fin D)) = Ok [PDisc (Fin (D / 2)) (fv (dirn n)) (fv c)]).
      { unfold draw_circle. cbn [need bind]. rewrite nofZ_fin, ndiv_fin by lra. reflexivity. }
      unfold mk_mirror in E. apply bind_ok in E. destruct E as (dm & _ & E). change (String.eqb "circular_concave_spherical" "circular_flat") with false in E.
      change (String.eqb "circular_concave_spherical" "rectangular_flat") with false in E. change (String.eqb "circular_concave_spherical" "circular_concave_spherical") with true in E. cbn iota in E.
      cbn [unit_vector_o bind] in E. rewrite unit_vector_fv in E by exact Hn. repeat (apply bind_ok in E; destruct E as (? & _ & E)). apply ok_inj in E. subst m. destruct Hv as [-> | ->]; exact C.
    + intros q. pose proof (disc_shows (dirn n) c (D / 2) q (unit_nonzero _ (dirn_unit n Hn)) ltac:(lra)) as S. rewrite (dirn_of_unit (dirn n) (dirn_unit n Hn)) in S. exact S.
  - intros n w' h' f tg ty dmd m E. exists pic. split; [|exact Sp].
    unfold mk_mirror in E. apply bind_ok in E. destruct E as (dm & _ & E). change (String.eqb "circular_convex_spherical" "circular_flat") with false in E.
    change (String.eqb "circular_convex_spherical" "rectangular_flat") with false in E. change (String.eqb "circular_convex_spherical" "circular_concave_spherical") with false in E.
    change (String.eqb "circular_convex_spherical" "circular_convex_spherical") with true in E. cbn iota in E.
    repeat (apply bind_ok in E; destruct E as (? & _ & E)). apply ok_inj in E. subst m. destruct Hv as [-> | ->]; exact Ep.
  - intros n f ty ix l E. exists pic. split; [|exact Sp].
    unfold mk_lens in E. change (String.eqb "spherical" "spherical_biconvex") with false in E. change (String.eqb "spherical" "spherical") with true in E. cbn iota in E.
    repeat (apply bind_ok in E; destruct E as (? & _ & E)). apply ok_inj in E. subst l. destruct Hv as [-> | ->]; exact Ep.
Qed.
Print Assumptions C67_curved.
