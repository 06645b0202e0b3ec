(** C104: what faerie fire shows of a compound (optics3d.py:79-130, 822-873, 952-967, general_optics.py:345-624; the pictures of script_testCompoundIntersect.py, script_testCompoundDifference.py,
    script_testSingletLens.py, script_testBestformLens.py, script_testCylinder.py, which plot ray_history[1:] of every faerie-fire ray). *)
From Coq Require Import Reals ZArith Lra Lia Psatz List String Bool.
From Verif Require Import PyErr Num Vec Shapes Csg Optics General ScriptScenes Spec XReal RVec VecProofs FlatProofs SphereProofs CylProofs ShapeExtra TreeProofs SolidProofs CsgProofs CsgStart CsgExact
  RayProofs SceneProofs OrderProofs OpticHits FloatVec RunXr RunGen Continue Props_General Props_Compound Props_Touch Props_Single Props_UnionDiff.
Import ListNotations.
Local Open Scope R_scope.

(** ** Specification *)
(** looking from c in direction u, the solid ends at the distance a, and in the opposite direction at b *)
Definition chord (s : solid) (c u : R3) (a b : R) : Prop :=
  0 < a /\ 0 < b /\ (forall v, surface s (at_t c u v) <-> v = a \/ v = - b) /\ (forall v, member s (at_t c u v) <-> - b < v < a).
(** not along the axis of a cylinder *)
Definition skew (s : solid) (u : R3) : Prop := match s with Ball _ _ => True | Cyl _ w _ => ~ parallel (dirn w) u end.
(** a fresh faerie-fire ray at the distance rad from c in direction u, aimed at c *)
Definition aimed (r : ray xr) (c u : R3) (rad : R) : Prop :=
  ray_is r (at_t c u rad) (- u)%r3 /\ ray_type r = "faerie_fire"%string /\ blocked r = false /\ point_history r = [position r].
(** what is plotted of a ray after its run: one dot at q; [hit] tells whether the ray was stopped there *)
Definition dot_at (o : optic xr) (r : ray xr) (m : R) (q : R3) (hit : bool) : Prop :=
  exists r', (forall fuel, (0 < fuel)%nat -> run fuel r (Fin m) [o] None = Ok (r', [o])) /\ tl (point_history r') = [fv q] /\ blocked r' = hit.

(** ** Proofs *)
Lemma at_back c u rad t : at_t (at_t c u rad) (- u)%r3 t = at_t c u (rad - t).
Proof. unfold at_t. r3_ring. Qed.

Lemma chord_ex s c u : proper s -> is_unit u -> skew s u -> member s c -> exists a b, chord s c u a b.
Proof.
  intros P Uu K M. assert (A0 : 0 <= across s u ∙ across s u) by (rewrite <- len_sq; apply Rle_0_sqr).
  assert (PA : 0 < across s u ∙ across s u).
  { destruct A0 as [A0|A0]; [exact A0|]. exfalso. assert (Z : across s u = r3zero). { apply len_zero. assert (K' : len (across s u) * len (across s u) = 0) by (rewrite len_sq; lra). apply Rmult_integral in K'. destruct K'; assumption. }
    destruct s; cbn [across] in Z; [subst u; unfold is_unit, r3dot, r3zero in Uu; cbn in Uu; lra|]. exact (K Z). }
  apply member_sq in M; [|exact P]. pose proof (fun v => surface_sq s (at_t c u v) P) as S. pose proof (fun v => member_sq s (at_t c u v) P) as Mm.
  pose proof (fun v => along_sq s c u v P) as Al. set (A := across s u ∙ across s u) in *. set (B := u ∙ across s (c - centre s)) in *. set (C := across s (c - centre s) ∙ across s (c - centre s)) in *. set (R2 := radius s * radius s) in *. clearbody A B C R2.
  pose proof (sqrt_pos (B * B + A * (R2 - C))) as Q0. assert (D0 : 0 < B * B + A * (R2 - C)) by nra. pose proof (sqrt_sqrt (B * B + A * (R2 - C)) ltac:(lra)) as Q. set (w := sqrt (B * B + A * (R2 - C))) in *. clearbody w.
  assert (Wp : Rabs B < w). { apply Rsqr_lt_abs_0 || idtac. destruct (Rlt_or_le (Rabs B) w) as [L|L]; [exact L|]. exfalso. assert (w * w <= Rabs B * Rabs B) by nra. rewrite <- Rabs_mult, Rabs_right in H by nra. nra. }
  apply Rabs_def2 in Wp. exists ((w - B) / A), ((w + B) / A).
  assert (Fc : forall v, C + 2 * v * B + v * v * A - R2 = A * ((v - (w - B) / A) * (v - - ((w + B) / A)))).
  { intros v. replace (A * ((v - (w - B) / A) * (v - - ((w + B) / A)))) with (v * v * A + 2 * v * B - (w * w - B * B) / A) by (field; lra). rewrite Q. field. lra. }
  assert (a0 : 0 < (w - B) / A) by (apply Rdiv_lt_0_compat; lra). assert (b0 : 0 < (w + B) / A) by (apply Rdiv_lt_0_compat; lra).
  set (a := (w - B) / A) in *. set (b := (w + B) / A) in *. clearbody a b. split; [exact a0|]. split; [exact b0|]. split; intros v.
  - rewrite S, Al. specialize (Fc v). split; intros H.
    + assert (Z : A * ((v - a) * (v - - b)) = 0) by lra. apply Rmult_integral in Z. destruct Z as [Z|Z]; [lra|]. apply Rmult_integral in Z. lra.
    + assert (Z : A * ((v - a) * (v - - b)) = 0) by (destruct H as [-> | ->]; ring). lra.
  - rewrite Mm, Al. specialize (Fc v). split; intros H.
    + assert (Z : A * ((v - a) * (v - - b)) < 0) by lra. assert (Z2 : (v - a) * (v - - b) < 0) by nra. split; nra.
    + assert (Z2 : (v - a) * (v - - b) < 0) by nra. nra.
Qed.

(** seen from the start of an aimed ray *)
Lemma chord_back s c u a b rad : chord s c u a b -> crosses s (at_t c u rad) (- u)%r3 (rad - a) (rad + b).
Proof.
  intros (Pa & Pb & S & _). split; [lra|]. intros t. rewrite at_back, S. split; intros [H|H]; [left|right|left|right]; lra.
Qed.
Lemma chord_query s t c u a b rad r : tree_of (Leaf s) t -> proper s -> is_unit u -> chord s c u a b -> ray_is r (at_t c u rad) (- u)%r3 -> 1e-12 < rad ->
  exists h, test_tree_intersect t r = Ok (I6 h) /\
   ((1e-12 < rad - a /\ two (at_t c u rad) (- u)%r3 s (rad - a) (rad + b) h) \/ (rad - a <= 1e-12 /\ one (at_t c u rad) (- u)%r3 s (rad + b) h)).
Proof.
  intros HT P Uu Ch Hr L. pose proof (chord_back s c u a b rad Ch) as Cr. assert (Ud : is_unit (- u)%r3) by (apply unit_opp; exact Uu).
  pose proof (crosses_regular s _ _ _ _ P Ud Cr) as Rg. destruct (leaf_query s t _ _ r HT Ud Hr Rg) as (h & E & LR). exists h. split; [exact E|].
  destruct Cr as [Lt On]. destruct Ch as (Pa & Pb & _). destruct LR as [s0 s1 L01 Hs _ Res|Hs0 _ _]; [|exfalso; apply (Hs0 (rad - a)), On; auto].
  assert (E01 : s0 = rad - a /\ s1 = rad + b). { pose proof (proj1 (On s0) (proj2 (Hs s0) (or_introl eq_refl))). pose proof (proj1 (On s1) (proj2 (Hs s1) (or_intror eq_refl))). lra. }
  destruct E01 as [-> ->]. destruct Res as [Res|[(X & _ & Res)|[X _]]]; [left; exact Res|right; split; [lra|exact Res]|lra].
Qed.

(** the run of a faerie-fire ray past one compound *)
Lemma fire (c0 : compound xr) (r : ray xr) c u rad m h : is_unit u -> aimed r c u rad -> 0 < m -> test_tree_intersect (co_tree c0) r = Ok (I6 h) ->
  (forall x, h6_flag h = true -> h6_p1 h = Some (fv (at_t c u (rad - x))) -> 1e-12 < x <= m -> dot_at (OCompound c0) r m (at_t c u (rad - x)) true) /\
  (h6_flag h = false -> dot_at (OCompound c0) r m (at_t c u (rad - m)) false).
Proof.
  intros Uu (Hr & Ty & Bl & Hh) Hm E. destruct Hr as [Hp Hd]. assert (Ud : is_unit (- u)%r3) by (apply unit_opp; exact Uu).
  assert (T0 : compound_test_intersect c0 r = Ok (H4 (h6_flag h) (h6_p1 h) (h6_n1 h) (SfoBool (evenb (h6_count h))))) by (unfold compound_test_intersect; rewrite E; reflexivity).
  assert (Fly : forall x, point_history (fly r (Fin x)) = [position r; fv (at_t c u (rad - x))] /\ position (fly r (Fin x)) = fv (at_t c u (rad - x))).
  { intros x. destruct (fly_ray r _ _ x (conj Hp Hd)) as [P _]. rewrite at_back in P. split; [|exact P]. rewrite (fly_history r (at_t c u rad) (- u)%r3 x (conj Hp Hd)), Hh, at_back. reflexivity. }
  assert (C0 : run_cond None (run_init r (Fin m) [OCompound c0]) = true) by (unfold run_cond; cbn [run_init rs_remaining rs_count rs_ray]; rewrite nofZ_fin, ngt_fin, Rltb_true, Bl by exact Hm; reflexivity).
  split.
  - intros x F P1 [L1 L2]. exists (set_blocked (fly r (Fin x))). split; [|split; [cbn [set_blocked point_history]; change (point_history (set_blocked (fly r (Fin x)))) with (point_history (fly r (Fin x))); rewrite (proj1 (Fly x)); reflexivity|reflexivity]].
    intros fuel Lf. destruct fuel as [|k]; [lia|]. unfold run. cbn [run_loop]. rewrite C0. unfold run_body. cbn [run_init rs_ray rs_world rs_remaining rs_count rs_sel rs_sfo scan]. unfold scan_step. cbn [skipped optic_test_intersect]. rewrite T0. cbn [bind h4_flag h4_pt h4_normal h4_sfo]. rewrite F, P1. cbn [need bind].
    assert (Ds : distance_between (position r) (fv (at_t c u (rad - x))) = Fin x).
    { rewrite Hp, distance_fv. rewrite <- at_back, dist_back by exact Ud. f_equal. apply Rabs_right. lra. }
    rewrite Ds, clip_fin, !ngt_fin, (Rltb_false m x), (Rltb_true 1e-12 x) by lra. change (nlt (Fin x) (sc_min (mkScan false ninf None None))) with true. cbn [bind sc_hit negb sc_sel bound se_pt se_idx sc_sfo]. rewrite Ds, Ty. cbn [String.eqb Ascii.eqb Bool.eqb bind].
    destruct k; cbn [run_loop]; unfold run_cond; cbn [rs_ray set_blocked blocked rs_remaining rs_count]; rewrite ?andb_false_r; reflexivity.
  - intros F. exists (fly r (Fin m)). split; [|split; [rewrite (proj1 (Fly m)); reflexivity|exact Bl]].
    intros fuel Lf. destruct fuel as [|k]; [lia|]. unfold run. cbn [run_loop]. rewrite C0. unfold run_body. cbn [run_init rs_ray rs_world rs_remaining rs_count rs_sel rs_sfo scan]. unfold scan_step. cbn [skipped optic_test_intersect]. rewrite T0. cbn [bind h4_flag h4_pt h4_normal h4_sfo]. rewrite F. cbn [bind sc_hit negb sc_sel sc_sfo rs_world].
    destruct k; cbn [run_loop]; unfold run_cond; cbn [rs_ray rs_remaining rs_count]; rewrite nsub_fin, nofZ_fin, ngt_fin, Rltb_false by lra; reflexivity.
Qed.

(** What an intersection shows: with c inside both solids and the start outside the intersection, one dot where the intersection ends in the direction of the start; but where both solids end at the same
    point - on the edge - the ray passes, and the dot is where its flight ends. *)
Theorem C104_intersect : forall s1 s2 t bh ix c u rad m a1 b1 a2 b2 (r : ray xr),
  tree_of (Bin OpIntersect (Leaf s1) (Leaf s2)) t -> proper s1 -> proper s2 -> is_unit u -> chord s1 c u a1 b1 -> chord s2 c u a2 b2 ->
  aimed r c u rad -> let x := Rmin a1 a2 in x + 1e-12 < rad <= m ->
  let o := OCompound (mkCompound t bh ix) in
  (forall v, 0 <= v -> (member s1 (at_t c u v) /\ member s2 (at_t c u v) <-> v < x)) /\
  (a1 <> a2 -> dot_at o r m (at_t c u x) true) /\
  (a1 = a2 -> dot_at o r m (at_t c u (rad - m)) false).
Proof.
  intros s1 s2 t bh ix c u rad m a1 b1 a2 b2 r HT P1 P2 Uu Ch1 Ch2 Am x [Lx Lm] o. assert (Ud : is_unit (- u)%r3) by (apply unit_opp; exact Uu). pose proof Am as (Hr & _).
  pose proof Ch1 as (Pa1 & Pb1 & S1 & M1). pose proof Ch2 as (Pa2 & Pb2 & S2 & M2). assert (Px : 0 < x) by (unfold x; apply Rmin_glb_lt; assumption).
  split; [intros v Hv; rewrite M1, M2; unfold x, Rmin; destruct (Rle_dec a1 a2); lra|].
  inversion HT as [| |o' a' b' ta tb Ha Hb]; subst; clear HT.
  destruct (chord_query s1 ta c u a1 b1 rad r Ha P1 Uu Ch1 Hr ltac:(lra)) as (hA & EA & QA). destruct (chord_query s2 tb c u a2 b2 rad r Hb P2 Uu Ch2 Hr ltac:(lra)) as (hB & EB & QB).
  assert (Ev : exists h, test_tree_intersect (Node (KStr (op_name OpIntersect)) ta tb) r = Ok (I6 h) /\ (a1 <> a2 -> h6_flag h = true /\ h6_p1 h = Some (fv (at_t c u (rad - (rad - x))))) /\ (a1 = a2 -> h6_flag h = false)).
  { cbn [test_tree_intersect]. rewrite EA, EB. cbn [bind index6]. cbn [csg_oper op_name].
    change (if ("intersect" =? "union")%string then _ else _) with (Ok (@operCsgIntersect xr _)). cbn [bind]. unfold operCsgIntersect.
    destruct QA as [[La TA]|[La TA]], QB as [[Lb TB]|[Lb TB]].
    - destruct (helper_two s1 (at_t c u rad) (- u)%r3 r (rad - a1) (rad + b1) hA Ud Hr ltac:(lra) TA) as (A1 & A2 & A3 & A4). destruct (helper_two s2 (at_t c u rad) (- u)%r3 r (rad - a2) (rad + b2) hB Ud Hr ltac:(lra) TB) as (B1 & B2 & B3 & B4).
      rewrite A1, A2, A3, B1, B2, B3. cbn [andb bind olt need evenb Z.even]. rewrite !nlt_fin, !at_back.
      destruct (Rtotal_order a1 a2) as [L|[L|L]].
      + rewrite (Rltb_false (rad - a1) (rad - a2)), (Rltb_true (rad - a2) (rad - a1)), (Rltb_true (rad - a1) (rad + b2)) by lra. cbn [bind]. eexists. split; [reflexivity|]. split; [|intros; exfalso; lra]. intros _. split; [reflexivity|]. cbn [h6_p1]. do 3 f_equal. unfold x, Rmin. destruct (Rle_dec a1 a2); lra.
      + subst a2. rewrite (Rltb_false (rad - a1) (rad - a1)) by lra. cbn [bind]. eexists. split; [reflexivity|]. split; [intros; exfalso; lra|reflexivity].
      + rewrite (Rltb_true (rad - a1) (rad - a2)), (Rltb_true (rad - a2) (rad + b1)) by lra. cbn [bind]. eexists. split; [reflexivity|]. split; [|intros; exfalso; lra]. intros _. split; [reflexivity|]. cbn [h6_p1]. do 3 f_equal. unfold x, Rmin. destruct (Rle_dec a1 a2); lra.
    - destruct (helper_two s1 (at_t c u rad) (- u)%r3 r (rad - a1) (rad + b1) hA Ud Hr ltac:(lra) TA) as (A1 & A2 & A3 & A4). destruct (helper_one s2 (at_t c u rad) (- u)%r3 r (rad + b2) hB nearest Ud Hr ltac:(lra) TB) as (B1 & B3 & B4). destruct (helper_one s2 (at_t c u rad) (- u)%r3 r (rad + b2) hB farthest Ud Hr ltac:(lra) TB) as (B2 & _ & _).
      rewrite A1, A2, A3, B1, B2, B3. cbn [andb bind olt need evenb Z.even]. rewrite !nlt_fin, !at_back. rewrite (Rltb_false (rad + b2) (rad - a1)) by lra. cbn [bind]. eexists. split; [reflexivity|]. split; [|intros; exfalso; lra]. intros _. split; [reflexivity|]. cbn [h6_p1]. do 3 f_equal. unfold x, Rmin. destruct (Rle_dec a1 a2); lra.
    - destruct (helper_two s2 (at_t c u rad) (- u)%r3 r (rad - a2) (rad + b2) hB Ud Hr ltac:(lra) TB) as (B1 & B2 & B3 & B4). destruct (helper_one s1 (at_t c u rad) (- u)%r3 r (rad + b1) hA nearest Ud Hr ltac:(lra) TA) as (A1 & A3 & A4). destruct (helper_one s1 (at_t c u rad) (- u)%r3 r (rad + b1) hA farthest Ud Hr ltac:(lra) TA) as (A2 & _ & _).
      rewrite A1, A2, A3, B1, B2, B3. cbn [andb bind olt need evenb Z.even]. rewrite !nlt_fin, !at_back. rewrite (Rltb_false (rad + b1) (rad - a2)) by lra. cbn [bind]. eexists. split; [reflexivity|]. split; [|intros; exfalso; lra]. intros _. split; [reflexivity|]. cbn [h6_p1]. do 3 f_equal. unfold x, Rmin. destruct (Rle_dec a1 a2); lra.
    - exfalso. revert Lx. unfold x, Rmin. destruct (Rle_dec a1 a2); lra. }
  destruct Ev as (h & E & Hit & Miss). destruct (fire (mkCompound (Node (KStr (op_name OpIntersect)) ta tb) bh ix) r c u rad m h Uu Am ltac:(lra) E) as [H M].
  split; intros N; [|apply M, Miss, N]. destruct (Hit N) as [F Q]. specialize (H _ F Q ltac:(lra)). replace (rad - (rad - x)) with x in H by ring. exact H.
Qed.
Print Assumptions C104_intersect.

(** What a difference A minus B shows, with c inside both and the start outside both: if A reaches beyond B in the direction of the start, the dot is where A ends there; if not, but A reaches beyond B on the
    other side, the dot is where B ends there, the back wall seen through the hole; if neither, no point of the line is in A minus B and the ray passes. This is right in every case. *)
Theorem C104_difference : forall s1 s2 t bh ix c u rad m a1 b1 a2 b2 (r : ray xr),
  tree_of (Bin OpDifference (Leaf s1) (Leaf s2)) t -> proper s1 -> proper s2 -> is_unit u -> chord s1 c u a1 b1 -> chord s2 c u a2 b2 ->
  aimed r c u rad -> Rmax a1 a2 + 1e-12 < rad -> rad + b2 <= m ->
  let o := OCompound (mkCompound t bh ix) in let in_diff v := member s1 (at_t c u v) /\ ~ member s2 (at_t c u v) in
  (a2 < a1 -> (forall v, a1 <= v -> ~ in_diff v) /\ (forall v, a2 <= v < a1 -> in_diff v) /\ dot_at o r m (at_t c u a1) true) /\
  (a1 <= a2 -> b2 < b1 -> (forall v, - b2 < v -> ~ in_diff v) /\ (forall v, - b1 < v <= - b2 -> in_diff v) /\ dot_at o r m (at_t c u (- b2)) true) /\
  (a1 <= a2 -> b1 <= b2 -> (forall v, ~ in_diff v) /\ dot_at o r m (at_t c u (rad - m)) false).
Proof.
  intros s1 s2 t bh ix c u rad m a1 b1 a2 b2 r HT P1 P2 Uu Ch1 Ch2 Am Lx Lm o D. assert (Ud : is_unit (- u)%r3) by (apply unit_opp; exact Uu). pose proof Am as (Hr & _).
  pose proof Ch1 as (Pa1 & Pb1 & S1 & M1). pose proof Ch2 as (Pa2 & Pb2 & S2 & M2). pose proof (Rmax_l a1 a2). pose proof (Rmax_r a1 a2).
  inversion HT as [| |o' a' b' ta tb Ha Hb]; subst; clear HT.
  destruct (chord_query s1 ta c u a1 b1 rad r Ha P1 Uu Ch1 Hr ltac:(lra)) as (hA & EA & QA). destruct (chord_query s2 tb c u a2 b2 rad r Hb P2 Uu Ch2 Hr ltac:(lra)) as (hB & EB & QB).
  destruct QA as [[La TA]|[La _]]; [|lra]. destruct QB as [[Lb TB]|[Lb _]]; [|lra].
  assert (Ev : exists h, test_tree_intersect (Node (KStr (op_name OpDifference)) ta tb) r = Ok (I6 h) /\ (a2 < a1 -> h6_flag h = true /\ h6_p1 h = Some (fv (at_t c u (rad - (rad - a1))))) /\
     (a1 <= a2 -> b2 < b1 -> h6_flag h = true /\ h6_p1 h = Some (fv (at_t c u (rad - (rad + b2))))) /\ (a1 <= a2 -> b1 <= b2 -> h6_flag h = false)).
  { cbn [test_tree_intersect]. rewrite EA, EB. cbn [bind index6]. cbn [csg_oper op_name].
    change (if ("difference" =? "union")%string then _ else _) with (Ok (@operCsgDifference xr _)). cbn [bind]. unfold operCsgDifference.
    destruct (helper_two s1 (at_t c u rad) (- u)%r3 r (rad - a1) (rad + b1) hA Ud Hr ltac:(lra) TA) as (A1 & A2 & A3 & A4). destruct (helper_two s2 (at_t c u rad) (- u)%r3 r (rad - a2) (rad + b2) hB Ud Hr ltac:(lra) TB) as (B1 & B2 & B3 & B4).
    rewrite A1, A2, A3, B1, B2, B3. cbn [andb bind olt need]. rewrite !nlt_fin, !at_back.
    destruct (Rlt_or_le a2 a1) as [L|L].
    - rewrite (Rltb_true (rad - a1) (rad - a2)) by lra. cbn [bind]. eexists. split; [reflexivity|]. split; [intros _; split; reflexivity|]. split; intros; exfalso; lra.
    - rewrite (Rltb_false (rad - a1) (rad - a2)) by lra. cbn [bind]. destruct (Rlt_or_le b2 b1) as [L'|L'].
      + rewrite (Rltb_true (rad + b2) (rad + b1)) by lra. cbn [bind]. eexists. split; [reflexivity|]. split; [intros; exfalso; lra|]. split; [intros _ _; split; reflexivity|intros; exfalso; lra].
      + rewrite (Rltb_false (rad + b2) (rad + b1)) by lra. cbn [bind]. eexists. split; [reflexivity|]. split; [intros; exfalso; lra|]. split; [intros; exfalso; lra|reflexivity]. }
  destruct Ev as (h & E & Near & Far & Miss). destruct (fire (mkCompound (Node (KStr (op_name OpDifference)) ta tb) bh ix) r c u rad m h Uu Am ltac:(lra) E) as [H1 M]. unfold D.
  split; [|split].
  - intros L. split; [intros v Hv; rewrite M1; lra|]. split; [intros v Hv; rewrite M1, M2; lra|]. destruct (Near L) as [F Q]. specialize (H1 _ F Q ltac:(lra)). replace (rad - (rad - a1)) with a1 in H1 by ring. exact H1.
  - intros L L'. split; [intros v Hv; rewrite M1, M2; lra|]. split; [intros v Hv; rewrite M1, M2; lra|]. destruct (Far L L') as [F Q]. specialize (H1 _ F Q ltac:(lra)). replace (rad - (rad + b2)) with (- b2) in H1 by ring. exact H1.
  - intros L L'. split; [intros v; rewrite M1, M2; lra|]. exact (M (Miss L L')).
Qed.
Print Assumptions C104_difference.

(** A union of any solids shows, with c inside a member, none touched by the line and all within the distance of the start, the point where the union ends in the direction of the start. *)
Theorem C104_union : forall op a b t bh ix c u rad m (r : ray xr), let e := Bin op a b in tree_of e t -> only OpUnion e -> is_unit u -> aimed r c u rad -> 0 < rad <= m ->
  (forall s, In s (solids e) -> proper s /\ regular s (at_t c u rad) (- u)%r3 /\ forall v, rad - 1e-12 <= v -> ~ surface s (at_t c u v) /\ ~ member s (at_t c u v)) ->
  (exists s, In s (solids e) /\ member s c) ->
  exists x s, In s (solids e) /\ 0 < x < rad /\ surface s (at_t c u x) /\ (forall s' v, In s' (solids e) -> x < v -> ~ member s' (at_t c u v)) /\
    dot_at (OCompound (mkCompound t bh ix)) r m (at_t c u x) true.
Proof.
  intros op a b t bh ix c u rad m r e HT HO Uu Am [Pr Lm] K (s0 & I0 & M0). assert (Ud : is_unit (- u)%r3) by (apply unit_opp; exact Uu). pose proof Am as (Hr & _).
  assert (Sk : forall s, In s (solids e) -> proper s /\ skew s u).
  { intros s Is. destruct (K s Is) as (P & Rg & _). split; [exact P|]. destruct s as [|c' w rd]; [exact I|]. destruct Rg as (_ & NP & _). intros Pa. apply NP. unfold parallel in *. replace (perp (dirn w) (- u)%r3) with (- perp (dirn w) u)%r3 by (unfold perp; generalize (dirn w); intros; r3_ring). rewrite Pa. r3_ring. }
  destruct (C94_nearest op a b t _ _ r HT HO Ud Hr) as (h & E & Q).
  { intros s Is. destruct (K s Is) as (_ & Rg & Far). split; [exact Rg|]. intros v Sv. right. rewrite at_back in Sv. destruct (Rlt_or_le (rad - v) (rad - 1e-12)) as [L|L]; [rewrite Rabs_right; lra|]. destruct (Far _ L) as [X _]. destruct (X Sv). }
  fold e in Q. destruct (Sk s0 I0) as [Pr0 Sk0]. destruct (chord_ex s0 c u Pr0 Uu Sk0 M0) as (a0 & b0 & Pa0 & Pb0 & S0 & Mm0).
  assert (La0 : a0 < rad - 1e-12). { destruct (Rlt_or_le a0 (rad - 1e-12)) as [L|L]; [exact L|]. exfalso. destruct (K s0 I0) as (_ & _ & Far). apply (proj1 (Far a0 L)), S0. auto. }
  destruct (fire (mkCompound t bh ix) r c u rad m h Uu Am ltac:(lra) E) as [H1 _].
  destruct Q as [(F & y & s & Is & Ly & Sf & Bf & P1 & _)|(_ & N)].
  - rewrite at_back in P1, Sf. exists (rad - y), s. split; [exact Is|].
    assert (Hy : y <= rad - a0). { destruct (Rle_or_lt y (rad - a0)) as [L'|L']; [exact L'|]. exfalso. apply (Bf s0 (rad - a0) I0); [lra|]. rewrite at_back. apply S0. left. lra. }
    split; [lra|]. split; [exact Sf|]. split; [|apply H1; [exact F|exact P1|lra]].
    intros s' v Is' Hv Mv. destruct (K s' Is') as (_ & _ & Far). destruct (Rlt_or_le v (rad - 1e-12)) as [L|L]; [|destruct (Far v L) as [_ X]; exact (X Mv)].
    destruct (Sk s' Is') as [Pr' Sk']. destruct (chord_ex s' (at_t c u v) u Pr' Uu Sk' Mv) as (a' & b' & Pa' & _ & S' & _). pose proof (proj2 (S' a') (or_introl eq_refl)) as Q. rewrite at_on in Q.
    destruct (Rlt_or_le (v + a') (rad - 1e-12)) as [L2|L2]; [|destruct (Far _ L2) as [X _]; exact (X Q)]. apply (Bf s' (rad - (v + a')) Is'); [lra|]. rewrite at_back. replace (rad - (rad - (v + a'))) with (v + a') by ring. exact Q.
  - exfalso. apply (N s0 (rad + b0) I0); [lra|]. rewrite at_back. apply S0. right. lra.
Qed.
Print Assumptions C104_union.

(** Every faerie-fire ray that add_faerie_fire_rays appends is aimed at the centre it is given, whatever the random numbers. *)
Theorem C104_aimed : forall fuel draw old rad c n l, add_faerie_fire_rays fuel (fun i => Fin (draw i)) old (Fin rad) (fv c) n = Ok l ->
  exists new, l = old ++ new /\ List.length new = Z.to_nat n /\ forall r, In r new -> exists u, is_unit u /\ aimed r c u rad.
Proof.
  intros fuel draw old rad c n l H. destruct (C51_faerie fuel draw old rad c n l H) as (new & E & L & A). exists new. split; [exact E|]. split; [exact L|].
  intros r Ir. destruct (A r Ir) as (p & u & Hp & Hd & Uu & Ep & _ & Ty & _ & Hh & Bl). exists (- u)%r3. split; [apply unit_opp; exact Uu|]. split; [|auto]. split; [rewrite Hp, Ep; f_equal; unfold at_t; r3_ring|rewrite Hd; f_equal; r3_ring].
Qed.
Print Assumptions C104_aimed.

(** The picture of a lens made of two balls around c, as the scripts build it: a point is shown by some ray exactly if it is on one sphere and inside the other ball. *)
Theorem C104_picture : forall c1 r1 c2 r2 t bh ix c rad m q, let s1 := Ball c1 r1 in let s2 := Ball c2 r2 in
  tree_of (Bin OpIntersect (Leaf s1) (Leaf s2)) t -> 0 < r1 -> 0 < r2 -> member s1 c -> member s2 c -> Rmin (dist3 c c1 + r1) (dist3 c c2 + r2) + 1e-12 < rad <= m ->
  ((exists u (r : ray xr), is_unit u /\ aimed r c u rad /\ dot_at (OCompound (mkCompound t bh ix)) r m q true) <->
   (surface s1 q /\ member s2 q) \/ (member s1 q /\ surface s2 q)).
Proof.
  intros c1 r1 c2 r2 t bh ix c rad m q s1 s2 HT H1 H2 M1 M2 [Lr Lm].
  assert (P1 : proper s1) by (split; [exact H1|exact I]). assert (P2 : proper s2) by (split; [exact H2|exact I]).
  assert (Bd : forall ci ri u a b, is_unit u -> chord (Ball ci ri) c u a b -> a <= dist3 c ci + ri).
  { intros ci ri u a b Uu (Pa & _ & S & _). pose proof (proj2 (S a) (or_introl eq_refl)) as O. cbn [surface] in O. unfold on_sphere in O.
    assert (T : dist3 c (at_t c u a) <= dist3 c ci + dist3 ci (at_t c u a)) by (unfold dist3; replace (c - at_t c u a)%r3 with ((c - ci) + (ci - at_t c u a))%r3 by r3_ring; apply len_add). rewrite (dist3_sym ci) in T. rewrite O in T. enough (dist3 c (at_t c u a) = a) by lra.
    rewrite dist3_sym. unfold dist3. replace (at_t c u a - c)%r3 with (a * u)%r3 by (unfold at_t; r3_ring). rewrite len_scale, (len_unit u Uu), Rabs_right; lra. }
  split.
  - intros (u & r & Uu & Am & r' & Run & Tl & Hb). destruct (chord_ex s1 c u P1 Uu I M1) as (a1 & b1 & Ch1). destruct (chord_ex s2 c u P2 Uu I M2) as (a2 & b2 & Ch2).
    pose proof (Bd _ _ _ _ _ Uu Ch1). pose proof (Bd _ _ _ _ _ Uu Ch2). assert (Lx : Rmin a1 a2 + 1e-12 < rad) by (revert Lr; unfold Rmin; destruct (Rle_dec a1 a2), (Rle_dec (dist3 c c1 + r1) (dist3 c c2 + r2)); lra).
    destruct (C104_intersect s1 s2 t bh ix c u rad m a1 b1 a2 b2 r HT P1 P2 Uu Ch1 Ch2 Am (conj Lx Lm)) as (_ & Hit & Miss). destruct (Req_dec a1 a2) as [E|N].
    + destruct (Miss E) as (r'' & Run' & _ & Hb'). specialize (Run 1%nat ltac:(lia)). rewrite (Run' 1%nat ltac:(lia)) in Run. injection Run as ->. congruence.
    + destruct (Hit N) as (r'' & Run' & Tl' & _). specialize (Run 1%nat ltac:(lia)). rewrite (Run' 1%nat ltac:(lia)) in Run. injection Run as ->. rewrite Tl in Tl'.
      assert (Eq' : q = at_t c u (Rmin a1 a2)) by (apply fv_inj; congruence).
      destruct Ch1 as (Pa1 & Pb1 & S1 & Mm1), Ch2 as (Pa2 & Pb2 & S2 & Mm2). rewrite Eq', S1, S2, Mm1, Mm2. unfold Rmin. destruct (Rle_dec a1 a2); lra.
  - intros Q. assert (Nq : (q - c)%r3 <> r3zero).
    { intros Z. assert (Ec : q = c) by (revert Z; clear; destruct q, c; unfold r3sub, r3zero; cbn; intros H; injection H as A B C; f_equal; lra). subst q.
      cbn [s1 s2 surface member] in *. unfold on_sphere, in_ball in *. lra. }
    set (u := dirn (q - c)). assert (Uu : is_unit u) by (apply dirn_unit; exact Nq). set (x := len (q - c)). assert (Px : 0 < x) by (apply len_pos; exact Nq).
    assert (Eq : q = at_t c u x) by (unfold at_t, u, x; rewrite <- dirn_scale by exact Nq; r3_ring).
    destruct (chord_ex s1 c u P1 Uu I M1) as (a1 & b1 & Ch1). destruct (chord_ex s2 c u P2 Uu I M2) as (a2 & b2 & Ch2).
    pose proof (Bd _ _ _ _ _ Uu Ch1). pose proof (Bd _ _ _ _ _ Uu Ch2). assert (Lx : Rmin a1 a2 + 1e-12 < rad) by (revert Lr; unfold Rmin; destruct (Rle_dec a1 a2), (Rle_dec (dist3 c c1 + r1) (dist3 c c2 + r2)); lra).
    set (r := mkRay (fv (at_t c u rad)) (fv (- u)%r3) (Fin 532) (Fin 1) [fv (at_t c u rad)] false "faerie_fire").
    assert (Am : aimed r c u rad) by (repeat split).
    exists u, r. split; [exact Uu|]. split; [exact Am|].
    destruct (C104_intersect s1 s2 t bh ix c u rad m a1 b1 a2 b2 r HT P1 P2 Uu Ch1 Ch2 Am (conj Lx Lm)) as (_ & Hit & _). destruct Ch1 as (Pa1 & Pb1 & S1 & Mm1), Ch2 as (Pa2 & Pb2 & S2 & Mm2). rewrite Eq, S1, S2, Mm1, Mm2 in Q.
    assert (N : a1 <> a2) by lra. specialize (Hit N). replace (Rmin a1 a2) with x in Hit by (unfold Rmin; destruct (Rle_dec a1 a2); lra). rewrite <- Eq in Hit. exact Hit.
Qed.
Print Assumptions C104_picture.

(** ** The scripts, from the first line to the end of the loop over the rays *)
(** what is plotted of a ray: one dot; if the ray was stopped, a point of the boundary; if not, then [pass] says what the ray met, and the dot is where its flight ends *)
Definition shown (bd : R3 -> Prop) (pass : R3 -> Prop) (c : R3) (rad m : R) (r : ray xr) : Prop :=
  exists q, tl (point_history r) = [fv q] /\ ((blocked r = true /\ bd q) \/ (blocked r = false /\ exists u, is_unit u /\ q = at_t c u (rad - m) /\ pass u)).
(** no run of the random numbers stays below 1e-6 for [fuel] triples *)
Definition good_draws (fuel : nat) (draw : nat -> R) : Prop := forall i, exists k, (k < fuel)%nat /\ 1e-6 <= len (mk3 (draw (i + 3 * k)%nat) (draw (i + 3 * k + 1)%nat) (draw (i + 3 * k + 2)%nat)).

Lemma two_balls_tree op c1 D1 c2 D2 bh ix : exists t, two_balls (op_name op) (fv c1) (Fin D1) (fv c2) (Fin D2) bh ix = Ok (OCompound (mkCompound t bh ix)) /\ tree_of (Bin op (Leaf (Ball c1 (D1 / 2))) (Leaf (Ball c2 (D2 / 2)))) t.
Proof.
  unfold two_balls, mk_sphere. rewrite !check_D_only. cbn [bind mk_tree insertLeft insertRight]. eexists. split; [reflexivity|].
  assert (B : forall c D, tree_of (Leaf (Ball c (D / 2))) (mk_tree (KShape (SSphere (mkSphere (fv c) (Fin (D / 2)) (Fin D)))))).
  { intros c D. apply (TO_ball c (D / 2) None (Some D)); [reflexivity|]. cbn [fo option_map]. unfold mk_sphere. rewrite check_D_only. reflexivity. }
  apply TO_bin; apply B.
Qed.
Lemma run_all_fire o m (P : ray xr -> Prop) fuel (rs : list (ray xr)) : (0 < fuel)%nat -> (forall r, In r rs -> exists q hit, dot_at o r m q hit /\ forall r', tl (point_history r') = [fv q] -> blocked r' = hit -> P r') ->
  exists rs', run_all fuel rs (Fin m) [o] None = Ok (rs', [o]) /\ List.length rs' = List.length rs /\ Forall P rs'.
Proof.
  intros Lf. induction rs as [|r rs IH]; intros H; [exists []; repeat split; constructor|].
  destruct (H r (or_introl eq_refl)) as (q & hit & (r' & Run & Tl & Hb) & Pr). destruct IH as (rs' & Ra & Ln & Fa); [intros x Ix; apply H; right; exact Ix|].
  exists (r' :: rs'). cbn [run_all]. rewrite (Run fuel Lf). cbn [bind]. rewrite Ra. cbn [bind]. split; [reflexivity|]. split; [cbn; lia|]. constructor; [apply Pr; assumption|exact Fa].
Qed.
Lemma fire_script_ok o m (P : ray xr -> Prop) fuel draw rfuel rad c n : good_draws fuel draw -> (0 < rfuel)%nat ->
  (forall r u, is_unit u -> aimed r c u rad -> exists q hit, dot_at o r m q hit /\ forall r', tl (point_history r') = [fv q] -> blocked r' = hit -> P r') ->
  exists rays, fire_script fuel (fun i => Fin (draw i)) rfuel [o] (Fin rad) (fv c) n (Fin m) = Ok (rays, [o]) /\ List.length rays = Z.to_nat n /\ Forall P rays.
Proof.
  intros G Lf H. unfold fire_script. destruct (C51_terminates fuel draw [] rad c n G) as (l & El). rewrite El. cbn [bind]. destruct (C104_aimed fuel draw [] rad c n l El) as (new & -> & Ln & A). cbn [app].
  destruct (run_all_fire o m P rfuel new Lf) as (rs' & Ra & Ln' & Fa). { intros r Ir. destruct (A r Ir) as (u & Uu & Am). exact (H r u Uu Am). }
  exists rs'. rewrite Ra. split; [reflexivity|]. split; [congruence|exact Fa].
Qed.
Lemma ball_bound c ci ri u a b : is_unit u -> chord (Ball ci ri) c u a b -> a <= dist3 c ci + ri /\ b <= dist3 c ci + ri.
Proof.
  intros Uu (Pa & Pb & S & _). pose proof (proj2 (S a) (or_introl eq_refl)) as Oa. pose proof (proj2 (S (- b)) (or_intror eq_refl)) as Ob. cbn [surface] in Oa, Ob. unfold on_sphere in Oa, Ob.
  assert (T : forall v, dist3 c (at_t c u v) <= dist3 c ci + dist3 (at_t c u v) ci) by (intros v; rewrite (dist3_sym (at_t c u v)); unfold dist3; replace (c - at_t c u v)%r3 with ((c - ci) + (ci - at_t c u v))%r3 by r3_ring; apply len_add).
  assert (D : forall v, dist3 c (at_t c u v) = Rabs v). { intros v. rewrite dist3_sym. unfold dist3. replace (at_t c u v - c)%r3 with (v * u)%r3 by (unfold at_t; r3_ring). rewrite len_scale, (len_unit u Uu). ring. }
  pose proof (T a) as Ta. pose proof (T (- b)) as Tb. rewrite D, Oa, Rabs_right in Ta by lra. rewrite D, Ob, Rabs_Ropp, Rabs_right in Tb by lra. lra.
Qed.

(** A lens, two balls under "intersect": the script returns one ray per draw; each ray that is stopped shows a point that is on one sphere and inside the other ball; a ray that is not stopped went through a point
    where the two spheres meet. *)
Theorem C104_lens : forall c1 D1 c2 D2 bh ix c rad m fuel draw rfuel n, let s1 := Ball c1 (D1 / 2) in let s2 := Ball c2 (D2 / 2) in
  0 < D1 -> 0 < D2 -> member s1 c -> member s2 c -> Rmin (dist3 c c1 + D1 / 2) (dist3 c c2 + D2 / 2) + 1e-12 < rad <= m -> good_draws fuel draw -> (0 < rfuel)%nat ->
  exists o rays, two_balls "intersect" (fv c1) (Fin D1) (fv c2) (Fin D2) bh ix = Ok o /\
    fire_script fuel (fun i => Fin (draw i)) rfuel [o] (Fin rad) (fv c) n (Fin m) = Ok (rays, [o]) /\ List.length rays = Z.to_nat n /\
    Forall (shown (fun q => (surface s1 q /\ member s2 q) \/ (member s1 q /\ surface s2 q)) (fun u => exists x, 0 < x /\ surface s1 (at_t c u x) /\ surface s2 (at_t c u x)) c rad m) rays.
Proof.
  intros c1 D1 c2 D2 bh ix c rad m fuel draw rfuel n s1 s2 H1 H2 M1 M2 [Lr Lm] G Lf. destruct (two_balls_tree OpIntersect c1 D1 c2 D2 bh ix) as (t & E & HT). exists (OCompound (mkCompound t bh ix)).
  assert (P1 : proper s1) by (split; [change (0 < D1 / 2); lra|exact I]). assert (P2 : proper s2) by (split; [change (0 < D2 / 2); lra|exact I]).
  destruct (fire_script_ok (OCompound (mkCompound t bh ix)) m (shown (fun q => (surface s1 q /\ member s2 q) \/ (member s1 q /\ surface s2 q)) (fun u => exists x, 0 < x /\ surface s1 (at_t c u x) /\ surface s2 (at_t c u x)) c rad m) fuel draw rfuel rad c n G Lf) as (rays & F).
  { intros r u Uu Am. destruct (chord_ex s1 c u P1 Uu I M1) as (a1 & b1 & Ch1). destruct (chord_ex s2 c u P2 Uu I M2) as (a2 & b2 & Ch2).
    pose proof (ball_bound _ _ _ _ _ _ Uu Ch1). pose proof (ball_bound _ _ _ _ _ _ Uu Ch2). assert (Lx : Rmin a1 a2 + 1e-12 < rad) by (revert Lr; unfold Rmin; destruct (Rle_dec a1 a2), (Rle_dec (dist3 c c1 + D1 / 2) (dist3 c c2 + D2 / 2)); lra).
    destruct (C104_intersect s1 s2 t bh ix c u rad m a1 b1 a2 b2 r HT P1 P2 Uu Ch1 Ch2 Am (conj Lx Lm)) as (_ & Hit & Miss). destruct Ch1 as (Pa1 & Pb1 & S1 & Mm1), Ch2 as (Pa2 & Pb2 & S2 & Mm2).
    destruct (Req_dec a1 a2) as [Q|Q].
    - eexists _, _. split; [exact (Miss Q)|]. intros r' Tl Hb. eexists. split; [exact Tl|]. right. split; [exact Hb|]. exists u. split; [exact Uu|]. split; [reflexivity|]. exists a1. rewrite S1, S2. auto.
    - eexists _, _. split; [exact (Hit Q)|]. intros r' Tl Hb. eexists. split; [exact Tl|]. left. split; [exact Hb|]. rewrite S1, S2, Mm1, Mm2. unfold Rmin. destruct (Rle_dec a1 a2); lra. }
  exists rays. split; [exact E|exact F].
Qed.
Print Assumptions C104_lens.

(** A ball with another taken out of it: each ray that is stopped shows a point of the surface of the first outside the second, or of the surface of the second inside the first; a ray that is not stopped went along
    a line without a point of the difference. *)
Theorem C104_bite : forall c1 D1 c2 D2 bh ix c rad m fuel draw rfuel n, let s1 := Ball c1 (D1 / 2) in let s2 := Ball c2 (D2 / 2) in
  0 < D1 -> 0 < D2 -> member s1 c -> member s2 c -> dist3 c c1 + D1 / 2 + 1e-12 < rad -> dist3 c c2 + D2 / 2 + 1e-12 < rad -> rad + (dist3 c c2 + D2 / 2) <= m -> good_draws fuel draw -> (0 < rfuel)%nat ->
  exists o rays, two_balls "difference" (fv c1) (Fin D1) (fv c2) (Fin D2) bh ix = Ok o /\
    fire_script fuel (fun i => Fin (draw i)) rfuel [o] (Fin rad) (fv c) n (Fin m) = Ok (rays, [o]) /\ List.length rays = Z.to_nat n /\
    Forall (shown (fun q => (surface s1 q /\ ~ member s2 q) \/ (member s1 q /\ surface s2 q)) (fun u => forall v, ~ (member s1 (at_t c u v) /\ ~ member s2 (at_t c u v))) c rad m) rays.
Proof.
  intros c1 D1 c2 D2 bh ix c rad m fuel draw rfuel n s1 s2 H1 H2 M1 M2 Lr1 Lr2 Lm G Lf. destruct (two_balls_tree OpDifference c1 D1 c2 D2 bh ix) as (t & E & HT). exists (OCompound (mkCompound t bh ix)).
  assert (P1 : proper s1) by (split; [change (0 < D1 / 2); lra|exact I]). assert (P2 : proper s2) by (split; [change (0 < D2 / 2); lra|exact I]).
  destruct (fire_script_ok (OCompound (mkCompound t bh ix)) m (shown (fun q => (surface s1 q /\ ~ member s2 q) \/ (member s1 q /\ surface s2 q)) (fun u => forall v, ~ (member s1 (at_t c u v) /\ ~ member s2 (at_t c u v))) c rad m) fuel draw rfuel rad c n G Lf) as (rays & F).
  { intros r u Uu Am. destruct (chord_ex s1 c u P1 Uu I M1) as (a1 & b1 & Ch1). destruct (chord_ex s2 c u P2 Uu I M2) as (a2 & b2 & Ch2).
    pose proof (ball_bound _ _ _ _ _ _ Uu Ch1). pose proof (ball_bound _ _ _ _ _ _ Uu Ch2).
    destruct (C104_difference s1 s2 t bh ix c u rad m a1 b1 a2 b2 r HT P1 P2 Uu Ch1 Ch2 Am ltac:(unfold Rmax; destruct (Rle_dec a1 a2); lra) ltac:(lra)) as (Near & Far & Miss). destruct Ch1 as (Pa1 & Pb1 & S1 & Mm1), Ch2 as (Pa2 & Pb2 & S2 & Mm2).
    destruct (Rlt_or_le a2 a1) as [L|L]; [|destruct (Rlt_or_le b2 b1) as [L'|L']].
    - destruct (Near L) as (_ & _ & Dt). eexists _, _. split; [exact Dt|]. intros r' Tl Hb. eexists. split; [exact Tl|]. left. split; [exact Hb|]. rewrite S1, S2, Mm1, Mm2. lra.
    - destruct (Far L L') as (_ & _ & Dt). eexists _, _. split; [exact Dt|]. intros r' Tl Hb. eexists. split; [exact Tl|]. left. split; [exact Hb|]. rewrite S1, S2, Mm1, Mm2. lra.
    - destruct (Miss L L') as (No & Dt). eexists _, _. split; [exact Dt|]. intros r' Tl Hb. eexists. split; [exact Tl|]. right. split; [exact Hb|]. exists u. split; [exact Uu|]. split; [reflexivity|exact No]. }
  exists rays. split; [exact E|exact F].
Qed.
Print Assumptions C104_bite.

(** The scenes of the two scripts for any positions and diameters: one reflecting solid, the intersection or difference of the two balls as given. *)
Theorem C104_scenes : forall y1 D1 y2 D2,
  (exists t, intersect_scene (Fin y1) (Fin D1) (Fin y2) (Fin D2) = Ok [OCompound (mkCompound t "reflect" (dec 15 1))] /\
     tree_of (Bin OpIntersect (Leaf (Ball (mk3 0 y1 0) (D1 / 2))) (Leaf (Ball (mk3 0 y2 0) (D2 / 2)))) t) /\
  (exists t, difference_scene (Fin y1) (Fin D1) (Fin y2) (Fin D2) = Ok [OCompound (mkCompound t "reflect" (dec 15 1))] /\
     tree_of (Bin OpDifference (Leaf (Ball (mk3 0 y1 0) (D1 / 2))) (Leaf (Ball (mk3 0 y2 0) (D2 / 2)))) t).
Proof.
  intros y1 D1 y2 D2. assert (Z0 : forall y, V (nofZ 0) (Fin y) (nofZ 0) = fv (mk3 0 y 0)) by (intros; rewrite nofZ_fin; reflexivity). split.
  - destruct (two_balls_tree OpIntersect (mk3 0 y1 0) D1 (mk3 0 y2 0) D2 "reflect" (dec 15 1)) as (t & E & HT). exists t. split; [|exact HT]. unfold intersect_scene. rewrite !Z0. cbn [op_name] in E. rewrite E. reflexivity.
  - destruct (two_balls_tree OpDifference (mk3 0 y1 0) D1 (mk3 0 y2 0) D2 "reflect" (dec 15 1)) as (t & E & HT). exists t. split; [|exact HT]. unfold difference_scene. rewrite !Z0. cbn [op_name] in E. rewrite E. reflexivity.
Qed.
Print Assumptions C104_scenes.

Lemma dist_y a b : dist3 (mk3 0 a 0) (mk3 0 b 0) = Rabs (a - b).
Proof.
  unfold dist3. change (len (mk3 0 a 0 - mk3 0 b 0)) with (sqrt ((mk3 0 a 0 - mk3 0 b 0) ∙ (mk3 0 a 0 - mk3 0 b 0))%r3). replace ((mk3 0 a 0 - mk3 0 b 0) ∙ (mk3 0 a 0 - mk3 0 b 0))%r3 with (Rsqr (a - b)) by (unfold r3dot, r3sub, Rsqr; cbn [cx cy cz]; ring). apply sqrt_Rsqr_abs.
Qed.

(** The four scripts with their own numbers, for any number of rays and whatever the random numbers: each returns, with one dot per ray, as above. *)
Theorem C104_scripts : forall fuel draw rfuel n, good_draws fuel draw -> (0 < rfuel)%nat ->
  let at_y y := mk3 0 y 0 in
  let lens s1 s2 c rad m := shown (fun q => (surface s1 q /\ member s2 q) \/ (member s1 q /\ surface s2 q)) (fun u => exists x, 0 < x /\ surface s1 (at_t c u x) /\ surface s2 (at_t c u x)) c rad m in
  let bite s1 s2 c rad m := shown (fun q => (surface s1 q /\ ~ member s2 q) \/ (member s1 q /\ surface s2 q)) (fun u => forall v, ~ (member s1 (at_t c u v) /\ ~ member s2 (at_t c u v))) c rad m in
  let gives (script : Res (list (ray xr) * list (optic xr))) P := exists rays o, script = Ok (rays, [o]) /\ List.length rays = Z.to_nat n /\ Forall P rays in
  let d := fun i => Fin (draw i) in
  gives (script_testCompoundIntersect fuel d rfuel n) (lens (Ball (at_y 80) 32.5) (Ball (at_y 20) 32.5) (at_y 50) 100 150) /\
  gives (script_testCompoundDifference fuel d rfuel n) (bite (Ball (at_y 60) 15) (Ball (at_y 40) 15) (at_y 50) 100 150) /\
  gives (singlet_fire fuel d rfuel n) (lens (Ball (at_y 500.6) 102.4) (Ball (at_y 299.4) 102.4) (at_y 400) 450 550) /\
  gives (bestform_fire fuel d rfuel n) (lens (Ball (at_y 458.72) 60.02) (Ball (at_y 49.4) 353.3) (at_y 400) 450 550).
Proof.
  intros fuel draw rfuel n G Lf at_y lens bite gives d.
  assert (In : forall y r x, Rabs (x - y) < r -> member (Ball (at_y y) r) (at_y x)) by (intros y r x H; cbn [member]; unfold in_ball, at_y; rewrite dist_y; exact H).
  assert (Ab : forall a b, a - b < 0 -> Rabs (a - b) = b - a) by (intros a b H; rewrite Rabs_left by exact H; ring). assert (Ab' : forall a b, 0 <= a - b -> Rabs (a - b) = a - b) by (intros a b H; apply Rabs_right; lra).
  assert (Z0 : forall y, V (nofZ 0) (Fin y) (nofZ 0) = fv (at_y y)) by (intros; rewrite nofZ_fin; reflexivity).
  repeat split; unfold gives.
  - destruct (C104_lens (at_y 80) 65 (at_y 20) 65 "reflect" (dec 15 1) (at_y 50) 100 150 fuel draw rfuel n) as (o & rays & E & F & Ln & Fa); try assumption; try lra.
    1,2: apply In; unfold Rabs; destruct Rcase_abs; lra. { unfold at_y. rewrite !dist_y, Ab, Ab' by lra. unfold Rmin. destruct Rle_dec; lra. }
    exists rays, o. replace 32.5 with (65 / 2) by lra. split; [|split; assumption].
    unfold script_testCompoundIntersect, intersect_scene. rewrite !nofZ_fin, nsub_fin, <- !(nofZ_fin 0), !Z0. rewrite E. cbn [bind]. replace (150 - 50) with 100 by lra. exact F.
  - destruct (C104_bite (at_y 60) 30 (at_y 40) 30 "reflect" (dec 15 1) (at_y 50) 100 150 fuel draw rfuel n) as (o & rays & E & F & Ln & Fa); try assumption; try lra.
    1,2: apply In; unfold Rabs; destruct Rcase_abs; lra. 1,2,3: unfold at_y; rewrite !dist_y; unfold Rabs; destruct Rcase_abs; lra.
    exists rays, o. replace 15 with (30 / 2) by lra. split; [|split; assumption].
    unfold script_testCompoundDifference, difference_scene. rewrite !nofZ_fin, nsub_fin, <- !(nofZ_fin 0), !Z0. rewrite E. cbn [bind]. replace (150 - 50) with 100 by lra. exact F.
  - destruct (C104_lens (at_y 500.6) (102.4 * 2) (at_y 299.4) (102.4 * 2) "refract" (dec 15167 4) (at_y 400) 450 550 fuel draw rfuel n) as (o & rays & E & F & Ln & Fa); try assumption; try lra.
    1,2: apply In; unfold Rabs; destruct Rcase_abs; lra. { unfold at_y. rewrite !dist_y, Ab, Ab' by lra. unfold Rmin. destruct Rle_dec; lra. }
    exists rays, o. replace (Ball (at_y 500.6) 102.4) with (Ball (at_y 500.6) (102.4 * 2 / 2)) by (f_equal; lra). replace (Ball (at_y 299.4) 102.4) with (Ball (at_y 299.4) (102.4 * 2 / 2)) by (f_equal; lra). split; [|split; assumption].
    unfold singlet_fire, singlet_scene. rewrite !(dec_fin 1024 1), !(dec_fin 36 1) by discriminate. rewrite !nofZ_fin. rewrite !ndiv_fin by lra. repeat (rewrite nmul_fin || rewrite nadd_fin || rewrite nsub_fin). rewrite <- !(nofZ_fin 0), !Z0.
    match goal with |- context [two_balls _ (fv (at_y ?a)) (Fin ?b) (fv (at_y ?c)) (Fin ?d)] => replace a with 500.6 by lra; replace b with (102.4 * 2) by lra; replace c with 299.4 by lra end.
    rewrite E. cbn [bind]. replace (550 - 100) with 450 by lra. exact F.
  - destruct (C104_lens (at_y 458.72) (60.02 * 2) (at_y 49.4) (353.3 * 2) "refract" (dec 15167 4) (at_y 400) 450 550 fuel draw rfuel n) as (o & rays & E & F & Ln & Fa); try assumption; try lra.
    1,2: apply In; unfold Rabs; destruct Rcase_abs; lra. { unfold at_y. rewrite !dist_y, Ab, Ab' by lra. unfold Rmin. destruct Rle_dec; lra. }
    exists rays, o. replace (Ball (at_y 458.72) 60.02) with (Ball (at_y 458.72) (60.02 * 2 / 2)) by (f_equal; lra). replace (Ball (at_y 49.4) 353.3) with (Ball (at_y 49.4) (353.3 * 2 / 2)) by (f_equal; lra). split; [|split; assumption].
    unfold bestform_fire, bestform_scene. rewrite !(dec_fin 40 1), !(dec_fin 973 1), !(dec_fin 6002 2), !(dec_fin 35330 2) by discriminate. rewrite !nofZ_fin. repeat (rewrite nmul_fin || rewrite nadd_fin || rewrite nsub_fin). rewrite <- !(nofZ_fin 0), !Z0.
    match goal with |- context [two_balls _ (fv (at_y ?a)) (Fin ?b) (fv (at_y ?c)) (Fin ?d)] => replace a with 458.72 by lra; replace b with (60.02 * 2) by lra; replace c with 49.4 by lra; replace d with (353.3 * 2) by lra end.
    rewrite E. cbn [bind]. replace (550 - 100) with 450 by lra. exact F.
Qed.
Print Assumptions C104_scripts.

Lemma chord_y y r yc : Rabs (yc - y) < r -> chord (Ball (mk3 0 y 0) r) (mk3 0 yc 0) (mk3 0 1 0) (y + r - yc) (yc - y + r).
Proof.
  intros H. apply Rabs_def2 in H. assert (E : forall v, at_t (mk3 0 yc 0) (mk3 0 1 0) v = mk3 0 (yc + v) 0) by (intros v; unfold at_t, r3add, r3scale; cbn [cx cy cz]; f_equal; ring).
  split; [lra|]. split; [lra|]. split; intros v; rewrite E; cbn [surface member]; unfold on_sphere, in_ball; rewrite dist_y; unfold Rabs; destruct Rcase_abs; lra.
Qed.
(** the hypotheses are met: script_testCompoundIntersect.py along the axis, where the first ball reaches further than the second; the dot is on the second *)
Example C104_hyp : exists t o r, tree_of (Bin OpIntersect (Leaf (Ball (mk3 0 80 0) 32.5)) (Leaf (Ball (mk3 0 20 0) 32.5))) t /\ o = OCompound (mkCompound t "reflect" (Fin 1.5)) /\ aimed r (mk3 0 50 0) (mk3 0 1 0) 100 /\
  dot_at o r 150 (at_t (mk3 0 50 0) (mk3 0 1 0) 2.5) true.
Proof.
  destruct (two_balls_tree OpIntersect (mk3 0 80 0) 65 (mk3 0 20 0) 65 "reflect" (Fin 1.5)) as (t & _ & HT). replace (65 / 2) with 32.5 in HT by lra.
  set (u := mk3 0 1 0). set (c := mk3 0 50 0). set (r := mkRay (fv (at_t c u 100)) (fv (- u)%r3) (Fin 532) (Fin 1) [fv (at_t c u 100)] false "faerie_fire").
  assert (Am : aimed r c u 100) by (repeat split). assert (Uu : is_unit u) by (unfold is_unit, u, r3dot; cbn [cx cy cz]; lra).
  exists t, (OCompound (mkCompound t "reflect" (Fin 1.5))), r. split; [exact HT|]. split; [reflexivity|]. split; [exact Am|].
  destruct (C104_intersect (Ball (mk3 0 80 0) 32.5) (Ball (mk3 0 20 0) 32.5) t "reflect" (Fin 1.5) c u 100 150 (80 + 32.5 - 50) (50 - 80 + 32.5) (20 + 32.5 - 50) (50 - 20 + 32.5) r HT) as (_ & Hit & _);
    try exact Uu; try exact Am; try (split; [cbn [radius]; lra|exact I]); try (apply chord_y; unfold Rabs; destruct Rcase_abs; lra); [unfold Rmin; destruct Rle_dec; lra|].
  replace 2.5 with (Rmin (80 + 32.5 - 50) (20 + 32.5 - 50)) by (unfold Rmin; destruct Rle_dec; lra). apply Hit. lra.
Qed.
(** a ball with a bite taken out of it at the near side: the dot is in the bite *)
Example C104_hyp_difference : exists t r, tree_of (Bin OpDifference (Leaf (Ball (mk3 0 40 0) 15)) (Leaf (Ball (mk3 0 60 0) 15))) t /\ aimed r (mk3 0 50 0) (mk3 0 1 0) 100 /\
  dot_at (OCompound (mkCompound t "reflect" (Fin 1.5))) r 150 (at_t (mk3 0 50 0) (mk3 0 1 0) (- 5)) true.
Proof.
  destruct (two_balls_tree OpDifference (mk3 0 40 0) 30 (mk3 0 60 0) 30 "reflect" (Fin 1.5)) as (t & _ & HT). replace (30 / 2) with 15 in HT by lra.
  set (u := mk3 0 1 0). set (c := mk3 0 50 0). set (r := mkRay (fv (at_t c u 100)) (fv (- u)%r3) (Fin 532) (Fin 1) [fv (at_t c u 100)] false "faerie_fire").
  assert (Am : aimed r c u 100) by (repeat split). assert (Uu : is_unit u) by (unfold is_unit, u, r3dot; cbn [cx cy cz]; lra).
  exists t, r. split; [exact HT|]. split; [exact Am|].
  destruct (C104_difference (Ball (mk3 0 40 0) 15) (Ball (mk3 0 60 0) 15) t "reflect" (Fin 1.5) c u 100 150 (40 + 15 - 50) (50 - 40 + 15) (60 + 15 - 50) (50 - 60 + 15) r HT) as (_ & Far & _);
    try exact Uu; try exact Am; try (split; [cbn [radius]; lra|exact I]); try (apply chord_y; unfold Rabs; destruct Rcase_abs; lra); [unfold Rmax; destruct Rle_dec; lra|lra|].
  replace (- 5) with (- (50 - 60 + 15)) by lra. apply Far; lra.
Qed.
Example C104_hyp_draws : good_draws 1 (fun _ => 1).
Proof.
  intros i. exists 0%nat. split; [lia|]. change (len (mk3 1 1 1)) with (sqrt (mk3 1 1 1 ∙ mk3 1 1 1)). apply Rle_trans with (sqrt 1); [rewrite sqrt_1; lra|]. apply sqrt_le_1; unfold r3dot; cbn [cx cy cz]; lra.
Qed.
(** two balls side by side satisfy the hypotheses of the union *)
Example C104_hyp_union : exists t r, tree_of (Bin OpUnion (Leaf (Ball (mk3 0 40 0) 15)) (Leaf (Ball (mk3 0 60 0) 15))) t /\ aimed r (mk3 0 50 0) (mk3 0 1 0) 100 /\
  exists x, dot_at (OCompound (mkCompound t "reflect" (Fin 1.5))) r 150 (at_t (mk3 0 50 0) (mk3 0 1 0) x) true.
Proof.
  destruct (two_balls_tree OpUnion (mk3 0 40 0) 30 (mk3 0 60 0) 30 "reflect" (Fin 1.5)) as (t & _ & HT). replace (30 / 2) with 15 in HT by lra.
  set (u := mk3 0 1 0). set (c := mk3 0 50 0). set (r := mkRay (fv (at_t c u 100)) (fv (- u)%r3) (Fin 532) (Fin 1) [fv (at_t c u 100)] false "faerie_fire").
  assert (Am : aimed r c u 100) by (repeat split). assert (Uu : is_unit u) by (unfold is_unit, u, r3dot; cbn [cx cy cz]; lra).
  exists t, r. split; [exact HT|]. split; [exact Am|].
  assert (Q : forall y, Rabs (50 - y) < 15 -> proper (Ball (mk3 0 y 0) 15) /\ regular (Ball (mk3 0 y 0) 15) (at_t c u 100) (- u)%r3 /\ forall v, 100 - 1e-12 <= v -> ~ surface (Ball (mk3 0 y 0) 15) (at_t c u v) /\ ~ member (Ball (mk3 0 y 0) 15) (at_t c u v)).
  { intros y Hy. pose proof (chord_y y 15 50 Hy) as Ch. apply Rabs_def2 in Hy. assert (P : proper (Ball (mk3 0 y 0) 15)) by (split; [cbn [radius]; lra|exact I]). split; [exact P|]. split.
    - eapply crosses_regular; [exact P|apply unit_opp; exact Uu|exact (chord_back _ _ _ _ _ 100 Ch)].
    - intros v Hv. destruct Ch as (_ & _ & S & M). fold c in S, M. fold u in S, M. rewrite S, M. lra. }
  destruct (C104_union OpUnion (Leaf (Ball (mk3 0 40 0) 15)) (Leaf (Ball (mk3 0 60 0) 15)) t "reflect" (Fin 1.5) c u 100 150 r HT) as (x & s & _ & _ & _ & _ & Dt); try exact Uu; try exact Am; try lra.
  - repeat split.
  - cbn [solids app In]. intros s [<-|[<-|[]]]; apply Q; unfold Rabs; destruct Rcase_abs; lra.
  - exists (Ball (mk3 0 40 0) 15). split; [left; reflexivity|]. cbn [member]. unfold in_ball, c. rewrite dist_y. unfold Rabs; destruct Rcase_abs; lra.
  - exists x. exact Dt.
Qed.
