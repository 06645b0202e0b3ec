(** C100: the scripts script_testImaging.py and script_testIdealRelay.py from beginning to end. *)
From Coq Require Import Reals ZArith Lra Lia Psatz String List Bool Sorting.Sorted.
From Verif Require Import PyErr Num Vec Shapes Csg Optics General Spec XReal RVec VecProofs AngleProofs FlatProofs SphereProofs CylProofs ShapeExtra
  TreeProofs SolidProofs CsgProofs RayProofs GenProofs RunGen NoFuel RunXr OpticHits StateXr OrderProofs FlatOptic Props_Ray Props_Loop Props_Run Props_Rehit SceneProofs Props_Scene Props_Train
  Props_Build Scripts.
Import ListNotations.
Local Open Scope R_scope.

(* ---- the specification *)
(** length of a ray per unit of axial distance, when the slopes are a and b *)
Definition steepness (a b : R) : R := sqrt (1 + a * a + b * b).
(** the angles sampled are 0 or so large that the tolerance of the lens code does not matter *)
Definition resolved (angle : R) (n : Z) : Prop := n = 1%Z \/ angle = 0 \/ 1e-8 < sin (angle / IZR (n - 1)).
(** the colour of the point (x, z) of the object *)
Definition colour (x z : R) : R := if Rle_dec (x * x + z * z) (25 / 4) then 680 else 450.

(* ---- proofs *)
Notation Y := (mk3 0 1 0).
Lemma Y_unit : is_unit Y. Proof. unfold is_unit, r3dot. cbn. lra. Qed.
Definition slope (a b : R) : R3 := mk3 a 0 b.
Lemma slope_Y a b : slope a b ∙ Y = 0. Proof. unfold r3dot, slope. cbn. lra. Qed.
Lemma len_sqrt v : len v = sqrt (v ∙ v).
Proof. rewrite <- len_sq. rewrite sqrt_square; [reflexivity|apply len_nonneg]. Qed.
Lemma steep_len a b : len (Y + slope a b)%r3 = steepness a b.
Proof. rewrite len_sqrt. unfold steepness, r3dot, slope. cbn. f_equal. ring. Qed.
Lemma Rabs_le_inv a b : Rabs a <= b -> - b <= a <= b.
Proof. intros H. pose proof (Rle_abs a). pose proof (Rle_abs (- a)). rewrite Rabs_Ropp in *. lra. Qed.
Lemma steep_mono a b a' b' : Rabs a <= a' -> Rabs b <= b' -> steepness a b <= steepness a' b'.
Proof.
  intros A B. unfold steepness. apply sqrt_le_1_alt. pose proof (Rabs_pos a). pose proof (Rabs_pos b).
  assert (a * a <= a' * a') by (apply Rabs_le_inv in A; nra). assert (b * b <= b' * b') by (apply Rabs_le_inv in B; nra). lra.
Qed.
Lemma slope_dirn t : 0 < cos t -> dirn (Y + slope 0 (tan t))%r3 = mk3 0 (cos t) (sin t).
Proof.
  intros C. apply dirn_unique with (s := / cos t); [now apply Rinv_0_lt_compat| |].
  - apply r3_ext; unfold slope, tan; cbn; field; lra.
  - unfold is_unit, r3dot. cbn. pose proof (sin2_cos2 t) as E. unfold Rsqr in E. lra.
Qed.
Lemma not_near t : 0 < cos t -> 1e-8 < Rabs (sin t) -> ~ near3 (dirn (Y + slope 0 (tan t))%r3) Y.
Proof. intros C S. rewrite slope_dirn by exact C. unfold near3, near1. cbn. intros (_ & _ & H). rewrite Rminus_0_r, Rabs_R0 in H. lra. Qed.
Lemma samples_resolved angle n ts t : evenly (- angle) angle (Z.to_nat n) ts -> (1 <= n)%Z -> resolved angle n -> 0 <= angle < PI / 2 -> In t ts -> - angle <= t <= angle /\ (t = 0 \/ 1e-8 < Rabs (sin t)).
Proof.
  intros E Hn R A I. split; [apply (evenly_bounds _ _ _ _ _ E I); lra|]. destruct (Z.eq_dec n 1) as [->|N1].
  { left. destruct E as (_ & E & _). rewrite (E eq_refl) in I. destruct I as [<-|[]]. reflexivity. }
  destruct R as [R|[->|R]]; [contradiction| |].
  { left. pose proof (evenly_bounds _ _ _ _ _ E I). lra. }
  destruct E as (Ln & _ & E). destruct (In_nth_error _ _ I) as (i & Ei). assert (Hi : (i < Z.to_nat n)%nat) by (rewrite <- Ln; apply nth_error_Some; congruence).
  specialize (E ltac:(lia) i t Ei).
  assert (Em : INR (Z.to_nat n - 1) = IZR (n - 1)) by (rewrite INR_IZR_INZ; f_equal; lia). rewrite Em in E.
  assert (Hp : 1 <= IZR (n - 1)) by (apply (IZR_le 1); lia). set (m := (2 * Z.of_nat i - (n - 1))%Z).
  assert (Et : t = IZR m * (angle / IZR (n - 1))) by (assert (Ez : IZR m = 2 * INR i - IZR (n - 1)) by (unfold m; rewrite (minus_IZR (2 * Z.of_nat i) (n - 1)), (mult_IZR 2), <- INR_IZR_INZ; reflexivity); rewrite E, Ez; field; lra).
  destruct (Z.eq_dec m 0) as [M|M]; [left; rewrite Et, M; ring|right].
  set (a := angle / IZR (n - 1)) in *. assert (Ea : angle = IZR (n - 1) * a) by (unfold a; field; lra).
  assert (Pa : 0 <= a) by (unfold a; apply Rmult_le_pos; [lra|left; apply Rinv_0_lt_compat; lra]).
  assert (Hm : 1 <= IZR m <= IZR (n - 1) \/ 1 <= - IZR m <= IZR (n - 1)).
  { assert (H : (1 <= m <= n - 1 \/ 1 <= - m <= n - 1)%Z) by (unfold m in *; lia). destruct H as [[A1 A2]|[A1 A2]]; [left|right]; rewrite <- ?opp_IZR; split; apply IZR_le; assumption. }
  assert (Mo : forall s, a <= s <= angle -> 1e-8 < sin s).
  { intros s Hs. apply Rlt_le_trans with (1 := R). apply sin_incr_1; lra. }
  destruct Hm as [Hm|Hm].
  - rewrite Rabs_right; [apply Mo; rewrite Et; split; [nra|rewrite Ea; nra]|]. apply Rle_ge, Rlt_le. apply Rlt_trans with 1e-8; [lra|]. apply Mo. rewrite Et. split; [nra|rewrite Ea; nra].
  - assert (P : 1e-8 < sin (- t)) by (apply Mo; rewrite Et; split; [nra|rewrite Ea; nra]). rewrite sin_neg in P. rewrite Rabs_left; lra.
Qed.
Lemma tan_bound angle t : 0 <= angle < PI / 2 -> - angle <= t <= angle -> Rabs (tan t) <= tan angle.
Proof.
  intros A B. apply Rabs_le. assert (M : forall u v, - (PI / 2) < u -> v < PI / 2 -> u <= v -> tan u <= tan v).
  { intros u v Hu Hv L. destruct (Rle_lt_or_eq_dec _ _ L) as [L'|L']; [left; apply tan_increasing; lra|right; now subst]. }
  split; [|apply M; lra]. assert (E : tan (- angle) = - tan angle) by (unfold tan; rewrite sin_neg, cos_neg; unfold Rdiv; ring). rewrite <- E. apply M; lra.
Qed.
Lemma len_xz a b : len (mk3 a 0 b) = sqrt (a * a + b * b).
Proof. rewrite len_sqrt. unfold r3dot. cbn. f_equal. ring. Qed.
Lemma len_lt a b A B D : Rabs a <= A -> Rabs b <= B -> 0 < D -> A * A + B * B < D / 2 * (D / 2) -> len (mk3 a 0 b) < D / 2.
Proof.
  intros HA HB PD H. rewrite len_xz. rewrite <- (sqrt_square (D / 2)) by lra. pose proof (Rabs_pos a). pose proof (Rabs_pos b). apply Rabs_le_inv in HA, HB. apply sqrt_lt_1_alt. split; [nra|]. nra.
Qed.

(* running rays one after the other *)
Lemma shoot (world : list (vec xr * xr) -> list (optic xr)) fuel L rs (rhs : list ((vec xr * xr) * list (vec xr))) :
  Forall2 (fun r rh => forall log, exists r', run fuel r (Fin L) (world log) None = Ok (r', world (log ++ [fst rh])) /\ blocked r' = true /\ point_history r' = snd rh) rs rhs ->
  forall log, exists rs', run_all fuel rs (Fin L) (world log) None = Ok (rs', world (log ++ map fst rhs)) /\ Forall (fun r => blocked r = true) rs' /\ map point_history rs' = map snd rhs.
Proof.
  induction 1 as [|r rh rs rhs H Fa IH]; intros log; [exists []; cbn [run_all map]; rewrite app_nil_r; auto|].
  destruct (H log) as (r' & E & B & P). destruct (IH (log ++ [fst rh])) as (rs' & E' & B' & P'). exists (r' :: rs'). cbn [run_all map]. rewrite E. cbn [bind]. rewrite E'. cbn [bind]. rewrite <- app_assoc.
  split; [reflexivity|]. split; [now constructor|]. congruence.
Qed.
Lemma script_rays_map {A} (fo fd : A -> R3) (fw : A -> R) l : script_rays (map (fun a => fv (fo a)) l) (map (fun a => fv (fd a)) l) (map (fun a => Fin (fw a)) l) =
  Ok (map (fun a => mk_ray (fv (fo a)) (fv (fd a)) (Fin (fw a)) (Fin 0) "normal") l).
Proof. induction l as [|a l IH]; cbn [map script_rays]; [reflexivity|]. rewrite IH. reflexivity. Qed.
Lemma grid_map {A} (h : R -> R -> R -> A) xs zs ts : grid h xs zs ts = map (fun q => h (fst (fst q)) (snd (fst q)) (snd q)) (grid (fun x z t => (x, z, t)) xs zs ts).
Proof.
  unfold grid. assert (M : forall A B C (k : B -> C) (f : A -> list B) l, map k (flat_map f l) = flat_map (fun x => map k (f x)) l).
  { intros A0 B0 C0 k f0 l. induction l as [|a l IH]; cbn; [reflexivity|]. now rewrite map_app, IH. }
  rewrite M. apply flat_map_ext. intros x. rewrite M. apply flat_map_ext. intros z. rewrite map_map. reflexivity.
Qed.
(** the rays of the object *)
Lemma object_rays size angle xn zn an : (1 <= xn)%Z -> (1 <= zn)%Z -> (1 <= an)%Z -> exists xs zs ts,
  evenly (- size / 2) (size / 2) (Z.to_nat xn) xs /\ evenly (- size / 2) (size / 2) (Z.to_nat zn) zs /\ evenly (- angle) angle (Z.to_nat an) ts /\
  forall fuel scene L, script_shoot fuel scene (Fin L) (Fin size) (Fin angle) xn zn an =
    run_all fuel (grid (fun x z t => mk_ray (fv (mk3 x 0 z)) (fv (mk3 0 (cos t) (sin t))) (Fin (colour x z)) (Fin 0) "normal") xs zs ts) (Fin L) scene None.
Proof.
  intros H1 H2 H3. destruct (image_rays_ok 0 size angle xn zn an "circle" 5 H1 H2 H3) as (xs & zs & ts & Sx & Sz & St & E). exists xs, zs, ts. split; [exact Sx|]. split; [exact Sz|]. split; [exact St|].
  intros fuel scene L. unfold script_shoot. rewrite !nofZ_fin. rewrite E. change (String.eqb "circle" "circle") with true. cbn iota. cbn [bind].
  rewrite (grid_map (fun x z t => fv (mk3 x 0 z))), (grid_map (fun x z t => fv (mk3 0 (cos t) (sin t)))), (grid_map (fun x z t => Fin (wave_of 5 x z))).
  rewrite (script_rays_map (fun q => mk3 (fst (fst q)) 0 (snd (fst q))) (fun q => mk3 0 (cos (snd q)) (sin (snd q))) (fun q => wave_of 5 (fst (fst q)) (snd (fst q)))). cbn [bind].
  rewrite (grid_map (fun x z t => mk_ray (fv (mk3 x 0 z)) (fv (mk3 0 (cos t) (sin t))) (Fin (colour x z)) (Fin 0) "normal")). f_equal. apply map_ext. intros [[x z] t]. cbn [fst snd].
  unfold wave_of, colour. replace (5 * 5 / 4) with (25 / 4) by lra. reflexivity.
Qed.
Lemma grid_forall2 {A B} (P : A -> B -> Prop) (f : R -> R -> R -> A) (g : R -> R -> R -> B) xs zs ts : (forall x z t, In x xs -> In z zs -> In t ts -> P (f x z t) (g x z t)) -> Forall2 P (grid f xs zs ts) (grid g xs zs ts).
Proof.
  intros H. unfold grid. assert (G : forall C (u : C -> list A) (v : C -> list B) l, (forall a, In a l -> Forall2 P (u a) (v a)) -> Forall2 P (flat_map u l) (flat_map v l)).
  { intros C u v l. induction l as [|a l IH]; intros K; cbn; [constructor|]. apply Forall2_app; [apply K; now left|apply IH; intros; apply K; now right]. }
  apply G. intros x Hx. apply G. intros z Hz. induction ts as [|t ts IH]; cbn; [constructor|]. constructor; [apply H; auto; now left|apply IH; intros; apply H; auto; now right].
Qed.

(* ---- the scenes *)
Lemma pydiv_fin a b : b <> 0 -> pydiv (Fin a) (Fin b) = Ok (Fin (a / b)).
Proof. intros H. unfold pydiv. rewrite nofZ_fin, neqb_fin. destruct (Reqb_spec b 0); [contradiction|]. now rewrite ndiv_fin. Qed.
Lemma thin_dist_fin f s : f <> 0 -> s <> 0 -> s <> f -> thin_dist (Fin f) (Fin s) = Ok (Fin (f * s / (s - f))).
Proof.
  intros F S I. unfold thin_dist. rewrite !nofZ_fin, !pydiv_fin by assumption. cbn [bind]. rewrite nsub_fin.
  assert (E : 1 / f - 1 / s = (s - f) / (f * s)) by (field; split; assumption).
  rewrite E, pydiv_fin. 2: { intros Z. apply I. assert (s - f = 0) by (replace (s - f) with ((s - f) / (f * s) * (f * s)) by (field; split; assumption); rewrite Z; ring). lra. }
  do 2 f_equal. field. repeat split; try assumption. lra.
Qed.
Notation Yn := (mk3 0 (-1) 0).
Notation Zt := (mk3 0 0 1).
Lemma Yn_dirn : dirn Yn = Yn. Proof. apply dirn_of_unit. unfold is_unit, r3dot. cbn. lra. Qed.
Lemma Zt_dirn : dirn Zt = Zt. Proof. apply dirn_of_unit. unfold is_unit, r3dot. cbn. lra. Qed.
Lemma Yn_nz : Yn <> r3zero. Proof. intros E. injection E. lra. Qed.
Lemma Zt_nz : Zt <> r3zero. Proof. intros E. injection E. lra. Qed.
Lemma Yn_along : along (dirn Yn) Y. Proof. right. rewrite Yn_dirn. apply r3_ext; cbn; ring. Qed.
Lemma some_nz v : v <> r3zero -> nz (Some v). Proof. intros Hv v' E. injection E as <-. exact Hv. Qed.
Lemma lens_built y D f : 0 < f -> exists l, mk_lens (V (Fin 0) (Fin y) (Fin 0)) (Some (V (Fin 0) (Fin (-1)) (Fin 0))) "spherical_biconvex" (Some (Fin D)) (Some (Fin f)) "ideal" (Fin (15 / 10)) = Ok l /\
  thin_built Y r3zero (mkThin y f D Yn (Fin (15 / 10)) l).
Proof.
  intros F. pose proof (C95_lens (mk3 0 y 0) (Some Yn) "spherical_biconvex" (Some D) (Some f) "ideal" (15 / 10) (some_nz _ Yn_nz)) as O. apply outcome_ok in O. destruct O as [_ O].
  destruct O as [l O]; [split; [now left|eexists; reflexivity]|]. exists l. split; [exact O|]. unfold thin_built. cbn [tz tf tD tn tix tl]. split; [exact Yn_nz|]. split; [exact Yn_along|]. split; [exact F|].
  replace (r3zero + y * Y)%r3 with (mk3 0 y 0) by (apply r3_ext; cbn; ring). exact O.
Qed.
Lemma detector_built y h w : 0 <= h -> 0 <= w -> exists k, mk_detector (V (Fin 0) (Fin y) (Fin 0)) (Some (V (Fin 0) (Fin (-1)) (Fin 0))) (Some (V (Fin 0) (Fin 0) (Fin 1))) "rectangular_flat" (Some (Fin w)) (Some (Fin h)) = Ok k /\
  mk_detector (fv (r3zero + y * Y)%r3) (Some (fv Yn)) (Some (fv Zt)) "rectangular_flat" (Some (Fin w)) (Some (Fin h)) = Ok k /\ with_log (ODetector k) [] = ODetector k.
Proof.
  intros Hh Hw. pose proof (C95_detector (mk3 0 y 0) (Some Yn) (Some Zt) "rectangular_flat" (Some w) (Some h) (some_nz _ Yn_nz) (some_nz _ Zt_nz)) as O.
  assert (G : "rectangular_flat"%string = "rectangular_flat"%string /\ rect_args (Some Yn) (Some Zt) (Some h) (Some w)).
  { split; [reflexivity|]. do 4 eexists. do 4 (split; [reflexivity|]). rewrite Yn_dirn, Zt_dirn. repeat split; try assumption. unfold r3dot; cbn. rewrite Rabs_right; lra. }
  destruct O as [(_ & _ & k & O & _ & _ & _ & Hk)|[(_ & G' & _)|(G' & _)]]; [|contradiction|contradiction]. exists k. split; [exact O|]. split; [|rewrite <- Hk; destruct k; reflexivity].
  replace (r3zero + y * Y)%r3 with (mk3 0 y 0) by (apply r3_ext; cbn; ring). exact O.
Qed.
Lemma in_detector y h w a b : Rabs a <= w / 2 -> Rabs b <= h / 2 -> in_rect (r3zero + y * Y)%r3 (dirn Yn) (dirn Zt) h w (mk3 a y b).
Proof.
  intros A B. rewrite Yn_dirn, Zt_dirn. unfold in_rect. split; right; unfold r3dot; cbn.
  - replace ((a - (0 + y * 0)) * 0 + (y - (0 + y * 1)) * 0 + (b - (0 + y * 0)) * 1) with b by ring. exact B.
  - match goal with |- Rabs ?e <= _ => replace e with (- a) by ring end. rewrite Rabs_Ropp. lra.
Qed.
Lemma reach_at x y z a b y' : reach Y r3zero (mk3 x y z) (slope a b) y' = mk3 (x + (y' - y) * a) y' (z + (y' - y) * b).
Proof. unfold reach, slope. apply r3_ext; unfold r3dot; cbn; ring. Qed.
Lemma axial x y z : (mk3 x y z - r3zero)%r3 ∙ Y = y.
Proof. unfold r3dot. cbn. ring. Qed.
Lemma off_axis x y z : (mk3 x y z - (r3zero + y * Y))%r3 = mk3 x 0 z.
Proof. apply r3_ext; cbn; ring. Qed.
Lemma slope_bend a b x z f : (slope a b - / f * mk3 x 0 z)%r3 = slope (a - x / f) (b - z / f).
Proof. unfold slope, Rdiv. apply r3_ext; cbn; ring. Qed.
Lemma object_ray x z t lam : 0 < cos t -> ray_is (mk_ray (fv (mk3 x 0 z)) (fv (mk3 0 (cos t) (sin t))) (Fin lam) (Fin 0) "normal") (mk3 x 0 z) (dirn (Y + slope 0 (tan t))%r3).
Proof.
  intros C. rewrite slope_dirn by exact C. split; [reflexivity|]. unfold mk_ray. cbn [direction]. apply unit_vector_unit. unfold is_unit, r3dot. cbn. pose proof (sin2_cos2 t) as E. unfold Rsqr in E. lra.
Qed.

(** one lens: 0 < f < y1; the object fits into the lens (D), the image on the detector, the way into L *)
Definition imaging_good (f y1 D h w L size angle : R) : Prop := let M := f / (y1 - f) in let X := size / 2 in let G := tan angle in
  0 < f < y1 /\ 1e-9 < y1 /\ 1e-9 < M * y1 /\ 0 < D /\ 0 <= h /\ 0 <= w /\ 0 <= size /\ 0 <= angle < PI / 2 /\
  X * X + (X + y1 * G) * (X + y1 * G) < D / 2 * (D / 2) /\ M * size <= h /\ M * size <= w /\
  steepness 0 G < 1e8 /\ steepness (X / f) (G + (X + y1 * G) / f) < 1e8 /\ y1 * steepness 0 G + M * y1 * steepness (X / f) (G + (X + y1 * G) / f) <= L.
(** one ray *)
Lemma imaging_ray f y1 D h w L size angle l k x z t fuel lam log : imaging_good f y1 D h w L size angle -> (2 <= fuel)%nat ->
  thin_built Y r3zero (mkThin y1 f D Yn (Fin (15 / 10)) l) -> let M := f / (y1 - f) in let yi := y1 + M * y1 in
  mk_detector (fv (r3zero + yi * Y)%r3) (Some (fv Yn)) (Some (fv Zt)) "rectangular_flat" (Some (Fin w)) (Some (Fin h)) = Ok k ->
  - size / 2 <= x <= size / 2 -> - size / 2 <= z <= size / 2 -> - angle <= t <= angle -> t = 0 \/ 1e-8 < Rabs (sin t) ->
  let r := mk_ray (fv (mk3 x 0 z)) (fv (mk3 0 (cos t) (sin t))) (Fin lam) (Fin 0) "normal" in
  exists r', run fuel r (Fin L) [OLens l; with_log (ODetector k) log] None = Ok (r', [OLens l; with_log (ODetector k) (log ++ [(fv (mk3 (- (M * x)) yi (- (M * z))), Fin lam)])]) /\
    blocked r' = true /\ position r' = fv (mk3 (- (M * x)) yi (- (M * z))) /\ point_history r' = [fv (mk3 x 0 z); fv (mk3 x y1 (z + y1 * tan t)); fv (mk3 (- (M * x)) yi (- (M * z)))].
Proof.
  intros Gd Hf Bl M yi Ek Hx Hz Ht Hr r. unfold imaging_good in Gd. cbv zeta in Gd. fold M in Gd. set (X := size / 2) in *. set (G := tan angle) in *. assert (EXs : X = size / 2) by reflexivity. replace (- size / 2) with (- X) in Hx, Hz by (rewrite EXs; field).
  destruct Gd as (F & Y1 & MY & PD & Hh & Hw & Hs & Ha & Ap & Mh & Mw & S1 & S2 & HL).
  assert (C : 0 < cos t) by (apply cos_gt_0; lra). assert (Tb : Rabs (tan t) <= G) by (apply tan_bound; [exact Ha|exact Ht]). pose proof Tb as Tb'. apply Rabs_le_inv in Tb'.
  assert (Ax : Rabs x <= X) by (apply Rabs_le; lra). assert (Az : Rabs (z + y1 * tan t) <= X + y1 * G) by (assert (B1 : y1 * tan t <= y1 * G) by (apply Rmult_le_compat_l; lra); assert (B2 : y1 * - G <= y1 * tan t) by (apply Rmult_le_compat_l; lra); apply Rabs_le; lra).
  set (q := mk3 x y1 (z + y1 * tan t)). set (g1 := slope (0 - x / f) (tan t - (z + y1 * tan t) / f)).
  assert (Eq : reach Y r3zero (mk3 x 0 z) (slope 0 (tan t)) y1 = q) by (rewrite reach_at; apply r3_ext; cbn; ring).
  assert (P : passes code_rule Y r3zero (mk3 x 0 z) (slope 0 (tan t)) [mkThin y1 f D Yn (Fin (15 / 10)) l] [q] q g1 ((y1 - 0) * steepness 0 (tan t) + 0)).
  { pose proof (passes_hit code_rule Y r3zero (mk3 x 0 z) (slope 0 (tan t)) g1 (mkThin y1 f D Yn (Fin (15 / 10)) l) [] [] q g1 0) as P. cbv zeta in P. cbn [tz tD tf] in P. rewrite Eq, axial, steep_len in P.
    replace (q - (r3zero + y1 * Y))%r3 with (mk3 x 0 (z + y1 * tan t)) in P by (unfold q; now rewrite off_axis). apply P.
    - lra.
    - eapply len_lt; eassumption.
    - eapply Rle_lt_trans; [|exact S1]. apply steep_mono; [rewrite Rabs_R0; lra|exact Tb].
    - left. split; [|rewrite slope_bend; reflexivity]. destruct Hr as [->|Hr]; [left; rewrite tan_0; reflexivity|right; now apply not_near].
    - constructor. }
  assert (Sg : steepness (0 - x / f) (tan t - (z + y1 * tan t) / f) <= steepness (X / f) (G + (X + y1 * G) / f)).
  { assert (I : 0 < / f) by (apply Rinv_0_lt_compat; lra). apply steep_mono.
    - replace (0 - x / f) with (- (x * / f)) by (unfold Rdiv; ring). rewrite Rabs_Ropp, Rabs_mult, (Rabs_right (/ f)) by lra. apply Rmult_le_compat_r; [lra|exact Ax].
    - eapply Rle_trans; [apply Rabs_triang|]. rewrite Rabs_Ropp. apply Rplus_le_compat; [exact Tb|]. unfold Rdiv. rewrite Rabs_mult, (Rabs_right (/ f)) by lra. apply Rmult_le_compat_r; [lra|exact Az]. }
  assert (Eyi : yi - y1 = M * y1) by (unfold yi; ring).
  assert (EX : reach Y r3zero q g1 yi = mk3 (- (M * x)) yi (- (M * z))).
  { unfold q, g1. rewrite reach_at. rewrite Eyi. unfold M. apply r3_ext; cbn; [|reflexivity|]; field; lra. }
  assert (PM : 0 < M) by (unfold M; apply Rmult_lt_0_compat; [lra|apply Rinv_0_lt_compat; lra]).
  destruct (C62_train Y r3zero [mkThin y1 f D Yn (Fin (15 / 10)) l] Yn Zt w h yi k log r (mk3 x 0 z) (slope 0 (tan t)) [q] q g1 ((y1 - 0) * steepness 0 (tan t) + 0) L fuel) as [Run _];
    [exact Y_unit|apply Forall_cons; [exact Bl|apply Forall_nil]|exact Yn_nz|exact Zt_nz|exact Yn_along|exact Ek| |now apply object_ray|apply slope_Y|reflexivity|discriminate|exact P| |cbn; lia|].
  { cbn. constructor; [constructor; constructor|]. constructor; [lra|constructor]. }
  { unfold g1. rewrite steep_len. lra. }
  rewrite EX in Run. unfold q at 1 2 in Run. rewrite axial, Eyi in Run. unfold g1 in Run. rewrite steep_len in Run. destruct Run as (r' & Run & B & Po & Hi).
  - apply in_detector; rewrite Rabs_Ropp, Rabs_mult, (Rabs_right M) by lra; [apply Rle_trans with (M * X); [apply Rmult_le_compat_l; [lra|exact Ax]|rewrite EXs; lra]|].
    apply Rle_trans with (M * X); [apply Rmult_le_compat_l; [lra|apply Rabs_le; lra]|rewrite EXs; lra].
  - exact MY.
  - eapply Rle_trans; [|exact HL]. rewrite Rplus_0_r, Rminus_0_r. apply Rplus_le_compat; apply Rmult_le_compat_l; try lra. apply steep_mono; [rewrite Rabs_R0; lra|exact Tb].
  - exists r'. split; [exact Run|]. split; [exact B|]. split; [exact Po|]. rewrite Hi. reflexivity.
Qed.

(** C100: script_testImaging.py, for any numbers that meet [imaging_good] and any resolution: every ray of the object grid is recorded by the detector, in the order in which the rays were
    made, with its colour, at the image of its origin: inverted and M times as large; no other records are made *)
Theorem C100_imaging : forall f y1 D h w L size angle xn zn an fuel, let M := f / (y1 - f) in let yi := y1 + M * y1 in
  imaging_good f y1 D h w L size angle -> (1 <= xn)%Z -> (1 <= zn)%Z -> (1 <= an)%Z -> resolved angle an -> (2 <= fuel)%nat ->
  exists xs zs ts l k rs, evenly (- size / 2) (size / 2) (Z.to_nat xn) xs /\ evenly (- size / 2) (size / 2) (Z.to_nat zn) zs /\ evenly (- angle) angle (Z.to_nat an) ts /\
    imaging_script fuel (Fin f) (Fin y1) (Fin D) (Fin h) (Fin w) (Fin L) (Fin size) (Fin angle) xn zn an = Ok (rs, [OLens l; ODetector k]) /\
    de_hit_data k = flat_map (fun x => flat_map (fun z => map (fun _ => (fv (mk3 (- (M * x)) yi (- (M * z))), Fin (colour x z))) ts) zs) xs /\
    Forall (fun r => blocked r = true) rs /\
    map point_history rs = flat_map (fun x => flat_map (fun z => map (fun t => [fv (mk3 x 0 z); fv (mk3 x y1 (z + y1 * tan t)); fv (mk3 (- (M * x)) yi (- (M * z)))]) ts) zs) xs.
Proof.
  intros f y1 D h w L size angle xn zn an fuel M yi Gd Hx Hz Ha Hr Hf. pose proof Gd as Gd'. unfold imaging_good in Gd'. cbv zeta in Gd'. destruct Gd' as (F & Y1 & MY & PD & Hh & Hw & Hs & Hang & _).
  destruct (object_rays size angle xn zn an Hx Hz Ha) as (xs & zs & ts & Sx & Sz & St & Sh). exists xs, zs, ts.
  destruct (lens_built y1 D f ltac:(lra)) as (l & El & Bl). destruct (detector_built yi h w Hh Hw) as (k0 & Ek & Ek' & Kl).
  set (rec x z (t : R) := (fv (mk3 (- (M * x)) yi (- (M * z))), Fin (colour x z))).
  set (ray0 x z t := mk_ray (fv (mk3 x 0 z)) (fv (mk3 0 (cos t) (sin t))) (Fin (colour x z)) (Fin 0) "normal") in *.
  set (hist x z t := [fv (mk3 x 0 z); fv (mk3 x y1 (z + y1 * tan t)); fv (mk3 (- (M * x)) yi (- (M * z)))]).
  assert (F2 : Forall2 (fun r (rh : (vec xr * xr) * list (vec xr)) => forall log, exists r', run fuel r (Fin L) [OLens l; with_log (ODetector k0) log] None = Ok (r', [OLens l; with_log (ODetector k0) (log ++ [fst rh])]) /\
       blocked r' = true /\ point_history r' = snd rh) (grid ray0 xs zs ts) (grid (fun x z t => (rec x z t, hist x z t)) xs zs ts)).
  { apply grid_forall2. intros x z t Ix Iz It log. pose proof (evenly_bounds _ _ _ _ _ Sx Ix ltac:(lra)) as Bx. pose proof (evenly_bounds _ _ _ _ _ Sz Iz ltac:(lra)) as Bz.
    destruct (samples_resolved angle an ts t St Ha Hr Hang It) as [Bt Rt].
    destruct (imaging_ray f y1 D h w L size angle l k0 x z t fuel (colour x z) log Gd Hf Bl Ek' Bx Bz Bt Rt) as (r' & Run & B & _ & Hi). exists r'. cbn [fst snd]. auto. }
  destruct (shoot (fun log => [OLens l; with_log (ODetector k0) log]) fuel L _ _ F2 []) as (rs & Run & B & P). clear F2. cbn [app] in Run.
  rewrite (grid_map (fun x z t => (rec x z t, hist x z t))) in Run, P. rewrite !map_map in Run, P. cbn [fst snd] in Run, P. rewrite <- (grid_map rec) in Run. rewrite <- (grid_map hist) in P.
  eexists l, _, rs. split; [exact Sx|]. split; [exact Sz|]. split; [exact St|]. split; [|split; [|split; [exact B|exact P]]].
  - unfold imaging_script, imaging_scene. rewrite !nofZ_fin, nsub_fin, Rminus_0_r, thin_dist_fin by lra. cbn [bind]. rewrite nadd_fin.
    replace (y1 + f * y1 / (y1 - f)) with yi by (unfold yi, M; field; lra). rewrite pydiv_fin by lra. cbn [bind]. rewrite dec_fin by discriminate. change (IZR 15 / IZR (10 ^ 1)) with (15 / 10). rewrite El. cbn [bind]. rewrite Ek. cbn [bind].
    rewrite Sh. fold ray0. rewrite Kl in Run. rewrite Run. reflexivity.
  - reflexivity.
Qed.
Print Assumptions C100_imaging.
Lemma atan_small : tan (atan (1 / 16)) = 1 / 16 /\ 0 <= atan (1 / 16) < PI / 2 /\ resolved (atan (1 / 16)) 3.
Proof.
  assert (P : 0 < atan (1 / 16)) by (rewrite <- atan_0; apply atan_increasing; lra). pose proof (atan_bound (1 / 16)) as B.
  split; [apply tan_atan|]. split; [lra|]. right; right. change (IZR (3 - 1)) with 2. set (a := atan (1 / 16)) in *.
  assert (S : 1 / 32 <= sin a). { unfold a. rewrite sin_atan. assert (S2 : sqrt (1 + (1 / 16)²) <= 2) by (replace 2 with (sqrt 4) by (replace 4 with (2 * 2) by lra; apply sqrt_square; lra); apply sqrt_le_1_alt; unfold Rsqr; lra).
    assert (S1 : 0 < sqrt (1 + (1 / 16)²)) by (apply sqrt_lt_R0; unfold Rsqr; lra). apply Rmult_le_reg_r with (sqrt (1 + (1 / 16)²)); [exact S1|]. replace (1 / 16 / sqrt (1 + (1 / 16)²) * sqrt (1 + (1 / 16)²)) with (1 / 16) by (field; lra). lra. }
  replace a with (2 * (a / 2)) in S by field. rewrite sin_2a in S. pose proof (COS_bound (a / 2)) as C. assert (0 < sin (a / 2)) by (apply sin_gt_0; lra). nra.
Qed.
Lemma steep_le a b s : 0 < s -> 1 + a * a + b * b <= s * s -> steepness a b <= s.
Proof. intros P H. unfold steepness. rewrite <- (sqrt_square s) by lra. apply sqrt_le_1_alt. exact H. Qed.
(** the script's own numbers *)
Theorem C100_imaging_script : imaging_good 25 50 50 30 30 150 10 (atan (1 / 16)) /\ resolved (atan (1 / 16)) 3.
Proof.
  destruct atan_small as (T & A & R). split; [|exact R]. unfold imaging_good. cbv zeta. rewrite T.
  assert (S1 : steepness 0 (1 / 16) <= 11 / 10) by (apply steep_le; lra). assert (S2 : steepness (10 / 2 / 25) (1 / 16 + (10 / 2 + 50 * (1 / 16)) / 25) <= 11 / 10) by (apply steep_le; lra).
  repeat split; lra.
Qed.
Print Assumptions C100_imaging_script.

(* ---- two lenses *)
(** 0 < f1 < y1; b is the distance from the intermediate image to the second lens, 0 < f2 < b; the apertures, the detector and L are large enough *)
Definition relay_good (f1 f2 y1 y2 D1 D2 h w L size angle : R) : Prop :=
  let M1 := f1 / (y1 - f1) in let b := y2 - (y1 + M1 * y1) in let M2 := f2 / (b - f2) in let X := size / 2 in let G := tan angle in
  let a1 := X / f1 in let b1 := X / f1 + G / M1 in let A2 := X * (M1 + b / f1) in let B2 := X * (M1 + b / f1) + b * (G / M1) in let a2 := a1 + A2 / f2 in let b2 := b1 + B2 / f2 in
  0 < f1 < y1 /\ 0 < f2 < b /\ 1e-9 < y1 /\ 1e-9 < b /\ 1e-9 < M2 * b /\ 0 < D1 /\ 0 < D2 /\ 0 <= h /\ 0 <= w /\ 0 <= size /\ 0 <= angle < PI / 2 /\
  X * X + (X + y1 * G) * (X + y1 * G) < D1 / 2 * (D1 / 2) /\ A2 * A2 + B2 * B2 < D2 / 2 * (D2 / 2) /\
  M1 * M2 * X + 2e-8 * (M2 * b) <= h / 2 /\ M1 * M2 * X + 2e-8 * (M2 * b) <= w / 2 /\
  steepness 0 G < 1e8 /\ steepness a1 b1 < 1e8 /\ steepness a2 b2 < 1e8 /\ y1 * steepness 0 G + (y2 - y1) * steepness a1 b1 + M2 * b * steepness a2 b2 <= L.
(** between the lenses the ray is parallel to the axis or (beyond the tolerance of the lens code) oblique *)
Definition clear_between (f1 y1 x z g : R) : Prop := let gx := - x / f1 in let gz := - (z + (y1 - f1) * g) / f1 in
  gx = 0 /\ gz = 0 \/ 1e-8 * steepness gx gz < Rabs gx \/ 1e-8 * steepness gx gz < Rabs gz.
Lemma clear_exact a b : a = 0 /\ b = 0 \/ 1e-8 * steepness a b < Rabs a \/ 1e-8 * steepness a b < Rabs b -> slope a b = r3zero \/ ~ near3 (dirn (Y + slope a b)%r3) Y.
Proof.
  assert (Sp : 0 < steepness a b) by (unfold steepness; apply sqrt_lt_R0; pose proof (Rle_0_sqr a); pose proof (Rle_0_sqr b); unfold Rsqr in *; lra).
  assert (Ed : dirn (Y + slope a b)%r3 = mk3 (a / steepness a b) (1 / steepness a b) (b / steepness a b)).
  { unfold dirn. rewrite steep_len. apply r3_ext; unfold slope; cbn; field; lra. }
  intros [[-> ->]|H]; [left; reflexivity|right]. rewrite Ed. unfold near3, near1. cbn. intros (H1 & _ & H3). rewrite Rminus_0_r, Rabs_R0 in H1, H3.
  assert (K : forall c, Rabs (c / steepness a b) <= 1e-8 + 1e-10 * 0 -> Rabs c <= 1e-8 * steepness a b).
  { intros c Hc. unfold Rdiv in Hc. rewrite Rabs_mult, (Rabs_right (/ steepness a b)) in Hc by (apply Rle_ge; left; now apply Rinv_0_lt_compat).
    apply Rmult_le_compat_r with (r := steepness a b) in Hc; [|lra]. rewrite Rmult_assoc, Rinv_l in Hc by lra. lra. }
  apply K in H1, H3. destruct H; lra.
Qed.
Lemma near3_dec u v : {near3 u v} + {~ near3 u v}.
Proof. unfold near3, near1. destruct (Rle_dec (Rabs (cx u - cx v)) (1e-8 + 1e-10 * Rabs (cx v))), (Rle_dec (Rabs (cy u - cy v)) (1e-8 + 1e-10 * Rabs (cy v))), (Rle_dec (Rabs (cz u - cz v)) (1e-8 + 1e-10 * Rabs (cz v))); [left; tauto|right; tauto..]. Qed.
Lemma lens_rule a b x z f A B X Z : 0 < f -> Rabs a <= A -> Rabs b <= B -> Rabs x <= X -> Rabs z <= Z ->
  exists a' b', code_rule Y (slope a b) (mk3 x 0 z) f (slope a' b') /\ Rabs a' <= A + X / f /\ Rabs b' <= B + Z / f.
Proof.
  intros F HA HB HX HZ. assert (I : 0 < / f) by (apply Rinv_0_lt_compat; lra).
  assert (D : forall c C, Rabs c <= C -> Rabs (c / f) <= C / f). { intros c C H. unfold Rdiv. rewrite Rabs_mult, (Rabs_right (/ f)) by lra. apply Rmult_le_compat_r; lra. }
  pose proof (D _ _ HX) as DX. pose proof (D _ _ HZ) as DZ. pose proof (Rabs_pos a). pose proof (Rabs_pos b).
  destruct (near3_dec (dirn (Y + slope a b)%r3) Y) as [N|N].
  - exists (- (x / f)), (- (z / f)). split; [right; split; [exact N|unfold slope, Rdiv; apply r3_ext; cbn; ring]|]. rewrite !Rabs_Ropp. lra.
  - exists (a - x / f), (b - z / f). split; [left; split; [now right|now rewrite slope_bend]|]. split; (eapply Rle_trans; [apply Rabs_triang|]); rewrite Rabs_Ropp; lra.
Qed.
Lemma abs_lin a b c d A B C D : Rabs a <= A -> Rabs b <= B -> Rabs c <= C -> Rabs d <= D -> Rabs (a * b + c * d) <= A * B + C * D.
Proof.
  intros HA HB HC HD. eapply Rle_trans; [apply Rabs_triang|]. rewrite !Rabs_mult. pose proof (Rabs_pos a). pose proof (Rabs_pos b). pose proof (Rabs_pos c). pose proof (Rabs_pos d). apply Rplus_le_compat; apply Rmult_le_compat; assumption.
Qed.
Lemma dist_at a b a' b' y : dist3 (mk3 a y b) (mk3 a' y b') = sqrt ((a - a') * (a - a') + (b - b') * (b - b')).
Proof. unfold dist3. rewrite len_sqrt. unfold r3dot. cbn. f_equal. ring. Qed.
Lemma dist_comp a b a' b' y e : dist3 (mk3 a y b) (mk3 a' y b') <= e -> Rabs (a - a') <= e /\ Rabs (b - b') <= e.
Proof.
  rewrite dist_at. intros H. set (u := a - a') in *. set (v := b - b') in *. clearbody u v. pose proof (sqrt_pos (u * u + v * v)) as P.
  assert (E : sqrt (u * u + v * v) * sqrt (u * u + v * v) = u * u + v * v) by (apply sqrt_sqrt; nra). set (s := sqrt (u * u + v * v)) in *. clearbody s. split; apply Rabs_le; nra.
Qed.
(** one ray through the relay *)
Lemma relay_ray f1 f2 y1 y2 D1 D2 h w L size angle l1 l2 k x z t fuel lam : relay_good f1 f2 y1 y2 D1 D2 h w L size angle -> (3 <= fuel)%nat ->
  thin_built Y r3zero (mkThin y1 f1 D1 Yn (Fin (15 / 10)) l1) -> thin_built Y r3zero (mkThin y2 f2 D2 Yn (Fin (15 / 10)) l2) ->
  let M1 := f1 / (y1 - f1) in let b := y2 - (y1 + M1 * y1) in let M2 := f2 / (b - f2) in let yi := y2 + M2 * b in
  mk_detector (fv (r3zero + yi * Y)%r3) (Some (fv Yn)) (Some (fv Zt)) "rectangular_flat" (Some (Fin w)) (Some (Fin h)) = Ok k ->
  - size / 2 <= x <= size / 2 -> - size / 2 <= z <= size / 2 -> - angle <= t <= angle -> t = 0 \/ 1e-8 < Rabs (sin t) ->
  let r := mk_ray (fv (mk3 x 0 z)) (fv (mk3 0 (cos t) (sin t))) (Fin lam) (Fin 0) "normal" in let I := mk3 (M1 * M2 * x) yi (M1 * M2 * z) in
  exists X hist, (forall log, exists r', run fuel r (Fin L) [OLens l1; OLens l2; with_log (ODetector k) log] None = Ok (r', [OLens l1; OLens l2; with_log (ODetector k) (log ++ [(fv X, Fin lam)])]) /\
    blocked r' = true /\ point_history r' = hist) /\ cy X = yi /\ dist3 X I <= 2e-8 * (M2 * b) /\ (clear_between f1 y1 x z (tan t) -> X = I) /\
    hist = [fv (mk3 x 0 z); fv (mk3 x y1 (z + y1 * tan t)); fv (mk3 (- (M1 + b / f1) * x) y2 (- (M1 + b / f1) * z - b / M1 * tan t)); fv X].
Proof.
  intros Gd Hf B1 B2 M1 b M2 yi Ek Hx Hz Ht Hr r I. unfold relay_good in Gd. cbv zeta in Gd. fold M1 in Gd. fold b in Gd. fold M2 in Gd. set (X := size / 2) in *. set (G := tan angle) in *. assert (EXs : X = size / 2) by reflexivity. replace (- size / 2) with (- X) in Hx, Hz by (rewrite EXs; field).
  destruct Gd as (F & F2 & Y1 & Y12 & MY & PD1 & PD2 & Hh & Hw & Hs & Ha & Ap1 & Ap2 & Mh & Mw & S1 & S2 & S3 & HL).
  assert (C : 0 < cos t) by (apply cos_gt_0; lra). assert (Tb : Rabs (tan t) <= G) by (apply tan_bound; [exact Ha|exact Ht]). pose proof Tb as Tb'. apply Rabs_le_inv in Tb'.
  assert (Ax : Rabs x <= X) by (apply Rabs_le; lra). assert (Az0 : Rabs z <= X) by (apply Rabs_le; lra). assert (Az : Rabs (z + y1 * tan t) <= X + y1 * G) by (assert (K1 : y1 * tan t <= y1 * G) by (apply Rmult_le_compat_l; lra); assert (K2 : y1 * - G <= y1 * tan t) by (apply Rmult_le_compat_l; lra); apply Rabs_le; lra).
  assert (PM1 : 0 < M1) by (unfold M1; apply Rmult_lt_0_compat; [lra|apply Rinv_0_lt_compat; lra]). assert (PM2 : 0 < M2) by (unfold M2; apply Rmult_lt_0_compat; [lra|apply Rinv_0_lt_compat; lra]).
  assert (If : 0 < / f1) by (apply Rinv_0_lt_compat; lra). assert (IM : 0 < / M1) by (apply Rinv_0_lt_compat; lra).
  set (q1 := mk3 x y1 (z + y1 * tan t)). set (ga := - x / f1). set (gb := - z / f1 - tan t / M1).
  set (x2 := - (M1 + b / f1) * x). set (z2 := - (M1 + b / f1) * z - b / M1 * tan t). set (q2 := mk3 x2 y2 z2).
  assert (Aga : Rabs ga <= X / f1). { unfold ga, Rdiv. rewrite Rabs_mult, Rabs_Ropp, (Rabs_right (/ f1)) by lra. apply Rmult_le_compat_r; lra. }
  assert (Agb : Rabs gb <= X / f1 + G / M1).
  { unfold gb, Rdiv. replace (- z * / f1 - tan t * / M1) with ((- z) * / f1 + (- tan t) * / M1) by ring. apply abs_lin; rewrite ?Rabs_Ropp; try assumption; rewrite Rabs_right; lra. }
  assert (Pb : 0 < M1 + b / f1) by (assert (0 < b * / f1) by (apply Rmult_lt_0_compat; lra); unfold Rdiv; lra).
  assert (Ax2 : Rabs x2 <= X * (M1 + b / f1)). { unfold x2. rewrite Rabs_mult, Rabs_Ropp, (Rabs_right (M1 + b / f1)) by lra. rewrite (Rmult_comm X). apply Rmult_le_compat_l; lra. }
  assert (Az2 : Rabs z2 <= X * (M1 + b / f1) + b * (G / M1)).
  { unfold z2. replace (- (M1 + b / f1) * z - b / M1 * tan t) with ((- z) * (M1 + b / f1) + (- tan t) * (b * / M1)) by (unfold Rdiv; ring). replace (b * (G / M1)) with (G * (b * / M1)) by (unfold Rdiv; ring).
    assert (0 < b * / M1) by (apply Rmult_lt_0_compat; lra). apply abs_lin; rewrite ?Rabs_Ropp; try assumption; rewrite Rabs_right; lra. }
  destruct (lens_rule ga gb x2 z2 f2 _ _ _ _ ltac:(lra) Aga Agb Ax2 Az2) as (a' & b' & Rule & Aa & Ab).
  assert (Eq1 : reach Y r3zero (mk3 x 0 z) (slope 0 (tan t)) y1 = q1) by (rewrite reach_at; apply r3_ext; cbn; ring).
  assert (Eq2 : reach Y r3zero q1 (slope ga gb) y2 = q2).
  { unfold q1. rewrite reach_at. unfold q2, x2, z2, ga, gb. apply r3_ext; cbn; [|reflexivity|]; unfold b, M1; field; lra. }
  assert (P2 : passes code_rule Y r3zero q1 (slope ga gb) [mkThin y2 f2 D2 Yn (Fin (15 / 10)) l2] [q2] q2 (slope a' b') ((y2 - y1) * steepness ga gb + 0)).
  { pose proof (passes_hit code_rule Y r3zero q1 (slope ga gb) (slope a' b') (mkThin y2 f2 D2 Yn (Fin (15 / 10)) l2) [] [] q2 (slope a' b') 0) as P. cbv zeta in P. cbn [tz tD tf] in P. rewrite Eq2 in P. unfold q1 in P. rewrite axial, steep_len in P. fold q1 in P.
    replace (q2 - (r3zero + y2 * Y))%r3 with (mk3 x2 0 z2) in P by (unfold q2; now rewrite off_axis). apply P.
    - unfold b in Y12. assert (0 < M1 * y1) by (apply Rmult_lt_0_compat; lra). lra.
    - eapply len_lt; eassumption.
    - eapply Rle_lt_trans; [|exact S2]. apply steep_mono; assumption.
    - exact Rule.
    - constructor. }
  assert (P : passes code_rule Y r3zero (mk3 x 0 z) (slope 0 (tan t)) [mkThin y1 f1 D1 Yn (Fin (15 / 10)) l1; mkThin y2 f2 D2 Yn (Fin (15 / 10)) l2] [q1; q2] q2 (slope a' b') ((y1 - 0) * steepness 0 (tan t) + ((y2 - y1) * steepness ga gb + 0))).
  { pose proof (passes_hit code_rule Y r3zero (mk3 x 0 z) (slope 0 (tan t)) (slope ga gb) (mkThin y1 f1 D1 Yn (Fin (15 / 10)) l1) [mkThin y2 f2 D2 Yn (Fin (15 / 10)) l2] [q2] q2 (slope a' b') ((y2 - y1) * steepness ga gb + 0)) as P. cbv zeta in P. cbn [tz tD tf] in P. rewrite Eq1, axial, steep_len in P.
    replace (q1 - (r3zero + y1 * Y))%r3 with (mk3 x 0 (z + y1 * tan t)) in P by (unfold q1; now rewrite off_axis). apply P.
    - lra.
    - eapply len_lt; eassumption.
    - eapply Rle_lt_trans; [|exact S1]. apply steep_mono; [rewrite Rabs_R0; lra|exact Tb].
    - left. split; [destruct Hr as [->|Hr]; [left; rewrite tan_0; reflexivity|right; now apply not_near]|]. rewrite slope_bend. unfold ga, gb. unfold slope. apply r3_ext; cbn; [|reflexivity|]; unfold M1; field; lra.
    - exact P2. }
  (* the image *) 
  set (Xr := mk3 (x2 + M2 * b * a') yi (z2 + M2 * b * b')).
  assert (EX : reach Y r3zero q2 (slope a' b') yi = Xr) by (unfold q2, Xr; rewrite reach_at; unfold yi; apply r3_ext; cbn; ring).
  set (I1 := mk3 (- (M1 * x)) (y1 + M1 * y1) (- (M1 * z))).
  assert (P2' : exists s, passes code_rule Y r3zero I1 (slope ga gb) [mkThin y2 f2 D2 Yn (Fin (15 / 10)) l2] [q2] q2 (slope a' b') s).
  { assert (Eq2' : reach Y r3zero I1 (slope ga gb) y2 = q2) by (unfold I1; rewrite reach_at; fold b; unfold q2, x2, z2, ga, gb; apply r3_ext; cbn; [|reflexivity|]; unfold Rdiv; ring).
    pose proof (passes_hit code_rule Y r3zero I1 (slope ga gb) (slope a' b') (mkThin y2 f2 D2 Yn (Fin (15 / 10)) l2) [] [] q2 (slope a' b') 0) as P'. cbv zeta in P'. cbn [tz tD tf] in P'. rewrite Eq2' in P'. unfold I1 in P'. rewrite axial, steep_len in P'. fold I1 in P'. fold b in P'.
    replace (q2 - (r3zero + y2 * Y))%r3 with (mk3 x2 0 z2) in P' by (unfold q2; now rewrite off_axis). eexists. apply P'.
    - exact Y12.
    - eapply len_lt; eassumption.
    - eapply Rle_lt_trans; [|exact S2]. apply steep_mono; assumption.
    - exact Rule.
    - constructor. }
  destruct P2' as (s' & P2').
  assert (Pos : (I1 - r3zero)%r3 ∙ Y = y1 + M1 * y1) by (unfold I1; apply axial).
  destruct (C63_single Y r3zero (mkThin y2 f2 D2 Yn (Fin (15 / 10)) l2) I1 (slope ga gb) q2 (slope a' b') s' q2 b (M2 * b) Y_unit (slope_Y _ _) P2') as [Dist Ex]; [cbn [tf]; lra|cbn [tz]; rewrite Pos; reflexivity|apply Rmult_lt_0_compat; lra|cbn [tf]; unfold M2; field; lra|].
  cbn [tz] in Dist, Ex. fold yi in Dist, Ex. rewrite EX in Dist, Ex.
  assert (EI : (r3zero + yi * Y - (M2 * b / b) * offset Y r3zero I1)%r3 = I).
  { replace (M2 * b / b) with M2 by (field; lra). unfold offset. rewrite Pos. unfold I, I1. apply r3_ext; cbn; ring. }
  rewrite EI in Dist, Ex.
  assert (Sl : steepness a' b' <= steepness (X / f1 + X * (M1 + b / f1) / f2) (X / f1 + G / M1 + (X * (M1 + b / f1) + b * (G / M1)) / f2)) by (apply steep_mono; assumption).
  assert (In : in_rect (r3zero + yi * Y)%r3 (dirn Yn) (dirn Zt) h w Xr).
  { unfold Xr. unfold Xr, I in Dist. apply dist_comp in Dist. destruct Dist as [D1' D2']. assert (PMM : 0 < M1 * M2) by (apply Rmult_lt_0_compat; lra).
    assert (K : forall c, Rabs c <= X -> Rabs (M1 * M2 * c) <= M1 * M2 * X) by (intros c Hc; rewrite Rabs_mult, (Rabs_right (M1 * M2)) by lra; apply Rmult_le_compat_l; lra).
    apply K in Ax, Az0. set (e := 2e-8 * (M2 * b)) in *. clearbody e. apply Rabs_le_inv in Ax, Az0, D1', D2'. apply in_detector; apply Rabs_le; lra. }
  exists Xr. eexists. split; [|split; [reflexivity|split; [exact Dist|split; [|reflexivity]]]].
  - intros log. destruct (C62_train Y r3zero [mkThin y1 f1 D1 Yn (Fin (15 / 10)) l1; mkThin y2 f2 D2 Yn (Fin (15 / 10)) l2] Yn Zt w h yi k log r (mk3 x 0 z) (slope 0 (tan t)) [q1; q2] q2 (slope a' b') ((y1 - 0) * steepness 0 (tan t) + ((y2 - y1) * steepness ga gb + 0)) L fuel) as [Run _];
      [exact Y_unit|apply Forall_cons; [exact B1|apply Forall_cons; [exact B2|apply Forall_nil]]|exact Yn_nz|exact Zt_nz|exact Yn_along|exact Ek| |now apply object_ray|apply slope_Y|reflexivity|discriminate|exact P| |cbn; lia|].
    { assert (0 < M1 * y1) by (apply Rmult_lt_0_compat; lra). assert (y1 < y2) by (unfold b in Y12; lra). assert (y2 < yi) by (unfold yi; lra).
      cbn. constructor; [constructor; [constructor; constructor|constructor; [lra|constructor]]|]. constructor; [lra|constructor; [lra|constructor]]. }
    { rewrite steep_len. lra. }
    rewrite EX in Run. unfold q2 at 1 2 in Run. rewrite axial in Run. rewrite steep_len in Run. destruct Run as (r' & Run & Bk & Po & Hi).
    + exact In.
    + unfold yi. lra.
    + eapply Rle_trans; [|exact HL]. replace (yi - y2) with (M2 * b) by (unfold yi; ring). rewrite Rplus_0_r, Rminus_0_r. assert (0 < M1 * y1) by (apply Rmult_lt_0_compat; lra). assert (y1 < y2) by (unfold b in Y12; lra).
      apply Rplus_le_compat; [apply Rplus_le_compat|]; apply Rmult_le_compat_l; try lra; apply steep_mono; try assumption. rewrite Rabs_R0; lra.
    + exists r'. split; [exact Run|]. split; [exact Bk|]. rewrite Hi. reflexivity.
  - intros Cl. apply Ex. apply clear_exact. unfold clear_between in Cl. cbv zeta in Cl. fold ga in Cl. replace (- (z + (y1 - f1) * tan t) / f1) with gb in Cl by (unfold gb, M1; field; lra). exact Cl.
Qed.
Lemma choose {A B} (P : A -> B -> Prop) l : (forall a, In a l -> exists b, P a b) -> exists bs, Forall2 P l bs.
Proof. induction l as [|a l IH]; intros H; [exists []; constructor|]. destruct (H a (or_introl eq_refl)) as (b & Hb). destruct IH as (bs & Hbs); [intros; apply H; now right|]. exists (b :: bs). now constructor. Qed.
Lemma grid_in xs zs ts x z t : In (x, z, t) (grid (fun x z t => (x, z, t)) xs zs ts) -> In x xs /\ In z zs /\ In t ts.
Proof.
  unfold grid. intros H. apply in_flat_map in H. destruct H as (x' & Hx & H). apply in_flat_map in H. destruct H as (z' & Hz & H). apply in_map_iff in H. destruct H as (t' & E & Ht).
  injection E as -> -> ->. auto.
Qed.
Lemma combine_map_l {A B C} (f : A -> C) (l : list A) (m : list B) : Forall2 (fun _ _ => True) l m -> map (fun q => f (fst q)) (combine l m) = map f l.
Proof. induction 1; cbn; congruence. Qed.

(** the rays of the object in the order of the script: origin (x, 0, z), angle t *)
Definition object (xs zs ts : list R) : list (R * R * R) := flat_map (fun x => flat_map (fun z => map (fun t => (x, z, t)) ts) zs) xs.
(** C100: script_testIdealRelay.py, for any numbers that meet [relay_good] and any resolution: every ray is recorded, in order and with its colour, at a point P that agrees with the upright
    image (magnification M1 M2) of its origin up to 2e-8 of the image distance, and exactly unless the ray between the lenses is almost but not quite parallel to the axis *)
Theorem C100_relay : forall f1 f2 y1 y2 D1 D2 h w L size angle xn zn an fuel,
  let M1 := f1 / (y1 - f1) in let b := y2 - (y1 + M1 * y1) in let M2 := f2 / (b - f2) in let yi := y2 + M2 * b in
  relay_good f1 f2 y1 y2 D1 D2 h w L size angle -> (1 <= xn)%Z -> (1 <= zn)%Z -> (1 <= an)%Z -> resolved angle an -> (3 <= fuel)%nat ->
  exists xs zs ts Ps l1 l2 k rs, evenly (- size / 2) (size / 2) (Z.to_nat xn) xs /\ evenly (- size / 2) (size / 2) (Z.to_nat zn) zs /\ evenly (- angle) angle (Z.to_nat an) ts /\
    relay_script fuel (Fin f1) (Fin f2) (Fin y1) (Fin y2) (Fin D1) (Fin D2) (Fin h) (Fin w) (Fin L) (Fin size) (Fin angle) xn zn an = Ok (rs, [OLens l1; OLens l2; ODetector k]) /\
    Forall2 (fun q P => let '(x, z, t) := q in let I := mk3 (M1 * M2 * x) yi (M1 * M2 * z) in
        cy P = yi /\ dist3 P I <= 2e-8 * (M2 * b) /\ (clear_between f1 y1 x z (tan t) -> P = I)) (object xs zs ts) Ps /\
    de_hit_data k = map (fun qP => let '(x, z, t, P) := qP in (fv P, Fin (colour x z))) (combine (object xs zs ts) Ps) /\
    Forall (fun r => blocked r = true) rs /\
    map point_history rs = map (fun qP => let '(x, z, t, P) := qP in
        [fv (mk3 x 0 z); fv (mk3 x y1 (z + y1 * tan t)); fv (mk3 (- (M1 + b / f1) * x) y2 (- (M1 + b / f1) * z - b / M1 * tan t)); fv P]) (combine (object xs zs ts) Ps).
Proof.
  intros f1 f2 y1 y2 D1 D2 h w L size angle xn zn an fuel M1 b M2 yi Gd Hx Hz Ha Hr Hf. pose proof Gd as Gd'. unfold relay_good in Gd'. cbv zeta in Gd'. fold M1 in Gd'. fold b in Gd'. fold M2 in Gd'. destruct Gd' as (F & F2' & Y1 & Yb & MY & PD1 & PD2 & Hh & Hw & Hs & Hang & _).
  destruct (object_rays size angle xn zn an Hx Hz Ha) as (xs & zs & ts & Sx & Sz & St & Sh). exists xs, zs, ts.
  destruct (lens_built y1 D1 f1 ltac:(lra)) as (l1 & El1 & Bl1). destruct (lens_built y2 D2 f2 ltac:(lra)) as (l2 & El2 & Bl2). destruct (detector_built yi h w Hh Hw) as (k0 & Ek & Ek' & Kl).
  set (ray0 x z t := mk_ray (fv (mk3 x 0 z)) (fv (mk3 0 (cos t) (sin t))) (Fin (colour x z)) (Fin 0) "normal") in *.
  set (hist x z t P := [fv (mk3 x 0 z); fv (mk3 x y1 (z + y1 * tan t)); fv (mk3 (- (M1 + b / f1) * x) y2 (- (M1 + b / f1) * z - b / M1 * tan t)); fv P]).
  set (world log := [OLens l1; OLens l2; with_log (ODetector k0) log]).
  assert (F2 : exists Ps, Forall2 (fun q P => let '(x, z, t) := q in let I := mk3 (M1 * M2 * x) yi (M1 * M2 * z) in
      (forall log, exists r', run fuel (ray0 x z t) (Fin L) (world log) None = Ok (r', world (log ++ [(fv P, Fin (colour x z))])) /\ blocked r' = true /\ point_history r' = hist x z t P) /\
      cy P = yi /\ dist3 P I <= 2e-8 * (M2 * b) /\ (clear_between f1 y1 x z (tan t) -> P = I)) (object xs zs ts) Ps).
  { apply choose. intros [[x z] t] In. apply grid_in in In. destruct In as (Ix & Iz & It). pose proof (evenly_bounds _ _ _ _ _ Sx Ix ltac:(lra)) as Bx. pose proof (evenly_bounds _ _ _ _ _ Sz Iz ltac:(lra)) as Bz.
    destruct (samples_resolved angle an ts t St Ha Hr Hang It) as [Bt Rt].
    destruct (relay_ray f1 f2 y1 y2 D1 D2 h w L size angle l1 l2 k0 x z t fuel (colour x z) Gd Hf Bl1 Bl2 Ek' Bx Bz Bt Rt) as (P & hs & Run & Cy & Di & Cl & Hh'). exists P. rewrite Hh' in Run. auto. }
  destruct F2 as (Ps & F2). exists Ps.
  assert (Rays : Forall2 (fun r (rh : (vec xr * xr) * list (vec xr)) => forall log, exists r', run fuel r (Fin L) (world log) None = Ok (r', world (log ++ [fst rh])) /\ blocked r' = true /\ point_history r' = snd rh)
     (grid ray0 xs zs ts) (map (fun qP => let '(x, z, t, P) := qP in ((fv P, Fin (colour x z)), hist x z t P)) (combine (object xs zs ts) Ps))).
  { rewrite (grid_map ray0). change (grid (fun x z t => (x, z, t)) xs zs ts) with (object xs zs ts). clear - F2. induction F2 as [|[[x z] t] P qs Ps [H _] _ IH]; cbn [map combine fst snd]; constructor; [exact H|exact IH]. }
  destruct (shoot world fuel L _ _ Rays []) as (rs & Run & B & Hi). cbn [app] in Run. rewrite !map_map in Run, Hi.
  eexists l1, l2, _, rs. split; [exact Sx|]. split; [exact Sz|]. split; [exact St|]. split; [|split; [|split; [|split; [exact B|]]]].
  - unfold relay_script, relay_scene. rewrite !nofZ_fin, !nsub_fin, Rminus_0_r, thin_dist_fin by lra. cbn [bind]. rewrite nadd_fin, nsub_fin.
    replace (y2 - (y1 + f1 * y1 / (y1 - f1))) with b by (unfold b, M1; field; lra). rewrite thin_dist_fin by lra. cbn [bind]. rewrite nadd_fin.
    replace (y2 + f2 * b / (b - f2)) with yi by (unfold yi, M2; field; lra). rewrite pydiv_fin by lra. cbn [bind]. rewrite dec_fin by discriminate. change (IZR 15 / IZR (10 ^ 1)) with (15 / 10). rewrite El1. cbn [bind]. rewrite El2. cbn [bind]. rewrite Ek. cbn [bind].
    rewrite Sh. fold ray0. unfold world at 1 in Run. rewrite Kl in Run. rewrite Run. reflexivity.
  - clear - F2. induction F2 as [|[[x z] t] P qs Ps H _ IH]; constructor; [exact (proj2 H)|exact IH].
  - cbn. apply map_ext. intros [[[x z] t] P]. reflexivity.
  - rewrite Hi. apply map_ext. intros [[[x z] t] P]. reflexivity.
Qed.
Print Assumptions C100_relay.
Lemma evenly3 a l : evenly (- a) a 3 l -> l = [- a; 0; a].
Proof.
  intros (Ln & _ & E). specialize (E ltac:(lia)). destruct l as [|u [|v [|w [|]]]]; try discriminate.
  pose proof (E 0%nat u eq_refl) as E0. pose proof (E 1%nat v eq_refl) as E1. pose proof (E 2%nat w eq_refl) as E2. cbn [INR Nat.sub] in E0, E1, E2. f_equal; [lra|f_equal; [lra|f_equal; lra]].
Qed.
Lemma evenly5 l : evenly (- (10) / 2) (10 / 2) 5 l -> l = [-5; -5 / 2; 0; 5 / 2; 5].
Proof.
  intros (Ln & _ & E). specialize (E ltac:(lia)). destruct l as [|u0 [|u1 [|u2 [|u3 [|u4 [|]]]]]]; try discriminate.
  pose proof (E 0%nat u0 eq_refl) as E0. pose proof (E 1%nat u1 eq_refl) as E1. pose proof (E 2%nat u2 eq_refl) as E2. pose proof (E 3%nat u3 eq_refl) as E3. pose proof (E 4%nat u4 eq_refl) as E4.
  cbn [INR Nat.sub] in E0, E1, E2, E3, E4. f_equal; [lra|f_equal; [lra|f_equal; [lra|f_equal; [lra|f_equal; lra]]]].
Qed.
Lemma relay_numbers : relay_good (25 / 2) (25 / 2) 25 75 50 75 30 30 150 10 (atan (1 / 16)).
Proof.
  destruct atan_small as (T & A & _). unfold relay_good. cbv zeta. rewrite T.
  replace (25 / 2 / (25 - 25 / 2)) with 1 by field. replace (75 - (25 + 1 * 25)) with 25 by ring. replace (25 / 2 / (25 - 25 / 2)) with 1 by field.
  assert (S1 : steepness 0 (1 / 16) <= 1002 / 1000) by (apply steep_le; lra).
  assert (S2 : steepness (10 / 2 / (25 / 2)) (10 / 2 / (25 / 2) + 1 / 16 / 1) <= 1173 / 1000) by (apply steep_le; lra).
  assert (S3 : steepness (10 / 2 / (25 / 2) + 10 / 2 * (1 + 25 / (25 / 2)) / (25 / 2)) (10 / 2 / (25 / 2) + 1 / 16 / 1 + (10 / 2 * (1 + 25 / (25 / 2)) + 25 * (1 / 16 / 1)) / (25 / 2)) <= 26 / 10) by (apply steep_le; lra).
  repeat split; lra.
Qed.
(** the two scripts with their own numbers: the detector of script_testImaging.py records the object upside down at y = 100, the one of script_testIdealRelay.py records it upright, both in natural size *)
Theorem C100_scripts : let xs := [-5; -5 / 2; 0; 5 / 2; 5] in let ts := [- atan (1 / 16); 0; atan (1 / 16)] in
  (exists rs l k, imaging_script 2 (Fin 25) (Fin 50) (Fin 50) (Fin 30) (Fin 30) (Fin 150) (Fin 10) (Fin (atan (1 / 16))) 5 5 3 = Ok (rs, [OLens l; ODetector k]) /\ Forall (fun r => blocked r = true) rs /\
     de_hit_data k = map (fun q => let '(x, z, t) := q in (fv (mk3 (- x) 100 (- z)), Fin (colour x z))) (object xs xs ts)) /\
  (exists rs l1 l2 k, relay_script 3 (Fin (25 / 2)) (Fin (25 / 2)) (Fin 25) (Fin 75) (Fin 50) (Fin 75) (Fin 30) (Fin 30) (Fin 150) (Fin 10) (Fin (atan (1 / 16))) 5 5 3 = Ok (rs, [OLens l1; OLens l2; ODetector k]) /\
     Forall (fun r => blocked r = true) rs /\
     de_hit_data k = map (fun q => let '(x, z, t) := q in (fv (mk3 x 100 z), Fin (colour x z))) (object xs xs ts)).
Proof.
  intros xs0 ts0. destruct atan_small as (T & A & Rs). split.
  - destruct C100_imaging_script as [Gd _]. destruct (C100_imaging 25 50 50 30 30 150 10 (atan (1 / 16)) 5 5 3 2 Gd ltac:(lia) ltac:(lia) ltac:(lia) Rs ltac:(lia)) as (xs & zs & ts & l & k & rs & Sx & Sz & St & Run & Hd & B & _).
    exists rs, l, k. split; [exact Run|]. split; [exact B|]. change (Z.to_nat 5) with 5%nat in Sx, Sz. change (Z.to_nat 3) with 3%nat in St. apply evenly5 in Sx, Sz. apply evenly3 in St. subst xs zs ts. fold xs0 ts0 in Hd. rewrite Hd. unfold object.
    pose proof (grid_map (fun x z (t : R) => (fv (mk3 (- (25 / (50 - 25) * x)) (50 + 25 / (50 - 25) * 50) (- (25 / (50 - 25) * z))), Fin (colour x z))) xs0 xs0 ts0) as Gm. unfold grid in Gm. etransitivity; [exact Gm|].
    apply map_ext. intros [[x z] t]. cbn [fst snd]. do 2 f_equal. f_equal; f_equal; lra.
  - destruct (C100_relay (25 / 2) (25 / 2) 25 75 50 75 30 30 150 10 (atan (1 / 16)) 5 5 3 3 relay_numbers ltac:(lia) ltac:(lia) ltac:(lia) Rs ltac:(lia)) as (xs & zs & ts & Ps & l1 & l2 & k & rs & Sx & Sz & St & Run & Fa & Hd & B & _).
    exists rs, l1, l2, k. split; [exact Run|]. split; [exact B|]. change (Z.to_nat 5) with 5%nat in Sx, Sz. change (Z.to_nat 3) with 3%nat in St. apply evenly5 in Sx, Sz. apply evenly3 in St. subst xs zs ts. fold xs0 ts0 in Hd, Fa. rewrite Hd.
    assert (EM : 25 / 2 / (25 - 25 / 2) = 1) by field.
    assert (Cl : forall x z t, In (x, z, t) (object xs0 xs0 ts0) -> clear_between (25 / 2) 25 x z (tan t)).
    { intros x z t In. apply grid_in in In. destruct In as (Ix & Iz & It).
      assert (Et : tan t = 0 \/ tan t = 1 / 16 \/ tan t = - (1 / 16)). { destruct It as [<-|[<-|[<-|[]]]]; [right; right|left; apply tan_0|right; left; exact T]. assert (Od : forall u, tan (- u) = - tan u) by (intros u; unfold tan; rewrite sin_neg, cos_neg; unfold Rdiv; ring). rewrite Od, T. reflexivity. }
      set (g := tan t) in *. clearbody g. unfold clear_between. cbv zeta.
      assert (Bx : -5 <= x <= 5) by (cbn in Ix; lra). assert (Bz : -5 <= z <= 5) by (cbn in Iz; lra).
      assert (S : steepness (- x / (25 / 2)) (- (z + (25 - 25 / 2) * g) / (25 / 2)) <= 2) by (apply steep_le; [lra|]; assert (-4/10 <= - x / (25 / 2) <= 4/10) by lra; assert (-5/10 <= - (z + (25 - 25 / 2) * g) / (25 / 2) <= 5/10) by lra; nra).
      assert (K : forall u, 1 / 100 <= u \/ u <= - (1 / 100) -> 1e-8 * steepness (- x / (25 / 2)) (- (z + (25 - 25 / 2) * g) / (25 / 2)) < Rabs u) by (intros u Hu; unfold Rabs; destruct (Rcase_abs u); lra).
      destruct (Req_dec x 0) as [X0|X0].
      - destruct (Req_dec (z + (25 - 25 / 2) * g) 0) as [Z0|Z0]; [left; rewrite Z0; lra|right; right]. apply K. cbn in Iz. lra.
      - right; left. apply K. cbn in Ix. lra. }
    clear Hd. revert Fa Cl. generalize (object xs0 xs0 ts0). intros qs Fa. induction Fa as [|[[x z] t] P qs Ps H _ IH]; intros Cl; [reflexivity|]. cbn [combine map]. f_equal; [|apply IH; intros; apply Cl; now right].
    destruct H as (_ & _ & H). rewrite H by (apply Cl; now left). rewrite EM. replace (25 / 2 / (75 - (25 + 1 * 25) - 25 / 2)) with 1 by field. do 2 f_equal. f_equal; f_equal; lra.
Qed.
Print Assumptions C100_scripts.
(** the hypotheses hold for the numbers of the scripts *)
Example C100_hyp : imaging_good 25 50 50 30 30 150 10 (atan (1 / 16)) /\ relay_good (25 / 2) (25 / 2) 25 75 50 75 30 30 150 10 (atan (1 / 16)) /\ resolved (atan (1 / 16)) 3.
Proof. split; [apply C100_imaging_script|]. split; [apply relay_numbers|apply atan_small]. Qed.
