(** C99: script_testDMD.py images an object by way of a tilted micromirror array onto a tilted detector. *)
From Coq Require Import Reals ZArith Lra Lia Psatz String List Bool.
From Verif Require Import PyErr Num Vec Shapes Csg Optics Spec XReal RVec VecProofs AngleProofs FlatProofs SphereProofs CylProofs ShapeExtra
  TreeProofs SolidProofs CsgProofs RayProofs GratingProofs RunGen NoFuel RunXr OpticHits StateXr OrderProofs FlatOptic Continue Props_Ray Props_Loop Props_Run Props_Rehit SceneProofs Props_Scene Props_Images
  Props_Trace Props_Build Scripts.
Import ListNotations.
Local Open Scope R_scope.

#[global] Instance Tangent_xr : Tangent xr := {
  tpi := Fin PI;
  ntan a := match a with Fin x => Fin (tan x) | _ => XNaN end;
  narctan a := match a with Fin x => Fin (atan x) | PInf => Fin (PI / 2) | NInf => Fin (- (PI / 2)) | XNaN => XNaN end
}.
Definition args (f1 y0 y1 D1 h w a f2 D2 dh dw : R) : dmd_args xr :=
  mkDmd (Fin f1) (Fin y0) (Fin y1) (Fin D1) (Fin h) (Fin w) (Fin a) (Fin f2) (Fin D2) (Fin (- (2 * a))) (Fin (- (4 * a))) (Fin dh) (Fin dw).

(* ---- the thin lens images points *)
(** a ray that the law of the thin lens treats exactly: not grazing, and along the axis if nearly so *)
Definition plainly (u d : R3) : Prop := 1e-8 < Rabs (u ∙ d) /\ (near3 d (forward u d) -> d = forward u d).
Lemma forward_abs u d : forward u d ∙ d = Rabs (u ∙ d).
Proof. unfold forward. destruct (Rltb_spec (u ∙ d) 0); rewrite ?dot_opp_l; [rewrite Rabs_left; lra|rewrite Rabs_right; lra]. Qed.
Lemma thin_line lam m c u q d f e : is_unit u -> is_unit d -> plainly u d -> leaves lam m c u q d (LThin f) e -> towards q (c + (f / (forward u d ∙ d)) * d)%r3 e.
Proof.
  intros Uu Ud [Gr Ax] Lv. inversion Lv as [| |f' e' N EN Gd Nn To|f' e' N EN Gd Nn To|f' N EN Gd| | | |]; subst.
  - exact To.
  - rewrite <- (Ax Nn) in To |- *. unfold is_unit in Ud. rewrite Ud. replace (f / 1) with f by field. exact To.
  - rewrite forward_abs in Gd. lra.
Qed.
(** the image of the point at distance s before the lens and offset h *)
Definition image_of (c N : R3) (f s : R) (h : R3) : R3 := (c + (f * s / (s - f)) * N - (f / (s - f)) * h)%r3.
Lemma thin_image lam m c u q d f e o k s h : is_unit u -> is_unit d -> plainly u d -> leaves lam m c u q d (LThin f) e -> let N := forward u d in
  q = at_t o d k -> on_plane c u q -> o = (c - s * N + h)%r3 -> h ∙ N = 0 -> s <> 0 -> s <> f -> exists t, at_t q e t = image_of c N f s h.
Proof.
  intros Uu Ud Pl Lv N Eq On Eo Hh Hs Hf. destruct (thin_line _ _ _ _ _ _ _ _ Uu Ud Pl Lv) as (_ & t & Pt & Et). fold N in Et.
  assert (Nd : 1e-8 < N ∙ d) by (unfold N; rewrite forward_abs; exact (proj1 Pl)). pose proof (forward_unit u d Uu) as UN. fold N in UN. unfold is_unit in UN.
  assert (OnN : (q - c)%r3 ∙ N = 0) by (unfold on_plane in On; unfold N, forward; destruct (Rltb _ _); rewrite ?dot_opp_r; lra).
  assert (Ks : k * (N ∙ d) = s).
  { rewrite Eq, Eo in OnN. replace (at_t (c - s * N + h) d k - c)%r3 with (k * d - s * N + h)%r3 in OnN by (unfold at_t; clear; r3_ring). autorewrite with dotr in OnN. rewrite UN, Hh, (dot_comm d N) in OnN. lra. }
  exists (s / (s - f) * t). unfold at_t in Et |- *.
  assert (X : (t * e)%r3 = (c + f / (N ∙ d) * d - q)%r3) by (rewrite <- Et; clear; r3_ring).
  replace ((s / (s - f) * t) * e)%r3 with ((s / (s - f)) * (t * e))%r3 by (clear; r3_ring). rewrite X.
  assert (K0 : k <> 0) by (intros ->; apply Hs; rewrite <- Ks; ring).
  replace (f / (N ∙ d)) with (f * k / s) by (rewrite <- Ks; field; split; [lra|exact K0]).
  assert (Eq2 : q = (c - s * N + h + k * d)%r3) by (rewrite Eq, Eo; unfold at_t; reflexivity). rewrite Eq2. unfold at_t, image_of.
  clear - Hs Hf. clearbody N. destruct N as [n1 n2 n3], c as [c1 c2 c3], h as [h1 h2 h3], d as [d1 d2 d3]. unfold r3add, r3sub, r3scale. cbn. f_equal; field; split; lra.
Qed.

(* ---- the scene *)
Lemma dirn_xy a b s : 0 < s -> a * a + b * b = 1 -> dirn (mk3 (a / s) (b / s) 0) = mk3 a b 0.
Proof.
  intros Hs U. apply dirn_unique with (s := / s); [now apply Rinv_0_lt_compat| |unfold is_unit, r3dot; cbn; lra].
  apply r3_ext; cbn; unfold Rdiv; ring.
Qed.
Lemma xy_nonzero a b s : 0 < s -> a * a + b * b = 1 -> mk3 (a / s) (b / s) 0 <> r3zero.
Proof. intros Hs U E. injection E as E1 E2. assert (a = 0) by (replace a with (s * (a / s)) by (field; lra); rewrite E1; ring). assert (b = 0) by (replace b with (s * (b / s)) by (field; lra); rewrite E2; ring). nra. Qed.
Lemma tan_opp x : tan (- x) = - tan x.
Proof. unfold tan. rewrite sin_neg, cos_neg. unfold Rdiv. ring. Qed.
Lemma sc1 x : sin x * sin x + cos x * cos x = 1.
Proof. pose proof (sin2_cos2 x) as E. unfold Rsqr in E. exact E. Qed.
Lemma degrees_fin x : degrees (Fin x) = Fin (x * PI / 180).
Proof. unfold degrees. cbn [tpi Tangent_xr]. rewrite nmul_fin, nofZ_fin, ndiv_fin by lra. reflexivity. Qed.
Lemma pydiv_fin a b : b <> 0 -> pydiv (Fin a) (Fin b) = Ok (Fin (a / b)).
Proof. intros H. unfold pydiv. rewrite nofZ_fin, neqb_fin. destruct (Reqb_spec b 0); [contradiction|]. now rewrite ndiv_fin. Qed.
Lemma pydiv_zero a : pydiv (Fin a) (Fin 0) = Err ZeroDivisionError.
Proof. unfold pydiv. rewrite nofZ_fin, neqb_fin. destruct (Reqb_spec 0 0); [reflexivity|contradiction]. Qed.
Lemma image_y_fin f1 y0 y1 D1 h w a f2 D2 dh dw : f1 <> 0 -> y1 - y0 <> 0 -> y1 - y0 <> f1 ->
  dmd_image_y (args f1 y0 y1 D1 h w a f2 D2 dh dw) = Ok (Fin (y1 + f1 * (y1 - y0) / (y1 - y0 - f1))).
Proof.
  intros F S I. unfold dmd_image_y, args. cbn [da_f1 da_y0 da_y1]. cbv zeta. rewrite nsub_fin, !nofZ_fin, !pydiv_fin by assumption. cbn [bind]. rewrite nsub_fin.
  assert (E : 1 / f1 - 1 / (y1 - y0) = (y1 - y0 - f1) / (f1 * (y1 - y0))) by (field; split; assumption).
  rewrite E, pydiv_fin. 2: { intros Z. apply I. assert (y1 - y0 - f1 = 0) by (replace (y1 - y0 - f1) with ((y1 - y0 - f1) / (f1 * (y1 - y0)) * (f1 * (y1 - y0))) by (field; split; assumption); rewrite Z; ring). lra. }
  cbn [bind]. rewrite nadd_fin. do 3 f_equal. field. repeat split; try assumption. lra.
Qed.
(** how the numbers of the script must be: a proper image of the object plane, and mirrors tilted by less than 45 degrees *)
Definition good_dmd (f1 s0 h w th f2 dh dw : R) : Prop :=
  0 < f1 < s0 /\ 0 <= h /\ 0 <= w /\ Rabs th < PI / 4 /\ cos (4 * th) <> 0 /\ 0 < f2 /\ 0 <= dh /\ 0 <= dw.

(** C99: the script's scene.  The pieces are where thin-lens optics wants them; the micromirrors are tilted by th, the second lens stands on the axis
    reflected by them, and the detector is tilted by 4 th *)
Theorem C99_scene : forall f1 y0 y1 D1 h w a f2 D2 dh dw, let th := a * PI / 180 in let yi := y1 + f1 * (y1 - y0) / (y1 - y0 - f1) in let N := mk3 (sin (2 * th)) (- cos (2 * th)) 0 in
  good_dmd f1 (y1 - y0) h w th f2 dh dw -> let M := mk3 0 yi 0 in
  exists m l1 l2 k, dmd_scene (args f1 y0 y1 D1 h w a f2 D2 dh dw) = Ok [OMirror m; OLens l1; OLens l2; ODetector k] /\
    piece (OMirror m) M (mk3 0 (-1) 0) (in_rect M (mk3 0 (-1) 0) (mk3 0 0 1) h w) (LTilted (mk3 (sin th) (- cos th) 0)) /\
    piece (OLens l1) (mk3 0 y1 0) (mk3 0 (-1) 0) (fun q => dist3 q (mk3 0 y1 0) < D1 / 2) (LThin f1) /\
    piece (OLens l2) (M + (2 * f2) * N)%r3 (- N)%r3 (fun q => dist3 q (M + (2 * f2) * N)%r3 < D2 / 2) (LThin f2) /\
    (exists u, (u = mk3 (- sin (4 * th)) (cos (4 * th)) 0 \/ u = mk3 (sin (4 * th)) (- cos (4 * th)) 0) /\
       piece (ODetector k) (M + (4 * f2) * N)%r3 u (in_rect (M + (4 * f2) * N)%r3 u (mk3 0 0 1) dh dw) LScreen) /\
    de_hit_data k = [].
Proof.
  intros f1 y0 y1 D1 h w a f2 D2 dh dw th yi N (F1 & Hh & Hw & Th & C4 & F2 & Hdh & Hdw) M.
  pose proof PI_RGT_0 as PP. apply Rabs_def2 in Th.
  assert (C1 : 0 < cos th) by (apply cos_gt_0; lra). assert (C2 : 0 < cos (2 * th)) by (apply cos_gt_0; lra).
  assert (E2 : atan (tan (- (2 * a) * PI / 180)) = - (2 * th)).
  { replace (- (2 * a) * PI / 180) with (- (2 * th)) by (unfold th; field). apply atan_tan. lra. }
  assert (T1 : tan (a * PI / 180) = sin th / cos th) by reflexivity.
  assert (T2 : tan (- (2 * a) * PI / 180) = - sin (2 * th) / cos (2 * th)).
  { replace (- (2 * a) * PI / 180) with (- (2 * th)) by (unfold th; field). rewrite tan_opp. unfold tan, Rdiv. ring. }
  assert (T4 : tan (- (4 * a) * PI / 180) = - sin (4 * th) / cos (4 * th)).
  { replace (- (4 * a) * PI / 180) with (- (4 * th)) by (unfold th; field). rewrite tan_opp. unfold tan, Rdiv. ring. }
  assert (Dn : dirn (mk3 0 (-1) 0) = mk3 0 (-1) 0) by (apply dirn_of_unit; unfold is_unit, r3dot; cbn; lra).
  assert (Dz : dirn (mk3 0 0 1) = mk3 0 0 1) by (apply dirn_of_unit; unfold is_unit, r3dot; cbn; lra).
  assert (Nn : mk3 0 (-1) 0 <> r3zero) by (intros E; injection E; lra). assert (Nz : mk3 0 0 1 <> r3zero) by (intros E; injection E; lra).
  set (nm := mk3 (sin th / cos th) (- cos th / cos th) 0). assert (Em : nm = mk3 (sin th / cos th) (-1) 0) by (apply r3_ext; cbn; try reflexivity; field; lra).
  assert (Dm : dirn nm = mk3 (sin th) (- cos th) 0) by (apply dirn_xy; [exact C1|pose proof (sc1 th); lra]).
  assert (Zm : nm <> r3zero) by (apply xy_nonzero; [exact C1|pose proof (sc1 th); lra]).
  set (n2 := mk3 (- sin (2 * th) / cos (2 * th)) (cos (2 * th) / cos (2 * th)) 0). assert (En2 : n2 = mk3 (- sin (2 * th) / cos (2 * th)) 1 0) by (apply r3_ext; cbn; try reflexivity; field; lra).
  assert (D2' : dirn n2 = (- N)%r3) by (unfold n2; rewrite dirn_xy; [apply r3_ext; cbn; ring|exact C2|pose proof (sc1 (2 * th)); lra]).
  assert (Z2 : n2 <> r3zero) by (apply xy_nonzero; [exact C2|pose proof (sc1 (2 * th)); lra]).
  set (n4 := mk3 (- sin (4 * th) / cos (4 * th)) (cos (4 * th) / cos (4 * th)) 0). assert (En4 : n4 = mk3 (- sin (4 * th) / cos (4 * th)) 1 0) by (apply r3_ext; cbn; try reflexivity; field; lra).
  assert (D4 : n4 <> r3zero /\ (dirn n4 = mk3 (- sin (4 * th)) (cos (4 * th)) 0 \/ dirn n4 = mk3 (sin (4 * th)) (- cos (4 * th)) 0)).
  { pose proof (sc1 (4 * th)). destruct (Rlt_le_dec 0 (cos (4 * th))) as [L|L].
    - split; [apply xy_nonzero; lra|left; apply dirn_xy; lra].
    - assert (En4' : n4 = mk3 (sin (4 * th) / - cos (4 * th)) (- cos (4 * th) / - cos (4 * th)) 0) by (apply r3_ext; cbn; try reflexivity; field; lra).
      split; rewrite En4'; [apply xy_nonzero; lra|right; apply dirn_xy; lra]. }
  destruct D4 as [Z4 D4].
  assert (Some_nz : forall v, v <> r3zero -> nz (Some v)) by (intros v Hv v' E; injection E as <-; exact Hv).
  pose proof (C95_lens (mk3 0 y1 0) (Some (mk3 0 (-1) 0)) "spherical_biconvex" (Some D1) (Some f1) "ideal" (15 / 10) (Some_nz _ Nn)) as O1.
  apply outcome_ok in O1. destruct O1 as [_ O1]. destruct O1 as [l1 O1]; [split; [now left|eexists; reflexivity]|].
  pose proof (C95_mirror M "rectangular_flat" (Some (mk3 0 (-1) 0)) None (Some w) (Some h) None (Some (mk3 0 0 1)) "dmd" (Some nm) (Some_nz _ Nn) (Some_nz _ Nz) (Some_nz _ Zm)) as Om.
  apply outcome_ok in Om. destruct Om as [_ Om]. destruct Om as [m Om].
  { split; [eexists; reflexivity|]. right; left. split; [reflexivity|]. do 4 eexists. do 4 (split; [reflexivity|]). rewrite Dn, Dz. repeat split; try assumption. unfold r3dot; cbn. rewrite Rabs_right; lra. }
  pose proof (C95_lens (M + (2 * f2) * N)%r3 (Some n2) "spherical_biconvex" (Some D2) (Some f2) "ideal" (15 / 10) (Some_nz _ Z2)) as O2.
  apply outcome_ok in O2. destruct O2 as [_ O2]. destruct O2 as [l2 O2]; [split; [now left|eexists; reflexivity]|].
  pose proof (C95_detector (M + (4 * f2) * N)%r3 (Some n4) (Some (mk3 0 0 1)) "rectangular_flat" (Some dw) (Some dh) (Some_nz _ Z4) (Some_nz _ Nz)) as Ok4.
  assert (G4 : "rectangular_flat"%string = "rectangular_flat"%string /\ rect_args (Some n4) (Some (mk3 0 0 1)) (Some dh) (Some dw)).
  { split; [reflexivity|]. do 4 eexists. do 4 (split; [reflexivity|]). repeat split; try assumption. rewrite Dz. destruct D4 as [-> | ->]; unfold r3dot; cbn; rewrite Rabs_right; lra. }
  destruct Ok4 as [(_ & _ & k & Ok4 & _ & _ & _ & Hk)|[(_ & G & _)|(G & _)]]; [|contradiction|contradiction].
  exists m, l1, l2, k. split; [|split; [|split; [|split; [|split]]]].
  - unfold dmd_scene. rewrite image_y_fin by lra. fold yi. cbn [bind].
    unfold args. cbn [da_f1 da_y1 da_D1 da_h da_w da_tilt da_f2 da_D2 da_lens2 da_det da_dh da_dw]. cbv zeta. rewrite !degrees_fin. cbn [ntan narctan Tangent_xr].
    rewrite E2, T1, T2, T4, ncos_fin, nsin_fin, cos_neg, sin_neg. rewrite !nofZ_fin, !nmul_fin, !nopp_fin, !nmul_fin, !nsub_fin.
    rewrite dec_fin by discriminate. change (IZR 15 / IZR (10 ^ 1)) with (15 / 10).
    change (V (Fin 0) (Fin y1) (Fin 0)) with (fv (mk3 0 y1 0)). change (V (Fin 0) (Fin (-1)) (Fin 0)) with (fv (mk3 0 (-1) 0)).
    change (mk_lens (fv (mk3 0 y1 0)) (Some (fv (mk3 0 (-1) 0))) "spherical_biconvex" (Some (Fin D1)) (Some (Fin f1)) "ideal" (Fin (15 / 10)) = Ok l1) in O1. rewrite O1. cbn [bind].
    rewrite Em in Om. change (mk_mirror (V (Fin 0) (Fin yi) (Fin 0)) "rectangular_flat" (Some (fv (mk3 0 (-1) 0))) None (Some (Fin w)) (Some (Fin h)) None (Some (V (Fin 0) (Fin 0) (Fin 1))) "dmd" (Some (V (Fin (sin th / cos th)) (Fin (-1)) (Fin 0))) = Ok m) in Om.
    rewrite Om. cbn [bind].
    assert (P2 : forall s, V (Fin (s * - - sin (2 * th))) (Fin (yi - s * cos (2 * th))) (Fin 0) = fv (M + s * N)%r3).
    { intros s. unfold fv, M, N. cbn. do 2 f_equal; ring. }
    rewrite !P2. rewrite En2 in O2.
    change (mk_lens (fv (M + 2 * f2 * N)%r3) (Some (V (Fin (- sin (2 * th) / cos (2 * th))) (Fin 1) (Fin 0))) "spherical_biconvex" (Some (Fin D2)) (Some (Fin f2)) "ideal" (Fin (15 / 10)) = Ok l2) in O2. rewrite O2. cbn [bind].
    rewrite En4 in Ok4.
    change (mk_detector (fv (M + 4 * f2 * N)%r3) (Some (V (Fin (- sin (4 * th) / cos (4 * th))) (Fin 1) (Fin 0))) (Some (V (Fin 0) (Fin 0) (Fin 1))) "rectangular_flat" (Some (Fin dw)) (Some (Fin dh)) = Ok k) in Ok4. rewrite Ok4. reflexivity.
  - rewrite <- Dm. pattern (mk3 0 (-1) 0) at 1 2. rewrite <- Dn. rewrite <- Dz. eapply P_dmd_rect; eassumption.
  - rewrite <- Dn at 1. eapply P_thin; [exact Nn|lra|exact O1].
  - rewrite <- D2'. eapply P_thin; [exact Z2|lra|exact O2].
  - exists (dirn n4). split; [exact D4|]. rewrite <- Dz. assert (Lg : with_log (ODetector k) [] = ODetector k) by (rewrite <- Hk; destruct k; reflexivity). rewrite <- Lg. eapply P_screen; eassumption.
  - exact Hk.
Qed.
Print Assumptions C99_scene.


Definition calm {A} (r : Res A) : Prop := r <> Err ZeroDivisionError.
Lemma calm_bind {A B} (r : Res A) (f : A -> Res B) : calm r -> (forall a, calm (f a)) -> calm (bind r f).
Proof. intros R F. destruct r as [a|e]; [apply F|]. intros E. apply R. cbn in E. congruence. Qed.
Lemma calm_ok {A} (a : A) : calm (Ok a). Proof. unfold calm. discriminate. Qed.
Ltac cd := repeat match goal with |- forall _, _ => intro end; unfold calm, not; intro; discriminate.
Lemma calm_rect c (n t : option (vec xr)) h w : calm (mk_rectangle c n t h w).
Proof.
  unfold mk_rectangle. apply calm_bind; [destruct n; cd|]. intros n'. apply calm_bind; [destruct t; cd|]. intros t'. destruct (negb _); [cd|]. cbv zeta.
  apply calm_bind; [unfold check_h_and_w; destruct h, w; try cd; repeat match goal with |- context [if ?b then _ else _] => destruct b end; cd|]. intros [h' w'].
  apply calm_bind; [destruct n; cd|]. cd.
Qed.
(** the script fails exactly when the object is in the plane of the first lens or in its focal plane (or the lens has no power) *)
Theorem C99_no_image : forall f1 y0 y1 D1 h w a f2 D2 dh dw,
  dmd_scene (args f1 y0 y1 D1 h w a f2 D2 dh dw) = Err ZeroDivisionError <-> f1 = 0 \/ y1 = y0 \/ y1 - y0 = f1.
Proof.
  intros f1 y0 y1 D1 h w a f2 D2 dh dw. split.
  - intros H. destruct (Req_dec f1 0) as [F|F]; [left; exact F|]. destruct (Req_dec (y1 - y0) 0) as [S|S]; [right; left; lra|]. destruct (Req_dec (y1 - y0) f1) as [I|I]; [right; right; exact I|exfalso]. revert H.
    change (calm (dmd_scene (args f1 y0 y1 D1 h w a f2 D2 dh dw))). unfold dmd_scene. rewrite image_y_fin by assumption. cbn [bind].
    assert (ML : forall c n D f ix, calm (mk_lens (T := xr) c n "spherical_biconvex" (Some D) f "ideal" ix)).
    { intros c n D f ix. unfold mk_lens. change (String.eqb "spherical_biconvex" "spherical_biconvex") with true. cbn iota. apply calm_bind; [|cd]. unfold mk_circle. destruct n; cbn; repeat match goal with |- context [if ?b then _ else _] => destruct b end; cbn; unfold calm; discriminate. }
    apply calm_bind; [apply ML|]. intros l1. cbv zeta. apply calm_bind.
    { unfold mk_mirror. apply calm_bind; [cd|]. intros dm. change (String.eqb "rectangular_flat" "circular_flat") with false. change (String.eqb "rectangular_flat" "rectangular_flat") with true. cbn iota.
      apply calm_bind; [cd|]. intros n. apply calm_bind; [apply calm_rect|cd]. }
    intros m. apply calm_bind; [apply ML|]. intros l2. apply calm_bind; [|cd].
    unfold mk_detector. cbn [unit_vector_o bind]. change (String.eqb "rectangular_flat" "rectangular_flat") with true. cbn iota. apply calm_bind; [apply calm_rect|cd].
  - intros H. unfold dmd_scene. assert (E : dmd_image_y (args f1 y0 y1 D1 h w a f2 D2 dh dw) = Err ZeroDivisionError); [|rewrite E; reflexivity].
    unfold dmd_image_y, args. cbn [da_f1 da_y0 da_y1]. cbv zeta. rewrite nsub_fin, !nofZ_fin.
    destruct (Req_dec f1 0) as [->|F]; [rewrite pydiv_zero; reflexivity|]. rewrite pydiv_fin by exact F. cbn [bind].
    destruct (Req_dec (y1 - y0) 0) as [->|S]; [rewrite pydiv_zero; reflexivity|]. rewrite pydiv_fin by exact S. cbn [bind].
    destruct H as [H|[H|H]]; [contradiction|lra|]. rewrite H, nsub_fin. replace (1 / f1 - 1 / f1) with 0 by ring. rewrite pydiv_zero. reflexivity.
Qed.
Print Assumptions C99_no_image.

(* ---- the image *)
Lemma plane_point c u q e t1 t2 : u ∙ e <> 0 -> on_plane c u (at_t q e t1) -> on_plane c u (at_t q e t2) -> at_t q e t1 = at_t q e t2.
Proof.
  unfold on_plane, at_t. intros Ne A B. assert (t1 = t2); [|now subst].
  assert (A' : (q + t1 * e - c)%r3 ∙ u = (q - c)%r3 ∙ u + t1 * (u ∙ e)) by (destruct q, e, c, u; unfold r3dot; cbn; ring).
  assert (B' : (q + t2 * e - c)%r3 ∙ u = (q - c)%r3 ∙ u + t2 * (u ∙ e)) by (destruct q, e, c, u; unfold r3dot; cbn; ring).
  rewrite A' in A. rewrite B' in B. assert (D : (t1 - t2) * (u ∙ e) = 0) by lra. apply Rmult_integral in D. destruct D; [lra|contradiction].
Qed.
Lemma leaves_unit lam m c u q d l e : is_unit u -> is_unit d -> (exists f, l = LThin f) -> leaves lam m c u q d l e -> is_unit e.
Proof. intros Uu Ud [f ->] Lv. inversion Lv as [| |f' e' N EN Gd Nn To|f' e' N EN Gd Nn To|f' N EN Gd| | | |]; subst; [apply To|apply To|exact Ud]. Qed.
Lemma first_piece w p d k t o c u A l : is_unit d -> first w p d k t -> nth_error w k = Some o -> piece o c u A l -> meets_plane c u p d t.
Proof.
  intros U [(o' & E & Se) _] E' V. rewrite E in E'. injection E' as ->. destruct (seen_fix _ _ _ _ _ _ _ _ V U Se) as [M _]. exact M.
Qed.
Lemma forward_pos c u p d t : meets_plane c u p d t -> 0 < t /\ on_plane c u (at_t p d t) /\ u ∙ d <> 0.
Proof. intros (A & B & C). split; [lra|]. split; [exact C|]. intros Z. rewrite Z, Rabs_R0 in A. lra. Qed.
Lemma reflected_unit d a : is_unit d -> is_unit a -> is_unit (d - (2 * (d ∙ a)) * a)%r3.
Proof. unfold is_unit. intros D A. rewrite !dot_sub_l, !dot_sub_r, !dot_scale_l, !dot_scale_r, (dot_comm a d), D, A. ring. Qed.

(** C99: all rays from one point of the object reach the detector in the same point, whatever their direction: first the object is imaged, inverted and f1/(s0-f1) times as large, on
    the micromirrors; this image, seen in the tilted micromirrors, is sharp on the whole tilted detector.  (u, v) are the coordinates of the image on the micromirrors; on the detector they
    become f2/(f2 - u sin 2th) times (u, v), inverted, so that rectangles turn into trapezia *)
Theorem C99_sharp : forall f1 y0 y1 D1 h w a f2 D2 dh dw scene x z d t1 d1 t2 t3 d3 t4 L lam m (r : ray xr),
  let th := a * PI / 180 in let s0 := y1 - y0 in let M := mk3 0 (y1 + f1 * s0 / (s0 - f1)) 0 in let N := mk3 (sin (2 * th)) (- cos (2 * th)) 0 in let b := mk3 (sin th) (- cos th) 0 in
  let P := mk3 x y0 z in let q1 := at_t P d t1 in let q2 := at_t q1 d1 t2 in let d2 := (d1 - (2 * (d1 ∙ b)) * b)%r3 in let q3 := at_t q2 d2 t3 in let q4 := at_t q3 d3 t4 in
  let u := - (f1 / (s0 - f1) * x) in let v := - (f1 / (s0 - f1) * z) in let k := f2 / (f2 - u * sin (2 * th)) in
  good_dmd f1 s0 h w th f2 dh dw -> dmd_scene (args f1 y0 y1 D1 h w a f2 D2 dh dw) = Ok scene ->
  ray_is r P d -> is_unit d -> wavelength r = Fin lam -> order r = Fin m -> ray_type r <> "faerie_fire"%string -> blocked r = false ->
  first scene P d 1 t1 -> plainly (mk3 0 (-1) 0) d -> leaves lam m (mk3 0 y1 0) (mk3 0 (-1) 0) q1 d (LThin f1) d1 ->
  first scene q1 d1 0 t2 ->
  first scene q2 d2 2 t3 -> plainly N d2 -> leaves lam m (M + (2 * f2) * N)%r3 (- N)%r3 q3 d2 (LThin f2) d3 -> u * sin (2 * th) < f2 ->
  first scene q3 d3 3 t4 -> t1 + t2 + t3 + t4 <= L ->
  q2 = (M + mk3 u 0 v)%r3 /\ q4 = (M + (4 * f2) * N + mk3 (- k * u * cos (4 * th)) (- k * u * sin (4 * th)) (- k * v))%r3 /\
  exists o0 o1 o2 r' det, (forall fuel, L / 1e-12 + 1 < INR fuel -> run fuel r (Fin L) scene None = Ok (r', [o0; o1; o2; ODetector det])) /\
    firstn 3 scene = [o0; o1; o2] /\ de_hit_data det = [(fv q4, Fin lam)] /\ blocked r' = true /\ point_history r' = point_history r ++ [fv q1; fv q2; fv q3; fv q4].
Proof.
  intros f1 y0 y1 D1 h w a f2 D2 dh dw scene x z d t1 d1 t2 t3 d3 t4 L lam m r th s0 M N b P q1 q2 d2 q3 q4 u v k G Sc Hr U Hl Ho Ty Hb Fi1 Pl1 Lv1 Fi2 Fi3 Pl3 Lv3 Hu Fi4 HL.
  destruct (C99_scene f1 y0 y1 D1 h w a f2 D2 dh dw G) as (mi & l1 & l2 & de & Es & Vm & V1 & V2 & (un & Hun & Vd) & Hd). fold s0 in Vm, V1, V2, Vd. fold th in Vm, V1, V2, Hun, Vd. fold M N b in Vm, V2, Vd.
  rewrite Es in Sc. injection Sc as <-. set (scene := [OMirror mi; OLens l1; OLens l2; ODetector de]) in *.
  destruct G as (F1 & Hh & Hw & Th & C4 & F2 & Hdh & Hdw).
  assert (UN : is_unit N) by (unfold is_unit, r3dot, N; cbn; pose proof (sc1 (2 * th)); lra).
  assert (Ub : is_unit b) by (unfold is_unit, r3dot, b; cbn; pose proof (sc1 th); lra).
  assert (Uy : is_unit (mk3 0 (-1) 0)) by (unfold is_unit, r3dot; cbn; lra).
  assert (Uo : is_unit (- N)%r3) by now apply unit_opp.
  assert (Ud1 : is_unit d1) by (eapply leaves_unit; [exact Uy|exact U|eexists; reflexivity|exact Lv1]).
  assert (Ud2 : is_unit d2) by (apply reflected_unit; assumption).
  assert (Ud3 : is_unit d3) by (eapply leaves_unit; [exact Uo|exact Ud2|eexists; reflexivity|exact Lv3]).
  pose proof (first_piece _ _ _ _ _ _ _ _ _ _ U Fi1 eq_refl V1) as M1. pose proof (first_piece _ _ _ _ _ _ _ _ _ _ Ud1 Fi2 eq_refl Vm) as M2.
  pose proof (first_piece _ _ _ _ _ _ _ _ _ _ Ud2 Fi3 eq_refl V2) as M3. pose proof (first_piece _ _ _ _ _ _ _ _ _ _ Ud3 Fi4 eq_refl Vd) as M4.
  apply forward_pos in M1, M2, M3, M4. destruct M1 as (P1 & O1 & X1), M2 as (P2 & O2 & X2), M3 as (P3 & O3 & X3), M4 as (P4 & O4 & X4).
  fold q1 in O1. fold q2 in O2. fold q3 in O3. fold q4 in O4.
  (* the image on the micromirrors *)
  assert (Q1y : y0 + t1 * cy d = y1) by (unfold on_plane, q1, at_t, r3dot, P in O1; cbn in O1; lra).
  assert (Dy : 0 < cy d) by (assert (E : t1 * cy d = s0) by (unfold s0; lra); nra).
  assert (N1 : forward (mk3 0 (-1) 0) d = mk3 0 1 0).
  { unfold forward. destruct (Rltb_spec (mk3 0 (-1) 0 ∙ d) 0) as [E|E]; [apply r3_ext; cbn; ring|]. unfold r3dot in E; cbn in E. lra. }
  pose proof (thin_image _ _ _ _ _ _ _ _ P t1 s0 (mk3 x 0 z) Uy U Pl1 Lv1) as I1. cbv zeta in I1. rewrite N1 in I1.
  destruct I1 as [ti I1]; try reflexivity; [exact O1|apply r3_ext; unfold P, s0; cbn; ring|unfold r3dot; cbn; ring|lra|lra|].
  assert (Ei : image_of (mk3 0 y1 0) (mk3 0 1 0) f1 s0 (mk3 x 0 z) = (M + mk3 u 0 v)%r3) by (unfold image_of, M, u, v; apply r3_ext; cbn; field; lra).
  rewrite Ei in I1.
  assert (Q2 : q2 = (M + mk3 u 0 v)%r3).
  { rewrite <- I1. unfold q2. apply (plane_point M (mk3 0 (-1) 0)); [exact X2|exact O2|]. rewrite I1. unfold on_plane, r3dot. cbn. ring. }
  (* the image on the detector *)
  set (s := 2 * f2 - u * sin (2 * th)). assert (Hs : f2 < s) by (unfold s; lra). pose proof (sc1 (2 * th)) as SC.
  assert (Qs : (M + (2 * f2) * N - q2)%r3 ∙ N = s).
  { rewrite Q2. unfold s, r3dot, N. cbn. generalize dependent (sin (2 * th)). generalize (cos (2 * th)). intros. nra. }
  assert (N2 : forward (- N)%r3 d2 = N).
  { unfold forward. assert (E : t3 * (d2 ∙ N) = s).
    { rewrite <- Qs. unfold on_plane, q3, at_t in O3. rewrite dot_opp_r in O3.
      assert (E : (q2 + t3 * d2 - (M + (2 * f2) * N))%r3 ∙ N = t3 * (d2 ∙ N) - (M + (2 * f2) * N - q2)%r3 ∙ N) by (autorewrite with dotr; ring). rewrite E in O3. lra. }
    rewrite dot_opp_l, (dot_comm N d2). destruct (Rltb_spec (- (d2 ∙ N)) 0) as [E'|E']; [apply r3_ext; cbn; ring|]. exfalso. assert (t3 * (d2 ∙ N) <= 0) by nra. lra. }
  assert (Pl3' : plainly (- N)%r3 d2).
  { destruct Pl3 as [A B]. split; [rewrite dot_opp_l, Rabs_Ropp; exact A|]. rewrite N2. intros Nr. assert (E : forward N d2 = N); [|rewrite E in B; exact (B Nr)].
    pose proof (forward_nonneg (- N)%r3 d2) as Q. rewrite N2 in Q. unfold forward. destruct (Rltb_spec (N ∙ d2) 0); [lra|reflexivity]. }
  pose proof (thin_image _ _ _ _ _ _ _ _ q2 t3 s (mk3 u 0 v - (u * sin (2 * th)) * N)%r3 Uo Ud2 Pl3' Lv3) as I2. cbv zeta in I2. rewrite N2 in I2.
  destruct I2 as [tj I2]; try reflexivity; [exact O3|rewrite Q2; unfold s; apply r3_ext; cbn; ring| |lra|lra|].
  { rewrite dot_sub_l, dot_scale_l. unfold is_unit in UN. rewrite UN. unfold r3dot, N. cbn. ring. }
  assert (Ej : image_of (M + (2 * f2) * N)%r3 N f2 s (mk3 u 0 v - (u * sin (2 * th)) * N)%r3 = (M + (4 * f2) * N + mk3 (- k * u * cos (4 * th)) (- k * u * sin (4 * th)) (- k * v))%r3).
  { replace (4 * th) with (2 * (2 * th)) by ring. rewrite (cos_2a (2 * th)), (sin_2a (2 * th)). unfold image_of, k, s, N. clear - SC Hu F2 F1. revert SC Hu. generalize (sin (2 * th)) (cos (2 * th)). intros S C SC Hu.
    apply r3_ext; cbn.
    - replace (C * C - S * S) with (1 - 2 * (S * S)) by lra. field. lra.
    - field. repeat split; lra.
    - field. lra. }
  rewrite Ej in I2. set (X := (M + (4 * f2) * N + mk3 (- k * u * cos (4 * th)) (- k * u * sin (4 * th)) (- k * v))%r3) in *.
  assert (Q4 : q4 = X).
  { rewrite <- I2. unfold q4. apply (plane_point (M + (4 * f2) * N)%r3 un); [exact X4|exact O4|]. rewrite I2. unfold on_plane, X. destruct Hun as [-> | ->]; unfold r3dot; cbn; ring. }
  split; [exact Q2|]. split; [exact Q4|].
  assert (W : Forall part scene).
  { unfold scene. repeat (apply Forall_cons; [right; do 4 eexists; eassumption|]). apply Forall_nil. }
  assert (T : traced lam m scene P d L [q1; q2; q3; q4] d3 true (set_nth scene 3 (add_log (ODetector de) [(fv q4, Fin lam)]))).
  { eapply T_turn; [exact Fi1|lra|reflexivity|exact V1|reflexivity|exact Lv1|]. eapply T_turn; [exact Fi2|lra|reflexivity|exact Vm|reflexivity|apply V_tilted; reflexivity|].
    eapply T_turn; [exact Fi3|lra|reflexivity|exact V2|reflexivity|exact Lv3|]. eapply T_screen; [exact Fi4|lra|reflexivity|exact Vd|reflexivity]. }
  destruct (C89_trace _ _ _ _ _ _ _ _ _ _ r T W Hr U Hl Ho Ty Hb) as (r' & Run & _ & _ & _ & _ & B & Hi).
  exists (OMirror mi), (OLens l1), (OLens l2), r'. eexists. split; [exact Run|]. split; [reflexivity|]. split; [cbn; rewrite Hd; reflexivity|]. split; [exact B|exact Hi].
Qed.
Print Assumptions C99_sharp.

(* ---- a ray through a scene: micromirrors tilted by atan (1/3), unit magnification *)
Lemma dist3_lt (p q : R3) s : 0 < s -> (p - q)%r3 ∙ (p - q)%r3 < s * s -> dist3 p q < s.
Proof. intros Hs H. unfold dist3. apply Rsqr_incrst_0; [|apply len_nonneg|lra]. unfold Rsqr. rewrite len_sq. exact H. Qed.
Lemma dist3_ge (p q : R3) s : 0 < s -> s * s < (p - q)%r3 ∙ (p - q)%r3 -> s < dist3 p q.
Proof. intros Hs H. unfold dist3. apply Rsqr_incrst_0; [|lra|apply len_nonneg]. unfold Rsqr. rewrite len_sq. exact H. Qed.
Example C99_hyp : let th := atan (1 / 3) in let a := th * 180 / PI in let lam := 500 in let N := mk3 (3 / 5) (- (4 / 5)) 0 in let M := mk3 0 16 0 in let b := mk3 (sin th) (- cos th) 0 in
  let P := mk3 0 0 (-3) in let d := mk3 0 (4 / 5) (3 / 5) in let d1 := mk3 0 1 0 in let d3 := mk3 (12 / 25) (- (16 / 25)) (- (3 / 5)) in
  let q1 := at_t P d 10 in let q2 := at_t q1 d1 8 in let q3 := at_t q2 N 8 in
  a * PI / 180 = th /\ (d1 - (2 * (d1 ∙ b)) * b)%r3 = N /\ N = mk3 (sin (2 * th)) (- cos (2 * th)) 0 /\ M = mk3 0 (8 + 4 * (8 - 0) / ((8 - 0) - 4)) 0 /\
  good_dmd 4 (8 - 0) 50 50 th 4 30 30 /\ is_unit d /\
  exists scene, dmd_scene (args 4 0 8 10 50 50 a 4 10 30 30) = Ok scene /\
    first scene P d 1 10 /\ plainly (mk3 0 (-1) 0) d /\ leaves lam 0 (mk3 0 8 0) (mk3 0 (-1) 0) q1 d (LThin 4) d1 /\ first scene q1 d1 0 8 /\
    first scene q2 N 2 8 /\ plainly N N /\ leaves lam 0 (M + (2 * 4) * N)%r3 (- N)%r3 q3 N (LThin 4) d3 /\ - (4 / ((8 - 0) - 4) * 0) * sin (2 * th) < 4 /\ first scene q3 d3 3 10.
Proof.
  intros th a lam N M b P d d1 d3 q1 q2 q3. pose proof PI_RGT_0 as PP.
  assert (Ea : a * PI / 180 = th) by (unfold a; field; lra).
  assert (Sq : sqrt (1 + (1 / 3)²) * sqrt (1 + (1 / 3)²) = 10 / 9) by (rewrite sqrt_sqrt; unfold Rsqr; lra).
  assert (Sp : 0 < sqrt (1 + (1 / 3)²)) by (apply sqrt_lt_R0; unfold Rsqr; lra).
  assert (Cc : cos th * cos th = 9 / 10).
  { unfold th. rewrite cos_atan. replace (1 / sqrt (1 + (1 / 3)²) * (1 / sqrt (1 + (1 / 3)²))) with (1 / (sqrt (1 + (1 / 3)²) * sqrt (1 + (1 / 3)²))) by (field; lra). rewrite Sq. field. }
  assert (Ss : sin th * cos th = 3 / 10).
  { unfold th. rewrite cos_atan, sin_atan. replace (1 / 3 / sqrt (1 + (1 / 3)²) * (1 / sqrt (1 + (1 / 3)²))) with (1 / 3 / (sqrt (1 + (1 / 3)²) * sqrt (1 + (1 / 3)²))) by (field; lra). rewrite Sq. field. }
  assert (S2 : sin (2 * th) = 3 / 5) by (rewrite sin_2a; lra). assert (C2 : cos (2 * th) = 4 / 5) by (rewrite cos_2a_cos; lra).
  assert (S4 : sin (4 * th) = 24 / 25) by (replace (4 * th) with (2 * (2 * th)) by ring; rewrite (sin_2a (2 * th)), S2, C2; lra).
  assert (C4 : cos (4 * th) = 7 / 25) by (replace (4 * th) with (2 * (2 * th)) by ring; rewrite (cos_2a_cos (2 * th)), C2; lra).
  assert (Tp : 0 < th < PI / 4).
  { unfold th. split; [rewrite <- atan_0; apply atan_increasing; lra|]. rewrite <- atan_1. apply atan_increasing. lra. }
  assert (G : good_dmd 4 (8 - 0) 50 50 th 4 30 30) by (unfold good_dmd; rewrite C4, Rabs_right by lra; repeat split; lra).
  split; [exact Ea|]. split; [apply r3_ext; unfold r3dot, b; cbn; nra|]. split; [rewrite S2, C2; reflexivity|]. split; [apply r3_ext; cbn; lra|]. split; [exact G|]. split; [unfold is_unit, r3dot; cbn; lra|].
  pose proof (C99_scene 4 0 8 10 50 50 a 4 10 30 30) as Sc. cbv zeta in Sc. rewrite Ea, S2, C2, S4, C4 in Sc. specialize (Sc G).
  destruct Sc as (mi & l1 & l2 & de & Es & Vm & V1 & V2 & (un & Hun & Vd) & _). fold N in V2, Vd. fold b in Vm.
  replace (mk3 0 (8 + 4 * (8 - 0) / ((8 - 0) - 4)) 0) with M in * by (apply r3_ext; cbn; lra).
  replace (M + 2 * 4 * N)%r3 with (mk3 (24 / 5) (48 / 5) 0) in * by (apply r3_ext; cbn; lra). replace (M + 4 * 4 * N)%r3 with (mk3 (48 / 5) (16 / 5) 0) in * by (apply r3_ext; cbn; lra).
  replace q3 with (mk3 (24 / 5) (48 / 5) 3) by (apply r3_ext; cbn; lra). replace q2 with (mk3 0 16 3) by (apply r3_ext; cbn; lra). replace q1 with (mk3 0 8 3) by (apply r3_ext; cbn; lra).
  exists [OMirror mi; OLens l1; OLens l2; ODetector de]. split; [exact Es|].
  assert (Ud : is_unit d) by (unfold is_unit, r3dot; cbn; lra). assert (Ud1 : is_unit d1) by (unfold is_unit, r3dot; cbn; lra).
  assert (UN : is_unit N) by (unfold is_unit, r3dot; cbn; lra). assert (Ud3 : is_unit d3) by (unfold is_unit, r3dot; cbn; lra).
  assert (Ru : forall u c p e t, meets_plane c u p e t -> t * (u ∙ e) = (c - p)%r3 ∙ u) by (intros u c p e t (_ & _ & O); unfold on_plane, at_t in O; revert O; destruct u, c, p, e; unfold r3dot; cbn; lra).
  assert (Fi : forall p e k t c u A l o, is_unit e -> nth_error [OMirror mi; OLens l1; OLens l2; ODetector de] k = Some o -> piece o c u A l -> meets_plane c u p e t -> A (at_t p e t) ->
    (forall t', meets_plane M (mk3 0 (-1) 0) p e t' -> in_rect M (mk3 0 (-1) 0) (mk3 0 0 1) 50 50 (at_t p e t') -> t <= t' /\ ((0 < k)%nat -> t < t')) ->
    (forall t', meets_plane (mk3 0 8 0) (mk3 0 (-1) 0) p e t' -> dist3 (at_t p e t') (mk3 0 8 0) < 10 / 2 -> t <= t' /\ ((1 < k)%nat -> t < t')) ->
    (forall t', meets_plane (mk3 (24 / 5) (48 / 5) 0) (- N)%r3 p e t' -> dist3 (at_t p e t') (mk3 (24 / 5) (48 / 5) 0) < 10 / 2 -> t <= t' /\ ((2 < k)%nat -> t < t')) ->
    (forall t', meets_plane (mk3 (48 / 5) (16 / 5) 0) un p e t' -> t <= t' /\ ((3 < k)%nat -> t < t')) -> first [OMirror mi; OLens l1; OLens l2; ODetector de] p e k t).
  { intros p e k t c u A l o Ue Ek V Me Ae H0 H1 H2 H3. split; [exists o; split; [exact Ek|exists c, u, A, l; auto]|]. intros j o' t' Ej Se.
    destruct j as [|[|[|[|j]]]]; cbn in Ej; [injection Ej as <-..|destruct j; discriminate].
    - destruct (seen_fix _ _ _ _ _ _ _ _ Vm Ue Se). auto. - destruct (seen_fix _ _ _ _ _ _ _ _ V1 Ue Se). auto. - destruct (seen_fix _ _ _ _ _ _ _ _ V2 Ue Se). auto. - destruct (seen_fix _ _ _ _ _ _ _ _ Vd Ue Se). auto. }
  assert (De : forall p e t', meets_plane (mk3 (48 / 5) (16 / 5) 0) un p e t' -> 1e-9 < t' /\ t' * (mk3 (24 / 25) (- (7 / 25)) 0 ∙ e) = (mk3 (48 / 5) (16 / 5) 0 - p)%r3 ∙ mk3 (24 / 25) (- (7 / 25)) 0).
  { intros p e t' Me. pose proof (Ru _ _ _ _ _ Me) as E. split; [apply Me|]. destruct Hun as [-> | ->]; [|exact E]. revert E. destruct p, e. unfold r3dot. cbn. lra. }
  split; [|split; [|split; [|split; [|split; [|split; [|split; [|split]]]]]]].
  - eapply Fi; [exact Ud|reflexivity|exact V1| | | | | |].
    + unfold meets_plane, on_plane, at_t, r3dot. cbn. rewrite Rabs_left by lra. repeat split; lra.
    + apply dist3_lt; [lra|]. unfold at_t, r3dot. cbn. lra.
    + intros t' Me _. apply Ru in Me. unfold r3dot in Me. cbn in Me. split; [|intros _]; lra.
    + intros t' Me _. apply Ru in Me. unfold r3dot in Me. cbn in Me. split; [lra|lia].
    + intros t' Me Ds. apply Ru in Me. unfold r3dot in Me. cbn in Me. exfalso. assert (t' = 15 / 2) by lra. subst t'. revert Ds. apply Rle_not_lt, Rlt_le, dist3_ge; [lra|]. unfold at_t, r3dot. cbn. lra.
    + intros t' Me. apply De in Me. unfold r3dot in Me. cbn in Me. exfalso. lra.
  - split; [unfold r3dot; cbn; rewrite Rabs_left; lra|]. unfold near3. intros Nr. exfalso. revert Nr. unfold forward. destruct (Rltb_spec (mk3 0 (-1) 0 ∙ d) 0) as [E|E]; [|unfold r3dot in E; cbn in E; lra].
    cbn. unfold near1. intros (_ & _ & Nr). cbn in Nr. rewrite !Rabs_right in Nr by lra. lra.
  - assert (Ef : forward (mk3 0 (-1) 0) d = mk3 0 1 0).
    { unfold forward. destruct (Rltb_spec (mk3 0 (-1) 0 ∙ d) 0) as [E|E]; [apply r3_ext; cbn; ring|unfold r3dot in E; cbn in E; lra]. }
    eapply V_thin; [symmetry; exact Ef|unfold r3dot; cbn; lra| |].
    + unfold near3, near1. cbn. intros (_ & _ & Nr). rewrite !Rabs_right in Nr by lra. lra.
    + split; [exact Ud1|]. exists 4. split; [lra|]. unfold at_t. apply r3_ext; unfold r3dot; cbn; field.
  - eapply Fi; [exact Ud1|reflexivity|exact Vm| | | | | |].
    + unfold meets_plane, on_plane, at_t, r3dot. cbn. rewrite Rabs_left by lra. repeat split; lra.
    + unfold in_rect, at_t, r3dot. cbn. split; right; [rewrite Rabs_right; lra|rewrite Rabs_right; lra].
    + intros t' Me _. apply Ru in Me. unfold r3dot in Me. cbn in Me. split; [lra|lia].
    + intros t' Me _. destruct (Me) as (_ & Mt & _). apply Ru in Me. unfold r3dot in Me. cbn in Me. exfalso. lra.
    + intros t' Me _. destruct (Me) as (_ & Mt & _). apply Ru in Me. unfold r3dot in Me. cbn in Me. exfalso. lra.
    + intros t' Me. apply De in Me. unfold r3dot in Me. cbn in Me. exfalso. lra.
  - eapply Fi; [exact UN|reflexivity|exact V2| | | | | |].
    + unfold meets_plane, on_plane, at_t, r3dot. cbn. rewrite Rabs_left by lra. repeat split; lra.
    + apply dist3_lt; [lra|]. unfold at_t, r3dot. cbn. lra.
    + intros t' Me _. destruct (Me) as (_ & Mt & _). apply Ru in Me. unfold r3dot in Me. cbn in Me. exfalso. lra.
    + intros t' Me _. apply Ru in Me. unfold r3dot in Me. cbn in Me. split; [|intros _]; lra.
    + intros t' Me _. apply Ru in Me. unfold r3dot in Me. cbn in Me. split; [lra|lia].
    + intros t' Me. apply De in Me. unfold r3dot in Me. cbn in Me. split; [lra|lia].
  - split; [unfold is_unit in UN; rewrite UN, Rabs_right; lra|]. intros _. unfold forward. unfold is_unit in UN. rewrite UN. destruct (Rltb_spec 1 0); [lra|reflexivity].
  - assert (Ef : forward (- N)%r3 N = N).
    { unfold forward. rewrite dot_opp_l. unfold is_unit in UN. rewrite UN. destruct (Rltb_spec (- (1)) 0) as [E|E]; [apply r3_ext; cbn; ring|lra]. }
    eapply V_thin_axial; [symmetry; exact Ef|unfold is_unit in UN; rewrite UN; lra| |].
    + unfold near3, near1. repeat split; rewrite Rminus_diag_eq, Rabs_R0 by reflexivity; pose proof (Rabs_pos (cx N)); pose proof (Rabs_pos (cy N)); pose proof (Rabs_pos (cz N)); lra.
    + split; [exact Ud3|]. exists 5. split; [lra|]. unfold at_t. apply r3_ext; cbn; lra.
  - lra.
  - eapply Fi; [exact Ud3|reflexivity|exact Vd| | | | | |].
    + unfold meets_plane. destruct Hun as [-> | ->]; unfold on_plane, at_t, r3dot; cbn; [rewrite Rabs_left by lra|rewrite Rabs_right by lra]; repeat split; lra.
    + unfold in_rect. destruct Hun as [-> | ->]; unfold at_t, r3dot; cbn; (split; right; apply Rabs_le; lra).
    + intros t' Me _. destruct (Me) as (_ & Mt & _). apply Ru in Me. unfold r3dot in Me. cbn in Me. exfalso. lra.
    + intros t' Me Ds. apply Ru in Me. unfold r3dot in Me. cbn in Me. exfalso. assert (t' = 5 / 2) by lra. subst t'. revert Ds. apply Rle_not_lt, Rlt_le, dist3_ge; [lra|]. unfold at_t, r3dot. cbn. lra.
    + intros t' Me _. destruct (Me) as (_ & Mt & _). apply Ru in Me. unfold r3dot in Me. cbn in Me. exfalso. lra.
    + intros t' Me. apply De in Me. unfold r3dot in Me. cbn in Me. split; [lra|lia].
Qed.

(** the script's own numbers are of this kind *)
Theorem C99_script : (script_dmd : dmd_args xr) = args 50 0 100 25 50 50 (109 / 10) 25 25 30 30 /\ good_dmd 50 (100 - 0) 50 50 (109 / 10 * PI / 180) 25 30 30.
Proof.
  split.
  - unfold script_dmd, args. rewrite !dec_fin by discriminate. rewrite !nofZ_fin, !nopp_fin. change (IZR 109 / IZR (10 ^ 1)) with (109 / 10). change (IZR 218 / IZR (10 ^ 1)) with (218 / 10). change (IZR 436 / IZR (10 ^ 1)) with (436 / 10).
    f_equal; f_equal; lra.
  - pose proof PI_RGT_0 as PP. unfold good_dmd. rewrite Rabs_right by lra. repeat split; try lra. apply Rgt_not_eq, cos_gt_0; lra.
Qed.
Print Assumptions C99_script.
