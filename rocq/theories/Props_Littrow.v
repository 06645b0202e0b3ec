(** C106: a grating by itself, the Littrow angle, and script_testRectangleGrating.py (optics3d.py:470-530, 790-820, 876-950; general_optics.py:20-40). *)
From Coq Require Import Reals ZArith Lra Lia Psatz String List Bool.
From Verif Require Import PyErr Num Vec Shapes Csg Optics Spec XReal RVec VecProofs AngleProofs FlatProofs SphereProofs ShapeExtra RayProofs GratingProofs RunGen RunXr OrderProofs FlatOptic SceneProofs Props_Images Props_Trace.
Import ListNotations.
Local Open Scope R_scope.

(** ** Model *)
Section Script.
Context {T : Type} {N : Num T} {TT : Trig T}.
Local Open Scope num_scope.
(** script_testRectangleGrating.py:17-32  Optic_list for groove density G and Littrow wavelength lam0 (600 and 700 in the code) *)
Definition littrow_scene (G lam0 : T) : Res (list (optic T)) :=
  let littrow_angle := narcsin (G / #1000000 * #1 * lam0 / #2) in
  let grating_tangent := V #0 #0 #1 in
  let RM := rotation_matrix_axis_angle grating_tangent littrow_angle in
  let grating_normal := mv RM (V #0 (- #1) #0) in
  do grating1 <- mk_grating (V #0 #100 #0) (Some grating_normal) (Some grating_tangent) "rectangular_flat" (Some #50) (Some #50) (Some G);
  Ok [OGrating grating1].
(** script_testRectangleGrating.py:34-71  the rays (wavelength and order; in the code 400 to 700 in steps of 50 for the orders 1 and -1, and 700 in order 0), run one after the other *)
Definition littrow_script (fuel : nat) (G lam0 : T) (light : list (T * T)) : Res (list (ray T) * list (optic T)) :=
  do scene <- littrow_scene G lam0;
  run_all fuel (map (fun '(lam, m) => mk_ray (V #0 #0 #0) (V #0 #1 #0) lam m "normal") light) #300 scene None.
End Script.

(** ** Proofs *)
Lemma grating_alone o c u A Tg G : piece o c u A (LGrating Tg G) -> part o.
Proof. intros V. right. exists c, u, A, (LGrating Tg G). exact V. Qed.

(** A ray that meets a grating alone in a scene goes straight to it, is turned, and flies the rest of the way. *)
Theorem C106_run : forall c n t w h G g p d lam m t0 L e (r : ray xr), n <> r3zero -> t <> r3zero -> n ∙ t = 0 ->
  mk_grating (fv c) (Some (fv n)) (Some (fv t)) "rectangular_flat" (Some (Fin w)) (Some (Fin h)) (Some (Fin G)) = Ok g ->
  ray_is r p d -> is_unit d -> wavelength r = Fin lam -> order r = Fin m -> ray_type r <> "faerie_fire"%string -> blocked r = false ->
  let q := at_t p d t0 in meets_plane c (dirn n) p d t0 -> in_rect c (dirn n) (dirn t) h w q -> t0 < L ->
  leaves lam m c (dirn n) q d (LGrating (dirn t) G) e ->
  exists r', (forall fuel, L / 1e-12 + 1 < INR fuel -> run fuel r (Fin L) [OGrating g] None = Ok (r', [OGrating g])) /\
    point_history r' = point_history r ++ [fv q; fv (at_t q e (L - t0))] /\ ray_is r' (at_t q e (L - t0)) e /\ blocked r' = false /\ wavelength r' = Fin lam /\ order r' = Fin m.
Proof.
  intros c n t w h G g p d lam m t0 L e r Nn Nt O E Hr Ud Hl Hm Ty Hb q Me In Lt Lv.
  pose proof (P_grating c n t w h G g Nn Nt O E) as V. set (o := OGrating g) in *. pose proof Me as (Mu & Mt & Mp).
  assert (Sn : forall p' d' t', seen o p' d' t' -> is_unit d' -> meets_plane c (dirn n) p' d' t' /\ in_rect c (dirn n) (dirn t) h w (at_t p' d' t')).
  { intros p' d' t' Se U'. set (r1 := mkRay (fv p') (fv d') (Fin lam) (Fin m) [] false "normal"). assert (H1 : ray_is r1 p' d') by (split; reflexivity).
    destruct (seen_reports o p' d' t' r1 t' Se H1 U' ltac:(lra)) as (nn & Rp). destruct (reports_piece _ _ _ _ _ _ _ _ _ _ r1 t' V H1 U' Rp) as (X & Y & _). auto. }
  assert (Tr : traced lam m [o] p d L [q; at_t q e (L - t0)] e false [o]).
  { destruct (piece_do o c (dirn n) _ _ (mkRay (fv q) (fv d) (Fin lam) (Fin m) [] false "normal") q d lam m e SfoNone V (conj eq_refl eq_refl) Ud Mp eq_refl eq_refl Lv) as [_ Ue].
    eapply T_turn with (k := 0%nat) (t := t0) (o := o); [|lra|reflexivity|exact V|reflexivity|exact Lv|].
    - split; [exists o; split; [reflexivity|]; do 4 eexists; split; [exact V|]; split; assumption|].
      intros j o' t' Ej Se. destruct j as [|j]; [|destruct j; discriminate]. injection Ej as <-. split; [|lia]. destruct (Sn p d t' Se Ud) as ((_ & _ & Mp') & _).
      assert (Nz : dirn n ∙ d <> 0) by (intros Z; rewrite Z, Rabs_R0 in Mu; lra). apply (on_plane_param c (dirn n) p d t0 Nz) in Mp. apply (on_plane_param c (dirn n) p d t' Nz) in Mp'. lra.
    - apply T_end; [lra|]. intros o' t' [<-|[]] Se. exfalso. destruct (Sn q e t' Se Ue) as ((M1 & M2 & M3) & _).
      assert (Nz : dirn n ∙ e <> 0) by (intros Z; rewrite Z, Rabs_R0 in M1; lra). apply (on_plane_param c (dirn n) q e t' Nz) in M3.
      assert (Z : (c - q)%r3 ∙ dirn n = 0) by (unfold on_plane in Mp; fold q in Mp; unfold r3dot, r3sub in *; cbn [cx cy cz] in *; lra). rewrite Z in M3. unfold Rdiv in M3. rewrite Rmult_0_l in M3. lra. }
  destruct (C89_trace lam m [o] p d L _ e false [o] r Tr) as (r' & Run & Hr' & Wl & Om & _ & Hb' & Hh); try assumption; [constructor; [|constructor]; eapply grating_alone; exact V|].
  exists r'. cbn [last map] in Hr', Hh. auto 10.
Qed.
Print Assumptions C106_run.

(** Littrow: from the front side where the grating equation holds (C30), light orthogonal to the grooves goes back on its own path exactly if G m lam / 10^6 = 2 sin alpha, where - d.s = sin alpha. *)
Theorem C106_littrow : forall c n t w h G g p d lam m t0 L (r : ray xr), n <> r3zero -> t <> r3zero -> n ∙ t = 0 ->
  mk_grating (fv c) (Some (fv n)) (Some (fv t)) "rectangular_flat" (Some (Fin w)) (Some (Fin h)) (Some (Fin G)) = Ok g ->
  ray_is r p d -> is_unit d -> wavelength r = Fin lam -> order r = Fin m -> ray_type r <> "faerie_fire"%string -> blocked r = false ->
  let q := at_t p d t0 in let s := (dirn n × dirn t)%r3 in meets_plane c (dirn n) p d t0 -> in_rect c (dirn n) (dirn t) h w q -> t0 < L ->
  m <> 0 -> d ∙ dirn t = 0 -> d ∙ dirn n < 0 -> d ∙ s <= 0 -> -1 <= d ∙ s + G * m * lam / 10 ^ 6 <= 1 ->
  exists r', (forall fuel, L / 1e-12 + 1 < INR fuel -> run fuel r (Fin L) [OGrating g] None = Ok (r', [OGrating g])) /\ blocked r' = false /\
    (direction r' = fv (- d)%r3 <-> G * m * lam / 10 ^ 6 = - 2 * (d ∙ s)) /\
    (G * m * lam / 10 ^ 6 = - 2 * (d ∙ s) -> point_history r' = point_history r ++ [fv q; fv (at_t p d (2 * t0 - L))]).
Proof.
  intros c n t w h G g p d lam m t0 L r Nn Nt O E Hr Ud Hl Hm Ty Hb q s Me In Lt Nm Dt Dn Ds B. set (u := dirn n) in *. set (Tg := dirn t) in *.
  assert (Uu : is_unit u) by (apply dirn_unit; exact Nn). assert (UT : is_unit Tg) by (apply dirn_unit; exact Nt). assert (Or : u ∙ Tg = 0) by (unfold u, Tg, dirn; rewrite dot_scale_l, dot_scale_r, O; ring).
  assert (Us : is_unit s) by (unfold s, is_unit in *; rewrite lagrange, Uu, UT, Or; ring). assert (Su : s ∙ u = 0) by (unfold s; r3_ring). assert (St : s ∙ Tg = 0) by (unfold s; r3_ring).
  set (sg := d ∙ s + G * m * lam / 10 ^ 6) in *. assert (Q0 : 0 <= 1 - sg * sg) by nra. pose proof (sqrt_pos (1 - sg * sg)) as Q1. pose proof (sqrt_sqrt _ Q0) as Q2. set (z := sqrt (1 - sg * sg)) in *.
  set (e := (z * u + sg * s)%r3). unfold is_unit in Uu, UT, Us.
  assert (Eu : e ∙ u = z) by (unfold e; autorewrite with dotr; rewrite ?Uu, ?Su, ?(dot_comm u s), ?Su; ring).
  assert (Es : e ∙ s = sg) by (unfold e; autorewrite with dotr; rewrite ?Us, ?(dot_comm u s), ?Su; ring).
  assert (Et : e ∙ Tg = 0) by (unfold e; autorewrite with dotr; rewrite ?Or, ?St; ring).
  assert (Ue : is_unit e). { unfold is_unit, e. autorewrite with dotr. rewrite ?Uu, ?Us, ?(dot_comm u s), ?Su. nra. }
  assert (Lv : leaves lam m c u q d (LGrating Tg G) e).
  { apply V_grating with (s := s); try assumption; try reflexivity; [rewrite Eu; exact Q1|rewrite Et, Dt; reflexivity|]. rewrite Es, Dt. replace (1 - 0 * 0) with 1 by ring. rewrite sqrt_1. unfold sg. ring. }
  destruct (C106_run c n t w h G g p d lam m t0 L e r Nn Nt O E Hr Ud Hl Hm Ty Hb Me In Lt Lv) as (r' & Run & Hh & (_ & Hd) & Hb' & _).
  exists r'. split; [exact Run|]. split; [exact Hb'|].
  assert (K : G * m * lam / 10 ^ 6 = - 2 * (d ∙ s) -> e = (- d)%r3).
  { intros K. assert (Sg : sg = - (d ∙ s)) by (unfold sg; lra).
    assert (Dc := orthonormal_expand u s Tg d Uu Us UT ltac:(rewrite dot_comm; exact Su) St ltac:(rewrite dot_comm; exact Or)). rewrite Dt in Dc.
    assert (N1 : d ∙ d = (d ∙ u) * (d ∙ u) + (d ∙ s) * (d ∙ s)). { rewrite Dc at 1. autorewrite with dotr. rewrite (dot_comm u d), (dot_comm s d). ring. }
    unfold is_unit in Ud. rewrite Ud in N1. assert (Z : z = - (d ∙ u)). { rewrite Sg in Q2. assert (X : (z - - (d ∙ u)) * (z + - (d ∙ u)) = 0) by nra. apply Rmult_integral in X. destruct X; lra. }
    unfold e. rewrite Z, Sg. rewrite Dc at 3. r3_ring. }
  split; [split|].
  - intros X. rewrite Hd in X. apply fv_inj in X. rewrite X, dot_opp_l in Es. unfold sg in Es. lra.
  - intros X. rewrite Hd, (K X). reflexivity.
  - intros X. rewrite Hh, (K X). do 3 f_equal. f_equal. unfold q, at_t. r3_ring.
Qed.
Print Assumptions C106_littrow.


(** The script, for every groove density, Littrow wavelength and list of light (with orders that exist): every ray goes straight to the centre of the grating and leaves in the plane z = 0 at the angle beta
    to the normal with sin beta = G m lam / 10^6 - sin theta, theta the angle the grating is turned by; beta = theta, straight back, exactly for G m lam = G lam0. *)
Definition script_way (sn : R) (lam m : R) (G : R) (r : ray xr) : Prop :=
  let sg := G * m * lam / 10 ^ 6 - sn in let cs := sqrt (1 - sn * sn) in let z := sqrt (1 - sg * sg) in
  let e := mk3 (sn * z - cs * sg) (- (cs * z) - sn * sg) 0 in
  is_unit e /\ point_history r = [fv r3zero; fv (mk3 0 100 0); fv (mk3 0 100 0 + 200 * e)%r3] /\ direction r = fv e /\ blocked r = false /\ wavelength r = Fin lam /\ order r = Fin m.
Theorem C106_script : forall G lam0 light fuel, 0 <= G * lam0 <= 1.98e6 -> (forall lam m, In (lam, m) light -> -1 <= G * m * lam / 10 ^ 6 - G * lam0 / (2 * 10 ^ 6) <= 1) -> 300 / 1e-12 + 1 < INR fuel ->
  exists rays o, littrow_script fuel (Fin G) (Fin lam0) (map (fun '(lam, m) => (Fin lam, Fin m)) light) = Ok (rays, [o]) /\
    Forall2 (fun '(lam, m) r => script_way (G * lam0 / (2 * 10 ^ 6)) lam m G r) light rays.
Proof.
  intros G lam0 light fuel HG HL Hf. set (sn := G * lam0 / (2 * 10 ^ 6)) in *. assert (S0 : 0 <= sn <= 0.99) by (unfold sn; split; [apply Rmult_le_reg_r with (2 * 10 ^ 6); [lra|]; field_simplify; lra|apply Rmult_le_reg_r with (2 * 10 ^ 6); [lra|]; field_simplify; lra]).
  set (cs := sqrt (1 - sn * sn)). assert (C2 : cs * cs = 1 - sn * sn) by (apply sqrt_sqrt; nra). assert (C0 : 0 <= cs) by apply sqrt_pos. assert (C1 : 0.1 < cs) by nra.
  set (n := mk3 sn (- cs) 0). set (tg := mk3 0 0 1). assert (Un : is_unit n) by (unfold is_unit, n, r3dot; cbn [cx cy cz]; nra). assert (Ut : is_unit tg) by (unfold is_unit, tg, r3dot; cbn [cx cy cz]; lra).
  assert (Nn : n <> r3zero) by (apply unit_nonzero; exact Un). assert (Nt : tg <> r3zero) by (apply unit_nonzero; exact Ut). assert (Ot : n ∙ tg = 0) by (unfold n, tg, r3dot; cbn [cx cy cz]; ring).
  assert (Dn : dirn n = n) by (apply dirn_of_unit; exact Un). assert (Dt : dirn tg = tg) by (apply dirn_of_unit; exact Ut).
  assert (Ng : exists g, mk_grating (fv (mk3 0 100 0)) (Some (fv n)) (Some (fv tg)) "rectangular_flat" (Some (Fin 50)) (Some (Fin 50)) (Some (Fin G)) = Ok g).
  { unfold mk_grating. cbn [unit_vector_o bind]. change (String.eqb "rectangular_flat" "rectangular_flat") with true. cbn iota. rewrite mk_rectangle_fv by assumption. rewrite Dn, Dt, Ot, Rabs_R0.
    rewrite Rleb_true by lra. rewrite !Rltb_false by lra. eexists. reflexivity. }
  destruct Ng as (g & Eg).
  assert (Sc : littrow_scene (Fin G) (Fin lam0) = Ok [OGrating g]).
  { unfold littrow_scene. rewrite !nofZ_fin, nopp_fin. rewrite !ndiv_fin by lra. rewrite !nmul_fin. rewrite ndiv_fin by lra. replace (G / 1000000 * 1 * lam0 / 2) with sn by (unfold sn; field). rewrite narcsin_fin by lra.
    change (V (Fin 0) (Fin 0) (Fin 1)) with (fv tg). change (V (Fin 0) (Fin (- (1))) (Fin 0)) with (fv (mk3 0 (- (1)) 0)). rewrite (axis_angle_acts tg (asin sn) Nt), Dt.
    replace (rodr (cos (asin sn)) (sin (asin sn)) tg (mk3 0 (- (1)) 0)) with n.
    2:{ rewrite sin_asin by lra. rewrite cos_asin by lra. replace (1 - sn²) with (1 - sn * sn) by (unfold Rsqr; ring). fold cs. unfold rodr, n, tg, r3add, r3scale, r3cross, r3dot. cbn [cx cy cz]. f_equal; ring. }
    change (V (Fin 0) (Fin 100) (Fin 0)) with (fv (mk3 0 100 0)). rewrite Eg. reflexivity. }
  unfold littrow_script. rewrite Sc. cbn [bind]. rewrite !nofZ_fin. set (o := OGrating g).
  enough (K : exists rays, run_all fuel (map (fun '(lam, m) => mk_ray (V (Fin 0) (Fin 0) (Fin 0)) (V (Fin 0) (Fin 1) (Fin 0)) lam m "normal") (map (fun '(lam, m) => (Fin lam, Fin m)) light)) (Fin 300) [o] None = Ok (rays, [o]) /\
     Forall2 (fun '(lam, m) r => script_way sn lam m G r) light rays) by (destruct K as (rays & K1 & K2); exists rays, o; auto).
  clear Sc. revert HL. induction light as [|(lam, m) light IH]; intros HL; [exists []; split; [reflexivity|constructor]|].
  destruct IH as (rays & Ra & Fa); [intros; apply HL; right; assumption|]. cbn [map run_all].
  set (d := mk3 0 1 0). assert (Ud : is_unit d) by (unfold is_unit, d, r3dot; cbn [cx cy cz]; lra).
  set (r := mk_ray (V (Fin 0) (Fin 0) (Fin 0)) (V (Fin 0) (Fin 1) (Fin 0)) (Fin lam) (Fin m) "normal").
  assert (Hr : ray_is r r3zero d). { split; [reflexivity|]. cbn [r mk_ray direction]. change (V (Fin 0) (Fin 1) (Fin 0)) with (fv d). apply unit_vector_unit. exact Ud. }
  assert (Q : at_t r3zero d 100 = mk3 0 100 0) by (unfold at_t, d, r3add, r3scale, r3zero; cbn [cx cy cz]; f_equal; ring).
  specialize (HL lam m (or_introl eq_refl)). set (sg := G * m * lam / 10 ^ 6 - sn) in *. set (z := sqrt (1 - sg * sg)). assert (Z0 : 0 <= z) by apply sqrt_pos. assert (Z2 : z * z = 1 - sg * sg) by (apply sqrt_sqrt; nra).
  set (e := mk3 (sn * z - cs * sg) (- (cs * z) - sn * sg) 0).
  assert (Ue : is_unit e). { unfold is_unit, e, r3dot. cbn [cx cy cz]. transitivity ((sn * sn + cs * cs) * (z * z + sg * sg)); [ring|]. rewrite C2, Z2. ring. }
  assert (Du : d ∙ n = - cs) by (unfold d, n, r3dot; cbn [cx cy cz]; ring). set (s := (n × tg)%r3). assert (Dss : d ∙ s = - sn) by (unfold d, s, n, tg, r3cross, r3dot; cbn [cx cy cz]; ring).
  assert (Lv : leaves lam m (mk3 0 100 0) (dirn n) (mk3 0 100 0) d (LGrating (dirn tg) G) e).
  { rewrite Dn, Dt. destruct (Req_dec m 0) as [M0|M0].
    - apply V_order0; [exact M0|]. rewrite Du. assert (Sg : sg = - sn) by (unfold sg; rewrite M0; field). assert (Zc : z = cs) by (unfold z, cs; rewrite Sg; f_equal; ring).
      unfold e. rewrite Sg, Zc. unfold d, n, r3sub, r3scale. cbn [cx cy cz]. f_equal; try ring. replace (- (cs * cs) - sn * - sn) with (sn * sn - cs * cs) by ring. rewrite C2. replace (1 - 2 * - cs * - cs) with (1 - 2 * (cs * cs)) by ring. rewrite C2. ring.
    - apply V_grating with (s := s); try assumption; try reflexivity; [lra|lra| | |].
      + replace (e ∙ n) with z; [exact Z0|]. unfold e, n, r3dot. cbn [cx cy cz]. transitivity (z * (sn * sn + cs * cs)); [rewrite C2; ring|ring].
      + unfold e, d, tg, r3dot. cbn [cx cy cz]. ring.
      + replace (d ∙ tg) with 0 by (unfold d, tg, r3dot; cbn [cx cy cz]; ring). replace (1 - 0 * 0) with 1 by ring. rewrite sqrt_1, Dss. transitivity sg; [|unfold sg; ring]. unfold e, s, n, tg, r3cross, r3dot. cbn [cx cy cz]. transitivity (sg * (sn * sn + cs * cs)); [ring|rewrite C2; ring]. }
  destruct (C106_run (mk3 0 100 0) n tg 50 50 G g r3zero d lam m 100 300 e r Nn Nt Ot Eg Hr Ud eq_refl eq_refl) as (r' & Run & Hh & (Hp' & Hd') & Hb' & Kl & Km); try rewrite Q; try assumption; try lra; try discriminate.
  - reflexivity.
  - rewrite Dn. split; [rewrite dot_comm, Du, Rabs_Ropp, Rabs_right; lra|]. split; [lra|]. unfold on_plane. rewrite Q. r3_ring.
  - rewrite Dn, Dt. unfold in_rect. fold s. replace (mk3 0 100 0 - mk3 0 100 0)%r3 with r3zero by r3_ring. assert (Us : s ∙ s = 1) by (unfold s, n, tg, r3cross, r3dot; cbn [cx cy cz]; nra). split; right; rewrite dot_zero_l, Rabs_R0; [lra|rewrite Us; lra].
  - specialize (Run fuel Hf). fold o in Run. exists (r' :: rays). change (run fuel _ (Fin 300) [o] None) with (run fuel r (Fin 300) [o] None). rewrite Run. cbn [bind]. rewrite Ra. cbn [bind]. split; [reflexivity|]. constructor; [|exact Fa].
    unfold script_way. fold sg cs z e. split; [exact Ue|]. split; [rewrite Hh, Q; unfold at_t; replace (300 - 100) with 200 by lra; reflexivity|]. split; [exact Hd'|]. split; [exact Hb'|]. split; assumption.
Qed.
Print Assumptions C106_script.

(** the script's own light: all its orders exist, and the first order of 700 nm comes back to the start and beyond *)
Example C106_hyp : let light := [(400, 1); (450, 1); (500, 1); (550, 1); (600, 1); (650, 1); (700, 1); (400, -1); (450, -1); (500, -1); (550, -1); (600, -1); (650, -1); (700, -1); (700, 0)] in
  0 <= 600 * 700 <= 1.98e6 /\ (forall lam m, In (lam, m) light -> -1 <= 600 * m * lam / 10 ^ 6 - 600 * 700 / (2 * 10 ^ 6) <= 1) /\
  forall r, script_way (600 * 700 / (2 * 10 ^ 6)) 700 1 600 r -> point_history r = [fv r3zero; fv (mk3 0 100 0); fv (mk3 0 (-100) 0)].
Proof.
  cbv zeta. split; [lra|]. split. { intros lam m H. cbn [In] in H. repeat (destruct H as [H|H]; [injection H as <- <-; lra|]). destruct H. }
  intros r (_ & H & _). rewrite H. set (sn := 600 * 700 / (2 * 10 ^ 6)). replace (600 * 1 * 700 / 10 ^ 6 - sn) with sn by (unfold sn; field). assert (S : 0 <= 1 - sn * sn) by (unfold sn; lra). pose proof (sqrt_sqrt _ S) as Q. set (cs := sqrt (1 - sn * sn)) in *.
  do 3 f_equal. f_equal. unfold r3add, r3scale. cbn [cx cy cz]. f_equal; [ring| |ring]. replace (- (cs * cs) - sn * sn) with (-1) by (rewrite Q; ring). lra.
Qed.
