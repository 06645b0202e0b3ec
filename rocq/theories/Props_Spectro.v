(** Property C90: diffraction of rays that are not orthogonal to the grooves.
    Property C91: a spectrometer with a grating, an ideal lens and a detector in its focal plane. *)
From Coq Require Import Reals ZArith Lra Lia Psatz String List Bool.
From Verif Require Import PyErr Num Vec Shapes Csg Optics Spec XReal RVec VecProofs AngleProofs FlatProofs SphereProofs CylProofs ShapeExtra
  TreeProofs SolidProofs CsgProofs RayProofs GratingProofs RunGen NoFuel RunXr OpticHits StateXr OrderProofs FlatOptic Continue Props_Ray Props_Loop Props_Run Props_Rehit SceneProofs Props_Scene Props_Images Props_Trace.
Import ListNotations.
Local Open Scope R_scope.

Lemma cross_left (n T : R3) : (n × T)%r3 ∙ n = 0. Proof. r3_ring. Qed.
Lemma cross_right (n T : R3) : (n × T)%r3 ∙ T = 0. Proof. r3_ring. Qed.
(** components in the frame of a grating: normal n, grooves T, and s = n x T across the grooves *)
Definition frame (n T : R3) : Prop := is_unit n /\ is_unit T /\ n ∙ T = 0.
Lemma frame_s n T : frame n T -> let s := (n × T)%r3 in is_unit s /\ s ∙ n = 0 /\ s ∙ T = 0.
Proof. intros (Un & UT & O) s. unfold is_unit in *. split; [|split; [apply cross_left|apply cross_right]]. unfold s. rewrite lagrange, Un, UT, O. ring. Qed.
Lemma frame_dot n T x y : frame n T -> let s := (n × T)%r3 in x ∙ y = (x ∙ n) * (y ∙ n) + (x ∙ s) * (y ∙ s) + (x ∙ T) * (y ∙ T).
Proof.
  intros F s. destruct (frame_s n T F) as (Us & Sn & ST). fold s in Us, Sn, ST. destruct F as (Un & UT & O). pose proof (orthonormal_expand n s T x Un Us UT ltac:(rewrite dot_comm; exact Sn) ST ltac:(rewrite dot_comm; exact O)) as E.
  rewrite E at 1. rewrite !dot_add_l, !dot_scale_l, (dot_comm n y), (dot_comm s y), (dot_comm T y). reflexivity.
Qed.
Lemma frame_mix n T a b c : frame n T -> let s := (n × T)%r3 in let x := (a * n + b * s + c * T)%r3 in x ∙ n = a /\ x ∙ s = b /\ x ∙ T = c.
Proof.
  intros F s. destruct (frame_s n T F) as (Us & Sn & ST). fold s in Us, Sn, ST. destruct F as (Un & UT & O). clearbody s. cbv zeta. repeat rewrite ?dot_add_l, ?dot_scale_l. rewrite (dot_comm n s), (dot_comm T n), (dot_comm T s), Sn, ST, O. unfold is_unit in *. rewrite Un, UT, Us. repeat split; ring.
Qed.
(** the direction with given components along s and T *)
Lemma frame_make n T P b c : frame n T -> P * P = 1 - c * c -> - P <= b <= P -> exists e, is_unit e /\ e ∙ (n × T)%r3 = b /\ e ∙ T = c /\ 0 <= e ∙ n.
Proof.
  intros F HP B. assert (Pos : 0 <= P * P - b * b) by nra. exists (sqrt (P * P - b * b) * n + b * (n × T) + c * T)%r3. destruct (frame_mix n T (sqrt (P * P - b * b)) b c F) as (E1 & E2 & E3). split.
  - unfold is_unit. rewrite (frame_dot n T _ _ F), E1, E2, E3, sqrt_sqrt by exact Pos. lra.
  - rewrite E1, E2, E3. repeat split. apply sqrt_pos.
Qed.

(** C90: a ray that meets a ruled grating from the front, with d.(n x T) <= 0, in an order m <> 0 that the code finds.  T is the groove direction. *)
Theorem C90_conical : forall (r : ray xr) g d n T G m lam, grating_is g T G -> is_unit T -> is_unit n -> n ∙ T = 0 -> direction r = fv d -> is_unit d ->
  order r = Fin m -> wavelength r = Fin lam -> m <> 0 -> d ∙ n < 0 ->
  let s := (n × T)%r3 in let K := G * m * lam / 10 ^ 6 in let P := sqrt (1 - (d ∙ T) * (d ∙ T)) in
  d ∙ s <= 0 -> - P <= d ∙ s + K * P <= P ->
  exists o, grating_do_intersect g r (Some (fv n)) = Ok (set_direction r (fv o)) /\ is_unit o /\ 0 <= o ∙ n /\ o ∙ T = d ∙ T /\ o ∙ s = d ∙ s + K * P /\
    (K <> 0 -> (o ∙ s = d ∙ s + K <-> d ∙ T = 0)) /\ Rabs (o ∙ s - (d ∙ s + K)) <= Rabs K * ((d ∙ T) * (d ∙ T)).
Proof.
  intros r g d n T G m lam HG UT Un O Hd Ud Ho Hl Nm Fr s K P Ls Ex.
  assert (B : (d ∙ T) * (d ∙ T) <= 1). { pose proof (frame_dot n T d d (conj Un (conj UT O))) as E. cbv zeta in E. fold s in E. unfold is_unit in Ud. rewrite Ud in E. pose proof (Rle_0_sqr (d ∙ n)). pose proof (Rle_0_sqr (d ∙ s)). unfold Rsqr in *. lra. }
  assert (PP : P * P = 1 - (d ∙ T) * (d ∙ T)) by (apply sqrt_sqrt; lra). assert (P0 : 0 <= P) by apply sqrt_pos.
  destruct (frame_make n T P (d ∙ s + K * P) (d ∙ T) (conj Un (conj UT O)) PP Ex) as (o & Uo & Os & Ot & On). fold s in Os.
  exists o. split.
  { apply (grating_conical r g d n T G m lam o); try assumption. fold s. rewrite Os, perp_len by assumption. fold P. unfold K, gml. f_equal. f_equal. field. }
  split; [exact Uo|]. split; [exact On|]. split; [exact Ot|]. split; [exact Os|]. split.
  - intros NK. rewrite Os. split; intros E.
    + assert (P1 : P = 1) by (apply Rmult_eq_reg_l with K; lra). rewrite P1 in PP. nra.
    + assert (P1 : P = 1) by (unfold P; rewrite E; replace (1 - 0 * 0) with 1 by ring; apply sqrt_1). rewrite P1. ring.
  - rewrite Os. replace (d ∙ s + K * P - (d ∙ s + K)) with (K * (P - 1)) by ring. rewrite Rabs_mult. apply Rmult_le_compat_l; [apply Rabs_pos|].
    assert (P <= 1) by nra. rewrite Rabs_left1 by lra. nra.
Qed.
Print Assumptions C90_conical.
Definition cone_grating : grating xr := mkGrating (fv r3zero) (fv e_z) (fv e_x) "rectangular_flat" (Some (Fin 1000)) [].
Example C90_hyp : exists o, grating_do_intersect cone_grating (a_ray r3zero i34 1 500) (Some (fv e_z)) = Ok (set_direction (a_ray r3zero i34 1 500) (fv o)) /\ o ∙ (e_z × e_x)%r3 = 2/5 /\
  i34 ∙ (e_z × e_x)%r3 + 1000 * 1 * 500 / 10 ^ 6 = 1/2.
Proof.
  assert (Eq : sqrt (1 - i34 ∙ e_x * (i34 ∙ e_x)) = 4/5). { replace (1 - i34 ∙ e_x * (i34 ∙ e_x)) with ((4/5) * (4/5)) by (unfold i34, e_x, r3dot; cbn; field). apply sqrt_square. lra. }
  assert (Es : i34 ∙ (e_z × e_x)%r3 = 0) by (unfold i34, e_x, e_z, r3dot, r3cross; cbn; ring).
  destruct (C90_conical (a_ray r3zero i34 1 500) cone_grating i34 e_z e_x 1000 1 500) as (o & Go & _ & _ & _ & Os & _); rewrite ?Eq, ?Es; try reflexivity; try lra.
  - split; reflexivity.
  - unfold is_unit, e_x, r3dot; cbn; ring.
  - unfold is_unit, e_z, r3dot; cbn; ring.
  - unfold e_x, e_z, r3dot; cbn; ring.
  - unfold is_unit, i34, r3dot; cbn; field.
  - unfold i34, e_z, r3dot; cbn; lra.
  - exists o. split; [exact Go|]. rewrite Os, Eq, Es. split; lra.
Qed.

(* ------------------------------------------------------------------ C91 *)
(** the direction into which the grating (normal n, grooves T, G lines/mm) sends light of wavelength lam and direction d in order m *)
Definition diffracted (n T : R3) (G m lam : R) (d e : R3) : Prop :=
  is_unit e /\ 0 <= e ∙ n /\ e ∙ T = d ∙ T /\ e ∙ (n × T)%r3 = d ∙ (n × T)%r3 + G * m * lam / 10 ^ 6 * sqrt (1 - (d ∙ T) * (d ∙ T)).
(** the ray from p in direction d meets the optic kg first, from there in direction e the optic kl, and from there, aimed at X, the optic kd, all within the length L *)
Definition way (w : list (optic xr)) (p d e X : R3) (kg kl kd : nat) (L : R) (q1 q2 : R3) : Prop := exists t1 t2 t3 d',
  first w p d kg t1 /\ q1 = at_t p d t1 /\ first w q1 e kl t2 /\ q2 = at_t q1 e t2 /\ towards q2 X d' /\ first w q2 d' kd t3 /\ t1 + t2 + t3 <= L.
(** the point of the focal plane in which an ideal lens (centre c, axis N, focal length f) collects the light of direction e *)
Definition image (c N : R3) (f : R) (e : R3) : R3 := (c + (f / (N ∙ e)) * e)%r3.

Lemma image_ring (cl e u : R3) k : (cl + k * e - cl)%r3 ∙ u = k * (e ∙ u). Proof. r3_ring. Qed.
Lemma plane_ring (q d cd cl u : R3) t t' f : (at_t q d t - cd)%r3 ∙ u - (at_t q d t' - cl)%r3 ∙ u + f * (u ∙ u) - (cl + f * u - cd)%r3 ∙ u = (t - t') * (d ∙ u).
Proof. unfold at_t. r3_ring. Qed.

Section Spectrometer.
Variables (w : list (optic xr)) (kg kl kd : nat) (og ol od : optic xr).
Variables (cg n T cl u cd ud : R3) (Ag Al Ad : R3 -> Prop) (G f : R).
Hypothesis W : Forall part w.
Hypothesis Eg : nth_error w kg = Some og. Hypothesis Pg : piece og cg n Ag (LGrating T G).
Hypothesis El : nth_error w kl = Some ol. Hypothesis Pl : piece ol cl u Al (LThin f).
Hypothesis Ed : nth_error w kd = Some od. Hypothesis Pd : piece od cd ud Ad LScreen.
(** the detector lies in the focal plane behind the lens *)
Hypothesis Fd : along ud u.
Hypothesis Fp : on_plane cd ud (cl + f * u)%r3.

Lemma lens_f : 0 < f. Proof. inversion Pl; assumption. Qed.
Lemma lens_unit : is_unit u. Proof. exact (flat_unit _ _ _ _ (piece_flat _ _ _ _ _ Pl)). Qed.
Lemma spectro_run lam m (r : ray xr) p d e L q1 q2 : ray_is r p d -> is_unit d -> wavelength r = Fin lam -> order r = Fin m -> ray_type r <> "faerie_fire"%string -> blocked r = false ->
  m <> 0 -> d ∙ n < 0 -> d ∙ (n × T)%r3 <= 0 -> diffracted n T G m lam d e -> 1e-8 < u ∙ e -> ~ near3 e u ->
  way w p d e (image cl u f e) kg kl kd L q1 q2 ->
  exists r', (forall fuel, L / 1e-12 + 1 < INR fuel -> run fuel r (Fin L) w None = Ok (r', set_nth w kd (add_log od [(fv (image cl u f e), Fin lam)]))) /\
    blocked r' = true /\ point_history r' = point_history r ++ map fv [q1; q2; image cl u f e].
Proof.
  intros Hr Ud Hl Ho Ty Hb Nm Fr Ls (Ue & En & Et & Es) C NN (t1 & t2 & t3 & d' & F1 & Q1 & F2 & Q2 & Tw & F3 & HL). set (X := image cl u f e) in *.
  pose proof lens_f as Pf. pose proof lens_unit as Uu.
  assert (Fw : forward u e = u) by (unfold forward; rewrite Rltb_false by lra; reflexivity).
  pose proof (first_pos _ _ _ _ _ F1) as L1. pose proof (first_pos _ _ _ _ _ F2) as L2. pose proof (first_pos _ _ _ _ _ F3) as L3.
  assert (EX : at_t q2 d' t3 = X).
  { pose proof Tw as (Ud' & ts & Pt & Ets). 
    assert (Hr3 : ray_is (ray_of q2 d' 0 0) q2 d') by (split; reflexivity). pose proof (first_chosen w q2 d' kd t3 _ t3 od cd ud Ad LScreen W Hr3 Ud' F3 (Rle_refl t3) Ed Pd) as [(o' & En' & R) _]. rewrite Ed in En'. injection En' as <-.
    destruct (reports_piece _ _ _ _ _ _ _ _ _ _ _ _ Pd Hr3 Ud' R) as (M & _). pose proof M as (M1 & M2 & M3).
    apply (along_plane ud u cd (at_t q2 d' t3) Fd) in M3. pose proof (proj1 (along_plane ud u cd (cl + f * u)%r3 Fd) Fp) as Fp'.
    assert (PX : (X - cl)%r3 ∙ u = f). { unfold X, image. rewrite image_ring, (dot_comm e u). field. lra. }
    assert (EqD : (t3 - ts) * (d' ∙ u) = 0).
    { rewrite <- (plane_ring q2 d' cd cl u t3 ts f), Ets, PX, M3, Fp'. unfold is_unit in Uu. rewrite Uu. ring. }
    rewrite (along_abs ud u d' Fd) in M1. assert (d' ∙ u <> 0) by (intros K; rewrite K, Rabs_R0 in M1; lra).
    assert (t3 = ts) by (apply Rmult_integral in EqD; lra). subst t3. exact Ets. }
  destruct (C89_trace lam m w p d L [q1; q2; X] d' true (set_nth w kd (add_log od [(fv X, Fin lam)])) r) as (r' & Go & _ & _ & _ & _ & B & H); try assumption.
  - eapply T_turn; [exact F1|lra|exact Eg|exact Pg|exact Q1| |].
    { eapply V_grating; [exact Nm|reflexivity|exact Fr|exact Ls|exact Ue|exact En|exact Et|exact Es]. }
    eapply T_turn; [exact F2|lra|exact El|exact Pl|exact Q2| |].
    { eapply V_thin; [symmetry; exact Fw|exact C|exact NN|exact Tw]. }
    eapply T_screen; [exact F3|lra|exact Ed|exact Pd|symmetry; exact EX].
  - exists r'. split; [exact Go|]. split; [exact B|exact H].
Qed.
End Spectrometer.

Lemma half_plane a1 b1 a2 b2 P : a1 * a1 + b1 * b1 = P -> a2 * a2 + b2 * b2 = P -> 0 <= b1 -> 0 <= b2 -> 0 < b1 + b2 -> a1 < a2 -> a1 * b2 < a2 * b1.
Proof.
  intros E1 E2 B1 B2 B L. set (D := a2 * b1 - a1 * b2).
  assert (I : 2 * D * (b1 + b2) = (a2 - a1) * ((b1 + b2) * (b1 + b2) + (a1 + a2) * (a1 + a2))).
  { assert (H : (a2 - a1) * (a2 + a1) = (b1 - b2) * (b1 + b2)) by lra. unfold D.
    transitivity ((a2 - a1) * (b1 + b2) * (b1 + b2) + (a2 + a1) * ((b1 - b2) * (b1 + b2))); [ring|]. rewrite <- H. ring. }
  assert (0 < (a2 - a1) * ((b1 + b2) * (b1 + b2) + (a1 + a2) * (a1 + a2))) by (apply Rmult_lt_0_compat; [lra|]; pose proof (Rmult_lt_0_compat _ _ B B); pose proof (Rle_0_sqr (a1 + a2)); unfold Rsqr in *; clear I; clearbody D; lra).
  assert (0 < D); [|unfold D in *; lra]. apply Rmult_lt_reg_r with (2 * (b1 + b2)); [lra|]. replace (D * (2 * (b1 + b2))) with (2 * D * (b1 + b2)) by ring. rewrite I, Rmult_0_l. assumption.
Qed.
Lemma cross_twice (n T : R3) : ((n × T) × T)%r3 = ((n ∙ T) * T - (T ∙ T) * n)%r3. Proof. r3_ring. Qed.
Lemma cross_lin (n s T : R3) a b : ((a * n + b * s) × T)%r3 = (a * (n × T) + b * (s × T))%r3. Proof. r3_ring. Qed.
Lemma image_dot (c N e Y : R3) f : (image c N f e - c)%r3 ∙ Y = f / (N ∙ e) * (e ∙ Y). Proof. apply image_ring. Qed.
Lemma disperse n T u d e1 e2 G m l1 l2 f c : frame n T -> is_unit u -> u ∙ T = 0 -> is_unit d -> d ∙ n <> 0 -> diffracted n T G m l1 d e1 -> diffracted n T G m l2 d e2 -> 0 < u ∙ e1 -> 0 < u ∙ e2 -> 0 < f ->
  G * m * l1 < G * m * l2 -> (image c u f e1 - c)%r3 ∙ (u × T)%r3 < (image c u f e2 - c)%r3 ∙ (u × T)%r3.
Proof.
  intros F Uu uT Ud Nd (U1 & N1 & T1 & S1) (U2 & N2 & T2 & S2) P1 P2 Pf L. rewrite !image_dot. set (s := (n × T)%r3) in *. destruct F as (Un & UT & OT). pose proof (conj Un (conj UT OT) : frame n T) as F.
  set (P := sqrt (1 - d ∙ T * (d ∙ T))) in *.
  pose proof (frame_dot n T d d F) as Dd. pose proof (frame_dot n T e1 e1 F) as D1. pose proof (frame_dot n T e2 e2 F) as D2. cbv zeta in Dd, D1, D2. fold s in Dd, D1, D2. rewrite T1 in D1. rewrite T2 in D2. unfold is_unit in Ud, U1, U2. rewrite Ud in Dd. rewrite U1 in D1. rewrite U2 in D2.
  assert (Pp : 0 < P) by (apply sqrt_lt_R0; pose proof (Rle_0_sqr (d ∙ s)); pose proof (Rsqr_pos_lt _ Nd); unfold Rsqr in *; lra).
  assert (La : e1 ∙ s < e2 ∙ s) by (rewrite S1, S2; apply Rplus_lt_compat_l, Rmult_lt_compat_r; [exact Pp|]; unfold Rdiv; apply Rmult_lt_compat_r; [apply Rinv_0_lt_compat; lra|exact L]).
  destruct (frame_s n T F) as (Us & Sn & ST). fold s in Us, Sn, ST.
  assert (Eu : u = ((u ∙ n) * n + (u ∙ s) * s)%r3).
  { pose proof (orthonormal_expand n s T u Un Us UT ltac:(rewrite dot_comm; exact Sn) ST ltac:(rewrite dot_comm; exact OT)) as E. rewrite uT in E. rewrite E at 1. clear. generalize (u ∙ n) (u ∙ s) s. intros. r3_ring. }
  assert (EY : (u × T)%r3 = ((u ∙ n) * s - (u ∙ s) * n)%r3).
  { assert (sT : (s × T)%r3 = (0 * T - 1 * n)%r3) by (unfold s; rewrite cross_twice, OT; unfold is_unit in UT; rewrite UT; reflexivity).
    rewrite Eu at 1. rewrite cross_lin. fold s. rewrite sT. clear. generalize (u ∙ n) (u ∙ s) s. intros. r3_ring. }
  assert (Nu : (u ∙ n) * (u ∙ n) + (u ∙ s) * (u ∙ s) = 1).
  { pose proof (frame_dot n T u u F) as Q. cbv zeta in Q. fold s in Q. rewrite uT in Q. unfold is_unit in Uu. lra. }
  assert (Du : forall e, u ∙ e = (u ∙ n) * (e ∙ n) + (u ∙ s) * (e ∙ s)) by (intros e; pose proof (frame_dot n T u e F) as Q; cbv zeta in Q; fold s in Q; rewrite uT in Q; lra).
  assert (DY : forall e, e ∙ (u × T)%r3 = (u ∙ n) * (e ∙ s) - (u ∙ s) * (e ∙ n)) by (intros e; rewrite EY; rewrite dot_sub_r, !dot_scale_r; ring).
  rewrite !DY. pose proof (Du e1) as Q1. pose proof (Du e2) as Q2. rewrite Q1 in P1. rewrite Q2 in P2. rewrite Q1, Q2. clear Q1 Q2 Du DY EY Eu.
  set (x := u ∙ n) in *. set (y := u ∙ s) in *. set (a1 := e1 ∙ s) in *. set (b1 := e1 ∙ n) in *. set (a2 := e2 ∙ s) in *. set (b2 := e2 ∙ n) in *. clearbody x y a1 b1 a2 b2.
  assert (Bp : 0 < b1 + b2).
  { destruct (Rle_lt_or_eq_dec 0 (b1 + b2) ltac:(lra)) as [H|H]; [exact H|]. assert (b1 = 0) by lra. assert (b2 = 0) by lra. subst b1 b2. exfalso. assert (a1 * a1 = a2 * a2) by lra. assert (a1 = - a2) by nra. nra. }
  pose proof (half_plane a1 b1 a2 b2 (1 - d ∙ T * (d ∙ T)) ltac:(lra) ltac:(lra) N1 N2 Bp La) as H.
  unfold Rdiv. rewrite !Rmult_assoc. apply Rmult_lt_compat_l; [exact Pf|].
  apply Rmult_lt_reg_l with ((x * b1 + y * a1) * (x * b2 + y * a2)); [apply Rmult_lt_0_compat; assumption|].
  replace ((x * b1 + y * a1) * (x * b2 + y * a2) * (/ (x * b1 + y * a1) * (x * a1 - y * b1))) with ((x * b2 + y * a2) * (x * a1 - y * b1)) by (field; lra).
  replace ((x * b1 + y * a1) * (x * b2 + y * a2) * (/ (x * b2 + y * a2) * (x * a2 - y * b2))) with ((x * b1 + y * a1) * (x * a2 - y * b2)) by (field; lra).
  assert (E : (x * b1 + y * a1) * (x * a2 - y * b2) - (x * b2 + y * a2) * (x * a1 - y * b1) = (x * x + y * y) * (a2 * b1 - a1 * b2)) by ring. rewrite Nu in E. lra.
Qed.

(** C91: a parallel beam (direction d, wavelength lam, order m) that meets a grating, then an ideal lens, then a detector in the focal plane of the lens, among any
    other flat optics that are not in its way: every ray of the beam is recorded in the same point, which depends on the direction, the wavelength and the order but
    not on the ray. *)
Theorem C91_line : forall w kg kl kd og ol od cg n T cl u cd ud Ag Al Ad G f, Forall part w ->
  nth_error w kg = Some og -> piece og cg n Ag (LGrating T G) -> nth_error w kl = Some ol -> piece ol cl u Al (LThin f) -> nth_error w kd = Some od -> piece od cd ud Ad LScreen ->
  along ud u -> on_plane cd ud (cl + f * u)%r3 ->
  forall lam m d e, is_unit d -> m <> 0 -> d ∙ n < 0 -> d ∙ (n × T)%r3 <= 0 -> diffracted n T G m lam d e -> 1e-8 < u ∙ e -> ~ near3 e u ->
  forall (r : ray xr) p L q1 q2, ray_is r p d -> wavelength r = Fin lam -> order r = Fin m -> ray_type r <> "faerie_fire"%string -> blocked r = false ->
  way w p d e (image cl u f e) kg kl kd L q1 q2 ->
  exists r', (forall fuel, L / 1e-12 + 1 < INR fuel -> run fuel r (Fin L) w None = Ok (r', set_nth w kd (add_log od [(fv (image cl u f e), Fin lam)]))) /\
    blocked r' = true /\ point_history r' = point_history r ++ map fv [q1; q2; image cl u f e].
Proof.
  intros. apply spectro_run with (kg := kg) (kl := kl) (og := og) (ol := ol) (cg := cg) (n := n) (T := T) (cd := cd) (ud := ud) (Ag := Ag) (Al := Al) (Ad := Ad) (G := G) (m := m) (p := p) (d := d); assumption.
Qed.
Print Assumptions C91_line.

(** C91: with the lens axis u orthogonal to the grooves T, the recorded points of two wavelengths are ordered as the wavelengths, along u x T; along the grooves they
    are displaced by f (d.T)/(u.e) *)
Theorem C91_order : forall cl n T u d f G m l1 l2 e1 e2, is_unit n -> is_unit T -> n ∙ T = 0 -> is_unit u -> u ∙ T = 0 -> is_unit d -> d ∙ n < 0 -> 0 < f ->
  diffracted n T G m l1 d e1 -> diffracted n T G m l2 d e2 -> 0 < u ∙ e1 -> 0 < u ∙ e2 -> G * m * l1 < G * m * l2 ->
  (image cl u f e1 - cl)%r3 ∙ (u × T)%r3 < (image cl u f e2 - cl)%r3 ∙ (u × T)%r3 /\
  (image cl u f e1 - cl)%r3 ∙ u = f /\ (image cl u f e1 - cl)%r3 ∙ T = f * (d ∙ T) / (u ∙ e1).
Proof.
  intros cl n T u d f G m l1 l2 e1 e2 Un UT O Uu uT Ud Fr Pf D1 D2 P1 P2 L. split; [eapply disperse; try eassumption; [repeat split; assumption|lra]|].
  rewrite !image_dot. destruct D1 as (_ & _ & E & _). rewrite E, (dot_comm e1 u). split; field; lra.
Qed.
Print Assumptions C91_order.

(** the grooves of the grating along x, 1000 per mm, light of 600 nm falling along -z, diffracted in first order into (0, 3/5, 4/5) *)
Lemma built_lens c f : exists l, mk_lens (fv c) (Some (fv e_z)) "spherical_biconvex" (Some (Fin 2)) (Some (Fin f)) "ideal" (Fin 1) = Ok l.
Proof. unfold mk_lens. change (String.eqb "spherical_biconvex" "spherical_biconvex") with true. cbn iota. unfold mk_circle. rewrite check_D_only. cbn [bind]. eexists. reflexivity. Qed.
Lemma rect_ok c : exists q, mk_rectangle (fv c) (Some (fv e_z)) (Some (fv e_x)) (Some (Fin 2)) (Some (Fin 2)) = Ok q.
Proof.
  rewrite mk_rectangle_fv by (apply e_z_nz || apply e_x_nz). rewrite !dirn_of_unit by (apply e_z_unit || apply e_x_unit).
  rewrite Rleb_true by (unfold r3dot, e_z, e_x; cbn; rewrite Rabs_right; lra). rewrite !Rltb_false by lra. eexists. reflexivity.
Qed.
Lemma built_grating c G : exists g, mk_grating (fv c) (Some (fv e_z)) (Some (fv e_x)) "rectangular_flat" (Some (Fin 2)) (Some (Fin 2)) (Some (Fin G)) = Ok g.
Proof. unfold mk_grating. cbn [unit_vector_o bind]. change (String.eqb "rectangular_flat" "rectangular_flat") with true. cbn iota. destruct (rect_ok c) as (q & ->). eexists. reflexivity. Qed.
Lemma built_det c : exists g, mk_detector (fv c) (Some (fv e_z)) (Some (fv e_x)) "rectangular_flat" (Some (Fin 2)) (Some (Fin 2)) = Ok g.
Proof. unfold mk_detector. cbn [unit_vector_o bind]. change (String.eqb "rectangular_flat" "rectangular_flat") with true. cbn iota. destruct (rect_ok c) as (q & ->). eexists. reflexivity. Qed.
Definition e345 : R3 := mk3 0 (3/5) (4/5).
Lemma e345_unit : is_unit e345. Proof. unfold is_unit, e345, r3dot; cbn; field. Qed.
Lemma down_unit : is_unit (- e_z)%r3. Proof. apply unit_opp, e_z_unit. Qed.
Lemma flat_meets z c p d t : cz c = z -> (meets_plane c e_z p d t <-> 1e-9 < Rabs (cz d) /\ 1e-9 < t /\ cz p + t * cz d = z).
Proof.
  intros <-. unfold meets_plane, on_plane, at_t, e_z. destruct p as [a b k], d as [x y v], c as [c1 c2 c3]. unfold r3dot, r3sub, r3add, r3scale. cbn.
  replace (0 * x + 0 * y + 1 * v) with v by ring. intuition lra.
Qed.
Example C91_hyp : exists og ol od, let w := [og; ol; od] in let cl := mk3 0 (3/4) 1 in let cd := mk3 0 1 2 in let d := (- e_z)%r3 in let X := mk3 0 (3/2) 2 in
  piece og r3zero e_z (in_rect r3zero e_z e_x 2 2) (LGrating e_x 1000) /\ piece ol cl e_z (fun q => dist3 q cl < 2 / 2) (LThin 1) /\ piece od cd e_z (in_rect cd e_z e_x 2 2) LScreen /\
  Forall part w /\ on_plane cd e_z (cl + 1 * e_z)%r3 /\ is_unit d /\ d ∙ e_z < 0 /\ d ∙ (e_z × e_x)%r3 <= 0 /\ diffracted e_z e_x 1000 1 600 d e345 /\ 1e-8 < e_z ∙ e345 /\ ~ near3 e345 e_z /\
  image cl e_z 1 e345 = X /\ way w (mk3 0 0 (1/2)) d e345 X 0 1 2 10 (mk3 0 0 0) cl /\ way w (mk3 0 (3/4) (1/2)) d e345 X 0 1 2 10 (mk3 0 (3/4) 0) (mk3 0 (3/2) 1).
Proof.
  destruct (built_grating r3zero 1000) as (g & Bg). destruct (built_lens (mk3 0 (3/4) 1) 1) as (l & Bl). destruct (built_det (mk3 0 1 2)) as (de & Bd).
  exists (OGrating g), (OLens l), (with_log (ODetector de) []). intros w cl cd d X.
  assert (Pg : piece (OGrating g) r3zero e_z (in_rect r3zero e_z e_x 2 2) (LGrating e_x 1000)).
  { pose proof (P_grating _ _ _ _ _ _ _ e_z_nz e_x_nz ltac:(unfold e_z, e_x, r3dot; cbn; ring) Bg) as V. rewrite (dirn_of_unit e_z e_z_unit), (dirn_of_unit e_x e_x_unit) in V. exact V. }
  assert (Pl : piece (OLens l) cl e_z (fun q => dist3 q cl < 2 / 2) (LThin 1)).
  { pose proof (P_thin _ _ _ _ _ _ e_z_nz Rlt_0_1 Bl) as V. rewrite (dirn_of_unit e_z e_z_unit) in V. exact V. }
  assert (Pd : piece (with_log (ODetector de) []) cd e_z (in_rect cd e_z e_x 2 2) LScreen).
  { pose proof (P_screen _ _ _ _ _ _ [] e_z_nz e_x_nz Bd) as V. rewrite (dirn_of_unit e_z e_z_unit), (dirn_of_unit e_x e_x_unit) in V. exact V. }
  assert (Near : forall q, (cx q - 0) * (cx q - 0) + (cy q - 3/4) * (cy q - 3/4) + (cz q - 1) * (cz q - 1) < 1 -> dist3 q cl < 2 / 2).
  { intros q H. unfold dist3. apply Rsqr_incrst_0; [|apply len_nonneg|lra]. unfold Rsqr. rewrite len_sq. destruct q. unfold cl, r3dot, r3sub. cbn in *. lra. }
  assert (InR : forall c q, Rabs (cx q - cx c) <= 1 -> Rabs (cy q - cy c) <= 1 -> in_rect c e_z e_x 2 2 q).
  { intros c q H1 H2. destruct c as [c1 c2 c3], q as [q1 q2 q3]. cbn in H1, H2. split; right; unfold e_z, e_x, r3dot, r3sub, r3cross; cbn; [replace (_ * _ + _ * _ + _ * _) with (q1 - c1) by ring; lra|].
    replace ((q1 - c1) * (0 * 0 - 1 * 0) + (q2 - c2) * (1 * 1 - 0 * 0) + (q3 - c3) * (0 * 0 - 0 * 1)) with (q2 - c2) by ring. lra. }
  assert (Fi : forall p e k t, is_unit e -> 1e-9 < Rabs (cz e) -> 1e-9 < t ->
      (k = 0%nat /\ cz p + t * cz e = 0 /\ in_rect r3zero e_z e_x 2 2 (at_t p e t) \/ k = 1%nat /\ cz p + t * cz e = 1 /\ dist3 (at_t p e t) cl < 2 / 2 \/ k = 2%nat /\ cz p + t * cz e = 2 /\ in_rect cd e_z e_x 2 2 (at_t p e t)) ->
      (forall t' z, 1e-9 < t' -> (z = 0 \/ z = 1 \/ z = 2) -> cz p + t' * cz e = z -> t <= t' /\ (t = t' -> z = cz p + t * cz e)) -> first w p e k t).
  { intros p e k t Ue Ce Lt Hk Hz. split.
    - destruct Hk as [(-> & E & H)|[(-> & E & H)|(-> & E & H)]]; eexists; (split; [reflexivity|]); do 4 eexists; (split; [eassumption|]); (split; [eapply flat_meets; [reflexivity|]; auto|exact H]).
    - assert (Zk : forall j z, (j = 0%nat /\ z = 0 \/ j = 1%nat /\ z = 1 \/ j = 2%nat /\ z = 2) -> forall t', 1e-9 < t' -> cz p + t' * cz e = z -> t <= t' /\ ((j < k)%nat -> t < t')).
      { intros j z Hj t' Lt' E'. destruct (Hz t' z Lt' ltac:(intuition) E') as [L1 L2]. split; [exact L1|]. intros Lj. destruct (Rle_lt_or_eq_dec _ _ L1) as [K|K]; [exact K|]. exfalso. specialize (L2 K).
        destruct Hk as [(-> & E & _)|[(-> & E & _)|(-> & E & _)]]; destruct Hj as [(-> & ->)|[(-> & ->)|(-> & ->)]]; try lia; lra. }
      intros [|[|[|j]]] o t' E Se; [| | |destruct j; discriminate E]; injection E as <-.
      + apply (seen_fix _ _ _ _ _ _ _ _ Pg Ue) in Se. destruct Se as [M _]. apply (flat_meets 0) in M; [|reflexivity]. apply (Zk 0%nat 0); intuition.
      + apply (seen_fix _ _ _ _ _ _ _ _ Pl Ue) in Se. destruct Se as [M _]. apply (flat_meets 1) in M; [|reflexivity]. apply (Zk 1%nat 1); intuition.
      + apply (seen_fix _ _ _ _ _ _ _ _ Pd Ue) in Se. destruct Se as [M _]. apply (flat_meets 2) in M; [|reflexivity]. apply (Zk 2%nat 2); intuition. }
  split; [exact Pg|]. split; [exact Pl|]. split; [exact Pd|]. split. { repeat apply Forall_cons; [right; do 4 eexists; eassumption..|apply Forall_nil]. }
  split; [unfold on_plane, cd, cl, e_z, r3dot; cbn; ring|]. split; [apply down_unit|]. split; [unfold d, e_z, r3dot; cbn; lra|]. split; [unfold d, e_z, e_x, r3dot, r3cross; cbn; lra|].
  split. { split; [apply e345_unit|]. split; [unfold e345, e_z, r3dot; cbn; lra|]. split; [unfold d, e345, e_z, e_x, r3dot; cbn; ring|].
    replace (d ∙ e_x) with 0 by (unfold d, e_z, e_x, r3dot; cbn; ring). replace (1 - 0 * 0) with 1 by ring. rewrite sqrt_1. unfold d, e345, e_z, e_x, r3dot, r3cross; cbn. field. }
  split; [unfold e345, e_z, r3dot; cbn; lra|]. split. { intros (_ & H & _). unfold near1, e345, e_z in H. cbn in H. rewrite Rabs_R0 in H. rewrite Rabs_right in H by lra. lra. }
  assert (EX : image cl e_z 1 e345 = X).
  { unfold image, cl, X. replace (e_z ∙ e345) with (4/5) by (unfold e345, e_z, r3dot; cbn; ring). unfold e345. apply r3_ext; cbn; field. }
  split; [exact EX|].
  assert (Cd : 1e-9 < Rabs (cz d)) by (unfold d, e_z; cbn; rewrite Rabs_left; lra). assert (Ce : 1e-9 < Rabs (cz e345)) by (unfold e345; cbn; rewrite Rabs_right; lra). assert (Cz : 1e-9 < Rabs (cz e_z)) by (unfold e_z; cbn; rewrite Rabs_right; lra).
  split.
  - exists (1/2), (5/4), (5/4), e345. repeat match goal with |- _ /\ _ => split end; [| | | | | |lra].
    + apply Fi; [apply down_unit|exact Cd|lra| |]; unfold d, e_z; cbn; [left; split; [reflexivity|split; [lra|apply InR; cbn; apply Rabs_le; lra]]|]. intros t' z Lt [->|[->| ->]] E; split; intros; lra.
    + unfold at_t, d, e_z. apply r3_ext; cbn; lra.
    + apply Fi; [apply e345_unit|exact Ce|lra| |]; unfold e345; cbn; [right; left; split; [reflexivity|split; [lra|apply Near; cbn; lra]]|]. intros t' z Lt [->|[->| ->]] E; split; intros; lra.
    + unfold at_t, cl, e345. apply r3_ext; cbn; lra.
    + split; [apply e345_unit|]. exists (5/4). split; [lra|]. unfold at_t, cl, X, e345. apply r3_ext; cbn; lra.
    + apply Fi; [apply e345_unit|exact Ce|lra| |]; unfold e345; cbn; [right; right; split; [reflexivity|split; [lra|apply InR; cbn; apply Rabs_le; lra]]|]. intros t' z Lt [->|[->| ->]] E; split; intros; lra.
  - exists (1/2), (5/4), 1, e_z. repeat match goal with |- _ /\ _ => split end; [| | | | | |lra].
    + apply Fi; [apply down_unit|exact Cd|lra| |]; unfold d, e_z; cbn; [left; split; [reflexivity|split; [lra|apply InR; cbn; apply Rabs_le; lra]]|]. intros t' z Lt [->|[->| ->]] E; split; intros; lra.
    + unfold at_t, d, e_z. apply r3_ext; cbn; lra.
    + apply Fi; [apply e345_unit|exact Ce|lra| |]; unfold e345; cbn; [right; left; split; [reflexivity|split; [lra|apply Near; cbn; lra]]|]. intros t' z Lt [->|[->| ->]] E; split; intros; lra.
    + unfold at_t, e345. apply r3_ext; cbn; lra.
    + split; [apply e_z_unit|]. exists 1. split; [lra|]. unfold at_t, X, e_z. apply r3_ext; cbn; lra.
    + apply Fi; [apply e_z_unit|exact Cz|lra| |]; unfold e_z; cbn; [right; right; split; [reflexivity|split; [lra|apply InR; cbn; apply Rabs_le; lra]]|]. intros t' z Lt [->|[->| ->]] E; split; intros; lra.
Qed.
