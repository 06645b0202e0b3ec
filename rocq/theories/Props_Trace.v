(** Property C89: what Ray.run computes in a scene of flat optics, as a geometrical ray trace. *)
From Coq Require Import Reals ZArith Lra Lia Psatz String List Bool.
From Verif Require Import PyErr Num Vec Shapes Csg Optics Spec XReal RVec VecProofs AngleProofs FlatProofs SphereProofs CylProofs ShapeExtra
  TreeProofs SolidProofs CsgProofs RayProofs GratingProofs RunGen NoFuel RunXr OpticHits StateXr OrderProofs FlatOptic Continue Props_Ray Props_Loop Props_Run Props_Rehit SceneProofs Props_Scene Props_Images.
Import ListNotations.
Local Open Scope R_scope.

(* ------------------------------------------------------------------ the specification *)
(** what an optic does to the rays that meet it *)
Inductive law := LMirror | LTilted (a : R3) | LThin (f : R) | LCollimate | LFocus (f : R) | LGrating (Tg : R3) (G : R) | LScreen.

(** [piece o c u A l]: o is built by a constructor call; it is the part A of the plane through c with unit normal u and acts by the law l *)
Inductive piece : optic xr -> R3 -> R3 -> (R3 -> Prop) -> law -> Prop :=
| P_mirror_circ c n D w h f tg dmd m : n <> r3zero ->
    mk_mirror (fv c) "circular_flat" (Some (fv n)) (Some (Fin D)) w h f tg "normal" dmd = Ok m ->
    piece (OMirror m) c (dirn n) (fun q => dist3 q c < D / 2) LMirror
| P_mirror_rect c n t D w h f dmd m : n <> r3zero -> t <> r3zero ->
    mk_mirror (fv c) "rectangular_flat" (Some (fv n)) D (Some (Fin w)) (Some (Fin h)) f (Some (fv t)) "normal" dmd = Ok m ->
    piece (OMirror m) c (dirn n) (in_rect c (dirn n) (dirn t) h w) LMirror
| P_dmd_circ c n D w h f tg a m : n <> r3zero -> a <> r3zero ->
    mk_mirror (fv c) "circular_flat" (Some (fv n)) (Some (Fin D)) w h f tg "dmd" (Some (fv a)) = Ok m ->
    piece (OMirror m) c (dirn n) (fun q => dist3 q c < D / 2) (LTilted (dirn a))
| P_dmd_rect c n t D w h f a m : n <> r3zero -> t <> r3zero -> a <> r3zero ->
    mk_mirror (fv c) "rectangular_flat" (Some (fv n)) D (Some (Fin w)) (Some (Fin h)) f (Some (fv t)) "dmd" (Some (fv a)) = Ok m ->
    piece (OMirror m) c (dirn n) (in_rect c (dirn n) (dirn t) h w) (LTilted (dirn a))
| P_thin c n D f ix l : n <> r3zero -> 0 < f ->
    mk_lens (fv c) (Some (fv n)) "spherical_biconvex" (Some (Fin D)) (Some (Fin f)) "ideal" ix = Ok l ->
    piece (OLens l) c (dirn n) (fun q => dist3 q c < D / 2) (LThin f)
| P_collimate c n D f ix l : n <> r3zero ->
    mk_lens (fv c) (Some (fv n)) "spherical_biconvex" (Some (Fin D)) f "ideal_collimate" ix = Ok l ->
    piece (OLens l) c (dirn n) (fun q => dist3 q c < D / 2) LCollimate
| P_focus c n D f ix l : n <> r3zero -> 0 < f ->
    mk_lens (fv c) (Some (fv n)) "spherical_biconvex" (Some (Fin D)) (Some (Fin f)) "ideal_focus" ix = Ok l ->
    piece (OLens l) c (dirn n) (fun q => dist3 q c < D / 2) (LFocus f)
| P_grating c n t w h G g : n <> r3zero -> t <> r3zero -> n ∙ t = 0 ->
    mk_grating (fv c) (Some (fv n)) (Some (fv t)) "rectangular_flat" (Some (Fin w)) (Some (Fin h)) (Some (Fin G)) = Ok g ->
    piece (OGrating g) c (dirn n) (in_rect c (dirn n) (dirn t) h w) (LGrating (dirn t) G)
| P_screen c n t w h d log : n <> r3zero -> t <> r3zero ->
    mk_detector (fv c) (Some (fv n)) (Some (fv t)) "rectangular_flat" (Some (Fin w)) (Some (Fin h)) = Ok d ->
    piece (with_log (ODetector d) log) c (dirn n) (in_rect c (dirn n) (dirn t) h w) LScreen.

(** e is the unit vector from q towards the point X *)
Definition towards (q X e : R3) : Prop := is_unit e /\ exists t, 0 < t /\ at_t q e t = X.

(** [leaves lam m c u q d l e]: light of wavelength lam (in order m) arriving in direction d at the point q of the optic with centre c, unit normal u and
    law l leaves in direction e.  N is the normal on the far side. *)
Inductive leaves (lam m : R) (c u q d : R3) : law -> R3 -> Prop :=
| V_mirror e : e = (d - (2 * (d ∙ u)) * u)%r3 -> leaves lam m c u q d LMirror e
| V_tilted a e : e = (d - (2 * (d ∙ a)) * a)%r3 -> leaves lam m c u q d (LTilted a) e
| V_thin f e N : N = forward u d -> 1e-8 < N ∙ d -> ~ near3 d N -> towards q (c + (f / (N ∙ d)) * d)%r3 e -> leaves lam m c u q d (LThin f) e
| V_thin_axial f e N : N = forward u d -> 1e-8 < N ∙ d -> near3 d N -> towards q (c + f * N)%r3 e -> leaves lam m c u q d (LThin f) e
| V_thin_grazing f N : N = forward u d -> N ∙ d <= 1e-8 -> leaves lam m c u q d (LThin f) d
| V_collimate e : e = forward u d -> leaves lam m c u q d LCollimate e
| V_focus f e N : N = forward u d -> towards q (c + f * N)%r3 e -> leaves lam m c u q d (LFocus f) e
| V_order0 Tg G e : m = 0 -> e = (d - (2 * (d ∙ u)) * u)%r3 -> leaves lam m c u q d (LGrating Tg G) e
| V_grating Tg G e s : m <> 0 -> s = (u × Tg)%r3 -> d ∙ u < 0 -> d ∙ s <= 0 -> is_unit e -> 0 <= e ∙ u -> e ∙ Tg = d ∙ Tg ->
    e ∙ s = d ∙ s + G * m * lam / 10 ^ 6 * sqrt (1 - (d ∙ Tg) * (d ∙ Tg)) -> leaves lam m c u q d (LGrating Tg G) e.

(** the optic k of the scene is the first that the half-line from p in direction d meets, at distance t; nothing is met before *)
Definition seen (o : optic xr) (p d : R3) (t : R) : Prop := exists c u A l, piece o c u A l /\ meets_plane c u p d t /\ A (at_t p d t).
Definition first (w : list (optic xr)) (p d : R3) (k : nat) (t : R) : Prop :=
  (exists o, nth_error w k = Some o /\ seen o p d t) /\
  forall j o t', nth_error w j = Some o -> seen o p d t' -> t <= t' /\ ((j < k)%nat -> t < t').

(** [traced lam m w p d L pts e b w']: a ray trace of total length L from p in direction d visits the points pts, ends in direction e, absorbed by a screen iff
    b, and leaves the scene w' (screens keep a list of what has hit them) *)
Inductive traced (lam m : R) : list (optic xr) -> R3 -> R3 -> R -> list R3 -> R3 -> bool -> list (optic xr) -> Prop :=
| T_spent w p d : traced lam m w p d 0 [] d false w
| T_end w p d L : 0 < L -> (forall o t, In o w -> seen o p d t -> L < t) -> traced lam m w p d L [at_t p d L] d false w
| T_turn w p d L k t o c u A l q d' pts e b w' : first w p d k t -> t <= L -> nth_error w k = Some o -> piece o c u A l -> q = at_t p d t ->
    leaves lam m c u q d l d' -> traced lam m w q d' (L - t) pts e b w' -> traced lam m w p d L (q :: pts) e b w'
| T_screen w p d L k t o c u A q : first w p d k t -> t <= L -> nth_error w k = Some o -> piece o c u A LScreen -> q = at_t p d t ->
    traced lam m w p d L [q] d true (set_nth w k (add_log o [(fv q, Fin lam)])).

(* ------------------------------------------------------------------ proofs *)
Lemma piece_flat o c u A l : piece o c u A l -> flat_optic o c u A.
Proof. intros []; econstructor; eassumption. Qed.
Lemma piece_reports o c u A l p d t (r : ray xr) rm : piece o c u A l -> ray_is r p d -> is_unit d -> meets_plane c u p d t -> A (at_t p d t) -> t <= rm ->
  reports r rm o t (fv (at_t p d t)) (Some (fv u)).
Proof.
  intros V Hr U M At L. apply piece_flat in V. apply (meets_along c u u p d t (or_introl eq_refl)) in M. destruct M as (M1 & M2 & M3).
  eapply flat_axis_yes with (N := u); [exact V|left; reflexivity|eassumption..].
Qed.
Lemma reports_piece o c u A l p d t pt n (r : ray xr) rm : piece o c u A l -> ray_is r p d -> is_unit d -> reports r rm o t pt n ->
  meets_plane c u p d t /\ A (at_t p d t) /\ t <= rm /\ pt = fv (at_t p d t) /\ n = Some (fv u).
Proof.
  intros V Hr U R. apply piece_flat in V. destruct (flat_axis o c u A u r p d rm t pt n V (or_introl eq_refl) Hr U R) as (E & L & C & At & -> & -> & B).
  split; [apply (meets_along c u u p d t (or_introl eq_refl)); auto|auto].
Qed.

(** the parts of a scene: the optics above, and those that run skips *)
Definition part (o : optic xr) : Prop := skipped o = true \/ exists c u A l, piece o c u A l.
Lemma parts_flat w : Forall part w -> Forall flat_or_skipped w.
Proof. apply Forall_impl. intros o [S|(c & u & A & l & V)]; [left; exact S|right]. exists c, u, A. eapply piece_flat, V. Qed.
Lemma part_reports o p d t pt n (r : ray xr) rm : part o -> ray_is r p d -> is_unit d -> reports r rm o t pt n -> seen o p d t /\ t <= rm.
Proof.
  intros [S|(c & u & A & l & V)] Hr U R; [destruct R as [R _]; congruence|]. destruct (reports_piece _ _ _ _ _ _ _ _ _ _ _ _ V Hr U R) as (M & At & B & _). split; [exists c, u, A, l; auto|exact B].
Qed.
Lemma seen_reports o p d t (r : ray xr) rm : seen o p d t -> ray_is r p d -> is_unit d -> t <= rm -> exists n, reports r rm o t (fv (at_t p d t)) n.
Proof. intros (c & u & A & l & V & M & At) Hr U L. eexists. eapply piece_reports; eassumption. Qed.
Lemma first_chosen w p d k t (r : ray xr) rm o c u A l : Forall part w -> ray_is r p d -> is_unit d -> first w p d k t -> t <= rm -> nth_error w k = Some o -> piece o c u A l ->
  chosen r rm w k t (fv (at_t p d t)) (Some (fv u)).
Proof.
  intros W Hr U [(o1 & En & Se) F] L En' V. rewrite En in En'. injection En' as ->. split.
  - exists o. split; [exact En|]. destruct (seen_reports _ _ _ _ r rm Se Hr U L) as (n & R). destruct (reports_piece _ _ _ _ _ _ _ _ _ _ _ _ V Hr U R) as (_ & _ & _ & _ & ->). exact R.
  - intros j o' d' pt' n' Ej R. assert (In o' w) by (eapply nth_error_In; exact Ej). apply (F j o' d' Ej). eapply part_reports; [|exact Hr|exact U|exact R]. rewrite Forall_forall in W. auto.
Qed.
Lemma chosen_first w p d k t (r : ray xr) rm pt n : Forall part w -> ray_is r p d -> is_unit d -> chosen r rm w k t pt n -> first w p d k t /\ t <= rm.
Proof.
  intros W Hr U [(o & En & R) F]. assert (P : forall o, In o w -> part o) by (rewrite Forall_forall in W; auto).
  destruct (part_reports o p d t pt n r rm) as [Se B]; [apply P; eapply nth_error_In; exact En|assumption..|]. split; [|exact B]. split; [exists o; auto|].
  intros j o' t' Ej Se'. destruct (Rle_dec t' rm) as [L|L]; [|split; [lra|intros; lra]]. destruct (seen_reports _ _ _ _ r rm Se' Hr U L) as (n' & R'). exact (F j o' t' _ n' Ej R').
Qed.
Lemma none_clear w p d (r : ray xr) rm : Forall part w -> ray_is r p d -> is_unit d -> (none_reports r rm w <-> forall o t, In o w -> seen o p d t -> rm < t).
Proof.
  intros W Hr U. split.
  - intros No o t Io Se. apply Rnot_le_lt. intros L. destruct (seen_reports _ _ _ _ r rm Se Hr U L) as (n & R). destruct (In_nth_error _ _ Io) as (j & Ej). exact (No j o t _ n Ej R).
  - intros Cl j o t pt n Ej R. assert (Io : In o w) by (eapply nth_error_In; exact Ej). destruct (part_reports o p d t pt n r rm) as [Se B]; [rewrite Forall_forall in W; auto|assumption..|].
    specialize (Cl o t Io Se). lra.
Qed.

(* ---- what the optics do *)
Lemma towards_dirn q X : (X - q)%r3 <> r3zero -> forall e, towards q X e <-> e = dirn (X - q)%r3.
Proof.
  intros NZ e. split.
  - intros (Ue & t & Pt & E). assert (Xq : (X - q)%r3 = (t * e)%r3) by (rewrite <- E; unfold at_t; r3_ring). rewrite Xq in *. symmetry. rewrite dirn_pos_scale by (auto using unit_nonzero). apply dirn_of_unit, Ue.
  - intros ->. split; [apply dirn_unit, NZ|]. exists (len (X - q)%r3). split; [apply len_pos, NZ|]. unfold at_t. rewrite <- (dirn_scale _ NZ). r3_ring.
Qed.
Lemma towards_unit q X e : towards q X e -> is_unit e.
Proof. now intros [U _]. Qed.
Lemma perp_len Tg d : is_unit Tg -> is_unit d -> len (perp Tg d) = sqrt (1 - (d ∙ Tg) * (d ∙ Tg)).
Proof.
  intros HT Hd. rewrite <- (sqrt_square (len (perp Tg d))) by apply len_nonneg. f_equal. rewrite len_sq. unfold is_unit in *. unfold perp. autorewrite with dotr. rewrite Hd, HT, (dot_comm Tg d). ring.
Qed.
Lemma grating_conical r g d n Tg G m lam e : grating_is g Tg G -> is_unit Tg -> is_unit n -> orth n Tg ->
  direction r = fv d -> is_unit d -> order r = Fin m -> wavelength r = Fin lam -> m <> 0 -> d ∙ n < 0 ->
  let s := (n × Tg)%r3 in d ∙ s <= 0 -> is_unit e -> 0 <= e ∙ n -> e ∙ Tg = d ∙ Tg ->
  e ∙ s = d ∙ s + gml G m lam * len (perp Tg d) -> grating_do_intersect g r (Some (fv n)) = Ok (set_direction r (fv e)).
Proof.
  intros HG HT Hn HO Hd Ud Hm Hl Nm Fr s Hs Ue En Et Es.
  assert (Dn : perp Tg d ∙ n = d ∙ n) by (unfold perp; rewrite dot_sub_l, dot_scale_l, (dot_comm Tg n); unfold orth in HO; rewrite HO; ring).
  assert (Np : perp Tg d <> r3zero) by (intros E; rewrite E, dot_zero_l in Dn; lra).
  assert (Us : is_unit s) by (unfold s, is_unit in *; rewrite lagrange, Hn, HT; unfold orth in HO; rewrite HO; ring).
  assert (Sn : s ∙ n = 0) by (unfold s; clear; r3_ring). assert (ST : s ∙ Tg = 0) by (unfold s; clear; r3_ring).
  assert (Ds : perp Tg d ∙ s = d ∙ s) by (unfold perp; rewrite dot_sub_l, dot_scale_l, (dot_comm Tg s), ST; ring).
  set (P := len (perp Tg d)) in *. assert (PP : 0 < P) by apply len_pos, Np. pose proof (dirn_scale _ Np) as Ei. fold P in Ei. set (i := dirn (perp Tg d)) in *.
  assert (In_ : P * (i ∙ n) = d ∙ n) by (rewrite <- Dn, Ei, dot_scale_l; reflexivity). assert (Is : P * (i ∙ s) = d ∙ s) by (rewrite <- Ds, Ei, dot_scale_l; reflexivity).
  destruct (grating_fv r g d n Tg G m lam HG HT Hn HO Hd Ud Np Hm Hl) as (t & Bt & Pt & A & _). fold i in Pt. fold P in A.
  assert (St : sin t = i ∙ s) by (rewrite <- (turned_cross Tg n t HT Hn HO), <- Pt; unfold s; clear; r3_ring).
  assert (Ct : cos t = - (i ∙ n)).
  { replace (- (i ∙ n)) with ((- i)%r3 ∙ n) by (clear; r3_ring). rewrite Pt. unfold turned. autorewrite with dotr. replace ((Tg × n)%r3 ∙ n) with 0 by (clear; r3_ring). unfold is_unit in Hn. rewrite Hn. ring. }
  assert (Lt : t <= 0).
  { apply Rnot_lt_le. intros K. destruct (Rle_lt_or_eq_dec t PI (proj2 Bt)) as [L|L]; [assert (0 < sin t) by (apply sin_gt_0; lra); nra|]. rewrite L, cos_PI in Ct. nra. }
  rewrite (Rabs_left1 t Lt), sin_neg, St in A. cbv zeta in A. set (K := gml G m lam - - (i ∙ s)) in A.
  assert (PK : e ∙ s = P * K) by (rewrite Es, <- Is; unfold K; ring).
  assert (Sum : forall x, is_unit x -> x ∙ Tg = d ∙ Tg -> (x ∙ s) * (x ∙ s) + (x ∙ n) * (x ∙ n) = P * P).
  { intros x Ux Xt. transitivity (1 - (d ∙ Tg) * (d ∙ Tg)).
    - rewrite <- Xt. pose proof (orthonormal_expand n s Tg x Hn Us HT) as Ex. rewrite (dot_comm n s), Sn in Ex. specialize (Ex eq_refl ST). rewrite (dot_comm Tg n) in Ex. specialize (Ex HO).
      assert (Nx : x ∙ x = (x ∙ n) * (x ∙ n) + (x ∙ s) * (x ∙ s) + (x ∙ Tg) * (x ∙ Tg)) by (rewrite Ex at 1; autorewrite with dotr; rewrite (dot_comm n x), (dot_comm s x), (dot_comm Tg x); ring).
      unfold is_unit in Ux. lra.
    - unfold P. rewrite len_sq. unfold perp. unfold is_unit in *. autorewrite with dotr. rewrite Ud, HT, (dot_comm Tg d). ring. }
  assert (BK : -1 <= K <= 1).
  { pose proof (Sum e Ue Et) as Q. rewrite PK in Q. assert (K * K <= 1) by (apply Rmult_le_reg_l with (P * P); nra). nra. }
  destruct (A BK) as (o & Eo & Do). replace (- (t + - t + asin K)) with (- asin K) in Do by ring.
  assert (Os : o ∙ s = e ∙ s).
  { rewrite Do, PK. autorewrite with dotr. rewrite (dot_comm Tg s), ST. replace (turned Tg n (- asin K) ∙ s) with (- (turned Tg n (- asin K) ∙ (Tg × n)%r3)) by (unfold s; clear; r3_ring).
    rewrite turned_cross by assumption. rewrite sin_neg, sin_asin by exact BK. ring. }
  destruct (conical_unit d Tg n (- asin K) HT Hn HO Ud) as [Uo Ot]. fold P in Uo, Ot. rewrite <- Do in Uo, Ot.
  assert (On : o ∙ n = P * cos (asin K)).
  { rewrite Do. unfold turned. autorewrite with dotr. rewrite (dot_comm Tg n). unfold orth in HO. rewrite HO. replace ((Tg × n)%r3 ∙ n) with 0 by (clear; r3_ring). unfold is_unit in Hn. rewrite Hn, cos_neg. ring. }
  assert (On0 : 0 <= o ∙ n) by (rewrite On; apply Rmult_le_pos; [lra|]; pose proof (asin_bound K); apply cos_ge_0; lra).
  assert (Oe : o ∙ n = e ∙ n).
  { pose proof (Sum e Ue Et) as Q1. pose proof (Sum o Uo Ot) as Q2. rewrite Os in Q2. nra. }
  unfold grating_do_intersect. cbn [need bind]. rewrite Hm, (nofZ_fin 0), neqb_fin, (Reqb_false m 0) by exact Nm. rewrite Eo. do 3 f_equal.
  assert (X : forall x : R3, x = ((x ∙ n) * n + (x ∙ s) * s + (x ∙ Tg) * Tg)%r3).
  { intros x. apply orthonormal_expand; try assumption; [rewrite dot_comm; exact Sn|rewrite dot_comm; exact HO]. }
  rewrite (X o), (X e), Oe, Os, Ot, Et. reflexivity.
Qed.
Lemma okay_inj {A} (x y : A) : Ok x = Ok y -> x = y. Proof. now injection 1. Qed.
Lemma mirror_fields (pos : vec xr) shp n D w h f tg ty dmd m : mk_mirror pos shp n D w h f tg ty dmd = Ok m -> mi_type m = ty /\ unit_vector_o dmd = Ok (mi_dmd_normal m).
Proof.
  unfold mk_mirror. intros E. apply bind_ok in E. destruct E as (dm & Ed & E). rewrite Ed.
  repeat match type of E with
  | (if ?b then _ else _) = _ => destruct b
  | bind _ _ = Ok _ => apply bind_ok in E; destruct E as (? & _ & E)
  end; try discriminate; apply okay_inj in E; subst m; split; reflexivity.
Qed.
Lemma dmd_field (pos : vec xr) shp n D w h f tg ty a m : a <> r3zero -> mk_mirror pos shp n D w h f tg ty (Some (fv a)) = Ok m -> mi_type m = ty /\ mi_dmd_normal m = fv (dirn a).
Proof. intros Na E. apply mirror_fields in E. destruct E as [T E]. split; [exact T|]. cbn in E. apply okay_inj in E. rewrite <- E. now apply unit_vector_fv. Qed.
Lemma grating_fields (pos : vec xr) n t shp w h G g : n <> r3zero -> t <> r3zero -> mk_grating pos (Some (fv n)) (Some (fv t)) shp w h (Some (Fin G)) = Ok g -> grating_is g (dirn t) G.
Proof.
  intros Nn Nt E. unfold mk_grating in E. cbn [unit_vector_o bind] in E. destruct (String.eqb _ _); [|discriminate]. apply bind_ok in E. destruct E as (q & _ & E). apply okay_inj in E. subst g.
  split; cbn; [apply unit_vector_fv, Nt|reflexivity].
Qed.
Lemma set_dir_same (r : ray xr) v : direction r = v -> set_direction r v = r.
Proof. intros <-. destruct r; reflexivity. Qed.
Lemma thin_vec c N f d q : is_unit N -> N ∙ d <> 0 -> f <> 0 -> (q - c)%r3 ∙ N = 0 -> (c + (f / (N ∙ d)) * d - q)%r3 <> r3zero /\ (c + f * N - q)%r3 <> r3zero.
Proof.
  intros UN Nd Nf Pl. assert (Pl' : (c - q)%r3 ∙ N = 0) by (transitivity (- ((q - c)%r3 ∙ N)); [clear; r3_ring|lra]). split; intros E; apply (f_equal (fun v => v ∙ N)) in E; cbn beta in E; rewrite dot_zero_l in E; apply Nf.
  - transitivity ((c - q)%r3 ∙ N + f / (N ∙ d) * (d ∙ N)); [rewrite (dot_comm d N), Pl'; field; exact Nd|]. rewrite <- E. clear. generalize (f / (N ∙ d)). intros. r3_ring.
  - transitivity ((c - q)%r3 ∙ N + f * (N ∙ N)); [rewrite Pl'; unfold is_unit in UN; rewrite UN; ring|]. rewrite <- E. clear. r3_ring.
Qed.
Lemma plane_forward c u q d : on_plane c u q -> (q - c)%r3 ∙ forward u d = 0.
Proof. unfold on_plane. intros H. destruct (forward_sign u d) as [->| ->]; rewrite ?dot_opp_r; rewrite ?(dot_comm _ u) in *; lra. Qed.

Lemma piece_do o c u A l (r : ray xr) q d lam m e s : piece o c u A l -> ray_is r q d -> is_unit d -> on_plane c u q -> order r = Fin m -> wavelength r = Fin lam -> leaves lam m c u q d l e ->
  optic_do_intersect o r (fv q) (Some (fv u)) s = Ok (set_direction r (fv e), o) /\ is_unit e.
Proof.
  intros V [Hp Hd] Ud Pl Ho Hl Lv. pose proof (flat_unit _ _ _ _ (piece_flat _ _ _ _ _ V)) as Uu.
  assert (Ref : reflect_specular r (fv u) = set_direction r (fv (d - (2 * (d ∙ u)) * u)%r3)).
  { rewrite (reflect_fv r d u Hd) by (apply unit_nonzero; assumption). rewrite !dirn_of_unit by assumption. reflexivity. }
  pose proof (plane_forward c u q d Pl) as PF. pose proof (forward_unit u d Uu) as UN. pose proof (forward_nonneg u d) as NN.
  destruct V as [c n D w h f tg dmd mi Hn E|c n t D w h f dmd mi Hn Ht E|c n D w h f tg a mi Hn Ha E|c n t D w h f a mi Hn Ht Ha E|c n D f ix le Hn Pf E|c n D f ix le Hn E|c n D f ix le Hn Pf E|c n t w h G g Hn Ht Or E|c n t w h de log Hn Ht E];
  inversion Lv as [e0 Ee|a0 e0 Ee|f0 e0 N EN C NA Tw|f0 e0 N EN C NA Tw|f0 N EN C|e0 Ee|f0 e0 N EN Tw|T0 G0 e0 M0 Ee|T0 G0 e0 s0 M0 Es Fr Ls Ue Eu Et Eq]; subst; cbn [optic_do_intersect].
  - unfold mirror_do_intersect. rewrite (proj1 (mirror_fields _ _ _ _ _ _ _ _ _ _ _ E)). change (String.eqb "normal" "normal") with true. cbn iota. cbn [need bind]. rewrite Ref. split; [reflexivity|apply refl_unit; assumption].
  - unfold mirror_do_intersect. rewrite (proj1 (mirror_fields _ _ _ _ _ _ _ _ _ _ _ E)). change (String.eqb "normal" "normal") with true. cbn iota. cbn [need bind]. rewrite Ref. split; [reflexivity|apply refl_unit; assumption].
  - destruct (dmd_field _ _ _ _ _ _ _ _ _ _ _ Ha E) as [Ty Dm]. unfold mirror_do_intersect. rewrite Ty, Dm. change (String.eqb "dmd" "normal") with false. change (String.eqb "dmd" "dmd") with true. cbn iota. cbn [bind].
    rewrite (reflect_fv r d _ Hd) by (apply unit_nonzero; auto using dirn_unit). rewrite (dirn_of_unit (dirn a)) by auto using dirn_unit. rewrite (dirn_of_unit d Ud). split; [reflexivity|apply refl_unit; auto using dirn_unit].
  - destruct (dmd_field _ _ _ _ _ _ _ _ _ _ _ Ha E) as [Ty Dm]. unfold mirror_do_intersect. rewrite Ty, Dm. change (String.eqb "dmd" "normal") with false. change (String.eqb "dmd" "dmd") with true. cbn iota. cbn [bind].
    rewrite (reflect_fv r d _ Hd) by (apply unit_nonzero; auto using dirn_unit). rewrite (dirn_of_unit (dirn a)) by auto using dirn_unit. rewrite (dirn_of_unit d Ud). split; [reflexivity|apply refl_unit; auto using dirn_unit].
  - destruct (mk_lens_thin c n _ _ f _ ix le Hn E) as [TL Ty]. unfold lens_do_intersect. rewrite Ty. change (String.eqb "ideal" "ideal") with true. cbn iota.
    set (N := forward (dirn n) d) in *. destruct (thin_vec c N f d q UN ltac:(lra) ltac:(lra) PF) as [NZ _]. apply (proj1 (towards_dirn _ _ NZ _)) in Tw.
    destruct (thin_fv r le c (dirn n) f d q TL Uu Hd ltac:(lra)) as (_ & _ & T3). fold N in T3. cbv zeta in T3.
    assert (Ev : ((2 * f / (N ∙ d)) * d - 2 * (q - c))%r3 = (2 * (c + (f / (N ∙ d)) * d - q))%r3).
    { replace (2 * f / (N ∙ d)) with (2 * (f / (N ∙ d))) by (field; lra). generalize (f / (N ∙ d)). intros. clear. r3_ring. }
    rewrite Ev in T3. rewrite T3; [|intros K; rewrite Rabs_right in K; lra|exact NA|].
    + cbn [bind]. rewrite dirn_pos_scale by (try assumption; lra). rewrite <- Tw. split; [reflexivity|rewrite Tw; apply dirn_unit, NZ].
    + intros K. apply NZ. apply (f_equal (fun v => (/2 * v)%r3)) in K. cbn beta in K. replace (c + (f / (N ∙ d)) * d - q)%r3 with (/2 * (2 * (c + f / (N ∙ d) * d - q)))%r3; [rewrite K; clear; r3_ring|].
      generalize (c + (f / (N ∙ d)) * d - q)%r3. intros x. clear. destruct x. apply r3_ext; cbn; field.
  - destruct (mk_lens_thin c n _ _ f _ ix le Hn E) as [TL Ty]. unfold lens_do_intersect. rewrite Ty. change (String.eqb "ideal" "ideal") with true. cbn iota.
    set (N := forward (dirn n) d) in *. destruct (thin_vec c N f d q UN ltac:(lra) ltac:(lra) PF) as [_ NZ]. apply (proj1 (towards_dirn _ _ NZ _)) in Tw.
    destruct (thin_fv r le c (dirn n) f d q TL Uu Hd ltac:(lra)) as (_ & T2 & _). fold N in T2. rewrite (T2 ltac:(intros K; rewrite Rabs_right in K; lra) NA q Hp NZ).
    cbn [bind]. rewrite <- Tw. split; [reflexivity|rewrite Tw; apply dirn_unit, NZ].
  - destruct (mk_lens_thin c n _ _ f _ ix le Hn E) as [TL Ty]. unfold lens_do_intersect. rewrite Ty. change (String.eqb "ideal" "ideal") with true. cbn iota.
    destruct (thin_fv r le c (dirn n) f e q TL Uu Hd ltac:(lra)) as (T1 & _). rewrite T1 by (rewrite Rabs_right; lra). cbn [bind]. rewrite set_dir_same by exact Hd. split; [reflexivity|exact Ud].
  - unfold lens_do_intersect. assert (Q : le_normal le = Some (fv (dirn n)) /\ le_type le = "ideal_collimate"%string).
    { unfold mk_lens in E. rewrite unit_vector_fv in E by exact Hn. change (String.eqb "spherical_biconvex" "spherical_biconvex") with true in E. cbn iota in E. apply bind_ok in E. destruct E as (ci & _ & E). apply okay_inj in E. subst le. split; reflexivity. }
    destruct Q as [Ln Ty]. rewrite Ty. change (String.eqb "ideal_collimate" "ideal") with false. change (String.eqb "ideal_collimate" "ideal_collimate") with true. cbn iota.
    rewrite (collimate_spec r le (dirn n) d Ln Uu Hd). cbn [bind]. split; [reflexivity|exact UN].
  - destruct (mk_lens_thin c n _ _ f _ ix le Hn E) as [TL Ty]. unfold lens_do_intersect. rewrite Ty. change (String.eqb "ideal_focus" "ideal") with false. change (String.eqb "ideal_focus" "ideal_collimate") with false. change (String.eqb "ideal_focus" "ideal_focus") with true. cbn iota.
    destruct (focus_spec r le c (dirn n) f d q TL Uu ltac:(lra) Hd Hp Pl) as [NZ Go]. rewrite Go. cbn [bind]. apply (proj1 (towards_dirn _ _ NZ _)) in Tw. rewrite <- Tw. split; [reflexivity|rewrite Tw; apply dirn_unit, NZ].
  - unfold grating_do_intersect. cbn [need bind]. rewrite Ho, (nofZ_fin 0), neqb_fin, (Reqb_true 0 0) by reflexivity. rewrite Ref. cbn [bind]. split; [reflexivity|apply refl_unit; assumption].
  - assert (OO : orth (dirn n) (dirn t)) by (apply dirn_orth; unfold orth; rewrite dot_comm; apply dirn_orth; unfold orth; rewrite dot_comm; exact Or).
    assert (Go : grating_do_intersect g r (Some (fv (dirn n))) = Ok (set_direction r (fv e))).
    { apply (grating_conical r g d (dirn n) (dirn t) G m lam e); try assumption; try (apply dirn_unit; assumption).
      - exact (grating_fields _ _ _ _ _ _ _ _ Hn Ht E).
      - rewrite Eq, perp_len by (try assumption; apply dirn_unit; assumption). unfold gml. f_equal. f_equal. field. }
    rewrite Go. cbn [bind]. split; [reflexivity|exact Ue].
Qed.
Lemma side_some (r : ray xr) w : Forall (test_ok r) w -> (exists o, In o w /\ skipped o = false) -> exists s, last_side r w None = Some s.
Proof.
  intros Tk. assert (G : forall a, (exists s, a = Some s) \/ (exists o, In o w /\ skipped o = false) -> exists s, last_side r w a = Some s).
  { induction Tk as [|o w To Tw IH]; intros a [Ha|Hw]; cbn [last_side]; [exact Ha|destruct Hw as (o & [] & _)| |].
    - destruct (skipped o) eqn:So; [apply IH; now left|]. destruct To as [To|(h & E & _)]; [congruence|]. rewrite E. apply IH. left. eexists. reflexivity.
    - destruct (skipped o) eqn:So; [apply IH; right; destruct Hw as (o1 & [<-|I] & S1); [congruence|eauto]|]. destruct To as [To|(h & E & _)]; [congruence|]. rewrite E. apply IH. left. eexists. reflexivity. }
  intros H. apply G. now right.
Qed.
Lemma first_pos w p d k t : first w p d k t -> 1e-9 < t.
Proof. intros [(o & _ & c & u & A & l & _ & (_ & L & _) & _) _]. exact L. Qed.
Lemma first_on w p d k t o c u A l (r : ray xr) : Forall part w -> ray_is r p d -> is_unit d -> first w p d k t -> nth_error w k = Some o -> piece o c u A l -> on_plane c u (at_t p d t).
Proof.
  intros W Hr U F En V. pose proof (first_chosen w p d k t r t o c u A l W Hr U F (Rle_refl t) En V) as [(o' & En' & R) _]. rewrite En in En'. injection En' as <-.
  destruct (reports_piece _ _ _ _ _ _ _ _ _ _ _ _ V Hr U R) as ((_ & _ & P) & _). exact P.
Qed.
Lemma screen_log o c u A log : piece o c u A LScreen -> piece (add_log o log) c u A LScreen.
Proof. intros V. inversion V; subst. unfold add_log. cbn. apply (P_screen c n t w h d (_ ++ log)); assumption. Qed.
Lemma screen_do o c u A (r : ray xr) q lam n s : piece o c u A LScreen -> wavelength r = Fin lam -> optic_do_intersect o r (fv q) n s = Ok (set_blocked r, add_log o [(fv q, Fin lam)]).
Proof. intros V Hl. inversion V; subst. cbn. rewrite Hl. reflexivity. Qed.

Lemma last_any {A} (x : A) l a b : last (x :: l) a = last (x :: l) b.
Proof. revert x. induction l as [|y l IH]; intros x; [reflexivity|]. exact (IH y). Qed.
(** what the ray carries along *)
Definition light (r : ray xr) (lam m : R) : Prop := wavelength r = Fin lam /\ order r = Fin m /\ ray_type r <> "faerie_fire"%string.

Lemma traced_flows lam m w p d L pts e b w' : traced lam m w p d L pts e b w' -> Forall part w -> forall r : ray xr, ray_is r p d -> is_unit d -> light r lam m -> blocked r = false ->
  exists r', flows r w L (Ok (r', w')) /\ ray_is r' (last pts p) e /\ light r' lam m /\ blocked r' = b /\ point_history r' = point_history r ++ map fv pts /\ ray_type r' = ray_type r.
Proof.
  induction 1 as [w p d|w p d L P Cl|w p d L k t o c u A l q d' pts e b w' F Lt En V Eq Lv T IH|w p d L k t o c u A q F Lt En V Eq]; intros W r Hr U Li Hb.
  - exists r. split; [apply F_stop; left; lra|]. cbn. rewrite app_nil_r. auto.
  - exists (fly r (Fin L)). split; [apply F_free; [exact P|exact Hb|eapply flat_tests; eauto using parts_flat|apply (none_clear w p d r L W Hr U); exact Cl]|].
    cbn [last map]. rewrite (fly_history r p d L Hr). split; [apply fly_ray, Hr|]. repeat split; try apply Li; exact Hb.
  - pose proof (fly_ray r p d t Hr) as Hf. rewrite <- Eq in Hf. pose proof (first_on _ _ _ _ _ _ _ _ _ _ r W Hr U F En V) as Pl. rewrite <- Eq in Pl. pose proof (first_pos _ _ _ _ _ F) as Pt.
    pose proof (first_chosen w p d k t r L o c u A l W Hr U F Lt En V) as Ch. rewrite <- Eq in Ch.
    assert (Tk : Forall (test_ok r) w) by (eapply flat_tests; eauto using parts_flat).
    destruct (side_some r w Tk) as (s & Es). { exists o. split; [eapply nth_error_In; exact En|]. eapply flat_not_skipped, piece_flat, V. }
    destruct (piece_do o c u A l (fly r (Fin t)) q d lam m d' s V Hf U Pl (proj1 (proj2 Li)) (proj1 Li) Lv) as [Do Ud'].
    destruct (IH W (set_direction (fly r (Fin t)) (fv d'))) as (r' & Fl & Hr' & Li' & Hb' & Hh & Ty); [eapply set_dir_ray; exact Hf|exact Ud'|exact Li|exact Hb|].
    exists r'. split.
    + eapply F_hit; [lra|exact Hb|exact Tk|exact Ch|exact En| |].
      * unfold act. destruct (String.eqb_spec (ray_type r) "faerie_fire") as [K|_]; [exfalso; apply (proj2 (proj2 Li)), K|]. rewrite Es. cbn [bound bind]. exact Do.
      * rewrite set_nth_self by exact En. exact Fl.
    + split; [replace (last (q :: pts) p) with (last pts q); [exact Hr'|destruct pts; [reflexivity|exact (last_any _ pts q p)]]|]. split; [exact Li'|]. split; [exact Hb'|]. split; [|exact Ty].
      rewrite Hh. change (point_history (set_direction (fly r (Fin t)) (fv d'))) with (point_history (fly r (Fin t))). rewrite (fly_history r p d t Hr), <- Eq, <- app_assoc. reflexivity.
  - pose proof (fly_ray r p d t Hr) as Hf. rewrite <- Eq in Hf. pose proof (first_pos _ _ _ _ _ F) as Pt.
    pose proof (first_chosen w p d k t r L o c u A LScreen W Hr U F Lt En V) as Ch. rewrite <- Eq in Ch.
    assert (Tk : Forall (test_ok r) w) by (eapply flat_tests; eauto using parts_flat).
    destruct (side_some r w Tk) as (s & Es). { exists o. split; [eapply nth_error_In; exact En|]. eapply flat_not_skipped, piece_flat, V. }
    exists (set_blocked (fly r (Fin t))). split.
    + eapply F_hit; [lra|exact Hb|exact Tk|exact Ch|exact En| |apply F_stop; right; reflexivity].
      unfold act. destruct (String.eqb_spec (ray_type r) "faerie_fire") as [K|_]; [exfalso; apply (proj2 (proj2 Li)), K|]. rewrite Es. cbn [bound bind]. apply screen_do with (1 := V). apply Li.
    + cbn [last map]. split; [exact Hf|]. split; [exact Li|]. split; [reflexivity|]. split; [|reflexivity]. change (point_history (set_blocked (fly r (Fin t)))) with (point_history (fly r (Fin t))). rewrite (fly_history r p d t Hr), <- Eq. reflexivity.
Qed.

Lemma near3_dec d N : {near3 d N} + {~ near3 d N}.
Proof. destruct (vallclose (fv d) (fv N) (dec 1 10) (dec 1 8)) eqn:E; [left; apply near_fv, E|right; intros K; apply near_fv in K; congruence]. Qed.
Lemma towards_exists q X : (X - q)%r3 <> r3zero -> exists e, towards q X e.
Proof. intros NZ. exists (dirn (X - q)%r3). apply towards_dirn; auto. Qed.
(** an optic whose law gives a direction to every ray *)
Definition plain (m : R) (o : optic xr) : Prop := skipped o = true \/ exists c u A l, piece o c u A l /\ (forall Tg G, l = LGrating Tg G -> m = 0).
Lemma plain_part m w : Forall (plain m) w -> Forall part w.
Proof. apply Forall_impl. intros o [S|(c & u & A & l & V & _)]; [now left|right; eauto]. Qed.
Lemma leaves_exists lam m o c u A l q d : piece o c u A l -> is_unit d -> on_plane c u q -> l <> LScreen -> (forall Tg G, l = LGrating Tg G -> m = 0) -> exists e, leaves lam m c u q d l e.
Proof.
  intros V Ud Pl NS NG. pose proof (flat_unit _ _ _ _ (piece_flat _ _ _ _ _ V)) as Uu.
  pose proof (plane_forward c u q d Pl) as PF. pose proof (forward_unit u d Uu) as UN. pose proof (forward_nonneg u d) as NN.
  assert (Foc : forall f, 0 < f -> (c + f * forward u d - q)%r3 <> r3zero).
  { intros f Pf E. apply (f_equal (fun v => v ∙ forward u d)) in E. cbn beta in E. rewrite dot_zero_l in E. assert ((c - q)%r3 ∙ forward u d = 0) by (transitivity (- ((q - c)%r3 ∙ forward u d)); [clear; r3_ring|lra]).
    assert ((c - q)%r3 ∙ forward u d + f * (forward u d ∙ forward u d) = 0) by (rewrite <- E; clear; r3_ring). unfold is_unit in UN. rewrite UN in *. lra. }
  destruct V as [c n D w h f tg dmd mi Hn E|c n t D w h f dmd mi Hn Ht E|c n D w h f tg a mi Hn Ha E|c n t D w h f a mi Hn Ht Ha E|c n D f ix le Hn Pf E|c n D f ix le Hn E|c n D f ix le Hn Pf E|c n t w h G g Hn Ht Or E|c n t w h de log Hn Ht E].
  - eexists. apply V_mirror. reflexivity.
  - eexists. apply V_mirror. reflexivity.
  - eexists. apply V_tilted. reflexivity.
  - eexists. apply V_tilted. reflexivity.
  - destruct (Rle_lt_dec (forward (dirn n) d ∙ d) 1e-8) as [C|C]; [eexists; eapply V_thin_grazing; [reflexivity|exact C]|].
    destruct (thin_vec c _ f d q UN ltac:(lra) ltac:(lra) PF) as [N1 N2].
    destruct (near3_dec d (forward (dirn n) d)) as [K|K].
    + destruct (towards_exists _ _ N2) as (e & Te). exists e. eapply V_thin_axial; [reflexivity|eassumption..].
    + destruct (towards_exists _ _ N1) as (e & Te). exists e. eapply V_thin; [reflexivity|eassumption..].
  - eexists. apply V_collimate. reflexivity.
  - destruct (towards_exists _ _ (Foc f Pf)) as (e & Te). exists e. eapply V_focus; [reflexivity|exact Te].
  - eexists. apply V_order0; [eapply NG; reflexivity|reflexivity].
  - congruence.
Qed.
Lemma flows_traced lam m r w L res : flows r w L res -> forall p d, Forall (plain m) w -> ray_is r p d -> is_unit d -> light r lam m -> blocked r = false -> 0 <= L ->
  exists pts e b w', traced lam m w p d L pts e b w'.
Proof.
  induction 1 as [r w rm C|r w rm e P B E|r w rm P B Tk No|r w rm k x pt n o r2 o' res P B Tk Ch En A F IH|r w rm k x pt n o e P B Tk Ch En A]; intros p d Wp Hr U Li Hb HL; pose proof (plain_part m w Wp) as W.
  - destruct C as [C|C]; [|congruence]. replace rm with 0 by lra. do 4 eexists. apply T_spent.
  - exfalso. eapply ok_no_err; [|exact E]. eapply flat_tests; eauto using parts_flat.
  - do 4 eexists. apply T_end; [exact P|]. apply (none_clear w p d r rm W Hr U). exact No.
  - destruct (chosen_first w p d k x r rm pt n W Hr U Ch) as [Fi Lx].
    pose proof Fi as [(o1 & En1 & (c1 & u1 & A1 & l1 & V1 & _)) _]. rewrite En in En1. injection En1 as <-.
    assert (Po : plain m o) by (rewrite Forall_forall in Wp; apply Wp; eapply nth_error_In; exact En).
    destruct Po as [S0|(c & u & Ap & l & V & NG)]; [exfalso; rewrite (flat_not_skipped _ _ _ _ (piece_flat _ _ _ _ _ V1)) in S0; discriminate|].
    assert (DS : {l = LScreen} + {l <> LScreen}) by (destruct l; ((left; reflexivity) || (right; discriminate))). destruct DS as [->|NS].
    + do 4 eexists. eapply T_screen; [exact Fi|exact Lx|exact En|exact V|reflexivity].
    + pose proof (first_on _ _ _ _ _ _ _ _ _ _ r W Hr U Fi En V) as Pl. destruct (leaves_exists lam m o c u Ap l (at_t p d x) d V U Pl NS NG) as (d' & Lv).
      destruct (side_some r w Tk) as (s & Es). { exists o. split; [eapply nth_error_In; exact En|]. eapply flat_not_skipped, piece_flat, V. }
      pose proof (fly_ray r p d x Hr) as Hf. destruct (piece_do o c u Ap l (fly r (Fin x)) _ d lam m d' s V Hf U Pl (proj1 (proj2 Li)) (proj1 Li) Lv) as [Do Ud'].
      assert (CE : pt = fv (at_t p d x) /\ n = Some (fv u)). { destruct Ch as [(o2 & En2 & R) _]. rewrite En in En2. injection En2 as <-. destruct (reports_piece _ _ _ _ _ _ _ _ _ _ _ _ V Hr U R) as (_ & _ & _ & E1 & E2). auto. }
      destruct CE as [-> ->]. unfold act in A. destruct (String.eqb_spec (ray_type r) "faerie_fire") as [K|_]; [exfalso; apply (proj2 (proj2 Li)), K|]. rewrite Es in A. cbn [bound bind] in A. rewrite Do in A. injection A as <- <-.
      rewrite set_nth_self in IH by exact En. destruct (IH (at_t p d x) d' Wp (set_dir_ray _ _ _ d' Hf) Ud' Li Hb ltac:(lra)) as (pts & e & b & w' & T).
      do 4 eexists. eapply T_turn; [exact Fi|exact Lx|exact En|exact V|reflexivity|exact Lv|exact T].
  - exfalso. destruct (chosen_first w p d k x r rm pt n W Hr U Ch) as [Fi Lx].
    pose proof Fi as [(o1 & En1 & (c1 & u1 & A1 & l1 & V1 & _)) _]. rewrite En in En1. injection En1 as <-.
    assert (Po : plain m o) by (rewrite Forall_forall in Wp; apply Wp; eapply nth_error_In; exact En).
    destruct Po as [S0|(c & u & Ap & l & V & NG)]; [rewrite (flat_not_skipped _ _ _ _ (piece_flat _ _ _ _ _ V1)) in S0; discriminate|].
    destruct (side_some r w Tk) as (s & Es). { exists o. split; [eapply nth_error_In; exact En|]. eapply flat_not_skipped, piece_flat, V. }
    pose proof (fly_ray r p d x Hr) as Hf. pose proof (first_on _ _ _ _ _ _ _ _ _ _ r W Hr U Fi En V) as Pl.
    assert (CE : pt = fv (at_t p d x) /\ n = Some (fv u)). { destruct Ch as [(o2 & En2 & R) _]. rewrite En in En2. injection En2 as <-. destruct (reports_piece _ _ _ _ _ _ _ _ _ _ _ _ V Hr U R) as (_ & _ & _ & E1 & E2). auto. }
    destruct CE as [-> ->]. unfold act in A. destruct (String.eqb_spec (ray_type r) "faerie_fire") as [K|_]; [apply (proj2 (proj2 Li)), K|]. rewrite Es in A. cbn [bound bind] in A.
    assert (DS : {l = LScreen} + {l <> LScreen}) by (destruct l; ((left; reflexivity) || (right; discriminate))). destruct DS as [->|NS].
    + rewrite (screen_do o c u Ap (fly r (Fin x)) _ lam _ _ V (proj1 Li)) in A. discriminate.
    + destruct (leaves_exists lam m o c u Ap l (at_t p d x) d V U Pl NS NG) as (d' & Lv).
      destruct (piece_do o c u Ap l (fly r (Fin x)) _ d lam m d' s V Hf U Pl (proj1 (proj2 Li)) (proj1 Li) Lv) as [Do Ud']. rewrite Do in A. discriminate.
Qed.

(* ------------------------------------------------------------------ C89 *)
(** C89: whatever ray trace the scene has, Ray.run carries it out: it visits exactly the points of the trace, ends in its direction, is blocked iff the trace ends on
    a screen, and leaves exactly the records of the trace *)
Theorem C89_trace : forall lam m w p d L pts e b w' (r : ray xr), traced lam m w p d L pts e b w' -> Forall part w ->
  ray_is r p d -> is_unit d -> wavelength r = Fin lam -> order r = Fin m -> ray_type r <> "faerie_fire"%string -> blocked r = false ->
  exists r', (forall fuel, L / 1e-12 + 1 < INR fuel -> run fuel r (Fin L) w None = Ok (r', w')) /\
    ray_is r' (last pts p) e /\ wavelength r' = Fin lam /\ order r' = Fin m /\ ray_type r' = ray_type r /\ blocked r' = b /\
    point_history r' = point_history r ++ map fv pts.
Proof.
  intros lam m w p d L pts e b w' r T W Hr U Hl Ho Ty Hb.
  destruct (traced_flows lam m w p d L pts e b w' T W r Hr U (conj Hl (conj Ho Ty)) Hb) as (r' & Fl & Hr' & (Hl' & Ho' & _) & Hb' & Hh & Ty').
  exists r'. split; [|repeat split; try assumption; apply Hr'].
  intros fuel Lf. symmetry. eapply flows_det; [exact Fl|]. apply run_flows, run_terminates. now left.
Qed.
Print Assumptions C89_trace.

(** C89: there is at most one trace, and without diffraction there is one for every ray *)
Definition ray_of (p d : R3) (lam m : R) : ray xr := mkRay (fv p) (fv d) (Fin lam) (Fin m) [] false "normal".
Theorem C89_unique : forall lam m w p d L pts e b w' pts2 e2 b2 w2, Forall part w -> is_unit d ->
  traced lam m w p d L pts e b w' -> traced lam m w p d L pts2 e2 b2 w2 -> pts2 = pts /\ e2 = e /\ b2 = b /\ w2 = w'.
Proof.
  intros lam m w p d L pts e b w' pts2 e2 b2 w2 W U T1 T2.
  assert (Hr : ray_is (ray_of p d lam m) p d) by (split; reflexivity). assert (Li : light (ray_of p d lam m) lam m) by (repeat split; discriminate).
  destruct (traced_flows _ _ _ _ _ _ _ _ _ _ T1 W _ Hr U Li eq_refl) as (r1 & F1 & (_ & D1) & _ & B1 & H1 & _).
  destruct (traced_flows _ _ _ _ _ _ _ _ _ _ T2 W _ Hr U Li eq_refl) as (r2 & F2 & (_ & D2) & _ & B2 & H2 & _).
  pose proof (flows_det _ _ _ _ F1 _ F2) as E. injection E as <- <-. rewrite H1 in H2. apply app_inv_head in H2.
  split. { clear - H2. revert pts2 H2. induction pts as [|q pts IH]; intros [|q2 pts2] H; try discriminate; [reflexivity|]. cbn [map] in H.
    pose proof (f_equal (@hd (vec xr) (fv q)) H) as E1. pose proof (f_equal (@tl (vec xr)) H) as E2. cbn [hd tl] in E1, E2. f_equal; [apply fv_inj; symmetry; exact E1|apply IH, E2]. }
  rewrite D1 in D2. apply fv_inj in D2. repeat split; congruence.
Qed.
Print Assumptions C89_unique.
Theorem C89_complete : forall lam m w p d L, Forall (plain m) w -> is_unit d -> 0 <= L -> exists pts e b w', traced lam m w p d L pts e b w'.
Proof.
  intros lam m w p d L W U HL. destruct (flows_total (ray_of p d lam m) w L) as (res & F).
  eapply flows_traced; [exact F|exact W|split; reflexivity|exact U|repeat split; discriminate|reflexivity|exact HL].
Qed.
Print Assumptions C89_complete.
Lemma seen_fix o c u A l p d t : piece o c u A l -> is_unit d -> seen o p d t -> meets_plane c u p d t /\ A (at_t p d t).
Proof.
  intros V U Se. assert (Hr : ray_is (ray_of p d 0 0) p d) by (split; reflexivity). destruct (seen_reports o p d t _ t Se Hr U (Rle_refl t)) as (n & R).
  destruct (reports_piece _ _ _ _ _ _ _ _ _ _ _ _ V Hr U R) as (M & At & _). auto.
Qed.

(** a lens focuses a ray onto a detector *)
Definition h_lens : optic xr := OLens (flat_lens 1 (Some (Fin 1)) "ideal").
Definition h_det : optic xr := with_log (ODetector (det_at 2)) [].
Definition h_out : R3 := mk3 (-(3/5)) 0 (4/5).
Lemma h_lens_piece : piece h_lens (at_z 1) e_z (fun q => dist3 q (at_z 1) < 2 / 2) (LThin 1).
Proof. pose proof (P_thin (at_z 1) e_z 2 1 (Fin 1) _ e_z_nz ltac:(lra) (flat_lens_built 1 (Some (Fin 1)) "ideal")) as V. rewrite (dirn_of_unit e_z e_z_unit) in V. exact V. Qed.
Lemma h_det_piece : piece h_det (at_z 2) e_z (in_rect (at_z 2) e_z e_x 1 1) LScreen.
Proof. pose proof (P_screen (at_z 2) e_z e_x 1 1 _ [] e_z_nz e_x_nz (det_at_built 2)) as V. rewrite (dirn_of_unit e_z e_z_unit), (dirn_of_unit e_x e_x_unit) in V. exact V. Qed.
Lemma h_out_unit : is_unit h_out. Proof. unfold is_unit, h_out, r3dot. cbn. field. Qed.
Example C89_hyp : let w := [h_det; h_lens] in
  traced 500 0 w (mk3 (3/4) 0 0) e_z 100 [mk3 (3/4) 0 1; at_z 2] h_out true [with_log (ODetector (det_at 2)) [(fv (at_z 2), Fin 500)]; h_lens] /\
  Forall part w /\ Forall (plain 0) w /\ is_unit e_z.
Proof.
  intros w.
  assert (Meet : forall z p d t, meets_plane (at_z z) e_z p d t <-> 1e-9 < Rabs (cz d) /\ 1e-9 < t /\ cz p + t * cz d = z).
  { intros z p d t. unfold meets_plane, on_plane, at_t, at_z, e_z. destruct p as [a b c], d as [x y v]. unfold r3dot, r3sub, r3add, r3scale. cbn. 
    replace (0 * x + 0 * y + 1 * v) with v by ring. intuition lra. }
  split; [|split; [|split; [|apply e_z_unit]]].
  - eapply (T_turn 500 0 w (mk3 (3/4) 0 0) e_z 100 1 1 h_lens (at_z 1) e_z _ (LThin 1) (mk3 (3/4) 0 1) h_out); [|lra|reflexivity|exact h_lens_piece|unfold at_t, e_z; r3r| |].
    + split.
      * exists h_lens. split; [reflexivity|]. do 4 eexists. split; [exact h_lens_piece|]. split; [apply Meet; cbn; rewrite Rabs_right by lra; repeat split; lra|].
        unfold dist3. apply Rsqr_incrst_0; [|apply len_nonneg|lra]. unfold Rsqr. rewrite len_sq. unfold at_t, e_z, at_z, r3dot. cbn. lra.
      * intros [|[|j]] o t' E Se; try discriminate E; [| |destruct j; discriminate E]; injection E as <-.
        -- apply (seen_fix _ _ _ _ _ _ _ _ h_det_piece e_z_unit) in Se. destruct Se as [M _]. apply Meet in M. cbn in M. split; intros; lra.
        -- apply (seen_fix _ _ _ _ _ _ _ _ h_lens_piece e_z_unit) in Se. destruct Se as [M _]. apply Meet in M. cbn in M. split; [lra|lia].
    + assert (Fw : forward e_z e_z = e_z) by (unfold forward; rewrite Rltb_false; [reflexivity|unfold e_z, r3dot; cbn; lra]).
      eapply V_thin_axial; [reflexivity|rewrite Fw; unfold e_z, r3dot; cbn; lra|rewrite Fw; unfold near3; repeat split; unfold near1; rewrite Rminus_diag_eq, Rabs_R0 by reflexivity; pose proof (Rabs_pos (cx e_z)); pose proof (Rabs_pos (cy e_z)); pose proof (Rabs_pos (cz e_z)); lra|].
      rewrite Fw. split; [apply h_out_unit|]. exists (5/4). split; [lra|]. unfold at_t, h_out, at_z, e_z. apply r3_ext; cbn; lra.
    + assert (Eq : at_z 2 = at_t (mk3 (3/4) 0 1) h_out (5/4)) by (unfold at_t, h_out, at_z; apply r3_ext; cbn; lra).
      eapply (T_screen 500 0 w (mk3 (3/4) 0 1) h_out (100 - 1) 0 (5/4) h_det (at_z 2) e_z _ (at_z 2)); [|lra|reflexivity|exact h_det_piece|exact Eq].
      split.
      * exists h_det. split; [reflexivity|]. do 4 eexists. split; [exact h_det_piece|]. split; [apply Meet; unfold h_out; cbn; rewrite Rabs_right by lra; repeat split; lra|].
        rewrite <- Eq. split; right; unfold at_z, e_z, e_x, r3dot, r3sub, r3cross; cbn; rewrite Rabs_right; lra.
      * intros [|[|j]] o t' E Se; try discriminate E; [| |destruct j; discriminate E]; injection E as <-.
        -- apply (seen_fix _ _ _ _ _ _ _ _ h_det_piece h_out_unit) in Se. destruct Se as [M _]. apply Meet in M. unfold h_out in M. cbn in M. split; [lra|lia].
        -- apply (seen_fix _ _ _ _ _ _ _ _ h_lens_piece h_out_unit) in Se. destruct Se as [M _]. apply Meet in M. unfold h_out in M. cbn in M. split; intros; lra.
  - apply Forall_cons; [right; do 4 eexists; exact h_det_piece|apply Forall_cons; [right; do 4 eexists; exact h_lens_piece|apply Forall_nil]].
  - apply Forall_cons; [right; do 4 eexists; split; [exact h_det_piece|discriminate]|apply Forall_cons; [right; do 4 eexists; split; [exact h_lens_piece|discriminate]|apply Forall_nil]].
Qed.
