(** Scenes of flat and curved optics: what is seen of each optic, and what Ray.run makes of it. *)
From Coq Require Import Reals ZArith Lra Lia Psatz String List Bool Classical_Prop.
From Verif Require Import PyErr Num Vec Shapes Csg Optics Spec XReal RVec VecProofs AngleProofs FlatProofs SphereProofs CylProofs ShapeExtra
  TreeProofs SolidProofs CsgProofs CsgStart CsgExact RayProofs GratingProofs RunGen NoFuel RunXr OpticHits StateXr OrderProofs FlatOptic Continue Props_Ray Props_Loop Props_Run Props_Rehit SceneProofs Props_Scene Props_Images
  Props_Ball Props_Compound Props_Singlet Props_Trace.
Import ListNotations.
Local Open Scope R_scope.

(* ------------------------------------------------------------------ the specification *)
(** what an optic is, geometrically: a piece of a plane; a concave spherical mirror with vertex c, axis u, aperture D and focal length f; a convex spherical mirror; a ball of
    glass; a compound made of solids, reflecting (None) or of glass of the given index *)
Inductive kind :=
| Flat (c u : R3) (A : R3 -> Prop) (l : law)
| Bowl (c u : R3) (D f : R) (l : law)
| Dome (C : R3) (rad : R) (l : law)
| Bead (C : R3) (rad ix : R)
| Body (e : expr solid) (glass : option R).
(** the compounds considered: two solids intersected, one solid less another, or any number of them united *)
Definition simple (e : expr solid) : Prop :=
  (exists s1 s2, e = Bin OpIntersect (Leaf s1) (Leaf s2)) \/ (exists s1 s2, e = Bin OpDifference (Leaf s1) (Leaf s2)) \/ (only OpUnion e /\ exists a b, e = Bin OpUnion a b).
(** [built o k]: the constructor call that made o describes k *)
Inductive built : optic xr -> kind -> Prop :=
| B_flat o c u A l : piece o c u A l -> built o (Flat c u A l)
| B_bowl c n D w h f tg dmd m : n <> r3zero -> f <> 0 ->
    mk_mirror (fv c) "circular_concave_spherical" (Some (fv n)) (Some (Fin D)) w h (Some (Fin f)) tg "normal" dmd = Ok m -> built (OMirror m) (Bowl c (dirn n) D f LMirror)
| B_bowl_dmd c n D w h f tg a m : n <> r3zero -> f <> 0 -> a <> r3zero ->
    mk_mirror (fv c) "circular_concave_spherical" (Some (fv n)) (Some (Fin D)) w h (Some (Fin f)) tg "dmd" (Some (fv a)) = Ok m -> built (OMirror m) (Bowl c (dirn n) D f (LTilted (dirn a)))
| B_dome c n D w h f tg dmd m : D <> 0 ->
    mk_mirror (fv c) "circular_convex_spherical" n (Some (Fin D)) w h f tg "normal" dmd = Ok m -> built (OMirror m) (Dome c (Rabs (D / 2)) LMirror)
| B_dome_dmd c n D w h f tg a m : D <> 0 -> a <> r3zero ->
    mk_mirror (fv c) "circular_convex_spherical" n (Some (Fin D)) w h f tg "dmd" (Some (fv a)) = Ok m -> built (OMirror m) (Dome c (Rabs (D / 2)) (LTilted (dirn a)))
| B_bead c n D f ty ix l : D <> 0 -> real_type ty -> 0 < ix ->
    mk_lens (fv c) n "spherical" (Some (Fin D)) f ty (Fin ix) = Ok l -> built (OLens l) (Bead c (Rabs (D / 2)) ix)
| B_reflect e t x : tree_of e t -> simple e -> (forall s, In s (solids e) -> 0 < radius s) -> built (OCompound (mkCompound t "reflect" x)) (Body e None)
| B_refract e t ix : tree_of e t -> simple e -> (forall s, In s (solids e) -> 0 < radius s) -> 0 < ix -> built (OCompound (mkCompound t "refract" (Fin ix))) (Body e (Some ix)).

(** the point of the bowl that counts is the one nearest to the crossing a of the aperture plane, the nearer to the start if two are equally near *)
Definition bowl_point (C : R3) (rad : R) (p d : R3) (a t : R) : Prop :=
  1e-12 < t /\ on_sphere C rad (at_t p d t) /\
  forall s, 1e-12 < s -> on_sphere C rad (at_t p d s) -> Rabs (t - a) < Rabs (s - a) \/ Rabs (t - a) = Rabs (s - a) /\ t <= s.
(** [sight k p d t v]: looking from p in direction d, k is seen at the distance t, with unit normal v there *)
Definition sight (k : kind) (p d : R3) (t : R) (v : R3) : Prop :=
  match k with
  | Flat c u A _ => meets_plane c u p d t /\ A (at_t p d t) /\ v = u
  | Bowl c u D f _ => let C := (c + (2 * f) * u)%r3 in let rad := 2 * Rabs f in
      (exists a, meets_plane c u p d a /\ dist3 (at_t p d a) c < D / 2 /\ bowl_point C rad p d a t) /\ v = (/ rad * (C - at_t p d t))%r3
  | Dome C rad _ | Bead C rad _ => first_ahead C rad p d t /\ v = outward C rad (at_t p d t)
  | Body e _ => next_crossing (fun s => den e (at_t p d s)) t /\ exists s, In s (solids e) /\ surface s (at_t p d t) /\ v = inward s (at_t p d t)
  end.
(** [clean k p d]: the line of sight is not tangent to a surface of k; for compounds moreover no two surfaces are crossed in the same point, surfaces are crossed at the start or beyond 1e-12, and
    unions and differences are seen in one of the ways that C94 shows to be those in which the query is right *)
Definition clean (k : kind) (p d : R3) : Prop :=
  match k with
  | Flat _ _ _ _ => True
  | Bowl c u _ f _ => ~ tangent (c + (2 * f) * u)%r3 (2 * f) p d
  | Dome C rad _ | Bead C rad _ => ~ tangent C rad p d
  | Body e _ => (forall s, In s (solids e) -> regular s p d /\ clear0 s p d) /\ ForallOrdPairs (fun s s' => no_common s s' p d) (solids e) /\
      (only OpUnion e -> fair_union e p d) /\
      (forall s1 s2, e = Bin OpDifference (Leaf s1) (Leaf s2) -> fair_difference (fun s => member s1 (at_t p d s)) (fun s => member s2 (at_t p d s)))
  end.
(** the flag that the test of k leaves behind *)
Definition flagged (k : kind) (p d : R3) : Prop :=
  match k with
  | Flat _ _ _ (LThin _ | LCollimate | LFocus _) => True
  | Flat _ _ _ _ | Body _ _ => False
  | Bowl c u _ f _ => exists t, 1e-12 < t /\ on_sphere (c + (2 * f) * u)%r3 (2 * Rabs f) (at_t p d t)
  | Dome C rad _ => exists t, 1e-12 < t /\ on_sphere C rad (at_t p d t)
  | Bead C rad _ => ~ exists! t, 1e-12 < t /\ on_sphere C rad (at_t p d t)
  end.
(** o is the last optic of the list that the scan tests *)
Definition last_tested (w : list (optic xr)) (o : optic xr) : Prop :=
  exists a b, w = a ++ o :: b /\ skipped o = false /\ forall x, In x b -> skipped x = true.
Definition is_body (k : kind) : Prop := match k with Body _ _ => True | _ => False end.

(** [turn lam m w k p d t v d']: the light that meets k at q goes on in direction d'.  A ball lens of glass takes the ray to enter it iff the last optic tested is flagged. *)
Definition turn (lam m : R) (w : list (optic xr)) (k : kind) (p d : R3) (t : R) (v d' : R3) : Prop :=
  let q := at_t p d t in
  match k with
  | Flat c u _ l => leaves lam m c u q d l d'
  | Bowl _ _ _ _ l | Dome _ _ l => leaves lam m q v q d l d'
  | Bead _ _ ix => exists o k', last_tested w o /\ built o k' /\ ~ is_body k' /\ (flagged k' p d /\ bends 1 ix v d d' \/ ~ flagged k' p d /\ bends ix 1 v d d')
  | Body e None => d' = (d - (2 * (d ∙ v)) * v)%r3
  | Body e (Some ix) => den e (q + 1e-8 * d)%r3 /\ bends 1 ix v d d' \/ ~ den e (q + 1e-8 * d)%r3 /\ bends ix 1 v d d'
  end.

(** o is seen from p in direction d at the distance t *)
Definition visible (o : optic xr) (p d : R3) (t : R) : Prop := exists k v, built o k /\ sight k p d t v.
Definition nearest_visible (w : list (optic xr)) (p d : R3) (j : nat) (t : R) : Prop :=
  (exists o, nth_error w j = Some o /\ visible o p d t) /\
  forall i o t', nth_error w i = Some o -> visible o p d t' -> t <= t' /\ ((i < j)%nat -> t < t').
Definition clean_all (w : list (optic xr)) (p d : R3) : Prop := forall o k, In o w -> built o k -> clean k p d.

(** [reach lam m w p d L pts q e L']: a ray of length L from p in direction d is turned at the points pts; it is then at q, goes in direction e and has the length L' left *)
Inductive reach (lam m : R) (w : list (optic xr)) : R3 -> R3 -> R -> list R3 -> R3 -> R3 -> R -> Prop :=
| R_here p d L : reach lam m w p d L [] p d L
| R_turn p d L j t o k v d' pts q e L' : 0 < L -> clean_all w p d -> nearest_visible w p d j t -> t <= L -> nth_error w j = Some o -> built o k -> sight k p d t v ->
    turn lam m w k p d t v d' -> reach lam m w (at_t p d t) d' (L - t) pts q e L' -> reach lam m w p d L (at_t p d t :: pts) q e L'.
(** [path lam m w p d L pts e b w']: the whole way of the ray, absorbed by a screen iff b *)
Inductive path (lam m : R) (w : list (optic xr)) (p d : R3) (L : R) : list R3 -> R3 -> bool -> list (optic xr) -> Prop :=
| H_spent pts q e : reach lam m w p d L pts q e 0 -> path lam m w p d L pts e false w
| H_end pts q e L' : reach lam m w p d L pts q e L' -> 0 < L' -> clean_all w q e -> (forall o t, In o w -> visible o q e t -> L' < t) ->
    path lam m w p d L (pts ++ [at_t q e L']) e false w
| H_screen pts q e L' j t o c u A : reach lam m w p d L pts q e L' -> 0 < L' -> clean_all w q e -> nearest_visible w q e j t -> t <= L' -> nth_error w j = Some o -> piece o c u A LScreen ->
    path lam m w p d L (pts ++ [at_t q e t]) e true (set_nth w j (add_log o [(fv (at_t q e t), Fin lam)])).

(* ------------------------------------------------------------------ proofs *)
(** what a test of an optic gives *)
Definition views (o : optic xr) (k : kind) (p d : R3) (h : hit4 xr) : Prop :=
  (exists t v, sight k p d t v /\ 1e-12 < t /\ is_unit v /\ h4_flag h = true /\ h4_pt h = Some (fv (at_t p d t)) /\ h4_normal h = Some (fv v)) \/
  (h4_flag h = false /\ forall t v, ~ sight k p d t v).
Definition single (k : kind) (p d : R3) : Prop := forall t v t' v', sight k p d t v -> sight k p d t' v' -> t = t' /\ v = v'.

Lemma tangent_abs c rad p d : tangent c (Rabs rad) p d <-> tangent c rad p d.
Proof. unfold tangent. rewrite Rabs_Rabsolu. reflexivity. Qed.

Lemma bowl_views c n D w h0 f tg ty dmd m r p d l : n <> r3zero -> f <> 0 ->
  mk_mirror (fv c) "circular_concave_spherical" (Some (fv n)) (Some (Fin D)) w h0 (Some (Fin f)) tg ty dmd = Ok m ->
  is_unit d -> ray_is r p d -> let k := Bowl c (dirn n) D f l in clean k p d ->
  exists h, mirror_test_intersect m r = Ok h /\ views (OMirror m) k p d h /\ (sfo_truthy (h4_sfo h) = true <-> flagged k p d).
Proof.
  intros Hn Hf0 E Hd Hr k Cl. cbn [k clean] in Cl. set (C := (c + (2 * f) * dirn n)%r3) in *.
  unfold mk_mirror in E. apply bind_ok in E. destruct E as (dm & Edm & E). change (String.eqb "circular_concave_spherical" "circular_flat") with false in E.
  change (String.eqb "circular_concave_spherical" "rectangular_flat") with false in E. change (String.eqb "circular_concave_spherical" "circular_concave_spherical") with true in E. cbn iota in E.
  apply bind_ok in E. destruct E as (nn & Enn & E). cbn [unit_vector_o] in Enn. rewrite unit_vector_fv in Enn by exact Hn. injection Enn as <-.
  cbn [need bind] in E. rewrite nofZ_fin, nmul_fin, vscale_fv, vadd_fv in E. replace (f * 2) with (2 * f) in E by ring. fold C in E.
  apply bind_ok in E. destruct E as (ci & Eci & E). apply bind_ok in E. destruct E as (sp & Esp & E). injection E as <-.
  destruct (mk_sphere_R _ _ _ Esp) as [Ds ->].
  unfold mirror_test_intersect. cbn [mi_shape mi_surfaces].
  change (String.eqb "circular_concave_spherical" "circular_flat") with false. change (String.eqb "circular_concave_spherical" "rectangular_flat") with false.
  change (String.eqb "circular_concave_spherical" "circular_concave_spherical") with true. cbn [orb first_sphere first_circle bound bind]. cbv zeta.
  assert (Hrc : 2 * f <> 0) by (apply Rmult_integral_contrapositive_currified; lra).
  assert (Ra : Rabs (2 * f) = 2 * Rabs f) by (rewrite Rabs_mult, (Rabs_right 2) by lra; reflexivity).
  pose proof (sphere_cases C (2 * f) Ds p d r Hd Hr) as SC.
  pose proof (circle_spec c n None (Some D) ci (D / 2) p d r Hn Hd Hr eq_refl Eci) as CC.
  assert (Un : forall t t', meets_plane c (dirn n) p d t -> meets_plane c (dirn n) p d t' -> t = t').
  { intros t t' (M1 & _ & M2) (_ & _ & M2'). unfold on_plane, at_t in *. autorewrite with dotr in M2, M2'.
    rewrite (dot_comm d (dirn n)) in *. assert ((t' - t) * (dirn n ∙ d) = 0) as X by lra. apply Rmult_integral in X. destruct X as [X|X]; [lra|]. rewrite X, Rabs_R0 in M1. lra. }
  assert (Ds1 : forall a t, dist3 (at_t p d a) (at_t p d t) = Rabs (t - a)).
  { intros a t. unfold dist3. replace (at_t p d a - at_t p d t)%r3 with ((a - t) * d)%r3 by (unfold at_t; clear; r3_ring). rewrite len_scale, (len_unit d Hd), Rmult_1_r. apply Rabs_minus_sym. }
  assert (Nrm : forall t, on_sphere C (2 * Rabs f) (at_t p d t) -> sphere_normal (sph C (2 * f) Ds) (fv (at_t p d t)) = fv (/ (2 * Rabs f) * (C - at_t p d t))%r3 /\ is_unit (/ (2 * Rabs f) * (C - at_t p d t))%r3).
  { intros t On. rewrite <- Ra in *. exact (sphere_normal_on C (2 * f) Ds _ Hrc On). }
  destruct SC as [t0 t1 Lt On _ NT Res|t0 On _ Tg Res|On _ NT Res]; rewrite Ra in On; [|contradiction|].
  - assert (O0 : on_sphere C (2 * Rabs f) (at_t p d t0)) by (apply On; auto). assert (O1 : on_sphere C (2 * Rabs f) (at_t p d t1)) by (apply On; auto).
    destruct (Nrm t0 O0) as [N0 U0]. destruct (Nrm t1 O1) as [N1 U1].
    rewrite Res. cbv zeta.
    destruct (Rltb_spec 1e-12 t0) as [L0|L0]; [|destruct (Rltb_spec 1e-12 t1) as [L1|L1]]; cbn [h6_flag h6_count h6_p1 h6_p2 h6_n1 h6_n2].
    + assert (Fl : sfo_truthy (SfoInt 2) = true <-> flagged k p d) by (split; [intros _; cbn [k flagged]; exists t1; fold C; split; [lra|exact O1]|reflexivity]).
      destruct CC as [(a & M & L & Ec)|(No & Ec)]; rewrite Ec; cbn [bind h3_flag h3_pt need].
      * rewrite !distance_fv, nlt_fin. rewrite !Ds1.
        destruct (Rltb_spec (Rabs (t1 - a)) (Rabs (t0 - a))) as [X|X]; (eexists; split; [reflexivity|]; split; [|exact Fl]; left).
        -- exists t1. eexists. cbn [k sight]. fold C. split; [split; [exists a; split; [exact M|split; [exact L|]]|reflexivity]|].
           ++ split; [lra|]. split; [exact O1|]. intros s Ls Os. apply On in Os. destruct Os as [-> | ->]; [left; exact X|right; lra].
           ++ split; [lra|]. split; [exact U1|]. cbn. rewrite N1. auto.
        -- exists t0. eexists. cbn [k sight]. fold C. split; [split; [exists a; split; [exact M|split; [exact L|]]|reflexivity]|].
           ++ split; [lra|]. split; [exact O0|]. intros s Ls Os. apply On in Os. destruct Os as [-> | ->]; [right; lra|]. assert (X' : Rabs (t0 - a) <= Rabs (t1 - a)) by lra. destruct (Rle_lt_or_eq_dec _ _ X'); [left; assumption|right; lra].
           ++ split; [lra|]. split; [exact U0|]. cbn. rewrite N0. auto.
      * eexists; split; [reflexivity|]. split; [|exact Fl]. right. split; [reflexivity|]. intros t v [(a & M & L & _) _]. specialize (No a M). lra.
    + assert (Fl : sfo_truthy (SfoInt 1) = true <-> flagged k p d) by (split; [intros _; cbn [k flagged]; exists t1; fold C; split; [lra|exact O1]|reflexivity]).
      destruct CC as [(a & M & L & Ec)|(No & Ec)]; rewrite Ec; cbn [bind h3_flag h3_pt need].
      * eexists; split; [reflexivity|]. split; [|exact Fl]. left. exists t1. eexists. cbn [k sight]. fold C. split; [split; [exists a; split; [exact M|split; [exact L|]]|reflexivity]|].
        -- split; [lra|]. split; [exact O1|]. intros s Ls Os. apply On in Os. destruct Os as [-> | ->]; lra.
        -- split; [lra|]. split; [exact U1|]. cbn. rewrite N1. auto.
      * eexists; split; [reflexivity|]. split; [|exact Fl]. right. split; [reflexivity|]. intros t v [(a & M & L & _) _]. specialize (No a M). lra.
    + eexists; split; [reflexivity|]. split; [|split; [discriminate|]].
      * right. split; [reflexivity|]. intros t v [(a & _ & _ & Lt' & Ot & _) _]. fold C in Ot. apply On in Ot. destruct Ot; lra.
      * cbn [k flagged]. fold C. intros (t & Lt' & Ot). apply On in Ot. destruct Ot; lra.
  - rewrite Res. cbn [h6_flag h6_count]. eexists; split; [reflexivity|]. split; [|split; [discriminate|]].
    + right. split; [reflexivity|]. intros t v [(a & _ & _ & _ & Ot & _) _]. fold C in Ot. destruct (On t Ot).
    + cbn [k flagged]. fold C. intros (t & _ & Ot). destruct (On t Ot).
Qed.
Lemma update_sfo (r : ray xr) st h st' : ball_update r st h = Ok st' -> bs_sfo st' = bs_sfo st.
Proof.
  unfold ball_update. destruct (h6_flag h); [|intros E; now injection E as <-]. intros E. apply bind_ok in E. destruct E as (p1 & _ & E). cbv zeta in E. apply bind_ok in E. destruct E as (st1 & E1 & E).
  assert (S1 : bs_sfo st1 = bs_sfo st) by (destruct (nlt _ _); [apply bind_ok in E1; destruct E1 as (n1 & _ & E1)|]; injection E1 as <-; reflexivity).
  rewrite <- S1. clear E1. destruct (h6_p2 h); [|now injection E as <-]. destruct (nlt _ _); [apply bind_ok in E; destruct E as (n2 & _ & E)|]; injection E as <-; reflexivity.
Qed.
(** the flag of the sphere test *)
Lemma sphere_count c rad D p d r : is_unit d -> ray_is r p d -> ~ tangent c rad p d -> let z := h6_count (sphere_test_intersect (sph c rad D) r) in
  (z <> 0%Z <-> exists t, 1e-12 < t /\ on_sphere c (Rabs rad) (at_t p d t)) /\ (Z.even z = true <-> ~ exists! t, 1e-12 < t /\ on_sphere c (Rabs rad) (at_t p d t)).
Proof.
  intros Hd Hr NT. destruct (sphere_cases c rad D p d r Hd Hr); [|contradiction|].
  - rewrite SR_res. cbv zeta. destruct (Rltb_spec 1e-12 t0) as [L0|L0]; [|destruct (Rltb_spec 1e-12 t1) as [L1|L1]]; cbn [h6_count].
    + split; [split; [intros _; exists t1; split; [lra|apply SR_on; auto]|lia]|]. split; [|reflexivity]. intros _ (t & _ & U). pose proof (U t0 (conj L0 (proj2 (SR_on t0) (or_introl eq_refl)))). 
      assert (L1 : 1e-12 < t1) by lra. pose proof (U t1 (conj L1 (proj2 (SR_on t1) (or_intror eq_refl)))). lra.
    + split; [split; [intros _; exists t1; split; [lra|apply SR_on; auto]|lia]|]. split; [discriminate|]. intros N. exfalso. apply N. exists t1. split; [split; [exact L1|apply SR_on; auto]|].
      intros t [L O]. apply SR_on in O. destruct O; lra.
    + split; [split; [lia|intros (t & L & O); apply SR_on in O; destruct O; lra]|]. split; [|reflexivity]. intros _ (t & [L O] & _). apply SR_on in O. destruct O; lra.
  - rewrite SM_res. cbv zeta. cbn [h6_count]. split; [split; [lia|intros (t & L & O); destruct (SM_on t O)]|]. split; [|reflexivity]. intros _ (t & [L O] & _). destruct (SM_on t O).
Qed.
Lemma ball_views c rad p d h o k : (forall t v, sight k p d t v <-> first_ahead c rad p d t /\ v = outward c rad (at_t p d t)) -> ball_report c rad p d h -> views o k p d h.
Proof.
  intros Si [t F Fl Pt Nm U _|No Fl].
  - left. exists t, (outward c rad (at_t p d t)). split; [apply Si; auto|]. split; [apply F|]. auto.
  - right. split; [exact Fl|]. intros t v H. apply Si in H. exact (No t (proj1 H)).
Qed.
Lemma dome_views c n D w h0 f tg ty dmd m r p d l : D <> 0 -> mk_mirror (fv c) "circular_convex_spherical" n (Some (Fin D)) w h0 f tg ty dmd = Ok m ->
  is_unit d -> ray_is r p d -> let k := Dome c (Rabs (D / 2)) l in clean k p d ->
  exists h, mirror_test_intersect m r = Ok h /\ views (OMirror m) k p d h /\ (sfo_truthy (h4_sfo h) = true <-> flagged k p d).
Proof.
  intros HD E Hd Hr k Cl. cbn [k clean] in Cl. rewrite tangent_abs in Cl. destruct (convex_mirror_report c n D w h0 f tg ty dmd m p d r HD E Hd Hr Cl) as (h & Eh & Rp).
  exists h. split; [exact Eh|]. split; [eapply ball_views; [|exact Rp]; intros; reflexivity|].
  unfold mk_mirror in E. apply bind_ok in E. destruct E as (dm & Edm & E). change (String.eqb "circular_convex_spherical" "circular_flat") with false in E.
  change (String.eqb "circular_convex_spherical" "rectangular_flat") with false in E. change (String.eqb "circular_convex_spherical" "circular_concave_spherical") with false in E.
  change (String.eqb "circular_convex_spherical" "circular_convex_spherical") with true in E. cbn iota in E.
  apply bind_ok in E. destruct E as (sp & Esp & E). injection E as <-. apply mk_sphere_D in Esp. subst sp.
  unfold mirror_test_intersect in Eh. cbn [mi_shape mi_surfaces] in Eh.
  change (String.eqb "circular_convex_spherical" "circular_flat") with false in Eh. change (String.eqb "circular_convex_spherical" "rectangular_flat") with false in Eh.
  change (String.eqb "circular_convex_spherical" "circular_concave_spherical") with false in Eh. change (String.eqb "circular_convex_spherical" "circular_convex_spherical") with true in Eh.
  cbn [orb mirror_ball_loop] in Eh. cbv zeta in Eh. cbn [bound bind] in Eh. apply bind_ok in Eh. destruct Eh as (st & Es & Eh). injection Eh as <-. cbn [h4_sfo].
  apply bind_ok in Es. destruct Es as (st1 & Es1 & Es). injection Es as <-. rewrite (update_sfo _ _ _ _ Es1). cbn [bs_sfo sfo_truthy].
  destruct (sphere_count c (D / 2) (Fin D) p d r Hd Hr Cl) as [Cz _]. cbv zeta in Cz. cbn [k flagged]. rewrite <- Cz. rewrite Bool.negb_true_iff, Z.eqb_neq. reflexivity.
Qed.
Lemma bead_views c n D f ty ix l r p d : D <> 0 -> mk_lens (fv c) n "spherical" (Some (Fin D)) f ty (Fin ix) = Ok l ->
  is_unit d -> ray_is r p d -> let k := Bead c (Rabs (D / 2)) ix in clean k p d ->
  exists h, lens_test_intersect l r = Ok h /\ views (OLens l) k p d h /\ (sfo_truthy (h4_sfo h) = true <-> flagged k p d).
Proof.
  intros HD E Hd Hr k Cl. cbn [k clean] in Cl. rewrite tangent_abs in Cl. destruct (ball_lens_report c n D f ty ix l p d r HD E Hd Hr Cl) as (h & Eh & Rp & _).
  exists h. split; [exact Eh|]. split; [eapply ball_views; [|exact Rp]; intros; reflexivity|].
  unfold mk_lens in E. change (String.eqb "spherical" "spherical_biconvex") with false in E. change (String.eqb "spherical" "spherical") with true in E. cbn iota in E.
  apply bind_ok in E. destruct E as (sp & Esp & E). injection E as <-. apply mk_sphere_D in Esp. subst sp.
  unfold lens_test_intersect in Eh. cbn [le_shape le_surfaces] in Eh. change (String.eqb "spherical" "spherical_biconvex") with false in Eh. change (String.eqb "spherical" "spherical") with true in Eh. cbn iota in Eh.
  cbn [lens_ball_loop] in Eh. cbv zeta in Eh. apply bind_ok in Eh. destruct Eh as (st & Es & Eh). injection Eh as <-. cbn [h4_sfo].
  apply bind_ok in Es. destruct Es as (st1 & Es1 & Es). injection Es as <-. rewrite (update_sfo _ _ _ _ Es1). cbn [bs_sfo sfo_truthy].
  destruct (sphere_count c (D / 2) (Fin D) p d r Hd Hr Cl) as [_ Cz]. cbv zeta in Cz. cbn [k flagged]. exact Cz.
Qed.
Lemma body_views e t b x g r p d : tree_of e t -> simple e -> (forall s, In s (solids e) -> 0 < radius s) -> is_unit d -> ray_is r p d -> let k := Body e g in clean k p d ->
  exists h, compound_test_intersect (mkCompound t b x) r = Ok h /\ views (OCompound (mkCompound t b x)) k p d h.
Proof.
  intros HT Si Po Hd Hr k (Cl & NC & Out & Dif).
  assert (Q : exists h, test_tree_intersect t r = Ok (I6 h) /\ two_report (fun u => den e (at_t p d u)) p d (solids e) h).
  { destruct Si as [(s1 & s2 & ->)|[(s1 & s2 & ->)|(On & a & b0 & ->)]].
    - cbn [solids app] in *. destruct (Cl s1 (or_introl eq_refl)) as [R1 C1]. destruct (Cl s2 (or_intror (or_introl eq_refl))) as [R2 C2].
      inversion NC as [|s l F _]; subst. inversion F as [|s' l' N _]; subst. exact (intersect_two0 s1 s2 t p d r HT Hd Hr R1 R2 C1 C2 N).
    - cbn [solids app] in *. destruct (Cl s1 (or_introl eq_refl)) as [R1 C1]. destruct (Cl s2 (or_intror (or_introl eq_refl))) as [R2 C2].
      inversion NC as [|s l F _]; subst. inversion F as [|s' l' N _]; subst. apply (proj1 (difference_exact s1 s2 t p d r HT Hd Hr R1 R2 C1 C2 N)), Dif. reflexivity.
    - apply (union_exact _ a b0 t p d r HT On Hd Hr Cl), (Out On). }
  destruct Q as (h & E & Q). unfold compound_test_intersect. cbn [co_tree]. rewrite E. cbn [bind unpack6]. eexists. split; [reflexivity|].
  assert (Pr : forall s, In s (solids e) -> proper s).
  { intros s Is. specialize (Po s Is). clear - HT Is Po. revert t HT. induction e as [s0|o a IHa b IHb]; intros t HT; cbn in Is.
    - destruct Is as [<-|[]]. eapply tree_proper; eassumption.
    - inversion HT as [| |o' a' b' ta tb Ha Hb]; subst. apply in_app_or in Is. destruct Is as [Is|Is]; eauto. }
  destruct Q as [(u & s & F & P1 & Is & Sf & N1 & Nx & Lu)|[F No]].
  - left. exists u, (inward s (at_t p d u)). cbn [k sight h4_flag h4_pt h4_normal]. split; [split; [exact Nx|exists s; auto]|]. split; [exact Lu|]. split; [apply inward_unit; auto|]. auto.
  - right. split; [exact F|]. cbn [k sight]. intros t' v [Nx _]. exact (nc_none _ _ No Nx).
Qed.
Lemma built_views o k r p d : built o k -> ray_is r p d -> is_unit d -> clean k p d ->
  skipped o = false /\ exists h, optic_test_intersect o r = Ok h /\ views o k p d h /\ (~ is_body k -> (sfo_truthy (h4_sfo h) = true <-> flagged k p d)).
Proof.
  intros B Hr Ud Cl. destruct B as [o c u A l V|c n D w h f tg dmd m Hn Hf E|c n D w h f tg a m Hn Hf Ha E|c n D w h f tg dmd m HD E|c n D w h f tg a m HD Ha E|c n D f ty ix l HD Ty Hi E|e t x HT Si Po|e t ix HT Si Po Hi].
  - pose proof V as V0. apply piece_flat in V. split; [eapply flat_not_skipped, V|]. pose proof (flat_unit _ _ _ _ V) as Uu.
    assert (NS : sfo_truthy (flat_side o) = true <-> flagged (Flat c u A l) p d).
    { destruct V0; cbn; split; (discriminate || tauto || auto). }
    destruct (flat_report o c u A r p d V Hr Ud) as [t M At E|No E]; (eexists; split; [exact E|]; split; [|intros _; exact NS]).
    + left. exists t, u. cbn [sight h4_flag h4_pt h4_normal]. pose proof M as (_ & L & _). repeat split; auto; try apply M. lra.
    + right. split; [reflexivity|]. intros t v (M & At & _). exact (No t M At).
  - split; [reflexivity|]. destruct (bowl_views c n D w h f tg _ dmd m r p d LMirror Hn Hf E Ud Hr Cl) as (hh & Eh & Vw & Fl). exists hh. auto.
  - split; [reflexivity|]. destruct (bowl_views c n D w h f tg _ _ m r p d (LTilted (dirn a)) Hn Hf E Ud Hr Cl) as (hh & Eh & Vw & Fl). exists hh. auto.
  - split; [reflexivity|]. destruct (dome_views c n D w h f tg _ dmd m r p d LMirror HD E Ud Hr Cl) as (hh & Eh & Vw & Fl). exists hh. auto.
  - split; [reflexivity|]. destruct (dome_views c n D w h f tg _ _ m r p d (LTilted (dirn a)) HD E Ud Hr Cl) as (hh & Eh & Vw & Fl). exists hh. auto.
  - split; [reflexivity|]. destruct (bead_views c n D f ty ix l r p d HD E Ud Hr Cl) as (hh & Eh & Vw & Fl). exists hh. auto.
  - split; [reflexivity|]. destruct (body_views e t "reflect" x None r p d HT Si Po Ud Hr Cl) as (hh & Eh & Vw). exists hh. split; [exact Eh|]. split; [exact Vw|]. intros K. destruct (K I).
  - split; [reflexivity|]. destruct (body_views e t "refract" (Fin ix) (Some ix) r p d HT Si Po Ud Hr Cl) as (hh & Eh & Vw). exists hh. split; [exact Eh|]. split; [exact Vw|]. intros K. destruct (K I).
Qed.
Lemma bowl_unique C rad p d a t t' : bowl_point C rad p d a t -> bowl_point C rad p d a t' -> t = t'.
Proof. intros (L & O & M) (L' & O' & M'). specialize (M t' L' O'). specialize (M' t L O). lra. Qed.
Lemma sight_unique k p d : clean k p d -> single k p d.
Proof.
  intros Cl t v t' v'. destruct k as [c u A l|c u D f l|C rad l|C rad ix|e g]; cbn [sight clean] in *.
  - intros (M & _ & ->) (M' & _ & ->). split; [eapply meets_plane_unique; eassumption|reflexivity].
  - intros [(a & M & _ & B) ->] [(a' & M' & _ & B') ->]. rewrite (meets_plane_unique _ _ _ _ _ _ M' M) in B'. pose proof (bowl_unique _ _ _ _ _ _ _ B B') as ->. auto.
  - intros [F ->] [F' ->]. pose proof (first_ahead_unique _ _ _ _ _ _ F F') as ->. auto.
  - intros [F ->] [F' ->]. pose proof (first_ahead_unique _ _ _ _ _ _ F F') as ->. auto.
  - destruct Cl as (_ & NC & _). intros [N (s & I & Sf & ->)] [N' (s' & I' & Sf' & ->)]. pose proof (nc_unique _ _ _ N N') as <-. split; [reflexivity|].
    destruct N as [Pt _]. destruct (ForallOrdPairs_In NC s s' I I') as [<-|[K|K]]; [reflexivity|exfalso; apply (K t Pt); auto|exfalso; apply (K t Pt); auto].
Qed.
Lemma sight_facts o k r p d t v : built o k -> ray_is r p d -> is_unit d -> clean k p d -> sight k p d t v -> 1e-12 < t /\ is_unit v.
Proof.
  intros B Hr Ud Cl Si. destruct (built_views o k r p d B Hr Ud Cl) as (_ & h & _ & [(t' & v' & Si' & L & U & _)|[_ No]] & _); [|destruct (No _ _ Si)].
  destruct (sight_unique k p d Cl _ _ _ _ Si Si') as [-> ->]. auto.
Qed.
Lemma reports_sight o k (r : ray xr) rm p d x pt n : built o k -> ray_is r p d -> is_unit d -> clean k p d ->
  (reports r rm o x pt n <-> x <= rm /\ exists v, sight k p d x v /\ pt = fv (at_t p d x) /\ n = Some (fv v)).
Proof.
  intros B Hr Ud Cl. destruct (built_views o k r p d B Hr Ud Cl) as (Sk & h & Eh & Vw & _).
  assert (Dx : forall t, 1e-12 < t -> distance_between (position r) (fv (at_t p d t)) = Fin t) by (intros t Lt; rewrite (proj1 Hr), distance_fv, fly_to by (try assumption; lra); reflexivity).
  split.
  - intros (_ & s & E & D & L). rewrite Eh in E. injection E as ->. destruct Vw as [(t & v & Si & Lt & _ & _ & Ep & En)|[F _]]; [|discriminate F]. cbn in Ep, En. injection Ep as ->. subst n.
    rewrite (Dx t Lt) in D. injection D as ->. split; [apply L|]. exists v. auto.
  - intros (L & v & Si & -> & ->). split; [exact Sk|]. destruct Vw as [(t' & v' & Si' & Lt & _ & F & Ep & En)|[_ No]]; [|destruct (No _ _ Si)].
    destruct (sight_unique k p d Cl _ _ _ _ Si Si') as [<- <-]. exists (h4_sfo h). split; [rewrite Eh; destruct h; cbn in *; subst; reflexivity|]. split; [apply Dx, Lt|lra].
Qed.
(** the optics of a scene *)
Definition item (o : optic xr) : Prop := skipped o = true \/ exists k, built o k.
Lemma clean_tests (r : ray xr) w p d : Forall item w -> clean_all w p d -> ray_is r p d -> is_unit d -> Forall (test_ok r) w.
Proof.
  intros W Cl Hr Ud. apply Forall_forall. intros o Io. rewrite Forall_forall in W. destruct (W o Io) as [S|(k & B)]; [left; exact S|right].
  destruct (built_views o k r p d B Hr Ud (Cl o k Io B)) as (_ & h & Eh & Vw & _). exists h. split; [exact Eh|]. intros F. destruct Vw as [(t & v & _ & _ & _ & _ & E & _)|[F' _]]; [rewrite E; discriminate|congruence].
Qed.
Lemma visible_reports o p d t (r : ray xr) rm k : built o k -> clean k p d -> visible o p d t -> (forall k', built o k' -> clean k' p d) -> ray_is r p d -> is_unit d -> t <= rm ->
  exists v, sight k p d t v /\ reports r rm o t (fv (at_t p d t)) (Some (fv v)).
Proof.
  intros B Cl (k' & v' & B' & Si) Cl' Hr Ud L.
  assert (R : reports r rm o t (fv (at_t p d t)) (Some (fv v'))) by (apply (reports_sight o k' r rm p d t _ _ B' Hr Ud (Cl' k' B')); split; [exact L|exists v'; auto]).
  pose proof R as R0. apply (reports_sight o k r rm p d t _ _ B Hr Ud Cl) in R. destruct R as (_ & v & S & _ & E). exists v. split; [exact S|]. rewrite <- E. exact R0.
Qed.
Lemma reports_visible o p d t pt n (r : ray xr) rm : item o -> (forall k, built o k -> clean k p d) -> ray_is r p d -> is_unit d -> reports r rm o t pt n -> visible o p d t /\ t <= rm.
Proof.
  intros [S|(k & B)] Cl Hr Ud R; [destruct R as [R _]; congruence|]. apply (reports_sight o k r rm p d t pt n B Hr Ud (Cl k B)) in R. destruct R as (L & v & Si & _). split; [exists k, v; auto|exact L].
Qed.
Lemma nearest_chosen w p d j t (r : ray xr) rm o k v : Forall item w -> clean_all w p d -> ray_is r p d -> is_unit d -> nearest_visible w p d j t -> t <= rm -> nth_error w j = Some o -> built o k ->
  sight k p d t v -> chosen r rm w j t (fv (at_t p d t)) (Some (fv v)).
Proof.
  intros W Cl Hr Ud [_ N] L En B Si. assert (Io : In o w) by (eapply nth_error_In; exact En). split.
  - exists o. split; [exact En|]. apply (reports_sight o k r rm p d t _ _ B Hr Ud (Cl o k Io B)). split; [exact L|exists v; auto].
  - intros i o' x pt n Ei R. assert (Io' : In o' w) by (eapply nth_error_In; exact Ei). apply (N i o' x Ei). rewrite Forall_forall in W. eapply reports_visible; [apply W, Io'|intros k' B'; exact (Cl o' k' Io' B')|eassumption..].
Qed.
Lemma visible_reported w o p d t (r : ray xr) rm : clean_all w p d -> In o w -> ray_is r p d -> is_unit d -> visible o p d t -> t <= rm -> exists n, reports r rm o t (fv (at_t p d t)) n.
Proof.
  intros Cl Io Hr Ud (k & v & B & Si) L. exists (Some (fv v)). apply (reports_sight o k r rm p d t _ _ B Hr Ud (Cl o k Io B)). split; [exact L|exists v; auto].
Qed.
Lemma chosen_nearest w p d j t (r : ray xr) rm pt n : Forall item w -> clean_all w p d -> ray_is r p d -> is_unit d -> chosen r rm w j t pt n -> nearest_visible w p d j t /\ t <= rm.
Proof.
  intros W Cl Hr Ud [(o & En & R) F]. rewrite Forall_forall in W. assert (Io : In o w) by (eapply nth_error_In; exact En).
  destruct (reports_visible o p d t pt n r rm (W o Io) (fun k B => Cl o k Io B) Hr Ud R) as [Vi L]. split; [|exact L]. split; [exists o; auto|].
  intros i o' t' Ei Vi'. assert (Io' : In o' w) by (eapply nth_error_In; exact Ei). destruct (Rle_dec t' rm) as [L'|L']; [|split; [lra|intros; lra]].
  destruct (visible_reported w o' p d t' r rm Cl Io' Hr Ud Vi' L') as (n' & R'). exact (F i o' t' _ n' Ei R').
Qed.
Lemma none_visible w p d (r : ray xr) rm : Forall item w -> clean_all w p d -> ray_is r p d -> is_unit d -> (none_reports r rm w <-> forall o t, In o w -> visible o p d t -> rm < t).
Proof.
  intros W Cl Hr Ud. split.
  - intros No o t Io Vi. apply Rnot_le_lt. intros L. destruct (visible_reported w o p d t r rm Cl Io Hr Ud Vi L) as (n & R). destruct (In_nth_error _ _ Io) as (j & Ej). exact (No j o t _ n Ej R).
  - intros Fr j o t pt n Ej R. assert (Io : In o w) by (eapply nth_error_In; exact Ej). rewrite Forall_forall in W. destruct (reports_visible o p d t pt n r rm (W o Io) (fun k B => Cl o k Io B) Hr Ud R) as [Vi L].
    specialize (Fr o t Io Vi). lra.
Qed.
(** the flag left behind by the scan *)
Lemma last_side_app (r : ray xr) a : forall o b acc h, Forall (test_ok r) a -> skipped o = false -> (forall x, In x b -> skipped x = true) -> optic_test_intersect o r = Ok h ->
  last_side r (a ++ o :: b) acc = Some (h4_sfo h).
Proof.
  induction a as [|x a IH]; intros o b acc h Ta So Sb E; cbn [app last_side].
  - rewrite So, E. clear - Sb. induction b as [|y b IH]; [reflexivity|]. cbn [last_side]. rewrite (Sb y (or_introl eq_refl)). apply IH. intros z I. apply Sb. right. exact I.
  - inversion Ta as [|? ? Tx Ta']; subst. destruct (skipped x) eqn:Sx; [apply IH; assumption|]. destruct Tx as [Tx|(hx & Ex & _)]; [congruence|]. rewrite Ex. apply IH; assumption.
Qed.
Lemma last_tested_side (r : ray xr) w o h : Forall (test_ok r) w -> last_tested w o -> optic_test_intersect o r = Ok h -> last_side r w None = Some (h4_sfo h).
Proof.
  intros Tk (a & b & -> & So & Sb) E. apply last_side_app; auto. rewrite Forall_app in Tk. apply Tk.
Qed.
Lemma last_exists (w : list (optic xr)) : (exists o, In o w /\ skipped o = false) -> exists o, last_tested w o /\ In o w.
Proof.
  induction w as [|x w IH]; intros (o & I & So); [destruct I|]. destruct (classic (exists o, In o w /\ skipped o = false)) as [Ex|N].
  - destruct (IH Ex) as (o' & (a & b & -> & So' & Sb) & I'). exists o'. split; [exists (x :: a), b; auto|right; exact I'].
  - destruct I as [<-|I]; [|exfalso; apply N; eauto]. exists x. split; [|left; reflexivity]. exists [], w. split; [reflexivity|]. split; [exact So|]. intros y Iy. destruct (skipped y) eqn:Sy; [reflexivity|]. exfalso. apply N. eauto.
Qed.
(** the rays that meet a surface without touching it cross it *)
Lemma regular_cross s t p d r u : tree_of (Leaf s) t -> is_unit d -> ray_is r p d -> regular s p d -> proper s -> surface s (at_t p d u) -> d ∙ inward s (at_t p d u) <> 0.
Proof.
  intros HT Ud Hr Rg Pr Sf Z. destruct (leaf_query s t p d r HT Ud Hr Rg) as (h & _ & L). 
  destruct (solid_quad s (at_t p d u) d Pr Ud) as (A & B & C & PA & SkA & EB & HS & _). assert (Sk : skew s d) by (destruct s; cbn in *; tauto). specialize (SkA Sk).
  rewrite Z, Rmult_0_l in EB. destruct L as [t0 t1 Lt Hsurf Hmem Hres|Nm Ns Z0].
  - assert (Q : forall x, surface s (at_t p d x) -> surface s (at_t (at_t p d u) d (x - u))) by (intros x K; rewrite at_t_at; replace (u + (x - u)) with x by ring; exact K).
    pose proof (proj1 (HS _) (Q t0 (proj2 (Hsurf t0) (or_introl eq_refl)))) as E0. pose proof (proj1 (HS _) (Q t1 (proj2 (Hsurf t1) (or_intror eq_refl)))) as E1. pose proof (proj1 (HS _) (Q u Sf)) as Eu.
    assert (K0 : A * ((t0 - u) * (t0 - u)) = 0) by (replace B with 0 in * by lra; lra). assert (K1 : A * ((t1 - u) * (t1 - u)) = 0) by (replace B with 0 in * by lra; lra).
    assert (t0 - u = 0) by (apply Rmult_integral in K0; destruct K0 as [K0|K0]; [lra|apply Rmult_integral in K0; destruct K0; lra]).
    assert (t1 - u = 0) by (apply Rmult_integral in K1; destruct K1 as [K1|K1]; [lra|apply Rmult_integral in K1; destruct K1; lra]). lra.
  - exact (Nm u Sf).
Qed.
Lemma refract_is (r : ray xr) d u e1 e2 d' : direction r = fv d -> is_unit d -> is_unit u -> d ∙ u <> 0 -> 0 < e1 -> 0 < e2 -> bends e1 e2 u d d' ->
  refract_snells_law r (fv u) (Fin e1) (Fin e2) = Ok (set_direction r (fv d')) /\ is_unit d'.
Proof.
  intros Hd Ud Uu Nz P1 P2 B. destruct (refract_bends r d u e1 e2 Hd Ud Uu P1 P2) as (o & E & B'). rewrite (bends_unique e1 e2 u d d' o Uu Nz P2 B B'). split; [exact E|].
  destruct (classic (total_reflection e1 e2 u d)) as [T|T]; [rewrite (proj1 B' T); apply refl_unit; assumption|apply (proj2 B' T)].
Qed.
Lemma bends_flip e1 e2 u d o : bends e1 e2 u d o -> bends e1 e2 (- u)%r3 d o.
Proof. intros B. apply bends_opp. replace (- - u)%r3 with u by (clear; r3_ring). exact B. Qed.
Lemma bead_cross c rad p d t v : ~ tangent c rad p d -> 0 < rad -> is_unit d -> first_ahead c rad p d t -> v = outward c rad (at_t p d t) -> d ∙ v <> 0.
Proof.
  intros NT Pr Ud (_ & On & _) -> Z. apply NT. unfold tangent. rewrite Rabs_right by lra. unfold on_sphere in On. set (q := at_t p d t) in *.
  unfold outward in Z. rewrite dot_scale_r in Z. assert (Z1 : d ∙ (q - c)%r3 = 0). { apply Rmult_integral in Z. destruct Z as [Z|Z]; [|exact Z]. assert (0 < / rad) by (apply Rinv_0_lt_compat; lra). lra. }
  unfold axis_dist. replace (perp d (c - p)%r3) with (- (q - c))%r3. { rewrite len_opp. exact On. }
  assert (E : (c - p)%r3 = (t * d - (q - c))%r3) by (unfold q, at_t; clear; r3_ring). rewrite E. revert Z1. generalize (q - c)%r3. intros x Z1. unfold perp. unfold is_unit in Ud.
  replace ((t * d - x)%r3 ∙ d) with t by (autorewrite with dotr; rewrite Ud, (dot_comm x d), Z1; ring). clear. r3_ring.
Qed.
Lemma subtree e t s : tree_of e t -> In s (solids e) -> exists ts, tree_of (Leaf s) ts.
Proof.
  revert t. induction e as [s0|o a IHa b IHb]; intros t HT Is; cbn in Is.
  - destruct Is as [<-|[]]. eauto.
  - inversion HT as [| |o' a' b' ta tb Ha Hb]; subst. apply in_app_or in Is. destruct Is as [Is|Is]; eauto.
Qed.
Lemma body_cross e t (r : ray xr) p d x v g : tree_of e t -> (forall s, In s (solids e) -> 0 < radius s) -> is_unit d -> ray_is r p d -> clean (Body e g) p d -> sight (Body e g) p d x v -> d ∙ v <> 0.
Proof.
  intros HT Po Ud Hr (Cl & _) (_ & s & Is & Sf & ->). destruct (subtree e t s HT Is) as (ts & Hs). eapply regular_cross; [exact Hs|exact Ud|exact Hr|apply Cl, Is|eapply tree_proper; [exact Hs|apply Po, Is]|exact Sf].
Qed.
Lemma mirror_turn lam m mi (r : ray xr) q d v l d' : (l = LMirror /\ mi_type mi = "normal"%string \/ exists a, a <> r3zero /\ l = LTilted (dirn a) /\ mi_type mi = "dmd"%string /\ mi_dmd_normal mi = fv (dirn a)) ->
  ray_is r q d -> is_unit d -> is_unit v -> leaves lam m q v q d l d' -> mirror_do_intersect mi r (Some (fv v)) = Ok (set_direction r (fv d')) /\ is_unit d'.
Proof.
  intros K Hr Ud Uv Lv. assert (Hd : direction r = fv d) by apply Hr. unfold mirror_do_intersect. destruct K as [(-> & Ty)|(a & Na & -> & Ty & Dm)]; inversion Lv; subst; rewrite Ty.
  - change (String.eqb "normal" "normal") with true. cbn iota. cbn [need bind]. rewrite (reflect_fv r d v Hd) by (apply unit_nonzero; assumption). rewrite !dirn_of_unit by assumption. split; [reflexivity|apply refl_unit; assumption].
  - change (String.eqb "dmd" "normal") with false. change (String.eqb "dmd" "dmd") with true. cbn iota. rewrite Dm. pose proof (dirn_unit a Na) as Ua.
    rewrite (reflect_fv r d _ Hd) by (apply unit_nonzero; assumption). rewrite (dirn_of_unit (dirn a) Ua), (dirn_of_unit d Ud). split; [reflexivity|apply refl_unit; assumption].
Qed.
Lemma turn_do lam m w o k (r : ray xr) p d t v d' sd : built o k -> In o w -> Forall item w -> clean_all w p d -> ray_is r p d -> is_unit d -> light r lam m ->
  sight k p d t v -> turn lam m w k p d t v d' -> last_side r w None = Some sd ->
  optic_do_intersect o (fly r (Fin t)) (fv (at_t p d t)) (Some (fv v)) sd = Ok (set_direction (fly r (Fin t)) (fv d'), o) /\ is_unit d'.
Proof.
  intros B Io W Cl Hr Ud Li Si Tn Es. pose proof (Cl o k Io B) as Ck. pose proof (clean_tests r w p d W Cl Hr Ud) as Tk.
  destruct (sight_facts o k r p d t v B Hr Ud Ck Si) as [Lt Uv]. pose proof (fly_ray r p d t Hr) as Hf. assert (Hd1 : direction (fly r (Fin t)) = fv d) by apply Hf.
  destruct B as [o c u A l V|c n D w0 h f tg dmd mi Hn Hf0 E|c n D w0 h f tg a mi Hn Hf0 Ha E|c n D w0 h f tg dmd mi HD E|c n D w0 h f tg a mi HD Ha E|c n D f ty ix l HD Ty Hi E|e tr x HT Sm Po|e tr ix HT Sm Po Hi].
  - destruct Si as (M & At & ->). cbn [turn] in Tn. eapply piece_do; [exact V|exact Hf|exact Ud|apply M|apply Li|apply Li|exact Tn].
  - cbn [optic_do_intersect]. destruct (mirror_turn lam m mi (fly r (Fin t)) (at_t p d t) d v LMirror d') as [-> U]; auto. left. split; [reflexivity|]. exact (proj1 (mirror_fields _ _ _ _ _ _ _ _ _ _ _ E)).
  - cbn [optic_do_intersect]. destruct (dmd_field _ _ _ _ _ _ _ _ _ _ _ Ha E) as [Ty Dm]. destruct (mirror_turn lam m mi (fly r (Fin t)) (at_t p d t) d v (LTilted (dirn a)) d') as [-> U]; auto. right. exists a. auto.
  - cbn [optic_do_intersect]. destruct (mirror_turn lam m mi (fly r (Fin t)) (at_t p d t) d v LMirror d') as [-> U]; auto. left. split; [reflexivity|]. exact (proj1 (mirror_fields _ _ _ _ _ _ _ _ _ _ _ E)).
  - cbn [optic_do_intersect]. destruct (dmd_field _ _ _ _ _ _ _ _ _ _ _ Ha E) as [Ty Dm]. destruct (mirror_turn lam m mi (fly r (Fin t)) (at_t p d t) d v (LTilted (dirn a)) d') as [-> U]; auto. right. exists a. auto.
  - destruct Tn as (o' & k' & Lo & B' & NB & Tn). assert (Io' : In o' w) by (destruct Lo as (a & b & -> & _); apply in_or_app; right; left; reflexivity).
    destruct (built_views o' k' r p d B' Hr Ud (Cl o' k' Io' B')) as (_ & h' & Eh' & _ & Fl). specialize (Fl NB). rewrite (last_tested_side r w o' h' Tk Lo Eh') in Es. injection Es as <-.
    destruct Si as [F Ev]. cbn [clean] in Ck. assert (PR : 0 < Rabs (D / 2)) by (apply Rabs_pos_lt; lra). pose proof (bead_cross _ _ _ _ _ _ Ck PR Ud F Ev) as Nz.
    destruct (ball_lens_data _ _ _ _ _ _ _ E) as [Tl Ix]. destruct Ty as (K1 & K2 & K3). apply String.eqb_neq in K1, K2, K3.
    cbn [optic_do_intersect]. unfold lens_do_intersect. rewrite Tl, K1, K2, K3, Ix, nofZ_fin. cbn [need bind].
    destruct Tn as [[Fg Bd]|[Fg Bd]].
    + rewrite (proj2 Fl Fg). destruct (refract_is (fly r (Fin t)) d v 1 ix d' Hd1 Ud Uv Nz ltac:(lra) Hi Bd) as [-> U]. auto.
    + destruct (sfo_truthy (h4_sfo h')) eqn:Tr; [destruct (Fg (proj1 Fl eq_refl))|]. rewrite vopp_fv.
      destruct (refract_is (fly r (Fin t)) d (- v)%r3 ix 1 d' Hd1 Ud (unit_opp _ Uv)) as [-> U]; auto; [rewrite dot_opp_r; lra|lra|apply bends_flip, Bd].
  - cbn [turn] in Tn. cbn [optic_do_intersect]. unfold compound_do_intersect. cbn [co_surface_behavior]. change (String.eqb "reflect" "reflect") with true. cbn iota. cbn [need bind].
    rewrite (reflect_fv _ d v Hd1) by (apply unit_nonzero; assumption). rewrite !dirn_of_unit by assumption. rewrite Tn. split; [reflexivity|apply refl_unit; assumption].
  - cbn [turn] in Tn. pose proof (body_cross e tr r p d t v (Some ix) HT Po Ud Hr Ck Si) as Nz.
    cbn [optic_do_intersect]. unfold compound_do_intersect. cbn [co_surface_behavior]. change (String.eqb "refract" "reflect") with false. change (String.eqb "refract" "refract") with true. cbn iota.
    rewrite Hd1, dec_fin by discriminate. change (IZR 1 / IZR (10 ^ 8)) with 1e-8. rewrite vscale_fv, vadd_fv. unfold compound_index_if_inside. cbn [co_tree].
    destruct (tree_point_den _ _ (at_t p d t + 1e-8 * d)%r3 HT) as (b & Eb & Ib). rewrite Eb. cbn [bind co_index]. unfold INDEX_OF_THE_WORLD. rewrite nofZ_fin.
    destruct Tn as [[M Bd]|[M Bd]].
    + rewrite (proj2 Ib M). cbn [bind need]. destruct (refract_is (fly r (Fin t)) d v 1 ix d' Hd1 Ud Uv Nz ltac:(lra) Hi Bd) as [-> U]. auto.
    + destruct b; [destruct (M (proj1 Ib eq_refl))|]. cbn [bind need]. destruct (refract_is (fly r (Fin t)) d v ix 1 d' Hd1 Ud Uv Nz Hi ltac:(lra) Bd) as [-> U]. auto.
Qed.

(** the part of the run behind a reached point is a run from there *)
Lemma reach_flows lam m w p d L pts q e L' : reach lam m w p d L pts q e L' -> Forall item w -> forall r : ray xr, ray_is r p d -> is_unit d -> light r lam m -> blocked r = false ->
  exists r', (forall res, flows r' w L' res -> flows r w L res) /\ ray_is r' q e /\ is_unit e /\ light r' lam m /\ blocked r' = false /\ point_history r' = point_history r ++ map fv pts /\ ray_type r' = ray_type r.
Proof.
  induction 1 as [p d L|p d L j t o k v d' pts q e L' PL Cl Nv Lt En B Si Tn Re IH]; intros W r Hr U Li Hb.
  - exists r. cbn. rewrite app_nil_r. repeat split; auto; first [apply Hr|apply Li].
  - assert (Io : In o w) by (eapply nth_error_In; exact En). pose proof (clean_tests r w p d W Cl Hr U) as Tk.
    destruct (built_views o k r p d B Hr U (Cl o k Io B)) as (So & _). destruct (side_some r w Tk (ex_intro _ o (conj Io So))) as (s & Es).
    destruct (turn_do lam m w o k r p d t v d' s B Io W Cl Hr U Li Si Tn Es) as [Do Ud']. pose proof (fly_ray r p d t Hr) as Hf.
    destruct (IH W (set_direction (fly r (Fin t)) (fv d'))) as (r' & Fl & Hr' & Ue & Li' & Hb' & Hh & Ty); [eapply set_dir_ray; exact Hf|exact Ud'|exact Li|exact Hb|].
    exists r'. split; [|split; [exact Hr'|]; split; [exact Ue|]; split; [exact Li'|]; split; [exact Hb'|]; split; [|exact Ty]].
    + intros res F. eapply F_hit; [exact PL|exact Hb|exact Tk|eapply nearest_chosen; eassumption|exact En| |].
      * unfold act. destruct (String.eqb_spec (ray_type r) "faerie_fire") as [K|_]; [exfalso; apply (proj2 (proj2 Li)), K|]. rewrite Es. cbn [bound bind]. exact Do.
      * rewrite set_nth_self by exact En. apply Fl, F.
    + rewrite Hh. change (point_history (set_direction (fly r (Fin t)) (fv d'))) with (point_history (fly r (Fin t))). rewrite (fly_history r p d t Hr), <- app_assoc. reflexivity.
Qed.
Lemma last_cons {A} (x : A) l a : last (x :: l) a = last l x.
Proof. destruct l as [|y l]; [reflexivity|]. change (last (x :: y :: l) a) with (last (y :: l) a). apply last_any. Qed.
Lemma reach_last lam m w p d L pts q e L' : reach lam m w p d L pts q e L' -> last pts p = q.
Proof. induction 1 as [|p d L j t o k v d' pts q e L' PL Cl Nv Lt En B Si Tn Re IH]; [reflexivity|]. rewrite last_cons. exact IH. Qed.
Lemma path_flows lam m w p d L pts e b w' : path lam m w p d L pts e b w' -> Forall item w -> forall r : ray xr, ray_is r p d -> is_unit d -> light r lam m -> blocked r = false ->
  exists r', flows r w L (Ok (r', w')) /\ ray_is r' (last pts p) e /\ light r' lam m /\ blocked r' = b /\ point_history r' = point_history r ++ map fv pts /\ ray_type r' = ray_type r.
Proof.
  intros P W r Hr U Li Hb. destruct P as [pts q e Re|pts q e L' Re PL Cl Fr|pts q e L' j t o c u A Re PL Cl Nv Lt En V];
  destruct (reach_flows _ _ _ _ _ _ _ _ _ _ Re W r Hr U Li Hb) as (r1 & Fl & Hr1 & Ue & Li1 & Hb1 & Hh & Ty).
  - exists r1. split; [apply Fl, F_stop; left; lra|]. rewrite (reach_last _ _ _ _ _ _ _ _ _ _ Re). auto 10.
  - exists (fly r1 (Fin L')). split; [apply Fl, F_free; [exact PL|exact Hb1|eapply clean_tests; eassumption|apply (none_visible w q e r1 L' W Cl Hr1 Ue); exact Fr]|].
    split; [rewrite last_last; apply (fly_ray r1 q e L' Hr1)|]. split; [exact Li1|]. split; [exact Hb1|]. split; [|exact Ty]. rewrite (fly_history r1 q e L' Hr1), Hh, map_app, <- app_assoc. reflexivity.
  - assert (Io : In o w) by (eapply nth_error_In; exact En). pose proof (clean_tests r1 w q e W Cl Hr1 Ue) as Tk. pose proof (B_flat _ _ _ _ _ V) as B.
    destruct (built_views o _ r1 q e B Hr1 Ue (Cl o _ Io B)) as (So & _). destruct (side_some r1 w Tk (ex_intro _ o (conj Io So))) as (s & Es).
    destruct Nv as [(o1 & En1 & Vi) Ne]. rewrite En in En1. injection En1 as <-.
    destruct (visible_reports o q e t r1 L' _ B (Cl o _ Io B) Vi (fun k' B' => Cl o k' Io B') Hr1 Ue Lt) as (v & Si & _).
    exists (set_blocked (fly r1 (Fin t))). split.
    + apply Fl. eapply F_hit; [exact PL|exact Hb1|exact Tk|eapply nearest_chosen; [exact W|exact Cl|exact Hr1|exact Ue|split; [exists o; split; [exact En|exact Vi]|exact Ne]|exact Lt|exact En|exact B|exact Si]|exact En|instantiate (1 := add_log o [(fv (at_t q e t), Fin lam)]); instantiate (1 := set_blocked (fly r1 (Fin t)))|apply F_stop; right; reflexivity].
      unfold act. destruct (String.eqb_spec (ray_type r1) "faerie_fire") as [K|_]; [exfalso; apply (proj2 (proj2 Li1)), K|]. rewrite Es. cbn [bound bind]. exact (screen_do o c u A (fly r1 (Fin t)) _ lam _ _ V (proj1 Li1)).
    + split; [rewrite last_last; apply (fly_ray r1 q e t Hr1)|]. split; [exact Li1|]. split; [reflexivity|]. split; [|exact Ty]. change (point_history (set_blocked (fly r1 (Fin t)))) with (point_history (fly r1 (Fin t))). rewrite (fly_history r1 q e t Hr1), Hh, map_app, <- app_assoc. reflexivity.
Qed.

(** what is required for every ray to have a law to follow: gratings only in order 0, and glass balls only where the last optic tested is not a compound *)
Definition orderly (m : R) (w : list (optic xr)) : Prop :=
  (forall o c u A Tg G, In o w -> piece o c u A (LGrating Tg G) -> m = 0) /\
  (forall o C rad ix, In o w -> built o (Bead C rad ix) -> exists o' k', last_tested w o' /\ built o' k' /\ ~ is_body k').
Lemma turn_exists lam m w o k (r : ray xr) p d t v : orderly m w -> In o w -> built o k -> clean_all w p d -> ray_is r p d -> is_unit d -> sight k p d t v ->
  (exists c u A, k = Flat c u A LScreen) \/ exists d', turn lam m w k p d t v d'.
Proof.
  intros [Og Ob] Io B Cl Hr Ud Si. destruct (sight_facts o k r p d t v B Hr Ud (Cl o k Io B) Si) as [_ Uv].
  assert (Bd : forall e1 e2, 0 < e1 -> 0 < e2 -> exists d', bends e1 e2 v d d') by (intros e1 e2 P1 P2; destruct (refract_bends r d v e1 e2 (proj2 Hr) Ud Uv P1 P2) as (o1 & _ & H); eauto).
  pose proof B as B0. destruct B as [o c u A l V|c n D w0 h f tg dmd mi Hn Hf0 E|c n D w0 h f tg a mi Hn Hf0 Ha E|c n D w0 h f tg dmd mi HD E|c n D w0 h f tg a mi HD Ha E|c n D f ty ix l HD Ty Hi E|e tr x HT Sm Po|e tr ix HT Sm Po Hi]; cbn [turn].
  - assert (DS : {l = LScreen} + {l <> LScreen}) by (destruct l; ((left; reflexivity) || (right; discriminate))). destruct DS as [->|NS]; [left; eauto|right].
    destruct Si as (M & _ & _). eapply leaves_exists; [exact V|exact Ud|apply M|exact NS|]. intros Tg G ->. eapply Og; eassumption.
  - right. eexists. apply V_mirror. reflexivity.
  - right. eexists. apply V_tilted. reflexivity.
  - right. eexists. apply V_mirror. reflexivity.
  - right. eexists. apply V_tilted. reflexivity.
  - right. destruct (Ob _ _ _ _ Io B0) as (o' & k' & Lo & B' & NB). destruct (classic (flagged k' p d)) as [Fg|Fg].
    + destruct (Bd 1 ix ltac:(lra) Hi) as (d' & H). exists d', o', k'. auto 10.
    + destruct (Bd ix 1 Hi ltac:(lra)) as (d' & H). exists d', o', k'. auto 10.
  - right. eexists. reflexivity.
  - right. destruct (classic (den e (at_t p d t + 1e-8 * d)%r3)) as [Fg|Fg].
    + destruct (Bd 1 ix ltac:(lra) Hi) as (d' & H). exists d'. auto.
    + destruct (Bd ix 1 Hi ltac:(lra)) as (d' & H). exists d'. auto.
Qed.
Lemma flows_path lam m r w L res : flows r w L res -> forall p d, Forall item w -> orderly m w -> ray_is r p d -> is_unit d -> light r lam m -> blocked r = false -> 0 <= L ->
  (exists pts e b w', path lam m w p d L pts e b w') \/ exists pts q e L', reach lam m w p d L pts q e L' /\ 0 < L' /\ ~ clean_all w q e.
Proof.
  induction 1 as [r w rm C|r w rm e P B E|r w rm P B Tk No|r w rm k x pt n o r2 o' res P B Tk Ch En A F IH|r w rm k x pt n o e P B Tk Ch En A]; intros p d W Or Hr U Li Hb HL.
  - destruct C as [C|C]; [|congruence]. left. replace rm with 0 by lra. do 4 eexists. eapply H_spent, R_here.
  - destruct (classic (clean_all w p d)) as [Cl|N]; [|right; do 4 eexists; split; [apply R_here|auto]]. exfalso. eapply ok_no_err; [|exact E]. eapply clean_tests; eassumption.
  - destruct (classic (clean_all w p d)) as [Cl|N]; [|right; do 4 eexists; split; [apply R_here|auto]]. left. do 4 eexists. eapply H_end; [apply R_here|exact P|exact Cl|]. apply (none_visible w p d r rm W Cl Hr U). exact No.
  - destruct (classic (clean_all w p d)) as [Cl|N]; [|right; do 4 eexists; split; [apply R_here|auto]].
    assert (Io : In o w) by (eapply nth_error_In; exact En). destruct (chosen_nearest w p d k x r rm pt n W Cl Hr U Ch) as [Nv Lx]. pose proof (proj1 Ch) as (o1 & En1 & Rp). rewrite En in En1. injection En1 as <-.
    rewrite Forall_forall in W. destruct (W o Io) as [S0|(kd & Bk)]; [destruct Rp as [Rp _]; congruence|]. rewrite <- Forall_forall in W.
    apply (reports_sight o kd r rm p d x pt n Bk Hr U (Cl o kd Io Bk)) in Rp. destruct Rp as (_ & v & Si & -> & ->).
    destruct (turn_exists lam m w o kd r p d x v Or Io Bk Cl Hr U Si) as [(c & u & Ap & ->)|(d' & Tn)].
    + left. do 4 eexists. eapply H_screen; [apply R_here|exact P|exact Cl|exact Nv|exact Lx|exact En|]. inversion Bk; subst. eassumption.
    + destruct (built_views o kd r p d Bk Hr U (Cl o kd Io Bk)) as (So & _). destruct (side_some r w Tk (ex_intro _ o (conj Io So))) as (s & Es).
      destruct (turn_do lam m w o kd r p d x v d' s Bk Io W Cl Hr U Li Si Tn Es) as [Do Ud']. pose proof (fly_ray r p d x Hr) as Hf.
      unfold act in A. destruct (String.eqb_spec (ray_type r) "faerie_fire") as [K|_]; [exfalso; apply (proj2 (proj2 Li)), K|]. rewrite Es in A. cbn [bound bind] in A. rewrite Do in A. injection A as <- <-.
      rewrite set_nth_self in IH by exact En. destruct (IH (at_t p d x) d' W Or (set_dir_ray _ _ _ d' Hf) Ud' Li Hb ltac:(lra)) as [(pts & e & b & w' & T)|(pts & q & e & L' & Re & PL & NC)].
      * left. destruct T as [pts q e Re|pts q e L' Re PL Cl' Fr|pts q e L' j t o1 c u A Re PL Cl' Nv' Lt' En' V].
        -- do 4 eexists. eapply H_spent. eapply R_turn; [exact P|exact Cl|exact Nv|exact Lx|exact En|exact Bk|exact Si|exact Tn|exact Re].
        -- do 4 eexists. eapply H_end; [eapply R_turn; [exact P|exact Cl|exact Nv|exact Lx|exact En|exact Bk|exact Si|exact Tn|exact Re]|exact PL|exact Cl'|exact Fr].
        -- do 4 eexists. eapply H_screen; [eapply R_turn; [exact P|exact Cl|exact Nv|exact Lx|exact En|exact Bk|exact Si|exact Tn|exact Re]|exact PL|exact Cl'|exact Nv'|exact Lt'|exact En'|exact V].
      * right. do 4 eexists. split; [eapply R_turn; [exact P|exact Cl|exact Nv|exact Lx|exact En|exact Bk|exact Si|exact Tn|exact Re]|auto].
  - destruct (classic (clean_all w p d)) as [Cl|N]; [|right; do 4 eexists; split; [apply R_here|auto]]. exfalso.
    assert (Io : In o w) by (eapply nth_error_In; exact En). destruct (chosen_nearest w p d k x r rm pt n W Cl Hr U Ch) as [Nv Lx]. pose proof (proj1 Ch) as (o1 & En1 & Rp). rewrite En in En1. injection En1 as <-.
    rewrite Forall_forall in W. destruct (W o Io) as [S0|(kd & Bk)]; [destruct Rp as [Rp _]; congruence|]. rewrite <- Forall_forall in W.
    apply (reports_sight o kd r rm p d x pt n Bk Hr U (Cl o kd Io Bk)) in Rp. destruct Rp as (_ & v & Si & -> & ->).
    destruct (built_views o kd r p d Bk Hr U (Cl o kd Io Bk)) as (So & _). destruct (side_some r w Tk (ex_intro _ o (conj Io So))) as (s & Es).
    unfold act in A. destruct (String.eqb_spec (ray_type r) "faerie_fire") as [K|_]; [apply (proj2 (proj2 Li)), K|]. rewrite Es in A. cbn [bound bind] in A.
    destruct (turn_exists lam m w o kd r p d x v Or Io Bk Cl Hr U Si) as [(c & u & Ap & ->)|(d' & Tn)].
    + inversion Bk as [o0 c0 u0 A0 l0 V| | | | | | |]; subst. rewrite (screen_do o c u Ap (fly r (Fin x)) _ lam _ _ V (proj1 Li)) in A. discriminate.
    + destruct (turn_do lam m w o kd r p d x v d' s Bk Io W Cl Hr U Li Si Tn Es) as [Do _]. rewrite Do in A. discriminate.
Qed.
