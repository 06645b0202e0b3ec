(** C102: light and a Compound made of one solid, a ball or an endless cylinder, alone in a scene (optics3d.py:79-130, 876-949, shapes.py:199-244, 310-388; the scene of script_testCylinder.py). *)
From Coq Require Import Reals ZArith Lra Lia Psatz List String Bool.
From Verif Require Import PyErr Num Vec Shapes Csg Optics Spec XReal RVec VecProofs FlatProofs SphereProofs CylProofs ShapeExtra TreeProofs SolidProofs CsgProofs
  RayProofs SceneProofs OrderProofs OpticHits RunXr RunGen Continue Props_Shape Props_Compound Props_Touch.
Import ListNotations.
Local Open Scope R_scope.

Definition radius (s : solid) : R := match s with Ball _ rad => rad | Cyl _ _ rad => rad end.
Definition centre (s : solid) : R3 := match s with Ball c _ => c | Cyl c _ _ => c end.
Definition round (s : solid) : Prop := match s with Ball _ _ => True | Cyl _ _ _ => False end.
(** the part of a vector that counts for the distance from the centre or the axis *)
Definition across (s : solid) (v : R3) : R3 := match s with Ball _ _ => v | Cyl _ u _ => perp (dirn u) v end.
Definition proper (s : solid) : Prop := 0 < radius s /\ match s with Ball _ _ => True | Cyl _ u _ => is_unit (dirn u) end.

Lemma tree_proper s t : tree_of (Leaf s) t -> 0 < radius s -> proper s.
Proof. intros H Hr. split; [exact Hr|]. inversion H; subst; [exact I|]. now apply dirn_unit. Qed.
Lemma across_dot s v w : proper s -> across s v ∙ w = across s v ∙ across s w.
Proof. intros [_ P]. destruct s; [reflexivity|]. cbn [across]. rewrite perp_dot by exact P. unfold perp. autorewrite with dotr. rewrite (dot_comm (dirn u) w). ring. Qed.
Lemma across_sym s v w : proper s -> across s v ∙ w = v ∙ across s w.
Proof. intros P. rewrite (across_dot s v w P), (dot_comm v), (across_dot s w v P). apply dot_comm. Qed.
Lemma surface_sq s x : proper s -> (surface s x <-> across s (x - centre s) ∙ across s (x - centre s) = radius s * radius s).
Proof.
  intros [Hr _]. rewrite <- len_sq. assert (L : 0 <= len (across s (x - centre s))) by apply len_nonneg.
  assert (E : surface s x <-> len (across s (x - centre s)) = radius s) by (destruct s; reflexivity). rewrite E. split; intros H; [now rewrite H|nra].
Qed.
Lemma member_sq s x : proper s -> (member s x <-> across s (x - centre s) ∙ across s (x - centre s) < radius s * radius s).
Proof.
  intros [Hr _]. rewrite <- len_sq. assert (L : 0 <= len (across s (x - centre s))) by apply len_nonneg.
  assert (E : member s x <-> len (across s (x - centre s)) < radius s) by (destruct s; reflexivity). rewrite E. split; intros H; nra.
Qed.
Lemma inward_across s x : inward s x = (- / radius s * across s (x - centre s))%r3.
Proof. destruct s; cbn [inward radius across centre]; [|unfold perp]; clear; generalize (/ rad); intros k; r3_ring. Qed.
Lemma inward_dot s x v : proper s -> v ∙ inward s x = - / radius s * (v ∙ across s (x - centre s)).
Proof. intros _. rewrite inward_across. autorewrite with dotr. ring. Qed.
Lemma inward_unit s x : proper s -> surface s x -> is_unit (inward s x).
Proof.
  intros P S. apply surface_sq in S; [|exact P]. unfold is_unit. rewrite inward_across. autorewrite with dotr. rewrite S. destruct P. field. lra.
Qed.
Lemma across_lin s a b t : across s (a + t * b)%r3 = (across s a + t * across s b)%r3.
Proof. destruct s; [reflexivity|]. cbn [across]. generalize (dirn u). intros w. unfold perp. r3_ring. Qed.
Lemma along_sq s p d t : proper s ->
  across s (at_t p d t - centre s) ∙ across s (at_t p d t - centre s) =
  across s (p - centre s) ∙ across s (p - centre s) + 2 * t * (d ∙ across s (p - centre s)) + t * t * (across s d ∙ across s d).
Proof.
  intros P. replace (at_t p d t - centre s)%r3 with ((p - centre s) + t * d)%r3 by (unfold at_t; clear; r3_ring). rewrite across_lin.
  rewrite (dot_comm d), (across_dot s (p - centre s) d P). generalize (across s (p - centre s)) (across s d). intros a b. autorewrite with dotr. rewrite (dot_comm b a). ring.
Qed.

(** the line through p along d is on the surface at t0 and at t1 and nowhere else *)
Definition crosses (s : solid) (p d : R3) (t0 t1 : R) : Prop := t0 < t1 /\ forall t, surface s (at_t p d t) <-> t = t0 \/ t = t1.

Lemma crosses_regular s p d t0 t1 : proper s -> is_unit d -> crosses s p d t0 t1 -> regular s p d.
Proof.
  intros P Ud [Lt On]. pose proof (proj2 (On t0) (or_introl eq_refl)) as O0. pose proof (proj2 (On t1) (or_intror eq_refl)) as O1. destruct s as [c rad|c u rad]; destruct P as [Hr Hu]; cbn [radius surface regular] in *.
  - split; [exact Hr|]. intros T. apply tangent_disc in T; [|exact Ud]. assert (Ra : Rabs rad = rad) by (apply Rabs_right; lra).
    rewrite <- Ra in O0, O1. apply on_sphere_param in O0; [|exact Ud]. apply on_sphere_param in O1; [|exact Ud]. rewrite T in O0, O1. apply Rmult_integral in O0. apply Rmult_integral in O1. lra.
  - split; [exact Hr|]. split.
    + intros Pa. assert (O2 : on_cylinder c (dirn u) rad (at_t p d (t1 + 1))).
      { unfold on_cylinder, axis_dist in *. rewrite <- O1. f_equal. unfold parallel in Pa.
        assert (A : forall t, perp (dirn u) (at_t p d t - c) = (perp (dirn u) (p - c) + t * perp (dirn u) d)%r3) by (intros t; unfold at_t, perp; clear; generalize (dirn u); intros; r3_ring).
        rewrite !A, Pa. clear. r3_ring. }
      apply On in O2. lra.
    + intros (_ & t & Ot & Far). unfold on_cylinder in *. destruct (Req_dec t0 t) as [E|E]; [pose proof (Far t1 ltac:(lra))|pose proof (Far t0 E)]; lra.
Qed.
Lemma crosses_member s p d t0 t1 : proper s -> is_unit d -> crosses s p d t0 t1 -> forall t, member s (at_t p d t) <-> t0 < t < t1.
Proof.
  intros P Ud [Lt On] t. pose proof (proj2 (On t0) (or_introl eq_refl)) as O0. pose proof (proj2 (On t1) (or_intror eq_refl)) as O1. rewrite surface_sq, along_sq in O0, O1 by exact P. rewrite member_sq, along_sq by exact P.
  assert (A0 : 0 <= across s d ∙ across s d) by (rewrite <- len_sq; apply Rle_0_sqr).
  assert (On' : forall t, across s (p - centre s) ∙ across s (p - centre s) + 2 * t * (d ∙ across s (p - centre s)) + t * t * (across s d ∙ across s d) = radius s * radius s -> t = t0 \/ t = t1) by (intros t' H'; apply On; rewrite surface_sq, along_sq by exact P; exact H').
  clear On. set (A := across s d ∙ across s d) in *. set (B := d ∙ across s (p - centre s)) in *. set (C := across s (p - centre s) ∙ across s (p - centre s)) in *. set (R2 := radius s * radius s) in *. clearbody A B C R2.
  assert (X : 2 * B + A * (t0 + t1) = 0) by (assert (K : (t1 - t0) * (2 * B + A * (t0 + t1)) = 0) by lra; apply Rmult_integral in K; lra).
  assert (PA : 0 < A). { destruct A0 as [A0|A0]; [exact A0|]. exfalso. subst A. assert (B = 0) by lra. subst B. destruct (On' (t1 + 1) ltac:(lra)); lra. }
  assert (F : C + 2 * t * B + t * t * A - R2 = A * ((t - t0) * (t - t1))) by nra.
  split; intros H.
  - assert (H1 : A * ((t - t0) * (t - t1)) < 0) by lra. assert (H2 : (t - t0) * (t - t1) < 0) by nra. split; nra.
  - assert (H2 : (t - t0) * (t - t1) < 0) by nra. nra.
Qed.
(** at the second crossing the ray leaves the solid, at the first it enters, under the same angle with the normal *)
Lemma crosses_sides s p d t0 t1 : proper s -> is_unit d -> crosses s p d t0 t1 -> 0 < d ∙ inward s (at_t p d t0) /\ d ∙ inward s (at_t p d t1) = - (d ∙ inward s (at_t p d t0)).
Proof.
  intros P Ud Cr. pose proof (crosses_member s p d t0 t1 P Ud Cr ((t0 + t1) / 2)) as M. destruct Cr as [Lt On]. assert (Mm : member s (at_t p d ((t0 + t1) / 2))) by (apply M; lra). clear M.
  pose proof (proj2 (On t0) (or_introl eq_refl)) as O0. pose proof (proj2 (On t1) (or_intror eq_refl)) as O1. rewrite surface_sq, along_sq in O0, O1 by exact P. rewrite member_sq, along_sq in Mm by exact P.
  assert (D : forall t, d ∙ inward s (at_t p d t) = - / radius s * (d ∙ across s (p - centre s) + t * (across s d ∙ across s d))).
  { intros t. rewrite inward_dot by exact P. f_equal. replace (at_t p d t - centre s)%r3 with ((p - centre s) + t * d)%r3 by (unfold at_t; clear; r3_ring). rewrite across_lin. autorewrite with dotr. rewrite (dot_comm d (across s d)), (across_dot s d d P). ring. }
  rewrite !D. clear D On. assert (IR : 0 < / radius s) by (apply Rinv_0_lt_compat; exact (proj1 P)). set (A := across s d ∙ across s d) in *. set (B := d ∙ across s (p - centre s)) in *. set (C := across s (p - centre s) ∙ across s (p - centre s)) in *. set (R2 := radius s * radius s) in *. clearbody A B C R2.
  assert (X : 2 * B + A * (t0 + t1) = 0) by (assert (K : (t1 - t0) * (2 * B + A * (t0 + t1)) = 0) by lra; apply Rmult_integral in K; lra).
  split; [|nra]. replace (- / radius s * (B + t0 * A)) with (/ radius s * (A * (t1 - t0) / 2)) by nra. apply Rmult_lt_0_compat; [exact IR|].
  assert (F : C + 2 * ((t0 + t1) / 2) * B + (t0 + t1) / 2 * ((t0 + t1) / 2) * A - R2 = - (A * ((t1 - t0) * (t1 - t0) / 4))) by (assert (EB : B = - (A * (t0 + t1) / 2)) by lra; rewrite <- O0, EB; field). assert (0 < (t1 - t0) * (t1 - t0) / 4) by nra. assert (0 < A) by nra. apply Rmult_lt_0_compat; [nra|lra].
Qed.
(** the chord ahead of a point of the surface; x is its length *)
Lemma chord_from s q d : proper s -> is_unit d -> surface s q -> 0 < d ∙ inward s q ->
  let x := 2 * radius s * (d ∙ inward s q) / (across s d ∙ across s d) in 0 < across s d ∙ across s d /\ 0 < x /\ crosses s q d 0 x.
Proof.
  intros P Ud On H x. pose proof (proj1 (surface_sq s q P) On) as Q. assert (Hr : 0 < radius s) by exact (proj1 P).
  assert (A0 : 0 <= across s d ∙ across s d) by (rewrite <- len_sq; apply Rle_0_sqr).
  assert (B : d ∙ across s (q - centre s) = - (radius s * (d ∙ inward s q))) by (rewrite inward_dot by exact P; field; lra).
  assert (PA : 0 < across s d ∙ across s d).
  { destruct A0 as [A0|A0]; [exact A0|]. exfalso. assert (Z : across s d = r3zero). { apply len_zero. assert (K : len (across s d) * len (across s d) = 0) by (rewrite len_sq; lra). apply Rmult_integral in K. destruct K; assumption. }
    rewrite (dot_comm d), across_sym, Z in B by exact P. assert (Z0 : (q - centre s)%r3 ∙ r3zero = 0) by (unfold r3dot, r3zero; cbn; ring). rewrite Z0 in B. nra. }
  split; [exact PA|]. assert (Px : 0 < x) by (unfold x; apply Rdiv_lt_0_compat; nra). split; [exact Px|]. split; [exact Px|]. intros t. rewrite surface_sq, along_sq, Q, B by exact P.
  assert (Ex : x * (across s d ∙ across s d) = 2 * (radius s * (d ∙ inward s q))) by (unfold x; field; lra). clearbody x. set (A := across s d ∙ across s d) in *. clearbody A.
  split.
  - intros K. assert (K2 : t * (A * (t - x)) = 0) by (replace (t * (A * (t - x))) with (t * t * A - t * (x * A)) by ring; rewrite Ex; lra). apply Rmult_integral in K2. destruct K2 as [K2|K2]; [auto|]. apply Rmult_integral in K2. destruct K2; [lra|right; lra].
  - intros [->| ->]; [ring|]. replace (x * x * A) with (x * (x * A)) by ring. rewrite Ex. ring.
Qed.

(** what such a compound reports: the far crossing of a ball, the near crossing of a cylinder *)
Definition answer (s : solid) p d t e : hit4 xr := H4 true (Some (fv (at_t p d t))) (Some (fv (inward s (at_t p d t)))) (SfoBool e).
Lemma one_query s tr b ix p d t0 t1 (r : ray xr) : tree_of (Leaf s) tr -> 0 < radius s -> is_unit d -> ray_is r p d -> crosses s p d t0 t1 ->
  (1e-12 < t1 -> t0 <= 1e-12 \/ round s -> exists e, compound_test_intersect (mkCompound tr b ix) r = Ok (answer s p d t1 e)) /\
  (1e-12 < t0 -> ~ round s -> exists e, compound_test_intersect (mkCompound tr b ix) r = Ok (answer s p d t0 e)) /\
  (t1 <= 1e-12 -> exists pt n e, compound_test_intersect (mkCompound tr b ix) r = Ok (H4 false pt n e)).
Proof.
  intros HT HR Ud Hr Cr. pose proof (tree_proper s tr HT HR) as Pr. pose proof (crosses_regular s p d t0 t1 Pr Ud Cr) as Rg. destruct Cr as [Lt On].
  unfold compound_test_intersect, answer. cbn [co_tree].
  destruct (leaf_query s tr p d r HT Ud Hr Rg) as (h & E & LR). rewrite E. cbn [bind unpack6].
  destruct LR as [s0 s1 L01 Hs _ Res|Hs0 _ _]; [|exfalso; apply (Hs0 t0), On; auto].
  assert (E01 : s0 = t0 /\ s1 = t1). { pose proof (proj1 (On s0) (proj2 (Hs s0) (or_introl eq_refl))). pose proof (proj1 (On s1) (proj2 (Hs s1) (or_intror eq_refl))). lra. }
  destruct E01 as [-> ->]. clear Hs L01.
  assert (Ord : 1e-12 < t0 -> h6_flag h = true /\ (round s -> h6_p1 h = Some (fv (at_t p d t1)) /\ h6_n1 h = Some (fv (inward s (at_t p d t1)))) /\ (~ round s -> h6_p1 h = Some (fv (at_t p d t0)) /\ h6_n1 h = Some (fv (inward s (at_t p d t0))))).
  { intros L0. destruct Res as [[_ Tw]|[[N _]|[N _]]]; [|lra|lra]. clear Tw.
    inversion HT as [c rad Ro Do sp HRa Em|c u rad Ro Do sp Hu Hp HRa Em|]; subst.
    - destruct (mk_sphere_inv _ _ _ _ _ HRa Em) as [D ->]. cbn [test_tree_intersect bind key_test_intersect shape_test_intersect mk_tree] in E. injection E as <-. cbn [radius] in HR. assert (Ra : Rabs rad = rad) by (apply Rabs_right; lra).
      destruct (sphere_cases c rad D p d r Ud Hr) as [a0 a1 La Ona _ _ Resa|a Ona|Ona]; rewrite ?Ra in *.
      + assert (E01 : a0 = t0 /\ a1 = t1). { pose proof (proj1 (On a0) (proj2 (Ona a0) (or_introl eq_refl))). pose proof (proj1 (On a1) (proj2 (Ona a1) (or_intror eq_refl))). lra. }
        destruct E01 as [-> ->]. rewrite Resa. cbv zeta. rewrite (Rltb_true_intro 1e-12 t0) by exact L0. cbn [h6_flag h6_p1 h6_n1]. split; [reflexivity|]. split; [intros _|intros N; now elim N]. split; [reflexivity|].
        destruct (sphere_normal_on c rad D (at_t p d t1)) as [-> _]; [lra|rewrite Ra; apply On; auto|]. now rewrite Ra.
      + exfalso. pose proof (proj1 (Ona t0) (proj2 (On t0) (or_introl eq_refl))). pose proof (proj1 (Ona t1) (proj2 (On t1) (or_intror eq_refl))). lra.
      + exfalso. exact (Ona t0 (proj2 (On t0) (or_introl eq_refl))).
    - destruct (mk_infcyl_inv _ _ _ _ _ _ Hu HRa Em) as (D & pl & ->). cbn [test_tree_intersect bind key_test_intersect shape_test_intersect mk_tree] in E.
      destruct Rg as (_ & NP & NT). destruct (infcyl_cases c (dirn u) rad D pl p d r Hp (dirn_unit u Hu) Ud Hr) as (h' & Eh & Ch). rewrite Eh in E. cbn [bind] in E. injection E as ->.
      destruct Ch as [a0 a1 La Ona _ _ _ Resa|a Ona|Pa|Ona]; [| |contradiction|].
      + assert (E01 : a0 = t0 /\ a1 = t1). { pose proof (proj1 (On a0) (proj2 (Ona a0) (or_introl eq_refl))). pose proof (proj1 (On a1) (proj2 (Ona a1) (or_intror eq_refl))). lra. }
        destruct E01 as [-> ->]. rewrite Resa. cbv zeta. rewrite (Rltb_true_intro 1e-12 t0) by exact L0. cbn [h6_flag h6_p1 h6_n1]. split; [reflexivity|]. split; [intros []|intros _]. split; [reflexivity|].
        destruct (infcyl_normal_on c (dirn u) rad D pl (at_t p d t0)) as [-> _]; [exact Hp|apply dirn_unit; exact Hu|apply On; auto|reflexivity].
      + exfalso. pose proof (proj1 (Ona t0) (proj2 (On t0) (or_introl eq_refl))). pose proof (proj1 (Ona t1) (proj2 (On t1) (or_intror eq_refl))). lra.
      + exfalso. exact (Ona t0 (proj2 (On t0) (or_introl eq_refl))). }
  split; [|split].
  - intros L1 [L0|Rd].
    + destruct Res as [[N _]|[(_ & _ & O1)|[N _]]]; [lra| |lra]. unfold one in O1. subst h. eexists. reflexivity.
    + destruct (Rlt_le_dec 1e-12 t0) as [L0|L0].
      * destruct (Ord L0) as (-> & H & _). destruct (H Rd) as [-> ->]. eexists. reflexivity.
      * destruct Res as [[N _]|[(_ & _ & O1)|[N _]]]; [lra| |lra]. unfold one in O1. subst h. eexists. reflexivity.
  - intros L0 Nr. destruct (Ord L0) as (-> & _ & H). destruct (H Nr) as [-> ->]. eexists. reflexivity.
  - intros L1. destruct Res as [[N _]|[(_ & N & _)|[_ O1]]]; [lra|lra|]. unfold none in O1. subst h. do 3 eexists. reflexivity.
Qed.

(** -- walls that reflect light from the inside -- *)
Lemma crosses_unique s q d x y : crosses s q d 0 x -> crosses s q d 0 y -> x = y.
Proof. intros [Lx Hx] [Ly Hy]. destruct (proj1 (Hx y) (proj2 (Hy y) (or_intror eq_refl))); lra. Qed.
Lemma across_inward s x : proper s -> across s (inward s x) = inward s x.
Proof.
  intros [_ P]. destruct s; [reflexivity|]. cbn [across inward]. generalize dependent (dirn u). intros w Pw. unfold is_unit in Pw.
  assert (K : forall v k, perp w (k * perp w v)%r3 = (k * perp w v)%r3).
  { intros v k. apply perp_fix. unfold perp. autorewrite with dotr. rewrite Pw. ring. }
  apply K.
Qed.
Lemma refl_across s q d : proper s -> surface s q -> let d' := refl (inward s q) d in across s d' ∙ across s d' = across s d ∙ across s d.
Proof.
  intros P On d'. pose proof (inward_unit s q P On) as Un. unfold is_unit in Un. pose proof (across_inward s q P) as An. unfold d', refl. set (n := inward s q) in *. clearbody n.
  replace (d - 2 * (d ∙ n) * n)%r3 with (d + (- 2 * (d ∙ n)) * n)%r3 by (clear; r3_ring). rewrite across_lin, An.
  assert (Dn : across s d ∙ n = d ∙ n) by (rewrite (across_sym s d n P), An; reflexivity). autorewrite with dotr. rewrite (dot_comm n (across s d)), Dn, Un. ring.
Qed.
Lemma next_chord s q d x : proper s -> is_unit d -> surface s q -> crosses s q d 0 x -> let q' := at_t q d x in let d' := refl (inward s q') d in
  is_unit d' /\ surface s q' /\ crosses s q' d' 0 x /\ d' ∙ inward s q' = d ∙ inward s q /\ 0 < d ∙ inward s q /\ d ∙ inward s q' = - (d ∙ inward s q).
Proof.
  intros P Ud On Cr q' d'. assert (On' : surface s q') by (apply (proj2 Cr); auto). pose proof (inward_unit s q' P On') as Un.
  destruct (crosses_sides s q d 0 x P Ud Cr) as [S0 S1]. rewrite at_t_0 in S0, S1. fold q' in S1.
  assert (Ud' : is_unit d') by (apply refl_unit; assumption). assert (Dn : d' ∙ inward s q' = d ∙ inward s q) by (unfold d'; rewrite refl_normal by exact Un; lra).
  split; [exact Ud'|]. split; [exact On'|]. split; [|split; [exact Dn|split; [exact S0|exact S1]]].
  destruct (chord_from s q d P Ud On S0) as (_ & _ & C1). destruct (chord_from s q' d' P Ud' On' ltac:(lra)) as (_ & _ & C2).
  rewrite (crosses_unique s q d _ _ Cr C1). rewrite Dn in C2. unfold d' in C2 at 2 3. rewrite (refl_across s q' d P On') in C2. exact C2.
Qed.

(** the zigzag of chords of length x that starts at q along d: the next k corners, and the corner and direction reached *)
Fixpoint corners (s : solid) (x : R) (q d : R3) (k : nat) : list R3 :=
  match k with O => [] | S k' => let q' := at_t q d x in q' :: corners s x q' (refl (inward s q') d) k' end.
Fixpoint corner (s : solid) (x : R) (q d : R3) (k : nat) : R3 * R3 :=
  match k with O => (q, d) | S k' => let q' := at_t q d x in corner s x q' (refl (inward s q') d) k' end.
(** the outcome of a run: the stops and the end *)
Definition ends (o : optic xr) (r : ray xr) (L : R) (stops : list R3) (e : R3) : Prop := exists r', (forall fuel, L / 1e-12 + 1 < INR fuel -> run fuel r (Fin L) [o] None = Ok (r', [o])) /\
  position r' = fv e /\ point_history r' = point_history r ++ map fv stops ++ [fv e].

Lemma leg (o : optic xr) (r : ray xr) p d a L n e d1 : is_unit d -> ray_is r p d -> ray_type r <> "faerie_fire"%string -> blocked r = false -> skipped o = false ->
  optic_test_intersect o r = Ok (H4 true (Some (fv (at_t p d a))) (Some n) e) -> 1e-12 < a ->
  (forall r1, ray_is r1 (at_t p d a) d -> optic_do_intersect o r1 (fv (at_t p d a)) (Some n) e = Ok (set_direction r1 (fv d1), o)) ->
  (0 < L <= a -> ends o r L [] (at_t p d L)) /\
  (a <= L -> exists r1, ray_is r1 (at_t p d a) d1 /\ ray_type r1 = ray_type r /\ blocked r1 = false /\ point_history r1 = point_history r ++ [fv (at_t p d a)] /\
     forall fuel, L / 1e-12 + 1 < INR fuel -> run fuel r (Fin L) [o] None = run fuel r1 (Fin (L - a)) [o] None).
Proof.
  intros Ud Hr Ty Hb Sk E Ha Do.
  assert (Step : a <= L -> exists r1, ray_is r1 (at_t p d a) d1 /\ ray_type r1 = ray_type r /\ blocked r1 = false /\ point_history r1 = point_history r ++ [fv (at_t p d a)] /\
     forall fuel, L / 1e-12 + 1 < INR fuel -> run fuel r (Fin L) [o] None = run fuel r1 (Fin (L - a)) [o] None).
  { intros La. pose proof (fly_ray r p d a Hr) as Hf. exists (set_direction (fly r (Fin a)) (fv d1)). split; [split; [exact (proj1 Hf)|reflexivity]|]. split; [reflexivity|]. split; [exact Hb|]. split; [apply fly_history; exact Hr|].
    intros fuel Lf. apply (single_step o r L a (fv (at_t p d a)) (Some n) e p d); try assumption; [destruct Hr as [-> _]; rewrite distance_fv, dist_back by exact Ud; f_equal; apply Rabs_right; lra|lra|apply Do; exact Hf|].
    unfold Rdiv in *. nra. }
  split; [|exact Step]. intros [HL La]. destruct La as [La|La].
  - destruct (single_free o r L p d Ud Hr) as (r' & Run & Hr' & Hh); try assumption; [right; eexists; split; [exact E|discriminate]| |].
    + intros x pt n' (_ & s' & E' & Dx & Lx). rewrite E in E'. injection E' as <- _ _. destruct Hr as [Hp _]. rewrite Hp, distance_fv, dist_back in Dx by exact Ud. injection Dx as <-. rewrite Rabs_right in Lx; lra.
    + exists r'. split; [exact Run|]. split; [exact (proj1 Hr')|exact Hh].
  - subst L. destruct (Step ltac:(lra)) as (r1 & Hr1 & _ & _ & Hh & Run). exists r1. split; [|split; [exact (proj1 Hr1)|exact Hh]].
    intros fuel Lf. rewrite (Run fuel Lf). symmetry. eapply flows_det; [|apply run_flows, run_terminates; left]; [|unfold Rminus; rewrite Rplus_opp_r; unfold Rdiv in *; nra]. apply F_stop. left. lra.
Qed.
Lemma ends_more (o : optic xr) (r r1 : ray xr) q a L l e : 0 < a -> (forall fuel, L / 1e-12 + 1 < INR fuel -> run fuel r (Fin L) [o] None = run fuel r1 (Fin (L - a)) [o] None) ->
  point_history r1 = point_history r ++ [fv q] -> ends o r1 (L - a) l e -> ends o r L (q :: l) e.
Proof.
  intros Ha Run Hh (r' & R & P & H). exists r'. split; [intros fuel Lf; rewrite (Run fuel Lf); apply R; unfold Rdiv in *; nra|]. split; [exact P|]. rewrite H, Hh, <- app_assoc. reflexivity.
Qed.

Section Walls.
Variables (s : solid) (tr : tree (key xr)) (b : string) (ix : xr) (m : R).
Let o := OCompound (mkCompound tr b ix).
Hypothesis (HT : tree_of (Leaf s) tr) (HR : 0 < radius s).
(** at a point where light arrives from the inside under the cosine m it is reflected *)
Hypothesis Shiny : forall (r : ray xr) q d e, is_unit d -> ray_is r q d -> surface s q -> d ∙ inward s q = - m -> optic_do_intersect o r (fv q) (Some (fv (inward s q))) e = Ok (set_direction r (fv (refl (inward s q) d)), o).

Lemma zigzag k : forall (r : ray xr) q d x L, is_unit d -> ray_is r q d -> ray_type r <> "faerie_fire"%string -> blocked r = false -> surface s q -> d ∙ inward s q = m -> crosses s q d 0 x -> 1e-12 < x ->
  INR k * x < L <= (INR k + 1) * x -> ends o r L (corners s x q d k) (let (q', d') := corner s x q d k in at_t q' d' (L - INR k * x)).
Proof.
  pose proof (tree_proper s tr HT HR) as Pr.
  induction k as [|k IH]; intros r q d x L Ud Hr Ty Hb On Dm Cr Lx Lk; destruct (next_chord s q d x Pr Ud On Cr) as (Ud' & On' & Cr' & Dn' & _ & Dx);
    destruct (one_query s tr b ix q d 0 x r HT HR Ud Hr Cr) as [(e & E) _]; try lra;
    destruct (leg o r q d x L _ _ (refl (inward s (at_t q d x)) d) Ud Hr Ty Hb eq_refl E Lx) as [Free Step]; try (intros r1 Hr1; apply Shiny; [exact Ud|exact Hr1|exact On'|lra]).
  - cbn [corners corner INR] in Lk |- *. replace (L - 0 * x) with L by ring. apply Free. lra.
  - rewrite S_INR in Lk |- *. assert (K0 : 0 <= INR k) by apply pos_INR. destruct (Step ltac:(nra)) as (r1 & Hr1 & Ty1 & Hb1 & Hh & Run). cbn [corners corner]. cbv zeta.
    apply (ends_more o r r1 _ x L); try assumption; [lra|]. replace (L - (INR k + 1) * x) with ((L - x) - INR k * x) by ring.
    apply IH; try assumption; [congruence|lra|lra].
Qed.
Lemma corners_on k : forall q d x, is_unit d -> surface s q -> crosses s q d 0 x -> Forall (surface s) (corners s x q d k) /\
  (let (q', d') := corner s x q d k in is_unit d' /\ surface s q' /\ crosses s q' d' 0 x).
Proof.
  pose proof (tree_proper s tr HT HR) as Pr. induction k as [|k IH]; intros q d x Ud On Cr; cbn [corners corner]; [auto|]. destruct (next_chord s q d x Pr Ud On Cr) as (Ud' & On' & Cr' & _). cbv zeta.
  destruct (IH _ _ x Ud' On' Cr') as [F C]. split; [apply Forall_cons; assumption|exact C].
Qed.
Lemma corner_in k q d x t : is_unit d -> surface s q -> crosses s q d 0 x -> 0 < t <= x -> let (q', d') := corner s x q d k in member s (at_t q' d' t) \/ surface s (at_t q' d' t).
Proof.
  intros Ud On Cr Lt. pose proof (tree_proper s tr HT HR) as Pr. destruct (corners_on k q d x Ud On Cr) as [_ C]. destruct (corner s x q d k) as [q' d']. destruct C as (Ud' & On' & Cr').
  destruct (Req_dec t x) as [->|N]; [right; apply (proj2 Cr'); auto|left]. apply (crosses_member s q' d' 0 x Pr Ud' Cr'). lra.
Qed.
(** from the start *)
Lemma captured (r : ray xr) p d t0 t1 L : is_unit d -> ray_is r p d -> ray_type r <> "faerie_fire"%string -> blocked r = false -> crosses s p d t0 t1 -> d ∙ inward s (at_t p d t1) = - m ->
  1e-12 < t1 -> t0 <= 1e-12 \/ round s -> 1e-12 < t1 - t0 ->
  let x := t1 - t0 in let q := at_t p d t1 in let d1 := refl (inward s q) d in
  (0 < L <= t1 -> ends o r L [] (at_t p d L)) /\
  (forall k, t1 + INR k * x < L <= t1 + (INR k + 1) * x -> let e := let (q', d') := corner s x q d1 k in at_t q' d' (L - t1 - INR k * x) in
     ends o r L (q :: corners s x q d1 k) e /\ Forall (surface s) (q :: corners s x q d1 k) /\ (member s e \/ surface s e)).
Proof.
  intros Ud Hr Ty Hb Cr Dm L1 L0 Lx x q d1. pose proof (tree_proper s tr HT HR) as Pr. destruct (one_query s tr b ix p d t0 t1 r HT HR Ud Hr Cr) as [A _]. destruct (A L1 L0) as (e0 & E). clear A.
  assert (On0 : surface s (at_t p d t0)) by (apply (proj2 Cr); auto). assert (On : surface s q) by (apply (proj2 Cr); auto).
  assert (Cr0 : crosses s (at_t p d t0) d 0 x). { destruct Cr as [Lt C]. split; [unfold x; lra|]. intros t. rewrite at_on, C. unfold x. split; intros [H|H]; ((left; lra) || (right; lra)). }
  destruct (next_chord s (at_t p d t0) d x Pr Ud On0 Cr0) as (Ud1 & _ & Cr1 & Dn1 & _ & Dx). rewrite at_on in Ud1, Cr1, Dn1, Dx. replace (t0 + x) with t1 in Ud1, Cr1, Dn1, Dx by (unfold x; ring). fold q in Ud1, Cr1, Dn1, Dx. fold d1 in Ud1, Cr1, Dn1. fold q in Dm.
  destruct (leg o r p d t1 L _ _ d1 Ud Hr Ty Hb eq_refl E L1) as [Free Step]; [intros r1 Hr1; apply Shiny; assumption|].
  split; [exact Free|]. intros k Lk. assert (K0 : 0 <= INR k) by apply pos_INR. assert (Px : 1e-12 < x) by exact Lx. destruct (Step ltac:(nra)) as (r1 & Hr1 & Ty1 & Hb1 & Hh & Run).
  cbv zeta. split; [|split].
  - apply (ends_more o r r1 q t1 L); try assumption; [lra|]. apply zigzag; try assumption; [congruence|lra|lra].
  - apply Forall_cons; [exact On|]. apply (corners_on k q d1 x); assumption.
  - pose proof (corner_in k q d1 x (L - t1 - INR k * x) Ud1 On Cr1 ltac:(lra)) as C. destruct (corner s x q d1 k). exact C.
Qed.
End Walls.

(** what the compound does at its wall *)
Lemma shiny_do s tr ix (r : ray xr) q d e : proper s -> is_unit d -> ray_is r q d -> surface s q -> optic_do_intersect (OCompound (mkCompound tr "reflect" ix)) r (fv q) (Some (fv (inward s q))) e = Ok (set_direction r (fv (refl (inward s q) d)), OCompound (mkCompound tr "reflect" ix)).
Proof.
  intros Pr Ud Hr On. pose proof (inward_unit s q Pr On) as Un. cbn [optic_do_intersect]. unfold compound_do_intersect. cbn [co_surface_behavior]. change (String.eqb "reflect" "reflect") with true. cbn iota. cbn [need bind].
  rewrite (reflect_fv r d) by (try exact (proj2 Hr); apply unit_nonzero; assumption). now rewrite (dirn_of_unit d Ud), (dirn_of_unit _ Un).
Qed.
Lemma glass_do s tr ix (r : ray xr) q d e : tree_of (Leaf s) tr -> proper s -> 0 < ix -> is_unit d -> ray_is r q d -> surface s q -> let k := OCompound (mkCompound tr "refract" (Fin ix)) in
  (member s (at_t q d 1e-8) -> exists o, optic_do_intersect k r (fv q) (Some (fv (inward s q))) e = Ok (set_direction r (fv o), k) /\ bends 1 ix (inward s q) d o) /\
  (~ member s (at_t q d 1e-8) -> exists o, optic_do_intersect k r (fv q) (Some (fv (inward s q))) e = Ok (set_direction r (fv o), k) /\ bends ix 1 (inward s q) d o).
Proof.
  intros HT Pr Hi Ud Hr On k. pose proof (inward_unit s q Pr On) as Un. unfold k. cbn [optic_do_intersect]. unfold compound_do_intersect. cbn [co_surface_behavior].
  change (String.eqb "refract" "reflect") with false. change (String.eqb "refract" "refract") with true. cbn iota. destruct Hr as [_ Hd].
  rewrite Hd, dec_fin by discriminate. change (IZR 1 / IZR (10 ^ 8)) with 1e-8. rewrite vscale_fv, vadd_fv. unfold compound_index_if_inside. cbn [co_tree].
  destruct (tree_point_den _ _ (q + 1e-8 * d)%r3 HT) as (bb & Eb & Ib). rewrite Eb. cbn [bind den co_index] in *. change (q + 1e-8 * d)%r3 with (at_t q d 1e-8) in Ib. unfold INDEX_OF_THE_WORLD. rewrite nofZ_fin. split; intros M.
  - rewrite (proj2 Ib M). cbn [bind need]. destruct (refract_bends r d (inward s q) 1 ix Hd Ud Un ltac:(lra) Hi) as (o & -> & B). exists o. split; [reflexivity|exact B].
  - destruct bb; [elim M; apply Ib; reflexivity|]. cbn [bind need]. destruct (refract_bends r d (inward s q) ix 1 Hd Ud Un Hi ltac:(lra)) as (o & -> & B). exists o. split; [reflexivity|exact B].
Qed.
Lemma heading_out s q d : proper s -> is_unit d -> surface s q -> d ∙ inward s q <= 0 -> forall t, 0 < t -> ~ member s (at_t q d t) /\ (d ∙ inward s q < 0 -> ~ surface s (at_t q d t)).
Proof.
  intros Pr Ud On H t Ht. pose proof (proj1 (surface_sq s q Pr) On) as Q. assert (Hr : 0 < radius s) by exact (proj1 Pr).
  assert (A0 : 0 <= across s d ∙ across s d) by (rewrite <- len_sq; apply Rle_0_sqr).
  assert (B : d ∙ across s (q - centre s) = - (radius s * (d ∙ inward s q))) by (rewrite inward_dot by exact Pr; field; lra).
  rewrite member_sq, surface_sq, along_sq, Q, B by exact Pr. assert (0 <= t * t * (across s d ∙ across s d)) by (apply Rmult_le_pos; nra). split; [|intros H1]; intros K.
  - assert (0 <= radius s * - (d ∙ inward s q)) by nra. nra.
  - assert (0 < radius s * - (d ∙ inward s q)) by nra. nra.
Qed.
Lemma same_sine n n' d d' : is_unit n -> is_unit n' -> is_unit d -> is_unit d' -> (d ∙ n) * (d ∙ n) = (d' ∙ n') * (d' ∙ n') -> sine n d = sine n' d'.
Proof.
  intros Un Un' Ud Ud' E. pose proof (sine_sq n d Un Ud) as S1. pose proof (sine_sq n' d' Un' Ud') as S2. assert (0 <= sine n d) by apply len_nonneg. assert (0 <= sine n' d') by apply len_nonneg. rewrite E in S1. nra.
Qed.

(** the wall throws back light that reaches q from the inside along d *)
Definition throws_back (b : string) (ix : xr) (s : solid) (q d : R3) : Prop := b = "reflect"%string \/ b = "refract"%string /\ exists i, ix = Fin i /\ total_reflection i 1 (inward s q) d.

(** Light that a compound of one solid throws back at the point where it leaves the solid never gets out: it zigzags along chords of one length x. This holds for light that starts inside, and for a ball
    also for light from outside, which passes the near side of the ball unchanged. *)
Theorem C102_trapped : forall s tr b ix p d t0 t1 (r : ray xr), tree_of (Leaf s) tr -> 0 < radius s -> is_unit d -> ray_is r p d -> ray_type r <> "faerie_fire"%string -> blocked r = false ->
  crosses s p d t0 t1 -> 1e-12 < t1 -> t0 <= 1e-12 \/ round s -> 1e-12 < t1 - t0 -> throws_back b ix s (at_t p d t1) d ->
  let o := OCompound (mkCompound tr b ix) in let x := t1 - t0 in let q := at_t p d t1 in let d1 := refl (inward s q) d in
  (forall L, 0 < L <= t1 -> ends o r L [] (at_t p d L)) /\
  (forall L, t1 < L -> exists k, t1 + INR k * x < L <= t1 + (INR k + 1) * x) /\
  (forall L k, t1 + INR k * x < L <= t1 + (INR k + 1) * x -> let e := let (q', d') := corner s x q d1 k in at_t q' d' (L - t1 - INR k * x) in
     ends o r L (q :: corners s x q d1 k) e /\ Forall (surface s) (q :: corners s x q d1 k) /\ (member s e \/ surface s e)).
Proof.
  intros s tr b ix p d t0 t1 r HT HR Ud Hr Ty Hb Cr L1 L0 Lx Tb o x q d1. pose proof (tree_proper s tr HT HR) as Pr. destruct (crosses_sides s p d t0 t1 Pr Ud Cr) as [S0 S1].
  assert (On : surface s (at_t p d t1)) by (apply (proj2 Cr); auto).
  assert (Sh : forall (r : ray xr) q' d' e, is_unit d' -> ray_is r q' d' -> surface s q' -> d' ∙ inward s q' = - (d ∙ inward s (at_t p d t0)) -> optic_do_intersect o r (fv q') (Some (fv (inward s q'))) e = Ok (set_direction r (fv (refl (inward s q') d')), o)).
  { intros r1 q' d' e Ud' Hr1 On' Dm. destruct Tb as [->|(-> & i & -> & T)]; [apply shiny_do; assumption|]. fold q in T.
    assert (Ti : total_reflection i 1 (inward s q') d').
    { destruct T as [T1 T2]. split; [exact T1|]. rewrite <- (same_sine (inward s q) (inward s q') d d'); try assumption; [apply inward_unit; assumption|apply inward_unit; assumption|]. unfold q. rewrite S1, Dm. ring. }
    destruct (glass_do s tr i r1 q' d' e HT Pr ltac:(destruct Ti; lra) Ud' Hr1 On') as [_ G]. destruct G as (o1 & E & B).
    - apply heading_out; try assumption; lra.
    - rewrite (proj1 B Ti) in E. exact E. }
  split; [|split].
  - intros L HL. refine (proj1 (captured s tr b ix (d ∙ inward s (at_t p d t0)) HT HR Sh r p d t0 t1 L Ud Hr Ty Hb Cr S1 L1 L0 Lx) HL).
  - intros L HL. assert (Px : 0 < x) by (unfold x; lra). destruct (archimed ((L - t1) / x)) as [A1 A2]. set (z := up ((L - t1) / x)) in *. assert (Z0 : 0 < (L - t1) / x) by (apply Rdiv_lt_0_compat; lra).
    assert (Ez : (L - t1) / x * x = L - t1) by (field; lra). assert (Zp : (0 < z)%Z) by (apply lt_IZR; lra).
    set (w := (L - t1) / x) in *. assert (EL : L = t1 + w * x) by lra. clearbody w z. rewrite EL. destruct (Req_dec (IZR z - w) 1) as [E1|N1].
    + assert (Z2 : (1 < z)%Z) by (apply lt_IZR; lra). exists (Z.to_nat (z - 2)). rewrite INR_IZR_INZ, Z2Nat.id, minus_IZR by lia. assert (Eq : w = IZR z - 1) by lra. rewrite Eq. split; nra.
    + exists (Z.to_nat (z - 1)). rewrite INR_IZR_INZ, Z2Nat.id, minus_IZR by lia. assert (A3 : IZR z - 1 < w) by lra. split; nra.
  - intros L k Lk. exact (proj2 (captured s tr b ix (d ∙ inward s (at_t p d t0)) HT HR Sh r p d t0 t1 L Ud Hr Ty Hb Cr S1 L1 L0 Lx) k Lk).
Qed.
Print Assumptions C102_trapped.

(** the outcome of a run with the direction at the end *)
Definition departs (o : optic xr) (r : ray xr) (L : R) (stops : list R3) (e d : R3) : Prop := exists r', (forall fuel, L / 1e-12 + 1 < INR fuel -> run fuel r (Fin L) [o] None = Ok (r', [o])) /\
  ray_is r' e d /\ point_history r' = point_history r ++ map fv stops ++ [fv e].
Lemma departs_more (o : optic xr) (r r1 : ray xr) q a L l e d : 0 < a -> (forall fuel, L / 1e-12 + 1 < INR fuel -> run fuel r (Fin L) [o] None = run fuel r1 (Fin (L - a)) [o] None) ->
  point_history r1 = point_history r ++ [fv q] -> departs o r1 (L - a) l e d -> departs o r L (q :: l) e d.
Proof.
  intros Ha Run Hh (r' & R & P & H). exists r'. split; [intros fuel Lf; rewrite (Run fuel Lf); apply R; unfold Rdiv in *; nra|]. split; [exact P|]. rewrite H, Hh, <- app_assoc. reflexivity.
Qed.
Lemma gone s tr b ix q d (r : ray xr) L : tree_of (Leaf s) tr -> 0 < radius s -> is_unit d -> ray_is r q d -> blocked r = false -> surface s q -> d ∙ inward s q < 0 -> 0 < L ->
  departs (OCompound (mkCompound tr b ix)) r L [] (at_t q d L) d.
Proof.
  intros HT HR Ud Hr Hb On Dn HL. pose proof (tree_proper s tr HT HR) as Pr.
  destruct (chord_from s q (- d)%r3 Pr (unit_opp d Ud) On ltac:(rewrite dot_opp_l; lra)) as (_ & Px & [_ C]). set (x := 2 * radius s * ((- d)%r3 ∙ inward s q) / (across s (- d) ∙ across s (- d))) in *. clearbody x.
  assert (Cr : crosses s q d (- x) 0). { split; [lra|]. intros t. specialize (C (- t)). replace (at_t q (- d)%r3 (- t)) with (at_t q d t) in C by (unfold at_t; clear; r3_ring). rewrite C. split; intros [H|H]; ((left; lra) || (right; lra)). }
  destruct (one_query s tr b ix q d (- x) 0 r HT HR Ud Hr Cr) as (_ & _ & N). destruct (N ltac:(lra)) as (pt & n & e & E).
  destruct (single_free (OCompound (mkCompound tr b ix)) r L q d Ud Hr) as (r' & Run & Hr' & Hh); try assumption.
  - right. eexists. split; [exact E|discriminate].
  - intros y pt' n' (_ & s' & E' & _). cbn [optic_test_intersect] in E'. rewrite E in E'. discriminate E'.
  - exists r'. split; [exact Run|]. split; [exact Hr'|exact Hh].
Qed.

Lemma scale_1 v : (1 * v)%r3 = v. Proof. r3_ring. Qed.
Lemma sign_of a b : a < 0 -> 0 <= a * b -> b <= 0. Proof. intros. nra. Qed.
(** Light that a glass compound of one solid lets out bends only there: from inside, and for a ball also from outside, where the near side of the ball does not act. *)
Theorem C102_exit : forall s tr ix p d t0 t1 (r : ray xr), tree_of (Leaf s) tr -> 0 < radius s -> 0 < ix -> is_unit d -> ray_is r p d -> ray_type r <> "faerie_fire"%string -> blocked r = false ->
  crosses s p d t0 t1 -> 1e-12 < t1 -> t0 <= 1e-12 \/ round s -> let q := at_t p d t1 in ix * sine (inward s q) d < 1 ->
  let o := OCompound (mkCompound tr "refract" (Fin ix)) in exists d', is_unit d' /\ (ix * perp (inward s q) d)%r3 = perp (inward s q) d' /\ d' ∙ inward s q < 0 /\
  (forall L, 0 < L <= t1 -> ends o r L [] (at_t p d L)) /\
  (forall L, t1 < L -> departs o r L [q] (at_t q d' (L - t1)) d').
Proof.
  intros s tr ix p d t0 t1 r HT HR Hi Ud Hr Ty Hb Cr L1 L0 q Sn o. pose proof (tree_proper s tr HT HR) as Pr. destruct (crosses_sides s p d t0 t1 Pr Ud Cr) as [S0 S1]. fold q in S1.
  assert (On : surface s q) by (apply (proj2 Cr); auto). pose proof (inward_unit s q Pr On) as Un.
  assert (NT : ~ total_reflection ix 1 (inward s q) d) by (intros [_ T]; lra).
  assert (Nm : ~ member s (at_t q d 1e-8)) by (apply heading_out; try assumption; lra).
  assert (B0 : exists d', bends ix 1 (inward s q) d d' /\ forall (r1 : ray xr) e, ray_is r1 q d -> optic_do_intersect o r1 (fv q) (Some (fv (inward s q))) e = Ok (set_direction r1 (fv d'), o)).
  { destruct (glass_do s tr ix (fly r (Fin t1)) q d SfoNone HT Pr Hi Ud (fly_ray r p d t1 Hr) On) as [_ G]. destruct (G Nm) as (d' & _ & B). exists d'. split; [exact B|]. intros r1 e Hr1.
    destruct (glass_do s tr ix r1 q d e HT Pr Hi Ud Hr1 On) as [_ G1]. destruct (G1 Nm) as (d2 & E2 & B2). fold o in E2. rewrite E2. repeat f_equal.
    destruct (proj2 B NT) as (U & P & Sg). destruct (proj2 B2 NT) as (U2 & P2 & Sg2). apply (unit_determined (inward s q)); try assumption.
    - rewrite scale_1 in P, P2. transitivity (ix * perp (inward s q) d)%r3; [symmetry|]; assumption.
    - pose proof (sign_of (d ∙ inward s q) _ ltac:(lra) Sg). pose proof (sign_of (d ∙ inward s q) _ ltac:(lra) Sg2). nra. }
  destruct B0 as (d' & B & Do). destruct (proj2 B NT) as (U & P & Sg). rewrite scale_1 in P. exists d'. split; [exact U|]. split; [exact P|].
  assert (Neg : d' ∙ inward s q < 0).
  { assert (Z : d' ∙ inward s q <> 0). { intros Z. pose proof (sine_sq (inward s q) d' Un U) as Q. rewrite Z in Q. assert (Es : sine (inward s q) d' = ix * sine (inward s q) d) by (unfold sine; rewrite <- P, len_scale, Rabs_right by lra; reflexivity). rewrite Es in Q. assert (W : 0 <= sine (inward s q) d) by apply len_nonneg. assert (W2 : 0 <= ix * sine (inward s q) d) by (apply Rmult_le_pos; lra). set (w := ix * sine (inward s q) d) in *. clearbody w. nra. }
    pose proof (sign_of (d ∙ inward s q) _ ltac:(lra) Sg). lra. }
  split; [exact Neg|]. destruct (one_query s tr "refract" (Fin ix) p d t0 t1 r HT HR Ud Hr Cr) as [A _]. destruct (A L1 L0) as (e0 & E). clear A. fold q in E.
  assert (Lg : forall L, (0 < L <= t1 -> ends o r L [] (at_t p d L)) /\ (t1 <= L -> exists r1, ray_is r1 q d' /\ ray_type r1 = ray_type r /\ blocked r1 = false /\ point_history r1 = point_history r ++ [fv q] /\
     forall fuel, L / 1e-12 + 1 < INR fuel -> run fuel r (Fin L) [o] None = run fuel r1 (Fin (L - t1)) [o] None)) by (intros L; apply (leg o r p d t1 L _ _ d' Ud Hr Ty Hb eq_refl E L1); intros r1 Hr1; apply Do; exact Hr1).
  split; [intros L HL; now apply Lg|]. intros L HL. destruct (proj2 (Lg L) ltac:(lra)) as (r1 & Hr1 & Ty1 & Hb1 & Hh & Run).
  apply (departs_more o r r1 q t1 L); try assumption; [lra|]. apply (gone s tr); try assumption. lra.
Qed.
Print Assumptions C102_exit.

(** A reflecting cylinder in script_testCylinder.py: light from outside is reflected once, at the near side, keeps its speed along the axis and stays outside. *)
Theorem C102_cylinder : forall c u rad tr ix p d t0 t1 (r : ray xr), let s := Cyl c u rad in tree_of (Leaf s) tr -> 0 < rad -> is_unit d -> ray_is r p d -> ray_type r <> "faerie_fire"%string -> blocked r = false ->
  crosses s p d t0 t1 -> 1e-12 < t0 -> let q := at_t p d t0 in let d' := refl (inward s q) d in
  let o := OCompound (mkCompound tr "reflect" ix) in is_unit d' /\ d' ∙ dirn u = d ∙ dirn u /\ d' ∙ inward s q = - (d ∙ inward s q) /\ (forall t, 0 < t -> ~ member s (at_t q d' t) /\ ~ surface s (at_t q d' t)) /\
  (forall L, 0 < L <= t0 -> ends o r L [] (at_t p d L)) /\
  (forall L, t0 < L -> departs o r L [q] (at_t q d' (L - t0)) d').
Proof.
  intros c u rad tr ix p d t0 t1 r s HT HR Ud Hr Ty Hb Cr L0 q d' o. pose proof (tree_proper s tr HT HR) as Pr. destruct (crosses_sides s p d t0 t1 Pr Ud Cr) as [S0 _]. fold q in S0.
  assert (On : surface s q) by (apply (proj2 Cr); auto). pose proof (inward_unit s q Pr On) as Un. assert (Ud' : is_unit d') by (apply refl_unit; assumption).
  assert (Dn : d' ∙ inward s q = - (d ∙ inward s q)) by (apply refl_normal; exact Un).
  split; [exact Ud'|]. split.
  { unfold d', refl. autorewrite with dotr. assert (Z : inward s q ∙ dirn u = 0) by (cbn [inward s]; rewrite dot_scale_l, perp_orth by exact (proj2 Pr); ring). rewrite Z. ring. }
  split; [exact Dn|]. split; [intros t Ht; destruct (heading_out s q d' Pr Ud' On ltac:(lra) t Ht) as [A B]; split; [exact A|apply B; lra]|].
  destruct (one_query s tr "reflect" ix p d t0 t1 r HT HR Ud Hr Cr) as (_ & A & _). destruct (A L0 ltac:(intros [])) as (e0 & E). clear A. fold q in E.
  assert (Lg : forall L, (0 < L <= t0 -> ends o r L [] (at_t p d L)) /\ (t0 <= L -> exists r1, ray_is r1 q d' /\ ray_type r1 = ray_type r /\ blocked r1 = false /\ point_history r1 = point_history r ++ [fv q] /\
     forall fuel, L / 1e-12 + 1 < INR fuel -> run fuel r (Fin L) [o] None = run fuel r1 (Fin (L - t0)) [o] None)) by (intros L; apply (leg o r p d t0 L _ _ d' Ud Hr Ty Hb eq_refl E L0); intros r1 Hr1; apply shiny_do; assumption).
  split; [intros L HL; now apply Lg|]. intros L HL. destruct (proj2 (Lg L) ltac:(lra)) as (r1 & Hr1 & Ty1 & Hb1 & Hh & Run).
  apply (departs_more o r r1 q t0 L); try assumption; [lra|]. apply (gone s tr); try assumption; lra.
Qed.
Print Assumptions C102_cylinder.

(** A glass cylinder bends light from outside at both sides, and lets it out under the angle at which it came in. *)
Theorem C102_rod : forall c u rad tr ix p d t0 t1 (r : ray xr), let s := Cyl c u rad in tree_of (Leaf s) tr -> 0 < rad -> 0 < ix -> is_unit d -> ray_is r p d -> ray_type r <> "faerie_fire"%string -> blocked r = false ->
  crosses s p d t0 t1 -> 1e-12 < t0 -> 1e-8 < t1 - t0 -> let q0 := at_t p d t0 in sine (inward s q0) d < ix ->
  let o := OCompound (mkCompound tr "refract" (Fin ix)) in
  exists d1 x, is_unit d1 /\ perp (inward s q0) d = (ix * perp (inward s q0) d1)%r3 /\ 0 < d1 ∙ inward s q0 /\ crosses s q0 d1 0 x /\
  (forall L, 0 < L <= t0 -> ends o r L [] (at_t p d L)) /\
  (1e-12 < x -> let q1 := at_t q0 d1 x in exists d2, is_unit d2 /\ (ix * perp (inward s q1) d1)%r3 = perp (inward s q1) d2 /\ d2 ∙ inward s q1 = - (d ∙ inward s q0) /\
    (forall L, t0 < L <= t0 + x -> ends o r L [q0] (at_t q0 d1 (L - t0))) /\
    (forall L, t0 + x < L -> departs o r L [q0; q1] (at_t q1 d2 (L - t0 - x)) d2)).
Proof.
  intros c u rad tr ix p d t0 t1 r s HT HR Hi Ud Hr Ty Hb Cr L0 L8 q0 Sn o. pose proof (tree_proper s tr HT HR) as Pr. destruct (crosses_sides s p d t0 t1 Pr Ud Cr) as [S0 _]. fold q0 in S0.
  assert (On : surface s q0) by (apply (proj2 Cr); auto). pose proof (inward_unit s q0 Pr On) as Un.
  assert (Mm : member s (at_t q0 d 1e-8)) by (unfold q0; rewrite at_on; apply (crosses_member s p d t0 t1 Pr Ud Cr); lra).
  assert (NT : ~ total_reflection 1 ix (inward s q0) d) by (intros [_ T]; lra).
  pose proof (fly_ray r p d t0 Hr) as Hf. fold q0 in Hf.
  destruct (one_query s tr "refract" (Fin ix) p d t0 t1 r HT HR Ud Hr Cr) as (_ & A & _). destruct (A L0 ltac:(intros [])) as (e0 & E). clear A. fold q0 in E. unfold answer in E. fold q0 in E.
  destruct (glass_do s tr ix (fly r (Fin t0)) q0 d (SfoBool e0) HT Pr Hi Ud Hf On) as [G _]. destruct (G Mm) as (d1 & E1 & B). clear G. fold o in E1.
  destruct (proj2 B NT) as (U1 & P1 & Sg). rewrite scale_1 in P1.
  assert (Es : sine (inward s q0) d = ix * sine (inward s q0) d1) by (unfold sine; rewrite P1, len_scale, Rabs_right by lra; reflexivity).
  assert (Sd : sine (inward s q0) d < 1). { pose proof (sine_sq (inward s q0) d Un Ud) as Q. assert (0 <= sine (inward s q0) d) by apply len_nonneg. assert (0 < (d ∙ inward s q0) * (d ∙ inward s q0)) by nra. nra. }
  assert (Pos : 0 < d1 ∙ inward s q0).
  { assert (Z : d1 ∙ inward s q0 <> 0). { intros Z. pose proof (sine_sq (inward s q0) d1 Un U1) as Q. rewrite Z in Q. assert (W : 0 <= sine (inward s q0) d1) by apply len_nonneg. assert (W1 : sine (inward s q0) d1 = 1) by nra. rewrite W1 in Es. lra. }
    nra. }
  destruct (chord_from s q0 d1 Pr U1 On Pos) as (_ & Px & Cx). set (x := 2 * radius s * (d1 ∙ inward s q0) / (across s d1 ∙ across s d1)) in *. clearbody x.
  exists d1, x. split; [exact U1|]. split; [exact P1|]. split; [exact Pos|]. split; [exact Cx|].
  set (r1 := set_direction (fly r (Fin t0)) (fv d1)). assert (Hr1 : ray_is r1 q0 d1) by (split; [exact (proj1 Hf)|reflexivity]). assert (Hh1 : point_history r1 = point_history r ++ [fv q0]) by (apply fly_history; exact Hr).
  assert (Step : forall L, t0 <= L -> forall fuel, L / 1e-12 + 1 < INR fuel -> run fuel r (Fin L) [o] None = run fuel r1 (Fin (L - t0)) [o] None).
  { intros L HL fuel Lf. apply (single_step o r L t0 (fv q0) (Some (fv (inward s q0))) (SfoBool e0) p d); try assumption; [reflexivity|unfold q0; destruct Hr as [-> _]; rewrite distance_fv, dist_back by exact Ud; f_equal; apply Rabs_right; lra|lra|unfold Rdiv in *; nra]. }
  split.
  { intros L HL. refine (proj1 (leg o r p d t0 L _ _ d1 Ud Hr Ty Hb eq_refl E L0 _) HL). intros r2 Hr2.
    destruct (glass_do s tr ix r2 q0 d (SfoBool e0) HT Pr Hi Ud Hr2 On) as [G _]. destruct (G Mm) as (d3 & E3 & B3). fold q0 o. fold o in E3. rewrite E3. repeat f_equal.
    destruct (proj2 B3 NT) as (U3 & P3 & Sg3). rewrite scale_1 in P3. apply (unit_determined (inward s q0)); try assumption.
    - assert (Eq : (ix * perp (inward s q0) d3)%r3 = (ix * perp (inward s q0) d1)%r3) by (transitivity (perp (inward s q0) d); [symmetry|]; assumption).
      assert (K : forall v w, (ix * v)%r3 = (ix * w)%r3 -> v = w).
      { intros v w H. replace v with (/ ix * (ix * v))%r3 by (clear - Hi; destruct v; r3_unf; cbn; f_equal; field; lra). rewrite H. clear - Hi; destruct w; r3_unf; cbn; f_equal; field; lra. }
      apply K, Eq.
    - nra. }
  intros Lx q1. destruct (next_chord s q0 d1 x Pr U1 On Cx) as (_ & On1 & _ & _ & _ & Dx). fold q1 in On1, Dx. pose proof (inward_unit s q1 Pr On1) as Un1.
  assert (Es1 : sine (inward s q1) d1 = sine (inward s q0) d1) by (apply same_sine; try assumption; rewrite Dx; ring).
  destruct (C102_exit s tr ix q0 d1 0 x r1 HT HR Hi U1 Hr1 Ty Hb Cx Lx ltac:(left; lra)) as (d2 & U2 & P2 & N2 & Fr & Dep); [fold q1; rewrite Es1, <- Es; exact Sd|]. fold q1 in P2, N2, Dep. fold o in Fr, Dep.
  exists d2. split; [exact U2|]. split; [exact P2|]. split.
  { assert (Es2 : sine (inward s q1) d2 = sine (inward s q0) d) by (unfold sine at 1; rewrite <- P2, len_scale, Rabs_right by lra; fold (sine (inward s q1) d1); rewrite Es1; symmetry; exact Es).
    pose proof (sine_sq (inward s q1) d2 Un1 U2) as Q2. pose proof (sine_sq (inward s q0) d Un Ud) as Q0. rewrite Es2, Q0 in Q2. set (a := d ∙ inward s q0) in *. set (b := d2 ∙ inward s q1) in *. clearbody a b. assert (K : (a - b) * (a + b) = 0) by lra. apply Rmult_integral in K. lra. }
  split; intros L HL.
  - apply (ends_more o r r1 q0 t0 L); try assumption; [lra|apply Step; lra|]. apply Fr. lra.
  - apply (departs_more o r r1 q0 t0 L); try assumption; [lra|apply Step; lra|]. apply Dep. lra.
Qed.
Print Assumptions C102_rod.

(** unit ball and unit cylinder about the z axis, rays along x at height 0 from (-3, 3/5, 0): crossings 3 - 4/5 and 3 + 4/5 *)
Example C102_hyp : let p := mk3 (-3) (3 / 5) 0 in let d := mk3 1 0 0 in
  (exists tr, tree_of (Leaf (Ball (mk3 0 0 0) 1)) tr) /\ (exists tr, tree_of (Leaf (Cyl (mk3 0 0 0) (mk3 0 0 2) 1)) tr) /\
  crosses (Ball (mk3 0 0 0) 1) p d (11 / 5) (19 / 5) /\ crosses (Cyl (mk3 0 0 0) (mk3 0 0 2) 1) p d (11 / 5) (19 / 5) /\
  sine (inward (Ball (mk3 0 0 0) 1) (at_t p d (19 / 5))) d = 3 / 5 /\ throws_back "reflect" (Fin 1) (Ball (mk3 0 0 0) 1) (at_t p d (19 / 5)) d /\ throws_back "refract" (Fin 2) (Ball (mk3 0 0 0) 1) (at_t p d (19 / 5)) d.
Proof.
  intros p d. assert (D2 : dirn (mk3 0 0 2) = mk3 0 0 1).
  { replace (mk3 0 0 2) with (2 * mk3 0 0 1)%r3 by (r3_unf; cbn; f_equal; ring). unfold dirn. rewrite len_scale, (len_unit (mk3 0 0 1)), Rabs_right by (lra || (unfold is_unit; r3_unf; cbn; ring)). r3_unf. cbn. f_equal; field. }
  assert (PB : proper (Ball (mk3 0 0 0) 1)) by (split; [cbn; lra|exact I]). assert (PC : proper (Cyl (mk3 0 0 0) (mk3 0 0 2) 1)) by (split; [cbn; lra|rewrite D2; unfold is_unit; r3_unf; cbn; ring]).
  assert (Sn : sine (inward (Ball (mk3 0 0 0) 1) (at_t p d (19 / 5))) d = 3 / 5).
  { assert (Un : is_unit (inward (Ball (mk3 0 0 0) 1) (at_t p d (19 / 5)))) by (unfold is_unit, p, d, at_t; cbn [inward]; r3_unf; cbn; field). assert (Udd : is_unit d) by (unfold is_unit, d; r3_unf; cbn; ring).
    pose proof (sine_sq _ d Un Udd) as Q. assert (0 <= sine (inward (Ball (mk3 0 0 0) 1) (at_t p d (19 / 5))) d) by apply len_nonneg.
    assert (Dt : d ∙ inward (Ball (mk3 0 0 0) 1) (at_t p d (19 / 5)) = - (4 / 5)) by (unfold p, d, at_t; cbn [inward]; r3_unf; cbn; field). rewrite Dt in Q. nra. }
  split; [eexists; eapply (TO_ball (mk3 0 0 0) 1 (Some 1) None); [reflexivity|reflexivity]|]. split.
  { eexists. eapply (TO_cyl (mk3 0 0 0) (mk3 0 0 2) 1 (Some 1) None); [intros H; injection H; lra|lra|reflexivity|reflexivity]. }
  assert (Q : forall t, (-3 + t) * (-3 + t) + 3 / 5 * (3 / 5) = 1 <-> t = 11 / 5 \/ t = 19 / 5).
  { intros t. split; [|intros [->| ->]; field]. intros H. assert (K : (t - 11 / 5) * (t - 19 / 5) = 0) by lra. apply Rmult_integral in K. lra. }
  split; [|split; [|split; [exact Sn|]]].
  - split; [lra|]. intros t. rewrite surface_sq, <- Q by exact PB. cbn [across centre radius]. unfold p, d, at_t. r3_unf. cbn. split; intros H; nra.
  - split; [lra|]. intros t. rewrite surface_sq, <- Q by exact PC. cbn [across centre radius]. rewrite D2. unfold perp, p, d, at_t. r3_unf. cbn. split; intros H; nra.
  - split; [left; reflexivity|right]. split; [reflexivity|]. exists 2. split; [reflexivity|]. split; [lra|]. rewrite Sn. lra.
Qed.
