(** Properties C22-C31: single interactions of a ray (optics3d.py:651-816). *)
From Coq Require Import Reals ZArith Lra Lia Psatz List String Bool.
From Verif Require Import PyErr Num Vec Shapes Csg Optics Spec XReal RVec VecProofs AngleProofs FlatProofs TreeProofs SolidProofs CsgProofs RayProofs GratingProofs.
Import ListNotations.
Local Open Scope R_scope.

Definition a_ray (p d : R3) (m lam : R) : ray xr := mkRay (fv p) (fv d) (Fin lam) (Fin m) [fv p] false "light".

(** C23: the law of reflection.  [dirn] is the unit vector of a non-zero vector, [perp u x] the part of x orthogonal to u. *)
Theorem C23_reflection : forall r d n, direction r = fv d -> d <> r3zero -> n <> r3zero ->
  let r' := reflect_specular r (fv n) in
  (exists o, direction r' = fv o /\ is_unit o /\
     o ∙ dirn n = - (dirn d ∙ dirn n) /\ perp (dirn n) o = perp (dirn n) (dirn d)) /\
  same_but_direction r r' /\
  (forall k, k <> 0 -> reflect_specular r (fv (k * n)%r3) = r') /\
  direction (reflect_specular r' (fv n)) = fv (dirn d).
Proof. exact reflect_spec. Qed.
Print Assumptions C23_reflection.
Example C23_hyp : direction (a_ray r3zero (mk3 1 2 3) 0 500) = fv (mk3 1 2 3) /\ mk3 1 2 3 <> r3zero /\ mk3 0 0 (-4) <> r3zero.
Proof. split; [reflexivity|]. split; intros H; injection H; lra. Qed.

(** C24 (partial): Snell's law.  [perp n i] is the tangential component, whose length is the sine of the angle.
    Missing: at exactly grazing incidence (i.n = 0) the result depends on the orientation of n (refuted below). *)
Theorem C24_snell_partial : forall r i n eta1 eta2, direction r = fv i -> is_unit i -> is_unit n -> 0 < eta1 -> 0 < eta2 ->
  ~ total_reflection eta1 eta2 n i ->
  exists t, refract_snells_law r (fv n) (Fin eta1) (Fin eta2) = Ok (set_direction r (fv t)) /\
    is_unit t /\ (eta1 * perp n i)%r3 = (eta2 * perp n t)%r3 /\ eta1 * sine n i = eta2 * sine n t /\
    0 <= (i ∙ n) * (t ∙ n) /\ (i ∙ n <> 0 -> eta1 * sine n i < eta2 -> 0 < (i ∙ n) * (t ∙ n)) /\
    (i ∙ n <> 0 -> refract_snells_law r (fv (- n)%r3) (Fin eta1) (Fin eta2) = Ok (set_direction r (fv t))).
Proof. exact snell_spec. Qed.
Print Assumptions C24_snell_partial.
Definition e_z : R3 := mk3 0 0 1.
Lemma e_z_unit : is_unit e_z. Proof. unfold is_unit, e_z, r3dot; cbn; ring. Qed.
Definition i34 : R3 := mk3 (3/5) 0 (-4/5).
Lemma i34_unit : is_unit i34. Proof. unfold is_unit, i34, r3dot; cbn; lra. Qed.
Lemma i34_sine : sine e_z i34 = 3/5.
Proof.
  unfold sine. apply len_eq_of_sq; [lra|]. unfold perp, e_z, i34, r3dot; cbn. lra.
Qed.
Example C24_hyp : is_unit i34 /\ is_unit e_z /\ ~ total_reflection 1.5 1 e_z i34 /\ i34 ∙ e_z <> 0.
Proof.
  split; [apply i34_unit|]. split; [apply e_z_unit|]. split.
  - unfold total_reflection. rewrite i34_sine. lra.
  - unfold r3dot, i34, e_z; cbn. lra.
Qed.
(** entering a denser medium exactly along the surface: opposite normals send the ray to opposite sides *)
Theorem C24_grazing_refuted : forall r i n eta1 eta2, direction r = fv i -> is_unit i -> is_unit n -> 0 < eta1 -> eta1 < eta2 ->
  i ∙ n = 0 -> exists t t', refract_snells_law r (fv n) (Fin eta1) (Fin eta2) = Ok (set_direction r (fv t)) /\
    refract_snells_law r (fv (- n)%r3) (Fin eta1) (Fin eta2) = Ok (set_direction r (fv t')) /\ t ∙ n > 0 /\ t' ∙ n < 0.
Proof.
  intros r i n eta1 eta2 Hd Hi Hn H1 H2 Z. pose proof (unit_opp n Hn) as Hn'.
  assert (NT : ~ total_reflection eta1 eta2 n i) by (unfold total_reflection; lra).
  assert (NT' : ~ total_reflection eta1 eta2 (- n)%r3 i) by (unfold total_reflection; lra).
  destruct (snell_fv r i n eta1 eta2 Hd Hi Hn H1 ltac:(lra)) as [_ E]. destruct (snell_fv r i (- n)%r3 eta1 eta2 Hd Hi Hn' H1 ltac:(lra)) as [_ E'].
  specialize (E NT). specialize (E' NT'). do 2 eexists. split; [exact E|]. split; [exact E'|].
  assert (F : facing n i = (- n)%r3) by (unfold facing; rewrite Z, Rltb_false by lra; reflexivity).
  assert (F' : facing (- n)%r3 i = n).
  { unfold facing. rewrite dot_opp_r, Z, Ropp_0, Rltb_false by lra. r3_ring. }
  rewrite F, F'.
  assert (Q : 0 < eta1 / eta2) by (apply Rdiv_lt_0_compat; lra).
  assert (Q1 : eta1 / eta2 < 1) by (apply Rmult_lt_reg_r with eta2; [lra|]; field_simplify; lra).
  assert (QQ : eta1 / eta2 * (eta1 / eta2) < 1) by nra.
  destruct (snell_dir_props (eta1 / eta2) (- n)%r3 i Hn' Hi ltac:(rewrite dot_opp_r; lra) Q) as (_ & _ & D).
  { rewrite dot_opp_r, Z. lra. }
  destruct (snell_dir_props (eta1 / eta2) n i Hn Hi ltac:(lra) Q) as (_ & _ & D').
  { rewrite Z. lra. }
  rewrite dot_opp_r, dot_opp_r, Z in D. rewrite Z in D'.
  assert (S : 0 < sqrt (1 - eta1 / eta2 * (eta1 / eta2) * (1 - 0 * 0))) by (apply sqrt_lt_R0; lra).
  replace (- 0 * - 0) with (0 * 0) in D by ring. split; lra.
Qed.
Print Assumptions C24_grazing_refuted.

(** C25: the ray is reflected exactly under total internal reflection; otherwise the result is finite (unit), and the
    reflected direction lies on the incident side, the transmitted one does not. *)
Theorem C25_total_internal_reflection : forall r i n eta1 eta2, direction r = fv i -> is_unit i -> is_unit n -> 0 < eta1 -> 0 < eta2 ->
  exists o, refract_snells_law r (fv n) (Fin eta1) (Fin eta2) = Ok (set_direction r (fv o)) /\ is_unit o /\
   (eta1 > eta2 /\ eta1 * sine n i > eta2 -> perp n o = perp n i /\ o ∙ n = - (i ∙ n)) /\
   (~ (eta1 > eta2 /\ eta1 * sine n i > eta2) -> (eta2 * perp n o)%r3 = (eta1 * perp n i)%r3 /\ 0 <= (o ∙ n) * (i ∙ n)).
Proof.
  intros r i n eta1 eta2 Hd Hi Hn H1 H2.
  assert (C : total_reflection eta1 eta2 n i \/ ~ total_reflection eta1 eta2 n i).
  { unfold total_reflection. destruct (Rgt_dec eta1 eta2), (Rgt_dec (eta1 * sine n i) eta2); tauto. }
  destruct C as [TR|NT].
  - destruct (snell_fv r i n eta1 eta2 Hd Hi Hn H1 H2) as [E _]. exists (refl n i). split; [exact (E TR)|].
    split; [apply refl_unit; assumption|]. split; [|intros K; destruct (K TR)]. intros _. split; [apply refl_tangential, Hn|apply refl_normal, Hn].
  - destruct (snell_spec r i n eta1 eta2 Hd Hi Hn H1 H2 NT) as (t & E & U & P & _ & S & _). exists t. split; [exact E|]. split; [exact U|].
    split; [intros K; destruct (NT K)|]. intros _. split; [symmetry; exact P|]. lra.
Qed.
Print Assumptions C25_total_internal_reflection.
(** glass to air at sin = 3/5 is transmitted, diamond to air at the same angle is reflected *)
Example C25_hyp : total_reflection 2.4 1 e_z i34 /\ ~ total_reflection 1.5 1 e_z i34.
Proof. unfold total_reflection. rewrite i34_sine. lra. Qed.

(** C26 (partial): refraction is reversible.  Missing: a ray arriving exactly at the critical angle from the side the
    normal points away from (refuted below). *)
Theorem C26_reversible_partial : forall r r' i n t eta1 eta2, direction r = fv i -> is_unit i -> is_unit n -> 0 < eta1 -> 0 < eta2 ->
  ~ total_reflection eta1 eta2 n i -> refract_snells_law r (fv n) (Fin eta1) (Fin eta2) = Ok (set_direction r (fv t)) ->
  direction r' = fv (- t)%r3 -> t ∙ n <> 0 \/ i ∙ n <= 0 ->
  refract_snells_law r' (fv n) (Fin eta2) (Fin eta1) = Ok (set_direction r' (fv (- i)%r3)).
Proof. exact snell_reversible. Qed.
Print Assumptions C26_reversible_partial.
Example C26_hyp : exists t, refract_snells_law (a_ray r3zero i34 0 500) (fv e_z) (Fin 1.5) (Fin 1) = Ok (set_direction (a_ray r3zero i34 0 500) (fv t)) /\ t ∙ e_z <> 0.
Proof.
  destruct (snell_spec (a_ray r3zero i34 0 500) i34 e_z 1.5 1 eq_refl i34_unit e_z_unit ltac:(lra) ltac:(lra)) as (t & E & _ & _ & _ & _ & P & _).
  { unfold total_reflection. rewrite i34_sine. lra. }
  exists t. split; [exact E|]. assert (X : 0 < i34 ∙ e_z * (t ∙ e_z)).
  { apply P; [unfold r3dot, i34, e_z; cbn; lra|rewrite i34_sine; lra]. }
  intros Z. rewrite Z in X. lra.
Qed.
(** at the critical angle with i.n > 0, the reversed ray ends on the wrong side *)
Theorem C26_critical_refuted : let i := mk3 (3/5) 0 (4/5) in let t := mk3 1 0 0 in
  refract_snells_law (a_ray r3zero i 0 500) (fv e_z) (Fin 5) (Fin 3) = Ok (set_direction (a_ray r3zero i 0 500) (fv t)) /\
  refract_snells_law (a_ray r3zero (- t)%r3 0 500) (fv e_z) (Fin 3) (Fin 5)
   = Ok (set_direction (a_ray r3zero (- t)%r3 0 500) (fv (mk3 (-3/5) 0 (4/5)))).
Proof.
  intros i t.
  assert (Ui : is_unit i) by (unfold is_unit, i, r3dot; cbn; lra).
  assert (Ut : is_unit (- t)%r3) by (unfold is_unit, t, r3opp, r3dot; cbn; lra).
  assert (Si : sine e_z i = 3/5) by (unfold sine; apply len_eq_of_sq; [lra|]; unfold perp, e_z, i, r3dot; cbn; lra).
  split.
  - destruct (snell_fv (a_ray r3zero i 0 500) i e_z 5 3 eq_refl Ui e_z_unit ltac:(lra) ltac:(lra)) as [_ E].
    rewrite E by (unfold total_reflection; rewrite Si; lra). do 3 f_equal. unfold facing, snell_dir.
    replace (i ∙ e_z) with (4/5) by (unfold i, e_z, r3dot; cbn; lra). rewrite Rltb_false by lra.
    rewrite dot_opp_r. replace (i ∙ e_z) with (4/5) by (unfold i, e_z, r3dot; cbn; lra).
    replace (1 - 5 / 3 * (5 / 3) * (1 - - - (4 / 5) * - - (4 / 5))) with 0 by field. rewrite sqrt_0.
    unfold i, t, e_z. unfold r3add, r3scale, r3opp; cbn. apply r3_ext; cbn; field.
  - destruct (snell_fv (a_ray r3zero (- t)%r3 0 500) (- t)%r3 e_z 3 5 eq_refl Ut e_z_unit ltac:(lra) ltac:(lra)) as [_ E].
    rewrite E by (unfold total_reflection; lra). do 3 f_equal. unfold facing, snell_dir.
    replace ((- t)%r3 ∙ e_z) with 0 by (unfold t, e_z, r3opp, r3dot; cbn; lra). rewrite Rltb_false by lra.
    rewrite dot_opp_r. replace ((- t)%r3 ∙ e_z) with 0 by (unfold t, e_z, r3opp, r3dot; cbn; lra).
    replace (1 - 3 / 5 * (3 / 5) * (1 - - - 0 * - - 0)) with ((4/5) * (4/5)) by field. rewrite sqrt_square by lra.
    unfold t, e_z. unfold r3add, r3scale, r3opp; cbn. apply r3_ext; cbn; field.
Qed.
Print Assumptions C26_critical_refuted.

(** C27: the imaging equation, for lenses of either sign.  [forward n d] is the axis in the travelling sense, [near3] the
    near-parallel tolerance of the code; x is the point where the ray from o meets the lens plane. *)
Theorem C27_imaging : forall r l c n f d o s h x k, thin_lens l c n f -> is_unit n -> f <> 0 -> direction r = fv d -> is_unit d ->
  let N := forward n d in
  0 < s -> h ∙ N = 0 -> o = (c - s * N + h)%r3 -> x = at_t o d k -> on_plane c n x ->
  ~ Rabs (N ∙ d) <= 1e-8 -> ~ near3 d N ->
  exists v, refract_thin_lens r l (fv x) = Ok (set_direction r (fv v)) /\ is_unit v /\
  (s <> f -> let s' := / (/ f - / s) in exists t, at_t x v t = (c + s' * N - (s' / s) * h)%r3) /\
  (s = f -> exists t, v = (t * (c - o))%r3).
Proof. exact thin_lens_image. Qed.
Print Assumptions C27_imaging.
(** a lens built by the constructor with f = 50 satisfies the hypotheses for a ray at slope 3/4 *)
Definition lens50 (f : R) : Res (lens xr) := mk_lens (fv r3zero) (Some (fv (mk3 0 0 (-2)))) "spherical_biconvex" (Some (Fin 10)) (Some (Fin f)) "ideal" (Fin 1.5).
Lemma lens50_ok f : exists l, lens50 f = Ok l /\ thin_lens l r3zero (mk3 0 0 (-1)) f /\ le_type l = "ideal"%string.
Proof.
  assert (Nz : mk3 0 0 (-2) <> r3zero) by (intros H; injection H; lra).
  assert (exists l, lens50 f = Ok l) as [l E].
  { unfold lens50, mk_lens. cbn [String.eqb]. change (String.eqb "spherical_biconvex" "spherical_biconvex") with true. cbn iota.
    unfold mk_circle. rewrite check_D_only. cbn [bind]. eexists; reflexivity. }
  exists l. split; [exact E|]. destruct (mk_lens_thin _ _ _ _ _ _ _ _ Nz E) as [H T]. split; [|exact T].
  replace (mk3 0 0 (-1)) with (dirn (mk3 0 0 (-2))); [exact H|].
  apply (dirn_unique _ _ 2); [lra| |]; [apply r3_ext; cbn; lra|]. unfold is_unit, r3dot; cbn; lra.
Qed.
Example C27_hyp : let d := i34 in let N := forward (mk3 0 0 (-1)) d in
  is_unit d /\ N = mk3 0 0 (-1) /\ ~ Rabs (N ∙ d) <= 1e-8 /\ ~ near3 d N /\ mk3 1 0 0 ∙ N = 0 /\
  on_plane r3zero (mk3 0 0 (-1)) (at_t (r3zero - 100 * N + mk3 1 0 0)%r3 d 125).
Proof.
  intros d N. assert (EN : N = mk3 0 0 (-1)).
  { unfold N, forward, d, i34, r3dot; cbn. rewrite Rltb_false by lra. reflexivity. }
  split; [apply i34_unit|]. split; [exact EN|]. rewrite EN. split.
  { unfold d, i34, r3dot; cbn. rewrite Rabs_right; lra. }
  split. { unfold near3, near1, d, i34; cbn. intros (A & _). rewrite Rabs_R0, Rabs_right in A; lra. }
  split; unfold on_plane, d, i34, at_t, r3dot; cbn; lra.
Qed.

(** C28 (partial): f > 0.  A parallel ray leaves towards the far focal point, a ray through the centre (outside the
    near-parallel tolerance) is undeviated, and every ray continues to the far side.  For f < 0 the last part is false. *)
Theorem C28_parallel_partial : forall r l c n f N p x, thin_lens l c n f -> is_unit n -> f <> 0 -> N = n \/ N = (- n)%r3 ->
  direction r = fv N -> position r = fv p -> on_plane c n p ->
  refract_thin_lens r l (fv x) = Ok (set_direction r (fv (dirn (c + f * N - p)%r3))) /\ (c + f * N - p)%r3 <> r3zero.
Proof.
  intros r l c n f N p x HL Hn Hf HN Hd Hp Hpl.
  destruct (thin_lens_parallel r l c n f N p x HL Hn Hf HN Hd Hp Hpl). auto.
Qed.
Print Assumptions C28_parallel_partial.
Theorem C28_central_partial : forall r l c n f d, thin_lens l c n f -> is_unit n -> 0 < f -> direction r = fv d -> is_unit d ->
  ~ near3 d (forward n d) -> refract_thin_lens r l (fv c) = Ok (set_direction r (fv d)).
Proof. exact thin_lens_central. Qed.
Print Assumptions C28_central_partial.
Theorem C28_far_side_partial : forall r l c n f d p, thin_lens l c n f -> is_unit n -> 0 < f -> direction r = fv d -> is_unit d ->
  position r = fv p -> on_plane c n p ->
  exists o, refract_thin_lens r l (fv p) = Ok (set_direction r (fv o)) /\ is_unit o /\
    0 <= (n ∙ o) * (n ∙ d) /\ (n ∙ d <> 0 -> 0 < (n ∙ o) * (n ∙ d)).
Proof.
  intros r l c n f d p HL Hn Hf Hd Ud Hp Hpl.
  destruct (thin_lens_side r l c n f d p HL Hn ltac:(lra) Hd Ud Hp Hpl) as (o & E & U & G & S).
  exists o. split; [exact E|]. split; [exact U|].
  assert (SQ : n ∙ d <> 0 -> 0 < (n ∙ d) * (n ∙ d)) by (intros Z; destruct (Rtotal_order (n ∙ d) 0) as [L|[L|L]]; nra).
  destruct (Rle_dec (Rabs (n ∙ d)) 1e-8) as [L|L].
  - rewrite (G L). split; [apply Rle_0_sqr|exact SQ].
  - specialize (S L). assert (0 < o ∙ forward n d) by (apply Rmult_lt_reg_l with f; lra).
    assert (Z : n ∙ d <> 0) by (intros Z; apply L; rewrite Z, Rabs_R0; lra).
    assert (0 < (n ∙ o) * (n ∙ d)).
    { unfold forward in H. rewrite (dot_comm n o). destruct (Rltb_spec (n ∙ d) 0); rewrite ?dot_opp_r in H.
      - replace (o ∙ n * (n ∙ d)) with ((- (o ∙ n)) * (- (n ∙ d))) by ring. apply Rmult_lt_0_compat; lra.
      - apply Rmult_lt_0_compat; lra. }
    split; [lra|intros _; exact H0].
Qed.
Print Assumptions C28_far_side_partial.
Example C28_hyp : forall f, exists l, lens50 f = Ok l /\ thin_lens l r3zero (mk3 0 0 (-1)) f.
Proof. intros f. destruct (lens50_ok f) as (l & E & H & _). eauto. Qed.
(** a diverging lens (f < 0) sends every non-grazing ray back to the side it came from *)
Theorem C28_diverging_refuted : forall r l c n f d p, thin_lens l c n f -> is_unit n -> f < 0 -> direction r = fv d -> is_unit d ->
  position r = fv p -> on_plane c n p -> ~ Rabs (n ∙ d) <= 1e-8 ->
  exists o, refract_thin_lens r l (fv p) = Ok (set_direction r (fv o)) /\ (n ∙ o) * (n ∙ d) < 0.
Proof.
  intros r l c n f d p HL Hn Hf Hd Ud Hp Hpl L.
  destruct (thin_lens_side r l c n f d p HL Hn ltac:(lra) Hd Ud Hp Hpl) as (o & E & U & G & S).
  exists o. split; [exact E|]. specialize (S L).
  assert (H : o ∙ forward n d < 0) by (apply Rmult_lt_reg_l with (- f); lra).
  assert (Z : n ∙ d <> 0) by (intros Z; apply L; rewrite Z, Rabs_R0; lra).
  unfold forward in H. rewrite (dot_comm n o). destruct (Rltb_spec (n ∙ d) 0); rewrite ?dot_opp_r in H.
  - assert (0 < (o ∙ n) * - (n ∙ d)) by (apply Rmult_lt_0_compat; lra). lra.
  - assert (0 < - (o ∙ n) * (n ∙ d)) by (apply Rmult_lt_0_compat; lra). lra.
Qed.
Print Assumptions C28_diverging_refuted.

(** C29 *)
Theorem C29_collimate : forall r l n d, le_normal l = Some (fv n) -> is_unit n -> direction r = fv d ->
  exists N, (N = n \/ N = (- n)%r3) /\ 0 <= N ∙ d /\ is_unit N /\ refract_ideal_collimate r l = Ok (set_direction r (fv N)).
Proof.
  intros r l n d Ln Hn Hd. exists (forward n d). split; [apply forward_sign|]. split; [apply forward_nonneg|].
  split; [apply forward_unit, Hn|]. apply collimate_spec; assumption.
Qed.
Print Assumptions C29_collimate.
Theorem C29_focus : forall r l c n f d p, thin_lens l c n f -> is_unit n -> f <> 0 -> direction r = fv d -> position r = fv p ->
  on_plane c n p -> exists N o t, (N = n \/ N = (- n)%r3) /\ 0 <= N ∙ d /\
    refract_ideal_focus r l = Ok (set_direction r (fv o)) /\ is_unit o /\ 0 < t /\ at_t p o t = (c + f * N)%r3.
Proof.
  intros r l c n f d p HL Hn Hf Hd Hp Hpl. destruct (focus_spec r l c n f d p HL Hn Hf Hd Hp Hpl) as [NZ E].
  exists (forward n d), (dirn (c + f * forward n d - p)%r3), (len (c + f * forward n d - p)%r3).
  split; [apply forward_sign|]. split; [apply forward_nonneg|]. split; [exact E|]. split; [apply dirn_unit, NZ|].
  split; [apply len_pos, NZ|]. unfold at_t. rewrite <- dirn_scale by exact NZ. r3_ring.
Qed.
Print Assumptions C29_focus.
Example C29_hyp : on_plane r3zero (mk3 0 0 (-1)) (mk3 3 4 0) /\ exists l, lens50 50 = Ok l /\ thin_lens l r3zero (mk3 0 0 (-1)) 50.
Proof. split; [unfold on_plane, r3dot; cbn; lra|]. destruct (lens50_ok 50) as (l & E & H & _). eauto. Qed.

(** C30 (partial): the grating equation, for rays coming from the side s = n x Tg (Tg the groove direction).  From the
    other side every diffracted order is wrong (refuted below). *)
Theorem C30_grating_partial : forall r g d n Tg G m lam, grating_is g Tg G -> is_unit Tg -> is_unit n -> orth n Tg ->
  direction r = fv d -> is_unit d -> orth d Tg -> order r = Fin m -> wavelength r = Fin lam -> m <> 0 -> d ∙ n < 0 ->
  let s := (n × Tg)%r3 in d ∙ s <= 0 -> -1 <= gml G m lam + d ∙ s <= 1 ->
  exists alpha beta, 0 <= alpha < PI / 2 /\ - (PI / 2) <= beta <= PI / 2 /\
    (- d)%r3 = (cos alpha * n + sin alpha * s)%r3 /\ gml G m lam = sin alpha + sin beta /\
    grating_do_intersect g r (Some (fv n)) = Ok (set_direction r (fv (cos beta * n + sin beta * s)%r3)).
Proof. exact grating_eq_good. Qed.
Print Assumptions C30_grating_partial.
Theorem C30_other_side_refuted : forall r g d n Tg G m lam, grating_is g Tg G -> is_unit Tg -> is_unit n -> orth n Tg ->
  direction r = fv d -> is_unit d -> orth d Tg -> order r = Fin m -> wavelength r = Fin lam -> m <> 0 -> d ∙ n < 0 ->
  let s := (Tg × n)%r3 in d ∙ s < 0 -> -1 <= gml G m lam + d ∙ s <= 1 -> gml G m lam <> 0 ->
  exists o, grating_do_intersect g r (Some (fv n)) = Ok (set_direction r (fv o)) /\ o ∙ s <> gml G m lam + d ∙ s.
Proof. exact grating_eq_bad. Qed.
Print Assumptions C30_other_side_refuted.
(** 1000 lines/mm, 500 nm, first order, sine of incidence 3/5: both situations occur *)
Example C30_hyp : let Tg := mk3 0 1 0 in let d := i34 in let d' := mk3 (-3/5) 0 (-4/5) in
  is_unit Tg /\ orth e_z Tg /\ orth d Tg /\ d ∙ e_z < 0 /\ d ∙ (e_z × Tg)%r3 <= 0 /\ -1 <= gml 1000 1 500 + d ∙ (e_z × Tg)%r3 <= 1 /\
  is_unit d' /\ d' ∙ e_z < 0 /\ d' ∙ (Tg × e_z)%r3 < 0 /\ -1 <= gml 1000 1 500 + d' ∙ (Tg × e_z)%r3 <= 1 /\ gml 1000 1 500 <> 0.
Proof. cbv zeta. unfold is_unit, orth, gml, i34, e_z, r3dot, r3cross; cbn. repeat split; lra. Qed.

(** C31: groove component, unit length, NaN for orders that do not exist; order 0 is specular.  sin_alpha is the sine of
    the angle between normal and incident ray projected on the dispersion plane. *)
Theorem C31_groove : forall r g d n Tg G m lam, grating_is g Tg G -> is_unit Tg -> is_unit n -> orth n Tg ->
  direction r = fv d -> is_unit d -> perp Tg d <> r3zero -> order r = Fin m -> wavelength r = Fin lam -> m <> 0 ->
  let sin_alpha := Rabs (dirn (perp Tg d) ∙ (Tg × n)%r3) in
  (-1 <= gml G m lam - sin_alpha <= 1 ->
   exists o, grating_do_intersect g r (Some (fv n)) = Ok (set_direction r (fv o)) /\ is_unit o /\ o ∙ Tg = d ∙ Tg) /\
  (~ -1 <= gml G m lam - sin_alpha <= 1 ->
   grating_do_intersect g r (Some (fv n)) = Ok (set_direction r (V XNaN XNaN XNaN))).
Proof. exact grating_groove. Qed.
Print Assumptions C31_groove.
Theorem C31_order0 : forall r g n, order r = Fin 0 -> grating_do_intersect g r (Some n) = Ok (reflect_specular r n).
Proof. exact grating_order0. Qed.
Print Assumptions C31_order0.
Example C31_hyp : let Tg := mk3 0 1 0 in let d := mk3 (3/5) (4/5) 0 in is_unit d /\ perp Tg d <> r3zero /\ orth e_z Tg.
Proof.
  cbv zeta. unfold is_unit, orth, perp, e_z, r3dot, r3sub, r3scale, r3zero; cbn. split; [lra|]. split; [|lra].
  intros H; injection H; lra.
Qed.

(** C22: a list of optics described by its media: [Some (e, i)] for a Compound filling the set [den e] with index i,
    [None] for every optic that is not a Compound. *)
Inductive medium_of : optic xr -> option (expr solid * R) -> Prop :=
| MO_compound c e i : tree_of e (co_tree c) -> co_index c = Fin i -> medium_of (OCompound c) (Some (e, i))
| MO_other o : (forall c, o <> OCompound c) -> medium_of o None.
Definition fills (p : R3) (m : option (expr solid * R)) : Prop := match m with Some (e, _) => den e p | None => False end.
(** C22 (partial): first Compound containing the point, else 1.  Missing: a ball lens is a solid with an index too, but
    it is never consulted (refuted below). *)
Theorem C22_index_lookup_partial : forall l ms p, Forall2 medium_of l ms ->
  exists v, get_index_at_point l (fv p) = Ok (Fin v) /\
   ((exists pre e post, ms = pre ++ Some (e, v) :: post /\ den e p /\ Forall (fun m => ~ fills p m) pre) \/
    (v = 1 /\ Forall (fun m => ~ fills p m) ms)).
Proof.
  intros l ms p H. induction H as [|o m l ms Ho Hl (v & E & IH)].
  - exists 1. split; [reflexivity|]. right. split; [reflexivity|constructor].
  - cbn [get_index_at_point]. assert (Skip : optic_index_if_inside o (fv p) = Ok None -> ~ fills p m ->
      exists v, (do i <- optic_index_if_inside o (fv p); match i with Some x => Ok x | None => get_index_at_point l (fv p) end) = Ok (Fin v) /\
      ((exists pre e post, m :: ms = pre ++ Some (e, v) :: post /\ den e p /\ Forall (fun m => ~ fills p m) pre) \/
       (v = 1 /\ Forall (fun m => ~ fills p m) (m :: ms)))).
    { intros S F. exists v. rewrite S. cbn [bind]. split; [exact E|]. destruct IH as [(pre & e & post & -> & D & A)|(-> & A)].
      - left. exists (m :: pre), e, post. repeat split; [exact D|constructor; assumption].
      - right. split; [reflexivity|constructor; assumption]. }
    destruct Ho as [c e i Ht Hi|o Ho].
    + destruct (tree_point_den e (co_tree c) p Ht) as (b & Eb & Db). destruct b.
      * exists i. cbn [optic_index_if_inside]. unfold compound_index_if_inside. rewrite Eb. cbn [bind]. rewrite Hi. split; [reflexivity|].
        left. exists [], e, ms. repeat split; [apply Db; reflexivity|constructor].
      * apply Skip; [cbn [optic_index_if_inside]; unfold compound_index_if_inside; rewrite Eb; reflexivity|].
        cbn. intros D. apply Db in D. discriminate.
    + apply Skip; [|intros []]. destruct o; try reflexivity. destruct (Ho c eq_refl).
Qed.
Print Assumptions C22_index_lookup_partial.
Example C22_hyp : exists l, Forall2 medium_of l [None; Some (Leaf (axis_ball 0 1), 1.5); Some (Leaf (axis_ball 5 1), 1.7)].
Proof.
  destruct (axis_tree 0 1) as [a Ha], (axis_tree 5 1) as [b Hb]. destruct (lens50_ok 50) as (l & _).
  exists [OLens l; OCompound (mkCompound a "refract" (Fin 1.5)); OCompound (mkCompound b "refract" (Fin 1.7))].
  constructor; [constructor; discriminate|]. repeat constructor; assumption.
Qed.
(** every ball lens, whatever its index: its own centre is reported to have the index of the world *)
Theorem C22_ball_lens_refuted : forall (c : R3) rad ix, 0 < rad -> exists l,
  mk_lens (fv c) None "spherical" (Some (Fin (2 * rad))) None "refractive" (Fin ix) = Ok l /\
  get_index_at_point [OLens l] (fv c) = Ok (Fin 1).
Proof.
  intros c rad ix _. eexists. split; [|reflexivity]. unfold mk_lens.
  change (String.eqb "spherical" "spherical_biconvex") with false. change (String.eqb "spherical" "spherical") with true. cbn iota.
  unfold mk_sphere. rewrite check_D_only. cbn [bind]. reflexivity.
Qed.
Print Assumptions C22_ball_lens_refuted.
