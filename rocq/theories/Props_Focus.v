(** C86: the focus of a concave mirror. *)
From Coq Require Import ZArith Reals String List Bool Lia Lra Psatz.
From Verif Require Import PyErr Num Vec Shapes Csg Optics Spec XReal RVec VecProofs FlatProofs SphereProofs CylProofs CsgProofs RayProofs RunGen RunXr StateXr OrderProofs FlatOptic SceneProofs Props_Run Props_Ray Props_Scene Props_Images Props_Loop Continue.
Import ListNotations.
Local Open Scope R_scope.

(** an optic that is not in the way of the ray from [p] along [d] up to the distance [L]: run skips it, or it is flat and the segment misses it *)
Definition off_path (p d : R3) (L : R) (o : optic xr) : Prop :=
  skipped o = true \/ exists c u A, flat_optic o c u A /\ forall t, 0 <= t <= L -> on_plane c u (at_t p d t) -> ~ A (at_t p d t).

Lemma off_ok p d L o r : off_path p d L o -> ray_is r p d -> is_unit d -> test_ok r o.
Proof. intros [S1|(c & u & A & V & _)] Hr Hd; [left; exact S1|eapply flat_test_ok; eassumption]. Qed.
Lemma off_far p d L o r rm x pt n : off_path p d L o -> ray_is r p d -> is_unit d -> reports r rm o x pt n -> L < x.
Proof.
  intros [S1|(c & u & A & V & H)] Hr Hd R; [destruct R as (S2 & _); congruence|]. apply Rnot_le_lt. intros Le.
  destruct (flat_axis _ _ _ _ u _ _ _ _ _ _ _ V (or_introl eq_refl) Hr Hd R) as (E & L0 & _ & At & _). apply (H x); [lra| |exact At]. unfold on_plane, at_t. autorewrite with dotr in *. lra.
Qed.
Lemma side_bound (r : ray xr) w j o : Forall (test_ok r) w -> nth_error w j = Some o -> skipped o = false -> exists f, last_side r w None = Some f.
Proof.
  intros Tk En Sk. set (a := (None : option sfo)). clearbody a. revert j a En. induction Tk as [|o1 w T1 T2 IH]; intros [|j] a En; try discriminate En; cbn [last_side].
  - injection En as ->. rewrite Sk. destruct T1 as [T1|(h & E & _)]; [congruence|]. rewrite E. clear - T2. set (b := h4_sfo h). clearbody b. revert b. induction T2 as [|o2 w T _ IH]; intros b; cbn [last_side]; [eauto|].
    destruct (skipped o2) eqn:S2; [apply IH|]. destruct T as [T|(h2 & E2 & _)]; [congruence|]. rewrite E2. apply IH.
  - destruct (skipped o1) eqn:S1; [exact (IH _ _ En)|]. destruct T1 as [T1|(h & E & _)]; [congruence|]. rewrite E. exact (IH _ _ En).
Qed.
Lemma all_ok (r : ray xr) w j o (P : optic xr -> Prop) : nth_error w j = Some o -> test_ok r o -> (forall i o', nth_error w i = Some o' -> i <> j -> P o') -> (forall o', P o' -> test_ok r o') -> Forall (test_ok r) w.
Proof.
  intros En T H K. apply Forall_forall. intros o' In'. apply In_nth_error in In'. destruct In' as (i & Ei). destruct (Nat.eq_dec i j) as [->|N]; [rewrite En in Ei; injection Ei as <-; exact T|eauto].
Qed.

Ltac gr := repeat match goal with |- context [?x] => is_var x; let T := type of x in match T with R3 => generalize x | R => generalize x end end; intros;
  repeat match goal with |- context [?x] => is_var x; match type of x with R3 => destruct x end end; unfold at_t, perp, r3add, r3sub, r3opp, r3scale, r3dot, r3zero; cbn; try (apply r3_ext; cbn); ring.
(** the mirror: vertex [c], unit axis [n] towards the centre of curvature, focal length [f] *)
Section Concave.
Variables (c n : R3) (D f : R) (w0 h0 : option xr) (tg : option (vec xr)) (dmd : option (vec xr)) (m : mirror xr).
Hypotheses (Un : is_unit n) (Pf : 0 < f).
Hypothesis Em : mk_mirror (fv c) "circular_concave_spherical" (Some (fv n)) (Some (Fin D)) w0 h0 (Some (Fin f)) tg "normal" dmd = Ok m.

Lemma concave_type : mi_type m = "normal"%string.
Proof.
  pose proof Em as E. unfold mk_mirror in E. change (String.eqb "circular_concave_spherical" "circular_flat") with false in E. change (String.eqb "circular_concave_spherical" "rectangular_flat") with false in E.
  change (String.eqb "circular_concave_spherical" "circular_concave_spherical") with true in E.
  repeat (match goal with H : bind _ _ = Ok _ |- _ => let a := fresh in let e := fresh in apply bind_ok in H; destruct H as (a & e & H); cbn beta iota zeta in H end).
  injection E as <-. reflexivity.
Qed.
(** the ray runs antiparallel to the axis at the offset [v] from it *)
Variables (p v : R3) (z k : R).
Hypotheses (Vn : v ∙ n = 0) (Ep : p = (c + z * n + v)%r3).
Hypotheses (Kp : 0 < k) (K1 : k <= 1) (Ek : k * k = 1 - (v ∙ v) / (4 * (f * f))) (Vf : v ∙ v < 2 * (f * f)) (VD : len v < D / 2).
Let t1 := z - 2 * f * (1 - k).
Let Q := (c + (2 * f * (1 - k)) * n + v)%r3.
Let e := ((2 * (k * k) - 1) * n - (k / f) * v)%r3.
Let u := (k * n - (/ (2 * f)) * v)%r3.

Lemma vv_k : v ∙ v = 4 * (f * f) * (1 - k * k).
Proof. rewrite Ek. field. lra. Qed.
Lemma k_half : / 2 < k * k.
Proof. pose proof vv_k. assert (0 < f * f) by (apply Rmult_lt_0_compat; lra). nra. Qed.
Lemma u_unit : is_unit u.
Proof. pose proof vv_k as V. unfold is_unit, u in *. autorewrite with dotr. rewrite Un, (dot_comm n v), Vn, V. field. lra. Qed.
Lemma n_u : n ∙ u = k.
Proof. unfold u. autorewrite with dotr. rewrite (dot_comm n v), Vn, Un. field. lra. Qed.
Lemma e_refl : refl u (- n)%r3 = e.
Proof.
  unfold refl. replace ((- n)%r3 ∙ u) with (- k) by (rewrite <- n_u; autorewrite with dotr; ring). unfold e, u. replace (k / f) with (2 * k * / (2 * f)) by (field; lra). set (g := / (2 * f)). clearbody g. gr.
Qed.
Lemma e_unit : is_unit e.
Proof. rewrite <- e_refl. apply refl_unit; [exact u_unit|]. unfold is_unit in *. autorewrite with dotr. lra. Qed.
Lemma at_Q : at_t p (- n)%r3 t1 = Q.
Proof. rewrite Ep. unfold t1, Q. set (s := 2 * f * (1 - k)). clearbody s. unfold at_t. gr. Qed.
Let C := (c + (2 * f) * n)%r3.
Lemma C_Q : (C - Q)%r3 = (2 * f * u)%r3.
Proof. unfold C, Q, u. replace (2 * f * (k * n - / (2 * f) * v))%r3 with ((2 * f * k) * n - (2 * f * / (2 * f)) * v)%r3 by (set (g := / (2 * f)); clearbody g; gr). rewrite Rinv_r by lra. gr. Qed.
Lemma at_focus : at_t Q e (f / k) = (c + (2 * f - f / k) * n)%r3.
Proof.
  unfold at_t, e, Q. replace ((f / k) * ((2 * (k * k) - 1) * n - (k / f) * v))%r3 with ((f / k * (2 * (k * k) - 1)) * n - (f / k * (k / f)) * v)%r3 by (set (g := k / f); set (g' := f / k); clearbody g g'; gr).
  replace (f / k * (k / f)) with 1 by (field; lra). replace (f / k * (2 * (k * k) - 1)) with (2 * f * k - f / k) by (field; lra). set (g := f / k). clearbody g. gr.
Qed.
Lemma focus_bound : 0 <= f / k - f <= (v ∙ v) / (4 * f).
Proof.
  pose proof k_half. rewrite vv_k. replace (4 * (f * f) * (1 - k * k) / (4 * f)) with (f * (1 - k * k)) by (field; lra). replace (f / k - f) with (f * ((1 - k) * / k)) by (field; lra).
  assert (0 < / k) by (apply Rinv_0_lt_compat; lra). split; [apply Rmult_le_pos; [lra|apply Rmult_le_pos; lra]|]. apply Rmult_le_compat_l; [lra|].
  apply Rmult_le_reg_r with k; [lra|]. rewrite Rmult_assoc, Rinv_l by lra. assert (1 <= k * (1 + k)) by nra. nra.
Qed.

(** the hit of the incoming ray *)
Lemma concave_hits r rm : ray_is r p (- n)%r3 -> 1e-9 < t1 <= rm -> reports r rm (OMirror m) t1 (fv Q) (Some (fv u)).
Proof.
  intros Hr L. assert (Hd : is_unit (- n)%r3) by (unfold is_unit in *; autorewrite with dotr; lra). assert (Nn : n <> r3zero) by (apply unit_nonzero; exact Un). assert (F0 : f <> 0) by lra.
  pose proof (concave_complete c n D w0 h0 f tg "normal" dmd m r p (- n)%r3 Nn F0 Em Hd Hr) as (h & Eh & Fl & Near). rewrite (dirn_of_unit n Un) in *. fold C in Fl, Near. rewrite (Rabs_pos_eq f) in * by lra.
  assert (Zt : z = t1 + 2 * f * (1 - k)) by (unfold t1; ring). assert (S0 : 0 <= 2 * f * (1 - k)) by (apply Rmult_le_pos; lra).
  assert (Mp : meets_plane c n p (- n)%r3 z).
  { split; [autorewrite with dotr; unfold is_unit in Un; rewrite Un, Rabs_Ropp, Rabs_R1; lra|]. split; [lra|]. rewrite Ep. unfold on_plane. replace (at_t (c + z * n + v)%r3 (- n)%r3 z) with (c + v)%r3 by (unfold at_t; gr). autorewrite with dotr. rewrite Vn. lra. }
  assert (Az : at_t p (- n)%r3 z = (c + v)%r3) by (rewrite Ep; unfold at_t; gr).
  assert (Ld : dist3 (at_t p (- n)%r3 z) c < D / 2). { rewrite Az. unfold dist3. replace (c + v - c)%r3 with v by (gr). exact VD. }
  assert (OnQ : on_sphere C (2 * f) (at_t p (- n)%r3 t1)).
  { rewrite at_Q. unfold on_sphere. rewrite dist3_sym. unfold dist3. rewrite C_Q, len_scale, (len_unit u u_unit), Rabs_pos_eq; lra. }
  assert (Ft : h4_flag h = true). { apply Fl. split; [exists z; auto|]. right. exists t1. split; [lra|exact OnQ]. }
  destruct (concave_hit c n D w0 h0 f tg "normal" dmd m r p (- n)%r3 h Nn F0 Em Hd Hr Eh Ft) as (_ & t & Pt & On & Nm & _ & Lt). rewrite (dirn_of_unit n Un) in *. fold C in On, Nm, Lt. rewrite (Rabs_pos_eq f) in * by lra.
  assert (Et : t = t1).
  { pose proof (Near t Pt z t1 Mp ltac:(lra) OnQ) as Nr.
    assert (D1 : forall s, dist3 (at_t p (- n)%r3 z) (at_t p (- n)%r3 s) = Rabs (z - s)). { intros s. unfold dist3. replace (at_t p (- n)%r3 z - at_t p (- n)%r3 s)%r3 with ((s - z) * n)%r3 by (unfold at_t; gr). rewrite len_scale, (len_unit n Un), Rmult_1_r. apply Rabs_minus_sym. }
    rewrite !D1 in Nr. rewrite (Rabs_pos_eq (z - t1)) in Nr by lra.
    assert (Sq : forall s, on_sphere C (2 * f) (at_t p (- n)%r3 s) -> (z - s - 2 * f) * (z - s - 2 * f) + v ∙ v = 4 * (f * f)).
    { intros s Os. unfold on_sphere in Os. pose proof (dist3_sq (at_t p (- n)%r3 s) C) as X. rewrite Os in X. rewrite Ep in X. replace (at_t (c + z * n + v)%r3 (- n)%r3 s - C)%r3 with ((z - s - 2 * f) * n + v)%r3 in X by (unfold at_t, C; gr).
      autorewrite with dotr in X. unfold is_unit in Un. rewrite Un, (dot_comm n v), Vn in X. lra. }
    pose proof (Sq _ On) as S1. pose proof vv_k as V. pose proof k_half as Kh. pose proof (Rle_abs (z - t)) as Nr1. pose proof (Rle_abs (- (z - t))) as Nr2. rewrite Rabs_Ropp in Nr2. rewrite V in S1.
    assert (X : (z - t - 2 * f - 2 * f * k) * (z - t - 2 * f + 2 * f * k) = 0) by lra. apply Rmult_integral in X. destruct X as [X|X]; [|unfold t1; lra].
    assert (f * k > 0) by (apply Rmult_lt_0_compat; lra). lra. }
  subst t. rewrite at_Q in *. split; [reflexivity|]. exists (h4_sfo h). cbn [optic_test_intersect].
  split; [|split].
  - rewrite Eh. destruct h as [fl pt nn s]. cbn in *. rewrite Ft, Pt, Nm, C_Q. do 4 f_equal. f_equal. replace (/ (2 * f) * (2 * f * u))%r3 with ((/ (2 * f) * (2 * f)) * u)%r3 by (set (g := / (2 * f)); clearbody g; gr). rewrite Rinv_l by lra. gr.
  - rewrite (proj1 Hr), <- at_Q, distance_fv. rewrite fly_to by (try assumption; lra). reflexivity.
  - lra.
Qed.
Lemma concave_not_again r rm x pt nn : ray_is r Q e -> ~ reports r rm (OMirror m) x pt nn.
Proof.
  intros Hr (_ & s & E & _). cbn [optic_test_intersect] in E. assert (Nn : n <> r3zero) by (apply unit_nonzero; exact Un).
  destruct (concave_hit c n D w0 h0 f tg "normal" dmd m r Q e _ Nn ltac:(lra) Em e_unit Hr E eq_refl) as ((t & (_ & L & O) & _) & _). rewrite (dirn_of_unit n Un) in O.
  unfold on_plane, at_t, Q, e in O. autorewrite with dotr in O. rewrite Vn in O. unfold is_unit in Un. rewrite Un in O. pose proof k_half as Kh. assert (0 < t * (2 * (k * k) - 1)) by (apply Rmult_lt_0_compat; lra).
  assert (0 <= f * (1 - k)) by (apply Rmult_le_pos; lra). lra.
Qed.
Lemma concave_test_ok r q d : ray_is r q d -> is_unit d -> test_ok r (OMirror m).
Proof.
  intros Hr Hd. assert (Nn : n <> r3zero) by (apply unit_nonzero; exact Un). destruct (concave_complete c n D w0 h0 f tg "normal" dmd m r q d Nn ltac:(lra) Em Hd Hr) as (h & Eh & _). right. exists h. split; [exact Eh|].
  intros Ft. destruct (concave_hit c n D w0 h0 f tg "normal" dmd m r q d h Nn ltac:(lra) Em Hd Hr Eh Ft) as (_ & t & Pt & _). rewrite Pt. discriminate.
Qed.

Lemma concave_run r w j mx fuel : ray_is r p (- n)%r3 -> blocked r = false -> ray_type r <> "faerie_fire"%string -> nth_error w j = Some (OMirror m) -> 1e-9 < t1 < mx ->
  (forall i o, nth_error w i = Some o -> i <> j -> off_path p (- n)%r3 t1 o /\ off_path Q e (mx - t1) o) -> mx / 1e-12 + 1 < INR fuel ->
  exists r', run fuel r (Fin mx) w None = Ok (r', w) /\ ray_is r' (at_t Q e (mx - t1)) e /\ blocked r' = false /\ point_history r' = point_history r ++ [fv Q; fv (at_t Q e (mx - t1))].
Proof.
  intros Hr B Ty En L Off Lf. assert (Hd : is_unit (- n)%r3) by (unfold is_unit in *; autorewrite with dotr; lra).
  pose proof (concave_hits r mx Hr ltac:(lra)) as R.
  assert (Tk : Forall (test_ok r) w). { apply (all_ok r w j _ (off_path p (- n)%r3 t1) En (concave_test_ok r _ _ Hr Hd)); [intros i o Ei Ni; exact (proj1 (Off i o Ei Ni))|intros o O; exact (off_ok _ _ _ _ _ O Hr Hd)]. }
  assert (Ch : chosen r mx w j t1 (fv Q) (Some (fv u))) by (apply (chosen_intro _ _ _ _ _ _ _ _ En R); intros i o' x' pt' n' Ei Ni R'; exact (off_far _ _ _ _ _ _ _ _ _ (proj1 (Off i o' Ei Ni)) Hr Hd R')).
  destruct (side_bound r w j _ Tk En eq_refl) as (sd & Es).
  assert (Ac : act r t1 (fv Q) (Some (fv u)) (OMirror m) w = Ok (set_direction (fly r (Fin t1)) (fv e), OMirror m)).
  { unfold act. apply String.eqb_neq in Ty. rewrite Ty, Es. cbn [bound bind optic_do_intersect]. unfold mirror_do_intersect. rewrite concave_type. change (String.eqb "normal" "normal") with true. cbn iota. cbn [need bind].
    rewrite (reflect_fv (fly r (Fin t1)) (- n)%r3 u (proj2 Hr)) by (apply unit_nonzero; first [exact Hd|exact u_unit]). rewrite !dirn_of_unit by first [exact Hd|exact u_unit]. rewrite e_refl. reflexivity. }
  pose proof (fly_ray _ _ _ t1 Hr) as Hf. rewrite at_Q in Hf. pose proof (set_dir_ray _ _ _ e Hf) as Hs. set (r2 := set_direction (fly r (Fin t1)) (fv e)) in *.
  assert (Fl : flows r w mx (Ok (fly r2 (Fin (mx - t1)), w))).
  { eapply F_hit with (o' := OMirror m); try eassumption; [lra|]. rewrite (set_nth_self _ _ _ En). apply F_free; [lra|exact B| |].
    - apply (all_ok r2 w j _ (off_path Q e (mx - t1)) En (concave_test_ok r2 _ _ Hs e_unit)); [intros i o Ei Ni; exact (proj2 (Off i o Ei Ni))|intros o O; exact (off_ok _ _ _ _ _ O Hs e_unit)].
    - intros i o x pt nn Ei R'. destruct (Nat.eq_dec i j) as [->|Ni]; [rewrite En in Ei; injection Ei as <-; exact (concave_not_again _ _ _ _ _ Hs R')|].
      pose proof (off_far _ _ _ _ _ _ _ _ _ (proj2 (Off i o Ei Ni)) Hs e_unit R') as X. destruct R' as (_ & ? & _ & _ & Y). lra. }
  exists (fly r2 (Fin (mx - t1))). pose proof (run_terminates mx None r w fuel (or_introl Lf)) as NF. rewrite (flows_det _ _ _ _ (run_flows fuel r mx w NF) _ Fl). split; [reflexivity|]. split; [apply fly_ray; exact Hs|]. split; [exact B|].
  rewrite (fly_history _ _ _ _ Hs). unfold r2. cbn [set_direction point_history]. rewrite (fly_history _ _ _ _ Hr), at_Q, <- app_assoc. reflexivity.
Qed.
End Concave.

(** C86: a ray antiparallel to the axis of a concave mirror of type normal, at the distance [h] from the axis (inside the aperture, h^2 < 2 f^2), in a scene whose other optics are not in the way.
    With k = sqrt (1 - h^2 / 4f^2), the cosine of incidence: the ray is reflected at the point of the sphere with this offset, crosses the axis at the distance f/k after the reflection, in the point
    at 2f - f/k from the vertex, which is at most h^2 / 4f from the focus (at f) on the side of the mirror; and flies on without meeting the mirror again. *)
Theorem C86_focus : forall c n D f w0 h0 tg dmd m p r w j mx fuel, is_unit n -> 0 < f ->
  mk_mirror (fv c) "circular_concave_spherical" (Some (fv n)) (Some (Fin D)) w0 h0 (Some (Fin f)) tg "normal" dmd = Ok m ->
  ray_is r p (- n)%r3 -> blocked r = false -> ray_type r <> "faerie_fire"%string -> nth_error w j = Some (OMirror m) ->
  let h := axis_dist c n p in h < D / 2 -> h * h < 2 * (f * f) ->
  let k := sqrt (1 - h * h / (4 * (f * f))) in let t1 := (p - c)%r3 ∙ n - 2 * f * (1 - k) in let Q := at_t p (- n)%r3 t1 in
  let F := (c + (2 * f - f / k) * n)%r3 in
  1e-9 < t1 < mx -> mx / 1e-12 + 1 < INR fuel ->
  exists e, is_unit e /\ on_sphere (c + (2 * f) * n)%r3 (2 * f) Q /\ at_t Q e (f / k) = F /\ 0 <= f - (2 * f - f / k) <= h * h / (4 * f) /\
    ((forall i o, nth_error w i = Some o -> i <> j -> off_path p (- n)%r3 t1 o /\ off_path Q e (mx - t1) o) ->
     exists r', run fuel r (Fin mx) w None = Ok (r', w) /\ ray_is r' (at_t Q e (mx - t1)) e /\ blocked r' = false /\ point_history r' = point_history r ++ [fv Q; fv (at_t Q e (mx - t1))]).
Proof.
  intros c n D f w0 h0 tg dmd m p r w j mx fuel Un Pf Em Hr B Ty En h Hh Hf k t1 Q F L Lf. set (v := perp n (p - c)%r3). set (z := (p - c)%r3 ∙ n) in *.
  assert (Vn : v ∙ n = 0) by (unfold v, perp; autorewrite with dotr; unfold is_unit in Un; rewrite Un; fold z; unfold z; ring).
  assert (Ep : p = (c + z * n + v)%r3) by (unfold v, perp; fold z; clearbody z; gr).
  assert (Hv : h * h = v ∙ v) by (unfold h, axis_dist; rewrite len_sq; reflexivity). assert (Lh : len v = h) by reflexivity.
  assert (Pq : 0 < 1 - h * h / (4 * (f * f))). { assert (0 < f * f) by (apply Rmult_lt_0_compat; lra). apply Rmult_lt_reg_r with (4 * (f * f)); [lra|]. replace ((1 - h * h / (4 * (f * f))) * (4 * (f * f))) with (4 * (f * f) - h * h) by (field; lra). lra. }
  assert (Ek : k * k = 1 - (v ∙ v) / (4 * (f * f))) by (unfold k; rewrite sqrt_sqrt by lra; rewrite Hv; reflexivity). assert (Kp : 0 < k) by (apply sqrt_lt_R0; exact Pq).
  assert (K1 : k <= 1). { assert (0 <= v ∙ v / (4 * (f * f))). { rewrite <- Hv. apply Rmult_le_pos; [apply Rle_0_sqr|]. apply Rlt_le, Rinv_0_lt_compat. assert (0 < f * f) by (apply Rmult_lt_0_compat; lra). lra. } nra. }
  rewrite Hv in Hf. rewrite <- Lh in Hh. assert (EQ : Q = (c + (2 * f * (1 - k)) * n + v)%r3) by (unfold Q, t1; apply at_Q; exact Ep). rewrite EQ. exists ((2 * (k * k) - 1) * n - (k / f) * v)%r3.
  split; [eapply e_unit; eassumption|]. split.
  { unfold on_sphere. rewrite dist3_sym. unfold dist3. rewrite (C_Q c n f Pf v k), len_scale, (len_unit _ (u_unit n f Un Pf v k Vn Ek)), Rabs_pos_eq; lra. }
  split; [unfold F; apply at_focus; assumption|]. split; [replace (f - (2 * f - f / k)) with (f / k - f) by ring; rewrite Hv; eapply focus_bound; eassumption|].
  intros Off. exact (concave_run c n D f w0 h0 tg dmd m Un Pf Em p v z k Vn Ep Kp K1 Ek Hf Hh r w j mx fuel Hr B Ty En L Off Lf).
Qed.
Print Assumptions C86_focus.

(** a mirror of focal length 100 and diameter 50 at the origin, a ray at the height 10 *)
Example C86_hyp : exists m, mk_mirror (fv r3zero) "circular_concave_spherical" (Some (fv e_z)) (Some (Fin 50)) None None (Some (Fin 100)) None "normal" (Some (fv e_z)) = Ok m /\
  let p := mk3 10 0 150 in let h := axis_dist r3zero e_z p in let k := sqrt (1 - h * h / (4 * (100 * 100))) in
  is_unit e_z /\ h = 10 /\ h < 50 / 2 /\ h * h < 2 * (100 * 100) /\ 1e-9 < (p - r3zero)%r3 ∙ e_z - 2 * 100 * (1 - k) < 300 /\
  forall i o, nth_error [OMirror m] i = Some o -> i <> 0%nat -> off_path p (- e_z)%r3 0 o /\ off_path p e_z 0 o.
Proof.
  eexists. split.
  { unfold mk_mirror. cbn [unit_vector_o]. rewrite unit_vector_unit by apply e_z_unit. cbn [bind]. change (String.eqb "circular_concave_spherical" "circular_flat") with false.
    change (String.eqb "circular_concave_spherical" "rectangular_flat") with false. change (String.eqb "circular_concave_spherical" "circular_concave_spherical") with true. cbn iota. cbn [need bind].
    rewrite nofZ_fin, nmul_fin, vscale_fv, vadd_fv. unfold mk_circle, mk_sphere. rewrite check_D_only, check_R_only. cbn [bind]. reflexivity. }
  intros p h k. assert (Eh : h = 10). { unfold h, axis_dist, p, perp. apply len_eq_of_sq; [lra|]. unfold e_z, r3sub, r3scale, r3dot, r3zero. cbn [cx cy cz]. ring. }
  assert (Kb : 0.9 <= k <= 1). { unfold k. rewrite Eh. split; [rewrite <- (sqrt_square 0.9) by lra; apply sqrt_le_1; lra|]. rewrite <- sqrt_1 at 2. apply sqrt_le_1; lra. }
  assert (Ez : (p - r3zero)%r3 ∙ e_z = 150) by (unfold p, e_z, r3sub, r3dot, r3zero; cbn [cx cy cz]; ring). rewrite Ez, Eh. split; [apply e_z_unit|]. split; [reflexivity|]. split; [lra|]. split; [lra|]. split; [lra|].
  intros [|i] o E N; [lia|destruct i; discriminate].
Qed.
