(** Reflection, refraction and ideal lenses (optics3d.py:651-786). *)
From Coq Require Import Reals ZArith Lra Lia Psatz List String Bool.
From Verif Require Import PyErr Num Vec Shapes Csg Optics Spec XReal RVec VecProofs FlatProofs.
Import ListNotations.
Local Open Scope R_scope.

(** everything about the ray except its direction *)
Definition same_but_direction {T} (r r' : ray T) : Prop :=
  position r' = position r /\ wavelength r' = wavelength r /\ order r' = order r /\
  point_history r' = point_history r /\ blocked r' = blocked r /\ ray_type r' = ray_type r.

Lemma set_direction_same {T} (r : ray T) d : same_but_direction r (set_direction r d).
Proof. repeat split. Qed.

(* ---- specular reflection ---- *)
Definition refl (u i : R3) : R3 := (i - (2 * (i ∙ u)) * u)%r3.
Lemma refl_unit u i : is_unit u -> is_unit i -> is_unit (refl u i).
Proof.
  unfold is_unit, refl. intros Hu Hi. autorewrite with dotr. rewrite (dot_comm u i), Hu, Hi. ring.
Qed.
Lemma refl_opp u i : refl (- u) i = refl u i. Proof. unfold refl. r3_ring. Qed.
Lemma refl_normal u i : is_unit u -> refl u i ∙ u = - (i ∙ u).
Proof. unfold is_unit, refl. intros Hu. autorewrite with dotr. rewrite Hu. ring. Qed.
Lemma refl_tangential u i : is_unit u -> perp u (refl u i) = perp u i.
Proof.
  intros Hu. unfold perp at 1. rewrite refl_normal by exact Hu. unfold refl, perp. r3_ring.
Qed.
Lemma refl_invol u i : is_unit u -> refl u (refl u i) = i.
Proof. intros Hu. unfold refl at 1. rewrite refl_normal by exact Hu. unfold refl. r3_ring. Qed.

Lemma reflect_fv r d n : direction r = fv d -> d <> r3zero -> n <> r3zero ->
  reflect_specular r (fv n) = set_direction r (fv (refl (dirn n) (dirn d))).
Proof.
  intros Hd Nd Nn. unfold reflect_specular. rewrite Hd, !unit_vector_fv by assumption.
  rewrite dot_fv, nofZ_fin, nmul_fin, vscale_fv, vsub_fv.
  rewrite unit_vector_unit; [reflexivity|]. apply refl_unit; apply dirn_unit; assumption.
Qed.

Lemma reflect_spec r d n : direction r = fv d -> d <> r3zero -> n <> r3zero ->
  let r' := reflect_specular r (fv n) in
  (exists o, direction r' = fv o /\ is_unit o /\
     o ∙ dirn n = - (dirn d ∙ dirn n) /\ perp (dirn n) o = perp (dirn n) (dirn d)) /\
  same_but_direction r r' /\
  (forall k, k <> 0 -> reflect_specular r (fv (k * n)%r3) = r') /\
  direction (reflect_specular r' (fv n)) = fv (dirn d).
Proof.
  intros Hd Nd Nn r'. assert (Ud := dirn_unit d Nd). assert (Un := dirn_unit n Nn).
  assert (E : r' = set_direction r (fv (refl (dirn n) (dirn d)))) by (apply reflect_fv; assumption).
  split; [|split; [|split]].
  - exists (refl (dirn n) (dirn d)). rewrite E. split; [reflexivity|]. split; [apply refl_unit; assumption|].
    split; [apply refl_normal, Un|apply refl_tangential, Un].
  - rewrite E. apply set_direction_same.
  - intros k Hk. rewrite E, (reflect_fv r d) by (try apply scale_nonzero; assumption). f_equal. f_equal.
    destruct (dirn_scale_any k n Hk Nn) as [->| ->]; [reflexivity|apply refl_opp].
  - rewrite (reflect_fv r' (refl (dirn n) (dirn d))); [|now rewrite E|apply unit_nonzero, refl_unit; assumption|exact Nn].
    cbn. f_equal. rewrite (dirn_of_unit (refl _ _)) by (apply refl_unit; assumption). apply refl_invol, Un.
Qed.

(* ---- Snell ---- *)
(** sine of the angle between a unit vector and the surface normal *)
Definition sine (n i : R3) : R := len (perp n i).
Definition total_reflection (eta1 eta2 : R) (n i : R3) : Prop := eta1 > eta2 /\ eta1 * sine n i > eta2.
Lemma sine_sq n i : is_unit n -> is_unit i -> sine n i * sine n i = 1 - (i ∙ n) * (i ∙ n).
Proof.
  intros Hn Hi. unfold sine. rewrite len_sq. unfold perp, is_unit in *. autorewrite with dotr.
  rewrite (dot_comm n i), Hn, Hi. ring.
Qed.
Lemma sine_bound n i : is_unit n -> is_unit i -> 0 <= sine n i <= 1.
Proof.
  intros Hn Hi. pose proof (sine_sq n i Hn Hi). assert (0 <= sine n i) by apply len_nonneg.
  pose proof (Rle_0_sqr (i ∙ n)). unfold Rsqr in *. split; [assumption|]. nra.
Qed.
Lemma sine_opp n i : sine (- n) i = sine n i.
Proof. unfold sine. now rewrite perp_opp. Qed.

(** the transmitted direction, for the normal facing the incident ray *)
Definition snell_dir (ratio : R) (n i : R3) : R3 :=
  let c := - (i ∙ n) in (ratio * i + (ratio * c - sqrt (1 - ratio * ratio * (1 - c * c))) * n)%r3.
Definition facing (n i : R3) : R3 := if Rltb (i ∙ n) 0 then n else (- n)%r3.
Lemma facing_unit n i : is_unit n -> is_unit (facing n i).
Proof. intros H. unfold facing. destruct (Rltb _ _); [exact H|apply unit_opp, H]. Qed.
Lemma facing_neg n i : i ∙ facing n i <= 0.
Proof. unfold facing. destruct (Rltb_spec (i ∙ n) 0); rewrite ?dot_opp_r; lra. Qed.
Lemma facing_abs n i : i ∙ facing n i = - Rabs (i ∙ n).
Proof. unfold facing, Rabs. destruct (Rltb_spec (i ∙ n) 0), (Rcase_abs (i ∙ n)); rewrite ?dot_opp_r; lra. Qed.
Lemma facing_perp n i x : perp (facing n i) x = perp n x.
Proof. unfold facing. destruct (Rltb _ _); [reflexivity|apply perp_opp]. Qed.

Lemma snell_disc eta1 eta2 n i : 0 < eta1 -> 0 < eta2 -> is_unit n -> is_unit i ->
  let c := i ∙ n in let q := (eta1 / eta2) * (eta1 / eta2) * (1 - c * c) in
  (total_reflection eta1 eta2 n i <-> eta1 > eta2 /\ q > 1) /\ (~ total_reflection eta1 eta2 n i -> 0 <= q <= 1).
Proof.
  intros H1 H2 Hn Hi c q. pose proof (sine_sq n i Hn Hi) as S2. pose proof (sine_bound n i Hn Hi) as SB.
  assert (Q : q = ((eta1 * sine n i) / eta2) * ((eta1 * sine n i) / eta2)).
  { unfold q, c. rewrite <- S2. field. lra. }
  set (x := eta1 * sine n i) in *. assert (X0 : 0 <= x) by (apply Rmult_le_pos; lra).
  assert (A : q > 1 <-> x > eta2).
  { rewrite Q. split; intros K.
    - apply Rnot_le_gt. intros L. assert (x / eta2 <= 1) by (apply Rmult_le_reg_r with eta2; [lra|]; field_simplify; lra).
      assert (0 <= x / eta2) by (apply Rmult_le_pos; [lra|left; apply Rinv_0_lt_compat; lra]). nra.
    - assert (1 < x / eta2) by (apply Rmult_lt_reg_r with eta2; [lra|]; field_simplify; lra). nra. }
  split; [unfold total_reflection; fold x; rewrite A; tauto|]. intros NT. split.
  - rewrite Q. apply Rle_0_sqr.
  - apply Rnot_gt_le. intros K. apply NT. split; [|apply A, K].
    apply A in K. unfold x in K. assert (eta1 * sine n i <= eta1 * 1) by (apply Rmult_le_compat_l; lra). lra.
Qed.

Lemma snell_fv r i n eta1 eta2 : direction r = fv i -> is_unit i -> is_unit n -> 0 < eta1 -> 0 < eta2 ->
  (total_reflection eta1 eta2 n i -> refract_snells_law r (fv n) (Fin eta1) (Fin eta2) = Ok (set_direction r (fv (refl n i)))) /\
  (~ total_reflection eta1 eta2 n i -> refract_snells_law r (fv n) (Fin eta1) (Fin eta2)
     = Ok (set_direction r (fv (snell_dir (eta1 / eta2) (facing n i) i)))).
Proof.
  intros Hd Hi Hn H1 H2. destruct (snell_disc eta1 eta2 n i H1 H2 Hn Hi) as [A B]. cbv zeta in A, B.
  unfold refract_snells_law. rewrite Hd, dot_fv, (nofZ_fin 0), nlt_fin.
  replace (if Rltb (i ∙ n) 0 then fv n else vopp (fv n)) with (fv (facing n i)) by (unfold facing; destruct (Rltb _ _); reflexivity).
  rewrite vopp_fv, dot_fv, neqb_fin, (Reqb_false eta2 0) by lra. rewrite ndiv_fin by lra.
  rewrite dot_opp_l, (nofZ_fin 1), !nmul_fin, !nsub_fin, !nmul_fin, !ngt_fin.
  assert (CC : - (i ∙ facing n i) * - (i ∙ facing n i) = (i ∙ n) * (i ∙ n)).
  { rewrite facing_abs. rewrite Ropp_involutive. rewrite <- Rabs_mult. apply Rabs_right. apply Rle_ge, Rle_0_sqr. }
  split; intros K.
  - apply A in K. destruct K as [K1 K2]. rewrite (Rltb_true eta2 eta1) by lra. rewrite CC, (Rltb_true 1) by exact K2.
    f_equal. rewrite (reflect_fv r i n) by (assumption || (apply unit_nonzero; assumption)). now rewrite !dirn_of_unit.
  - specialize (B K).
    replace (if Rltb eta2 eta1 then _ else false) with false.
    2:{ destruct (Rltb_spec eta2 eta1); [|reflexivity]. rewrite CC, Rltb_false; [reflexivity|apply B]. }
    rewrite !nsub_fin, nsqrt_fin by (rewrite CC; lra). rewrite nsub_fin, !vscale_fv, vadd_fv. reflexivity.
Qed.

Lemma snell_dir_props ratio n i : is_unit n -> is_unit i -> i ∙ n <= 0 -> 0 < ratio ->
  ratio * ratio * (1 - (i ∙ n) * (i ∙ n)) <= 1 ->
  let t := snell_dir ratio n i in
  is_unit t /\ perp n t = (ratio * perp n i)%r3 /\ t ∙ n = - sqrt (1 - ratio * ratio * (1 - (i ∙ n) * (i ∙ n))).
Proof.
  intros Hn Hi Hc Hr Hq t. unfold t, snell_dir.
  replace (- (i ∙ n) * - (i ∙ n)) with ((i ∙ n) * (i ∙ n)) by ring.
  set (c := i ∙ n) in *. set (s := sqrt _). assert (Es : s * s = 1 - ratio * ratio * (1 - c * c)) by (apply sqrt_sqrt; lra).
  assert (E3 : (ratio * i + (ratio * - c - s) * n)%r3 ∙ n = - s).
  { autorewrite with dotr. fold c. unfold is_unit in Hn. rewrite Hn. ring. }
  split; [|split; [|exact E3]].
  - unfold is_unit in *. autorewrite with dotr. rewrite (dot_comm n i). fold c. rewrite Hn, Hi.
    transitivity (ratio * ratio * (1 - c * c) + s * s); [ring|rewrite Es; ring].
  - unfold perp at 1. rewrite E3. unfold perp. fold c. r3_ring.
Qed.

Lemma facing_opp n i : i ∙ n <> 0 -> facing (- n) i = facing n i.
Proof.
  intros H. unfold facing. rewrite dot_opp_r. destruct (Rltb_spec (- (i ∙ n)) 0), (Rltb_spec (i ∙ n) 0); try lra; try reflexivity. r3_ring.
Qed.
Lemma total_opp eta1 eta2 n i : total_reflection eta1 eta2 (- n) i <-> total_reflection eta1 eta2 n i.
Proof. unfold total_reflection. now rewrite sine_opp. Qed.

(** C24, C25 *)
Lemma snell_spec r i n eta1 eta2 : direction r = fv i -> is_unit i -> is_unit n -> 0 < eta1 -> 0 < eta2 ->
  ~ total_reflection eta1 eta2 n i ->
  exists t, refract_snells_law r (fv n) (Fin eta1) (Fin eta2) = Ok (set_direction r (fv t)) /\
    is_unit t /\ (eta1 * perp n i)%r3 = (eta2 * perp n t)%r3 /\ eta1 * sine n i = eta2 * sine n t /\
    0 <= (i ∙ n) * (t ∙ n) /\ (i ∙ n <> 0 -> eta1 * sine n i < eta2 -> 0 < (i ∙ n) * (t ∙ n)) /\
    (i ∙ n <> 0 -> refract_snells_law r (fv (- n)%r3) (Fin eta1) (Fin eta2) = Ok (set_direction r (fv t))).
Proof.
  intros Hd Hi Hn H1 H2 NT. destruct (snell_fv r i n eta1 eta2 Hd Hi Hn H1 H2) as [_ E]. specialize (E NT).
  set (t := snell_dir (eta1 / eta2) (facing n i) i) in *. exists t. split; [exact E|].
  destruct (snell_disc eta1 eta2 n i H1 H2 Hn Hi) as [A B]. cbv zeta in A, B. specialize (B NT).
  assert (CC : (i ∙ facing n i) * (i ∙ facing n i) = (i ∙ n) * (i ∙ n)).
  { rewrite facing_abs. replace (- Rabs (i ∙ n) * - Rabs (i ∙ n)) with (Rabs (i ∙ n) * Rabs (i ∙ n)) by ring.
    rewrite <- Rabs_mult. apply Rabs_right. apply Rle_ge, Rle_0_sqr. }
  assert (Hq : 0 < eta1 / eta2) by (apply Rdiv_lt_0_compat; lra).
  destruct (snell_dir_props (eta1 / eta2) (facing n i) i (facing_unit n i Hn) Hi (facing_neg n i) Hq) as (U & P & D).
  { rewrite CC. apply B. }
  fold t in U, P, D. rewrite !facing_perp in P. rewrite CC in D.
  assert (P' : (eta1 * perp n i)%r3 = (eta2 * perp n t)%r3).
  { rewrite P. generalize (perp n i). intros x. apply r3_ext; cbn; field; lra. }
  assert (Dn : t ∙ n = (if Rltb (i ∙ n) 0 then -1 else 1) * sqrt (1 - eta1 / eta2 * (eta1 / eta2) * (1 - (i ∙ n) * (i ∙ n)))).
  { unfold facing in D. destruct (Rltb (i ∙ n) 0); [rewrite D; ring|]. rewrite dot_opp_r in D. lra. }
  set (q := eta1 / eta2 * (eta1 / eta2) * (1 - (i ∙ n) * (i ∙ n))) in *.
  split; [exact U|]. split; [exact P'|]. split.
  { unfold sine. apply (f_equal len) in P'. rewrite !len_scale, !Rabs_right in P' by lra. exact P'. }
  split; [|split].
  - rewrite Dn. pose proof (sqrt_pos (1 - q)). destruct (Rltb_spec (i ∙ n) 0); nra.
  - intros Hin Hs. assert (Q1 : q < 1).
    { pose proof (sine_sq n i Hn Hi) as S2. pose proof (sine_bound n i Hn Hi) as SB.
      assert (Q : q = ((eta1 * sine n i) / eta2) * ((eta1 * sine n i) / eta2)) by (unfold q; rewrite <- S2; field; lra).
      assert (0 <= eta1 * sine n i) by (apply Rmult_le_pos; lra).
      assert (0 <= eta1 * sine n i / eta2) by (apply Rmult_le_pos; [lra|left; apply Rinv_0_lt_compat; lra]).
      assert (eta1 * sine n i / eta2 < 1) by (apply Rmult_lt_reg_r with eta2; [lra|]; field_simplify; lra).
      rewrite Q. nra. }
    pose proof (sqrt_lt_R0 (1 - q) ltac:(lra)). rewrite Dn. destruct (Rltb_spec (i ∙ n) 0); nra.
  - intros Hin. destruct (snell_fv r i (- n)%r3 eta1 eta2 Hd Hi (unit_opp n Hn) H1 H2) as [_ E'].
    rewrite E' by (rewrite total_opp; exact NT). unfold t. now rewrite facing_opp.
Qed.

(** a unit vector is determined by its tangential part and the sign of its normal component *)
Lemma unit_determined n a b : is_unit n -> is_unit a -> is_unit b -> perp n a = perp n b -> 0 <= (a ∙ n) * (b ∙ n) -> a = b.
Proof.
  intros Hn Ha Hb P S. pose proof (sine_sq n a Hn Ha) as A. pose proof (sine_sq n b Hn Hb) as B.
  unfold sine in *. rewrite P in A. assert (E : (a ∙ n) * (a ∙ n) = (b ∙ n) * (b ∙ n)) by lra.
  assert (a ∙ n = b ∙ n). { assert ((a ∙ n - b ∙ n) * (a ∙ n + b ∙ n) = 0) by lra. apply Rmult_integral in H. destruct H; nra. }
  unfold perp in P. rewrite H in P. revert P. generalize (b ∙ n). intros k P. destruct a, b, n. unfold r3sub, r3scale in P. cbn in P.
  injection P; intros. f_equal; lra.
Qed.

Lemma snell_reversible r r' i n t eta1 eta2 : direction r = fv i -> is_unit i -> is_unit n -> 0 < eta1 -> 0 < eta2 ->
  ~ total_reflection eta1 eta2 n i -> refract_snells_law r (fv n) (Fin eta1) (Fin eta2) = Ok (set_direction r (fv t)) ->
  direction r' = fv (- t)%r3 -> t ∙ n <> 0 \/ i ∙ n <= 0 ->
  refract_snells_law r' (fv n) (Fin eta2) (Fin eta1) = Ok (set_direction r' (fv (- i)%r3)).
Proof.
  intros Hd Hi Hn H1 H2 NT E Hd' Hg.
  destruct (snell_spec r i n eta1 eta2 Hd Hi Hn H1 H2 NT) as (t' & E' & U & P & S & Sg & Sg' & _).
  rewrite E in E'. assert (t = t').
  { assert (X : direction (set_direction r (fv t)) = direction (set_direction r (fv t'))) by congruence. cbn in X. apply fv_inj, X. }
  subst t'. clear E'.
  assert (NT' : ~ total_reflection eta2 eta1 n (- t)%r3).
  { unfold total_reflection. replace (sine n (- t)%r3) with (sine n t).
    2:{ unfold sine. replace (perp n (- t))%r3 with (- perp n t)%r3 by r3_ring. now rewrite len_opp. }
    rewrite <- S. pose proof (sine_bound n i Hn Hi). intros [_ K]. assert (eta1 * sine n i <= eta1 * 1) by (apply Rmult_le_compat_l; lra). lra. }
  destruct (snell_spec r' (- t)%r3 n eta2 eta1 Hd' (unit_opp t U) Hn H2 H1 NT') as (w & Ew & Uw & Pw & Sw & Sgw & _ & _).
  rewrite Ew. f_equal. f_equal. f_equal.
  assert (Pi : perp n w = perp n (- i)%r3).
  { assert (X : (eta1 * perp n w)%r3 = (eta1 * perp n (- i))%r3).
    { rewrite <- Pw. replace (perp n (- i))%r3 with (- perp n i)%r3 by r3_ring. replace (perp n (- t))%r3 with (- perp n t)%r3 by r3_ring.
      replace (eta1 * - perp n i)%r3 with (- (eta1 * perp n i))%r3 by r3_ring. rewrite P. r3_ring. }
    revert X. generalize (perp n w), (perp n (- i)%r3). intros x y X. destruct x, y. unfold r3scale in X. cbn in X. injection X; intros.
    f_equal; apply Rmult_eq_reg_l with eta1; lra. }
  apply (unit_determined n); auto using unit_opp. rewrite dot_opp_l.
  rewrite dot_opp_l in Sgw.
  pose proof (sine_sq n t Hn U) as St. pose proof (sine_sq n i Hn Hi) as Si.
  destruct (Req_dec (t ∙ n) 0) as [Z|Z].
  - (* grazing transmitted ray: the code picks the positive side *)
    destruct Hg as [Hg|Hg]; [contradiction|].
    assert (0 <= w ∙ n).
    { destruct (snell_fv r' (- t)%r3 n eta2 eta1 Hd' (unit_opp t U) Hn H2 H1) as [_ Y]. specialize (Y NT'). rewrite Ew in Y.
      assert (X : direction (set_direction r' (fv w)) = direction (set_direction r' (fv (snell_dir (eta2 / eta1) (facing n (- t)%r3) (- t)%r3)))) by congruence.
      cbn in X. apply fv_inj in X.
      assert (F : facing n (- t)%r3 = (- n)%r3). { unfold facing. rewrite dot_opp_l, Z. rewrite Rltb_false by lra. reflexivity. }
      rewrite F in X.
      destruct (snell_dir_props (eta2 / eta1) (- n)%r3 (- t)%r3 (unit_opp n Hn) (unit_opp t U)) as (_ & _ & D).
      { autorewrite with dotr. lra. }
      { apply Rdiv_lt_0_compat; lra. }
      { destruct (snell_disc eta2 eta1 n (- t)%r3 H2 H1 Hn (unit_opp t U)) as [_ B]. cbv zeta in B. specialize (B NT').
        rewrite dot_opp_r. set (k := (- t)%r3 ∙ n) in *. replace (- k * - k) with (k * k) by ring. lra. }
      rewrite <- X, dot_opp_r in D. pose proof (sqrt_pos (1 - eta2 / eta1 * (eta2 / eta1) * (1 - (- t)%r3 ∙ (- n)%r3 * ((- t)%r3 ∙ (- n)%r3)))). lra. }
    assert (0 <= - (i ∙ n)) by lra. apply Rmult_le_pos; assumption.
  - clear - Z Sg Sgw. revert Z Sg Sgw. generalize (t ∙ n), (i ∙ n), (w ∙ n). intros x y z Z A B.
    destruct (Rtotal_order x 0) as [L|[L|L]]; [|contradiction|].
    + assert (0 <= z) by (apply Rmult_le_reg_l with (- x); lra). assert (y <= 0) by (apply Rmult_le_reg_l with (- x); lra).
      apply Rmult_le_pos; lra.
    + assert (z <= 0) by (apply Rmult_le_reg_l with x; lra). assert (0 <= y) by (apply Rmult_le_reg_l with x; lra).
      replace (z * - y) with (- z * y) by ring. apply Rmult_le_pos; lra.
Qed.

(* ---- ideal lenses ---- *)
(** the lens axis pointing the way the ray travels *)
Definition forward (n d : R3) : R3 := if Rltb (n ∙ d) 0 then (- n)%r3 else n.
Lemma forward_unit n d : is_unit n -> is_unit (forward n d).
Proof. intros H. unfold forward. destruct (Rltb _ _); [apply unit_opp, H|exact H]. Qed.
Lemma forward_nonneg n d : 0 <= forward n d ∙ d.
Proof. unfold forward. destruct (Rltb_spec (n ∙ d) 0); rewrite ?dot_opp_l; lra. Qed.
Lemma forward_sign n d : forward n d = n \/ forward n d = (- n)%r3.
Proof. unfold forward. destruct (Rltb _ _); auto. Qed.
Lemma oriented_fv n d : oriented_normal (fv n) (fv d) = fv (forward n d).
Proof. unfold oriented_normal, forward. rewrite dot_fv, (nofZ_fin 0), nlt_fin. destruct (Rltb _ _); reflexivity. Qed.

(** componentwise closeness with the tolerances of np.allclose(rtol=1e-10, atol=1e-8) *)
Definition near1 (a b : R) : Prop := Rabs (a - b) <= 1e-8 + 1e-10 * Rabs b.
Definition near3 (a b : R3) : Prop := near1 (cx a) (cx b) /\ near1 (cy a) (cy b) /\ near1 (cz a) (cz b).

Lemma near_fv a b : vallclose (fv a) (fv b) (dec 1 10) (dec 1 8) = true <-> near3 a b.
Proof.
  unfold vallclose, near3, near1. rewrite !dec_fin by lia. rewrite !vx_fv, !vy_fv, !vz_fv, !isclose_fin, !andb_true_iff.
  repeat match goal with |- context [Rleb ?x ?y] => destruct (Rleb_spec x y) end; cbn in *; intuition (try lra; try discriminate).
Qed.
Lemma near_zero a : isclose (Fin a) (Fin 0) (dec 1 10) (dec 1 8) = true <-> Rabs a <= 1e-8.
Proof.
  rewrite !dec_fin by lia. rewrite isclose_fin. rewrite Rabs_R0, Rminus_0_r.
  destruct (Rleb_spec (Rabs a) (1 / IZR (10 ^ 8) + 1 / IZR (10 ^ 10) * 0)); cbn in *; intuition (try lra; try discriminate).
Qed.
(** a ray travelling forward is never near the backward axis *)
Lemma not_near_back n d : is_unit n -> 0 <= n ∙ d -> ~ near3 d (- n).
Proof.
  unfold is_unit, near3, near1. intros Hn Hd (A & B & C). destruct n as [x y z], d as [a b c]. unfold r3dot, r3opp in *. cbn in *.
  rewrite !Rabs_Ropp in *.
  assert (Hx : Rabs x <= 1) by (apply Rabs_le_iff; nra). assert (Hy : Rabs y <= 1) by (apply Rabs_le_iff; nra).
  assert (Hz : Rabs z <= 1) by (apply Rabs_le_iff; nra).
  assert (K : forall u v, Rabs v <= 1 -> Rabs (u - - v) <= 1e-8 + 1e-10 * Rabs v -> v * u <= - (v * v) + 1e-7).
  { intros u v V W. assert (Q : Rabs (v * (u - - v)) <= 1e-7).
    { rewrite Rabs_mult. pose proof (Rabs_pos v). pose proof (Rabs_pos (u - - v)).
      apply Rle_trans with (1 * Rabs (u - - v)); [apply Rmult_le_compat_r; lra|lra]. }
    apply Rabs_le_iff in Q. lra. }
  pose proof (K a x Hx A). pose proof (K b y Hy B). pose proof (K c z Hz C). lra.
Qed.

Definition thin_lens (l : lens xr) (c n : R3) (f : R) : Prop :=
  le_position l = fv c /\ le_normal l = Some (fv n) /\ le_f l = Some (Fin f).

(** direction produced, by branch *)
Lemma thin_fv r l c n f d x : thin_lens l c n f -> is_unit n -> direction r = fv d -> f <> 0 ->
  let N := forward n d in
  let out v := refract_thin_lens r l (fv x) = Ok (set_direction r (fv (dirn v))) in
  (Rabs (N ∙ d) <= 1e-8 -> refract_thin_lens r l (fv x) = Ok r) /\
  (~ Rabs (N ∙ d) <= 1e-8 -> near3 d N -> forall p, position r = fv p -> (c + f * N - p)%r3 <> r3zero -> out (c + f * N - p)%r3) /\
  (~ Rabs (N ∙ d) <= 1e-8 -> ~ near3 d N -> let v := ((2 * f / (N ∙ d)) * d - 2 * (x - c))%r3 in v <> r3zero -> out v).
Proof.
  intros (Lp & Ln & Lf) Hn Hd Hf N out. unfold out, refract_thin_lens. rewrite Lp, Ln. cbn [need bind].
  rewrite Hd, oriented_fv. fold N. rewrite dot_fv, (nofZ_fin 0). rewrite vsub_fv, Lf. cbn [need bind].
  split; [|split].
  - intros H. apply near_zero in H. now rewrite H.
  - intros H1 H2 p Hp Nz. replace (isclose _ _ _ _) with false by (symmetry; apply not_true_is_false; intros K; apply near_zero in K; contradiction).
    apply near_fv in H2. rewrite H2. cbn [orb]. rewrite Hp. autorewrite with xr. rewrite vdivs_fv by (pose proof (len_pos _ Nz); lra).
    reflexivity.
  - intros H1 H2 Nz. set (v := ((2 * f / (N ∙ d)) * d - 2 * (x - c))%r3) in *. replace (isclose _ _ _ _) with false by (symmetry; apply not_true_is_false; intros K; apply near_zero in K; contradiction).
    replace (vallclose (fv d) (fv N) _ _) with false by (symmetry; apply not_true_is_false; intros K; apply near_fv in K; contradiction).
    rewrite vopp_fv.
    replace (vallclose (fv d) (fv (- N)) _ _) with false.
    2:{ symmetry; apply not_true_is_false; intros K; apply near_fv in K. revert K. apply not_near_back; [apply forward_unit, Hn|apply forward_nonneg]. }
    cbn [orb]. rewrite dot_fv, (nofZ_fin 2), nmul_fin, (dot_comm d N).
    rewrite ndiv_fin by (intros Z; apply H1; rewrite Z, Rabs_R0; lra).
    rewrite vopp_fv, vscale_fv, vadd_fv, vopp_fv, vsub_fv.
    match goal with |- context [vdivs (fv ?w) _] => replace w with v end.
    2:{ unfold v. r3_ring. }
    rewrite norm_fv, vdivs_fv by (pose proof (len_pos _ Nz); lra). reflexivity.
Qed.

(** C27: object point o at axial distance s, height h; any ray from it through the lens plane *)
Lemma thin_lens_image r l c n f d o s h x k : thin_lens l c n f -> is_unit n -> f <> 0 -> direction r = fv d -> is_unit d ->
  let N := forward n d in
  0 < s -> h ∙ N = 0 -> o = (c - s * N + h)%r3 -> x = at_t o d k -> on_plane c n x ->
  ~ Rabs (N ∙ d) <= 1e-8 -> ~ near3 d N ->
  exists v, refract_thin_lens r l (fv x) = Ok (set_direction r (fv v)) /\ is_unit v /\
  (s <> f -> let s' := / (/ f - / s) in exists t, at_t x v t = (c + s' * N - (s' / s) * h)%r3) /\
  (s = f -> exists t, v = (t * (c - o))%r3).
Proof.
  intros HL Hn Hf Hd Ud N Hs Hh Ho Hx Hpl Hg Hnr.
  assert (UN : is_unit N) by apply forward_unit, Hn. assert (DN : 0 <= N ∙ d) by apply forward_nonneg.
  assert (DP : 0 < N ∙ d). { destruct DN as [L|E]; [exact L|]. exfalso. apply Hg. rewrite <- E, Rabs_R0. lra. }
  set (dn := N ∙ d) in *.
  (* the ray reaches the plane at parameter s / dn *)
  assert (PN : (x - c)%r3 ∙ N = 0).
  { unfold on_plane in Hpl. unfold N. destruct (forward_sign n d) as [-> | ->]; rewrite ?dot_opp_r, Hpl; ring. }
  assert (K : k = s / dn).
  { rewrite Hx, Ho in PN. unfold at_t in PN. autorewrite with dotr in PN. rewrite Hh in PN. unfold is_unit in UN. rewrite UN in PN.
    rewrite (dot_comm d N) in PN. fold dn in PN. apply Rmult_eq_reg_r with dn; [|lra]. unfold Rdiv. rewrite Rmult_assoc, Rinv_l by lra. lra. }
  assert (XC : (x - c)%r3 = (h + (s / dn) * d - s * N)%r3) by (rewrite Hx, Ho, K; r3_ring).
  set (v0 := ((2 * f / dn) * d - 2 * (x - c))%r3).
  assert (V0N : v0 ∙ N = 2 * f).
  { unfold v0. autorewrite with dotr. rewrite <- dot_sub_l, PN, (dot_comm d N). fold dn. field. lra. }
  assert (NZ : v0 <> r3zero) by (intros E; rewrite E, dot_zero_l in V0N; lra).
  destruct (thin_fv r l c n f d x HL Hn Hd Hf) as (_ & _ & E). specialize (E Hg Hnr NZ).
  exists (dirn v0). split; [exact E|]. split; [apply dirn_unit, NZ|].
  pose proof (len_pos v0 NZ) as Lv. split.
  - intros Hsf s'. exists (s' / f / 2 * len v0). unfold at_t, dirn.
    assert (X : x = (c + h + (s / dn) * d - s * N)%r3) by (rewrite Hx, Ho, K; r3_ring).
    replace ((s' / f / 2 * len v0) * (/ len v0 * v0))%r3 with ((s' / f / 2) * v0)%r3.
    2:{ generalize v0 Lv. intros w Lw. apply r3_ext; cbn; field; lra. }
    unfold v0. rewrite XC, X. unfold s'. clear - Hsf Hf DP Hs. destruct c, h, d, N.
    unfold r3add, r3sub, r3scale. apply r3_ext; cbn; field; repeat split; lra.
  - intros <-. exists (2 / len v0). unfold dirn, v0 at 2. rewrite XC, Ho. fold v0.
    generalize (len v0) Lv. intros L HL'. clear - HL' DP. destruct c, h, d, N.
    unfold r3add, r3sub, r3scale. apply r3_ext; cbn; field; repeat split; lra.
Qed.

(** C28 *)
Lemma forward_self n N : is_unit n -> N = n \/ N = (- n)%r3 -> forward n N = N.
Proof.
  unfold is_unit, forward. intros Hn [-> | ->]; autorewrite with dotr; rewrite Hn.
  - rewrite Rltb_false by lra. reflexivity.
  - rewrite Rltb_true by lra. reflexivity.
Qed.
Lemma near3_refl a : near3 a a.
Proof.
  assert (K : forall x, near1 x x). { intros x. unfold near1. rewrite Rminus_diag_eq by reflexivity. rewrite Rabs_R0. pose proof (Rabs_pos x). lra. }
  repeat split; apply K.
Qed.
Lemma plane_forward c n d p : on_plane c n p -> (p - c)%r3 ∙ forward n d = 0.
Proof. unfold on_plane. intros H. destruct (forward_sign n d) as [-> | ->]; rewrite ?dot_opp_r, H; ring. Qed.

Lemma focal_vec_dot c n f d p : is_unit n -> on_plane c n p -> (c + f * forward n d - p)%r3 ∙ forward n d = f.
Proof.
  intros Hn Hp. pose proof (plane_forward c n d p Hp) as H. pose proof (forward_unit n d Hn) as U. unfold is_unit in U.
  autorewrite with dotr in *. rewrite U. lra.
Qed.
Lemma dirn_dot_sign v N k : v ∙ N = k -> v <> r3zero -> dirn v ∙ N = k / len v.
Proof. intros H Nz. unfold dirn. rewrite dot_scale_l, H. unfold Rdiv. ring. Qed.

Lemma thin_lens_parallel r l c n f N p x : thin_lens l c n f -> is_unit n -> f <> 0 -> N = n \/ N = (- n)%r3 ->
  direction r = fv N -> position r = fv p -> on_plane c n p ->
  let v := (c + f * N - p)%r3 in v <> r3zero /\ refract_thin_lens r l (fv x) = Ok (set_direction r (fv (dirn v))).
Proof.
  intros HL Hn Hf HN Hd Hp Hpl v. pose proof (forward_self n N Hn HN) as F.
  assert (UN : is_unit N) by (destruct HN as [-> | ->]; [exact Hn|apply unit_opp, Hn]).
  assert (V : v ∙ N = f). { pose proof (focal_vec_dot c n f N p Hn Hpl) as K. rewrite F in K. exact K. }
  assert (NZ : v <> r3zero) by (intros E; rewrite E, dot_zero_l in V; lra).
  split; [exact NZ|]. destruct (thin_fv r l c n f N x HL Hn Hd Hf) as (_ & E & _). cbv zeta in E. rewrite F in E.
  apply (E ltac:(unfold is_unit in UN; rewrite UN, Rabs_R1; lra) (near3_refl N) p Hp NZ).
Qed.

Lemma thin_lens_central r l c n f d : thin_lens l c n f -> is_unit n -> 0 < f -> direction r = fv d -> is_unit d ->
  ~ near3 d (forward n d) -> refract_thin_lens r l (fv c) = Ok (set_direction r (fv d)).
Proof.
  intros HL Hn Hf Hd Ud Hnr. destruct (thin_fv r l c n f d c HL Hn Hd ltac:(lra)) as (G & _ & E). cbv zeta in G, E.
  destruct (Rle_dec (Rabs (forward n d ∙ d)) 1e-8) as [Hg|Hg].
  - rewrite (G Hg). rewrite <- Hd. destruct r; reflexivity.
  - pose proof (forward_nonneg n d) as DN. set (N := forward n d) in *.
    assert (DP : 0 < N ∙ d). { destruct DN as [L|K]; [exact L|]. exfalso. apply Hg. rewrite <- K, Rabs_R0. lra. }
    replace ((2 * f / (N ∙ d)) * d - 2 * (c - c))%r3 with ((2 * f / (N ∙ d)) * d)%r3 in E by r3_ring.
    assert (P : 0 < 2 * f / (N ∙ d)) by (apply Rdiv_lt_0_compat; lra).
    rewrite (E Hg Hnr) by (apply scale_nonzero; [lra|apply unit_nonzero, Ud]).
    now rewrite dirn_pos_scale, dirn_of_unit by (auto using unit_nonzero; lra).
Qed.

(** sign of the axial component afterwards is the sign of f *)
Lemma thin_lens_side r l c n f d p : thin_lens l c n f -> is_unit n -> f <> 0 -> direction r = fv d -> is_unit d ->
  position r = fv p -> on_plane c n p ->
  exists o, refract_thin_lens r l (fv p) = Ok (set_direction r (fv o)) /\ is_unit o /\
   (Rabs (n ∙ d) <= 1e-8 -> o = d) /\
   (~ Rabs (n ∙ d) <= 1e-8 -> 0 < f * (o ∙ forward n d)).
Proof.
  intros HL Hn Hf Hd Ud Hp Hpl. destruct (thin_fv r l c n f d p HL Hn Hd Hf) as (G & P & E). cbv zeta in G, P, E.
  set (N := forward n d) in *.
  assert (AB : Rabs (N ∙ d) = Rabs (n ∙ d)). { unfold N. destruct (forward_sign n d) as [-> | ->]; rewrite ?dot_opp_l, ?Rabs_Ropp; reflexivity. }
  assert (FS : forall x, x <> 0 -> forall y, 0 < y -> 0 < x * (x / y)).
  { intros x Hx y Hy. replace (x * (x / y)) with ((x * x) / y) by (field; lra). apply Rdiv_lt_0_compat; [|lra]. nra. }
  destruct (Rle_dec (Rabs (N ∙ d)) 1e-8) as [Hg|Hg].
  - exists d. split; [rewrite (G Hg), <- Hd; destruct r; reflexivity|]. split; [exact Ud|]. split; [reflexivity|]. rewrite <- AB. contradiction.
  - pose proof (focal_vec_dot c n f d p Hn Hpl) as V. fold N in V.
    assert (NZ : (c + f * N - p)%r3 <> r3zero) by (intros Z; rewrite Z, dot_zero_l in V; lra).
    pose proof (forward_nonneg n d) as DN. fold N in DN.
    assert (DP : 0 < N ∙ d). { destruct DN as [L|K]; [exact L|]. exfalso. apply Hg. rewrite <- K, Rabs_R0. lra. }
    assert (NEAR : near3 d N \/ ~ near3 d N).
    { destruct (vallclose (fv d) (fv N) (dec 1 10) (dec 1 8)) eqn:Q; [left|right]; rewrite <- near_fv, Q; [reflexivity|discriminate]. }
    destruct NEAR as [Hnr|Hnr].
    + exists (dirn (c + f * N - p)%r3). split; [apply (P Hg Hnr p Hp NZ)|]. split; [apply dirn_unit, NZ|]. split; [rewrite <- AB; contradiction|].
      intros _. rewrite (dirn_dot_sign _ _ _ V NZ). apply FS; [exact Hf|apply len_pos, NZ].
    + set (v := ((2 * f / (N ∙ d)) * d - 2 * (p - c))%r3) in *.
      assert (V2 : v ∙ N = 2 * f).
      { unfold v. pose proof (plane_forward c n d p Hpl) as PN. fold N in PN. autorewrite with dotr in *. rewrite (dot_comm d N). rewrite PN. field. lra. }
      assert (NZ2 : v <> r3zero) by (intros Z; rewrite Z, dot_zero_l in V2; lra).
      exists (dirn v). split; [apply (E Hg Hnr NZ2)|]. split; [apply dirn_unit, NZ2|]. split; [rewrite <- AB; contradiction|].
      intros _. rewrite (dirn_dot_sign _ _ _ V2 NZ2). pose proof (FS f Hf (len v) (len_pos _ NZ2)).
      replace (f * (2 * f / len v)) with (2 * (f * (f / len v))) by (unfold Rdiv; ring). lra.
Qed.

(* ---- ideal collimate / focus ---- *)
Lemma collimate_spec r l n d : le_normal l = Some (fv n) -> is_unit n -> direction r = fv d ->
  refract_ideal_collimate r l = Ok (set_direction r (fv (forward n d))).
Proof.
  intros Ln Hn Hd. unfold refract_ideal_collimate. rewrite Ln. cbn [need bind]. rewrite Hd, oriented_fv.
  now rewrite unit_vector_unit by apply forward_unit, Hn.
Qed.
Lemma focus_spec r l c n f d p : thin_lens l c n f -> is_unit n -> f <> 0 -> direction r = fv d -> position r = fv p -> on_plane c n p ->
  let v := (c + f * forward n d - p)%r3 in v <> r3zero /\
  refract_ideal_focus r l = Ok (set_direction r (fv (dirn v))).
Proof.
  intros (Lp & Ln & Lf) Hn Hf Hd Hp Hpl v. pose proof (focal_vec_dot c n f d p Hn Hpl) as V. fold v in V.
  assert (NZ : v <> r3zero) by (intros E; rewrite E, dot_zero_l in V; lra). split; [exact NZ|].
  unfold refract_ideal_focus. rewrite Ln, Lf, Lp, Hd, Hp. cbn [need bind]. rewrite oriented_fv. autorewrite with xr.
  fold v. now rewrite vdivs_fv by (pose proof (len_pos v NZ); lra).
Qed.

(** lenses built by the constructor *)
Lemma mk_lens_thin c n shp D f ty ix l : n <> r3zero ->
  mk_lens (fv c) (Some (fv n)) shp D (Some (Fin f)) ty ix = Ok l -> thin_lens l c (dirn n) f /\ le_type l = ty.
Proof.
  intros Hn. unfold mk_lens. rewrite unit_vector_fv by exact Hn.
  destruct (shp =? "spherical_biconvex")%string.
  - destruct (mk_circle _ _ _ _); cbn; [|discriminate]. intros E; injection E; intros <-. repeat split.
  - destruct (shp =? "spherical")%string; [|discriminate].
    destruct (mk_sphere _ _ _); cbn; [|discriminate]. intros E; injection E; intros <-. repeat split.
Qed.
