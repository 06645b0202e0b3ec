(** Runs between flat circular mirrors in binary64. *)
From Coq Require Import ZArith Reals Floats.SpecFloat String List Bool Lia Lra Psatz.
From Flocq Require Import Core IEEE754.BinarySingleNaN.
From Verif Require Import PyErr Num Vec Shapes Csg Optics Spec RVec FloatInst FloatReal FloatVec FloatHit.
Import ListNotations.
Local Open Scope R_scope.

(* ------------------------------------------------------------------ geometry *)
(** the part of [v] across the direction [D] *)
Definition across (D v : R3) : R3 := (v - (v ∙ D) * D)%r3.
Lemma across_add D v w : across D (v + w)%r3 = (across D v + across D w)%r3.
Proof. unfold across. r3_ring. Qed.
Lemma across_scale D s v : across D (s * v)%r3 = (s * across D v)%r3.
Proof. unfold across. r3_ring. Qed.
Lemma across_sq D v : is_unit D -> across D v ∙ across D v = v ∙ v - (v ∙ D) * (v ∙ D).
Proof. intros U. unfold across. autorewrite with dotr. unfold is_unit in U. rewrite U, (dot_comm D v). ring. Qed.
Lemma across_le D v : is_unit D -> len (across D v) <= len v.
Proof. intros U. apply len_le_of; [apply len_nonneg|]. rewrite (across_sq D v U), len_sq. pose proof (Rle_0_sqr (v ∙ D)) as Q. unfold Rsqr in Q. lra. Qed.
Lemma across_self D : is_unit D -> across D D = r3zero.
Proof. intros U. unfold across. rewrite U. r3_ring. Qed.
Lemma across_split D v : v = (across D v + (v ∙ D) * D)%r3.
Proof. unfold across. r3_ring. Qed.
(** a vector in the mirror plane has the same part across the direction before and after the reflection *)
Lemma across_mirrored n D v : is_unit n -> is_unit D -> n ∙ v = 0 -> len (across (mirrored n D) v) = len (across D v).
Proof.
  intros Un UD Z. apply len_eq_of_sq; [apply len_nonneg|]. rewrite len_sq, !across_sq by (try apply mirrored_unit; assumption). unfold mirrored. autorewrite with dotr. rewrite (dot_comm v n), Z. ring.
Qed.
Lemma dot_mirrored n D v : n ∙ v = 0 -> v ∙ mirrored n D = v ∙ D.
Proof. intros Z. unfold mirrored. autorewrite with dotr. rewrite (dot_comm v n), Z. ring. Qed.
(** two nearby rays meet a plane at nearby points *)
Lemma meet_near n D dd P p c t t' del e f : is_unit n -> is_unit D -> is_unit dd -> 0 < del -> del <= Rabs (n ∙ D) ->
  len (across D (p - P)) <= e -> len (dd - D)%r3 <= f -> ((P + t * D) - c)%r3 ∙ n = 0 -> ((p + t' * dd) - c)%r3 ∙ n = 0 ->
  let v := ((p + t' * dd) - (P + t * D))%r3 in
  n ∙ v = 0 /\ len (across D v) <= e + Rabs t' * f /\ len v <= (1 + / del) * (e + Rabs t' * f) /\ Rabs ((t' - t) - (v - (p - P))%r3 ∙ D) <= Rabs t' * f.
Proof.
  intros Un UD Ud Pd Bd He Hf Ht Ht' v.
  assert (Z : n ∙ v = 0). { replace v with (((p + t' * dd) - c) - ((P + t * D) - c))%r3 by (unfold v; r3_ring). rewrite dot_sub_r, (dot_comm n), (dot_comm n), Ht, Ht'. ring. }
  assert (Ev : v = ((p - P) + (t' * (dd - D) + (t' - t) * D))%r3) by (unfold v; r3_ring).
  pose proof (Rabs_pos t') as A0. pose proof (Rmult_le_compat_l _ _ _ A0 Hf) as F1.
  assert (L1 : len (across D v) <= e + Rabs t' * f).
  { rewrite Ev, !across_add, !across_scale, (across_self D UD). replace (across D (p - P) + (t' * across D (dd - D) + (t' - t) * r3zero))%r3 with (across D (p - P) + t' * across D (dd - D))%r3 by (generalize (across D (p - P)) (across D (dd - D)); intros; r3_ring).
    eapply Rle_trans; [apply len_add|]. rewrite len_scale. pose proof (across_le D (dd - D)%r3 UD) as Q. pose proof (Rmult_le_compat_l _ _ _ A0 Q). lra. }
  split; [exact Z|]. split; [exact L1|]. split.
  - set (a := across D v) in *. pose proof (across_split D v) as Sp. fold a in Sp. assert (Al : Rabs (v ∙ D) <= len a * / del).
    { assert (E : (v ∙ D) * (n ∙ D) = - (n ∙ a)). { assert (Z' := Z). rewrite Sp in Z'. rewrite dot_add_r, dot_scale_r in Z'. lra. }
      assert (Rabs (v ∙ D) * Rabs (n ∙ D) <= len a). { rewrite <- Rabs_mult, E, Rabs_Ropp. eapply Rle_trans; [apply cauchy|]. rewrite (len_unit _ Un). lra. }
      apply Rmult_le_reg_r with del; [exact Pd|]. rewrite Rmult_assoc, Rinv_l, Rmult_1_r by lra. eapply Rle_trans; [|exact H]. apply Rmult_le_compat_l; [apply Rabs_pos|exact Bd]. }
    assert (Lv : len v <= len a + Rabs (v ∙ D)). { rewrite Sp at 1. eapply Rle_trans; [apply len_add|]. rewrite len_scale, (len_unit _ UD). lra. }
    assert (I : 0 < / del) by (apply Rinv_0_lt_compat; exact Pd). assert ((1 + / del) * len a <= (1 + / del) * (e + Rabs t' * f)) by (apply Rmult_le_compat_l; lra). lra.
  - replace (t' - t - (v - (p - P))%r3 ∙ D) with (- (t' * ((dd - D)%r3 ∙ D))). 2: { rewrite Ev. autorewrite with dotr. unfold is_unit in UD. rewrite UD. ring. }
    rewrite Rabs_Ropp, Rabs_mult. eapply Rle_trans; [apply Rmult_le_compat_l; [exact A0|apply cauchy]|]. rewrite (len_unit _ UD). lra.
Qed.

(* ------------------------------------------------------------------ scales *)
(** [S0] bounds the coordinates, [del] the cosines of incidence from below, [k] the number of legs, [mu] the margin of every decision *)
Definition gam (S0 del : R) : R := 1e-14 * (S0 / (del * del)).
Definition gd (S0 del : R) : R := 1e-14 * (S0 / (del * (del * del))).
Record scales (S0 del k mu : R) : Prop := mkScales {
  sc_S : 1 <= S0; sc_del : 0 < del; sc_del1 : del <= 1; sc_gd : gd S0 del <= 1e-10; sc_k : 1 <= k; sc_mu : 40 * (k * k) * gd S0 del <= mu; sc_mu1 : mu <= 1e-6; sc_mu2 : 2e-9 <= mu }.
Lemma cube_low del : 0 < del -> 1e-4 <= del * (del * del) -> 0.04 <= del.
Proof.
  intros P H. destruct (Rle_or_lt 0.04 del) as [L|L]; [exact L|]. exfalso. assert (del * del <= 0.04 * 0.04) by (apply Rmult_le_compat; lra).
  assert (del * (del * del) <= 0.04 * (0.04 * 0.04)) by (apply Rmult_le_compat; try lra; apply Rmult_le_pos; lra). lra.
Qed.
Lemma scale_facts S0 del k mu : scales S0 del k mu ->
  0.04 <= del /\ S0 <= 1e4 /\ k <= 1600 /\ 0 < gam S0 del /\ gd S0 del * del = gam S0 del /\ gam S0 del <= gd S0 del /\ 1e-14 * (S0 / del) = gam S0 del * del /\ gam S0 del * del <= gam S0 del /\ 1e-14 * S0 <= gam S0 del * del.
Proof.
  intros [HS P L G K M M1 M2]. unfold gam, gd in *.
  assert (P2 : 0 < del * del <= 1). { split; [apply Rmult_lt_0_compat; lra|]. rewrite <- (Rmult_1_r 1). apply Rmult_le_compat; lra. }
  assert (P3 : 0 < del * (del * del) <= 1). { split; [apply Rmult_lt_0_compat; lra|]. rewrite <- (Rmult_1_r 1). apply Rmult_le_compat; lra. }
  set (q := S0 / (del * (del * del))) in *. assert (Eq : S0 = q * (del * (del * del))) by (unfold q; field; lra).
  assert (Q1 : S0 <= q). { unfold q. apply Rmult_le_reg_r with (del * (del * del)); [lra|]. unfold Rdiv. rewrite Rmult_assoc, Rinv_l, Rmult_1_r by lra. rewrite <- (Rmult_1_r S0) at 2. apply Rmult_le_compat_l; lra. }
  assert (E2 : S0 / (del * del) = q * del) by (unfold q; field; lra). assert (E1 : S0 / del = q * del * del) by (unfold q; field; lra). rewrite E2, E1.
  assert (Q2 : 0 < q * del <= q). { split; [apply Rmult_lt_0_compat; lra|]. rewrite <- (Rmult_1_r q) at 2. apply Rmult_le_compat_l; lra. }
  assert (Q3 : q * del * del <= q * del). { rewrite <- (Rmult_1_r (q * del)) at 2. apply Rmult_le_compat_l; lra. }
  assert (Q4 : S0 <= q * del * del). { rewrite Eq. replace (q * (del * (del * del))) with (q * del * del * del) by ring. rewrite <- (Rmult_1_r (q * del * del)) at 2. apply Rmult_le_compat_l; [|lra]. replace (q * del * del) with (q * (del * del)) by ring. apply Rmult_le_pos; lra. }
  split.
  - apply cube_low; [exact P|]. apply Rmult_le_reg_l with q; [lra|]. rewrite <- Eq. lra.
  - split; [lra|]. split.
    + destruct (Rle_or_lt k 1600) as [L1|L1]; [exact L1|]. exfalso. assert (1600 * 1600 <= k * k) by (apply Rmult_le_compat; lra). assert (40 * (1600 * 1600) * (1e-14 * 1) <= 40 * (k * k) * (1e-14 * q)) by (apply Rmult_le_compat; lra). lra.
    + repeat split; lra.
Qed.

(** The ray [r], at [p] with direction [d], is near the exact ray from [P] along [D] after [x] reflections. *)
Record near (S0 del x : R) (P D p d : R3) : Prop := mkNear {
  ne_unit : is_unit D; ne_P : len P <= S0; ne_x : 0 <= x; ne_d : Rabs (len d - 1) <= 4e-16; ne_f : len (dirn d - D)%r3 <= 1e-14 * x;
  ne_e : len (across D (p - P)) <= 2.5 * (x * x) * gam S0 del; ne_q : len (p - P)%r3 <= 5 * (x * x) * gd S0 del }.
Definition time (c n P D : R3) : R := ((c - P)%r3 ∙ n) / (n ∙ D).
Lemma time_on c n P D : n ∙ D <> 0 -> ((P + time c n P D * D) - c)%r3 ∙ n = 0.
Proof. intros Z. unfold time. autorewrite with dotr. rewrite (dot_comm D n). field. exact Z. Qed.
Lemma unitish d : Rabs (len d - 1) <= 4e-16 -> d <> r3zero /\ is_unit (dirn d).
Proof. intros H. assert (d <> r3zero) by (apply Rabs_le_inv in H; apply (nonzero_of_len d (1/2)); lra). split; [assumption|apply dirn_unit; assumption]. Qed.
Lemma len_tri a b c : len (a - c)%r3 <= len (a - b)%r3 + len (b - c)%r3.
Proof. replace (a - c)%r3 with ((a - b) + (b - c))%r3 by r3_ring. apply len_add. Qed.
Lemma len_sub_comm a b : len (a - b)%r3 = len (b - a)%r3.
Proof. replace (a - b)%r3 with (- (b - a))%r3 by r3_ring. apply len_opp. Qed.
Lemma len_sub_le a b : len (a - b)%r3 <= len a + len b.
Proof. replace (a - b)%r3 with (a + - b)%r3 by r3_ring. eapply Rle_trans; [apply len_add|]. rewrite len_opp. lra. Qed.

Lemma time_near S0 del k mu x P D p d c n : scales S0 del k mu -> near S0 del x P D p d -> x + 1 <= k -> is_unit n -> len c <= S0 -> del <= Rabs (n ∙ D) ->
  let t := time c n P D in let t' := time c n p (dirn d) in let v := ((p + t' * dirn d) - (P + t * D))%r3 in
  0.99 * del <= Rabs (n ∙ dirn d) /\ len (c - p)%r3 <= 2.001 * S0 /\ Rabs t' <= 2.03 * (S0 / del) /\ n ∙ v = 0 /\
  len (across D v) <= (2.5 * (x * x) + 2.03 * x) * gam S0 del /\ len v <= (5 * (x * x) + 4.06 * x) * gd S0 del /\
  Rabs ((t' - t) - (v - (p - P))%r3 ∙ D) <= 2.03 * x * gam S0 del /\ Rabs (t' - t) <= (10 * (x * x) + 6.1 * x) * gd S0 del.
Proof.
  intros Sc [UD LP X0 Ld Hf He Hq] Xk Un Lc Bd t t' v. pose proof (scale_facts _ _ _ _ Sc) as (D0 & S1 & K1 & G0 & GD & GG & Gd & Gdd & GS). destruct Sc as [HS Pd Ld1 G K M M1 M2].
  set (g := gam S0 del) in *. set (h := gd S0 del) in *. destruct (unitish d Ld) as [_ Ud]. set (dd := dirn d) in *.
  assert (B1 : Rabs (n ∙ dd - n ∙ D) <= 1e-14 * x). { rewrite <- dot_sub_r. eapply Rle_trans; [apply cauchy|]. rewrite (len_unit _ Un). lra. }
  assert (B2 : 0.99 * del <= Rabs (n ∙ dd)). { pose proof (Rabs_triang (n ∙ dd) (- (n ∙ dd - n ∙ D))) as T. rewrite Rabs_Ropp in T. replace (n ∙ dd + - (n ∙ dd - n ∙ D)) with (n ∙ D) in T by ring. lra. }
  assert (XK : x * x <= k * k) by (apply Rmult_le_compat; lra).
  assert (XX : 0 <= x * x) by (apply Rmult_le_pos; lra). assert (h0 : 0 < h) by lra.
  assert (Bq : 5 * (x * x) * h <= 1.3e-7). { assert (x * x * h <= k * k * h) by (apply Rmult_le_compat_r; lra). lra. }
  assert (Lcp : len (c - p)%r3 <= 2.001 * S0). { eapply Rle_trans; [apply (len_tri c P p)|]. rewrite (len_sub_comm P p). pose proof (len_sub_le c P). lra. }
  assert (Bt : Rabs t' <= 2.03 * (S0 / del)).
  { eapply Rle_trans; [apply (t_bound1 c p n dd (0.99 * del)); [exact Un|lra|exact B2]|]. unfold Rdiv. rewrite Rinv_mult. assert (0 < / del) by (apply Rinv_0_lt_compat; lra).
    replace (2.03 * (S0 * / del)) with ((2.03 * S0) * / del) by ring. rewrite <- Rmult_assoc. apply Rmult_le_compat_r; lra. }
  assert (N1 : n ∙ D <> 0) by (intros Z; rewrite Z, Rabs_R0 in Bd; lra). assert (N2 : n ∙ dd <> 0) by (intros Z; rewrite Z, Rabs_R0 in B2; lra).
  destruct (meet_near n D dd P p c t t' del _ _ Un UD Ud Pd Bd He Hf (time_on _ _ _ _ N1) (time_on _ _ _ _ N2)) as (Z & V1 & V2 & V3). fold v in Z, V1, V2, V3.
  assert (TF : Rabs t' * (1e-14 * x) <= 2.03 * x * g). { apply Rle_trans with (2.03 * (S0 / del) * (1e-14 * x)); [apply Rmult_le_compat_r; lra|]. replace (2.03 * (S0 / del) * (1e-14 * x)) with (2.03 * x * (1e-14 * (S0 / del))) by ring. rewrite Gd. apply Rmult_le_compat_l; lra. }
  assert (V2' : len v <= (5 * (x * x) + 4.06 * x) * h).
  { eapply Rle_trans; [exact V2|]. assert (I : 1 <= / del). { apply Rmult_le_reg_r with del; [lra|]. rewrite Rinv_l by lra. lra. }
    assert (xg : 0 <= x * g) by (apply Rmult_le_pos; lra). assert (xxg : 0 <= x * x * g) by (apply Rmult_le_pos; lra).
    apply Rle_trans with (2 * / del * (2.5 * (x * x) * g + 2.03 * x * g)).
    - pose proof (Rabs_pos t'). apply Rmult_le_compat; try lra. apply Rplus_le_le_0_compat; [lra|]. apply Rmult_le_pos; lra.
    - assert (Q : forall a b, 2 * / del * (a * (h * del) + b * (h * del)) = (2 * a + 2 * b) * h) by (intros; field; lra). rewrite <- GD, Q. right. lra. }
  split; [exact B2|]. split; [exact Lcp|]. split; [exact Bt|]. split; [exact Z|]. split; [lra|]. split; [exact V2'|]. split; [lra|].
  assert (VD : Rabs ((v - (p - P))%r3 ∙ D) <= len v + len (p - P)%r3). { eapply Rle_trans; [apply cauchy|]. rewrite (len_unit _ UD). pose proof (len_sub_le v (p - P)%r3). lra. }
  assert (A : Rabs (t' - t) <= Rabs ((t' - t) - (v - (p - P))%r3 ∙ D) + Rabs ((v - (p - P))%r3 ∙ D)) by (eapply Rle_trans; [|apply Rabs_triang]; right; f_equal; ring).
  assert (x * g <= x * h) by (apply Rmult_le_compat_l; lra). assert (0 <= x * h) by (apply Rmult_le_pos; lra). lra.
Qed.

(* ------------------------------------------------------------------ one mirror *)
(** A disc with its centre, its unit normal and its radius. *)
Record disc : Type := Disc { dc : R3; dn : R3; dr : R }.
(** The optic is a circular flat mirror of type normal with this disc ([Some]) or one of the optics that run skips ([None]). *)
Definition shows (o : optic b64) (q : option disc) : Prop :=
  match q with
  | None => skipped o = true
  | Some q => exists m ci pl n0, o = OMirror m /\ mi_shape m = "circular_flat"%string /\ mi_type m = "normal"%string /\ mi_surfaces m = [SCircle ci] /\ ci_plane ci = Some pl /\
      ci_center ci = pl_center pl /\ ci_normal ci = Some (pl_normal pl) /\ isr (ci_R ci) (dr q) /\ isv (pl_center pl) (dc q) /\ isv (pl_normal pl) n0 /\ Rabs (len n0 - 1) <= 4e-16 /\ dn q = dirn n0
  end.
Lemma shows_unit o q : shows o (Some q) -> is_unit (dn q).
Proof. intros (m & ci & pl & n0 & _ & _ & _ & _ & _ & _ & _ & _ & _ & _ & L & ->). apply (unitish n0 L). Qed.
Definition silent (o : optic b64) (r : ray b64) : Prop := optic_test_intersect o r = Ok (H4 false None None SfoNone).
(** reports a hit at [pt], real position [w], at the computed distance [delta], with a normal that reflects like [n] *)
Definition shoots (o : optic b64) (r : ray b64) (pt : vec b64) (nn : vec b64) (delta : R) : Prop :=
  optic_test_intersect o r = Ok (H4 true (Some pt) (Some nn) SfoNone) /\ isr (distance_between (position r) pt) delta.
Lemma below_inf x a : isr x a -> nlt x (ninf : b64) = true.
Proof. intros (_ & F & _). destruct x; try discriminate; reflexivity. Qed.
Lemma mirror_silent m ci (r : ray b64) : mi_shape m = "circular_flat"%string -> mi_surfaces m = [SCircle ci] -> circle_test_intersect ci r = Ok miss3 -> silent (OMirror m) r.
Proof. intros Es Ss E. unfold silent, optic_test_intersect, mirror_test_intersect. rewrite Es, Ss. cbn [String.eqb Ascii.eqb Bool.eqb orb flat_loop]. unfold flat_step. cbn [shape_test_intersect]. rewrite E. reflexivity. Qed.
Lemma mirror_shoots m ci pl (r : ray b64) pt delta : mi_shape m = "circular_flat"%string -> mi_surfaces m = [SCircle ci] -> ci_normal ci = Some (pl_normal pl) ->
  circle_test_intersect ci r = Ok (H3 true (Some pt) (Some (pl_normal pl))) -> isr (distance_between (position r) pt) delta -> shoots (OMirror m) r pt (pl_normal pl) delta.
Proof.
  intros Es Ss En E Hd. split; [|exact Hd]. unfold optic_test_intersect, mirror_test_intersect. rewrite Es, Ss. cbn [String.eqb Ascii.eqb Bool.eqb orb flat_loop]. unfold flat_step. cbn [shape_test_intersect]. rewrite E.
  cbn [unpack3 bind h3_flag h3_pt h3_normal need flat_init fs_min]. rewrite (below_inf _ _ Hd). cbn [surface_normal]. rewrite En. reflexivity.
Qed.

Lemma mirror_shows_near S0 del k mu x P D (r : ray b64) p d o q : scales S0 del k mu -> near S0 del x P D p d -> x + 1 <= k -> isv (position r) p -> isv (direction r) d -> shows o (Some q) -> len (dc q) <= S0 ->
  (Rabs (dn q ∙ D) <= 5e-10 -> silent o r) /\
  (del <= Rabs (dn q ∙ D) ->
   let t := time (dc q) (dn q) P D in let t' := time (dc q) (dn q) p (dirn d) in
   (t < - mu -> silent o r) /\
   (mu < t -> dr q + mu < len ((P + t * D) - dc q)%r3 -> silent o r) /\
   (Rabs ((dc q - p)%r3 ∙ dn q) <= 1.4 * gam S0 del -> silent o r) /\
   (mu < t -> silent o r \/ exists pt nn w delta, shoots o r pt nn delta /\ isv pt w /\ len (w - (p + t' * dirn d))%r3 <= 0.6 * gam S0 del /\ Rabs (delta - t') <= gam S0 del) /\
   (mu < t -> len ((P + t * D) - dc q)%r3 + mu < dr q ->
      exists pt nn w delta m0, shoots o r pt nn delta /\ isv pt w /\ len (w - (p + t' * dirn d))%r3 <= 0.6 * gam S0 del /\ Rabs (delta - t') <= gam S0 del /\
        isv nn m0 /\ Rabs (len m0 - 1) <= 4e-16 /\ dn q = dirn m0)).
Proof.
  intros Sc Ne Xk Hp Hd Sh Lc. pose proof (shows_unit _ _ Sh) as Un. destruct Sh as (m & ci & pl & n0 & -> & Es & _ & Ss & Epl & Ec & En & HR & Hc & Hn & Ln & Edn).
  pose proof Ne as [UD LP X0 Ld Hf He Hq]. destruct (unitish d Ld) as [Nd Ud]. destruct (unitish n0 Ln) as [Nn _]. 
  pose proof (scale_facts _ _ _ _ Sc) as (D0 & S1 & K1 & G0 & GD & GG & Gd & Gdd & GS).
  split.
  - intros B. apply (mirror_silent m ci r Es Ss). unfold circle_test_intersect. rewrite Epl. unfold plane_test_intersect.
    destruct (dot_units64 (pl_normal pl) (direction r) n0 d Hn Hd ltac:(apply Rabs_le_inv in Ln; apply mid_moderate; lra) ltac:(apply Rabs_le_inv in Ld; apply mid_moderate; lra)) as (z & Hz & Ez).
    destruct arb_isr as (a & Ha & Ba). unfold ngt. rewrite (isr_lt _ _ _ _ Ha (isr_abs _ _ Hz)). rewrite Rlt_bool_false; [reflexivity|].
    rewrite <- Edn in Ez. assert (Rabs (dn q ∙ dirn d - dn q ∙ D) <= 1e-14 * x). { rewrite <- dot_sub_r. eapply Rle_trans; [apply cauchy|]. rewrite (len_unit _ Un). lra. }
    replace z with ((z - dn q ∙ dirn d) + ((dn q ∙ dirn d - dn q ∙ D) + dn q ∙ D)) by ring. eapply Rle_trans; [apply Rabs_triang|]. pose proof (Rabs_triang (dn q ∙ dirn d - dn q ∙ D) (dn q ∙ D)). unfold eps64 in Ez. lra.
  - intros Bd t t'. pose proof (time_near _ _ _ _ _ _ _ _ _ (dc q) (dn q) Sc Ne Xk Un Lc Bd) as (B2 & Lcp & Bt & Zv & V1 & V2 & V3 & V4). fold t t' in Bt, Zv, V1, V2, V3, V4.
    destruct Sc as [HS Pd Ld1 G K M M1 M2]. set (g := gam S0 del) in *. set (h := gd S0 del) in *. set (n := dn q) in *. set (c := dc q) in *.
    assert (h0 : 0 < h) by lra. assert (XX : 0 <= x * x) by (apply Rmult_le_pos; lra). assert (XK : (x + 1) * (x + 1) <= k * k) by (apply Rmult_le_compat; lra).
    assert (xh : 0 <= x * h) by (apply Rmult_le_pos; lra). assert (xxh : 0 <= x * x * h) by (apply Rmult_le_pos; lra). assert (XKh : (x + 1) * (x + 1) * h <= k * k * h) by (apply Rmult_le_compat_r; lra).
    set (Q' := (p + t' * dirn d)%r3) in *. set (Q := (P + t * D)%r3) in *.
    assert (P99 : 0 < (0.99 * del) * (0.99 * del)) by (apply Rmult_lt_0_compat; lra).
    assert (BK : 0 <= 1e-14 * (len (c - p)%r3 / ((0.99 * del) * (0.99 * del))) <= 2.05 * g).
    { split; [apply Rmult_le_pos; [lra|]; apply Rmult_le_pos; [apply len_nonneg|left; apply Rinv_0_lt_compat; exact P99]|]. unfold g, gam.
      apply Rle_trans with (1e-14 * (2.001 * S0 / (0.99 * del * (0.99 * del)))); [apply Rmult_le_compat_l; [lra|]; apply Rmult_le_compat_r; [left; apply Rinv_0_lt_compat; exact P99|exact Lcp]|].
      assert (Qq : forall a b, b <> 0 -> a * S0 / (b * del * (b * del)) = a * / (b * b) * (S0 / (del * del))) by (intros; field; split; lra). rewrite Qq by lra. assert (0 < S0 / (del * del)) by (apply Rmult_lt_0_compat; [lra|apply Rinv_0_lt_compat, Rmult_lt_0_compat; lra]).
      replace (2.05 * (1e-14 * (S0 / (del * del)))) with (1e-14 * (2.05 * (S0 / (del * del)))) by ring. apply Rmult_le_compat_l; [lra|]. apply Rmult_le_compat_r; lra. }
    set (KK := len (c - p)%r3 / ((0.99 * del) * (0.99 * del))) in *.
    assert (Bp : len p <= 1.001 * S0). { replace p with ((p - P) + P)%r3 by r3_ring. eapply Rle_trans; [apply len_add|]. lra. }
    assert (LQ' : len Q' <= 1.001 * S0 + 2.03 * (S0 / del)). { unfold Q'. eapply Rle_trans; [apply len_add|]. rewrite len_scale, (len_unit _ Ud). lra. }
    pose proof (len_nonneg Q') as PQ'. assert (e0 : 1e-14 <= g) by lra.
    assert (Bb : 1e6 <= bpow radix2 100). { apply Rle_trans with (bpow radix2 20); [change (bpow radix2 20) with 1048576; lra|apply bpow_le; lia]. }
    destruct (circle64 ci pl r c n0 p d (0.99 * del) (dr q) Epl Ec HR Hc Hn Hp Hd Ln Ld ltac:(lra) ltac:(rewrite <- Edn; exact B2) ltac:(lra) ltac:(lra)) as (C1 & C2 & C3).
    fold KK in C1, C2, C3. rewrite <- Edn in C1, C2, C3. fold n in C1, C2, C3. change (((c - p)%r3 ∙ n) / (n ∙ dirn d)) with t' in C1, C2, C3. fold Q' in C1, C2.
    set (err := 2.7e-15 * KK + 1.2e-16 * len Q' + 1e-30) in *. assert (Be : 0 <= err <= 0.6 * g) by (unfold err; lra).
    assert (BQ : len (Q' - c)%r3 <= len (Q - c)%r3 + (5 * (x * x) + 4.06 * x) * h) by (pose proof (len_tri Q' Q c); lra).
    assert (BQ2 : len (Q - c)%r3 <= len (Q' - c)%r3 + (5 * (x * x) + 4.06 * x) * h) by (pose proof (len_tri Q Q' c) as T; rewrite (len_sub_comm Q Q') in T; lra).
    assert (BQ3 : 1e-15 * len (Q' - c)%r3 <= g) by (pose proof (len_sub_le Q' c); lra). pose proof (len_nonneg (Q' - c)%r3) as PQ3. apply Rabs_le_inv in V4.
    assert (Dist : forall pt w, 0 < t' -> isv pt w -> len (w - Q')%r3 <= err -> exists delta, isr (distance_between (position r) pt) delta /\ Rabs (delta - t') <= g).
    { intros pt w T0 Hw Ew. rewrite (Rabs_pos_eq t') in Bt by lra.
      assert (L0 : len (p - Q')%r3 = t'). { replace (p - Q')%r3 with ((- t') * dirn d)%r3 by (unfold Q'; r3_ring). rewrite len_scale, (len_unit _ Ud), Rabs_Ropp, Rabs_pos_eq by lra. ring. }
      assert (L1 : Rabs (len (p - w)%r3 - t') <= err). { rewrite <- L0. eapply Rle_trans; [apply len_close|]. replace ((p - w) - (p - Q'))%r3 with (- (w - Q'))%r3 by (generalize Q'; intros; r3_ring). rewrite len_opp. exact Ew. }
      apply Rabs_le_inv in L1. assert (B490 : bpow radix2 100 <= bpow radix2 490) by (apply bpow_le; lia).
      destruct (distance_abs64 (position r) pt p w Hp Hw ltac:(lra)) as (delta & Hde & Ede). exists delta. split; [exact Hde|]. apply Rabs_le_inv in Ede. apply Rabs_le. lra. }
    split; [|split; [|split; [|split]]].
    + intros Lt. apply (mirror_silent m ci r Es Ss). apply C3. lra.
    + intros Lt Rm. apply (mirror_silent m ci r Es Ss). apply C2; lra.
    + intros Bn. apply (mirror_silent m ci r Es Ss). apply C3. assert (Rabs t' <= 1.4 * g * / (0.99 * del)). { unfold t', time, Rdiv. rewrite Rabs_mult, Rabs_inv. apply Rmult_le_compat; [apply Rabs_pos|left; apply Rinv_0_lt_compat; lra|exact Bn|apply Rinv_le_contravar; lra]. }
      assert (1.4 * g * / (0.99 * del) = 1.4 * / 0.99 * h). { rewrite <- GD. assert (Qq : forall a b, b <> 0 -> a * (h * del) * / (b * del) = a * / b * h) by (intros; field; split; lra). apply Qq. lra. } pose proof (Rle_abs t'). lra.
    + intros Lt. unfold circle_test_intersect in C1. pose proof (plane64 pl r c n0 p d (0.99 * del) Hc Hn Hp Hd Ln Ld ltac:(lra) ltac:(rewrite <- Edn; exact B2) ltac:(lra) ltac:(lra)) as [Hit _].
      fold KK in Hit. rewrite <- Edn in Hit. fold n in Hit. change (((c - p)%r3 ∙ n) / (n ∙ dirn d)) with t' in Hit. fold Q' err in Hit. destruct (Hit ltac:(lra)) as (pt & w & E & Hw & Ew). destruct (Dist pt w ltac:(lra) Hw Ew) as (delta & Hde & Bde).
      destruct (nlt (distance_between pt (ci_center ci)) (ci_R ci)) eqn:Cmp.
      * right. exists pt, (pl_normal pl), w, delta. split; [|split; [exact Hw|split; [lra|exact Bde]]]. apply (mirror_shoots m ci pl r pt delta Es Ss En); [|exact Hde]. unfold circle_test_intersect. rewrite Epl, E. cbn [h3_flag h3_pt h3_normal need bind]. rewrite Cmp. reflexivity.
      * left. apply (mirror_silent m ci r Es Ss). unfold circle_test_intersect. rewrite Epl, E. cbn [h3_flag h3_pt h3_normal need bind]. rewrite Cmp. reflexivity.
    + intros Lt Rm. destruct (C1 ltac:(lra) ltac:(lra)) as (pt & w & E & Hw & Ew). destruct (Dist pt w ltac:(lra) Hw Ew) as (delta & Hde & Bde). exists pt, (pl_normal pl), w, delta, n0.
      split; [exact (mirror_shoots m ci pl r pt delta Es Ss En E Hde)|]. repeat (split; [assumption || lra|]). exact Edn.
Qed.

(* ------------------------------------------------------------------ the scan *)
Lemma clip_isr : exists c, isr INTERSECT_CLIPPING_FLOOR c /\ 9.9e-13 < c < 1.1e-12.
Proof.
  assert (E : (INTERSECT_CLIPPING_FLOOR : b64) = S754_finite false 4951760157141521 (-92) /\ valid_binary 53 1024 (S754_finite false 4951760157141521 (-92)) = true)
    by (split; vm_compute; reflexivity).
  destruct E as (-> & V). eexists. split; [repeat split; exact V|].
  unfold SF2R, F2R. cbn [Fnum Fexp bpow cond_Zopp]. change (Z.pow_pos radix2 92) with (2 ^ 92)%Z. set (P := IZR (2 ^ 92)). assert (HP : P = 4951760157141521099596496896) by (unfold P; f_equal).
  split; (apply Rmult_lt_reg_r with P; [rewrite HP; lra|]; rewrite Rmult_assoc, Rinv_l by (rewrite HP; lra); rewrite HP; lra).
Qed.
(** the optic says nothing, or reports a hit farther than [d0] *)
Definition beyond (r : ray b64) (d0 : R) (o : optic b64) : Prop := skipped o = true \/ silent o r \/ exists pt nn de, shoots o r pt nn de /\ d0 < de.
Lemma scan_after (r : ray b64) rem rho d0 w : isr rem rho -> 1e-11 < d0 -> Forall (beyond r d0) w -> forall st i, sc_hit st = true -> isr (sc_min st) d0 -> sc_sfo st = Some SfoNone ->
  exists sc, scan r rem st i w = Ok sc /\ sc_hit sc = true /\ sc_sel sc = sc_sel st /\ sc_sfo sc = Some SfoNone.
Proof.
  intros Hr L. induction 1 as [|o w B _ IH]; intros st i Hh Hm Hs; [exists st; auto|]. cbn [scan]. unfold scan_step. destruct (skipped o) eqn:So; [cbn [bind]; apply IH; assumption|].
  destruct B as [B|[B|(pt & nn & de & (B & Hd) & Ld)]]; [congruence|rewrite B; cbn [bind h4_flag]; apply (IH (mkScan (sc_hit st) (sc_min st) (sc_sel st) (Some SfoNone))); auto|].
  rewrite B. cbn [bind h4_flag h4_pt h4_sfo h4_normal need]. unfold ngt. rewrite (isr_lt _ _ _ _ Hr Hd). destruct clip_isr as (cl & Hc & Bc). rewrite (isr_lt _ _ _ _ Hc Hd), (isr_lt _ _ _ _ Hd Hm).
  destruct (Rlt_bool rho de); [apply (IH (mkScan (sc_hit st) (sc_min st) (sc_sel st) (Some SfoNone))); auto|]. rewrite (Rlt_bool_true cl de) by lra. rewrite (Rlt_bool_false de d0) by lra. apply (IH (mkScan true (sc_min st) (sc_sel st) (Some SfoNone))); auto.
Qed.
Lemma scan_hit64 (r : ray b64) rem rho d0 o pt nn : isr rem rho -> 1e-11 < d0 -> d0 <= rho -> skipped o = false -> shoots o r pt nn d0 ->
  forall w j, nth_error w j = Some o -> (forall j' o', nth_error w j' = Some o' -> j' <> j -> beyond r d0 o') -> forall st i, sc_min st = ninf \/ (exists z, isr (sc_min st) z /\ d0 < z) ->
  exists sc, scan r rem st i w = Ok sc /\ sc_hit sc = true /\ sc_sel sc = Some (mkSel (i + j) pt (Some nn)) /\ sc_sfo sc = Some SfoNone.
Proof.
  intros Hr L Lr Sk (Sh & Hd). destruct clip_isr as (cl & Hc & Bc).
  induction w as [|o1 w IH]; intros [|j] En Ot st i Hm; try discriminate En; cbn [scan].
  - injection En as ->. unfold scan_step. rewrite Sk, Sh. cbn [bind h4_flag h4_pt h4_sfo h4_normal need]. unfold ngt. rewrite (isr_lt _ _ _ _ Hr Hd), (isr_lt _ _ _ _ Hc Hd). rewrite (Rlt_bool_false rho d0) by lra. rewrite (Rlt_bool_true cl d0) by lra.
    assert (Q : nlt (distance_between (position r) pt) (sc_min st) = true). { destruct Hm as [->|(z & Hz & Lz)]; [exact (below_inf _ _ Hd)|]. rewrite (isr_lt _ _ _ _ Hd Hz). apply Rlt_bool_true. exact Lz. }
    rewrite Q. rewrite Nat.add_0_r. apply (scan_after r rem rho d0 w Hr L) with (st := mkScan true (distance_between (position r) pt) (Some (mkSel i pt (Some nn))) (Some SfoNone)); [|reflexivity|exact Hd|reflexivity].
    apply Forall_forall. intros o' I. apply In_nth_error in I. destruct I as (n & I). apply (Ot (S n) o' I). discriminate.
  - assert (B : beyond r d0 o1) by (apply (Ot 0%nat o1 eq_refl); discriminate). assert (Ot' : forall j' o', nth_error w j' = Some o' -> j' <> j -> beyond r d0 o') by (intros j' o' E N; apply (Ot (S j') o' E); congruence).
    replace (i + S j)%nat with (S i + j)%nat by lia. unfold scan_step. destruct (skipped o1) eqn:So; [cbn [bind]; apply (IH j En Ot'); exact Hm|].
    destruct B as [B|[B|(pt1 & nn1 & de & (B & Hd1) & Ld)]]; [congruence|rewrite B; cbn [bind h4_flag]; apply (IH j En Ot'); exact Hm|].
    rewrite B. cbn [bind h4_flag h4_pt h4_sfo h4_normal need]. unfold ngt. destruct (nlt rem _); [cbn [bind]; apply (IH j En Ot'); exact Hm|]. destruct (nlt INTERSECT_CLIPPING_FLOOR _); [|cbn [bind]; apply (IH j En Ot'); exact Hm].
    destruct (nlt _ (sc_min st)); cbn [bind]; apply (IH j En Ot'); [right; exists de; auto|exact Hm].
Qed.
Lemma scan_none64 (r : ray b64) rem rho w : isr rem rho -> Forall (beyond r rho) w -> forall st i, sc_hit st = false -> exists sc, scan r rem st i w = Ok sc /\ sc_hit sc = false.
Proof.
  intros Hr. induction 1 as [|o w B _ IH]; intros st i Hh; [exists st; auto|]. cbn [scan]. unfold scan_step. destruct (skipped o) eqn:So; [cbn [bind]; apply IH; assumption|].
  destruct B as [B|[B|(pt & nn & de & (B & Hd) & Ld)]]; [congruence|rewrite B; cbn [bind h4_flag]; apply IH; exact Hh|].
  rewrite B. cbn [bind h4_flag h4_pt h4_sfo h4_normal need]. unfold ngt. rewrite (isr_lt _ _ _ _ Hr Hd), (Rlt_bool_true rho de) by lra. cbn [bind]. apply IH. exact Hh.
Qed.

(* ------------------------------------------------------------------ the exact path *)
(** the ray from [P] along [D] clearly meets the disc, at the distance [time] *)
Definition meets (del mu : R) (q : disc) (P D : R3) : Prop :=
  let t := time (dc q) (dn q) P D in del <= Rabs (dn q ∙ D) /\ mu < t /\ len ((P + t * D) - dc q)%r3 + mu < dr q.
(** it clearly does not meet the disc before the distance [m]: it is parallel to it, or the plane is behind, or it passes outside the rim, or the plane is farther *)
Definition clear (del mu m : R) (q : disc) (P D : R3) : Prop :=
  Rabs (dn q ∙ D) <= 5e-10 \/
  del <= Rabs (dn q ∙ D) /\ let t := time (dc q) (dn q) P D in t < - mu \/ (mu < t /\ dr q + mu < len ((P + t * D) - dc q)%r3) \/ (mu < t /\ m + mu < t).
(** [path ds l P D m pts D']: a ray at [P] with direction [D] that has just left the mirror [l] and has [m] to go passes the points [pts] and ends with the direction [D']. *)
Inductive path (S0 del mu : R) (ds : list (option disc)) : option nat -> R3 -> R3 -> R -> list R3 -> R3 -> Prop :=
| path_end l P D m : (forall j q, nth_error ds j = Some (Some q) -> l <> Some j -> clear del mu m q P D) -> mu < m -> len (P + m * D)%r3 <= S0 -> path S0 del mu ds l P D m [(P + m * D)%r3] D
| path_bounce l P D m j q pts D' : nth_error ds j = Some (Some q) -> l <> Some j -> meets del mu q P D -> let t := time (dc q) (dn q) P D in
    (forall j' q', nth_error ds j' = Some (Some q') -> l <> Some j' -> j' <> j -> clear del mu t q' P D) -> t + mu < m -> len (P + t * D)%r3 <= S0 ->
    path S0 del mu ds (Some j) (P + t * D)%r3 (mirrored (dn q) D) (m - t) pts D' -> path S0 del mu ds l P D m ((P + t * D)%r3 :: pts) D'.

(* ------------------------------------------------------------------ the run *)
Lemma path_budget S0 del mu ds l P D m pts D' : path S0 del mu ds l P D m pts D' -> 0 <= mu -> is_unit D -> len P <= S0 -> (forall j q, nth_error ds j = Some (Some q) -> is_unit (dn q)) ->
  0 < m <= 2 * S0 * INR (length pts).
Proof.
  intros H Mu. induction H as [l P D m _ Lm LQ|l P D m j q pts D' En _ (_ & Lt & _) t _ Tm LQ _ IH]; intros UD LP Un.
  - split; [lra|]. cbn [length INR]. assert (m = len ((P + m * D) - P)%r3). { replace ((P + m * D) - P)%r3 with (m * D)%r3 by r3_ring. rewrite len_scale, (len_unit _ UD), Rabs_pos_eq; lra. } pose proof (len_sub_le (P + m * D)%r3 P). lra.
  - fold t in Lt. assert (t = len ((P + t * D) - P)%r3). { replace ((P + t * D) - P)%r3 with (t * D)%r3 by (generalize t; intros; r3_ring). rewrite len_scale, (len_unit _ UD), Rabs_pos_eq; lra. }
    pose proof (len_sub_le (P + t * D)%r3 P). destruct (IH (mirrored_unit _ _ (Un _ _ En) UD) LQ Un) as [A B]. split; [lra|]. change (length ((P + t * D)%r3 :: pts)) with (S (length pts)). rewrite S_INR. lra.
Qed.
Lemma shows_at w ds j q : Forall2 shows w ds -> nth_error ds j = Some (Some q) -> exists o, nth_error w j = Some o /\ shows o (Some q).
Proof. intros F. revert j. induction F as [|o d w ds H _ IH]; intros [|j] E; try discriminate E; [injection E as ->; exists o; auto|exact (IH j E)]. Qed.
Lemma shows_back w ds j o : Forall2 shows w ds -> nth_error w j = Some o -> skipped o = true \/ exists q, nth_error ds j = Some (Some q) /\ shows o (Some q).
Proof. intros F. revert j. induction F as [|o1 d w ds H _ IH]; intros [|j] E; try discriminate E; [injection E as ->; destruct d as [q|]; [right; exists q; auto|left; exact H]|exact (IH j E)]. Qed.
Lemma shows_not_skipped o q : shows o (Some q) -> skipped o = false.
Proof. intros (m & ci & pl & n0 & -> & _). reflexivity. Qed.

Definition just_left (S0 del : R) (ds : list (option disc)) (l : option nat) (p D : R3) : Prop :=
  forall j q, l = Some j -> nth_error ds j = Some (Some q) -> del <= Rabs (dn q ∙ D) /\ Rabs ((dc q - p)%r3 ∙ dn q) <= 1.4 * gam S0 del.
Lemma others_beyond S0 del k mu x P D (r : ray b64) p d ds w l m d0 j0 : scales S0 del k mu -> near S0 del x P D p d -> x + 1 <= k -> isv (position r) p -> isv (direction r) d ->
  Forall2 shows w ds -> (forall j q, nth_error ds j = Some (Some q) -> len (dc q) <= S0) -> just_left S0 del ds l p D ->
  (forall j q, nth_error ds j = Some (Some q) -> l <> Some j -> Some j <> j0 -> clear del mu m q P D) -> d0 <= m + 29 * (k * k) * gd S0 del ->
  forall j o, nth_error w j = Some o -> Some j <> j0 -> beyond r d0 o.
Proof.
  intros Sc Ne Xk Hp Hd F Lc JL Cl Ld j o En Nj. destruct (shows_back _ _ _ _ F En) as [Sk|(q & Eq & Sh)]; [left; exact Sk|]. right.
  pose proof (mirror_shows_near _ _ _ _ _ _ _ _ _ _ _ _ Sc Ne Xk Hp Hd Sh (Lc _ _ Eq)) as (N1 & N2).
  assert (Dl : {l = Some j} + {l <> Some j}) by (decide equality; apply Nat.eq_dec). destruct Dl as [El|Nl].
  - left. destruct (JL j q El Eq) as [B Z]. destruct (N2 B) as (_ & _ & N3 & _). exact (N3 Z).
  - destruct (Cl j q Eq Nl Nj) as [B|(B & [A|[(A & A')|(A & A')]])]; [left; exact (N1 B)|..]; destruct (N2 B) as (T1 & T2 & _ & T4 & _); [left; exact (T1 A)|left; exact (T2 A A')|].
    destruct (T4 A) as [Si|(pt & nn & w0 & de & Sh' & _ & _ & Bd)]; [left; exact Si|right]. exists pt, nn, de. split; [exact Sh'|].
    pose proof (time_near _ _ _ _ _ _ _ _ _ (dc q) (dn q) Sc Ne Xk (shows_unit _ _ Sh) (Lc _ _ Eq) B) as (_ & _ & _ & _ & _ & _ & _ & V4). pose proof (scale_facts _ _ _ _ Sc) as (D0 & S1 & K1 & G0 & GD & GG & Gd & Gdd & GS).
    destruct Sc as [HS Pd Ld1 G K M M1 M2]. destruct Ne as [UD LP X0 _ _ _ _]. set (h := gd S0 del) in *. set (g := gam S0 del) in *. apply Rabs_le_inv in V4, Bd.
    assert (XKh : (x + 1) * (x + 1) * h <= k * k * h) by (apply Rmult_le_compat_r; [lra|apply Rmult_le_compat; lra]). assert (0 <= x * h) by (apply Rmult_le_pos; lra). assert (0 <= x * x * h) by (apply Rmult_le_pos; [apply Rmult_le_pos|]; lra).
    lra.
Qed.

Lemma zero_isr64 : isr (nofZ 0) 0. Proof. repeat split. Qed.
Lemma set_nth_same {A} (l : list A) : forall j a, nth_error l j = Some a -> set_nth l j a = l.
Proof. induction l as [|b l IH]; intros [|j] a E; try discriminate E; cbn; [injection E as ->; reflexivity|rewrite (IH j a E); reflexivity]. Qed.
(** the position after flying a computed distance *)
Lemma fly64 S0 del k mu x P D p d (r : ray b64) z delta ts : scales S0 del k mu -> near S0 del x P D p d -> x + 1 <= k -> isv (position r) p -> isv (direction r) d -> isr z delta -> Rabs ts <= 2.1 * (S0 / del) -> Rabs (delta - ts) <= gam S0 del ->
  exists a, isv (position (fly r z)) a /\ len (a - (p + ts * dirn d))%r3 <= 1.2 * gam S0 del.
Proof.
  intros Sc Ne Xk Hp Hd Hz Bt Bd. pose proof (scale_facts _ _ _ _ Sc) as (D0 & S1 & K1 & G0 & GD & GG & Gd & Gdd & GS). destruct Sc as [HS Pd Ld1 G K M M1 M2]. destruct Ne as [UD LP X0 Ld Hf He Hq].
  destruct (unitish d Ld) as [Nd Ud]. set (h := gd S0 del) in *. set (g := gam S0 del) in *. assert (XX : 0 <= x * x) by (apply Rmult_le_pos; lra).
  assert (Bq : 5 * (x * x) * h <= 1.3e-7). { assert (x * x * h <= k * k * h) by (apply Rmult_le_compat_r; [lra|apply Rmult_le_compat; lra]). lra. }
  assert (Bp : len p <= 1.001 * S0). { replace p with ((p - P) + P)%r3 by r3_ring. eapply Rle_trans; [apply len_add|]. lra. }
  assert (CD : len (d - dirn d)%r3 <= 4e-16). { replace (d - dirn d)%r3 with (- (dirn d - d))%r3 by r3_ring. rewrite len_opp, (dirn_close d Nd). exact Ld. }
  assert (Bb : 1e9 <= bpow radix2 200). { apply Rle_trans with (bpow radix2 30); [change (bpow radix2 30) with 1073741824; lra|apply bpow_le; lia]. }
  destruct (along64 (position r) (direction r) z p d delta ts (dirn d) (2.1 * (S0 / del)) Hp Hd Hz Ud CD Bt) as (a & Ha & Ea); [lra|lra|lra|].
  exists a. split; [exact Ha|]. eapply Rle_trans; [exact Ea|]. pose proof eta_1e30 as T. pose proof eta64_pos as T0.
  assert (LQ : len (p + ts * dirn d)%r3 <= 1.001 * S0 + 2.1 * (S0 / del)). { eapply Rle_trans; [apply len_add|]. rewrite len_scale, (len_unit _ Ud). lra. }
  assert (EE : 1.11e-16 < eps64 < 1.1103e-16) by (unfold eps64; lra). pose proof (len_nonneg (p + ts * dirn d)%r3).
  assert (eps64 * len (p + ts * dirn d)%r3 <= 1.1103e-16 * (1.001 * S0 + 2.1 * (S0 / del))) by (apply Rmult_le_compat; lra).
  assert (eps64 * (2.1 * (S0 / del)) <= 1.1103e-16 * (2.1 * (S0 / del))) by (apply Rmult_le_compat_r; lra). lra.
Qed.
Lemma run64 {TT : Trig b64} S0 del k mu mx M ds w : scales S0 del k mu -> isr mx M -> M <= 2 * S0 * k -> Forall2 shows w ds -> (forall j q, nth_error ds j = Some (Some q) -> len (dc q) <= S0) ->
  forall l P D m pts D', path S0 del mu ds l P D m pts D' -> forall fuel st x p d rho, (length pts <= fuel)%nat -> rs_world st = w -> isv (position (rs_ray st)) p -> isv (direction (rs_ray st)) d ->
    near S0 del x P D p d -> x + INR (length pts) <= k -> just_left S0 del ds l p D -> blocked (rs_ray st) = false -> ray_type (rs_ray st) <> "faerie_fire"%string ->
    isr (rs_remaining st) rho -> rho <= M -> Rabs (rho - m + (p - P)%r3 ∙ D) <= (4 * (x * x) + x * k) * gam S0 del ->
  exists st' vs d', run_loop fuel mx None st = Ok st' /\ rs_world st' = w /\ point_history (rs_ray st') = point_history (rs_ray st) ++ vs /\
    Forall2 (fun v Q => exists a, isv v a /\ len (a - Q)%r3 <= 8 * (k * k) * gd S0 del) vs pts /\ isv (direction (rs_ray st')) d' /\ len (d' - D')%r3 <= 1.1e-14 * k /\ blocked (rs_ray st') = false.
Proof.
  intros Sc Hmx BM F Lc l P D m pts D' Pa. pose proof (scale_facts _ _ _ _ Sc) as (D0 & S1 & K1 & G0 & GD & GG & Gd & Gdd & GS). assert (Sc' := Sc). destruct Sc' as [HS Pd Ld1 G K Mm M1 M2].
  set (h := gd S0 del) in *. set (g := gam S0 del) in *. assert (kk : k <= k * k) by (rewrite <- (Rmult_1_l k) at 1; apply Rmult_le_compat_r; lra).
  induction Pa as [l P D m Cl Lm LQ|l P D m j q pts D' Eq Nl Me t Cl Tm LQ Pa IH]; intros fuel st x p d rho Lf W Hp Hd Ne Xk JL B Ty Hr Br Bm.
  - (* the last leg *)
    cbn [length INR] in Xk. assert (Ne' := Ne). destruct Ne' as [UD LP X0 Ld Hf He Hq]. fold g in He. fold h in Hq. destruct (unitish d Ld) as [Nd Ud].
    assert (XX : 0 <= x * x) by (apply Rmult_le_pos; lra). assert (XK : (x + 1) * (x + 1) <= k * k) by (apply Rmult_le_compat; lra). assert (xk : x * k <= k * k) by (apply Rmult_le_compat_r; lra).
    assert (XKh : (x + 1) * (x + 1) * h <= k * k * h) by (apply Rmult_le_compat_r; lra). assert (xh : 0 <= x * h) by (apply Rmult_le_pos; lra). assert (xxh : 0 <= x * x * h) by (apply Rmult_le_pos; lra).
    assert (XKg : (x + 1) * (x + 1) * g <= k * k * g) by (apply Rmult_le_compat_r; lra). assert (xg : 0 <= x * g) by (apply Rmult_le_pos; lra). assert (xxg : 0 <= x * x * g) by (apply Rmult_le_pos; lra).
    assert (xkg : x * k * g <= k * k * g) by (apply Rmult_le_compat_r; lra). assert (gh : k * k * g <= k * k * h) by (apply Rmult_le_compat_l; lra).
    assert (qD : Rabs ((p - P)%r3 ∙ D) <= 5 * (x * x) * h). { eapply Rle_trans; [apply cauchy|]. rewrite (len_unit _ UD). lra. }
    assert (Bm' := Bm). apply Rabs_le_inv in Bm'. apply Rabs_le_inv in qD.
    assert (Mle : m <= 2 * S0). { assert (m = len ((P + m * D) - P)%r3). { replace ((P + m * D) - P)%r3 with (m * D)%r3 by r3_ring. rewrite len_scale, (len_unit _ UD), Rabs_pos_eq; lra. } pose proof (len_sub_le (P + m * D)%r3 P). lra. }
    assert (R0 : 0 < rho) by lra. assert (R1 : rho <= 2.01 * S0) by lra.
    assert (Bey : Forall (beyond (rs_ray st) rho) (rs_world st)).
    { apply Forall_forall. intros o I. rewrite W in I. apply In_nth_error in I. destruct I as (i & I). eapply (others_beyond _ _ _ _ _ _ _ _ _ _ _ _ l m rho None Sc Ne Xk Hp Hd F Lc JL); [|fold h; lra|exact I|discriminate]. intros i' q' E N _. exact (Cl i' q' E N). }
    destruct fuel as [|fuel]; [cbn in Lf; lia|]. cbn [run_loop]. replace (run_cond None st) with true by (unfold run_cond; rewrite B; unfold ngt; rewrite (isr_lt _ _ _ _ (zero_isr64) Hr), Rlt_bool_true by exact R0; reflexivity).
    destruct (scan_none64 _ _ _ _ Hr Bey (mkScan false ninf (rs_sel st) (rs_sfo st)) 0 eq_refl) as (sc & Esc & Eh). unfold run_body. rewrite Esc. cbn [bind]. rewrite Eh. cbn [negb bind].
    assert (MB : Rabs (rho - M) <= bpow radix2 1000). { assert (2 * S0 * k <= 2 * 1e4 * 1600) by (apply Rmult_le_compat; lra). apply Rle_trans with (bpow radix2 30); [|apply bpow_le; lia]. change (bpow radix2 30) with 1073741824. apply Rabs_le. lra. }
    assert (Hr2 : isr (nsub (rs_remaining st) mx) (RN (rho - M))) by (apply isr_sub; [exact Hr|exact Hmx|apply (RN_huge _ 1000); [lia|exact MB]]).
    assert (R2 : RN (rho - M) <= 0) by (rewrite <- RN_0; apply RN_le; lra).
    set (st1 := mkRun (fly (rs_ray st) (rs_remaining st)) (rs_world st) (rs_count st) (nsub (rs_remaining st) mx) (sc_sel sc) (sc_sfo sc)).
    assert (C1 : run_cond None st1 = false). { unfold run_cond, st1. cbn [rs_remaining]. unfold ngt. rewrite (isr_lt _ _ _ _ zero_isr64 Hr2), Rlt_bool_false by exact R2. reflexivity. }
    assert (Lp1 : run_loop fuel mx None st1 = Ok st1) by (destruct fuel; cbn [run_loop]; rewrite C1; reflexivity). fold st1. rewrite Lp1.
    assert (Sd : S0 <= S0 / del) by (apply Rmult_le_reg_l with 1e-14; lra).
    destruct (fly64 _ _ _ _ _ _ _ _ _ (rs_ray st) (rs_remaining st) rho rho Sc Ne Xk Hp Hd Hr) as (a & Ha & Ea); [rewrite Rabs_pos_eq; lra|rewrite Rminus_diag_eq, Rabs_R0 by reflexivity; fold g; lra|]. fold g in Ea.
    exists st1, [position (fly (rs_ray st) (rs_remaining st))], d. split; [reflexivity|]. split; [exact W|]. split; [reflexivity|]. split; [|split; [exact Hd|split; [|exact B]]].
    + constructor; [|constructor]. exists a. split; [exact Ha|].
      replace (a - (P + m * D))%r3 with ((a - (p + rho * dirn d)) + (across D (p - P) + ((rho - m + (p - P) ∙ D) * D + rho * (dirn d - D))))%r3 by (unfold across; generalize ((p - P)%r3 ∙ D) (dirn d); intros; r3_ring).
      eapply Rle_trans; [apply len_add|]. pose proof (len_add (across D (p - P)) ((rho - m + (p - P)%r3 ∙ D) * D + rho * (dirn d - D))%r3) as A1. pose proof (len_add ((rho - m + (p - P)%r3 ∙ D) * D)%r3 (rho * (dirn d - D))%r3) as A2.
      rewrite !len_scale, (len_unit _ UD), (Rabs_pos_eq rho) in A2 by lra. assert (A3 : rho * len (dirn d - D)%r3 <= 2.01 * S0 * (1e-14 * x)) by (apply Rmult_le_compat; [lra|apply len_nonneg|lra|exact Hf]).
      assert (A4 : 2.01 * S0 * (1e-14 * x) <= 2.01 * x * g). { replace (2.01 * S0 * (1e-14 * x)) with (2.01 * x * (1e-14 * S0)) by ring. apply Rmult_le_compat_l; lra. }
      lra.
    + replace (d - D)%r3 with ((- (dirn d - d)) + (dirn d - D))%r3 by r3_ring. eapply Rle_trans; [apply len_add|]. rewrite len_opp, (dirn_close d Nd). lra.
  - (* a reflection *)
    change (length ((P + t * D)%r3 :: pts)) with (S (length pts)) in *. rewrite S_INR in Xk. pose proof (pos_INR (length pts)) as Np. assert (Xk1 : x + 1 <= k) by lra.
    assert (Ne' := Ne). destruct Ne' as [UD LP X0 Ld Hf He Hq]. fold g in He. fold h in Hq. destruct (unitish d Ld) as [Nd Ud].
    assert (XX : 0 <= x * x) by (apply Rmult_le_pos; lra). assert (XK : (x + 1) * (x + 1) <= k * k) by (apply Rmult_le_compat; lra). assert (xk : x * k <= k * k) by (apply Rmult_le_compat_r; lra).
    assert (XKh : (x + 1) * (x + 1) * h <= k * k * h) by (apply Rmult_le_compat_r; lra). assert (xh : 0 <= x * h) by (apply Rmult_le_pos; lra). assert (xxh : 0 <= x * x * h) by (apply Rmult_le_pos; lra).
    assert (XKg : (x + 1) * (x + 1) * g <= k * k * g) by (apply Rmult_le_compat_r; lra). assert (xg : 0 <= x * g) by (apply Rmult_le_pos; lra). assert (xxg : 0 <= x * x * g) by (apply Rmult_le_pos; lra). assert (kg : g <= k * g) by (rewrite <- (Rmult_1_l g) at 1; apply Rmult_le_compat_r; lra).
    assert (xkg : x * k * g <= k * k * g) by (apply Rmult_le_compat_r; lra). assert (gh : k * k * g <= k * k * h) by (apply Rmult_le_compat_l; lra).
    assert (qD : Rabs ((p - P)%r3 ∙ D) <= 5 * (x * x) * h). { eapply Rle_trans; [apply cauchy|]. rewrite (len_unit _ UD). lra. }
    assert (Bm' := Bm). apply Rabs_le_inv in Bm'. apply Rabs_le_inv in qD.
    destruct (shows_at _ _ _ _ F Eq) as (o & En & Sh). pose proof (shows_unit _ _ Sh) as Un. pose proof (Lc _ _ Eq) as Lcq. destruct Me as (Bd & Lt & Rim). fold t in Lt, Rim.
    pose proof (mirror_shows_near _ _ _ _ _ _ _ _ _ _ _ _ Sc Ne Xk1 Hp Hd Sh Lcq) as (_ & N2). destruct (N2 Bd) as (_ & _ & _ & _ & N3). clear N2. fold t in N3.
    destruct (N3 Lt Rim) as (pt & nn & w0 & de & m0 & Sht & Hw0 & Ew0 & Bde & Hnn & Lm0 & Edn). clear N3. fold g in Ew0, Bde.
    pose proof (time_near _ _ _ _ _ _ _ _ _ (dc q) (dn q) Sc Ne Xk1 Un Lcq Bd) as (B2 & Lcp & Bt & Zv & V1 & V2 & V3 & V4). fold t in Zv, V1, V2, V3, V4. fold g in V1, V3. fold h in V2, V4.
    set (n := dn q) in *. set (c := dc q) in *. set (t' := time c n p (dirn d)) in *. set (Q := (P + t * D)%r3) in *. set (Q' := (p + t' * dirn d)%r3) in *. set (v := (Q' - Q)%r3) in *.
    assert (V4' := V4). apply Rabs_le_inv in V4'. assert (Bde' := Bde). apply Rabs_le_inv in Bde'.
    assert (Drho : de <= rho) by lra. assert (De0 : 1e-11 < de) by lra. assert (R0 : 0 < rho) by lra.
    assert (Bey : forall j' o', nth_error (rs_world st) j' = Some o' -> j' <> j -> beyond (rs_ray st) de o').
    { intros j' o' I N. rewrite W in I. eapply (others_beyond _ _ _ _ _ _ _ _ _ _ _ _ l t de (Some j) Sc Ne Xk1 Hp Hd F Lc JL); [|fold h; lra|exact I|congruence]. intros i' q' E N1 N2. apply (Cl i' q' E N1). congruence. }
    destruct fuel as [|fuel]; [lia|]. cbn [run_loop]. replace (run_cond None st) with true by (unfold run_cond; rewrite B; unfold ngt; rewrite (isr_lt _ _ _ _ (zero_isr64) Hr), Rlt_bool_true by exact R0; reflexivity).
    destruct (scan_hit64 (rs_ray st) (rs_remaining st) rho de o pt nn Hr De0 Drho (shows_not_skipped _ _ Sh) Sht (rs_world st) j ltac:(rewrite W; exact En) Bey (mkScan false ninf (rs_sel st) (rs_sfo st)) 0%nat ltac:(left; reflexivity)) as (sc & Esc & Eh & Es & Ef).
    unfold run_body. rewrite Esc. cbn [bind]. rewrite Eh, Es, Ef. cbn [negb bound bind se_pt se_idx se_normal plus]. assert (Ty' := Ty). apply String.eqb_neq in Ty'. rewrite Ty'. rewrite W, En.
    assert (Do : optic_do_intersect o (fly (rs_ray st) (distance_between (position (rs_ray st)) pt)) pt (Some nn) SfoNone = Ok (reflect_specular (fly (rs_ray st) (distance_between (position (rs_ray st)) pt)) nn, o)).
    { destruct Sh as (mm & ci & pl & n0 & -> & _ & Et & _). cbn [optic_do_intersect]. unfold mirror_do_intersect. rewrite Et. reflexivity. }
    rewrite Do. cbn [bind]. rewrite (set_nth_same _ _ _ En).
    set (r1 := fly (rs_ray st) (distance_between (position (rs_ray st)) pt)) in *. set (r2 := reflect_specular r1 nn) in *. set (rem2 := nsub (rs_remaining st) (distance_between (position (rs_ray st)) pt)).
    destruct Sht as [_ Hde].
    assert (Sd0 : 0 < S0 / del) by (apply Rmult_lt_0_compat; [lra|apply Rinv_0_lt_compat; lra]).
    destruct (fly64 _ _ _ _ _ _ _ _ _ (rs_ray st) _ de t' Sc Ne Xk1 Hp Hd Hde ltac:(lra) Bde) as (a & Ha & Ea). fold r1 in Ha. fold g in Ea. fold Q' in Ea.
    destruct (reflect64 (direction r1) nn d m0 Hd Hnn ltac:(apply Rabs_le_inv in Ld; apply mid_moderate; lra) ltac:(apply Rabs_le_inv in Lm0; apply mid_moderate; lra)) as (d2 & Hd2 & Ld2 & Ed2). rewrite <- Edn in Ed2. fold n in Ed2.
    change (isv (direction r2) d2) in Hd2. assert (EE : 1.11e-16 < eps64 < 1.1103e-16) by (unfold eps64; lra). assert (Ld2' : Rabs (len d2 - 1) <= 4e-16) by lra. destruct (unitish d2 Ld2') as [Nd2 Ud2].
    pose proof (mirrored_unit n D Un UD) as UD2. set (D2 := mirrored n D) in *.
    assert (F2 : len (dirn d2 - D2)%r3 <= 1e-14 * (x + 1)).
    { replace (dirn d2 - D2)%r3 with ((dirn d2 - d2) + ((d2 - mirrored n (dirn d)) + (mirrored n (dirn d) - D2)))%r3 by (generalize (dirn d2) (mirrored n (dirn d)) D2; intros; r3_ring). eapply Rle_trans; [apply len_add|]. rewrite (dirn_close d2 Nd2).
      pose proof (len_add (d2 - mirrored n (dirn d))%r3 (mirrored n (dirn d) - D2)%r3) as A. assert (A' : len (mirrored n (dirn d) - D2)%r3 = len (dirn d - D)%r3) by (unfold D2; apply mirrored_sub; exact Un). lra. }
    assert (Ev : (a - Q)%r3 = (v + (a - Q'))%r3) by (unfold v; generalize Q Q'; intros; r3_ring).
    assert (E2 : len (across D2 (a - Q)) <= 2.5 * ((x + 1) * (x + 1)) * g).
    { rewrite Ev, across_add. eapply Rle_trans; [apply len_add|]. pose proof (across_mirrored n D v Un UD Zv) as Am. fold D2 in Am. pose proof (across_le D2 (a - Q')%r3 UD2). lra. }
    assert (Q2 : len (a - Q)%r3 <= 5 * ((x + 1) * (x + 1)) * h). { rewrite Ev. eapply Rle_trans; [apply len_add|]. lra. }
    assert (Ne2 : near S0 del (x + 1) Q D2 a d2) by (constructor; [exact UD2|exact LQ|lra|exact Ld2'|exact F2|exact E2|exact Q2]).
    assert (nD : n ∙ D <> 0) by (intros Z; rewrite Z, Rabs_R0 in Bd; lra). assert (nd : n ∙ dirn d <> 0) by (intros Z; rewrite Z, Rabs_R0 in B2; lra).
    assert (JL2 : just_left S0 del ds (Some j) a D2).
    { intros j' q' Ej Eq'. injection Ej as <-. rewrite Eq in Eq'. injection Eq' as <-. fold n c g. split.
      - replace (n ∙ D2) with (- (n ∙ D)); [rewrite Rabs_Ropp; exact Bd|]. unfold D2, mirrored. autorewrite with dotr. unfold is_unit in Un. rewrite Un, (dot_comm D n). ring.
      - replace ((c - a)%r3 ∙ n) with (- ((a - Q')%r3 ∙ n)). + rewrite Rabs_Ropp. eapply Rle_trans; [apply cauchy|]. rewrite (len_unit _ Un). lra.
        + pose proof (time_on c n p (dirn d) nd) as Z. fold t' in Z. fold Q' in Z. rewrite !dot_sub_l in *. lra. }
    (* the distance left *)
    assert (MB : 2 * S0 * k <= 3.2e7) by (assert (2 * S0 * k <= 2 * 1e4 * 1600) by (apply Rmult_le_compat; lra); lra).
    assert (MB' : Rabs (rho - de) <= bpow radix2 1000). { apply Rle_trans with (bpow radix2 30); [|apply bpow_le; lia]. change (bpow radix2 30) with 1073741824. apply Rabs_le. lra. }
    assert (Hr2 : isr rem2 (RN (rho - de))) by (apply isr_sub; [exact Hr|exact Hde|apply (RN_huge _ 1000); [lia|exact MB']]).
    assert (R2 : RN (rho - de) <= M). { apply Rle_trans with rho; [|exact Br]. apply Rle_trans with (RN rho); [apply RN_le; lra|]. rewrite (RN_fix rho) by (eapply isr_format; exact Hr). lra. }
    pose proof (RN_err (rho - de)) as RE. rewrite (Rabs_pos_eq (rho - de)) in RE by lra. pose proof eta_1e30 as T. pose proof eta64_pos as T0.
    assert (RE2 : Rabs (RN (rho - de) - (rho - de)) <= 0.03 * (k * g)).
    { assert (eps64 * (rho - de) <= 1.1103e-16 * (2 * S0 * k)) by (apply Rmult_le_compat; lra). assert (1e-14 * S0 * k <= g * k) by (apply Rmult_le_compat_r; lra). lra. }
    assert (Bm2 : Rabs (RN (rho - de) - (m - t) + (a - Q)%r3 ∙ D2) <= (4 * ((x + 1) * (x + 1)) + (x + 1) * k) * g).
    { assert (A0 : (a - Q)%r3 ∙ D2 = v ∙ D + (a - Q')%r3 ∙ D2) by (rewrite Ev, dot_add_l; f_equal; apply dot_mirrored; exact Zv). rewrite A0.
      assert (A1 : Rabs ((a - Q')%r3 ∙ D2) <= 1.2 * g) by (eapply Rle_trans; [apply cauchy|]; rewrite (len_unit _ UD2); lra).
      rewrite dot_sub_l in V3. apply Rabs_le_inv in A1, V3, RE2. apply Rabs_le. lra. }
    destruct (IH fuel (mkRun r2 w (rs_count st + 1)%Z rem2 (Some (mkSel j pt (Some nn))) (Some SfoNone)) (x + 1) a d2 (RN (rho - de)) ltac:(lia) eq_refl Ha Hd2 Ne2 ltac:(lra) JL2 B Ty Hr2 R2 Bm2) as (st' & vs & d' & El & Ew & Eh' & Fv & Hd' & Ed' & Bl).
    exists st', (position r1 :: vs), d'. split; [exact El|]. split; [exact Ew|]. split; [rewrite Eh'; cbn [rs_ray]; unfold r2, reflect_specular; cbn [set_direction point_history]; unfold r1, fly; cbn [point_history position]; rewrite <- app_assoc; reflexivity|].
    split; [constructor; [|exact Fv]|split; [exact Hd'|split; [exact Ed'|exact Bl]]]. exists a. split; [exact Ha|]. lra.
Qed.
