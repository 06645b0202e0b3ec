(** C85: runs between flat circular mirrors in binary64. *)
From Coq Require Import ZArith Reals Floats.SpecFloat String List Bool Lia Lra Psatz.
From Flocq Require Import Core IEEE754.BinarySingleNaN.
From Verif Require Import PyErr Num Vec Shapes Csg Optics Spec XReal RVec VecProofs FlatProofs SphereProofs CylProofs CsgProofs RayProofs RunGen RunXr OrderProofs FlatOptic SceneProofs Props_Run Props_Scene Props_Images Continue FloatInst FloatReal FloatVec FloatHit FloatRun.
Import ListNotations.
Local Open Scope R_scope.

(** C85: the run in binary64 arithmetic follows the exact path.

    [ds] are the discs of the mirrors ([None] for an optic that run skips), [shows] says that the constructed optics have these data exactly.
    [path S0 del mu ds None p D m pts D'] is the exact path from [p] along [D] of length [m]: its corners and its end are [pts], its last direction is [D'].  Every decision on
    it (which mirror is met, inside the rim or outside, before or behind) has the margin [mu], all points are within [S0] of the origin, cosines of incidence are at least [del].
    With [err = 1e-14 k^2 S0 / del^3] for [k] legs, a margin of 40 err makes the binary64 run meet the same mirrors in the same order, and every point recorded is within 8 err. *)
Theorem C85_run : forall (TT : Trig b64) fuel (r : ray b64) p d mx m w ds S0 del mu pts D',
  isv (position r) p -> isv (direction r) d -> Rabs (len d - 1) <= 4e-16 -> blocked r = false -> ray_type r <> "faerie_fire"%string -> isr mx m ->
  Forall2 shows w ds -> (forall j q, nth_error ds j = Some (Some q) -> len (dc q) <= S0) -> len p <= S0 ->
  1 <= S0 -> 0 < del <= 1 -> S0 <= 1e4 * (del * (del * del)) ->
  let k := INR (length pts) in let err := 1e-14 * (k * k) * (S0 / (del * (del * del))) in
  40 * err <= mu -> 2e-9 <= mu <= 1e-6 ->
  path S0 del mu ds None p (dirn d) m pts D' -> (length pts <= fuel)%nat ->
  exists r' vs d', run fuel r mx w None = Ok (r', w) /\ point_history r' = point_history r ++ vs /\
    Forall2 (fun v Q => exists a, isv v a /\ len (a - Q)%r3 <= 8 * err) vs pts /\ isv (direction r') d' /\ len (d' - D')%r3 <= 1.1e-14 * k.
Proof.
  intros TT fuel r p d mx m w ds S0 del mu pts D' Hp Hd Ld B Ty Hmx F Lc Lp S1 (D0 & D1) SD k err Em Mu Pa Lf.
  destruct (unitish d Ld) as [_ Ud]. assert (P3 : 0 < del * (del * del)) by (repeat apply Rmult_lt_0_compat; lra).
  assert (Un : forall j q, nth_error ds j = Some (Some q) -> is_unit (dn q)) by (intros j q E; destruct (shows_at _ _ _ _ F E) as (o & _ & Sh); exact (shows_unit _ _ Sh)).
  destruct (path_budget _ _ _ _ _ _ _ _ _ _ Pa ltac:(lra) Ud Lp Un) as [M0 MB]. fold k in MB.
  assert (K1 : 1 <= k) by (unfold k; apply (le_INR 1); destruct Pa; cbn [length]; lia).
  assert (Eg : err = k * k * gd S0 del) by (unfold err, gd; ring).
  assert (Sc : scales S0 del k mu).
  { constructor; try lra. unfold gd. apply Rle_trans with (1e-14 * 1e4); [|lra]. apply Rmult_le_compat_l; [lra|]. apply Rmult_le_reg_r with (del * (del * del)); [exact P3|]. unfold Rdiv. rewrite Rmult_assoc, Rinv_l by lra. lra. }
  pose proof (scale_facts _ _ _ _ Sc) as (_ & _ & _ & G0 & _ & GG & _).
  assert (Z : (p - p)%r3 = r3zero) by r3_ring.
  assert (Ne : near S0 del 0 p (dirn d) p d).
  { constructor; try assumption; try lra; [replace (dirn d - dirn d)%r3 with r3zero by (generalize (dirn d); intros; r3_ring)|unfold across; rewrite Z, dot_zero_l; replace (r3zero - 0 * dirn d)%r3 with r3zero by (generalize (dirn d); intros; r3_ring)|rewrite Z]; rewrite len_zero_r3; lra. }
  destruct (run64 S0 del k mu mx m ds w Sc Hmx MB F Lc _ _ _ _ _ _ Pa fuel (run_init r mx w) 0 p d m Lf eq_refl Hp Hd Ne ltac:(fold k; lra) ltac:(intros j q E; discriminate E) B Ty Hmx ltac:(lra)) as (st' & vs & d' & El & Ew & Eh & Fv & Hd' & Ed' & _).
  { rewrite Z, dot_zero_l. replace (m - m + 0) with 0 by ring. rewrite Rabs_R0. lra. }
  exists (rs_ray st'), vs, d'. unfold run. rewrite El. cbn [bind]. rewrite Ew. split; [reflexivity|]. split; [exact Eh|]. split; [|split; [exact Hd'|exact Ed']].
  rewrite Eg. replace (8 * (k * k * gd S0 del)) with (8 * (k * k) * gd S0 del) by ring. exact Fv.
Qed.
Print Assumptions C85_run.

(** C85: a mirror built by the constructor from finite numbers shows the disc with that centre and diameter and, up to the rounding of the normal, that normal. *)
Theorem C85_built : forall (pos n : vec b64) (D : b64) w h f tg dmd m c n0 Dr rad,
  mk_mirror pos "circular_flat" (Some n) (Some D) w h f tg "normal" dmd = Ok m -> isv pos c -> isv n n0 -> moderate n0 -> isr D Dr -> isr (ndiv D (nofZ 2)) rad ->
  exists q, shows (OMirror m) (Some q) /\ dc q = c /\ dr q = rad /\ len (dn q - dirn n0)%r3 <= 1e-15.
Proof.
  intros pos n D w h f tg dmd m c n0 Dr rad E Hc Hn Mo HD Hrad. unfold mk_mirror in E. apply bind_ok in E. destruct E as (dm & _ & E). change (String.eqb "circular_flat" "circular_flat") with true in E. cbn iota in E.
  apply bind_ok in E. destruct E as (nn & _ & E). apply bind_ok in E. destruct E as (ci & Eci & E). injection E as <-. unfold mk_circle in Eci. apply bind_ok in Eci. destruct Eci as ((RR & DD) & Er & Eci). injection Eci as <-.
  cbn in Er. injection Er as <- <-. destruct (unit64 n n0 Hn Mo) as (u & Hu & Eu). pose proof (nonzero_of_len n0 _ (bpow_gt_0 radix2 (-500)) (proj1 Mo)) as Nn. pose proof (unit64_len _ _ _ (dirn_unit n0 Nn) Eu) as Lu.
  assert (Lu' : Rabs (len u - 1) <= 4e-16) by (unfold eps64 in Lu; lra). destruct (unitish u Lu') as [Nu Uu].
  exists (Disc c (dirn u) rad). split; [|split; [reflexivity|split; [reflexivity|]]].
  - eexists _, _, (mk_plane pos n), u. split; [reflexivity|]. cbn [mi_shape mi_type mi_surfaces]. do 3 (split; [reflexivity|]). split; [reflexivity|]. split; [reflexivity|]. split; [reflexivity|]. split; [exact Hrad|].
    split; [exact Hc|]. split; [exact Hu|]. split; [exact Lu'|reflexivity].
  - cbn [dn]. eapply Rle_trans; [apply (len_tri (dirn u) u)|]. rewrite (dirn_close u Nu). unfold eps64 in *. lra.
Qed.
Print Assumptions C85_built.

(** C85: the path is the one that run takes in exact arithmetic, between the exact mirrors. *)
Definition exact_mirror (o : optic xr) (q : option disc) : Prop := match q with None => skipped o = true | Some q => flat_mirror o (dc q) (dn q) (fun x => dist3 x (dc q) < dr q) end.

Lemma exact_at w ds j q : Forall2 exact_mirror w ds -> nth_error ds j = Some (Some q) -> exists o, nth_error w j = Some o /\ exact_mirror o (Some q).
Proof. intros F. revert j. induction F as [|o d w ds H _ IH]; intros [|j] E; try discriminate E; [injection E as ->; exists o; auto|exact (IH j E)]. Qed.
Lemma exact_back w ds j o : Forall2 exact_mirror w ds -> nth_error w j = Some o -> skipped o = true \/ exists q, nth_error ds j = Some (Some q) /\ exact_mirror o (Some q).
Proof. intros F. revert j. induction F as [|o1 d w ds H _ IH]; intros [|j] E; try discriminate E; [injection E as ->; destruct d as [q|]; [right; exists q; auto|left; exact H]|exact (IH j E)]. Qed.
Lemma exact_flat w ds : Forall2 exact_mirror w ds -> Forall flat_or_skipped w.
Proof. induction 1 as [|o q w ds H _ IH]; constructor; [|exact IH]. destruct q as [q|]; [right; destruct H as (m & _ & _ & V); eauto|left; exact H]. Qed.
Lemma report_time (o : optic xr) q (r : ray xr) P D rm x pt n : exact_mirror o (Some q) -> ray_is r P D -> is_unit D -> reports r rm o x pt n ->
  x = time (dc q) (dn q) P D /\ 1e-9 < x /\ 1e-9 < Rabs (dn q ∙ D) /\ len ((P + x * D) - dc q)%r3 < dr q /\ x <= rm.
Proof.
  intros (m & _ & _ & V) Hr UD R. destruct (flat_axis _ _ _ _ (dn q) _ _ _ _ _ _ _ V (or_introl eq_refl) Hr UD R) as (E & L & C & A & _ & _ & B). rewrite (dot_comm D) in E, C. repeat split; auto.
  unfold time. rewrite E. field. intros Z. rewrite Z, Rabs_R0 in C. lra.
Qed.
Lemma clear_far (o : optic xr) q (r : ray xr) P D rm x pt n del mu m : exact_mirror o (Some q) -> ray_is r P D -> is_unit D -> 0 <= mu -> clear del mu m q P D -> reports r rm o x pt n -> m < x.
Proof.
  intros Ex Hr UD Mu Cl R. destruct (report_time _ _ _ _ _ _ _ _ _ Ex Hr UD R) as (E & L & C & A & _). destruct Cl as [Cl|(_ & Cl)]; [lra|]. cbv zeta in Cl. rewrite <- E in Cl. lra.
Qed.
Lemma path_flows S0 del mu ds (w : list (optic xr)) : Forall2 exact_mirror w ds -> 1e-9 < mu -> 1e-9 < del ->
  forall l P D m pts D', path S0 del mu ds l P D m pts D' -> forall r : ray xr, ray_is r P D -> is_unit D -> blocked r = false -> ray_type r <> "faerie_fire"%string ->
    (forall j q, l = Some j -> nth_error ds j = Some (Some q) -> (dc q - P)%r3 ∙ dn q = 0) ->
  exists r', flows r w m (Ok (r', w)) /\ point_history r' = point_history r ++ map fv pts /\ direction r' = fv D'.
Proof.
  intros F Mu Del l P D m pts D' Pa. induction Pa as [l P D m Cl Lm LQ|l P D m j q pts D' Eq Nl Me t Cl Tm LQ Pa IH]; intros r Hr UD B Ty JL; pose proof (flat_tests r P D w Hr UD (exact_flat _ _ F)) as Tk.
  - exists (fly r (Fin m)). split; [|split; [unfold fly; cbn [point_history]; rewrite (proj1 Hr), (proj2 Hr); reflexivity|exact (proj2 Hr)]]. apply F_free; [lra|exact B|exact Tk|].
    intros j o x pt n En R. destruct (exact_back _ _ _ _ F En) as [Sk|(q & Eq & Ex)]; [destruct R as (S1 & _); congruence|]. destruct (report_time _ _ _ _ _ _ _ _ _ Ex Hr UD R) as (E & L & C & A & X).
    assert (Dl : {l = Some j} + {l <> Some j}) by (decide equality; apply Nat.eq_dec). destruct Dl as [El|Nl].
    + pose proof (JL _ _ El Eq) as Z. unfold time in E. rewrite Z in E. unfold Rdiv in E. rewrite Rmult_0_l in E. lra.
    + pose proof (clear_far o q r P D m x pt n del mu m Ex Hr UD ltac:(lra) (Cl _ _ Eq Nl) R). lra.
  - destruct Me as (Bd & Lt & Rim). fold t in Lt, Rim. destruct (exact_at _ _ _ _ F Eq) as (o & En & Ex). assert (Ex' := Ex). destruct Ex' as (mi & Eo & Tm' & V). pose proof (flat_unit _ _ _ _ V) as Un.
    assert (Nz : dn q ∙ D <> 0) by (intros Z; rewrite Z, Rabs_R0 in Bd; lra).
    assert (R : reports r m o t (fv (at_t P D t)) (Some (fv (dn q)))).
    { apply (flat_axis_yes _ _ _ _ (dn q) _ _ _ _ _ V (or_introl eq_refl) Hr UD); rewrite ?(dot_comm D (dn q)); try lra; [unfold t, time; field; exact Nz|]. unfold dist3, at_t. lra. }
    assert (Ch : chosen r m w j t (fv (at_t P D t)) (Some (fv (dn q)))).
    { apply (chosen_intro _ _ _ _ _ _ _ _ En R). intros j' o' x' pt' n' En' Nj R'. destruct (exact_back _ _ _ _ F En') as [Sk|(q' & Eq' & Ex')]; [destruct R' as (S1 & _); congruence|].
      assert (Dl : {l = Some j'} + {l <> Some j'}) by (decide equality; apply Nat.eq_dec). destruct Dl as [El|Nl'].
      - pose proof (JL _ _ El Eq') as Z. destruct (report_time _ _ _ _ _ _ _ _ _ Ex' Hr UD R') as (E & L & _). unfold time in E. rewrite Z in E. unfold Rdiv in E. rewrite Rmult_0_l in E. lra.
      - exact (clear_far o' q' r P D m x' pt' n' del mu t Ex' Hr UD ltac:(lra) (Cl _ _ Eq' Nl' Nj) R'). }
    assert (FM : flat_mirror o (dc q) (dn q) (fun x => dist3 x (dc q) < dr q)) by exact Ex. pose proof (fly_ray _ _ _ t Hr) as Hf.
    assert (Sf : exists f, last_side r w None = Some f).
    { clear - En Tk R. destruct R as (Sk & _). set (a := (None : option sfo)). clearbody a. revert j a En Tk. induction w as [|o1 w IH]; intros [|j] a En Tk; try discriminate En; cbn [last_side]; inversion Tk as [|? ? T1 T2]; subst.
      - injection En as ->. rewrite Sk. destruct T1 as [T1|(h & E & _)]; [congruence|]. rewrite E. clear - T2. set (b := h4_sfo h). clearbody b. revert b. induction T2 as [|o2 w T _ IH]; intros b; cbn [last_side]; [eauto|].
        destruct (skipped o2) eqn:S2; [apply IH|]. destruct T as [T|(h2 & E2 & _)]; [congruence|]. rewrite E2. apply IH.
      - destruct (skipped o1) eqn:S1; [exact (IH _ _ En T2)|]. destruct T1 as [T1|(h & E & _)]; [congruence|]. rewrite E. exact (IH _ _ En T2). }
    destruct Sf as (f & Ef).
    assert (Ac : act r t (fv (at_t P D t)) (Some (fv (dn q))) o w = Ok (set_direction (fly r (Fin t)) (fv (refl (dn q) D)), o)).
    { unfold act. apply String.eqb_neq in Ty. rewrite Ty, Ef. cbn [bound bind]. exact (mirror_hit _ _ _ _ _ _ _ f _ FM Hf UD). }
    destruct (IH (set_direction (fly r (Fin t)) (fv (refl (dn q) D)))) as (r' & Fl & Hh & Hd').
    + eapply set_dir_ray. exact Hf.
    + apply mirrored_unit; assumption.
    + exact B.
    + exact Ty.
    + intros j' q' E E'. injection E as <-. rewrite Eq in E'. injection E' as <-. pose proof (time_on (dc q) (dn q) P D Nz) as Z. fold t in Z. rewrite !dot_sub_l in *. lra.
    + exists r'. split; [|split; [rewrite Hh; cbn [set_direction point_history fly map]; rewrite (proj1 Hr), (proj2 Hr), <- app_assoc; reflexivity|exact Hd']].
      eapply F_hit with (o' := o); try eassumption; [lra|]. rewrite (set_nth_self _ _ _ En). exact Fl.
Qed.
Theorem C85_exact : forall (r : ray xr) p D m w ds S0 del mu pts D', Forall2 exact_mirror w ds -> ray_is r p D -> is_unit D -> blocked r = false -> ray_type r <> "faerie_fire"%string ->
  1e-9 < mu -> 1e-9 < del -> path S0 del mu ds None p D m pts D' ->
  exists fuel r', run fuel r (Fin m) w None = Ok (r', w) /\ point_history r' = point_history r ++ map fv pts /\ direction r' = fv D'.
Proof.
  intros r p D m w ds S0 del mu pts D' F Hr UD B Ty Mu Del Pa. destruct (path_flows S0 del mu ds w F Mu Del _ _ _ _ _ _ Pa r Hr UD B Ty) as (r' & Fl & Hh & Hd); [intros j q E; discriminate E|].
  destruct (nat_above (m / 1e-12 + 1)) as (fuel & Lf). exists fuel, r'. split; [|split; assumption].
  pose proof (run_terminates m None r w fuel (or_introl Lf)) as NF. pose proof (run_flows fuel r m w NF) as Fl2. exact (flows_det _ _ _ _ Fl2 _ Fl).
Qed.
Print Assumptions C85_exact.

(** a periscope: two mirrors at 45 degrees built by the constructor, with normals rounded in binary64 *)
Definition peri_1 : Res (mirror b64) := mk_mirror (V (nofZ 0) (nofZ 0) (nofZ 10)) "circular_flat" (Some (V (nofZ 0) (nofZ 1) (nofZ (-1)))) (Some (nofZ 4)) None None None None "normal" (Some (V (nofZ 0) (nofZ 0) (nofZ 1))).
Definition peri_2 : Res (mirror b64) := mk_mirror (V (nofZ 0) (nofZ 20) (nofZ 10)) "circular_flat" (Some (V (nofZ 0) (nofZ (-1)) (nofZ 1))) (Some (nofZ 4)) None None None None "normal" (Some (V (nofZ 0) (nofZ 0) (nofZ 1))).
Lemma peri_dir a s : 0 < a -> 0 < s -> s * s = / 2 -> dirn (mk3 0 a (-a)) = mk3 0 s (-s) /\ dirn (mk3 0 (-a) a) = mk3 0 (-s) s.
Proof.
  intros A Sp E. assert (Is : / s = 2 * s) by (apply Rmult_eq_reg_l with s; [rewrite Rinv_r by lra; lra|lra]).
  assert (L1 : len (mk3 0 a (-a)) = a / s). { apply len_eq_of_sq; [apply Rlt_le, Rdiv_lt_0_compat; lra|]. unfold Rdiv. rewrite Is. r3_unf. cbn [cx cy cz]. replace (a * (2 * s) * (a * (2 * s))) with (4 * (s * s) * (a * a)) by ring. rewrite E. field. }
  assert (L2 : len (mk3 0 (-a) a) = a / s). { apply len_eq_of_sq; [apply Rlt_le, Rdiv_lt_0_compat; lra|]. unfold Rdiv. rewrite Is. r3_unf. cbn [cx cy cz]. replace (a * (2 * s) * (a * (2 * s))) with (4 * (s * s) * (a * a)) by ring. rewrite E. field. }
  unfold dirn. rewrite L1, L2. split; r3_unf; cbn [cx cy cz]; f_equal; field; lra.
Qed.
Lemma peri_path s : 0.7 <= s -> s * s = / 2 -> path 30 0.7 2e-9 [Some (Disc (mk3 0 0 10) (mk3 0 s (-s)) 2); Some (Disc (mk3 0 20 10) (mk3 0 (-s) s) 2)] None (mk3 0 0 0) (mk3 0 0 1) 35 [mk3 0 0 10; mk3 0 20 10; mk3 0 20 15] (mk3 0 0 1).
Proof.
  intros Sp E.
  assert (T1 : time (mk3 0 0 10) (mk3 0 s (-s)) (mk3 0 0 0) (mk3 0 0 1) = 10) by (unfold time; r3_unf; cbn [cx cy cz]; field; lra).
  assert (T2 : time (mk3 0 20 10) (mk3 0 (-s) s) (mk3 0 0 0) (mk3 0 0 1) = -10) by (unfold time; r3_unf; cbn [cx cy cz]; field; lra).
  assert (T3 : time (mk3 0 20 10) (mk3 0 (-s) s) (mk3 0 0 10) (mk3 0 1 0) = 20) by (unfold time; r3_unf; cbn [cx cy cz]; field; lra).
  assert (T4 : time (mk3 0 0 10) (mk3 0 s (-s)) (mk3 0 20 10) (mk3 0 0 1) = 20) by (unfold time; r3_unf; cbn [cx cy cz]; field; lra).
  assert (A1 : mirrored (mk3 0 s (-s)) (mk3 0 0 1) = mk3 0 1 0). { unfold mirrored. r3_unf. cbn [cx cy cz]. f_equal; [ring|..]; match goal with |- ?l = _ => (replace l with (2 * (s * s)) by ring) || (replace l with (1 - 2 * (s * s)) by ring) end; rewrite E; field. }
  assert (A2 : mirrored (mk3 0 (-s) s) (mk3 0 1 0) = mk3 0 0 1). { unfold mirrored. r3_unf. cbn [cx cy cz]. f_equal; [ring|..]; match goal with |- ?l = _ => (replace l with (2 * (s * s)) by ring) || (replace l with (1 - 2 * (s * s)) by ring) end; rewrite E; field. }
  assert (P1 : (mk3 0 0 0 + 10 * mk3 0 0 1)%r3 = mk3 0 0 10) by (r3_unf; cbn [cx cy cz]; f_equal; ring). assert (P2 : (mk3 0 0 10 + 20 * mk3 0 1 0)%r3 = mk3 0 20 10) by (r3_unf; cbn [cx cy cz]; f_equal; ring).
  assert (P3 : (mk3 0 20 10 + 5 * mk3 0 0 1)%r3 = mk3 0 20 15) by (r3_unf; cbn [cx cy cz]; f_equal; ring).
  assert (Z : forall v : R3, len (v - v)%r3 = 0) by (intros v; apply len_eq_of_sq; [lra|r3_unf; cbn [cx cy cz]; ring]).
  assert (B : forall u v : R3, u ∙ v = s \/ u ∙ v = - s -> 0.7 <= Rabs (u ∙ v)) by (intros u v [-> | -> ]; [rewrite Rabs_pos_eq by lra|rewrite Rabs_Ropp, Rabs_pos_eq by lra]; lra).
  pose proof (path_bounce 30 0.7 2e-9 [Some (Disc (mk3 0 0 10) (mk3 0 s (-s)) 2); Some (Disc (mk3 0 20 10) (mk3 0 (-s) s) 2)] None (mk3 0 0 0) (mk3 0 0 1) 35 0 (Disc (mk3 0 0 10) (mk3 0 s (-s)) 2) [mk3 0 20 10; mk3 0 20 15] (mk3 0 0 1)) as Q1.
  cbv zeta in Q1. cbn [dc dn] in Q1. rewrite T1, P1, A1 in Q1. replace (35 - 10) with 25 in Q1 by lra. apply Q1; clear Q1.
  - reflexivity.
  - discriminate.
  - unfold meets. cbn [dc dn dr]. rewrite T1, P1, Z. split; [apply B; right; r3_unf; cbn [cx cy cz]; ring|lra].
  - intros [|[|j]] q Eq _ Nj; [lia| |destruct j; discriminate]. injection Eq as <-. right. cbn [dc dn dr]. rewrite T2. split; [apply B; left; r3_unf; cbn [cx cy cz]; ring|left; lra].
  - lra.
  - apply len_le_of; [lra|r3_unf; cbn [cx cy cz]; lra].
  - pose proof (path_bounce 30 0.7 2e-9 [Some (Disc (mk3 0 0 10) (mk3 0 s (-s)) 2); Some (Disc (mk3 0 20 10) (mk3 0 (-s) s) 2)] (Some 0%nat) (mk3 0 0 10) (mk3 0 1 0) 25 1 (Disc (mk3 0 20 10) (mk3 0 (-s) s) 2) [mk3 0 20 15] (mk3 0 0 1)) as Q2.
    cbv zeta in Q2. cbn [dc dn] in Q2. rewrite T3, P2, A2 in Q2. replace (25 - 20) with 5 in Q2 by lra. apply Q2; clear Q2.
    + reflexivity.
    + discriminate.
    + unfold meets. cbn [dc dn dr]. rewrite T3, P2, Z. split; [apply B; right; r3_unf; cbn [cx cy cz]; ring|lra].
    + intros [|[|j]] q Eq Nl Nj; [congruence|lia|destruct j; discriminate].
    + lra.
    + apply len_le_of; [lra|r3_unf; cbn [cx cy cz]; lra].
    + rewrite <- P3 at 1. apply path_end; [|lra|rewrite P3; apply len_le_of; [lra|r3_unf; cbn [cx cy cz]; lra]].
      intros [|[|j]] q Eq Nl; [|congruence|destruct j; discriminate]. injection Eq as <-. right. cbn [dc dn dr]. rewrite T4. split; [apply B; right; r3_unf; cbn [cx cy cz]; ring|right; right; lra].
Qed.
Example C85_hyp : exists m1 m2 q1 q2, peri_1 = Ok m1 /\ peri_2 = Ok m2 /\ Forall2 shows [OMirror m1; OMirror m2] [Some q1; Some q2] /\
  let r := mk_ray (V (nofZ 0) (nofZ 0) (nofZ 0)) (V (nofZ 0) (nofZ 0) (nofZ 1)) (nofZ 1) (nofZ 0) EmptyString in let d := mk3 0 0 1 in
  isv (position r) (mk3 0 0 0) /\ isv (direction r) d /\ Rabs (len d - 1) <= 4e-16 /\ len (dc q1) <= 30 /\ len (dc q2) <= 30 /\ 30 <= 1e4 * (0.7 * (0.7 * 0.7)) /\
  40 * (1e-14 * (3 * 3) * (30 / (0.7 * (0.7 * 0.7)))) <= 2e-9 /\
  path 30 0.7 2e-9 [Some q1; Some q2] None (mk3 0 0 0) (dirn d) 35 [mk3 0 0 10; mk3 0 20 10; mk3 0 20 15] (mk3 0 0 1).
Proof.
  set (s := sqrt (/ 2)). assert (E : s * s = / 2) by (apply sqrt_sqrt; lra). assert (Sp : 0.7 <= s). { unfold s. rewrite <- (sqrt_square 0.7) by lra. apply sqrt_le_1; lra. }
  set (a := 6369051672525772 / 9007199254740992). assert (Ap : 0 < a) by (unfold a; lra). destruct (peri_dir a s Ap ltac:(lra) E) as [D1 D2].
  assert (Ln : forall v, v ∙ v = 2 * (a * a) -> Rabs (len v - 1) <= 4e-16).
  { intros v Ev. apply Rabs_le. split; [|cut (len v <= 1 + 4e-16); [lra|apply len_le_of; [lra|rewrite Ev; unfold a; lra]]].
    cut (1 - 4e-16 <= len v); [lra|]. apply Rnot_lt_le. intros L. pose proof (len_nonneg v). pose proof (len_sq v) as Q. rewrite Ev in Q. assert (len v * len v <= (1 - 4e-16) * (1 - 4e-16)) by (apply Rmult_le_compat; lra). unfold a in *. lra. }
  assert (Ld : len (mk3 0 0 1) = 1) by (apply len_eq_of_sq; [lra|r3_unf; cbn [cx cy cz]; ring]).
  assert (Dd : dirn (mk3 0 0 1) = mk3 0 0 1) by (unfold dirn; rewrite Ld; r3_unf; cbn [cx cy cz]; f_equal; field).
  eexists _, _, (Disc (mk3 0 0 10) (mk3 0 s (-s)) 2), (Disc (mk3 0 20 10) (mk3 0 (-s) s) 2). split; [vm_compute; reflexivity|]. split; [vm_compute; reflexivity|]. cbv zeta. rewrite Dd, Ld. split.
  { constructor; [|constructor; [|constructor]].
    - eexists _, _, _, (mk3 0 a (-a)). split; [reflexivity|]. do 6 (split; [reflexivity|]). cbn [dr dc dn ci_R pl_center pl_normal].
      split; [split; [reflexivity|split; [reflexivity|vm_compute; lra]]|]. do 2 (split; [split; [|split]; (split; [vm_compute; reflexivity|split; [vm_compute; reflexivity|vm_compute; lra]])|]).
      split; [apply Ln; r3_unf; cbn [cx cy cz]; ring|symmetry; exact D1].
    - eexists _, _, _, (mk3 0 (-a) a). split; [reflexivity|]. do 6 (split; [reflexivity|]). cbn [dr dc dn ci_R pl_center pl_normal].
      split; [split; [reflexivity|split; [reflexivity|vm_compute; lra]]|]. do 2 (split; [split; [|split]; (split; [vm_compute; reflexivity|split; [vm_compute; reflexivity|vm_compute; lra]])|]).
      split; [apply Ln; r3_unf; cbn [cx cy cz]; ring|symmetry; exact D2]. }
  do 2 (split; [split; [|split]; (split; [vm_compute; reflexivity|split; [vm_compute; reflexivity|vm_compute; lra]])|]).
  replace (1 - 1) with 0 by ring. rewrite Rabs_R0. split; [lra|]. split; [apply len_le_of; [lra|r3_unf; cbn [dc cx cy cz]; lra]|]. split; [apply len_le_of; [lra|r3_unf; cbn [dc cx cy cz]; lra]|].
  split; [lra|]. split; [lra|]. exact (peri_path s Sp E).
Qed.
