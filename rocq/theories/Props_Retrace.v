(** C111: light retraces its path through a lens of two solids. *)
From Coq Require Import Reals ZArith Lra Lia Psatz String List Bool.
From Verif Require Import PyErr Num Vec Shapes Csg Optics Spec XReal RVec VecProofs AngleProofs FlatProofs SphereProofs CylProofs ShapeExtra
  TreeProofs SolidProofs CsgProofs CsgStart CsgExact RayProofs RunGen NoFuel RunXr OpticHits StateXr OrderProofs FlatOptic Props_Ray Props_Loop Props_Run Props_Rehit SceneProofs Props_Scene
  Props_Path Props_Images Props_Reverse Props_Compound Props_Ball Props_Singlet.
Import ListNotations.
Local Open Scope R_scope.

Lemma opp_opp (d : R3) : (- - d)%r3 = d. Proof. destruct d. unfold r3opp. cbn. f_equal; ring. Qed.
Lemma perp_neg u d : perp u (- d)%r3 = (- perp u d)%r3. Proof. unfold perp. replace ((- d)%r3 ∙ u) with (- (d ∙ u)) by r3_ring. generalize (d ∙ u). intros. r3_ring. Qed.
Lemma sine_neg u d : sine u (- d)%r3 = sine u d. Proof. unfold sine. rewrite perp_neg. apply len_opp. Qed.
Lemma total_neg e1 e2 u d : total_reflection e1 e2 u (- d)%r3 <-> total_reflection e1 e2 u d. Proof. unfold total_reflection. rewrite sine_neg. tauto. Qed.
Lemma sine_le u d : is_unit u -> is_unit d -> sine u d <= 1.
Proof. intros Uu Ud. pose proof (sine_sq u d Uu Ud) as E. assert (0 <= sine u d) by (unfold sine; apply len_nonneg). pose proof (Rle_0_sqr (d ∙ u)) as Q. unfold Rsqr in Q. nra. Qed.
(** Snell's law read backwards *)
Lemma bends_back e1 e2 u d o : is_unit u -> is_unit d -> 0 < e1 -> 0 < e2 -> ~ total_reflection e1 e2 u d -> bends e1 e2 u d o -> is_unit o /\ ~ total_reflection e2 e1 u (- o)%r3 /\ bends e2 e1 u (- o)%r3 (- d)%r3.
Proof.
  intros Uu Ud P1 P2 NT [_ B]. destruct (B NT) as (Uo & Sn & Sd). split; [exact Uo|].
  assert (NT' : ~ total_reflection e2 e1 u (- o)%r3).
  { rewrite total_neg. intros [G1 G2]. assert (E : e2 * sine u o = e1 * sine u d). { unfold sine. rewrite <- (Rabs_right e2) at 1 by lra. rewrite <- (Rabs_right e1) at 1 by lra. rewrite <- !len_scale, Sn. reflexivity. }
    pose proof (sine_le u d Uu Ud). nra. }
  split; [exact NT'|]. split; [intros T; contradiction|]. intros _. split; [apply unit_opp; exact Ud|]. split; [rewrite !perp_neg; replace (e2 * - perp u o)%r3 with (- (e2 * perp u o))%r3 by r3_ring; rewrite <- Sn; r3_ring|]. rewrite !dot_opp_l. lra.
Qed.
Lemma parallel_neg v d : parallel v (- d)%r3 <-> parallel v d.
Proof. unfold parallel. rewrite perp_neg. split; intros E; [rewrite <- (opp_opp (perp v d)), E|rewrite E]; unfold r3opp, r3zero; cbn; f_equal; ring. Qed.
Lemma skew_neg s d : skew s d -> skew s (- d)%r3. Proof. destruct s; cbn; [auto|]. rewrite parallel_neg. auto. Qed.
Lemma skew_of s d y : d ∙ inward s y <> 0 -> skew s d.
Proof.
  destruct s as [c rad|c v rad]; cbn [skew inward]; [auto|]. intros H P. apply H. unfold parallel in P. rewrite dot_scale_r.
  replace (d ∙ perp (dirn v) (c - y)%r3) with (perp (dirn v) d ∙ (c - y)%r3) by (generalize (dirn v) (c - y)%r3; intros; unfold perp; r3_ring). rewrite P, dot_zero_l. ring.
Qed.

Section Back.
Variables (s1 s2 : solid) (ix : R).
Hypotheses (P1 : proper s1) (P2 : proper s2).
Let fproper sa sb : faces s1 s2 sa sb -> proper sa /\ proper sb. Proof. intros [[-> ->]|[-> ->]]; auto. Qed.
(** at q light goes into the glass from the face sa *)
Definition inside (sa sb : solid) (q o : R3) : Prop := faces s1 s2 sa sb /\ surface sa q /\ 0 < o ∙ inward sa q /\ member sb q.
Lemma exit_back sa sb sc sd q o t : inside sa sb q o -> faces s1 s2 sc sd -> exit sc sd q o t -> skew sd o -> let y := at_t q o t in at_t y (- o)%r3 t = q /\ exit sa sb y (- o)%r3 t /\ skew sb (- o)%r3.
Proof.
  intros (F & Sf & In & Mb) F' (Lt & Se & Out & Md) Sk y. assert (E : at_t y (- o)%r3 t = q) by (unfold y; rewrite at_back; replace (t - t) with 0 by ring; apply at_t_0).
  split; [exact E|]. split; [unfold exit; rewrite E, dot_opp_l; repeat split; try assumption; lra|]. apply skew_neg.
  assert (K : sb = sd \/ sb = sc) by (destruct F as [[-> ->]|[-> ->]], F' as [[-> ->]|[-> ->]]; auto). destruct K as [->| ->]; [exact Sk|]. apply (skew_of _ _ y). fold y in Out. lra.
Qed.
Lemma glass_nonempty q o L pts x e : glass s1 s2 ix q o L pts x e -> pts <> []. Proof. destruct 1; discriminate. Qed.
(** the way back through the glass: up to q, and there out of the glass or on by total reflection *)
Lemma glass_back q o L pts x e : glass s1 s2 ix q o L pts x e -> is_unit o -> forall sa sb, inside sa sb q o ->
  exists sc sd ol, faces s1 s2 sc sd /\ surface sc x /\ member sd x /\ is_unit ol /\ e ∙ inward sc x < 0 /\ ~ total_reflection ix 1 (inward sc x) ol /\ bends ix 1 (inward sc x) ol e /\
    (exists pre, pts = pre ++ [x]) /\
    (forall d', ~ total_reflection ix 1 (inward sa q) (- o)%r3 -> bends ix 1 (inward sa q) (- o)%r3 d' -> d' ∙ inward sa q < 0 -> glass s1 s2 ix x (- ol)%r3 L (tl (rev pts) ++ [q]) q d') /\
    (forall L2 pts2 x2 e2, total_reflection ix 1 (inward sa q) (- o)%r3 -> glass s1 s2 ix q (refl (inward sa q) (- o)%r3) L2 pts2 x2 e2 -> glass s1 s2 ix x (- ol)%r3 (L + L2) (tl (rev pts) ++ q :: pts2) x2 e2).
Proof.
  induction 1 as [sc sd q o t e F Ex Sk NT Bn Out|sc sd q o t L pts x e F Ex Sk T G IH]; intros Uo sa sb In.
  - set (y := at_t q o t) in *. destruct (exit_back sa sb sc sd q o t In F Ex Sk) as (Eq & Ex' & Sk'). fold y in Eq, Ex', Sk'. exists sc, sd, o. destruct Ex as (Lt & Se & Oo & Md). fold y in Se, Oo, Md.
    split; [exact F|]. split; [exact Se|]. split; [exact Md|]. split; [exact Uo|]. split; [exact Out|]. split; [exact NT|]. split; [exact Bn|]. split; [exists []; reflexivity|]. cbn [rev app tl]. split.
    + intros d' N' B' O'. rewrite <- Eq at 1 2. apply (glass_out s1 s2 ix sa sb y (- o)%r3 t d'); rewrite ?Eq; try assumption. apply In.
    + intros L2 pts2 x2 e2 T' G'. rewrite <- Eq at 1. apply (glass_in s1 s2 ix sa sb y (- o)%r3 t L2 pts2 x2 e2); rewrite ?Eq; try assumption. apply In.
  - set (y := at_t q o t) in *. destruct (exit_back sa sb sc sd q o t In F Ex Sk) as (Eq & Ex' & Sk'). fold y in Eq, Ex', Sk'. pose proof (glass_nonempty _ _ _ _ _ _ G) as Ne.
    set (u := inward sc y) in *. destruct Ex as (Lt & Se & Oo & Md). fold y in Se, Oo, Md. fold u in Oo. pose proof (inward_unit sc y (proj1 (fproper _ _ F)) Se) as Uu. fold u in Uu.
    assert (In' : inside sc sd y (refl u o)) by (split; [exact F|]; split; [exact Se|]; split; [fold u; rewrite refl_normal by exact Uu; lra|exact Md]).
    destruct (IH (refl_unit u o Uu Uo) sc sd In') as (sc' & sd' & ol & F' & Se' & Md' & Ul & Out' & NT' & Bn' & (pre & Ep) & _ & KB). fold u in KB.
    exists sc', sd', ol. repeat (split; [assumption|]). split; [exists (y :: pre); rewrite Ep; reflexivity|].
    assert (Rf : refl u (- refl u o)%r3 = (- o)%r3) by (rewrite refl_neg, refl_invol by exact Uu; reflexivity). rewrite Rf in KB.
    assert (TB : total_reflection ix 1 u (- refl u o)%r3). { rewrite total_neg. destruct T as [T1 T2]. split; [exact T1|]. assert (Sr : sine u (refl u o) = sine u o). { assert (A : 0 <= sine u (refl u o)) by (unfold sine; apply len_nonneg). assert (B : 0 <= sine u o) by (unfold sine; apply len_nonneg).
        pose proof (sine_sq u (refl u o) Uu (refl_unit u o Uu Uo)) as E1. pose proof (sine_sq u o Uu Uo) as E2. rewrite refl_normal in E1 by exact Uu. assert (sine u (refl u o) * sine u (refl u o) = sine u o * sine u o) by lra. nra. } rewrite Sr. exact T2. }
    assert (Et : tl (rev (y :: pts)) = tl (rev pts) ++ [y]). { cbn [rev]. rewrite Ep, rev_app_distr. reflexivity. }
    rewrite Et, (Rplus_comm t L). split.
    + intros d' N' B' O'. rewrite <- app_assoc. cbn [app]. apply KB; [exact TB|]. rewrite <- Eq. apply (glass_out s1 s2 ix sa sb y (- o)%r3 t d'); rewrite ?Eq; try assumption. apply In.
    + intros L2 pts2 x2 e2 T2 G2. rewrite <- app_assoc, Rplus_assoc. cbn [app]. apply KB; [exact TB|]. rewrite <- Eq at 1. apply (glass_in s1 s2 ix sa sb y (- o)%r3 t L2 pts2 x2 e2); rewrite ?Eq; try assumption. apply In.
Qed.
End Back.

(** A ray that goes through a lens (any two balls or cylinders under "intersect", any number of total reflections inside) with the end of its flight at q: sent back from q, it retraces its path point by point. *)
Theorem C111_lens : forall s1 s2 tr ix p d sa sb t1 o L pts x e t3, tree_of (Bin OpIntersect (Leaf s1) (Leaf s2)) tr -> 0 < radius s1 -> 0 < radius s2 -> 0 < ix -> is_unit d ->
  faces s1 s2 sa sb -> entry sa sb p d t1 -> let q1 := at_t p d t1 in let u1 := inward sa q1 in
  ~ total_reflection 1 ix u1 d -> bends 1 ix u1 d o -> 0 < o ∙ u1 -> glass s1 s2 ix q1 o L pts x e -> 1e-12 < t3 ->
  (forall s, s = s1 \/ s = s2 -> skew s d /\ member s (at_t q1 d 1e-8) /\ skew s e /\ member s (at_t x e (- 1e-8))) ->
  let q := at_t x e t3 in let m := t1 + L + t3 in let w := [OCompound (mkCompound tr "refract" (Fin ix))] in
  forall r r2 fuel, ray_is r p d -> ray_is r2 q (- e)%r3 -> blocked r = false -> blocked r2 = false -> ray_type r <> "faerie_fire"%string -> ray_type r2 <> "faerie_fire"%string -> (List.length pts + 2 <= fuel)%nat ->
  (exists r', run fuel r (Fin m) w None = Ok (r', w) /\ ray_is r' q e /\ point_history r' = point_history r ++ map fv ((q1 :: pts) ++ [q])) /\
  (exists r', run fuel r2 (Fin m) w None = Ok (r', w) /\ ray_is r' p (- d)%r3 /\ point_history r' = point_history r2 ++ map fv (rev (q1 :: pts) ++ [p])).
Proof.
  intros s1 s2 tr ix p d sa sb t1 o L pts x e t3 HT R1 R2 Hix Ud F En q1 u1 NT Bo Io G Lt Dp q m w r r2 fuel Hr Hr2 Hb Hb2 Ty Ty2 Hf.
  pose proof (faces_proper s1 s2 tr 1 HT R1 R2) as FP. destruct (FP s1 s2 (or_introl (conj eq_refl eq_refl))) as [P1 P2]. destruct (FP sa sb F) as [Pa Pb].
  pose proof En as (Lt1 & Sf & In & Mb). fold q1 in Sf, In, Mb. fold u1 in In. pose proof (inward_unit sa q1 Pa Sf) as Uu. fold u1 in Uu.
  assert (Wh : forall sa sb, faces s1 s2 sa sb -> (sa = s1 \/ sa = s2) /\ (sb = s1 \/ sb = s2)) by (intros ? ? [[-> ->]|[-> ->]]; auto). destruct (Wh _ _ F) as [Wa Wb].
  assert (PL : 0 < L) by (clear - G; induction G as [? ? ? ? ? ? ? (? & _)|? ? ? ? ? ? ? ? ? ? (? & _) ? ? ? ?]; lra).
  destruct (bends_back 1 ix u1 d o Uu Ud ltac:(lra) Hix NT Bo) as (Uo & NTb & Bb). split.
  - destruct (C71_singlet s1 s2 tr ix r p d m sa sb t1 HT R1 R2 Hix Hr Ud Hb Ty F En (proj1 (Dp sb Wb))) as (o' & _ & Bo' & _ & Run); [rewrite <- at_t_at; apply (Dp sa Wa)|rewrite <- at_t_at; apply (Dp sb Wb)|].
    fold q1 u1 in Bo', Run. rewrite <- (bends_unique 1 ix u1 d o o' Uu ltac:(lra) Hix Bo Bo') in Run.
    destruct (Run NT L pts x e G ltac:(unfold m; lra) fuel Hf) as (r' & E & _ & Hr' & Hh). exists r'. replace (m - t1 - L) with t3 in Hr', Hh by (unfold m; lra). fold q in Hr', Hh. split; [exact E|]. split; [exact Hr'|]. rewrite Hh. cbn [app map]. rewrite map_app. reflexivity.
  - destruct (glass_back s1 s2 ix P1 P2 q1 o L pts x e G Uo sa sb (conj F (conj Sf (conj Io Mb)))) as (sc & sd & ol & F' & Se & Md & Ul & Out & NTl & Bl & (pre & Ep) & KA & _).
    destruct (FP sc sd F') as [Pc Pd]. destruct (Wh _ _ F') as [Wc Wd]. pose proof (inward_unit sc x Pc Se) as Uc. destruct (bends_back ix 1 (inward sc x) ol e Uc Ul Hix ltac:(lra) NTl Bl) as (Ue & NTe & Be).
    assert (Ex : at_t q (- e)%r3 t3 = x) by (unfold q; rewrite at_back; replace (t3 - t3) with 0 by ring; apply at_t_0).
    assert (E8 : at_t x (- e)%r3 1e-8 = at_t x e (- 1e-8)) by (unfold at_t; apply r3_ext; cbn; lra).
    assert (En' : entry sc sd q (- e)%r3 t3) by (unfold entry; rewrite Ex, dot_opp_l; repeat split; try assumption; lra).
    destruct (C71_singlet s1 s2 tr ix r2 q (- e)%r3 m sc sd t3 HT R1 R2 Hix Hr2 (unit_opp e Ue) Hb2 Ty2 F' En' (skew_neg _ _ (proj1 (proj2 (proj2 (Dp sd Wd)))))) as (o' & _ & Bo' & _ & Run); [rewrite <- at_t_at, Ex, E8; apply (Dp sc Wc)|rewrite <- at_t_at, Ex, E8; apply (Dp sd Wd)|].
    rewrite Ex in Bo', Run. rewrite <- (bends_unique 1 ix (inward sc x) (- e)%r3 (- ol)%r3 o' Uc ltac:(rewrite dot_opp_l; lra) Hix Be Bo') in Run.
    assert (G' : glass s1 s2 ix x (- ol)%r3 L (tl (rev pts) ++ [q1]) q1 (- d)%r3) by (apply KA; [exact NTb|exact Bb|fold u1; rewrite dot_opp_l; lra]).
    assert (Ln : List.length (tl (rev pts) ++ [q1]) = List.length pts) by (rewrite Ep, rev_app_distr; cbn [rev app tl]; rewrite !app_length, rev_length; reflexivity).
    destruct (Run NTe L _ q1 (- d)%r3 G' ltac:(unfold m; lra) fuel ltac:(rewrite Ln; exact Hf)) as (r' & E & _ & Hr' & Hh). exists r'. replace (m - t3 - L) with t1 in Hr', Hh by (unfold m; lra).
    assert (Eb : at_t q1 (- d)%r3 t1 = p) by (unfold q1; rewrite at_back; replace (t1 - t1) with 0 by ring; apply at_t_0). rewrite Eb in Hr', Hh. split; [exact E|]. split; [exact Hr'|]. rewrite Hh. f_equal.
    rewrite Ep. cbn [rev]. rewrite rev_app_distr. cbn [rev app tl]. rewrite !map_app. cbn [map app]. rewrite !map_app. cbn [map]. reflexivity.
Qed.
Print Assumptions C111_lens.

(** the hypotheses are met: the lens and the ray of C71_hyp *)
Example C111_hyp : let p := mk3 (-14) 3 0 in let q1 := at_t p ex 10 in let x := at_t q1 lens_o 1 in entry lens_a lens_b p ex 10 /\ 0 < lens_o ∙ inward lens_a q1 /\ glass lens_a lens_b (39/25) q1 lens_o 1 [x] x lens_o /\
  forall s, s = lens_a \/ s = lens_b -> skew s ex /\ member s (at_t q1 ex 1e-8) /\ skew s lens_o /\ member s (at_t x lens_o (- 1e-8)).
Proof.
  destruct C71_hyp as (_ & _ & _ & _ & En & _ & M1 & M2 & _ & _ & G). intros p q1 x. split; [exact En|]. split; [unfold q1, p, inward, lens_a, at_t, ex, lens_o, r3dot; cbn; lra|]. split; [exact G|].
  intros s [->| ->]; (split; [exact I|]); (split; [unfold q1; rewrite at_t_at; assumption|]); (split; [exact I|]); apply lt_of; try lra; unfold x, q1, p, at_t, ex, lens_o, r3dot; cbn; lra.
Qed.

