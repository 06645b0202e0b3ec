(** C107, continued: faerie fire on a compound of one solid, and script_testCylinder.py. *)
From Coq Require Import Reals ZArith Lra Lia Psatz String List Bool.
From Verif Require Import PyErr Num Vec Shapes Csg Optics General Spec XReal RVec VecProofs AngleProofs FlatProofs SphereProofs CylProofs ShapeExtra
  TreeProofs SolidProofs CsgProofs RayProofs GenProofs RunGen RunXr OpticHits OrderProofs FlatOptic SceneProofs Props_Shape Props_Compound Props_Touch Props_General Props_Along Props_Single Props_Faerie Scripts MoreScripts.
Import ListNotations.
Local Open Scope R_scope.

(** a report that is further away than the ray flies, or at no place, does not stop it *)
Lemma fire_far (c0 : compound xr) (r : ray xr) c u rad m h : is_unit u -> aimed r c u rad -> 0 < m -> test_tree_intersect (co_tree c0) r = Ok (I6 h) -> h6_flag h = true ->
  (exists x, m < x /\ h6_p1 h = Some (fv (at_t c u (rad - x)))) \/ h6_p1 h = Some (V XNaN XNaN XNaN) -> dot_at (OCompound c0) r m (at_t c u (rad - m)) false.
Proof.
  intros Uu (Hr & Ty & Bl & Hh) Hm E F P1. destruct Hr as [Hp Hd]. assert (Ud : is_unit (- u)%r3) by (apply unit_opp; exact Uu).
  assert (T0 : compound_test_intersect c0 r = Ok (H4 (h6_flag h) (h6_p1 h) (h6_n1 h) (SfoBool (evenb (h6_count h))))) by (unfold compound_test_intersect; rewrite E; reflexivity).
  destruct (fly_ray r _ _ m (conj Hp Hd)) as [P _]. pose proof (fly_history r (at_t c u rad) (- u)%r3 m (conj Hp Hd)) as Fh. rewrite Hh, at_back in Fh.
  assert (C0 : run_cond None (run_init r (Fin m) [OCompound c0]) = true) by (unfold run_cond; cbn [run_init rs_remaining rs_count rs_ray]; rewrite nofZ_fin, ngt_fin, Rltb_true, Bl by exact Hm; reflexivity).
  exists (fly r (Fin m)). split; [|split; [rewrite Fh; reflexivity|exact Bl]].
  assert (Sc : scan r (Fin m) (mkScan false ninf None None) 0 [OCompound c0] = Ok (mkScan false ninf None (Some (SfoBool (evenb (h6_count h)))))).
  { cbn [scan]. unfold scan_step. cbn [skipped optic_test_intersect]. rewrite T0. cbn [bind h4_flag h4_pt h4_normal h4_sfo]. rewrite F. destruct P1 as [(x & Lx & P1)|P1]; rewrite P1; cbn [need bind].
    - assert (Ds : distance_between (position r) (fv (at_t c u (rad - x))) = Fin x) by (rewrite Hp, distance_fv, <- at_back, dist_back by exact Ud; f_equal; apply Rabs_right; lra).
      rewrite Ds, ngt_fin, (Rltb_true m x) by lra. reflexivity.
    - rewrite (lost_distance (at_t c u rad) (- u)%r3 r (conj Hp Hd) : distance_between (position r) (V XNaN XNaN XNaN) = XNaN), clip_fin. reflexivity. }
  intros fuel Lf. destruct fuel as [|k]; [lia|]. unfold run. cbn [run_loop]. rewrite C0. unfold run_body. cbn [run_init rs_ray rs_world rs_remaining rs_count rs_sel rs_sfo]. rewrite Sc. cbn [bind sc_hit negb sc_sel sc_sfo].
  destruct k; cbn [run_loop]; unfold run_cond; cbn [rs_ray rs_remaining rs_count]; rewrite nsub_fin, nofZ_fin, ngt_fin, Rltb_false by lra; reflexivity.
Qed.

Lemma classic_parallel u d : parallel u d \/ ~ parallel u d.
Proof.
  unfold parallel. destruct (perp u d) as [x y z]. destruct (Req_dec x 0) as [->|N]; [|right; intros E; injection E; intros; contradiction]. destruct (Req_dec y 0) as [->|N]; [|right; intros E; injection E; intros; contradiction].
  destruct (Req_dec z 0) as [->|N]; [left; reflexivity|right; intros E; injection E; intros; contradiction].
Qed.
(** ** What faerie fire shows of one solid *)
(** A cylinder: a dot on the near side of the surface, if the ray starts outside.  A ray that starts inside, or along the axis, passes if the surface is out of reach. *)
Theorem C107_fire_cylinder : forall c w R t bh ix u rad m (r : ray xr), let s := Cyl c w R in let o := OCompound (mkCompound t bh ix) in tree_of (Leaf s) t -> 0 < R -> is_unit u -> aimed r c u rad -> 0 < rad <= m ->
  (forall a, 0 < a -> surface s (at_t c u a) -> a + 1e-12 < rad -> dot_at o r m (at_t c u a) true) /\
  (m < 2 * rad - 1e-12 -> (forall v, 0 < v < rad - 1e-12 -> ~ surface s (at_t c u v)) -> dot_at o r m (at_t c u (rad - m)) false /\ member s (at_t c u (rad - m))).
Proof.
  intros c w R t bh ix u rad m r s o HT HR Uu Am [Lr Lm]. pose proof (tree_proper s t HT HR) as Pr.
  assert (Mc : member s c). { apply member_sq; [exact Pr|]. cbn [centre radius s]. replace (c - c)%r3 with r3zero by (unfold r3sub, r3zero; destruct c; cbn; f_equal; ring). assert (Z : across s r3zero = r3zero) by (cbn [across s]; unfold perp; generalize (dirn w); intros; r3_ring). rewrite Z, dot_zero_l. nra. }
  pose proof Am as (Hr & _). assert (Ud : is_unit (- u)%r3) by (apply unit_opp; exact Uu).
  assert (D : skew s u \/ parallel (dirn w) u) by (unfold skew, s; destruct (classic_parallel (dirn w) u); auto).
  destruct D as [Sk|Pa].
  - destruct (chord_ex s c u Pr Uu Sk Mc) as (a & b & Ch). pose proof Ch as (Pa & Pb & S & M).
    assert (Eab : a = b).
    { pose proof (proj2 (S a) (or_introl eq_refl)) as Sa. apply surface_sq in Sa; [|exact Pr]. assert (Sb : surface s (at_t c u (- a))).
      { apply surface_sq; [exact Pr|]. rewrite <- Sa. cbn [centre s across]. unfold at_t. generalize (dirn w). intros v. unfold perp. r3_ring. }
      apply S in Sb. lra. }
    subst b. split.
    + intros a' Pa' Sa' La. apply S in Sa'. assert (a' = a) by lra. subst a'. destruct (chord_query s t c u a a rad r HT Pr Uu Ch Hr ltac:(lra)) as (h & E & [[L2 Tw]|[L2 _]]); [|lra].
      destruct (one_query s t bh ix _ _ _ _ r HT HR Ud Hr (chord_back s c u a a rad Ch)) as (_ & Q & _). destruct (Q L2 ltac:(cbn; tauto)) as (e & Q').
      unfold compound_test_intersect, answer in Q'. cbn [co_tree] in Q'. rewrite E in Q'. cbn [bind unpack6] in Q'. injection Q' as F P1 _ _.
      replace a with (rad - (rad - a)) by ring. apply (proj1 (fire (mkCompound t bh ix) r c u rad m h Uu Am ltac:(lra) E)); [exact F| |lra].
      rewrite <- at_back. destruct Tw as [-> | ->]; cbn [h6_p1 h6_flag] in *; [reflexivity|congruence].
    + intros Lm2 No. assert (La : rad - 1e-12 <= a). { apply Rnot_lt_le. intros L. apply (No a); [lra|]. apply S. auto. }
      split; [|apply M; lra]. destruct (chord_query s t c u a a rad r HT Pr Uu Ch Hr) as (h & E & [[L2 Tw]|[L2 On]]); [lra| |]; [exfalso; lra|].
      unfold one in On. subst h. eapply (fire_far (mkCompound t bh ix) r c u rad m _ Uu Am ltac:(lra) E eq_refl). left. exists (rad + a). split; [lra|]. cbn [h6_p1]. now rewrite at_back.
  - assert (No : forall v, member s (at_t c u v)).
    { intros v. apply member_sq; [exact Pr|]. cbn [centre radius across s]. unfold parallel in Pa. replace (perp (dirn w) (at_t c u v - c)) with (v * perp (dirn w) u)%r3 by (unfold at_t; generalize (dirn w); intros; unfold perp; r3_ring).
      rewrite Pa. replace (v * r3zero)%r3 with r3zero by r3_ring. rewrite dot_zero_l. nra. }
    split.
    + intros a _ Sa _. exfalso. apply surface_sq in Sa; [|exact Pr]. pose proof (proj1 (member_sq s _ Pr) (No a)). lra.
    + intros _ _. split; [|apply No]. inversion HT as [|c' u' rad' Ro Do sp Hu Hp HRa Em|]; subst. destruct (mk_infcyl_inv _ _ _ _ _ _ Hu HRa Em) as (D & pl & ->).
      destruct (infcyl_cases c (dirn w) R D pl (at_t c u rad) (- u)%r3 r HR (dirn_unit w Hu) Ud Hr) as (h' & Eh & Ch).
      assert (Pa' : parallel (dirn w) (- u)%r3) by (unfold parallel in *; transitivity (- (perp (dirn w) u))%r3; [generalize (dirn w); intros; unfold perp; r3_ring|rewrite Pa; r3_ring]).
      assert (Eh' : h' = H6 true (Some (V XNaN XNaN XNaN)) None (Some (V XNaN XNaN XNaN)) None 2) by (destruct Ch; try contradiction; try assumption).
      subst h'. eapply (fire_far (mkCompound _ bh ix) r c u rad m _ Uu Am ltac:(lra)); [cbn [co_tree mk_tree test_tree_intersect bind key_test_intersect shape_test_intersect]; rewrite Eh; reflexivity|reflexivity|right; reflexivity].
Qed.
Print Assumptions C107_fire_cylinder.

(** ** script_testCylinder.py *)
(** the cylinder along (0, 1, 1) *)
Lemma slanted c R v : across (Cyl c (mk3 0 1 1) R) v = mk3 (cx v) ((cy v - cz v) / 2) ((cz v - cy v) / 2).
Proof.
  cbn [across]. unfold perp, dirn. set (w := mk3 0 1 1). assert (L : len w * len w = 2) by (rewrite len_sq; unfold w, r3dot; cbn [cx cy cz]; ring). assert (P : 0 <= len w) by apply len_nonneg. assert (N : len w <> 0) by (intros Z; rewrite Z in L; lra).
  assert (K : / len w * / len w = / 2) by (rewrite <- L; field; exact N). set (k := / len w) in *. clearbody k. unfold w, r3dot, r3sub, r3scale. cbn [cx cy cz]. f_equal; [ring| |].
  - replace (cy v - (cx v * (k * 0) + cy v * (k * 1) + cz v * (k * 1)) * (k * 1)) with (cy v - (cy v + cz v) * (k * k)) by ring. rewrite K. field.
  - replace (cz v - (cx v * (k * 0) + cy v * (k * 1) + cz v * (k * 1)) * (k * 1)) with (cz v - (cy v + cz v) * (k * k)) by ring. rewrite K. field.
Qed.
Lemma slanted_crosses yc R x0 z : 0 < R -> z * z < 2 * (R * R) -> let sq := sqrt (R * R - z * z / 2) in let s := Cyl (mk3 0 yc 0) (mk3 0 1 1) R in let p := mk3 x0 yc z in let d := mk3 1 0 0 in
  0 < sq <= R /\ crosses s p d (- x0 - sq) (- x0 + sq) /\ at_t p d (- x0 - sq) = mk3 (- sq) yc z /\ refl (inward s (mk3 (- sq) yc z)) d = mk3 (z * z / (R * R) - 1) (- (sq * z) / (R * R)) (sq * z / (R * R)).
Proof.
  intros HR Hz sq s p d. assert (Pr : proper s) by (split; [exact HR|cbn; apply dirn_unit; intros E; injection E; lra]). assert (P : 0 < sq) by (apply sqrt_lt_R0; lra). assert (Q : sq * sq = R * R - z * z / 2) by (apply sqrt_sqrt; lra).
  split; [split; [exact P|]; pose proof (Rle_0_sqr z) as Z0; unfold Rsqr in Z0; nra|]. split; [|split].
  - split; [lra|]. intros t. rewrite surface_sq by exact Pr. cbn [centre radius s]. unfold s. rewrite slanted. unfold at_t, p, d, r3dot. cbn [cx cy cz r3sub r3add r3scale].
    match goal with |- ?a = _ <-> _ => replace a with ((x0 + t) * (x0 + t) + z * z / 2) by field end. split.
    + intros E. assert (K : (x0 + t - sq) * (x0 + t + sq) = 0) by nra. apply Rmult_integral in K. destruct K; [right|left]; lra.
    + intros [-> | ->]; nra.
  - unfold at_t, p, d. apply r3_ext; cbn; ring.
  - rewrite inward_across. cbn [centre radius s]. unfold s. rewrite slanted. unfold refl, d, r3dot. apply r3_ext; cbn [cx cy cz r3sub r3add r3scale].
    + replace (1 - 2 * (1 * (- / R * (- sq - 0)) + 0 * (- / R * ((yc - yc - (z - 0)) / 2)) + 0 * (- / R * ((z - 0 - (yc - yc)) / 2))) * (- / R * (- sq - 0))) with (1 - 2 * (sq * sq) / (R * R)) by (field; lra). rewrite Q. field. lra.
    + field. lra.
    + field. lra.
Qed.
Lemma run_all_app fuel rs1 rs2 (L : xr) w maxi a w1 b w2 : run_all fuel rs1 L w maxi = Ok (a, w1) -> run_all fuel rs2 L w1 maxi = Ok (b, w2) -> run_all fuel (rs1 ++ rs2) L w maxi = Ok (a ++ b, w2).
Proof.
  revert a w. induction rs1 as [|r rs1 IH]; intros a w E1 E2; cbn [run_all app] in *; [injection E1 as <- <-; exact E2|].
  destruct (run fuel r L w maxi) as [(r', w')|e]; [|discriminate]. cbn [bind] in *. destruct (run_all fuel rs1 L w' maxi) as [(rs', w'')|e] eqn:E; [|discriminate]. cbn [bind] in E1. injection E1 as <- <-. rewrite (IH _ _ E E2). reflexivity.
Qed.

(** Every ray is thrown back where it first meets the cylinder and flies the rest of the way; every faerie-fire ray makes one dot: on the cylinder, or, if it starts inside the cylinder, at the end of its flight, inside too. *)
Theorem C107_cylinder : forall yc R ix x0 L zs fuel draw rfuel n, 0 < R -> R + 1e-12 < - x0 -> - x0 < L -> 1e-10 < L -> (forall z, In z zs -> z * z < 2 * (R * R)) -> good_draws fuel draw -> L / 1e-12 + 1 < INR rfuel ->
  let c := mk3 0 yc 0 in let s := Cyl c (mk3 0 1 1) R in let rad := 0.85 * L in
  exists o seen_rays fire_rays, cylinder_script fuel (fun i => Fin (draw i)) rfuel (fv c) (Fin R) (fv (mk3 0 1 1)) ix (Fin L) [Fin x0] [Fin yc] (map Fin zs) n = Ok (seen_rays ++ fire_rays, [o]) /\
    Forall2 (fun z r => let sq := sqrt (R * R - z * z / 2) in let q := mk3 (- sq) yc z in let d' := mk3 (z * z / (R * R) - 1) (- (sq * z) / (R * R)) (sq * z / (R * R)) in
      surface s q /\ is_unit d' /\ direction r = fv d' /\ point_history r = [fv (mk3 x0 yc z); fv q; fv (at_t q d' (L + x0 + sq))]) zs seen_rays /\
    List.length fire_rays = Z.to_nat n /\
    Forall (shown (surface s) (fun u => (forall v, 0 < v < rad - 1e-12 -> ~ surface s (at_t c u v)) /\ member s (at_t c u (rad - L))) c rad L) fire_rays.
Proof.
  intros yc R ix x0 L zs fuel draw rfuel n HR Hx HL HL0 Hz Gd Hf c s rad.
  assert (Nw : mk3 0 1 1 <> r3zero) by (intros E; injection E; lra).
  assert (Ec : exists ic, mk_infcyl (fv c) (fv (mk3 0 1 1)) (Some (Fin R)) None = Ok ic) by (unfold mk_infcyl; rewrite check_R_only; cbn [bind]; eexists; reflexivity). destruct Ec as (ic & Ec).
  set (tr := mk_tree (KShape (SInfCyl ic))). assert (HT : tree_of (Leaf s) tr) by (apply (TO_cyl c (mk3 0 1 1) R (Some R) None ic Nw HR eq_refl Ec)).
  set (o := OCompound (mkCompound tr "reflect" ix)). exists o.
  set (ray0 := fun z => mk_ray (fv (mk3 x0 yc z)) (fv (mk3 1 0 0)) (Fin 532) (Fin 0) "normal").
  assert (Seen : exists rays, run_all rfuel (map ray0 zs) (Fin L) [o] None = Ok (rays, [o]) /\ Forall2 (fun z r => let sq := sqrt (R * R - z * z / 2) in let q := mk3 (- sq) yc z in let d' := mk3 (z * z / (R * R) - 1) (- (sq * z) / (R * R)) (sq * z / (R * R)) in
      surface s q /\ is_unit d' /\ direction r = fv d' /\ point_history r = [fv (mk3 x0 yc z); fv q; fv (at_t q d' (L + x0 + sq))]) zs rays).
  { revert Hz. induction zs as [|z zs IH]; intros Hz; [exists []; split; [reflexivity|constructor]|]. destruct IH as (rays & Ra & Fa); [intros; apply Hz; now right|]. cbn [map run_all].
    destruct (slanted_crosses yc R x0 z HR (Hz z (or_introl eq_refl))) as ([S1 S2] & Cr & Eq & Er). set (sq := sqrt (R * R - z * z / 2)) in *. fold c s in Cr, Er. set (d := mk3 1 0 0) in *. assert (Ud : is_unit d) by (unfold is_unit, d, r3dot; cbn; ring).
    assert (Hr : ray_is (ray0 z) (mk3 x0 yc z) d) by (split; [reflexivity|apply unit_vector_unit; exact Ud]).
    destruct (C102_cylinder c (mk3 0 1 1) R tr ix (mk3 x0 yc z) d _ _ (ray0 z) HT HR Ud Hr ltac:(discriminate) eq_refl Cr ltac:(lra)) as (Ud' & _ & _ & _ & _ & Dep). fold s in Ud', Dep. rewrite Eq, Er in Ud', Dep.
    destruct (Dep L ltac:(lra)) as (r' & Run & (_ & Hd) & Hh). exists (r' :: rays). fold o in Run. rewrite (Run rfuel Hf). cbn [bind]. rewrite Ra. cbn [bind]. split; [reflexivity|]. constructor; [|exact Fa]. cbv zeta. fold sq.
    split; [rewrite <- Eq; apply (proj2 Cr); auto|]. split; [exact Ud'|]. split; [exact Hd|]. rewrite Hh. cbn [ray0 mk_ray point_history app map]. replace (L - (- x0 - sq)) with (L + x0 + sq) by ring. reflexivity. }
  destruct Seen as (rays & Ra & Fa). exists rays.
  destruct (C51_terminates fuel draw (map ray0 zs) rad c n Gd) as (l & El). destruct (C104_aimed fuel draw (map ray0 zs) rad c n l El) as (new & -> & Ln & A).
  assert (R0 : (0 < rfuel)%nat) by (destruct rfuel; [|lia]; cbn in Hf; assert (0 < L / 1e-12) by (apply Rdiv_lt_0_compat; lra); lra).
  destruct (run_all_fire o L (shown (surface s) (fun u => (forall v, 0 < v < rad - 1e-12 -> ~ surface s (at_t c u v)) /\ member s (at_t c u (rad - L))) c rad L) rfuel new R0) as (fr & Rf & Lf & Ff).
  { intros r Ir. destruct (A r Ir) as (u & Uu & Am). destruct (C107_fire_cylinder c (mk3 0 1 1) R tr "reflect" ix u rad L r HT HR Uu Am ltac:(unfold rad; lra)) as [K1 K2]. fold s o in K1, K2.
    destruct (classic_parallel (dirn (mk3 0 1 1)) u) as [Pa|Np].
    - destruct K2 as [K2 M]; [unfold rad; lra| |].
      + intros v _ Sv. cbn [surface s] in Sv. unfold on_cylinder, axis_dist in Sv. unfold parallel in Pa. replace (perp (dirn (mk3 0 1 1)) (at_t c u v - c)) with (v * perp (dirn (mk3 0 1 1)) u)%r3 in Sv by (unfold at_t; generalize (dirn (mk3 0 1 1)); intros; unfold perp; r3_ring).
        rewrite Pa, len_scale, len_zero_r3 in Sv. lra.
      + exists (at_t c u (rad - L)), false. split; [exact K2|]. intros r' T B. exists (at_t c u (rad - L)). split; [exact T|]. right. split; [exact B|]. exists u. split; [exact Uu|]. split; [reflexivity|]. split; [|exact M].
        intros v _ Sv. cbn [surface s] in Sv. unfold on_cylinder, axis_dist in Sv. unfold parallel in Pa. replace (perp (dirn (mk3 0 1 1)) (at_t c u v - c)) with (v * perp (dirn (mk3 0 1 1)) u)%r3 in Sv by (unfold at_t; generalize (dirn (mk3 0 1 1)); intros; unfold perp; r3_ring).
        rewrite Pa, len_scale, len_zero_r3 in Sv. lra.
    - assert (Pr : proper s) by (split; [exact HR|cbn; apply dirn_unit; exact Nw]).
      assert (Mc : member s c). { apply member_sq; [exact Pr|]. cbn [centre radius s]. unfold s. rewrite slanted. unfold r3dot. cbn [cx cy cz r3sub c]. nra. }
      destruct (chord_ex s c u Pr Uu Np Mc) as (a & b & Pa & Pb & S & M). destruct (Rlt_le_dec (a + 1e-12) rad) as [La|La].
      + exists (at_t c u a), true. split; [apply K1; [exact Pa|apply S; auto|exact La]|]. intros r' T B. exists (at_t c u a). split; [exact T|]. left. split; [exact B|]. apply S. auto.
      + assert (No : forall v, 0 < v < rad - 1e-12 -> ~ surface s (at_t c u v)) by (intros v Hv Sv; apply S in Sv; lra). destruct K2 as [K2 M2]; [unfold rad; lra|exact No|].
        exists (at_t c u (rad - L)), false. split; [exact K2|]. intros r' T B. exists (at_t c u (rad - L)). split; [exact T|]. right. split; [exact B|]. exists u. auto. }
  exists fr. split; [|split; [exact Fa|split; [congruence|exact Ff]]].
  unfold cylinder_script, cylinder_scene. rewrite Ec. cbn [bind]. rewrite !nofZ_fin. rewrite dec_fin by discriminate. rewrite nmul_fin. replace (L * (IZR 85 / IZR (10 ^ 2))) with rad by (unfold rad; change (IZR (10 ^ 2)) with 100; lra).
  cbn [flat_map app]. rewrite !app_nil_r, map_map. match goal with |- context [add_faerie_fire_rays fuel _ (map ?g zs)] => change (map g zs) with (map ray0 zs) end. rewrite El. cbn [bind]. fold tr o. eapply run_all_app; eassumption.
Qed.
Print Assumptions C107_cylinder.
(** the script's own numbers *)
Example C107_cylinder_hyp : 2 + 1e-12 < - (-6) /\ - (-6) < 10 /\ (forall z, -2 <= z <= 2 -> z * z < 2 * (2 * 2)) /\ good_draws 1 (fun _ => 1).
Proof.
  split; [lra|]. split; [lra|]. split; [intros; nra|]. intros i. exists 0%nat. split; [lia|]. match goal with |- _ <= len ?v => change (len v) with (sqrt (v ∙ v)) end. apply Rle_trans with (sqrt 1); [rewrite sqrt_1; lra|]. apply sqrt_le_1; unfold r3dot; cbn; lra.
Qed.
