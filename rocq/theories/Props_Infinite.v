(** Property C84: runs with max_distance = np.inf. *)
From Coq Require Import Reals ZArith Lra Lia Psatz String List Bool.
From Verif Require Import PyErr Num Vec Shapes Csg Optics Spec XReal RVec VecProofs AngleProofs FlatProofs SphereProofs CylProofs ShapeExtra
  TreeProofs SolidProofs CsgProofs RayProofs RunGen NoFuel RunXr OpticHits StateXr OrderProofs FlatOptic Props_Ray Props_Loop Props_Run Props_Rehit SceneProofs Props_Scene Props_Train Props_Images Continue.
Import ListNotations.
Local Open Scope R_scope.

(** ** Specification *)
Definition not_finite (x : xr) : Prop := forall a, x <> Fin a.
(** a position none of whose coordinates is a finite number *)
Definition nowhere (v : vec xr) : Prop := not_finite (vx v) /\ not_finite (vy v) /\ not_finite (vz v).

(** ** Proofs *)
Lemma add_mul_inf p d x : x = PInf \/ x = XNaN -> not_finite (nadd p (nmul x d)).
Proof.
  intros [-> | ->] a; destruct d as [d| | |], p as [p| | |]; unfold nadd, nmul; cbn; unfold inf_times; repeat match goal with |- context [if ?b then _ else _] => destruct b; cbn end; intros H; discriminate H.
Qed.
Lemma fly_inf (r : ray xr) x : x = PInf \/ x = XNaN -> nowhere (position (fly r x)).
Proof. intros H. unfold fly, vadd, vscale. cbn. repeat split; cbn; apply add_mul_inf; exact H. Qed.
Lemma inf_minus (x : xr) : nsub PInf x = PInf \/ ((x = PInf \/ x = XNaN) /\ nsub PInf x = XNaN).
Proof. destruct x; [left|right|left|right]; auto; split; auto. Qed.
Definition inf_inv (st : @run_st xr) : Prop := rs_remaining st = PInf \/ (rs_remaining st = XNaN /\ nowhere (position (rs_ray st))).
Lemma inf_body st st' : rs_remaining st = PInf -> run_body PInf st = Ok st' -> inf_inv st'.
Proof.
  intros Hr E. unfold run_body in E. apply bind_ok in E. destruct E as (sc & _ & E). rewrite Hr in E. destruct (negb (sc_hit sc)).
  - injection E as <-. right. split; [reflexivity|]. apply fly_inf. auto.
  - apply bind_ok in E. destruct E as (s & _ & E). set (x := distance_between (position (rs_ray st)) (se_pt s)) in E. destruct (String.eqb _ _).
    + injection E as <-. destruct (inf_minus x) as [H|[H H']]; [left; exact H|right; split; [exact H'|]]. cbn [rs_ray set_blocked position]. exact (fly_inf _ x H).
    + apply bind_ok in E. destruct E as (f & _ & E). destruct (nth_error _ _) as [o|]; [|discriminate]. apply bind_ok in E. destruct E as ([r2 o'] & Ed & E). injection E as <-.
      destruct (inf_minus x) as [H|[H H']]; [left; exact H|right; split; [exact H'|]]. cbn [rs_ray]. apply do_frame in Ed. destruct Ed as [(-> & _) _]. exact (fly_inf _ x H).
Qed.

(** Every scene and every ray: if a run with infinite max_distance returns and the ray is not blocked, the ray is nowhere. *)
Theorem C84_nowhere : forall fuel (r : ray xr) w r' w', run fuel r PInf w None = Ok (r', w') -> blocked r' = false -> nowhere (position r').
Proof.
  intros fuel r w r' w' E B. unfold run in E. apply bind_ok in E. destruct E as (st & El & E). injection E as <- <-. destruct (loop_steps _ _ _ _ _ El) as (n & _ & S & C).
  assert (I : inf_inv st).
  { clear C B El. remember (run_init r PInf w) as st0 eqn:E0. assert (I0 : inf_inv st0) by (subst; left; reflexivity). clear E0. induction S as [st0|n st0 st1 st2 S0 IH C0 B0]; [exact I0|].
    destruct (IH I0) as [I1|[I1 _]]; [exact (inf_body _ _ I1 B0)|]. exfalso. unfold run_cond in C0. rewrite I1 in C0. discriminate C0. }
  destruct I as [I|[_ I]]; [|exact I]. exfalso. unfold run_cond in C. rewrite I, B in C. discriminate C.
Qed.
Print Assumptions C84_nowhere.

(** scanning with an infinite budget is scanning with a large one *)
Lemma flat_point o r p d h : flat_or_skipped o -> skipped o = false -> ray_is r p d -> is_unit d -> optic_test_intersect o r = Ok h -> h4_flag h = true ->
  exists pt x, h4_pt h = Some pt /\ distance_between (position r) pt = Fin x.
Proof.
  intros [S|(c & u & A & V)] Sk Hr Hd E Hf; [congruence|]. destruct (flat_report o c u A r p d V Hr Hd) as [t _ _ E'|_ E']; rewrite E' in E; injection E as <-; [|discriminate Hf].
  cbn [h4_pt]. rewrite (proj1 Hr). do 2 eexists. split; [reflexivity|]. apply distance_fv.
Qed.
Lemma scan_inf r p d w : ray_is r p d -> is_unit d -> Forall flat_or_skipped w -> exists m0, forall m, m0 <= m -> forall st i, scan r PInf st i w = scan r (Fin m) st i w.
Proof.
  intros Hr Hd. induction 1 as [|o w V _ (m0 & IH)]; [exists 0; reflexivity|].
  assert (exists m1, forall m, m1 <= m -> forall st i, scan_step r PInf st i o = scan_step r (Fin m) st i o) as (m1 & H1).
  { unfold scan_step. destruct (skipped o) eqn:So; [exists 0; reflexivity|]. destruct (optic_test_intersect o r) as [h|e] eqn:Et; cbn [bind]; [|exists 0; reflexivity].
    destruct (h4_flag h) eqn:Hf; [|exists 0; reflexivity]. destruct (flat_point o r p d h V So Hr Hd Et Hf) as (pt & x & -> & D). cbn [need bind]. rewrite D. exists x. intros m L st i.
    rewrite ngt_fin. change (ngt (Fin x) PInf) with false. rewrite Rltb_false by lra. reflexivity. }
  exists (Rmax m0 m1). intros m L st i. cbn [scan]. rewrite (H1 m) by (eapply Rle_trans; [apply Rmax_r|exact L]). destruct (scan_step r (Fin m) st i o); cbn [bind]; [|reflexivity]. apply IH.
  eapply Rle_trans; [apply Rmax_l|exact L].
Qed.
Lemma inf_body_flat st p d : rs_remaining st = PInf -> ray_is (rs_ray st) p d -> is_unit d -> Forall flat_or_skipped (rs_world st) -> ray_type (rs_ray st) <> "faerie_fire"%string ->
  ((forall m, none_reports (rs_ray st) m (rs_world st)) /\ exists st', run_body PInf st = Ok st' /\ rs_remaining st' = XNaN) \/
  exists m k x pt n o, chosen (rs_ray st) m (rs_world st) k x pt n /\ nth_error (rs_world st) k = Some o /\
    forall r2 o', (forall s, optic_do_intersect o (fly (rs_ray st) (Fin x)) pt n s = Ok (r2, o')) ->
    exists st', run_body PInf st = Ok st' /\ rs_ray st' = r2 /\ rs_world st' = set_nth (rs_world st) k o' /\ rs_remaining st' = PInf.
Proof.
  intros Hr Hry Hd Fw Ty. destruct (scan_inf _ p d _ Hry Hd Fw) as (m0 & Eq). pose proof (flat_tests _ p d _ Hry Hd Fw) as Tk.
  destruct (proj2 (scan_ok (rs_ray st) (Fin m0) (rs_world st) (mkScan false ninf (rs_sel st) (rs_sfo st)) 0) Tk) as (sc & Sc).
  assert (Sci : scan (rs_ray st) PInf (mkScan false ninf (rs_sel st) (rs_sfo st)) 0 (rs_world st) = Ok sc) by (rewrite (Eq m0 (Rle_refl _)); exact Sc).
  destruct (scan_nearest _ _ _ _ _ _ Sc) as [(Hh & Hs & No)|(Hh & k & x & pt & n & Hs & Ch)].
  - left. split.
    + intros m j o x pt n En R. destruct (Rle_dec m m0) as [L|L].
      * apply (No j o x pt n En). destruct R as (S1 & s1 & E1 & D1 & L1). split; [exact S1|]. exists s1. repeat split; try assumption; lra.
      * assert (Sm : scan (rs_ray st) (Fin m) (mkScan false ninf (rs_sel st) (rs_sfo st)) 0 (rs_world st) = Ok sc) by (rewrite <- (Eq m ltac:(lra)); exact Sci).
        destruct (scan_nearest _ _ _ _ _ _ Sm) as [(_ & _ & No2)|(Hh2 & _)]; [exact (No2 _ _ _ _ _ En R)|congruence].
    + unfold run_body. rewrite Hr, Sci. cbn [bind]. rewrite Hh. cbn [negb]. eexists. split; reflexivity.
  - right. destruct (proj1 Ch) as (o & En & (Sk & s0 & Et & D & Lx)). exists m0, k, x, pt, n, o. split; [exact Ch|]. split; [exact En|]. intros r2 o' Ed.
    pose proof (scan_side _ _ _ _ _ _ Sc) as Sf. cbn [sc_sfo] in Sf. 
    assert (exists f, sc_sfo sc = Some f) as (f & Ef).
    { rewrite Sf. clear - En Sk Tk. set (a := rs_sfo st). clearbody a. revert k a En Tk. generalize (rs_world st) as w. induction w as [|o1 w IH]; intros [|k] a En Tk; try discriminate En; cbn [last_side]; inversion Tk as [|? ? T1 T2]; subst.
      - injection En as ->. rewrite Sk. destruct T1 as [T1|(h & E & _)]; [congruence|]. rewrite E. clear - T2. set (b := h4_sfo h). clearbody b. revert b. induction T2 as [|o2 w T _ IH]; intros b; cbn [last_side]; [eauto|].
        destruct (skipped o2) eqn:S2; [apply IH|]. destruct T as [T|(h2 & E2 & _)]; [congruence|]. rewrite E2. apply IH.
      - destruct (skipped o1) eqn:S1; [exact (IH _ _ En T2)|]. destruct T1 as [T1|(h & E & _)]; [congruence|]. rewrite E. exact (IH _ _ En T2). }
    unfold run_body. rewrite Hr, Sci. cbn [bind]. rewrite Hh, Hs, Ef. cbn [negb bind bound se_pt se_idx se_normal]. rewrite D, En. apply String.eqb_neq in Ty. rewrite Ty. rewrite Ed. cbn [bind].
    eexists. split; [reflexivity|]. split; [reflexivity|]. split; reflexivity.
Qed.

(** Mirrors only: if the run returns, the number of reflections is bounded over all finite max_distance.  In other words, a ray that can be reflected as often as one likes
    makes the run with infinite max_distance loop forever. *)
Lemma inf_bounded fuel : forall st p d st', rs_remaining st = PInf -> ray_is (rs_ray st) p d -> is_unit d -> mirrors_only (rs_world st) -> ray_type (rs_ray st) <> "faerie_fire"%string ->
  run_loop fuel PInf None st = Ok st' -> forall m r2 w2, flows (rs_ray st) (rs_world st) m (Ok (r2, w2)) -> (length (point_history r2) <= length (point_history (rs_ray st)) + S fuel)%nat.
Proof.
  induction fuel as [|fuel IH]; intros st p d st' Hr Hry Hd W Ty E m r2 w2 F; cbn [run_loop] in E.
  - destruct (run_cond None st) eqn:C; [discriminate E|]. assert (B : blocked (rs_ray st) = true) by (unfold run_cond in C; rewrite Hr in C; destruct (blocked _); [reflexivity|discriminate C]).
    inversion F; subst; try congruence. lia.
  - destruct (run_cond None st) eqn:C.
    2:{ assert (B : blocked (rs_ray st) = true) by (unfold run_cond in C; rewrite Hr in C; destruct (blocked _); [reflexivity|discriminate C]). inversion F; subst; try congruence. lia. }
    apply bind_ok in E. destruct E as (st1 & E1 & E).
    assert (Fw : Forall flat_or_skipped (rs_world st)) by (eapply Forall_impl; [|exact W]; intros o (c & u & A & V); right; destruct V as (m1 & _ & _ & V); eauto).
    destruct (inf_body_flat st p d Hr Hry Hd Fw Ty) as [(No & _)|(m0 & k & x & pt & n & o & Ch & En & Go)].
    + inversion F as [| |? ? ? P' B' Tk' No'|? ? ? k' x' pt' n' ob r2' o'' res'' P' B' Tk' Ch' En' A' F'|]; subst.
      * lia.
      * unfold fly. cbn [point_history]. rewrite app_length. cbn [length]. lia.
      * exfalso. destruct Ch' as [(oo & EE & RR) _]. exact (No _ _ _ _ _ _ EE RR).
    + pose proof (proj1 (Forall_forall _ _) W o (nth_error_In _ _ En)) as (c & u & A & V). 
      destruct (proj1 Ch) as (o1 & En1 & R). rewrite En in En1. injection En1 as <-. destruct V as (mi & Eo & Tm & V).
      destruct (flat_axis o c u A u _ p d m0 x pt n V (or_introl eq_refl) Hry Hd R) as (_ & Lx & _ & _ & -> & -> & _).
      assert (FM : flat_mirror o c u A) by (exists mi; auto). pose proof (fly_ray _ _ _ x Hry) as Hf.
      destruct (Go _ _ (fun s => mirror_hit o c u A _ _ _ s (fv (at_t p d x)) FM Hf Hd)) as (st2 & E2 & R2 & W2 & Rm2). rewrite E1 in E2. injection E2 as <-.
      rewrite (set_nth_self _ _ _ En) in W2.
      inversion F as [| |? ? ? P' B' Tk' No'|? ? ? k' x' pt' n' ob r2' o'' res'' P' B' Tk' Ch' En' A' F'|]; subst.
      * lia.
      * unfold fly. cbn [point_history]. rewrite app_length. cbn [length]. lia.
      * pose proof (chosen_more _ _ (Rmax m0 m) _ _ _ _ _ (Rmax_l _ _) Ch) as Ca. pose proof (chosen_more _ _ (Rmax m0 m) _ _ _ _ _ (Rmax_r _ _) Ch') as Cb.
        destruct (chosen_unique _ _ _ _ _ _ _ _ _ _ _ Ca Cb) as (<- & <- & <- & <-). rewrite En in En'. injection En' as <-.
        unfold act in A'. apply String.eqb_neq in Ty. rewrite Ty in A'. apply bind_ok in A'. destruct A' as (f & _ & A'). rewrite (mirror_hit _ c u A _ _ _ f _ FM Hf Hd) in A'. injection A' as <- <-.
        rewrite (set_nth_self _ _ _ En) in F'.
        assert (Q : (length (point_history r2) <= length (point_history (rs_ray st1)) + S fuel)%nat).
        { eapply (IH st1 (at_t p d x) (refl u d) st' Rm2); [rewrite R2; eapply set_dir_ray; exact Hf| |rewrite W2; exact W|rewrite R2; cbn; apply String.eqb_neq; exact Ty|exact E|rewrite R2, W2; exact F'].
          apply refl_unit; [eapply flat_unit; exact V|exact Hd]. }
        rewrite R2 in Q. cbn [set_direction point_history fly] in Q. rewrite app_length in Q. cbn [length] in Q. lia.
Qed.
Theorem C84_bounded : forall fuel (r : ray xr) w p d r' w', mirrors_only w -> ray_is r p d -> is_unit d -> ray_type r <> "faerie_fire"%string -> run fuel r PInf w None = Ok (r', w') ->
  exists N, forall f m r2 w2, run f r (Fin m) w None = Ok (r2, w2) -> (length (point_history r2) <= length (point_history r) + N)%nat.
Proof.
  intros fuel r w p d r' w' W Hry Hd Ty E. unfold run in E. apply bind_ok in E. destruct E as (st & El & E). exists (S fuel). intros f m r2 w2 E2.
  eapply (inf_bounded fuel (run_init r PInf w) p d st eq_refl Hry Hd W Ty El m). rewrite <- E2. apply run_flows. rewrite E2. discriminate.
Qed.
Print Assumptions C84_bounded.

(** Between two parallel mirrors facing each other the run never returns. *)
Definition pair (a b : R) : list (optic xr) := [OMirror (mirror_at a); OMirror (mirror_at b)].
Definition bouncing (a b : R) (r : ray xr) : Prop := blocked r = false /\ ray_type r <> "faerie_fire"%string /\
  exists z, ray_is r (at_z z) e_z /\ a <= z /\ z + 1e-9 < b \/ ray_is r (at_z z) (- e_z)%r3 /\ z <= b /\ a + 1e-9 < z.
Lemma mirror_z a : flat_mirror (OMirror (mirror_at a)) (at_z a) e_z (fun q => dist3 q (at_z a) < 2 / 2).
Proof. pose proof (mirror_at_flat a) as V. rewrite (dirn_of_unit e_z e_z_unit) in V. exact V. Qed.
Lemma pair_step a b st : a + 1e-9 < b -> rs_remaining st = PInf -> rs_world st = pair a b -> bouncing a b (rs_ray st) ->
  exists st', run_body PInf st = Ok st' /\ rs_remaining st' = PInf /\ rs_world st' = pair a b /\ bouncing a b (rs_ray st').
Proof.
  intros L Hr W (B & Ty & z & H).
  assert (Fw : Forall flat_or_skipped (rs_world st)) by (rewrite W; repeat apply Forall_cons; [right; destruct (mirror_z a) as (m1 & _ & _ & V); eauto|right; destruct (mirror_z b) as (m1 & _ & _ & V); eauto|apply Forall_nil]).
  assert (exists d, ray_is (rs_ray st) (at_z z) d /\ is_unit d) as (d & Hry & Ud) by (destruct H as [(H & _)|(H & _)]; [exists e_z; split; [exact H|apply e_z_unit]|exists (- e_z)%r3; split; [exact H|apply unit_opp, e_z_unit]]).
  assert (Hit : forall k x pt n o m, chosen (rs_ray st) m (rs_world st) k x pt n -> nth_error (rs_world st) k = Some o ->
     exists c, flat_mirror o (at_z c) e_z (fun q => dist3 q (at_z c) < 2 / 2) /\ n = Some (fv e_z) /\ pt = fv (at_t (at_z z) d x) /\ 1e-9 < x /\ c - z = x * cz d /\ (c = a \/ c = b)).
  { intros k x pt n o m [(o1 & En1 & R) _] En. rewrite En in En1. injection En1 as <-. rewrite W in En. assert (exists c, flat_mirror o (at_z c) e_z (fun q => dist3 q (at_z c) < 2 / 2) /\ (c = a \/ c = b)) as (c & FM & Hc).
    { destruct k as [|[|k]]; try (destruct k; discriminate En); injection En as <-; [exists a|exists b]; (split; [apply mirror_z|auto]). }
    pose proof FM as (mi & _ & _ & V). destruct (flat_axis _ _ _ _ e_z _ _ d _ _ _ _ V (or_introl eq_refl) Hry Ud R) as (E & Lx & _ & _ & -> & -> & _). exists c. repeat split; auto.
    unfold at_z, e_z, r3dot, r3sub in E. cbn in E. lra. }
  destruct (inf_body_flat st _ d Hr Hry Ud Fw Ty) as [(No & _)|(m & k & x & pt & n & o & Ch & En & Go)].
  - exfalso. assert (Y : forall c j, nth_error (rs_world st) j = Some (OMirror (mirror_at c)) -> forall t, 1e-9 < t -> at_t (at_z z) d t = at_z c -> Rabs (cz d) = 1 -> False).
    { intros c j Ej t Lt At Cz. apply (No t j _ t (fv (at_t (at_z z) d t)) (Some (fv e_z)) Ej). destruct (mirror_z c) as (mi & _ & _ & V).
      apply (flat_axis_yes _ _ _ _ e_z _ _ _ t t V (or_introl eq_refl) Hry Ud); try lra.
      - rewrite <- At. unfold at_t, at_z, e_z, r3dot, r3sub. cbn. ring.
      - replace (d ∙ e_z) with (cz d) by (unfold r3dot, e_z; cbn; ring). rewrite Cz. lra.
      - rewrite At, dist_self. lra. }
    destruct H as [(H & L1 & L2)|(H & L1 & L2)]; assert (d = _) by (apply fv_inj; rewrite <- (proj2 Hry); exact (proj2 H)); subst d.
    + apply (Y b 1%nat ltac:(rewrite W; reflexivity) (b - z)); [lra|unfold at_t, at_z, e_z; r3r|cbn; apply Rabs_R1].
    + apply (Y a 0%nat ltac:(rewrite W; reflexivity) (z - a)); [lra|unfold at_t, at_z, e_z; r3r|cbn; rewrite Rabs_Ropp; apply Rabs_R1].
  - destruct (Hit _ _ _ _ _ _ Ch En) as (c & FM & -> & -> & Lx & Ex & Hc). pose proof (fly_ray _ _ _ x Hry) as Hf.
    destruct (Go _ _ (fun s => mirror_hit _ _ _ _ _ _ _ s _ FM Hf Ud)) as (st2 & E2 & R2 & W2 & Rm2). exists st2. split; [exact E2|]. split; [exact Rm2|]. rewrite (set_nth_self _ _ _ En) in W2. split; [congruence|].
    split; [rewrite R2; exact B|]. split; [rewrite R2; exact Ty|]. exists c. rewrite R2.
    destruct H as [(H & L1 & L2)|(H & L1 & L2)]; assert (d = _) by (apply fv_inj; rewrite <- (proj2 Hry); exact (proj2 H)); subst d.
    + right. cbn in Ex. assert (c = b) by lra. subst c. split; [|lra]. replace (- e_z)%r3 with (refl e_z e_z) by (unfold refl, e_z; r3r). replace (at_z b) with (at_t (at_z z) e_z x) by (unfold at_t, at_z, e_z; apply r3_ext; cbn; lra).
      eapply set_dir_ray. exact Hf.
    + left. cbn in Ex. assert (c = a) by lra. subst c. split; [|lra]. assert (Q : refl e_z (- e_z) = e_z) by (unfold refl, e_z; r3r). rewrite Q. replace (at_z a) with (at_t (at_z z) (- e_z)%r3 x) by (unfold at_t, at_z, e_z; apply r3_ext; cbn; lra).
      eapply set_dir_ray. exact Hf.
Qed.
Theorem C84_never : forall a b z fuel (r : ray xr), a <= z -> z + 1e-9 < b -> ray_is r (at_z z) e_z -> blocked r = false -> ray_type r <> "faerie_fire"%string ->
  run fuel r PInf (pair a b) None = Err OutOfFuel.
Proof.
  intros a b z fuel r La Lb Hry B Ty. assert (I : bouncing a b r) by (split; [exact B|]; split; [exact Ty|]; exists z; left; auto).
  assert (G : forall st, rs_remaining st = PInf -> rs_world st = pair a b -> bouncing a b (rs_ray st) -> run_loop fuel PInf None st = Err OutOfFuel).
  { induction fuel as [|fuel IH]; intros st Hr W I1; cbn [run_loop]; (replace (run_cond None st) with true by (unfold run_cond; rewrite Hr, (proj1 I1); reflexivity)); [reflexivity|].
    destruct (pair_step a b st ltac:(lra) Hr W I1) as (st' & -> & R' & W' & I'). cbn [bind]. apply IH; assumption. }
  unfold run. rewrite G; [reflexivity|reflexivity|reflexivity|exact I].
Qed.
Print Assumptions C84_never.
(** the ray along z between the mirrors z = -5 and z = 5 is one of these, the two mirrors are a mirror scene, and with an empty world the same ray ends nowhere: its z coordinate is
    inf and its x and y coordinates are nan *)
Example C84_hyp : ray_is z_ray (at_z 0) e_z /\ -5 <= 0 /\ 0 + 1e-9 < 5 /\ blocked z_ray = false /\ ray_type z_ray <> "faerie_fire"%string /\ mirrors_only (pair (-5) 5) /\
  run 2 z_ray PInf [] None = Ok (fly z_ray PInf, []) /\ position (fly z_ray PInf) = V XNaN XNaN PInf.
Proof.
  split; [apply z_ray_is|]. split; [lra|]. split; [lra|]. split; [reflexivity|]. split; [discriminate|]. split; [repeat apply Forall_cons; [do 3 eexists; apply mirror_z..|apply Forall_nil]|]. split; [reflexivity|].
  destruct z_ray_is as [P D]. unfold fly. cbn [position]. rewrite P, D. unfold fv, at_z, e_z, vadd, vscale, nadd, nmul. cbn. unfold inf_times.
  repeat (destruct (Rlt_dec _ _); try lra); reflexivity.
Qed.
