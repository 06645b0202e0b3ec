(** Ray.run over the extended reals: nearest optic, termination, budget. *)
From Coq Require Import Reals ZArith Lra Lia Psatz String List Bool.
From Verif Require Import PyErr Num Vec Shapes Csg Optics Spec XReal RVec FlatProofs RunGen NoFuel.
Import ListNotations.
Local Open Scope R_scope.

(** the optic o reports, for ray r, the point pt at a distance d within the clipping floor and the budget rm *)
Definition reports (r : ray xr) (rm : R) (o : optic xr) (d : R) (pt : vec xr) (n : option (vec xr)) : Prop :=
  skipped o = false /\ exists s, optic_test_intersect o r = Ok (H4 true (Some pt) n s) /\
  distance_between (position r) pt = Fin d /\ 1e-12 < d <= rm.

Definition chosen (r : ray xr) (rm : R) (l : list (optic xr)) (k : nat) (d : R) (pt : vec xr) (n : option (vec xr)) : Prop :=
  (exists o, nth_error l k = Some o /\ reports r rm o d pt n) /\
  forall j o' d' pt' n', nth_error l j = Some o' -> reports r rm o' d' pt' n' -> d <= d' /\ ((j < k)%nat -> d < d').
Definition none_reports (r : ray xr) (rm : R) (l : list (optic xr)) : Prop :=
  forall j o d pt n, nth_error l j = Some o -> ~ reports r rm o d pt n.

Definition scan_inv (r : ray xr) (rm : R) (sel0 : option (@sel xr)) (pre : list (optic xr)) (st : @scan_st xr) : Prop :=
  (sc_hit st = false /\ sc_min st = PInf /\ sc_sel st = sel0 /\ none_reports r rm pre) \/
  (sc_hit st = true /\ exists k d pt n, sc_min st = Fin d /\ sc_sel st = Some (mkSel k pt n) /\ chosen r rm pre k d pt n).

Lemma nth_snoc {A} (l : list A) a j x : nth_error (l ++ [a]) j = Some x ->
  (nth_error l j = Some x /\ (j < length l)%nat) \/ (j = length l /\ x = a).
Proof.
  intros H. destruct (Nat.lt_ge_cases j (length l)) as [L|L].
  - rewrite nth_error_app1 in H by exact L. auto.
  - rewrite nth_error_app2 in H by exact L. right. destruct (j - length l)%nat as [|m] eqn:E; cbn in H; [|destruct m; discriminate].
    split; [lia|congruence].
Qed.
Lemma reports_det r rm o d pt n d' pt' n' : reports r rm o d pt n -> reports r rm o d' pt' n' -> d = d' /\ pt = pt' /\ n = n'.
Proof.
  intros (_ & s & E & D & _) (_ & s' & E' & D' & _). rewrite E in E'. injection E' as <- <- <-. rewrite D in D'. injection D' as <-. auto.
Qed.

(** an optic that reports nothing leaves the choice alone *)
Lemma inv_skip r rm sel0 pre st o st' : scan_inv r rm sel0 pre st -> (forall d pt n, ~ reports r rm o d pt n) ->
  sc_hit st' = sc_hit st -> sc_min st' = sc_min st -> sc_sel st' = sc_sel st -> scan_inv r rm sel0 (pre ++ [o]) st'.
Proof.
  intros I No H1 H2 H3. unfold scan_inv. rewrite H1, H2, H3. destruct I as [(A & B & C & D)|(A & k & d & pt & n & B & C & (o1 & En & D) & M)].
  - left. repeat split; auto. intros j o' d pt n Hn. apply nth_snoc in Hn. destruct Hn as [[Hn _]|[_ ->]]; [eapply D, Hn|apply No].
  - right. split; [exact A|]. exists k, d, pt, n. repeat split; auto.
    + exists o1. split; [|exact D]. rewrite nth_error_app1; [exact En|apply nth_error_Some; congruence].
    + apply nth_snoc in H. destruct H as [[Hn _]|[_ ->]]; [eapply M; eassumption|destruct (No _ _ _ H0)].
    + intros L. apply nth_snoc in H. destruct H as [[Hn _]|[_ ->]]; [eapply M; eassumption|destruct (No _ _ _ H0)].
Qed.
Lemma step_inv r rm sel0 pre st o st' : scan_inv r rm sel0 pre st -> scan_step r (Fin rm) st (length pre) o = Ok st' ->
  scan_inv r rm sel0 (pre ++ [o]) st'.
Proof.
  intros I H. unfold scan_step in H. destruct (skipped o) eqn:Sk.
  { injection H as <-. eapply inv_skip; eauto. intros d pt n (S & _). congruence. }
  apply bind_ok in H. destruct H as (h & Eh & H). destruct h as [flag opt on osf]. cbn [h4_flag h4_pt h4_normal h4_sfo] in H.
  destruct flag.
  2: { injection H as <-. eapply inv_skip; eauto. intros d pt n (_ & s & E & _). rewrite Eh in E. discriminate. }
  apply bind_ok in H. destruct H as (pt & Ept & H). apply need_ok in Ept. subst opt.
  assert (Rep : forall d, distance_between (position r) pt = Fin d -> 1e-12 < d <= rm -> reports r rm o d pt on).
  { intros d Ed L. split; [exact Sk|]. exists osf. auto. }
  assert (Only : forall d' pt' n', reports r rm o d' pt' n' -> distance_between (position r) pt = Fin d' /\ pt' = pt /\ n' = on /\ 1e-12 < d' <= rm).
  { intros d' pt' n' (_ & s & E & D & L). rewrite Eh in E. injection E as -> -> _. auto. }
  rewrite clip_fin in H. destruct (distance_between (position r) pt) as [d| | |] eqn:Ed.
  2,3,4: cbn in H; injection H as <-; eapply inv_skip; eauto; intros d' pt' n' Rp; destruct (Only _ _ _ Rp) as (X & _); discriminate.
  rewrite !ngt_fin in H. destruct (Rltb_spec rm d) as [Lr|Lr].
  { injection H as <-. eapply inv_skip; eauto. intros d' pt' n' Rp. destruct (Only _ _ _ Rp) as (X & _ & _ & L). injection X as ->. lra. }
  destruct (Rltb_spec 1e-12 d) as [Lf|Lf].
  2: { injection H as <-. eapply inv_skip; eauto. intros d' pt' n' Rp. destruct (Only _ _ _ Rp) as (X & _ & _ & L). injection X as ->. lra. }
  assert (Rd : reports r rm o d pt on) by (apply Rep; [reflexivity|lra]).
  assert (New : scan_inv r rm sel0 pre st -> (sc_hit st = true -> forall j o' d' pt' n', nth_error pre j = Some o' -> reports r rm o' d' pt' n' -> d < d') ->
     scan_inv r rm sel0 (pre ++ [o]) (mkScan true (Fin d) (Some (mkSel (length pre) pt on)) (Some osf))).
  { intros I0 Less. right. split; [reflexivity|]. exists (length pre), d, pt, on. repeat split.
    - exists o. split; [|exact Rd]. rewrite nth_error_app2, Nat.sub_diag by lia. reflexivity.
    - apply nth_snoc in H0. destruct H0 as [[Hn _]|[_ ->]].
      + destruct I0 as [(A & B & C & D)|(A & _)]; [destruct (D _ _ _ _ _ Hn H1)|]. apply Rlt_le. eapply Less; eassumption.
      + destruct (reports_det _ _ _ _ _ _ _ _ _ Rd H1) as (-> & _). lra.
    - intros Lk. apply nth_snoc in H0. destruct H0 as [[Hn _]|[-> _]]; [|lia].
      destruct I0 as [(A & B & C & D)|(A & _)]; [destruct (D _ _ _ _ _ Hn H1)|]. eapply Less; eassumption. }
  destruct I as [(A & B & C & D)|(A & k & d1 & pt1 & n1 & B & C & Ch)].
  - rewrite B in H. cbn in H. injection H as <-. apply New; [left; auto|congruence].
  - rewrite B, nlt_fin in H. destruct (Rltb_spec d d1) as [L|L]; injection H as <-.
    + apply New; [right; eauto 10|]. intros _ j o' d' pt' n' Hn Rp. destruct Ch as [_ M]. destruct (M _ _ _ _ _ Hn Rp). lra.
    + right. cbn. split; [reflexivity|]. exists k, d1, pt1, n1. split; [reflexivity|]. split; [exact C|]. destruct Ch as [(o1 & En & R1) M].
      split.
      * exists o1. split; [|exact R1]. rewrite nth_error_app1; [exact En|apply nth_error_Some; congruence].
      * intros j o' d' pt' n' Hn Rp. apply nth_snoc in Hn. destruct Hn as [[Hn _]|[-> ->]]; [eapply M; eassumption|].
        destruct (reports_det _ _ _ _ _ _ _ _ _ Rd Rp) as (<- & _). split; [lra|]. intros Lk.
        assert (k < length pre)%nat by (apply nth_error_Some; congruence). lia.
Qed.
Lemma scan_loop_inv r rm sel0 l : forall pre st st', scan_inv r rm sel0 pre st -> scan r (Fin rm) st (length pre) l = Ok st' ->
  scan_inv r rm sel0 (pre ++ l) st'.
Proof.
  induction l as [|o l IH]; intros pre st st' I H; cbn [scan] in H.
  - injection H as <-. rewrite app_nil_r. exact I.
  - apply bind_ok in H. destruct H as (st1 & E & H). pose proof (step_inv _ _ _ _ _ _ _ I E) as I1.
    replace (pre ++ o :: l) with ((pre ++ [o]) ++ l) by (rewrite <- app_assoc; reflexivity).
    apply (IH (pre ++ [o]) st1 st' I1). rewrite app_length. cbn. rewrite Nat.add_1_r. exact H.
Qed.
(** C35, the scan *)
Lemma scan_nearest r rm sel0 sfo0 l sc : scan r (Fin rm) (mkScan false ninf sel0 sfo0) 0 l = Ok sc ->
  (sc_hit sc = false /\ sc_sel sc = sel0 /\ none_reports r rm l) \/
  (sc_hit sc = true /\ exists k d pt n, sc_sel sc = Some (mkSel k pt n) /\ chosen r rm l k d pt n).
Proof.
  intros H. assert (I : scan_inv r rm sel0 l sc).
  { apply (scan_loop_inv r rm sel0 l [] (mkScan false ninf sel0 sfo0)); [|exact H].
    left. repeat split. intros j o d pt n Hn. destruct j; discriminate. }
  destruct I as [(A & B & C & D)|(A & k & d & pt & n & B & C & D)]; [left; auto|right; eauto 10].
Qed.

(** one iteration with a finite budget *)
Inductive advance (m : R) (st st' : @run_st xr) (rm : R) : Prop :=
| adv_miss : none_reports (rs_ray st) rm (rs_world st) ->
    rs_ray st' = fly (rs_ray st) (Fin rm) -> rs_world st' = rs_world st -> rs_count st' = rs_count st ->
    rs_remaining st' = Fin (rm - m) -> advance m st st' rm
| adv_hit k d pt n : chosen (rs_ray st) rm (rs_world st) k d pt n -> rs_count st' = (rs_count st + 1)%Z ->
    rs_remaining st' = Fin (rm - d) ->
    (ray_type (rs_ray st) = "faerie_fire"%string /\ rs_ray st' = set_blocked (fly (rs_ray st) (Fin d)) /\ rs_world st' = rs_world st \/
     ray_type (rs_ray st) <> "faerie_fire"%string /\ exists o o' f, nth_error (rs_world st) k = Some o /\
       optic_do_intersect o (fly (rs_ray st) (Fin d)) pt n f = Ok (rs_ray st', o') /\ rs_world st' = set_nth (rs_world st) k o' /\
       rs_sfo st' = Some f) ->
    advance m st st' rm.
Lemma body_advance m st st' rm : rs_remaining st = Fin rm -> run_body (Fin m) st = Ok st' -> advance m st st' rm.
Proof.
  intros Hr H. apply body_outcome in H. destruct H as [sc E Hh ->|sc s E Hh Es F ->|sc s f o r2 o' E Hh Es F Ef En Ed ->]; rewrite Hr in *;
   destruct (scan_nearest _ _ _ _ _ _ E) as [(A & B & C)|(A & k & d & pt & n & B & C)]; try congruence.
  - apply adv_miss; auto.
  - rewrite Es in B. injection B as ->. destruct C as [(o & En & (Sk & s0 & Et & D & L)) M] eqn:EC.
    cbn [se_pt se_idx se_normal] in *. rewrite D in *.
    eapply adv_hit with (pt := pt) (k := k); [exact C| | |left]; cbn; auto.
  - rewrite Es in B. injection B as ->. destruct C as [(o1 & En1 & (Sk & s0 & Et & D & L)) M] eqn:EC.
    cbn [se_pt se_idx se_normal] in *. rewrite D in *.
    eapply adv_hit with (pt := pt) (k := k); [exact C| | |right]; cbn; auto. split; [exact F|]. exists o, o', f. auto.
Qed.
Lemma chosen_dist r rm l k d pt n : chosen r rm l k d pt n -> 1e-12 < d <= rm.
Proof. intros [(o & _ & _ & s & _ & _ & L) _]. exact L. Qed.

(** the budget *)
Lemma cond_pos maxi (st : @run_st xr) rm : rs_remaining st = Fin rm -> run_cond maxi st = true -> 0 < rm.
Proof.
  intros Hr C. unfold run_cond in C. rewrite Hr, nofZ_fin, ngt_fin in C. destruct (Rltb_spec 0 rm); [assumption|]. discriminate.
Qed.
Lemma steps_budget m maxi n r w st : steps (Fin m) maxi n (run_init r (Fin m) w) st ->
  exists rm, rs_remaining st = Fin rm /\ rm <= m /\ (0 < rm -> rm <= m - INR n * 1e-12 /\ rs_count st = Z.of_nat n) /\ (rs_count st <= Z.of_nat n)%Z.
Proof.
  remember (run_init r (Fin m) w) as st0 eqn:E0. induction 1 as [st|n st st1 st2 S IH C B]; subst.
  - exists m. cbn. split; [reflexivity|]. repeat split; try lra; lia.
  - destruct (IH eq_refl) as (rm & Hr & Lm & Ps & Lc). pose proof (cond_pos _ _ _ Hr C) as P. destruct (Ps P) as [Q Q'].
    rewrite S_INR. destruct (body_advance _ _ _ _ Hr B) as [No R1 R2 R3 R4|k d pt nn Ch R3 R4 _].
    + exists (rm - m). rewrite R4, R3. split; [reflexivity|]. split; [lra|]. split; [intros; lra|lia].
    + pose proof (chosen_dist _ _ _ _ _ _ _ Ch). exists (rm - d). rewrite R4, R3. split; [reflexivity|]. split; [lra|].
      split; [intros _; split; [lra|lia]|lia].
Qed.
(** C33: the number of iterations *)
Lemma iterations_bound m maxi n r w st : 0 <= m -> steps (Fin m) maxi n (run_init r (Fin m) w) st -> INR n <= m / 1e-12 + 1.
Proof.
  intros Hm S. remember (run_init r (Fin m) w) as st0 eqn:E0. destruct S as [st|n st st1 st2 S C B]; subst.
  - cbn. assert (0 <= m / 1e-12) by (apply Rmult_le_pos; [exact Hm|apply Rlt_le, Rinv_0_lt_compat; lra]). lra.
  - destruct (steps_budget _ _ _ _ _ _ S) as (rm & Hr & _ & Ps & _).
    pose proof (cond_pos _ _ _ Hr C) as P. destruct (Ps P) as [Q _]. rewrite S_INR.
    assert (INR n <= m / 1e-12); [|lra]. apply Rmult_le_reg_r with 1e-12; [lra|]. unfold Rdiv. rewrite Rmult_assoc, Rinv_l by lra. lra.
Qed.
Lemma no_steps_nonpos m maxi n r w st : m <= 0 -> steps (Fin m) maxi n (run_init r (Fin m) w) st -> n = 0%nat.
Proof.
  intros Hm S. remember (run_init r (Fin m) w) as st0 eqn:E0. induction S as [|n st st1 st2 S IH C B]; [reflexivity|].
  specialize (IH E0). subst n st. inversion S; subst. pose proof (cond_pos _ (run_init r (Fin m) w) m eq_refl C). lra.
Qed.
Lemma run_terminates m maxi r w fuel : (m / 1e-12 + 1 < INR fuel \/ m <= 0) -> run fuel r (Fin m) w maxi <> Err OutOfFuel.
Proof.
  intros L H. unfold run in H. apply bind_err in H. destruct H as [H|(st & _ & H)]; [|discriminate].
  apply loop_err in H. destruct H as (n & st1 & S & C & [[_ B]|[-> _]]); [exact (fine_body _ _ B)|].
  destruct L as [L|L].
  - destruct (Rle_dec 0 m) as [P|P].
    + pose proof (iterations_bound _ _ _ _ _ _ P S). lra.
    + rewrite (no_steps_nonpos m maxi fuel r w st1 ltac:(lra) S) in S. inversion S; subst. pose proof (cond_pos _ (run_init r (Fin m) w) m eq_refl C). lra.
  - rewrite (no_steps_nonpos m maxi fuel r w st1 L S) in S. inversion S; subst. pose proof (cond_pos _ (run_init r (Fin m) w) m eq_refl C). lra.
Qed.
(** with an interaction limit, for every budget whatsoever *)
Lemma steps_count md N n r w st : steps md (Some N) n (run_init r md w) st ->
  ((rs_count st = Z.of_nat n \/ ngt (rs_remaining st) (nofZ 0) = false) /\ (Z.of_nat n <= Z.max 0 N)%Z) /\
  (forall m, md = Fin m -> exists rm, rs_remaining st = Fin rm /\ rm <= m).
Proof.
  remember (run_init r md w) as st0 eqn:E0. induction 1 as [st|n st st1 st2 S IH C B]; subst.
  - cbn. split; [split; [left; reflexivity|lia]|]. intros m ->. exists m. split; [reflexivity|lra].
  - destruct (IH eq_refl) as [[IH1 IH2] IHm]. assert (C' := C). unfold run_cond in C'. apply andb_prop in C'. destruct C' as [C' _].
    apply andb_prop in C'. destruct C' as [Cr Cc]. apply Z.ltb_lt in Cc. destruct IH1 as [IH1|IH1]; [|congruence].
    assert (B' := B). apply body_outcome in B'. split.
    + split; [|lia]. destruct B' as [sc E Hh ->|sc s E Hh Es F ->|sc s f o r2 o' E Hh Es F Ef En Ed ->]; cbn [rs_count rs_remaining]; [right|left; lia|left; lia].
      destruct md as [m| | |].
      * destruct (IHm m eq_refl) as (rm & -> & L). rewrite nsub_fin, nofZ_fin, ngt_fin. apply Rltb_false. lra.
      * destruct (rs_remaining st1); reflexivity.
      * exfalso. clear - Cr S. assert (G : forall k s s', steps NInf (Some N) k s s' -> s = run_init r NInf w -> s' = s).
        { clear. intros k s s' S. induction S; intros ->; [reflexivity|]. rewrite (IHS eq_refl) in H. discriminate H. }
        rewrite (G _ _ _ S eq_refl) in Cr. discriminate.
      * destruct (rs_remaining st1); reflexivity.
    + intros m ->. destruct (IHm m eq_refl) as (rm & Hr & L). destruct (body_advance _ _ _ _ Hr B) as [No R1 R2 R3 R4|k d pt nn Ch R3 R4 _].
      * pose proof (cond_pos _ _ _ Hr C). exists (rm - m). split; [exact R4|]. lra.
      * pose proof (chosen_dist _ _ _ _ _ _ _ Ch). exists (rm - d). split; [exact R4|]. lra.
Qed.
Lemma run_terminates_count md N r w fuel : (Z.max 0 N < Z.of_nat fuel)%Z -> run fuel r md w (Some N) <> Err OutOfFuel.
Proof.
  intros L H. unfold run in H. apply bind_err in H. destruct H as [H|(st & _ & H)]; [|discriminate].
  apply loop_err in H. destruct H as (n & st1 & S & C & [[_ B]|[-> _]]); [exact (fine_body _ _ B)|].
  destruct (steps_count _ _ _ _ _ _ S) as [[_ Q] _]. lia.
Qed.

(** more fuel does not change a result *)
Lemma loop_fuel md maxi k : forall fuel (st : @run_st xr), (fuel <= k)%nat -> run_loop fuel md maxi st <> Err OutOfFuel -> run_loop k md maxi st = run_loop fuel md maxi st.
Proof.
  induction k; intros [|fuel] st L H; try lia; cbn [run_loop] in *; destruct (run_cond maxi st); try congruence; try reflexivity.
  destruct (run_body md st); cbn [bind] in *; [|reflexivity]. apply IHk; [lia|exact H].
Qed.
Lemma run_fuel a b r md w maxi : run a r md w maxi <> Err OutOfFuel -> run b r md w maxi <> Err OutOfFuel -> run a r md w maxi = run b r md w maxi.
Proof.
  unfold run. intros Ha Hb.
  assert (A : run_loop a md maxi (run_init r md w) <> Err OutOfFuel) by (intros E; rewrite E in Ha; apply Ha; reflexivity).
  assert (B : run_loop b md maxi (run_init r md w) <> Err OutOfFuel) by (intros E; rewrite E in Hb; apply Hb; reflexivity).
  destruct (Nat.le_ge_cases a b) as [L|L]; [rewrite (loop_fuel md maxi b a _ L A)|rewrite (loop_fuel md maxi a b _ L B)]; reflexivity.
Qed.
(** C38: where a record comes from *)
Lemma steps_record m maxi n r w st : steps (Fin m) maxi n (run_init r (Fin m) w) st ->
  rs_world st = w \/ exists n0 st0 rm k d x pt nn, steps (Fin m) maxi n0 (run_init r (Fin m) w) st0 /\ rs_remaining st0 = Fin rm /\
    chosen (rs_ray st0) rm w k x pt nn /\ nth_error w k = Some (ODetector d) /\
    rs_world st = set_nth w k (ODetector (record_hit d pt (wavelength r))) /\ rs_ray st = set_blocked (fly (rs_ray st0) (Fin x)).
Proof.
  remember (run_init r (Fin m) w) as st0 eqn:E0. induction 1 as [st|n st st1 st2 S IH C B]; subst.
  - left. reflexivity.
  - destruct (IH eq_refl) as [IHw|(n0 & s0 & rm & k & d & x & pt & nn & _ & _ & _ & _ & _ & Er)].
    2: { exfalso. unfold run_cond in C. rewrite Er in C. cbn in C. rewrite !andb_false_r in C. discriminate. }
    destruct (steps_budget _ _ _ _ _ _ S) as (rm & Hr & _). destruct (steps_history _ _ _ _ _ S) as (_ & _ & _ & _ & _ & W & _).
    destruct (body_advance _ _ _ _ Hr B) as [No R1 R2 R3 R4|k x pt nn Ch R3 R4 Out].
    + left. congruence.
    + destruct Out as [(_ & _ & Ew)|(_ & o & o' & f & En & Ed & Ew & _)]; [left; congruence|]. apply do_turns in Ed. rewrite IHw in *.
      destruct o; destruct Ed as [Ed ->]; try (left; rewrite Ew; apply set_nth_self, En).
      right. exists n, st1, rm, k, d, x, pt, nn. rewrite Ew. cbn [run_init rs_ray] in W. cbn in Ed |- *. rewrite <- W. auto 10.
Qed.
