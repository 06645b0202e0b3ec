(** The loop of Ray.run in binary64 arithmetic: when it ends. *)
From Coq Require Import ZArith Reals Floats.SpecFloat String List Bool Lia Lra.
From Flocq Require Import Core IEEE754.BinarySingleNaN.
From Verif Require Import PyErr Num Vec Shapes Csg Optics FloatInst FloatReal RunGen NoFuel.
Import ListNotations.
Local Open Scope R_scope.

Lemma floor_isr : exists c, isr INTERSECT_CLIPPING_FLOOR c /\ 9.9999e-13 < c.
Proof.
  assert (E : (INTERSECT_CLIPPING_FLOOR : b64) = S754_finite false 4951760157141521 (-92) /\ valid_binary 53 1024 (S754_finite false 4951760157141521 (-92)) = true)
    by (split; vm_compute; reflexivity).
  destruct E as (-> & V). eexists. split; [repeat split; exact V|].
  unfold SF2R, F2R. cbn [Fnum Fexp bpow cond_Zopp]. change (Z.pow_pos radix2 92) with (2 ^ 92)%Z.
  apply Rmult_lt_reg_r with (IZR (2 ^ 92)); [apply IZR_lt; reflexivity|]. rewrite Rmult_assoc, Rinv_l by (apply not_0_IZR; discriminate). lra.
Qed.
Lemma zero_isr : isr (nofZ 0) 0. Proof. repeat split. Qed.
Lemma pow14 : bpow radix2 14 = 16384. Proof. cbn. lra. Qed.
Lemma half_ulp : bpow radix2 (14 - 54) < 9.0950e-13.
Proof.
  change (14 - 54)%Z with (-40)%Z. cbn [bpow]. change (Z.pow_pos radix2 40) with (2 ^ 40)%Z.
  apply Rmult_lt_reg_r with (IZR (2 ^ 40)); [apply IZR_lt; reflexivity|]. rewrite Rinv_l by (apply not_0_IZR; discriminate). lra.
Qed.
Lemma small_huge a : Rabs a <= 16384 -> Rabs a < huge.
Proof. intros H. eapply Rle_lt_trans; [exact H|]. rewrite <- pow14. apply bpow_lt. lia. Qed.

Lemma lt_pinf (a : b64) r : isr a r -> nlt a (S754_infinity false) = true.
Proof. intros (_ & F & _). destruct a; try discriminate; reflexivity. Qed.
Lemma lt_minf (a : b64) r : isr a r -> nlt a (S754_infinity true) = false.
Proof. intros (_ & F & _). destruct a as [| | |[]]; try discriminate; reflexivity. Qed.
Lemma lt_nan (a : b64) : nlt a S754_nan = false.
Proof. destruct a as [| | |[]]; reflexivity. Qed.

Section Run.
Context {TT : Trig b64}.
Lemma loop_fuel64 (md : b64) maxi k : forall fuel st, (fuel <= k)%nat -> run_loop fuel md maxi st <> Err OutOfFuel -> run_loop k md maxi st = run_loop fuel md maxi st.
Proof.
  induction k; intros [|fuel] st L H; try lia; cbn [run_loop] in *; destruct (run_cond maxi st); try congruence; try reflexivity.
  destruct (run_body md st); cbn [bind] in *; [|reflexivity]. apply IHk; [lia|exact H].
Qed.
Lemma run_fuel64 a b r (md : b64) w maxi : run a r md w maxi <> Err OutOfFuel -> run b r md w maxi <> Err OutOfFuel -> run a r md w maxi = run b r md w maxi.
Proof.
  unfold run. intros Ha Hb.
  assert (A : run_loop a md maxi (run_init r md w) <> Err OutOfFuel) by (intros E; rewrite E in Ha; apply Ha; reflexivity).
  assert (B : run_loop b md maxi (run_init r md w) <> Err OutOfFuel) by (intros E; rewrite E in Hb; apply Hb; reflexivity).
  destruct (Nat.le_ge_cases a b) as [L|L]; [rewrite (loop_fuel64 md maxi b a _ L A)|rewrite (loop_fuel64 md maxi a b _ L B)]; reflexivity.
Qed.
(** the distance of an accepted intersection is a binary64 number above the tolerance and at most the remaining distance *)
Lemma scan_dist r (rem : b64) rm l : isr rem rm -> forall st idx st',
  (sc_hit st = false /\ sc_min st = ninf) \/ (sc_hit st = true /\ exists s c d, sc_sel st = Some s /\ sc_min st = distance_between (position r) (se_pt s) /\ isr INTERSECT_CLIPPING_FLOOR c /\ isr (distance_between (position r) (se_pt s)) d /\ c < d <= rm) ->
  scan r rem st idx l = Ok st' ->
  (sc_hit st' = false /\ sc_min st' = ninf) \/ (sc_hit st' = true /\ exists s c d, sc_sel st' = Some s /\ sc_min st' = distance_between (position r) (se_pt s) /\ isr INTERSECT_CLIPPING_FLOOR c /\ isr (distance_between (position r) (se_pt s)) d /\ c < d <= rm).
Proof.
  intros Hrem. induction l as [|o l IH]; intros st idx st' Inv H; cbn [scan] in H; [injection H as <-; exact Inv|].
  apply bind_ok in H. destruct H as (st1 & E & H). apply (IH st1 (S idx) st'); [|exact H]. clear H IH.
  unfold scan_step in E. destruct (skipped o); [injection E as <-; exact Inv|]. apply bind_ok in E. destruct E as (h & _ & E). destruct (h4_flag h); [|injection E as <-; exact Inv].
  apply bind_ok in E. destruct E as (pt & _ & E). set (D := distance_between (position r) pt) in *.
  destruct (ngt D rem) eqn:G1; [injection E as <-; exact Inv|]. destruct (ngt D INTERSECT_CLIPPING_FLOOR) eqn:G2; [|injection E as <-; exact Inv].
  destruct floor_isr as (c & Hc & Lc). unfold ngt in G1, G2.
  assert (ID : exists d, isr D d).
  { assert (V : valid_binary 53 1024 D = true) by apply sqrt_valid. destruct (valid_cases D V) as [K|[K|(s & K)]]; [exact K| |].
    - exfalso. rewrite K, lt_nan in G2. discriminate G2.
    - exfalso. rewrite K in G1, G2. destruct s; [rewrite (lt_minf _ _ Hc) in G2; discriminate G2|rewrite (lt_pinf _ _ Hrem) in G1; discriminate G1]. }
  destruct ID as (d & Hd). rewrite (isr_lt _ _ _ _ Hrem Hd) in G1. rewrite (isr_lt _ _ _ _ Hc Hd) in G2.
  assert (B : c < d <= rm). { split; [destruct (Rlt_bool_spec c d); [assumption|discriminate]|destruct (Rlt_bool_spec rm d); [discriminate|assumption]]. }
  destruct (nlt D (sc_min st)) eqn:G3; injection E as <-; right; cbn [sc_hit sc_sel sc_min]; split; try reflexivity.
  - eexists. exists c, d. split; [reflexivity|]. cbn [se_pt]. auto.
  - destruct Inv as [[_ M]|[_ (s & c' & d' & K)]]; [|exists s, c', d'; exact K]. exfalso. rewrite M in G3. change (ninf : b64) with (S754_infinity false) in G3. rewrite (lt_pinf _ _ Hd) in G3. discriminate.
Qed.

(** one iteration with at most 16384 to go *)
Lemma body64 (m : b64) mr st st' rm : isr m mr -> 0 <= mr <= 16384 -> isr (rs_remaining st) rm -> 0 < rm <= mr -> run_body m st = Ok st' ->
  exists rm', isr (rs_remaining st') rm' /\ rm' <= mr /\ (rm' <= 0 \/ 0 <= rm' <= rm - 9e-14).
Proof.
  intros Hm Lm Hr Lr B. apply body_outcome in B.
  assert (Hit : forall sc s, scan (rs_ray st) (rs_remaining st) (mkScan false ninf (rs_sel st) (rs_sfo st)) 0 (rs_world st) = Ok sc -> sc_hit sc = true -> sc_sel sc = Some s ->
    exists rm', isr (nsub (rs_remaining st) (distance_between (position (rs_ray st)) (se_pt s))) rm' /\ rm' <= mr /\ (rm' <= 0 \/ 0 <= rm' <= rm - 9e-14)).
  { intros sc s E Hh Es. assert (E2 := E). apply (scan_dist _ _ _ _ Hr) in E2; [|left; split; reflexivity]. destruct E2 as [[K _]|(_ & s' & c & d & E1 & _ & Hc & Hd & L)]; [congruence|].
    rewrite Es in E1. injection E1 as <-. destruct floor_isr as (c' & Hc' & Lc). rewrite (isr_inj _ _ _ Hc' Hc) in Lc.
    pose proof half_ulp as HU. assert (ER : Rabs (RN (rm - d) - (rm - d)) <= bpow radix2 (14 - 54)) by (apply RN_error; [lia|]; rewrite pow14, Rabs_pos_eq by lra; lra).
    assert (LB : 0 <= RN (rm - d)) by (rewrite <- RN_0; apply RN_le; lra). assert (U := Rabs_le_inv _ _ ER). 
    exists (RN (rm - d)). split; [|split; [lra|right; lra]]. apply isr_sub; [exact Hr|exact Hd|]. apply small_huge. rewrite Rabs_pos_eq by exact LB. lra. }
  destruct B as [sc E Hh ->|sc s E Hh Es F ->|sc s f o r2 o' E Hh Es F Ef En Ed ->]; cbn [rs_remaining]; [|eapply Hit; eassumption..].
  assert (U : RN (rm - mr) <= 0) by (rewrite <- RN_0; apply RN_le; lra).
  assert (L : - mr <= RN (rm - mr)).
  { rewrite <- (RN_fix (- mr)) by (apply generic_format_opp; exact (isr_format _ _ Hm)). apply RN_le. lra. }
  exists (RN (rm - mr)). split; [|split; [lra|left; exact U]]. apply isr_sub; [exact Hr|exact Hm|]. apply small_huge. rewrite Rabs_left1 by exact U. lra.
Qed.
Lemma cond64 maxi st rm : isr (rs_remaining st) rm -> run_cond maxi st = true -> 0 < rm.
Proof.
  intros H C. unfold run_cond in C. apply andb_prop in C. destruct C as [C _]. apply andb_prop in C. destruct C as [C _]. unfold ngt in C. rewrite (isr_lt _ _ _ _ zero_isr H) in C.
  destruct (Rlt_bool_spec 0 rm); [assumption|discriminate].
Qed.
Lemma steps64 (m : b64) mr maxi n r w st : isr m mr -> 0 <= mr <= 16384 -> steps m maxi n (run_init r m w) st ->
  exists rm, isr (rs_remaining st) rm /\ rm <= mr /\ (0 < rm -> rm <= mr - INR n * 9e-14).
Proof.
  intros Hm Lm. remember (run_init r m w) as st0 eqn:E0. induction 1 as [st|n st st1 st2 S IH C B]; subst.
  - exists mr. cbn. split; [exact Hm|]. split; [lra|]. intros; lra.
  - destruct (IH eq_refl) as (rm & Hr & L & Q). pose proof (cond64 _ _ _ Hr C) as P. specialize (Q P).
    destruct (body64 m mr st1 st2 rm Hm Lm Hr ltac:(lra) B) as (rm' & Hr' & L' & K). exists rm'. split; [exact Hr'|]. split; [exact L'|]. intros P'. rewrite S_INR. lra.
Qed.
Lemma iterations64 (m : b64) mr maxi n r w st : isr m mr -> 0 <= mr <= 16384 -> steps m maxi n (run_init r m w) st -> INR n <= mr / 9e-14 + 1.
Proof.
  intros Hm Lm S. remember (run_init r m w) as st0 eqn:E0. destruct S as [st|n st st1 st2 S C B]; subst.
  - cbn. assert (0 <= mr / 9e-14) by (apply Rmult_le_pos; [lra|apply Rlt_le, Rinv_0_lt_compat; lra]). lra.
  - destruct (steps64 _ _ _ _ _ _ _ Hm Lm S) as (rm & Hr & _ & Q). pose proof (cond64 _ _ _ Hr C) as P. specialize (Q P). rewrite S_INR.
    assert (INR n <= mr / 9e-14); [|lra]. apply Rmult_le_reg_r with 9e-14; [lra|]. unfold Rdiv. rewrite Rmult_assoc, Rinv_l by lra. lra.
Qed.

(** the same for any range, with a limit on the number of interactions *)
Lemma body64_any (m : b64) mr st st' rm : isr m mr -> isr (rs_remaining st) rm -> 0 < rm <= mr -> run_body m st = Ok st' ->
  exists rm', isr (rs_remaining st') rm' /\ rm' <= mr /\ (rm' <= 0 \/ rs_count st' = (rs_count st + 1)%Z).
Proof.
  intros Hm Hr Lr B. apply body_outcome in B.
  assert (Hit : forall sc s, scan (rs_ray st) (rs_remaining st) (mkScan false ninf (rs_sel st) (rs_sfo st)) 0 (rs_world st) = Ok sc -> sc_hit sc = true -> sc_sel sc = Some s ->
    exists rm', isr (nsub (rs_remaining st) (distance_between (position (rs_ray st)) (se_pt s))) rm' /\ rm' <= mr).
  { intros sc s E Hh Es. assert (E2 := E). apply (scan_dist _ _ _ _ Hr) in E2; [|left; split; reflexivity]. destruct E2 as [[K _]|(_ & s' & c & d & E1 & _ & Hc & Hd & L)]; [congruence|].
    rewrite Es in E1. injection E1 as <-. destruct floor_isr as (c' & Hc' & Lc). rewrite (isr_inj _ _ _ Hc' Hc) in Lc.
    assert (LB : 0 <= RN (rm - d)) by (rewrite <- RN_0; apply RN_le; lra).
    assert (UB : RN (rm - d) <= rm) by (rewrite <- (RN_fix rm (isr_format _ _ Hr)) at 2; apply RN_le; lra).
    exists (RN (rm - d)). split; [|lra]. apply isr_sub; [exact Hr|exact Hd|]. rewrite Rabs_pos_eq by exact LB. pose proof (isr_huge _ _ Hr) as U. rewrite Rabs_pos_eq in U by lra. lra. }
  destruct B as [sc E Hh ->|sc s E Hh Es F ->|sc s f o r2 o' E Hh Es F Ef En Ed ->]; cbn [rs_remaining rs_count].
  2,3: destruct (Hit sc s E Hh Es) as (rm' & H1 & H2); exists rm'; split; [exact H1|]; split; [exact H2|right; lia].
  assert (U : RN (rm - mr) <= 0) by (rewrite <- RN_0; apply RN_le; lra).
  assert (L : - mr <= RN (rm - mr)).
  { rewrite <- (RN_fix (- mr)) by (apply generic_format_opp; exact (isr_format _ _ Hm)). apply RN_le. lra. }
  exists (RN (rm - mr)). split; [|split; [lra|left; exact U]]. apply isr_sub; [exact Hr|exact Hm|]. pose proof (isr_huge _ _ Hm) as V. rewrite Rabs_pos_eq in V by lra. rewrite Rabs_left1 by exact U. lra.
Qed.
Lemma inf_sub (m x : b64) : m = S754_infinity false -> nsub m x = m \/ nsub m x = S754_nan.
Proof. intros ->. destruct x as [|[]| |]; cbn; auto. Qed.
Lemma body64_inf (m : b64) (st st' : @run_st b64) : m = S754_infinity false -> rs_remaining st = m -> run_body m st = Ok st' ->
  rs_remaining st' = S754_nan \/ rs_remaining st' = m /\ (rs_count st' = rs_count st + 1)%Z.
Proof.
  intros Em Hr B. apply body_outcome in B. destruct B as [sc E Hh ->|sc s E Hh Es F ->|sc s f o r2 o' E Hh Es F Ef En Ed ->]; cbn [rs_remaining rs_count]; rewrite Hr.
  - left. rewrite Em. reflexivity.
  - destruct (inf_sub m (distance_between (position (rs_ray st)) (se_pt s)) Em) as [K|K]; rewrite K; [right; split; [reflexivity|lia]|left; reflexivity].
  - destruct (inf_sub m (distance_between (position (rs_ray st)) (se_pt s)) Em) as [K|K]; rewrite K; [right; split; [reflexivity|lia]|left; reflexivity].
Qed.
Lemma dead64 (m : b64) maxi n r w st : ngt m (nofZ 0) = false -> steps m maxi n (run_init r m w) st -> n = 0%nat.
Proof.
  intros D S. remember (run_init r m w) as st0 eqn:E0. induction S as [|n st st1 st2 S IH C B]; [reflexivity|]. specialize (IH E0). subst n st. inversion S; subst. unfold run_cond in C. cbn [rs_remaining run_init] in C. rewrite D in C. discriminate C.
Qed.
Lemma count64 (m : b64) N n r w st : valid_binary 53 1024 m = true -> steps m (Some N) n (run_init r m w) st -> (Z.of_nat n <= Z.max 0 N)%Z.
Proof.
  intros V S. destruct (ngt m (nofZ 0)) eqn:P; [|rewrite (dead64 _ _ _ _ _ _ P S); lia].
  assert (K : ((rs_count st = Z.of_nat n \/ ngt (rs_remaining st) (nofZ 0) = false) /\ (Z.of_nat n <= Z.max 0 N)%Z) /\
     ((exists mr rm, isr m mr /\ isr (rs_remaining st) rm /\ rm <= mr) \/ m = S754_infinity false /\ (rs_remaining st = m \/ rs_remaining st = S754_nan))); [|tauto].
  remember (run_init r m w) as st0 eqn:E0. induction S as [st|n st st1 st2 S IH C B]; subst.
  - split; [split; [left; reflexivity|lia]|]. destruct (valid_cases m V) as [(mr & K)|[K|(s & K)]].
    + left. exists mr, mr. split; [exact K|]. split; [exact K|lra].
    + rewrite K in P. discriminate P.
    + right. destruct s; [rewrite K in P; discriminate P|]. split; [exact K|left; reflexivity].
  - destruct (IH eq_refl) as [[IH1 IH2] IHm]. assert (C' := C). unfold run_cond in C'. apply andb_prop in C'. destruct C' as [C' _].
    apply andb_prop in C'. destruct C' as [Cr Cc]. apply Z.ltb_lt in Cc. destruct IH1 as [IH1|IH1]; [|congruence].
    destruct IHm as [(mr & rm & Hm & Hr & L)|(Em & [Er|Er])].
    + pose proof (cond64 _ _ _ Hr C) as Q. destruct (body64_any m mr st1 st2 rm Hm Hr ltac:(lra) B) as (rm' & Hr' & L' & K).
      split; [|left; exists mr, rm'; auto]. split; [|lia]. destruct K as [K|K]; [right|left; lia]. unfold ngt. rewrite (isr_lt _ _ _ _ zero_isr Hr'). apply Rlt_bool_false. exact K.
    + destruct (body64_inf m st1 st2 Em Er B) as [K|[K1 K2]].
      * split; [split; [right; rewrite K; reflexivity|lia]|right; auto].
      * split; [split; [left; lia|lia]|right; split; [exact Em|left; congruence]].
    + rewrite Er in Cr. discriminate Cr.
Qed.
End Run.

(** C33, binary64: with max_distance at most 16384 the loop ends, whatever the optics do: every iteration uses up more than 9e-14 of the remaining distance in spite of
    rounding, so that there are at most max_distance/9e-14 + 1 iterations. *)
Theorem C33_binary64 : forall (TT : Trig b64) r w m mr maxi, isr m mr -> 0 <= mr <= 16384 ->
  (forall n st, steps m maxi n (run_init r m w) st -> INR n <= mr / 9e-14 + 1) /\
  exists res, res <> Err OutOfFuel /\ forall fuel, mr / 9e-14 + 1 < INR fuel -> run fuel r m w maxi = res.
Proof.
  intros TT r w m mr maxi Hm Lm. split; [intros n st S; exact (iterations64 m mr maxi n r w st Hm Lm S)|].
  assert (K : forall fuel, mr / 9e-14 + 1 < INR fuel -> run fuel r m w maxi <> Err OutOfFuel).
  { intros fuel L H. unfold run in H. apply bind_err in H. destruct H as [H|(st & _ & H)]; [|discriminate].
    apply loop_err in H. destruct H as (n & st1 & S & C & [[_ B]|[-> _]]); [exact (fine_body _ _ B)|]. pose proof (iterations64 _ _ _ _ _ _ _ Hm Lm S). lra. }
  assert (Hk : exists k, mr / 9e-14 + 1 < INR k).
  { assert (0 <= mr / 9e-14) by (apply Rmult_le_pos; [lra|apply Rlt_le, Rinv_0_lt_compat; lra]).
    destruct (archimed (mr / 9e-14 + 1)) as [A _]. exists (Z.to_nat (up (mr / 9e-14 + 1))). rewrite INR_IZR_INZ, Z2Nat.id; [lra|]. apply le_IZR. lra. }
  destruct Hk as (k & Hk). exists (run k r m w maxi). split; [apply K, Hk|]. intros fuel Hf. apply run_fuel64; apply K; assumption.
Qed.
Print Assumptions C33_binary64.
Example C33_binary64_hyp : isr (nofZ 100) 100 /\ 0 <= 100 <= 16384.
Proof.
  split; [|lra]. replace 100 with (SF2R radix2 (nofZ 100 : b64)); [repeat split|]. vm_compute. lra.
Qed.

(** C33, binary64: with max_interactions = N there are at most N iterations, whatever max_distance is (infinite, NaN or negative included). *)
Theorem C33_binary64_count : forall (TT : Trig b64) r w m N, valid_binary 53 1024 m = true -> (0 <= N)%Z ->
  (forall n st, steps m (Some N) n (run_init r m w) st -> (Z.of_nat n <= N)%Z) /\
  exists res, res <> Err OutOfFuel /\ forall fuel, (N < Z.of_nat fuel)%Z -> run fuel r m w (Some N) = res.
Proof.
  intros TT r w m N V HN. split; [intros n st S; pose proof (count64 _ _ _ _ _ _ V S); lia|].
  assert (K : forall fuel, (N < Z.of_nat fuel)%Z -> run fuel r m w (Some N) <> Err OutOfFuel).
  { intros fuel L H. unfold run in H. apply bind_err in H. destruct H as [H|(st & _ & H)]; [|discriminate].
    apply loop_err in H. destruct H as (n & st1 & S & C & [[_ B]|[-> _]]); [exact (fine_body _ _ B)|]. pose proof (count64 _ _ _ _ _ _ V S). lia. }
  exists (run (Z.to_nat (N + 1)) r m w (Some N)). split; [apply K; lia|]. intros fuel Hf. apply run_fuel64; apply K; lia.
Qed.
Print Assumptions C33_binary64_count.
Example C33_binary64_count_hyp : valid_binary 53 1024 (nofZ 100000000 : b64) = true /\ (0 <= 10)%Z.
Proof. split; [reflexivity|lia]. Qed.
