(** The limit on the number of interactions only cuts a run short. *)
From Coq Require Import Reals ZArith Lra Lia String List Bool.
From Verif Require Import PyErr Num Vec Shapes Csg Optics Spec XReal RVec VecProofs AngleProofs FlatProofs SphereProofs CylProofs ShapeExtra TreeProofs SolidProofs CsgProofs RayProofs GratingProofs RunGen NoFuel RunXr OpticHits StateXr OrderProofs Props_Ray Props_Loop Props_Run Continue Props_Images.
Import ListNotations.

(** the limit N is at most the limit maxi (None: no limit) *)
Definition at_most (N : Z) (maxi : option Z) : Prop := match maxi with None => True | Some N' => (N <= N')%Z end.
Section Limit.
Context {T : Type} {NT : Num T} {TT : Trig T}.
Lemma cond_weaker N maxi (st : @run_st T) : at_most N maxi -> run_cond (Some N) st = true -> run_cond maxi st = true.
Proof.
  unfold run_cond. intros A C. apply andb_true_iff in C. destruct C as [C B]. apply andb_true_iff in C. destruct C as [C D]. apply Z.ltb_lt in D. rewrite B, C. destruct maxi as [N'|]; [|reflexivity].
  cbn in A. replace (Z.ltb (rs_count st) N') with true by (symmetry; apply Z.ltb_lt; lia). reflexivity.
Qed.
Lemma cond_blocked maxi (st : @run_st T) : blocked (rs_ray st) = true -> run_cond maxi st = false.
Proof. unfold run_cond. intros ->. apply andb_false_r. Qed.
Lemma loop_cut md N maxi fuel : at_most N maxi -> forall st,
  (forall e, run_loop fuel md (Some N) st = Err e -> run_loop fuel md maxi st = Err e) /\
  (forall st1, run_loop fuel md (Some N) st = Ok st1 -> run_cond (Some N) st1 = false /\ exists n, (n <= fuel)%nat /\ steps md (Some N) n st st1 /\ run_loop fuel md maxi st = run_loop (fuel - n) md maxi st1).
Proof.
  intros A. induction fuel as [|fuel IH]; intros st; cbn [run_loop]; destruct (run_cond (Some N) st) eqn:C.
  - rewrite (cond_weaker _ _ _ A C). split; [auto|discriminate].
  - split; [discriminate|]. intros st1 E. injection E as <-. split; [exact C|]. exists 0%nat. split; [lia|]. split; [constructor|]. reflexivity.
  - rewrite (cond_weaker _ _ _ A C). destruct (run_body md st) as [st2|e] eqn:B; cbn [bind]; [|split; [auto|discriminate]]. destruct (IH st2) as [I1 I2]. split; [exact I1|].
    intros st1 E. destruct (I2 _ E) as (Cf & n & L & S & R). split; [exact Cf|]. exists (Datatypes.S n). split; [lia|]. split; [eapply steps_cons; eassumption|]. rewrite R. reflexivity.
  - split; [discriminate|]. intros st1 E. injection E as <-. split; [exact C|]. exists 0%nat. split; [lia|]. split; [constructor|]. reflexivity.
Qed.
Lemma steps_counted md maxi n (st st' : @run_st T) : steps md maxi n st st' -> (rs_count st' <= rs_count st + Z.of_nat n)%Z.
Proof.
  induction 1 as [|n st st1 st2 S IH C B]; [lia|]. apply body_outcome in B. destruct B as [sc E Hh ->|sc s E Hh Es F ->|sc s f o r2 o' E Hh Es F Ef En Ed ->]; cbn [rs_count]; lia.
Qed.
End Limit.

(* C118, any number type.  If the run limited to N interactions returns, the run with a larger limit, or none, goes on from there: it records the same points first; and if the light has been absorbed nothing more happens. *)
Theorem C118_prefix : forall T (NT : Num T) (TT : Trig T) fuel r md (w : list (optic T)) N maxi r1 w1 r2 w2, at_most N maxi ->
  run fuel r md w (Some N) = Ok (r1, w1) -> run fuel r md w maxi = Ok (r2, w2) ->
  (exists more, point_history r2 = point_history r1 ++ more) /\ (blocked r1 = true -> r2 = r1 /\ w2 = w1) /\ (w1 = w \/ w2 = w1).
Proof.
  intros T NT TT fuel r md w N maxi r1 w1 r2 w2 A H1 H2. destruct (C38_detector _ _ _ _ _ _ _ _ _ _ H1) as [Sm|(Bl & _)].
  all: unfold run in H1, H2; apply bind_ok in H1; destruct H1 as (st1 & L1 & H1); injection H1 as <- <-; apply bind_ok in H2; destruct H2 as (st2 & L2 & H2); injection H2 as <- <-.
  all: destruct (proj2 (loop_cut md N maxi fuel A _) _ L1) as (_ & n & Ln & S & R); rewrite L2 in R; symmetry in R.
  all: assert (Bk : blocked (rs_ray st1) = true -> st2 = st1) by (intros B; destruct (fuel - n)%nat; cbn [run_loop] in R; rewrite (cond_blocked maxi st1 B) in R; congruence).
  all: apply loop_steps in R; destruct R as (k & _ & S2 & _); destruct (steps_history _ _ _ _ _ S2) as (more & _ & Hm & _).
  all: split; [exists more; exact Hm|]; split; [intros B; rewrite (Bk B); auto|].
  - left. exact Sm.
  - right. now rewrite (Bk Bl).
Qed.
Print Assumptions C118_prefix.
(* What a limited run raises, the run with a larger limit raises too. *)
Theorem C118_raises : forall T (NT : Num T) (TT : Trig T) fuel r md (w : list (optic T)) N maxi e, at_most N maxi ->
  run fuel r md w (Some N) = Err e -> run fuel r md w maxi = Err e.
Proof.
  intros T NT TT fuel r md w N maxi e A H. unfold run in *. apply bind_err in H. destruct H as [H|(st & _ & H)]; [|discriminate]. rewrite (proj1 (loop_cut md N maxi fuel A _) e H). reflexivity.
Qed.
Print Assumptions C118_raises.
(* A limited run that recorded fewer points than the limit is the whole run: any larger limit, or none, changes nothing. *)
Theorem C118_enough : forall T (NT : Num T) (TT : Trig T) fuel r md (w : list (optic T)) N maxi r1 w1 added, at_most N maxi ->
  run fuel r md w (Some N) = Ok (r1, w1) -> point_history r1 = point_history r ++ added -> (Z.of_nat (length added) < N)%Z -> run fuel r md w maxi = Ok (r1, w1).
Proof.
  intros T NT TT fuel r md w N maxi r1 w1 added A H Hh La. unfold run in *. apply bind_ok in H. destruct H as (st1 & L1 & H). injection H as <- <-.
  destruct (proj2 (loop_cut md N maxi fuel A _) _ L1) as (Cf & n & Ln & S & R). destruct (steps_history _ _ _ _ _ S) as (ad & Le & Ha & _). cbn [run_init rs_ray] in Ha. rewrite Hh in Ha. apply app_inv_head in Ha. subst ad.
  pose proof (steps_counted _ _ _ _ _ S) as Ct. cbn [run_init rs_count] in Ct.
  assert (Cm : run_cond maxi st1 = false).
  { unfold run_cond in *. destruct (ngt _ _); [|reflexivity]. destruct (blocked _); [apply andb_false_r|]. replace (Z.ltb (rs_count st1) N) with true in Cf by (symmetry; apply Z.ltb_lt; lia). discriminate. }
  rewrite R. destruct (fuel - n)%nat; cbn [run_loop]; rewrite Cm; reflexivity.
Qed.
Print Assumptions C118_enough.

Local Open Scope R_scope.
Lemma resume_flows m N fuel fuel2 (r : ray xr) w r1 w1 : run fuel r (Fin m) w (Some N) = Ok (r1, w1) -> run fuel2 r (Fin m) w None <> Err OutOfFuel -> (fuel <= fuel2)%nat ->
  exists n st rm, steps (Fin m) (Some N) n (run_init r (Fin m) w) st /\ rs_ray st = r1 /\ rs_world st = w1 /\ rs_remaining st = Fin rm /\ flows r1 w1 rm (run fuel2 r (Fin m) w None).
Proof.
  intros H NF Lf. unfold run in H. apply bind_ok in H. destruct H as (st1 & L1 & H). injection H as <- <-. apply loop_steps in L1. destruct L1 as (n & Ln & S & C).
  destruct (steps_budget _ _ _ _ _ _ S) as (rm & Hrm & Lm & _). exists n, st1, rm. split; [exact S|]. split; [reflexivity|]. split; [reflexivity|]. split; [exact Hrm|].
  assert (R : run_loop fuel2 (Fin m) None (run_init r (Fin m) w) = run_loop (fuel2 - n) (Fin m) None st1).
  { clear C NF. assert (Ln2 : (n <= fuel2)%nat) by lia. clear Ln. remember (run_init r (Fin m) w) as st0 eqn:E0. clear E0 Hrm Lm. revert Ln2. induction S as [st|n st st1 st2 S IH C B]; intros Ln2; [f_equal; lia|]. rewrite IH by lia.
    replace (fuel2 - n)%nat with (Datatypes.S (fuel2 - Datatypes.S n)) by lia. cbn [run_loop]. rewrite (cond_weaker N None _ I C), B. reflexivity. }
  unfold run in *. rewrite R in *. apply loop_flows; [exact Hrm|exact Lm|]. intros E. apply NF. rewrite E. reflexivity.
Qed.
(* Exact arithmetic: a run that was stopped by its limit can be taken up again with the distance that is left, max_distance less the length of the path so far; the outcome is that of the whole run. *)
Theorem C118_resume : forall m N fuel r w r1 w1 p d, 0 <= m -> ray_is r p d -> is_unit d -> ok_scene w -> grating_free w -> m / 1e-12 + 1 < INR fuel ->
  run fuel r (Fin m) w (Some N) = Ok (r1, w1) ->
  exists pts, point_history r1 = point_history r ++ map fv pts /\ path_length p pts <= m /\ run fuel r1 (Fin (m - path_length p pts)) w1 None = run fuel r (Fin m) w None.
Proof.
  intros m N fuel r w r1 w1 p d Hm Hr Hd Sc Gf Lf H.
  assert (NF : forall m' r w, 0 <= m' <= m -> run fuel r (Fin m') w None <> Err OutOfFuel).
  { intros m' r0 w0 [P L]. destruct (proj1 (C33_terminates r0 w0) m' None P) as (_ & res & Ne & E). rewrite E; [exact Ne|]. eapply Rle_lt_trans; [|exact Lf]. apply Rplus_le_compat_r. unfold Rdiv. apply Rmult_le_compat_r; lra. }
  destruct (resume_flows m N fuel fuel r w r1 w1 H (NF m r w ltac:(lra)) ltac:(lia)) as (n & st & rm & S & Er & Ew & Hrm & F).
  destruct (steps_ok _ _ _ _ _ _ _ _ Hm Hr Hd Sc Gf S) as (_ & _ & p1 & d1 & _ & _ & pts & rm' & Hh & _ & _ & Hrm' & Inv). rewrite Hrm in Hrm'. injection Hrm' as <-. rewrite Er in Hh.
  assert (Lp : 0 <= path_length p pts) by (clear; revert p; induction pts as [|q pts IH]; intros p; cbn; [lra|]; pose proof (len_nonneg (p - q)%r3); specialize (IH q); unfold dist3; lra).
  assert (Lm : path_length p pts <= m) by (destruct Inv as [(P & Q & _)|(_ & Q)]; lra).
  exists pts. split; [exact Hh|]. split; [exact Lm|]. pose proof (run_flows _ _ _ _ (NF (m - path_length p pts) r1 w1 ltac:(lra))) as F3.
  destruct Inv as [(P & Q & _)|(P & Q)].
  - replace (m - path_length p pts) with rm in * by lra. exact (flows_det _ _ _ _ F3 _ F).
  - rewrite Q in *. replace (m - m) with 0 in * by ring. rewrite (flows_det _ _ _ _ F3 _ (F_stop r1 w1 0 (or_introl (Rle_refl 0)))). symmetry. apply (flows_det _ _ _ _ F). apply F_stop. left. exact P.
Qed.
Print Assumptions C118_resume.
Example C118_hyp : at_most 1 None /\ at_most 1 (Some 4%Z) /\ run 3 z_ray (Fin 10) [OMirror (mirror_at 5)] (Some 1%Z) = Ok (bounced, [OMirror (mirror_at 5)]) /\
  exists fuel, 10 / 1e-12 + 1 < INR fuel /\ run fuel bounced (Fin 5) [OMirror (mirror_at 5)] None = run fuel z_ray (Fin 10) [OMirror (mirror_at 5)] None.
Proof.
  split; [exact I|]. split; [cbn; lia|]. split; [apply z_run; lra|]. destruct (nat_above (10 / 1e-12 + 1)) as (k & Hk). exists (Datatypes.S k).
  assert (Hk' : 10 / 1e-12 + 1 < INR (Datatypes.S k)) by (rewrite S_INR; lra). split; [exact Hk'|].
  destruct (C118_resume 10 1 (Datatypes.S k) z_ray [OMirror (mirror_at 5)] bounced [OMirror (mirror_at 5)] (at_z 0) e_z) as (pts & Hh & _ & E).
  - lra.
  - apply z_ray_is.
  - apply e_z_unit.
  - intros o [<-|[]]. right. do 2 eexists. apply mirror_at_valid.
  - intros o [<-|[]]. reflexivity.
  - exact Hk'.
  - apply z_run. lra.
  - assert (pts = [at_z 5]) as ->. { cbn [bounced point_history z_ray a_ray app] in Hh. destruct pts as [|q [|q2 pts]]; try discriminate. injection Hh as Hh. f_equal. symmetry. apply r3_ext; cbn; congruence. }
    replace 5 with (10 - path_length (at_z 0) [at_z 5]) at 1; [exact E|]. cbn [path_length]. assert (dist3 (at_z 0) (at_z 5) = 5); [|lra]. unfold dist3. apply len_eq_of_sq; [lra|]. unfold r3dot, at_z; cbn. ring.
Qed.
