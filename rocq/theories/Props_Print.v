(** Property C66: printing the trajectory does not disturb the run, and what is printed. *)
From Coq Require Import Reals ZArith Lra Lia String List Bool.
From Verif Require Import PyErr Num Vec Shapes Csg Optics General Printing Spec XReal RVec VecProofs FlatProofs RayProofs ShapeExtra Props_Ray RunGen RunXr OpticHits
  StateXr PrecProofs AngleProofs GratingProofs Props_Loop Props_Run.
Import ListNotations.
Local Open Scope string_scope.

Section Gen.
Context {T : Type} {N : Num T} {TT : Trig T} {E : Elem T}.

(** -- with print_trajectory=False: nothing is printed, the run is the plain run -- *)
Lemma body_quiet md st : run_body_v false md st = ([], run_body md st).
Proof.
  unfold run_body_v, run_body. destruct (scan _ _ _ _ _) as [sc|e]; [|reflexivity]. cbn [lift obind bind]. destruct (sc_hit sc); [|reflexivity].
  cbn [negb say obind app]. destruct (sc_sel sc) as [s|]; [|reflexivity]. cbn [bound lift obind bind app fly_v print_self].
  destruct (String.eqb (ray_type (rs_ray st)) "faerie_fire"); [reflexivity|]. destruct (sc_sfo sc); [|reflexivity]. cbn [bound obind bind app].
  destruct (nth_error (rs_world st) (se_idx s)) as [o|]; [|reflexivity]. unfold do_intersect_v.
  destruct (optic_do_intersect o _ _ _ _) as [[r2 o']|e]; [|reflexivity]. cbn [lift obind app fst snd bind].
  assert (Q : interaction_print false o (fly (rs_ray st) (distance_between (position (rs_ray st)) (se_pt s))) r2 (se_normal s) = ([], Ok tt)).
  { destruct o; try reflexivity; cbn; [destruct (String.eqb _ _)|destruct (neqb _ _)]; reflexivity. }
  rewrite Q. reflexivity.
Qed.
Lemma loop_quiet fuel md maxi : forall st, run_loop_v false fuel md maxi st = ([], run_loop fuel md maxi st).
Proof.
  induction fuel; intros st; cbn [run_loop_v run_loop]; destruct (run_cond maxi st); try reflexivity. rewrite body_quiet.
  destruct (run_body md st) as [st'|e]; [|reflexivity]. cbn [obind bind]. rewrite IHfuel. reflexivity.
Qed.

(** -- with print_trajectory=True -- *)
(** what an interaction may print *)
Definition tail_lines (r2 : ray T) (ls : list (line T)) : Prop :=
  ls = [] \/ (exists s, ray_repr r2 = Ok s /\ ls = [Text s]) \/ (exists a, ls = [Turned (wavelength r2) a]).
Lemma print_self_cases r : (exists s, ray_repr r = Ok s /\ print_self true r = ([Text s], Ok tt)) \/
  (exists e, ray_repr r = Err e /\ print_self true r = ([], Err e)).
Proof. unfold print_self. destruct (ray_repr r) as [s|e]; [left|right]; eauto. Qed.
Lemma do_v o r pt n s : match optic_do_intersect o r pt n s with
  | Err e => do_intersect_v true o r pt n s = ([], Err e)
  | Ok ro => (exists ls, do_intersect_v true o r pt n s = (ls, Ok ro) /\ tail_lines (fst ro) ls) \/
             (exists e, ray_repr (fst ro) = Err e /\ do_intersect_v true o r pt n s = ([], Err e))
  end.
Proof.
  unfold do_intersect_v. destruct (optic_do_intersect o r pt n s) as [[r2 o']|e] eqn:D; [|reflexivity]. cbn [lift obind fst app].
  assert (Z : forall x : Out unit, x = ([], Ok tt) -> exists ls, (let '(l', b) := obind x (fun _ => ([], Ok (r2, o'))) in (l', b)) = (ls, Ok (r2, o')) /\ tail_lines r2 ls).
  { intros x ->. exists []. split; [reflexivity|]. left; reflexivity. }
  assert (P' : (exists ls, (let '(l', b) := obind (print_self true r2) (fun _ => ([], Ok (r2, o'))) in (l', b)) = (ls, Ok (r2, o')) /\ tail_lines r2 ls) \/
             (exists e, ray_repr r2 = Err e /\ (let '(l', b) := obind (print_self true r2) (fun _ => ([], Ok (r2, o'))) in (l', b)) = ([], Err e))).
  { destruct (print_self_cases r2) as [(t & R & ->)|(e & R & ->)]; [left|right]; cbn; [|eauto].
    exists [Text t]. split; [reflexivity|]. right; left; eauto. }
  destruct o; cbn [interaction_print]; try (left; apply Z; reflexivity); try exact P'.
  - destruct (String.eqb _ _); [exact P'|left; apply Z; reflexivity].
  - destruct (neqb (order r) (nofZ 0)) eqn:O0; [left; apply Z; reflexivity|]. left. cbn [optic_do_intersect] in D. unfold grating_do_intersect, reflect_grating in D.
    rewrite O0 in D. destruct n as [n|]; [|discriminate D]. cbn [need bind] in D |- *. unfold grating_turn. destruct (gr_G g) as [G|]; [|discriminate D].
    cbn [need bind lift obind say app] in D |- *. eexists. split; [reflexivity|]. right; right. eexists.
    apply (f_equal (fun x => match x with Ok p => wavelength (fst p) | Err _ => wavelength r2 end)) in D. cbn in D. rewrite <- D. reflexivity.
Qed.

(** Who prints: lenses and refracting compounds print the turned ray, gratings outside order 0 one line with the angle, every other optic nothing. *)
Definition refractive (o : optic T) : Prop := match o with OLens _ => True | OCompound c => co_surface_behavior c = "refract" | _ => False end.
Definition diffractive (o : optic T) (r : ray T) : Prop := match o with OGrating _ => neqb (order r) (nofZ 0) = false | _ => False end.
Theorem C66_who : forall o r pt n s r2 o', optic_do_intersect o r pt n s = Ok (r2, o') ->
  (refractive o -> forall txt, ray_repr r2 = Ok txt -> do_intersect_v true o r pt n s = ([Text txt], Ok (r2, o'))) /\
  (diffractive o r -> exists a, do_intersect_v true o r pt n s = ([Turned (wavelength r) a], Ok (r2, o'))) /\
  (~ refractive o -> ~ diffractive o r -> do_intersect_v true o r pt n s = ([], Ok (r2, o'))).
Proof.
  intros o r pt n s r2 o' D. unfold do_intersect_v. rewrite D. cbn [lift obind fst app]. split; [|split].
  - intros H txt R. assert (P : print_self true r2 = ([Text txt], Ok tt)) by (unfold print_self; rewrite R; reflexivity).
    destruct o; try contradiction; cbn [interaction_print]; [cbn [refractive] in H; rewrite H; change (String.eqb "refract" "refract") with true; cbn iota|]; rewrite P; reflexivity.
  - intros H. destruct o; try contradiction. cbn [diffractive] in H. cbn [interaction_print]. rewrite H. cbn [optic_do_intersect] in D. unfold grating_do_intersect, reflect_grating in D.
    rewrite H in D. destruct n as [n|]; [|discriminate D]. cbn [need bind] in D |- *. unfold grating_turn. destruct (gr_G g) as [G|]; [|discriminate D]. cbn [need bind lift obind say app] in D |- *. eexists. reflexivity.
  - intros H H'. destruct o; cbn [interaction_print refractive diffractive] in *; try reflexivity; [|now elim H|].
    + destruct (String.eqb_spec (co_surface_behavior c) "refract") as [E0|_]; [now elim H|reflexivity].
    + destruct (neqb (order r) (nofZ 0)); [reflexivity|now elim H'].
Qed.

(** the lines printed in one iteration *)
Definition block (st st' : run_st) (ls : list (line T)) : Prop := exists msg s rest, ls = Text msg :: Text s :: rest /\
  repr6 "Ray" (position (rs_ray st')) (direction (rs_ray st)) = Ok s /\
  (msg = "not intersected (messages TODO)" /\ rs_count st' = rs_count st /\ rest = [] \/
   msg = "intersected (messages TODO)" /\ rs_count st' = (rs_count st + 1)%Z /\ tail_lines (rs_ray st') rest).
Lemma body_v md st : match run_body md st with
  | Err e => snd (run_body_v true md st) = Err e \/ exists r e', ray_repr r = Err e' /\ snd (run_body_v true md st) = Err e'
  | Ok st' => (exists ls, run_body_v true md st = (ls, Ok st') /\ block st st' ls) \/
      exists r e', ray_repr r = Err e' /\ snd (run_body_v true md st) = Err e'
  end.
Proof.
  unfold run_body_v, run_body. destruct (scan _ _ _ _ _) as [sc|e]; [|left; reflexivity]. cbn [lift obind bind]. destruct (sc_hit sc); cbn [negb].
  2:{ cbn [say obind app]. unfold fly_v. destruct (print_self_cases (fly (rs_ray st) (rs_remaining st))) as [(t & R & ->)|(e & R & ->)]; cbn [obind app lift].
    - left. eexists. split; [reflexivity|]. do 3 eexists. split; [reflexivity|]. split; [exact R|]. left. auto.
    - right. exists (fly (rs_ray st) (rs_remaining st)), e. split; [exact R|reflexivity]. }
  cbn [say obind app]. destruct (sc_sel sc) as [s|]; [|left; reflexivity]. cbn [bound lift obind bind app]. unfold fly_v.
  set (r1 := fly (rs_ray st) (distance_between (position (rs_ray st)) (se_pt s))).
  destruct (print_self_cases r1) as [(t & R & ->)|(e & R & ->)]; cbn [obind app lift].
  2:{ match goal with |- match ?x with _ => _ end => destruct x; right; exists r1, e; (split; [exact R|reflexivity]) end. }
  destruct (String.eqb (ray_type (rs_ray st)) "faerie_fire").
  { left. eexists. split; [reflexivity|]. do 3 eexists. split; [reflexivity|]. split; [exact R|]. right. split; [reflexivity|]. split; [reflexivity|]. left; reflexivity. }
  destruct (sc_sfo sc) as [f|]; [|left; reflexivity]. cbn [bound obind bind app].
  destruct (nth_error (rs_world st) (se_idx s)) as [o|]; [|left; reflexivity].
  pose proof (do_v o r1 (se_pt s) (se_normal s) f) as D. destruct (optic_do_intersect o r1 (se_pt s) (se_normal s) f) as [[r2 o']|e] eqn:Ed.
  - destruct D as [(ls & -> & L)|(e & Re & ->)]; cbn [fst] in *; cbn [bind obind app lift fst snd].
    + left. eexists. split; [reflexivity|]. exists "intersected (messages TODO)", t, ls. split; [rewrite app_nil_r; reflexivity|].
      apply do_frame in Ed. destruct Ed as [(Ep & _) _]. cbn [rs_ray rs_count]. split; [rewrite Ep; exact R|]. right. auto.
    + right. exists r2, e. split; [exact Re|reflexivity].
  - rewrite D. left. reflexivity.
Qed.

(** C66's specification of a transcript: from position [p], one group of lines per recorded point; each group is headed by the message and the
    representation of the ray as it arrives at the point. *)
Inductive transcript : vec T -> list (list (line T)) -> list (vec T) -> Prop :=
| tr_nil p : transcript p [] []
| tr_cons p q d t msg s rest bs qs :
    (msg = "not intersected (messages TODO)" \/ msg = "intersected (messages TODO)") ->
    q = vadd p (vscale t d) -> repr6 "Ray" q d = Ok s ->
    transcript q bs qs -> transcript p ((Text msg :: Text s :: rest) :: bs) (q :: qs).

Lemma block_fits st st' md ls : run_body md st = Ok st' -> block st st' ls -> exists d t msg s rest, ls = Text msg :: Text s :: rest /\
  (msg = "not intersected (messages TODO)" \/ msg = "intersected (messages TODO)") /\
  position (rs_ray st') = vadd (position (rs_ray st)) (vscale t d) /\ repr6 "Ray" (position (rs_ray st')) d = Ok s.
Proof.
  intros B (msg & s & rest & -> & R & M). destruct (body_history _ _ _ B) as (t & P & _). exists (direction (rs_ray st)), t, msg, s, rest.
  split; [reflexivity|]. split; [destruct M as [M|M]; destruct M as (M & _); auto|]. split; [exact P|exact R].
Qed.
Lemma loop_v fuel md maxi : forall st, match run_loop fuel md maxi st with
  | Err e => snd (run_loop_v true fuel md maxi st) = Err e \/ exists r e', ray_repr r = Err e' /\ snd (run_loop_v true fuel md maxi st) = Err e'
  | Ok st' => (exists bs added, run_loop_v true fuel md maxi st = (List.concat bs, Ok st') /\
                 point_history (rs_ray st') = (point_history (rs_ray st) ++ added)%list /\ transcript (position (rs_ray st)) bs added) \/
      exists r e', ray_repr r = Err e' /\ snd (run_loop_v true fuel md maxi st) = Err e'
  end.
Proof.
  assert (Z : forall st, exists bs added, lift (Ok st) = (List.concat bs : list (line T), Ok st) /\
                 point_history (rs_ray st) = (point_history (rs_ray st) ++ added)%list /\ transcript (position (rs_ray st)) bs added).
  { intros st. exists [], []. split; [reflexivity|]. split; [symmetry; apply app_nil_r|apply tr_nil]. }
  induction fuel; intros st; cbn [run_loop_v run_loop]; destruct (run_cond maxi st); try (left; apply Z).
  - left. reflexivity.
  - pose proof (body_v md st) as B. destruct (run_body md st) as [st'|e] eqn:Eb.
    + destruct B as [(ls & -> & K)|(r & e' & R & Es)].
      * specialize (IHfuel st'). cbn [bind obind]. destruct (block_fits _ _ _ _ Eb K) as (d & t & msg & s & rest & -> & M & P & Rp).
        destruct (body_history _ _ _ Eb) as (t' & _ & H & _).
        destruct (run_loop fuel md maxi st') as [st2|e2].
        -- destruct IHfuel as [(bs & added & -> & Hh & Tr)|(r & e' & R & Es)].
           ++ left. exists ((Text msg :: Text s :: rest) :: bs), (position (rs_ray st') :: added). split; [reflexivity|].
              split; [rewrite Hh, H, <- app_assoc; reflexivity|]. eapply tr_cons; eassumption.
           ++ right. exists r, e'. split; [exact R|]. destruct (run_loop_v true fuel md maxi st'); cbn in *. exact Es.
        -- destruct IHfuel as [Es|(r & e' & R & Es)]; [left|right; exists r, e'; split; [exact R|]]; destruct (run_loop_v true fuel md maxi st'); cbn in *; exact Es.
      * destruct (run_body_v true md st) as [ls x]. cbn in Es. subst x. cbn [bind obind snd].
        destruct (run_loop fuel md maxi st'); right; exists r, e'; split; [exact R|reflexivity|exact R|reflexivity].
    + destruct (run_body_v true md st) as [ls x]. cbn [snd] in B. cbn [bind]. destruct B as [->|(r & e' & R & ->)]; cbn [obind snd]; [left; reflexivity|right; eauto].
Qed.

(** C66: for every number type, run with print_trajectory=False prints nothing and is the plain run; with print_trajectory=True it has the same
    result unless printing the ray at some state raises, and when it returns, what it printed is the begin line, one group of lines per point
    recorded, and the complete line. *)
Theorem C66_print : forall fuel r md w maxi,
  run_v false fuel r md w maxi = ([], run fuel r md w maxi) /\
  (snd (run_v true fuel r md w maxi) = run fuel r md w maxi \/
   exists r' e, ray_repr r' = Err e /\ snd (run_v true fuel r md w maxi) = Err e) /\
  (forall ls r' w', run_v true fuel r md w maxi = (ls, Ok (r', w')) -> exists bs added,
     ls = (Text "--- run begin ---" :: List.concat bs ++ [Text "--- run complete ---"])%list /\
     point_history r' = (point_history r ++ added)%list /\ transcript (position r) bs added).
Proof.
  intros fuel r md w maxi. unfold run_v, run. cbn [say obind]. pose proof (loop_v fuel md maxi (run_init r md w)) as L. split; [|split].
  - rewrite loop_quiet. destruct (run_loop fuel md maxi (run_init r md w)); reflexivity.
  - destruct (run_loop fuel md maxi (run_init r md w)) as [st|e]; cbn [bind].
    + destruct L as [(bs & added & -> & _)|(r' & e & R & Es)]; [left; reflexivity|right; exists r', e; split; [exact R|]].
      destruct (run_loop_v _ _ _ _ _) as [ls x]. cbn in Es. subst x. reflexivity.
    + destruct (run_loop_v _ _ _ _ _) as [ls x]. cbn [snd] in L. destruct L as [->|(r' & e' & R & ->)]; [left; reflexivity|right; exists r', e'; split; [exact R|reflexivity]].
  - intros ls r' w' H. destruct (run_loop fuel md maxi (run_init r md w)) as [st|e].
    + destruct L as [(bs & added & Ev & Hh & Tr)|(r1 & e & R & Es)].
      * rewrite Ev in H. cbn in H. injection H as <- <- <-. exists bs, added. split; [reflexivity|]. split; [exact Hh|exact Tr].
      * destruct (run_loop_v _ _ _ _ _) as [l x]. cbn in Es. subst x. discriminate H.
    + destruct (run_loop_v _ _ _ _ _) as [l x]. cbn [snd] in L. destruct L as [->|(r1 & e' & R & ->)]; discriminate H.
Qed.
End Gen.
Print Assumptions C66_who.
Print Assumptions C66_print.

Local Open Scope R_scope.
(** a ray with finite coordinates can be printed *)
Lemma prec_fin x : exists s, to_precision (Fin x) 5 = Ok s.
Proof.
  destruct (Req_dec x 0) as [->|H].
  - destruct (prec_zero 5 ltac:(lia)) as (s & Es & _). eauto.
  - destruct (prec_spec x 5 H ltac:(lia)) as (s & m & e & Es & _). eauto.
Qed.
Lemma repr_fin name p q : exists s, repr6 name (fv p) (fv q) = Ok s.
Proof.
  unfold repr6, fv. cbn [vx vy vz].
  destruct (prec_fin (cx p)) as (a & ->), (prec_fin (cy p)) as (b & ->), (prec_fin (cz p)) as (c & ->),
    (prec_fin (cx q)) as (a' & ->), (prec_fin (cy q)) as (b' & ->), (prec_fin (cz q)) as (c' & ->). cbn. eauto.
Qed.
Lemma ray_repr_fin r p d : position r = fv p -> direction r = fv d -> exists s, ray_repr r = Ok s.
Proof. intros Hp Hd. unfold ray_repr. rewrite Hp, Hd. apply repr_fin. Qed.

Lemma body_same m st rm p d : rs_remaining st = Fin rm -> ray_is (rs_ray st) p d -> is_unit d -> ok_scene (rs_world st) -> grating_free (rs_world st) ->
  snd (run_body_v true (Fin m) st) = run_body (Fin m) st.
Proof.
  intros Hrm [Hp Hd] U Sc Gf.
  assert (Fp : forall x, exists s, ray_repr (fly (rs_ray st) (Fin x)) = Ok s).
  { intros x. apply (ray_repr_fin _ (at_t p d x) d); [|exact Hd]. cbn. rewrite Hp, Hd, vscale_fv, vadd_fv. reflexivity. }
  pose proof (fun st' => body_ok m st st' rm p d Hrm (conj Hp Hd) U Sc) as BO. revert BO.
  unfold run_body_v, run_body. rewrite Hrm. destruct (scan _ _ _ _ _) as [sc|e] eqn:Es; [|reflexivity]. cbn [lift obind bind].
  destruct (scan_nearest _ _ _ _ _ _ Es) as [(A & _ & _)|(A & k & x & pt & n & B & Ch)]; rewrite A; cbn [negb]; intros BO.
  - cbn [say obind app]. unfold fly_v, print_self. destruct (Fp rm) as (s & ->). reflexivity.
  - cbn [say obind app]. rewrite B in *. cbn [bound lift obind bind app se_pt se_idx se_normal] in *. unfold fly_v, print_self.
    destruct (proj1 Ch) as (o0 & _ & _ & _ & _ & Dx & _). rewrite Dx in *. destruct (Fp x) as (s & Er). rewrite Er. cbn [obind app lift].
    destruct (String.eqb (ray_type (rs_ray st)) "faerie_fire"); [reflexivity|].
    destruct (sc_sfo sc) as [f|]; [|reflexivity]. cbn [bound obind bind app] in *.
    destruct (nth_error (rs_world st) k) as [o|]; [|reflexivity].
    pose proof (do_v o (fly (rs_ray st) (Fin x)) pt n f) as D.
    destruct (optic_do_intersect o (fly (rs_ray st) (Fin x)) pt n f) as [[r2 o']|e] eqn:Ed; [|rewrite D; reflexivity].
    destruct D as [(ls & -> & _)|(e & Re & _)]; [reflexivity|]. exfalso. cbn [fst bind] in *.
    destruct (BO _ eq_refl) as (_ & G2 & _). destruct (G2 Gf) as (_ & d' & Hd' & _). cbn [rs_ray] in Hd'.
    apply do_frame in Ed. destruct Ed as [(Ep & _) _]. destruct (ray_repr_fin r2 (at_t p d x) d') as (t & Et); [|exact Hd'|congruence].
    rewrite Ep. cbn. rewrite Hp, Hd, vscale_fv, vadd_fv. reflexivity.
Qed.
(** C66, finite runs: in scenes without gratings of optics built with valid parameters, with a finite max_distance, printing changes nothing:
    the result with print_trajectory=True, returned or raised, is that of the plain run.  Constructing the ray with printing never raises either. *)
Theorem C66_finite : forall fuel r m w maxi p d, ray_is r p d -> is_unit d -> ok_scene w -> grating_free w ->
  snd (run_v true fuel r (Fin m) w maxi) = run fuel r (Fin m) w maxi.
Proof.
  intros fuel r m w maxi p d Hr U Sc Gf.
  assert (L : forall k n st, steps (Fin m) maxi n (run_init r (Fin m) w) st -> snd (run_loop_v true k (Fin m) maxi st) = run_loop k (Fin m) maxi st).
  { induction k; intros n st S; cbn [run_loop_v run_loop]; destruct (run_cond maxi st) eqn:C; try reflexivity.
    assert (B : snd (run_body_v true (Fin m) st) = run_body (Fin m) st).
    { destruct (Rlt_dec m 0) as [Hm|Hm].
      - rewrite (no_steps_nonpos m maxi n r w st ltac:(lra) S) in S. inversion S; subst. exact (body_same m (run_init r (Fin m) w) m p d eq_refl Hr U Sc Gf).
      - destruct (steps_ok m maxi n r w st p d ltac:(lra) Hr U Sc Gf S) as (Sc' & Gf' & p' & d' & Hr' & U' & pts & rm & _ & _ & _ & Hrm & _).
        exact (body_same m st rm p' d' Hrm Hr' U' Sc' Gf'). }
    destruct (run_body_v true (Fin m) st) as [ls x]. cbn [snd] in B. subst x. destruct (run_body (Fin m) st) as [st'|e] eqn:Eb; [|reflexivity].
    cbn [obind bind]. specialize (IHk (Datatypes.S n) st' (steps_S _ _ _ _ _ _ S C Eb)). destruct (run_loop_v true k (Fin m) maxi st'). exact IHk. }
  specialize (L fuel 0%nat _ (steps_O _ _ _)). unfold run_v, run. cbn [say obind]. destruct (run_loop_v true fuel (Fin m) maxi (run_init r (Fin m) w)) as [ls x].
  cbn [snd] in L. rewrite <- L. destruct x as [st|e]; reflexivity.
Qed.
Print Assumptions C66_finite.
Theorem C66_construct : forall p v wl ord ty, v <> r3zero -> exists s,
  mk_ray_v true (fv p) (fv v) wl ord ty = ([Text s], Ok (mk_ray (fv p) (fv v) wl ord ty)) /\ repr6 "Ray" (fv p) (fv (dirn v)) = Ok s.
Proof.
  intros p v wl ord ty Hv. destruct (repr_fin "Ray" p (dirn v)) as (s & Es). exists s. split; [|exact Es]. unfold mk_ray_v, print_self, ray_repr.
  unfold mk_ray at 1 2. cbn [position direction]. rewrite unit_vector_fv by exact Hv. rewrite Es. reflexivity.
Qed.
Print Assumptions C66_construct.

(** C66, a limit: with max_distance = inf the plain run through empty space returns, while the same run with printing always raises OverflowError,
    from to_precision, which cannot take the logarithm of infinity. *)
Lemma inf_comp x y : xadd (Fin y) (xmul PInf (Fin x)) = XNaN \/ xadd (Fin y) (xmul PInf (Fin x)) = PInf \/ xadd (Fin y) (xmul PInf (Fin x)) = NInf.
Proof. cbn. unfold inf_times. destruct (Rlt_dec 0 x); [|destruct (Rlt_dec x 0)]; cbn; auto. Qed.
Lemma inf_nan x y : xadd (Fin y) (xmul PInf (Fin x)) = XNaN -> x = 0.
Proof. cbn. unfold inf_times. destruct (Rlt_dec 0 x); [|destruct (Rlt_dec x 0)]; cbn; intros H; try discriminate. lra. Qed.
Theorem C66_infinite_refuted : forall r p d, ray_is r p d -> is_unit d -> blocked r = false ->
  (exists x, run 1 r PInf [] None = Ok x) /\ snd (run_v true 1 r PInf [] None) = Err OverflowError.
Proof.
  intros r p d [Hp Hd] U Hb.
  assert (C : run_cond None (run_init r PInf ([] : list (optic xr))) = true) by (unfold run_cond; cbn; rewrite Hb; reflexivity).
  split.
  - unfold run. cbn [run_loop]. rewrite C. unfold run_body. cbn [run_init rs_ray rs_remaining rs_world scan bind sc_hit negb].
    unfold run_cond. cbn [rs_remaining]. change (nsub PInf PInf) with XNaN. eexists. reflexivity.
  - assert (X : ray_repr (fly r PInf) = Err OverflowError).
    { unfold ray_repr, repr6, fly. cbn [position direction]. rewrite Hp, Hd. unfold vadd, vscale, fv. cbn [vx vy vz].
      change (@nadd xr Num_xr) with xadd. change (@nmul xr Num_xr) with xmul.
      pose proof (prec_special 5) as (Pn & Pp & Pm).
      destruct (inf_comp (cx d) (cx p)) as [E1|[E1|E1]]; rewrite E1; rewrite ?Pp, ?Pm; try reflexivity.
      destruct (inf_comp (cy d) (cy p)) as [E2|[E2|E2]]; rewrite E2; rewrite ?Pn, ?Pp, ?Pm; try reflexivity.
      destruct (inf_comp (cz d) (cz p)) as [E3|[E3|E3]]; rewrite E3; rewrite ?Pn, ?Pp, ?Pm; try reflexivity.
      apply inf_nan in E1. apply inf_nan in E2. apply inf_nan in E3. unfold is_unit, r3dot in U. rewrite E1, E2, E3 in U. lra. }
    unfold run_v. cbn [say obind run_loop_v]. rewrite C. unfold run_body_v. cbn [run_init rs_ray rs_remaining rs_world scan lift obind sc_hit negb say app].
    unfold fly_v, print_self. rewrite X. reflexivity.
Qed.
Print Assumptions C66_infinite_refuted.
(** the hypotheses of C66_finite on a ray bounced once by a mirror *)
Example C66_hyp : ok_scene [OMirror (mirror_at 5)] /\ grating_free [OMirror (mirror_at 5)] /\ ray_is z_ray (at_z 0) e_z /\ is_unit e_z /\
  snd (run_v true 3 z_ray (Fin 10) [OMirror (mirror_at 5)] (Some 1%Z)) = Ok (bounced, [OMirror (mirror_at 5)]).
Proof.
  assert (A : ok_scene [OMirror (mirror_at 5)]) by (intros o [<-|[]]; right; do 2 eexists; apply mirror_at_valid).
  assert (B : grating_free [OMirror (mirror_at 5)]) by (intros o [<-|[]]; reflexivity).
  assert (C : ray_is z_ray (at_z 0) e_z) by apply z_ray_is. assert (D : is_unit e_z) by apply e_z_unit.
  do 4 (split; [assumption|]). rewrite (C66_finite 3 z_ray 10 _ _ _ _ C D A B). apply z_run. lra.
Qed.

Section Turn.
Local Open Scope R_scope.
Lemma turned_inj Tg n t t' : is_unit Tg -> is_unit n -> orth n Tg -> - PI < t <= PI -> - PI < t' <= PI -> turned Tg n t = turned Tg n t' -> t = t'.
Proof.
  intros HT Hn HO B B' E. assert (C : cos t = cos t') by (rewrite <- !(turned_n Tg n) by assumption; rewrite E; reflexivity).
  assert (S : sin t = sin t') by (rewrite <- !(turned_cross Tg n) by assumption; rewrite E; reflexivity).
  set (x := (t - t') / 2). assert (X : - PI < x < PI) by (unfold x; lra).
  assert (Z : sin x * sin x = 0).
  { assert (D : cos (t - t') = 1) by (rewrite cos_minus, C, S; pose proof (sin2_cos2 t') as Q; unfold Rsqr in Q; lra).
    replace (t - t') with (2 * x) in D by (unfold x; lra). rewrite cos_2a_sin in D. lra. }
  assert (Z0 : sin x = 0) by nra. destruct (Rtotal_order x 0) as [L|[L|L]].
  - assert (0 < sin (- x)) by (apply sin_gt_0; lra). rewrite sin_neg in *. lra.
  - unfold x in L. lra.
  - assert (0 < sin x) by (apply sin_gt_0; lra). lra.
Qed.
(** C66: the angle printed for a grating.  For light in the dispersion plane from the side for which the grating equation holds (C30), the outgoing direction is
    the reversed incident one turned by minus the printed angle about the groove direction; the line also tells the wavelength. *)
Theorem C66_turn : forall r g d n Tg G m lam pt s, grating_is g Tg G -> is_unit Tg -> is_unit n -> orth n Tg ->
  direction r = fv d -> is_unit d -> orth d Tg -> order r = Fin m -> wavelength r = Fin lam -> m <> 0 -> d ∙ n < 0 ->
  d ∙ (n × Tg)%r3 <= 0 -> -1 <= gml G m lam + d ∙ (n × Tg)%r3 <= 1 ->
  exists phi a o, - (PI / 2) < phi < PI / 2 /\ (- d)%r3 = turned Tg n phi /\ o = turned Tg n (phi - a) /\ Rabs a < 2 * PI /\
    do_intersect_v true (OGrating g) r pt (Some (fv n)) s = ([Turned (Fin lam) (Fin a)], Ok (set_direction r (fv o), OGrating g)).
Proof.
  intros r g d n Tg G m lam pt s HG HT Hn HO Hd Ud Od Hm Hl Nm Fr Hs Hex.
  destruct (grating_in_plane r g d n Tg G m lam HG HT Hn HO Hd Ud Od Hm Hl Nm Fr) as (t & Bt & Pt & E).
  pose proof PI_RGT_0 as HP.
  assert (St : sin t = d ∙ (n × Tg)%r3). { rewrite <- (turned_cross Tg n t HT Hn HO), <- Pt. r3_ring. }
  assert (Lt : t <= 0). { apply Rnot_lt_le. intros K. assert (0 < sin t) by (apply sin_gt_0; lra). lra. }
  rewrite (Rabs_left1 t Lt) in E. rewrite sin_neg, St in E.
  replace (gml G m lam - - (d ∙ (n × Tg)%r3)) with (gml G m lam + d ∙ (n × Tg)%r3) in E by ring. specialize (E Hex).
  set (K := gml G m lam + d ∙ (n × Tg)%r3) in *.
  assert (TT : grating_turn r (fv n) g = Ok (Fin (t + asin K))).
  { destruct HG as (LT & LG). assert (NZT : Tg <> r3zero) by apply unit_nonzero, HT.
    unfold grating_turn. rewrite LT, LG, Hd, Hm, Hl. cbn [need bind].
    rewrite !(unit_vector_unit n Hn), !(unit_vector_unit d Ud). rewrite !project_fv by exact NZT. rewrite !(dirn_of_unit Tg HT).
    rewrite (perp_fix Tg n HO), (perp_fix Tg d Od), (unit_vector_unit n Hn), (unit_vector_unit d Ud), vopp_fv.
    destruct (angle_signed_spec (- d)%r3 n Tg) as (t' & Et & Bt' & _ & Pt'); auto using unit_nonzero, opp_nonzero.
    { unfold orth in *. rewrite dot_opp_l, Od. ring. }
    rewrite (dirn_of_unit n Hn), (dirn_of_unit (- d)%r3 (unit_opp d Ud)) in Pt'.
    assert (t' = t) as -> by (apply (turned_inj Tg n); try assumption; try lra; rewrite <- Pt; exact Pt').
    rewrite Et, (nofZ_fin 0), nlt_fin, (nofZ_fin (-1)), (nofZ_fin 1).
    assert (SG : (if Rltb t 0 then Fin (-1) else Fin 1) = Fin (if Rltb t 0 then -1 else 1)) by (destruct (Rltb t 0); reflexivity). rewrite SG.
    assert (AB : (if Rltb t 0 then -1 else 1) * t = - t) by (destruct (Rltb_spec t 0); lra).
    rewrite nofZ_fin, ndiv_fin by (apply not_0_IZR; lia). rewrite !nmul_fin, AB, nsin_fin, nsub_fin.
    replace (G / IZR (10 ^ 6) * m * lam - sin (- t)) with K by (rewrite sin_neg, St; unfold K, gml; replace (IZR (10 ^ 6)) with (10 ^ 6) by (cbn; ring); ring).
    rewrite narcsin_fin by exact Hex. rewrite nadd_fin. reflexivity. }
  exists t, (t + asin K), (turned Tg n (- (t + - t + asin K))). split; [exact Bt|]. split; [exact Pt|]. split; [f_equal; ring|]. split.
  { pose proof (asin_bound K). apply Rabs_def1; lra. }
  unfold do_intersect_v. cbn [optic_do_intersect]. rewrite E. cbn [bind lift obind fst app interaction_print]. rewrite Hm, (nofZ_fin 0), neqb_fin, (Reqb_false m 0) by exact Nm.
  cbn [need bind]. rewrite TT, Hl. reflexivity.
Qed.
End Turn.
Print Assumptions C66_turn.
