(** Ray.run over the extended reals, scenes of optics built by their constructors: unit directions, path length,
    positions on the surfaces. *)
From Coq Require Import Reals ZArith Lra Lia Psatz String List Bool.
From Verif Require Import PyErr Num Vec Shapes Csg Optics Spec XReal RVec VecProofs AngleProofs FlatProofs SphereProofs CylProofs ShapeExtra
  TreeProofs SolidProofs CsgProofs RayProofs RunGen RunXr OpticHits.
Import ListNotations.
Local Open Scope R_scope.

(** a finite distance from a finite point comes from a finite point *)
Lemma finite_distance p v x : distance_between (fv p) v = Fin x -> exists q, v = fv q /\ x = dist3 p q.
Proof.
  intros H. assert (F : exists q, v = fv q).
  { destruct v as [a b c], p as [px py pz]. unfold distance_between, norm, dot, vsub, fv in H. cbn [vx vy vz cx cy cz] in H.
    destruct a as [a| | |], b as [b| | |], c as [c| | |]; cbn in H; unfold xsub in H; cbn in H; try discriminate H. exists (mk3 a b c). reflexivity. }
  destruct F as [q ->]. exists q. rewrite distance_fv in H. injection H as <-. auto.
Qed.
Lemma fly_to p d t : is_unit d -> 0 < t -> dist3 p (at_t p d t) = t.
Proof.
  intros Hd Ht. assert (E : dist3 p (at_t p d t) * dist3 p (at_t p d t) = t * t).
  { rewrite dist3_sq. replace (p - at_t p d t)%r3 with ((- t) * d)%r3 by (unfold at_t; r3_ring). autorewrite with dotr. unfold is_unit in Hd. rewrite Hd. ring. }
  assert (0 <= dist3 p (at_t p d t)) by apply len_nonneg. nra.
Qed.

Definition is_grating (o : optic xr) : bool := match o with OGrating _ => true | _ => false end.

(** interactions keep the direction a unit vector *)
Lemma valid_do o S G r d q u s r' o' : valid_optic o S G -> is_grating o = false -> S q -> is_unit u -> direction r = fv d -> is_unit d ->
  (position r = fv q \/ exists a b, G a b) -> optic_do_intersect o r (fv q) (Some (fv u)) s = Ok (r', o') ->
  exists d', direction r' = fv d' /\ is_unit d'.
Proof.
  intros V Gr Sq Hu Hd Ud Hp H.
  assert (Snell : forall n a b r', is_unit n -> 0 < a -> 0 < b -> refract_snells_law r (fv n) (Fin a) (Fin b) = Ok r' -> exists d', direction r' = fv d' /\ is_unit d').
  { intros n a b r1 Hn Ha Hb E. destruct (snell_fv r d n a b Hd Ud Hn Ha Hb) as [A B].
    assert (Dec : total_reflection a b n d \/ ~ total_reflection a b n d).
    { unfold total_reflection. destruct (Rgt_dec a b), (Rgt_dec (a * sine n d) b); tauto. }
    destruct Dec as [Tr|Tr].
    - rewrite (A Tr) in E. injection E as <-. exists (refl n d). split; [reflexivity|apply refl_unit; assumption].
    - destruct (snell_spec r d n a b Hd Ud Hn Ha Hb Tr) as (t & E' & U & _). rewrite E in E'. injection E' as ->. exists t. auto. }
  assert (Refl : forall n, n <> r3zero -> exists d', direction (reflect_specular r (fv n)) = fv d' /\ is_unit d').
  { intros n Hn. destruct (reflect_spec r d n Hd (unit_nonzero _ Ud) Hn) as [(x & A & B & _) _]. eauto. }
  assert (Mir : forall m dm r', mi_dmd_normal m = fv dm -> dm <> r3zero -> mirror_do_intersect m r (Some (fv u)) = Ok r' -> exists d', direction r' = fv d' /\ is_unit d').
  { intros m dm r1 Em Hm E. unfold mirror_do_intersect in E. destruct (_ =? "normal")%string; [|destruct (_ =? "dmd")%string].
    - cbn in E. injection E as <-. apply Refl, unit_nonzero, Hu.
    - injection E as <-. rewrite Em. apply Refl, Hm.
    - injection E as <-. eauto. }
  assert (MkM : forall pos shp n D w h f tg ty dm m, dm <> r3zero -> mk_mirror pos shp n D w h f tg ty (Some (fv dm)) = Ok m -> mi_dmd_normal m = fv (dirn dm)).
  { intros pos shp n D w h f tg ty dm m Hm E. unfold mk_mirror in E. cbn [unit_vector_o] in E. rewrite unit_vector_fv in E by exact Hm. cbn [bind] in E.
    repeat match goal with
    | H : (if ?b then _ else _) = Ok _ |- _ => destruct b
    | H : bind _ _ = Ok _ |- _ => let a := fresh "a" in let E := fresh "E" in apply bind_ok in H; destruct H as (a & E & H); cbn beta in H
    end; try discriminate; injection E as <-; reflexivity. }
  destruct V as [c n D w hh f tg ty dmd m Hn Hdm E|c n t D w hh f ty dmd m Hn Htn Hdm E|c n D w hh f tg ty dmd m Hn Hdm Hf0 E|
    c n D w hh f tg ty dmd m Hdm HD E|c n D f ty ix l Hn Hix Hty E|c n D f ty ix l Hty HD Hix E|c n t w hh de log Hn Htn E|c n t w hh GG g Hn Htn E|e t beh ix HT Pos Hix].
  1,2,3,4: cbn [optic_do_intersect] in H; apply bind_ok in H; destruct H as (r1 & H & X); injection X as <- <-; eapply Mir; [eapply MkM; [|exact E]; assumption|apply unit_nonzero, dirn_unit, Hdm|exact H].
  - cbn [optic_do_intersect] in H; apply bind_ok in H; destruct H as (r1 & H & X); injection X as <- <-.
    destruct Hp as [Hp|(a & b & [])]. destruct Sq as [Sq _].
    assert (L : le_position l = fv c /\ le_normal l = Some (fv (dirn n)) /\ le_f l = fo f /\ le_type l = ty /\ le_index l = Fin ix).
    { unfold mk_lens in E. change (String.eqb "spherical_biconvex" "spherical_biconvex") with true in E. cbn iota in E. apply bind_ok in E. destruct E as (ci & _ & E).
      injection E as <-. cbn. rewrite unit_vector_fv by exact Hn. auto. }
    destruct L as (L1 & L2 & L3 & L4 & L5). pose proof (dirn_unit n Hn) as Un.
    assert (TL : real_type ty \/ exists x, thin_lens l c (dirn n) x /\ x <> 0).
    { destruct Hty as [Hty|(x & -> & Hx)]; [left; exact Hty|right]. exists x. split; [|exact Hx]. split; [exact L1|]. split; [exact L2|]. exact L3. }
    unfold lens_do_intersect in H. rewrite L4 in H.
    destruct (String.eqb_spec ty "ideal") as [K|K1]; [|destruct (String.eqb_spec ty "ideal_collimate") as [K|K2]; [|destruct (String.eqb_spec ty "ideal_focus") as [K|K3]]].
    + destruct TL as [(K' & _)|(x & Tl & Hx)]; [congruence|]. destruct (thin_lens_side r l c (dirn n) x d q Tl Un Hx Hd Ud Hp Sq) as (o & Eo & Uo & _).
      rewrite Eo in H. injection H as <-. exists o. auto.
    + rewrite (collimate_spec r l (dirn n) d L2 Un Hd) in H. injection H as <-. exists (forward (dirn n) d). split; [reflexivity|apply forward_unit, Un].
    + destruct TL as [(_ & _ & K')|(x & Tl & Hx)]; [congruence|]. destruct (focus_spec r l c (dirn n) x d q Tl Un Hx Hd Hp Sq) as [Nz Eo].
      rewrite Eo in H. injection H as <-. eexists. split; [reflexivity|apply dirn_unit, Nz].
    + cbn [need bind] in H. rewrite L5, nofZ_fin in H. destruct (sfo_truthy s).
      * eapply Snell; [exact Hu| | |exact H]; lra.
      * rewrite vopp_fv in H. eapply Snell; [apply unit_opp, Hu| | |exact H]; lra.
  - cbn [optic_do_intersect] in H; apply bind_ok in H; destruct H as (r1 & H & X); injection X as <- <-.
    assert (L : le_type l = ty /\ le_index l = Fin ix).
    { unfold mk_lens in E. change (String.eqb "spherical" "spherical_biconvex") with false in E. change (String.eqb "spherical" "spherical") with true in E.
      cbn iota in E. apply bind_ok in E. destruct E as (ci & _ & E). injection E as <-. auto. }
    destruct L as [L4 L5]. destruct Hty as (K1 & K2 & K3).
    unfold lens_do_intersect in H. rewrite L4 in H. apply String.eqb_neq in K1, K2, K3. rewrite K1, K2, K3 in H.
    cbn [need bind] in H. rewrite L5, nofZ_fin in H. destruct (sfo_truthy s).
    * eapply Snell; [exact Hu| | |exact H]; lra.
    * rewrite vopp_fv in H. eapply Snell; [apply unit_opp, Hu| | |exact H]; lra.
  - cbn [with_log optic_do_intersect] in H. injection H as <- <-. exists d. auto.
  - discriminate Gr.
  - cbn [optic_do_intersect] in H; apply bind_ok in H; destruct H as (r1 & H & X); injection X as <- <-.
    unfold compound_do_intersect in H. cbn [co_surface_behavior co_index co_tree] in H. destruct (_ =? "reflect")%string; [|destruct (_ =? "refract")%string; [|discriminate]].
    + cbn in H. injection H as <-. apply Refl, unit_nonzero, Hu.
    + unfold INDEX_OF_THE_WORLD in H. rewrite nofZ_fin in H. rewrite Hd, dec_fin, vscale_fv, vadd_fv in H by lia. apply bind_ok in H. destruct H as (oi & Eoi & H). destruct oi; cbn [need bind] in H;
      (eapply Snell; [exact Hu| | |exact H]; lra).
Qed.

(** the optics of a scene: built by constructors, or skipped by run *)
Definition ok_optic (o : optic xr) : Prop := skipped o = true \/ exists S G, valid_optic o S G.
Definition ok_scene (w : list (optic xr)) : Prop := forall o, In o w -> ok_optic o.
Definition grating_free (w : list (optic xr)) : Prop := forall o, In o w -> is_grating o = false.
Lemma valid_do_optic o S G r pt n s r' o' : valid_optic o S G -> optic_do_intersect o r pt n s = Ok (r', o') -> valid_optic o' S G /\ is_grating o' = is_grating o.
Proof.
  intros V H. apply do_turns in H. destruct V.
  7: { cbn [with_log] in H. destruct H as [_ ->]. split; [|reflexivity]. unfold record_hit. cbn [de_position de_normal de_tangent de_shape de_surfaces de_hit_data].
       eapply (VO_detector c n0 t w h d); eassumption. }
  all: destruct H as [_ ->]; (split; [econstructor; eassumption|reflexivity]).
Qed.
Lemma in_set_nth {A} (l : list A) k a x : In x (set_nth l k a) -> x = a \/ In x l.
Proof.
  revert k. induction l as [|b l IH]; intros [|k]; cbn; auto.
  - intros [->|H]; auto.
  - intros [->|H]; auto. destruct (IH _ H); auto.
Qed.

(** one iteration *)
Lemma body_ok m st st' rm p d : rs_remaining st = Fin rm -> ray_is (rs_ray st) p d -> is_unit d -> ok_scene (rs_world st) ->
  run_body (Fin m) st = Ok st' ->
  ok_scene (rs_world st') /\ (grating_free (rs_world st) -> grating_free (rs_world st') /\ exists d', direction (rs_ray st') = fv d' /\ is_unit d') /\
  ((rs_remaining st' = Fin (rm - m) /\ position (rs_ray st') = fv (at_t p d rm) /\ direction (rs_ray st') = fv d /\
    point_history (rs_ray st') = point_history (rs_ray st) ++ [fv (at_t p d rm)] /\ rs_count st' = rs_count st /\ blocked (rs_ray st') = blocked (rs_ray st)) \/
   (exists k o S G q u x, chosen (rs_ray st) rm (rs_world st) k x (fv q) (Some (fv u)) /\ nth_error (rs_world st) k = Some o /\
     valid_optic o S G /\ S q /\ is_unit u /\ x = dist3 p q /\ 1e-12 < x <= rm /\
     rs_remaining st' = Fin (rm - x) /\ position (rs_ray st') = fv (at_t p d x) /\ (q = at_t p d x \/ G p d) /\
     point_history (rs_ray st') = point_history (rs_ray st) ++ [fv (at_t p d x)] /\ rs_count st' = (rs_count st + 1)%Z)).
Proof.
  intros Hrm Hr Hd Sc B. destruct Hr as [Hp Hdir].
  assert (Fly : forall x, fly (rs_ray st) (Fin x) = mkRay (fv (at_t p d x)) (fv d) (wavelength (rs_ray st)) (order (rs_ray st))
     (point_history (rs_ray st) ++ [fv (at_t p d x)]) (blocked (rs_ray st)) (ray_type (rs_ray st))).
  { intros x. unfold fly. rewrite Hp, Hdir, vscale_fv, vadd_fv. reflexivity. }
  destruct (body_advance _ _ _ _ Hrm B) as [No R1 R2 R3 R4|k x pt n Ch R3 R4 Out].
  - rewrite R2. split; [exact Sc|]. rewrite Fly in R1. rewrite R1. cbn. split; [intros Gf; split; [exact Gf|eauto]|]. left. auto 10.
  - pose proof (chosen_dist _ _ _ _ _ _ _ Ch) as Lx.
    destruct (proj1 Ch) as (o & En & (Sk & sf & Et & Dx & _)). pose proof Dx as Dx0. rewrite Hp in Dx. destruct (finite_distance _ _ _ Dx) as (q & -> & Ex).
    assert (In o (rs_world st)) as Io by (eapply nth_error_In; eassumption).
    destruct (Sc o Io) as [Bad|(S & G & V)]; [congruence|].
    destruct (valid_hit o S G (rs_ray st) p d _ V (conj Hp Hdir) Hd Et eq_refl q eq_refl) as (Sq & (u & Eu & Uu) & t & Eq & Lt). cbn in Eu. subst n.
    assert (Qx : q = at_t p d x \/ G p d).
    { destruct Lt as [Lt|Lt]; [left|right; exact Lt]. rewrite Ex, Eq, fly_to by (try assumption; lra). reflexivity. }
    assert (Hit : position (rs_ray st') = fv (at_t p d x) /\ point_history (rs_ray st') = point_history (rs_ray st) ++ [fv (at_t p d x)] /\ ok_scene (rs_world st') /\
      (grating_free (rs_world st) -> grating_free (rs_world st') /\ exists d', direction (rs_ray st') = fv d' /\ is_unit d')).
    { destruct Out as [(_ & Er & Ew)|(_ & o1 & o' & f & En1 & Ed & Ew & _)].
      - rewrite Er, Ew, Fly. cbn. split; [reflexivity|]. split; [reflexivity|]. split; [exact Sc|]. intros Gf. split; [exact Gf|eauto].
      - rewrite En in En1. injection En1 as <-. destruct (do_frame _ _ _ _ _ _ _ Ed) as [(F1 & F2 & F3 & F4 & F5) _]. rewrite Fly in F1, F4. cbn in F1, F4.
        split; [exact F1|]. split; [exact F4|]. destruct (valid_do_optic _ _ _ _ _ _ _ _ _ V Ed) as [V' Gr'].
        split.
        + intros a Ha. rewrite Ew in Ha. apply in_set_nth in Ha. destruct Ha as [->|Ha]; [right; eauto|apply Sc, Ha].
        + intros Gf. split.
          * intros a Ha. rewrite Ew in Ha. apply in_set_nth in Ha. destruct Ha as [->|Ha]; [rewrite Gr'; apply Gf, Io|apply Gf, Ha].
          * eapply (valid_do o S G (fly (rs_ray st) (Fin x)) d q u f _ o' V (Gf o Io) Sq Uu).
            -- rewrite Fly. reflexivity.
            -- exact Hd.
            -- rewrite Fly. cbn. destruct Qx as [->|Qx]; eauto.
            -- exact Ed. }
    destruct Hit as (H1 & H2 & H3 & H4). split; [exact H3|]. split; [exact H4|]. right. exists k, o, S, G, q, u, x. auto 15.
Qed.

(** length of the polyline starting at p *)
Fixpoint path_length (p : R3) (l : list R3) : R := match l with [] => 0 | q :: l => dist3 p q + path_length q l end.
Fixpoint last_point (p : R3) (l : list R3) : R3 := match l with [] => p | q :: l => last_point q l end.
Lemma path_snoc l : forall p q, path_length p (l ++ [q]) = path_length p l + dist3 (last_point p l) q.
Proof. induction l as [|a l IH]; intros p q; cbn; [ring|]. rewrite IH. ring. Qed.
Lemma last_snoc l : forall p q, last_point p (l ++ [q]) = q.
Proof. induction l as [|a l IH]; intros p q; cbn; auto. Qed.
Lemma path_nonneg l : forall p, 0 <= path_length p l.
Proof. induction l as [|a l IH]; intros p; cbn; [lra|]. pose proof (IH a). assert (0 <= dist3 p a) by apply len_nonneg. lra. Qed.

Definition unit_state (st : @run_st xr) : Prop := exists p d, ray_is (rs_ray st) p d /\ is_unit d.
(** the invariant of the loop *)
Lemma steps_ok m maxi n r w st p0 d0 : 0 <= m -> ray_is r p0 d0 -> is_unit d0 -> ok_scene w -> grating_free w ->
  steps (Fin m) maxi n (run_init r (Fin m) w) st ->
  ok_scene (rs_world st) /\ grating_free (rs_world st) /\ exists p d, ray_is (rs_ray st) p d /\ is_unit d /\
  exists pts rm, point_history (rs_ray st) = point_history r ++ map fv pts /\ length pts = n /\ p = last_point p0 pts /\ rs_remaining st = Fin rm /\
   ((0 <= rm /\ path_length p0 pts = m - rm /\ rs_count st = Z.of_nat n) \/ (rm <= 0 /\ path_length p0 pts = m)).
Proof.
  intros Hm Hr Hd Sc Gf. remember (run_init r (Fin m) w) as st0 eqn:E0. induction 1 as [st|n st st1 st2 S IH C B]; subst.
  - split; [exact Sc|]. split; [exact Gf|]. exists p0, d0. split; [exact Hr|]. split; [exact Hd|]. exists [], m. cbn. rewrite app_nil_r. repeat split. left. repeat split; lra.
  - destruct (IH eq_refl) as (Sc1 & Gf1 & p & d & Hr1 & Hd1 & pts & rm & Hh & Ln & Lp & Hrm & Inv). pose proof (cond_pos _ _ _ Hrm C) as P.
    destruct Inv as [(_ & Pl & Cn)|(X & _)]; [|lra].
    destruct (body_ok m st1 st2 rm p d Hrm Hr1 Hd1 Sc1 B) as (Sc2 & G2 & Cases). destruct (G2 Gf1) as (Gf2 & d' & Hd' & Ud').
    split; [exact Sc2|]. split; [exact Gf2|].
    destruct Cases as [(Rm & Ps & _ & Hs & _)|(k & o & SS & G & q & u & x & Ch & En & V & Sq & Uu & Ex & Lx & Rm & Ps & Qx & Hs & Ct)].
    + exists (at_t p d rm), d'. split; [split; assumption|]. split; [exact Ud'|]. exists (pts ++ [at_t p d rm]), (rm - m).
      rewrite Hs, Hh, map_app, <- app_assoc, app_length, last_snoc, path_snoc, <- Lp, fly_to by assumption. cbn [map length]. repeat split; auto; [lia|]. right.
      pose proof (path_nonneg pts p0). split; lra.
    + exists (at_t p d x), d'. split; [split; assumption|]. split; [exact Ud'|]. exists (pts ++ [at_t p d x]), (rm - x).
      rewrite Hs, Hh, map_app, <- app_assoc, app_length, last_snoc, path_snoc, <- Lp, fly_to by (try assumption; lra). cbn [map length]. repeat split; auto; [lia|]. left.
      split; [lra|]. split; [lra|]. rewrite Ct, Cn. lia.
Qed.
(** C32 *)
Lemma run_unit m maxi fuel r w r' w' p0 d0 : 0 <= m -> ray_is r p0 d0 -> is_unit d0 -> ok_scene w -> grating_free w ->
  run fuel r (Fin m) w maxi = Ok (r', w') -> ok_scene w' /\ grating_free w' /\ exists p d, ray_is r' p d /\ is_unit d.
Proof.
  intros Hm Hr Hd Sc Gf H. unfold run in H. apply bind_ok in H. destruct H as (st & L & H). injection H as <- <-.
  apply loop_steps in L. destruct L as (n & _ & S & _). destruct (steps_ok _ _ _ _ _ _ _ _ Hm Hr Hd Sc Gf S) as (A & B & p & d & C & D & _). eauto 10.
Qed.
(** C34 *)
Lemma run_path m maxi fuel r w r' w' p0 d0 : 0 <= m -> ray_is r p0 d0 -> is_unit d0 -> ok_scene w -> grating_free w ->
  run fuel r (Fin m) w maxi = Ok (r', w') -> exists pts, point_history r' = point_history r ++ map fv pts /\
   path_length p0 pts <= m /\
   (blocked r' = false -> (forall N, maxi = Some N -> (Z.of_nat (length pts) < N)%Z) -> path_length p0 pts = m).
Proof.
  intros Hm Hr Hd Sc Gf H. unfold run in H. apply bind_ok in H. destruct H as (st & L & H). injection H as <- <-.
  apply loop_steps in L. destruct L as (n & _ & S & C). destruct (steps_ok _ _ _ _ _ _ _ _ Hm Hr Hd Sc Gf S) as (_ & _ & p & d & _ & _ & pts & rm & Hh & Ln & _ & Hrm & Inv).
  exists pts. split; [exact Hh|]. destruct Inv as [(P & Q & Ct)|(P & Q)].
  - split; [lra|]. intros Bl Lim. unfold run_cond in C. rewrite Hrm, Bl, nofZ_fin, ngt_fin in C. cbn [negb] in C. rewrite andb_true_r in C.
    apply andb_false_iff in C. destruct C as [C|C].
    + destruct (Rltb_spec 0 rm); [discriminate|]. lra.
    + destruct maxi as [N|]; [|discriminate]. apply Z.ltb_ge in C. specialize (Lim N eq_refl). lia.
  - split; [lra|]. intros; exact Q.
Qed.
