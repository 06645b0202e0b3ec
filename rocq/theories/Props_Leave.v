(** Optics that are out of the way of a ray can be left out of the scene. *)
From Coq Require Import Reals ZArith Lra Lia Psatz String List Bool Permutation.
From Verif Require Import PyErr Num Vec Shapes Csg Optics Spec XReal RVec VecProofs AngleProofs FlatProofs SphereProofs CylProofs ShapeExtra
  TreeProofs SolidProofs CsgProofs RayProofs GratingProofs RunGen NoFuel RunXr OpticHits StateXr OrderProofs FlatOptic SceneProofs Props_Ray Props_Loop Props_Run Continue.
From Verif Require FloatVec.
Import ListNotations.
Local Open Scope R_scope.

(** o is queried without an exception, and wherever it is hit within reach, some optic of w is hit nearer *)
Definition out_of_the_way (r : ray xr) (rm : R) (w : list (optic xr)) (o : optic xr) : Prop :=
  test_ok r o /\ forall x pt n, reports r rm o x pt n -> exists o' x' pt' n', In o' w /\ reports r rm o' x' pt' n' /\ x' < x.

Lemma nth_ins_lt {A} (u v : list A) (o : A) k : (k < length u)%nat -> nth_error (u ++ o :: v) k = nth_error (u ++ v) k.
Proof. intros L. rewrite !nth_error_app1 by exact L. reflexivity. Qed.
Lemma nth_ins_at {A} (u v : list A) (o : A) : nth_error (u ++ o :: v) (length u) = Some o.
Proof. rewrite nth_error_app2, Nat.sub_diag by lia. reflexivity. Qed.
Lemma nth_ins_gt {A} (u v : list A) (o : A) k : (length u <= k)%nat -> nth_error (u ++ o :: v) (S k) = nth_error (u ++ v) k.
Proof. intros L. rewrite !nth_error_app2 by lia. replace (S k - length u)%nat with (S (k - length u)) by lia. reflexivity. Qed.
Definition shift (i k : nat) : nat := if (k <? i)%nat then k else S k.
Lemma nth_shift {A} (u v : list A) (o : A) k : nth_error (u ++ o :: v) (shift (length u) k) = nth_error (u ++ v) k.
Proof. unfold shift. destruct (Nat.ltb_spec k (length u)); [now apply nth_ins_lt|now apply nth_ins_gt]. Qed.
Lemma unshift i k : k <> i -> exists j, k = shift i j.
Proof. intros H. unfold shift. destruct (Nat.ltb_spec k i) as [L|L]; [exists k; apply Nat.ltb_lt in L; now rewrite L|]. exists (k - 1)%nat. destruct (Nat.ltb_spec (k - 1) i); lia. Qed.
Lemma shift_lt i a b : (a < b)%nat <-> (shift i a < shift i b)%nat.
Proof. unfold shift. destruct (Nat.ltb_spec a i), (Nat.ltb_spec b i); lia. Qed.
Lemma set_shift {A} (u v : list A) (o : A) k b : exists u' v', length u' = length u /\ set_nth (u ++ v) k b = u' ++ v' /\ set_nth (u ++ o :: v) (shift (length u) k) b = u' ++ o :: v' /\
  (forall f : A -> bool, (forall c, nth_error (u ++ v) k = Some c -> f c = f b) -> map f v' = map f v).
Proof.
  revert k. induction u as [|a u IH]; intros k.
  - exists [], (set_nth v k b). cbn [length app shift]. replace (shift 0 k) with (S k) by reflexivity. split; [reflexivity|]. split; [reflexivity|]. split; [reflexivity|].
    intros f H. revert k H. induction v as [|c v IHv]; intros [|k] H; cbn in *; try reflexivity; [now rewrite (H c eq_refl)|f_equal; now apply IHv].
  - destruct k as [|k]; cbn [app length].
    + exists (b :: u), v. cbn. repeat split; reflexivity.
    + destruct (IH k) as (u' & v' & L & E1 & E2 & F). exists (a :: u'), v'. assert (Sh : shift (S (length u)) (S k) = S (shift (length u) k)) by (unfold shift; destruct (Nat.ltb_spec k (length u)), (Nat.ltb_spec (S k) (S (length u))); lia).
      rewrite Sh. cbn [set_nth app length]. rewrite E1, E2, L. repeat split; auto.
Qed.
Lemma last_tested_of (v : list (optic xr)) : (exists b, In b v /\ skipped b = false) -> exists a b c, v = a ++ b :: c /\ skipped b = false /\ forall x, In x c -> skipped x = true.
Proof.
  induction v as [|o v IH] using rev_ind; intros (b & I & Sb); [destruct I|]. destruct (skipped o) eqn:So.
  - apply in_app_or in I. destruct I as [I|[->|[]]]; [|congruence]. destruct (IH (ex_intro _ b (conj I Sb))) as (a & b' & c & -> & S' & C). exists a, b', (c ++ [o]). rewrite <- app_assoc. cbn.
    split; [reflexivity|]. split; [exact S'|]. intros x Ix. apply in_app_or in Ix. destruct Ix as [Ix|[<-|[]]]; auto.
  - exists v, o, []. split; [reflexivity|]. split; [exact So|]. intros x [].
Qed.
Lemma chosen_once r rm l k x pt n k' x' pt' n' : chosen r rm l k x pt n -> chosen r rm l k' x' pt' n' -> k = k' /\ x = x' /\ pt = pt' /\ n = n'.
Proof.
  intros [(o & En & R) M] [(o' & En' & R') M']. destruct (M _ _ _ _ _ En' R') as [L1 S1], (M' _ _ _ _ _ En R) as [L2 S2].
  assert (k = k') as <- by (destruct (Nat.lt_trichotomy k k') as [K|[K|K]]; [specialize (S2 K); lra|exact K|specialize (S1 K); lra]).
  rewrite En in En'. injection En' as <-. destruct (reports_det _ _ _ _ _ _ _ _ _ R R') as (E1 & E2 & E3). auto.
Qed.
(** the choice in the larger scene *)
Lemma chosen_ins r rm u v o k x pt n : out_of_the_way r rm (u ++ v) o -> chosen r rm (u ++ o :: v) k x pt n -> exists j, k = shift (length u) j /\ chosen r rm (u ++ v) j x pt n.
Proof.
  intros [_ Ow] [(b & En & R) M]. destruct (Nat.eq_dec k (length u)) as [->|Nk].
  - rewrite nth_ins_at in En. injection En as <-. destruct (Ow _ _ _ R) as (o' & x' & pt' & n' & I & R' & L). apply In_nth_error in I. destruct I as [j Hj]. rewrite <- (nth_shift u v o) in Hj.
    destruct (M _ _ _ _ _ Hj R'). lra.
  - destruct (unshift _ _ Nk) as (j & ->). exists j. split; [reflexivity|]. rewrite nth_shift in En. split; [eauto|]. intros i o' d' pt' n' Hi R'. rewrite <- (nth_shift u v o) in Hi.
    destruct (M _ _ _ _ _ Hi R') as [L1 L2]. split; [exact L1|]. intros Lt. apply L2, shift_lt, Lt.
Qed.
Definition with_extra (i : nat) (o : optic xr) (st st' : @run_st xr) : Prop :=
  rs_ray st' = rs_ray st /\ rs_count st' = rs_count st /\ rs_remaining st' = rs_remaining st /\ exists u v, length u = i /\ rs_world st = u ++ v /\ rs_world st' = u ++ o :: v.
Definition last_kept (i : nat) (w : list (optic xr)) : Prop := forall u v, w = u ++ v -> length u = i -> exists b, In b v /\ skipped b = false.
Lemma body_extra m i o st st1 st' rm : rs_remaining st = Fin rm -> with_extra i o st st' -> Forall flag_free (rs_world st) \/ last_kept i (rs_world st) -> out_of_the_way (rs_ray st) rm (rs_world st) o ->
  run_body (Fin m) st = Ok st1 -> exists st1', run_body (Fin m) st' = Ok st1' /\ with_extra i o st1 st1' /\ (Forall flag_free (rs_world st1) \/ last_kept i (rs_world st1)).
Proof.
  intros Hrm (E1 & E2 & E3 & u & v & Lu & Wu & Wv) FF Ow B. apply body_outcome in B.
  assert (Sc : Forall (test_ok (rs_ray st)) (rs_world st)).
  { apply (scan_ok (rs_ray st) (Fin rm) (rs_world st) (mkScan false ninf (rs_sel st) (rs_sfo st)) 0). destruct B as [sc E _ _|sc s E _ _ _ _|sc s f b r2 b' E _ _ _ _ _ _ _]; rewrite Hrm in E; eauto. }
  assert (Sc' : Forall (test_ok (rs_ray st)) (rs_world st')).
  { rewrite Wu in Sc. rewrite Wv. apply Forall_app in Sc. apply Forall_app. split; [apply Sc|]. constructor; [apply Ow|apply Sc]. }
  apply (scan_ok _ (Fin rm) _ (mkScan false ninf (rs_sel st') (rs_sfo st')) 0) in Sc'. destruct Sc' as (sc' & Esc').
  unfold run_body. rewrite E1, E3, Hrm, Esc'. cbn [bind]. rewrite Wv in Esc'. rewrite Wu in Ow.
  destruct (scan_nearest _ _ _ _ _ _ Esc') as [(A' & B' & C')|(A' & k' & x & pt & n & B' & C')].
  - assert (C : none_reports (rs_ray st) rm (rs_world st)) by (rewrite Wu; intros j b d pt n Hn R; rewrite <- (nth_shift u v o) in Hn; exact (C' _ _ _ _ _ Hn R)).
    rewrite A'. cbn [negb]. eexists. split; [reflexivity|].
    destruct B as [sc E Hh ->|sc s E Hh Es F ->|sc s f b r2 b' E Hh Es F Ef En Ed ->]; rewrite Hrm in E;
      destruct (scan_nearest _ _ _ _ _ _ E) as [(A2 & _)|(_ & k & d & pt & n & _ & ((o1 & En1 & R1) & _))]; try congruence; try (destruct (C _ _ _ _ _ En1 R1)).
    cbn. rewrite Hrm. split; [|exact FF]. repeat split; auto. exists u, v. auto.
  - destruct (chosen_ins _ _ _ _ _ _ _ _ _ Ow C') as (j & -> & Ch). rewrite <- Wu in Ch.
    assert (Hit : forall sc, scan (rs_ray st) (Fin rm) (mkScan false ninf (rs_sel st) (rs_sfo st)) 0 (rs_world st) = Ok sc -> sc_hit sc = true /\ sc_sel sc = Some (mkSel j pt n)).
    { intros sc E. destruct (scan_nearest _ _ _ _ _ _ E) as [(A2 & _ & C2)|(A2 & k & d & pt2 & n2 & B2 & Ch2)]; [destruct Ch as [(b & En & R) _]; destruct (C2 _ _ _ _ _ En R)|].
      destruct (chosen_once _ _ _ _ _ _ _ _ _ _ _ Ch Ch2) as (-> & _ & -> & ->). auto. }
    rewrite A', B'. cbn [negb bound bind se_pt se_idx se_normal].
    destruct B as [sc E Hh ->|sc s E Hh Es F ->|sc s f b r2 b' E Hh Es F Ef En Ed ->]; rewrite Hrm in E; destruct (Hit _ E) as (H1 & H2); try congruence.
    + rewrite Es in H2. injection H2 as ->. cbn [se_pt]. apply String.eqb_eq in F. rewrite F. eexists. split; [reflexivity|]. cbn. rewrite E2, Hrm. split; [repeat split; auto; exists u, v; auto|exact FF].
    + rewrite Es in H2. injection H2 as ->. cbn [se_pt se_idx se_normal] in *. apply String.eqb_neq in F. rewrite F.
      destruct (scan_hit_sfo _ _ _ _ _ _ Esc' A') as [X|X]; [discriminate|]. destruct (sc_sfo sc') as [f'|] eqn:Ef'; [|destruct (X eq_refl)]. cbn [bound bind].
      rewrite Wv, <- Lu, nth_shift, <- Wu, En.
      assert (Ed' : optic_do_intersect b (fly (rs_ray st) (distance_between (position (rs_ray st)) pt)) pt n f' = Ok (r2, b')).
      { destruct FF as [FF|Lk].
        - assert (FFo : flag_free b) by (rewrite Forall_forall in FF; apply FF; eapply nth_error_In; eassumption). rewrite (flag_free_do b _ _ _ f' f FFo). exact Ed.
        - destruct (last_tested_of v (Lk u v Wu Lu)) as (a & z & c & -> & Sz & Sk).
          rewrite Wu, app_assoc in E. destruct (scan_sfo_last _ _ _ _ _ _ _ _ Sz Sk E) as (h & Eh & Sf).
          change (u ++ o :: a ++ z :: c) with (u ++ (o :: a) ++ z :: c) in Esc'. rewrite app_assoc in Esc'. destruct (scan_sfo_last _ _ _ _ _ _ _ _ Sz Sk Esc') as (h' & Eh' & Sf'). rewrite Eh in Eh'. injection Eh' as <-.
          rewrite Ef in Sf. rewrite Ef' in Sf'. assert (f' = f) as -> by congruence. exact Ed. }
      rewrite Ed'. cbn [bind]. eexists. split; [reflexivity|]. cbn. rewrite E2, Hrm. destruct (set_shift u v o j b') as (u' & v' & Lu' & S1 & S2 & S3). rewrite Wu, S1. split.
      * repeat split. exists u', v'. split; [congruence|]. split; [reflexivity|]. exact S2.
      * destruct FF as [FF|Lk].
        -- left. rewrite <- S1, <- Wu. rewrite Forall_forall in *. intros y Hy. apply in_set_nth in Hy. destruct Hy as [->|Hy]; [|apply FF, Hy]. pose proof (FF b (nth_error_In _ _ En)) as Fb. apply do_turns in Ed. destruct b; destruct Ed as [_ ->]; try exact I; exact Fb.
        -- right. intros u2 v2 Ew L2. assert (u2 = u' /\ v2 = v') as [-> ->].
           { clear - Ew L2 Lu' Lu. assert (L : length u2 = length u') by congruence. clear L2 Lu' Lu. revert u' L Ew. induction u2 as [|y u2 IH]; intros [|z u'] L Ew; try discriminate; cbn in *; [auto|]. injection Ew as -> Ew. destruct (IH u' ltac:(lia) Ew) as [-> ->]. auto. }
           assert (Mp : map skipped v' = map skipped v). { apply S3. intros c0 Hc. rewrite <- Wu, En in Hc. injection Hc as <-. symmetry. exact (proj2 (do_frame _ _ _ _ _ _ _ Ed)). }
           destruct (Lk u v Wu Lu) as (z & Iz & Sz). assert (If : In false (map skipped v')) by (rewrite Mp, <- Sz; apply in_map, Iz). apply in_map_iff in If. destruct If as (y & Sy & Iy). eauto.
Qed.

Lemma cond_count maxi (st : @run_st xr) : run_cond maxi st = true -> forall N, maxi = Some N -> (rs_count st < N)%Z.
Proof. unfold run_cond. intros C N ->. apply andb_true_iff in C. destruct C as [C _]. apply andb_true_iff in C. destruct C as [_ C]. apply Z.ltb_lt, C. Qed.
(** the condition on the list *)
Definition order_free (u v : list (optic xr)) : Prop := Forall flag_free (u ++ v) \/ (exists b, In b v /\ skipped b = false).
Lemma leave_out : forall m maxi fuel r u v o r' w',
  order_free u v ->
  (forall n st rm, steps (Fin m) maxi n (run_init r (Fin m) (u ++ v)) st -> rs_remaining st = Fin rm -> 0 < rm ->
    (forall N, maxi = Some N -> (rs_count st < N)%Z) -> out_of_the_way (rs_ray st) rm (rs_world st) o) ->
  run fuel r (Fin m) (u ++ v) maxi = Ok (r', w') ->
  exists u' v', w' = u' ++ v' /\ length u' = length u /\ run fuel r (Fin m) (u ++ o :: v) maxi = Ok (r', u' ++ o :: v') /\ order_free u' v'.
Proof.
  intros m maxi fuel r u v o r' w' FF Ow H. unfold run in H. apply bind_ok in H. destruct H as (st & L & H). injection H as <- <-. apply loop_steps in L. destruct L as (n & Ln & S & C).
  assert (G : exists st', steps (Fin m) maxi n (run_init r (Fin m) (u ++ o :: v)) st' /\ with_extra (length u) o st st' /\ (Forall flag_free (rs_world st) \/ last_kept (length u) (rs_world st))).
  { clear C Ln. remember (run_init r (Fin m) (u ++ v)) as st0 eqn:E0. induction S as [st|n st st1 st2 S IH C B]; subst.
    - exists (run_init r (Fin m) (u ++ o :: v)). split; [constructor|]. split; [repeat split; exists u, v; auto|]. cbn [run_init rs_world]. destruct FF as [FF|FF]; [left; exact FF|right].
      intros u2 v2 Ew L2. assert (v2 = v) as ->; [|exact FF]. clear - Ew L2. revert u Ew L2. induction u2 as [|y u2 IH]; intros [|z u] Ew L2; try discriminate; cbn in *; [auto|]. injection Ew as -> Ew. eapply IH; [exact Ew|lia].
    - destruct (IH eq_refl Ow) as (st' & S' & Same & FF1). destruct (steps_budget _ _ _ _ _ _ S) as (rm & Hrm & _).
      destruct (body_extra m _ o st1 st2 st' rm Hrm Same FF1 (Ow _ _ _ S Hrm (cond_pos _ _ _ Hrm C) (cond_count _ _ C)) B) as (st2' & B' & Same' & FF2). exists st2'. split; [|split; assumption].
      eapply steps_S; [exact S'| |exact B']. destruct Same as (E1 & E2 & E3 & _). unfold run_cond in *. rewrite E1, E2, E3. exact C. }
  destruct G as (st' & S' & (E1 & E2 & E3 & u' & v' & L' & W1 & W2) & FF'). exists u', v'. split; [exact W1|]. split; [exact L'|]. split; [|destruct FF' as [FF'|FF']; [left; rewrite <- W1; exact FF'|right; exact (FF' u' v' W1 L')]].
  unfold run. erewrite steps_loop; [|exact S'| |exact Ln]; [cbn; rewrite E1, W2; reflexivity|]. unfold run_cond in *. rewrite E1, E2, E3. exact C.
Qed.
(* C116.  An optic o that is out of the way of a ray - at each step of its run in the scene u ++ v, o is missed, out of reach, or shadowed by a nearer optic - can
   be added between u and v without changing anything, provided that no lens of real glass is in the scene or that an optic that run does not skip stands after o in the list. *)
Theorem C116_leave_out : forall m maxi fuel r u v o r' w',
  Forall flag_free (u ++ v) \/ (exists b, In b v /\ skipped b = false) ->
  (forall n st rm, steps (Fin m) maxi n (run_init r (Fin m) (u ++ v)) st -> rs_remaining st = Fin rm -> 0 < rm ->
    (forall N, maxi = Some N -> (rs_count st < N)%Z) -> out_of_the_way (rs_ray st) rm (rs_world st) o) ->
  run fuel r (Fin m) (u ++ v) maxi = Ok (r', w') ->
  exists u' v', w' = u' ++ v' /\ length u' = length u /\ run fuel r (Fin m) (u ++ o :: v) maxi = Ok (r', u' ++ o :: v').
Proof.
  intros m maxi fuel r u v o r' w' FF Ow H. destruct (leave_out m maxi fuel r u v o r' w' FF Ow H) as (u' & v' & A & B & C & _). eauto.
Qed.
Print Assumptions C116_leave_out.

Lemma path_reaches l : forall p, dist3 p (last_point p l) <= path_length p l.
Proof.
  induction l as [|q l IH]; intros p; cbn [last_point path_length].
  - unfold dist3. replace (p - p)%r3 with r3zero by r3_ring. change (len r3zero) with (sqrt (r3zero ∙ r3zero)). replace (r3zero ∙ r3zero) with 0 by (unfold r3dot, r3zero; cbn; ring). rewrite sqrt_0. lra.
  - eapply Rle_trans; [|apply Rplus_le_compat_l, IH]. unfold dist3. replace (p - last_point q l)%r3 with ((p - q) + (q - last_point q l))%r3 by r3_ring. apply FloatVec.len_add.
Qed.
Lemma far_out : forall m maxi fuel r u v o S G p d r' w', 0 <= m -> ray_is r p d -> is_unit d -> ok_scene (u ++ v) -> grating_free (u ++ v) ->
  order_free u v ->
  valid_optic o S G -> (forall q, S q -> m < dist3 p q) ->
  (exists c N A, flat_optic o c N A) \/ (forall n st, steps (Fin m) maxi n (run_init r (Fin m) (u ++ v)) st -> test_ok (rs_ray st) o) ->
  run fuel r (Fin m) (u ++ v) maxi = Ok (r', w') ->
  exists u' v', w' = u' ++ v' /\ length u' = length u /\ run fuel r (Fin m) (u ++ o :: v) maxi = Ok (r', u' ++ o :: v') /\ order_free u' v'.
Proof.
  intros m maxi fuel r u v o S G p d r' w' Hm Hr Hd Sc Gf FF V Far Tst H. apply leave_out; [exact FF| |exact H]. intros n st rm St Hrm P _.
  destruct (steps_ok _ _ _ _ _ _ _ _ Hm Hr Hd Sc Gf St) as (_ & _ & p1 & d1 & Hr1 & Hd1 & pts & rm' & _ & _ & Lp & Hrm' & Inv). rewrite Hrm in Hrm'. injection Hrm' as <-.
  destruct Inv as [(_ & Pl & _)|(X & _)]; [|lra]. split; [destruct Tst as [(c & N & A & Fo)|Tst]; [eapply flat_test_ok; eassumption|eapply Tst; exact St]|].
  intros x pt nn (_ & s & E & D & L). exfalso. destruct Hr1 as [Hp1 Hd1']. rewrite Hp1 in D. destruct (finite_distance _ _ _ D) as (q & -> & ->).
  destruct (valid_hit _ _ _ _ _ _ _ V (conj Hp1 Hd1') Hd1 E eq_refl q eq_refl) as (Sq & _). specialize (Far q Sq). pose proof (path_reaches pts p) as K. rewrite <- Lp in K.
  assert (dist3 p q <= dist3 p p1 + dist3 p1 q) by (unfold dist3; replace (p - q)%r3 with ((p - p1) + (p1 - q))%r3 by r3_ring; apply FloatVec.len_add). lra.
Qed.
(* An optic whose surface is everywhere farther than the budget m from the starting point of the ray can be added. *)
Theorem C116_far : forall m maxi fuel r u v o S G p d r' w', 0 <= m -> ray_is r p d -> is_unit d -> ok_scene (u ++ v) -> grating_free (u ++ v) ->
  Forall flag_free (u ++ v) \/ (exists b, In b v /\ skipped b = false) ->
  valid_optic o S G -> (forall q, S q -> m < dist3 p q) ->
  (exists c N A, flat_optic o c N A) \/ (forall n st, steps (Fin m) maxi n (run_init r (Fin m) (u ++ v)) st -> test_ok (rs_ray st) o) ->
  run fuel r (Fin m) (u ++ v) maxi = Ok (r', w') ->
  exists u' v', w' = u' ++ v' /\ length u' = length u /\ run fuel r (Fin m) (u ++ o :: v) maxi = Ok (r', u' ++ o :: v').
Proof.
  intros m maxi fuel r u v o S G p d r' w' Hm Hr Hd Sc Gf FF V Far Tst H. destruct (far_out m maxi fuel r u v o S G p d r' w' Hm Hr Hd Sc Gf FF V Far Tst H) as (u' & v' & A & B & C & _). eauto.
Qed.
Print Assumptions C116_far.
(* The same for all rays of a fan, one after the other. *)
Theorem C116_all : forall m maxi fuel rs u v o S G c N A rs' w', 0 <= m -> ok_scene (u ++ v) -> grating_free (u ++ v) ->
  Forall flag_free (u ++ v) \/ (exists b, In b v /\ skipped b = false) ->
  valid_optic o S G -> flat_optic o c N A ->
  (forall r, In r rs -> exists p d, ray_is r p d /\ is_unit d /\ forall q, S q -> m < dist3 p q) ->
  run_all fuel rs (Fin m) (u ++ v) maxi = Ok (rs', w') ->
  exists u' v', w' = u' ++ v' /\ length u' = length u /\ run_all fuel rs (Fin m) (u ++ o :: v) maxi = Ok (rs', u' ++ o :: v').
Proof.
  intros m maxi fuel rs u v o S G c N A rs' w' Hm Sc Gf FF V Fl Far H. revert u v rs' w' Sc Gf FF Far H. induction rs as [|r rs IH]; intros u v rs' w' Sc Gf FF Far H; cbn [run_all] in *.
  - injection H as <- <-. exists u, v. auto.
  - apply bind_ok in H. destruct H as ((r1 & w1) & E & H). apply bind_ok in H. destruct H as ((rs1 & w2) & E2 & H). injection H as <- <-.
    destruct (Far r (or_introl eq_refl)) as (p & d & Hr & Hd & Fr). destruct (run_unit _ _ _ _ _ _ _ _ _ Hm Hr Hd Sc Gf E) as (Sc1 & Gf1 & _).
    destruct (far_out m maxi fuel r u v o S G p d r1 w1 Hm Hr Hd Sc Gf FF V Fr (or_introl (ex_intro _ c (ex_intro _ N (ex_intro _ A Fl)))) E) as (u1 & v1 & -> & L1 & R1 & FF1).
    destruct (IH u1 v1 rs1 w2 Sc1 Gf1 FF1 (fun r0 I => Far r0 (or_intror I)) E2) as (u2 & v2 & -> & L2 & R2). exists u2, v2. split; [reflexivity|]. split; [congruence|]. rewrite R1. cbn [bind]. rewrite R2. reflexivity.
Qed.
Print Assumptions C116_all.

Lemma first_only m (r : ray xr) w n st rm : steps (Fin m) (Some 1%Z) n (run_init r (Fin m) w) st -> rs_remaining st = Fin rm -> 0 < rm -> (forall N, Some 1%Z = Some N -> (rs_count st < N)%Z) ->
  st = run_init r (Fin m) w.
Proof.
  intros S Hrm P Cn. destruct (steps_budget _ _ _ _ _ _ S) as (rm' & Hrm' & _ & Q & _). rewrite Hrm in Hrm'. injection Hrm' as <-. destruct (Q P) as [_ Ct]. specialize (Cn _ eq_refl).
  assert (n = 0%nat) as -> by lia. inversion S. reflexivity.
Qed.
Lemma det_out w : out_of_the_way out_ray 100 w (ODetector (det_at 50)).
Proof. split; [right; rewrite det_misses; eexists; split; [reflexivity|discriminate]|]. intros x pt n (_ & s & E & _). rewrite det_misses in E. discriminate. Qed.
Lemma ball_alone : run 2 out_ray (Fin 100) [OLens ball43] (Some 1%Z) = Ok (set_direction flown (fv refracted_dir), [OLens ball43]).
Proof.
  eapply (run_sel 1 out_ray 100 [OLens ball43] _ 0 _ _ (SfoBool true) (OLens ball43) (22/5)); try reflexivity; try lra; try discriminate.
  - cbn [scan]. rewrite (step_hit out_ray 100 _ _ _ (OLens ball43) _ _ _ _ eq_refl ball_hits q_dist) by lra. cbn [bind]. reflexivity.
  - reflexivity.
  - reflexivity.
  - reflexivity.
  - apply q_dist.
  - apply flag_true.
Qed.
(* At the end of the list it cannot: a detector that the ray never meets, listed after a ball of glass, turns refraction into the ball into total reflection. *)
Theorem C116_last_refuted : exists (l : lens xr) (o : optic xr) r r1 r2 w1 w2,
  ok_scene [OLens l; o] /\
  (forall n st rm, steps (Fin 100) (Some 1%Z) n (run_init r (Fin 100) [OLens l]) st -> rs_remaining st = Fin rm -> 0 < rm ->
    (forall N, Some 1%Z = Some N -> (rs_count st < N)%Z) -> out_of_the_way (rs_ray st) rm (rs_world st) o) /\
  run 2 r (Fin 100) [OLens l] (Some 1%Z) = Ok (r1, w1) /\ run 2 r (Fin 100) [OLens l; o] (Some 1%Z) = Ok (r2, w2) /\ direction r1 <> direction r2.
Proof.
  exists ball43, (ODetector (det_at 50)), out_ray. do 4 eexists. split; [|split; [|split; [apply ball_alone|split]]].
  - intros o [<-|[<-|[]]]; right; do 2 eexists; [|apply det_at_valid].
    eapply (VO_ball_lens r3zero None 2 None "real" (4/3) ball43); [|lra|lra|exact ball43_built]. repeat split; discriminate.
  - intros n st rm S Hrm P Cn. pose proof (first_only _ _ _ _ _ _ S Hrm P Cn) as E0. subst st. assert (rm = 100) as -> by (unfold run_init, rs_remaining in Hrm; congruence). apply det_out.
  - eapply (run_sel 1 out_ray 100 [OLens ball43; ODetector (det_at 50)] _ 0 _ _ SfoNone (OLens ball43) (22/5)).
    + lra.
    + reflexivity.
    + cbn [scan]. rewrite (step_hit out_ray 100 _ _ _ (OLens ball43) _ _ _ _ eq_refl ball_hits q_dist) by lra. cbn [bind].
      rewrite (step_miss out_ray (Fin 100) _ _ (ODetector (det_at 50)) _ _ _ eq_refl det_misses). cbn [bind]. reflexivity.
    + reflexivity.
    + reflexivity.
    + reflexivity.
    + reflexivity.
    + apply q_dist.
    + discriminate.
    + apply flag_false. reflexivity.
  - cbn. intros H. injection H. lra.
Qed.
Print Assumptions C116_last_refuted.

Lemma far_away q : on_plane (at_z 500) (dirn e_z) q -> 100 < dist3 (at_z 0) q.
Proof.
  rewrite (dirn_of_unit e_z e_z_unit). intros On. unfold on_plane, r3dot, e_z, at_z in On. cbn in On. assert (Z : cz q = 500) by lra.
  assert (Sq : 500 * 500 <= dist3 (at_z 0) q * dist3 (at_z 0) q).
  { unfold dist3. rewrite len_sq. unfold r3dot, at_z; cbn. rewrite Z. pose proof (Rle_0_sqr (0 - cx q)) as A1. pose proof (Rle_0_sqr (0 - cy q)) as A2. unfold Rsqr in *. lra. }
  assert (0 <= dist3 (at_z 0) q) by apply len_nonneg. nra.
Qed.
Example C116_hyp :
  run 2 out_ray (Fin 100) ([] ++ ODetector (det_at 50) :: [OLens ball43]) (Some 1%Z) = Ok (set_direction flown (fv refracted_dir), [ODetector (det_at 50); OLens ball43]) /\
  run 2 z_ray (Fin 100) [OMirror (mirror_at 5); ODetector (det_at 500)] (Some 1%Z) = Ok (bounced, [OMirror (mirror_at 5); ODetector (det_at 500)]).
Proof.
  split.
  - assert (Ow : forall n st rm, steps (Fin 100) (Some 1%Z) n (run_init out_ray (Fin 100) ([] ++ [OLens ball43])) st -> rs_remaining st = Fin rm -> 0 < rm ->
      (forall N, Some 1%Z = Some N -> (rs_count st < N)%Z) -> out_of_the_way (rs_ray st) rm (rs_world st) (ODetector (det_at 50))).
    { intros n st rm S Hrm P Cn. pose proof (first_only _ _ _ _ _ _ S Hrm P Cn) as E0. subst st. assert (rm = 100) as -> by (unfold run_init, rs_remaining in Hrm; congruence). apply det_out. }
    destruct (C116_leave_out 100 (Some 1%Z) 2 out_ray [] [OLens ball43] (ODetector (det_at 50)) _ _ (or_intror (ex_intro _ (OLens ball43) (conj (or_introl eq_refl) eq_refl))) Ow ball_alone) as (u' & v' & E & L & R).
    destruct u'; [|discriminate]. cbn in E. subst v'. exact R.
  - assert (Z : run 2 z_ray (Fin 100) ([OMirror (mirror_at 5)] ++ []) (Some 1%Z) = Ok (bounced, [OMirror (mirror_at 5)])) by (apply z_run; lra).
    assert (X : exists u' v', [OMirror (mirror_at 5)] = u' ++ v' /\ length u' = 1%nat /\ run 2 z_ray (Fin 100) ([OMirror (mirror_at 5)] ++ ODetector (det_at 500) :: []) (Some 1%Z) = Ok (bounced, u' ++ ODetector (det_at 500) :: v')).
    { eapply (C116_far 100 (Some 1%Z) 2 z_ray [OMirror (mirror_at 5)] [] (ODetector (det_at 500)) _ _ (at_z 0) e_z bounced [OMirror (mirror_at 5)]); [lra|split; reflexivity|apply e_z_unit| | |left; constructor; [exact I|constructor]|apply det_at_valid| | |exact Z].
      - intros o [<-|[]]. right. do 2 eexists. apply mirror_at_valid.
      - intros o [<-|[]]. reflexivity.
      - intros q [On _]. apply far_away, On.
      - left. do 3 eexists. apply (FO_detector (at_z 500) e_z e_x 1 1 (det_at 500) [] e_z_nz e_x_nz (det_at_built 500)). }
    destruct X as (u' & v' & E & L & R).
    destruct u' as [|a [|b u']]; try discriminate. destruct v'; [|discriminate]. apply (f_equal (@hd_error _)) in E. cbn [hd_error app] in E. assert (a = OMirror (mirror_at 5)) by (injection E; congruence). subst a. exact R.
Qed.

(* ---- C36 with lenses of glass: only the last optic tested must stay last ---- *)
Lemma shift_ne i k : shift i k <> i.
Proof. unfold shift. destruct (Nat.ltb_spec k i); lia. Qed.
Lemma set_at {A} (u v : list A) (o b : A) : set_nth (u ++ o :: v) (length u) b = u ++ b :: v.
Proof. induction u as [|a u IH]; cbn; [reflexivity|now rewrite IH]. Qed.
(** the optic z is the last of the list that is tested *)
Definition last_tested (w a : list (optic xr)) (z : optic xr) (b : list (optic xr)) : Prop := w = a ++ z :: b /\ skipped z = false /\ forall x, In x b -> skipped x = true.
Definition same_but_last (st st' : @run_st xr) : Prop :=
  rs_ray st' = rs_ray st /\ rs_count st' = rs_count st /\ rs_remaining st' = rs_remaining st /\
  exists a z b a' b', last_tested (rs_world st) a z b /\ last_tested (rs_world st') a' z b' /\ Permutation (a ++ b) (a' ++ b').
Lemma same_but_perm st st' : same_but_last st st' -> Permutation (rs_world st) (rs_world st').
Proof. intros (_ & _ & _ & a & z & b & a' & b' & (-> & _) & (-> & _) & P). rewrite <- !Permutation_middle. apply perm_skip, P. Qed.
Lemma map_skipped (b b' : list (optic xr)) : map skipped b' = map skipped b -> (forall x, In x b -> skipped x = true) -> forall x, In x b' -> skipped x = true.
Proof. intros E H x I. apply (in_map skipped) in I. rewrite E in I. apply in_map_iff in I. destruct I as (y & <- & Iy). apply H, Iy. Qed.
Lemma body_same_last m st st1 st' rm : rs_remaining st = Fin rm -> same_but_last st st' -> no_ties (rs_ray st) rm (rs_world st) ->
  run_body (Fin m) st = Ok st1 -> exists st1', run_body (Fin m) st' = Ok st1' /\ same_but_last st1 st1'.
Proof.
  intros Hrm SB NT B. pose proof (same_but_perm _ _ SB) as P. destruct SB as (E1 & E2 & E3 & a & z & b & a' & b' & Lt & Lt' & PP). apply body_outcome in B.
  assert (Sc : exists sc, scan (rs_ray st) (Fin rm) (mkScan false ninf (rs_sel st) (rs_sfo st)) 0 (rs_world st) = Ok sc).
  { destruct B as [sc E _ _|sc s E _ _ _ _|sc s f o r2 o' E _ _ _ _ _ _ _]; rewrite Hrm in E; eauto. }
  apply scan_ok in Sc. rewrite P in Sc. apply (scan_ok _ (Fin rm) _ (mkScan false ninf (rs_sel st') (rs_sfo st')) 0) in Sc. destruct Sc as (sc' & Esc').
  unfold run_body. rewrite E1, E3, Hrm, Esc'. cbn [bind].
  destruct (scan_nearest _ _ _ _ _ _ Esc') as [(A' & B' & C')|(A' & k' & d' & pt' & n' & B' & C')].
  - assert (C : none_reports (rs_ray st) rm (rs_world st)).
    { intros j o d pt n Hn R. apply nth_error_In in Hn. apply (Permutation_in _ P) in Hn. apply In_nth_error in Hn. destruct Hn as (j' & Hn). exact (C' _ _ _ _ _ Hn R). }
    rewrite A'. cbn [negb]. eexists. split; [reflexivity|].
    destruct B as [sc E Hh ->|sc s E Hh Es F ->|sc s f o r2 o' E Hh Es F Ef En Ed ->]; rewrite Hrm in E;
      destruct (scan_nearest _ _ _ _ _ _ E) as [(A2 & _)|(_ & k & d & pt & n & _ & ((o1 & En1 & R1) & _))]; try congruence; try (destruct (C _ _ _ _ _ En1 R1)).
    unfold same_but_last. cbn [rs_ray rs_count rs_remaining rs_world]. rewrite Hrm. repeat split; auto. exists a, z, b, a', b'. auto.
  - destruct C' as [(o1 & En1 & R1) M'].
    assert (Hit : forall sc, scan (rs_ray st) (Fin rm) (mkScan false ninf (rs_sel st) (rs_sfo st)) 0 (rs_world st) = Ok sc ->
      sc_hit sc = true /\ exists k, sc_sel sc = Some (mkSel k pt' n') /\ nth_error (rs_world st) k = Some o1).
    { intros sc E. pose proof (nth_error_In _ _ En1) as I1. apply (Permutation_in _ (Permutation_sym P)) in I1. apply In_nth_error in I1. destruct I1 as (k1 & I1).
      destruct (scan_nearest _ _ _ _ _ _ E) as [(A2 & _ & C2)|(A2 & k & d & pt & n & B2 & ((o & En & R) & M))]; [destruct (C2 _ _ _ _ _ I1 R1)|].
      split; [exact A2|]. exists k. pose proof (nth_error_In _ _ En) as I. apply (Permutation_in _ P) in I. apply In_nth_error in I. destruct I as (j & I).
      destruct (M _ _ _ _ _ I1 R1) as [L1 _], (M' _ _ _ _ _ I R) as [L2 _]. assert (d = d') by lra. subst d'.
      pose proof (NT _ _ _ _ _ _ _ _ _ En I1 R R1) as K. subst k1. rewrite En in I1. injection I1 as ->.
      destruct (reports_det _ _ _ _ _ _ _ _ _ R R1) as (_ & -> & ->). auto. }
    rewrite A', B'. cbn [negb bound bind se_pt se_idx se_normal].
    destruct B as [sc E Hh ->|sc s E Hh Es F ->|sc s f o r2 o' E Hh Es F Ef En Ed ->]; rewrite Hrm in E; destruct (Hit _ E) as (H1 & k & H2 & H3); try congruence.
    + rewrite Es in H2. injection H2 as ->. cbn [se_pt]. apply String.eqb_eq in F. rewrite F. eexists. split; [reflexivity|]. unfold same_but_last. cbn [rs_ray rs_count rs_remaining rs_world]. rewrite E2, Hrm. repeat split; auto. exists a, z, b, a', b'. auto.
    + rewrite Es in H2. injection H2 as ->. cbn [se_pt se_idx se_normal] in *. rewrite H3 in En. injection En as <-.
      apply String.eqb_neq in F. rewrite F.
      destruct (scan_hit_sfo _ _ _ _ _ _ Esc' A') as [X|X]; [discriminate|]. destruct (sc_sfo sc') as [f'|] eqn:Ef'; [|destruct (X eq_refl)]. cbn [bound bind].
      rewrite En1. destruct Lt as (W & Sz & Sb), Lt' as (W' & _ & Sb'). rewrite W in *. rewrite W' in *.
      destruct (scan_sfo_last _ _ _ _ _ _ _ _ Sz Sb E) as (h & Eh & Sf), (scan_sfo_last _ _ _ _ _ _ _ _ Sz Sb' Esc') as (h' & Eh' & Sf'). rewrite Eh in Eh'. injection Eh' as <-.
      assert (f' = f) as -> by congruence. rewrite Ed. cbn [bind]. eexists. split; [reflexivity|].
      unfold same_but_last. cbn [rs_ray rs_count rs_remaining rs_world]. rewrite E2, Hrm. repeat split. pose proof (proj2 (do_frame _ _ _ _ _ _ _ Ed)) as Fr.
      destruct (Nat.eq_dec k (length a)) as [->|Nk]; destruct (Nat.eq_dec k' (length a')) as [->|Nk'].
      * exists a, o', b, a', b'. rewrite !set_at. assert (So : skipped o' = false). { rewrite nth_ins_at in H3. injection H3 as ->. rewrite <- Sz. exact Fr. } repeat split; auto.
      * exfalso. destruct (unshift _ _ Nk') as (j & ->). rewrite nth_shift in En1. pose proof (Permutation_in _ (Permutation_sym PP) (nth_error_In _ _ En1)) as I. apply In_nth_error in I. destruct I as (i & I). rewrite <- (nth_shift a b z) in I.
        exact (shift_ne _ _ (NT _ _ _ _ _ _ _ _ _ I H3 R1 R1)).
      * exfalso. rewrite nth_ins_at in En1. injection En1 as <-. exact (Nk (NT _ _ _ _ _ _ _ _ _ H3 (nth_ins_at a b z) R1 R1)).
      * destruct (unshift _ _ Nk) as (j & ->), (unshift _ _ Nk') as (j' & ->). rewrite nth_shift in H3, En1.
        destruct (set_shift a b z j o') as (u & v & _ & S1 & S2 & S3), (set_shift a' b' z j' o') as (u' & v' & _ & S1' & S2' & S3'). exists u, z, v, u', v'. rewrite S2, S2'.
        assert (Mb : map skipped v = map skipped b) by (apply S3; intros c0 Hc; rewrite H3 in Hc; injection Hc as <-; symmetry; exact Fr).
        assert (Mb' : map skipped v' = map skipped b') by (apply S3'; intros c0 Hc; rewrite En1 in Hc; injection Hc as <-; symmetry; exact Fr).
        repeat split; auto; [exact (map_skipped _ _ Mb Sb)|exact (map_skipped _ _ Mb' Sb')|]. rewrite <- S1, <- S1'. eapply perm_set_nth; eassumption.
Qed.
(* C36, for scenes with lenses of real glass too: any rearrangement that leaves the last optic that run tests the last one (a ++ z :: b with b skipped) has the same outcome. *)
Theorem C36_same_last_partial : forall m maxi fuel r a z b a' b' r' w2,
  skipped z = false -> (forall x, In x b -> skipped x = true) -> (forall x, In x b' -> skipped x = true) -> Permutation (a ++ b) (a' ++ b') ->
  (forall n st rm, steps (Fin m) maxi n (run_init r (Fin m) (a ++ z :: b)) st -> rs_remaining st = Fin rm -> 0 < rm ->
    (forall N, maxi = Some N -> (rs_count st < N)%Z) -> no_ties (rs_ray st) rm (rs_world st)) ->
  run fuel r (Fin m) (a ++ z :: b) maxi = Ok (r', w2) -> exists w2', run fuel r (Fin m) (a' ++ z :: b') maxi = Ok (r', w2') /\ Permutation w2 w2'.
Proof.
  intros m maxi fuel r a z b a' b' r' w2 Sz Sb Sb' PP NT H. unfold run in H. apply bind_ok in H. destruct H as (st & L & H). injection H as <- <-. apply loop_steps in L. destruct L as (n & Ln & S & C).
  assert (G : exists st', steps (Fin m) maxi n (run_init r (Fin m) (a' ++ z :: b')) st' /\ same_but_last st st').
  { clear C Ln. remember (run_init r (Fin m) (a ++ z :: b)) as st0 eqn:E0. induction S as [st|n st st1 st2 S IH C B]; subst.
    - exists (run_init r (Fin m) (a' ++ z :: b')). split; [constructor|]. repeat split. exists a, z, b, a', b'. repeat split; auto.
    - destruct (IH eq_refl NT) as (st' & S' & Same). destruct (steps_budget _ _ _ _ _ _ S) as (rm & Hrm & _).
      destruct (body_same_last m st1 st2 st' rm Hrm Same (NT _ _ _ S Hrm (cond_pos _ _ _ Hrm C) (cond_count _ _ C)) B) as (st2' & B' & Same'). exists st2'. split; [|assumption].
      eapply steps_S; [exact S'| |exact B']. destruct Same as (E1 & E2 & E3 & _). unfold run_cond in *. rewrite E1, E2, E3. exact C. }
  destruct G as (st' & S' & SB). pose proof (same_but_perm _ _ SB) as P'. destruct SB as (E1 & E2 & E3 & _). exists (rs_world st'). split; [|exact P'].
  unfold run. erewrite steps_loop; [|exact S'| |exact Ln]; [cbn; rewrite E1; reflexivity|]. unfold run_cond in *. rewrite E1, E2, E3. exact C.
Qed.
Print Assumptions C36_same_last_partial.
Lemma any_det_misses z : optic_test_intersect (ODetector (det_at z)) out_ray = Ok (H4 false None None SfoNone).
Proof.
  cbn [optic_test_intersect det_at de_shape de_surfaces]. unfold flat_test_intersect. change (String.eqb "rectangular_flat" "rectangular_flat") with true. rewrite orb_true_r. cbn [flat_loop].
  unfold flat_step. cbn [shape_test_intersect].
  destruct (rectangle_test_spec (at_z z) e_z e_x 1 1 p_out e_x out_ray) as [(s & (M1 & _) & _)|(_ & E)]; try apply e_z_unit; try apply e_x_unit; try apply out_ray_is; try lra.
  - exfalso. unfold r3dot, e_z, e_x in M1; cbn in M1. rewrite Rabs_right in M1; lra.
  - rewrite E. reflexivity.
Qed.
Definition det_det_ball (y z : R) : list (optic xr) := [ODetector (det_at y); ODetector (det_at z)] ++ OLens ball43 :: [].
Example C36_same_last_hyp : exists w2, run 2 out_ray (Fin 100) (det_det_ball 60 50) (Some 1%Z) = Ok (set_direction flown (fv refracted_dir), w2).
Proof.
  destruct (C36_same_last_partial 100 (Some 1%Z) 2 out_ray [ODetector (det_at 50); ODetector (det_at 60)] (OLens ball43) [] [ODetector (det_at 60); ODetector (det_at 50)] []
    (set_direction flown (fv refracted_dir)) (det_det_ball 50 60)) as (w2 & H & _); [reflexivity|intros x []|intros x []|apply perm_swap| | |exists w2; exact H].
  - intros n st rm S Hrm P Cn. pose proof (first_only _ _ _ _ _ _ S Hrm P Cn) as E0. subst st. cbn [run_init rs_ray rs_world app].
    assert (K : forall j o d pt nn, nth_error [ODetector (det_at 50); ODetector (det_at 60); OLens ball43] j = Some o -> reports out_ray rm o d pt nn -> j = 2%nat).
    { intros [|[|[|j]]] o d pt nn Hn (_ & s & E & _); cbn in Hn; try reflexivity; [injection Hn as <-; rewrite any_det_misses in E; discriminate|injection Hn as <-; rewrite any_det_misses in E; discriminate|destruct j; discriminate]. }
    intros j j' o o' d pt pt' nn nn' H1 H2 R1 R2. rewrite (K _ _ _ _ _ H1 R1), (K _ _ _ _ _ H2 R2). reflexivity.
  - eapply (run_sel 1 out_ray 100 (det_det_ball 50 60) _ 2 _ _ (SfoBool true) (OLens ball43) (22/5)).
    + lra.
    + reflexivity.
    + cbn [scan det_det_ball app]. do 2 (rewrite (step_miss out_ray (Fin 100) _ _ (ODetector _) _ _ _ eq_refl (any_det_misses _)); cbn [bind sc_hit sc_min sc_sel]).
      rewrite (step_hit out_ray 100 _ _ _ (OLens ball43) _ _ _ _ eq_refl ball_hits q_dist) by lra. cbn [bind]. reflexivity.
    + reflexivity.
    + reflexivity.
    + reflexivity.
    + reflexivity.
    + apply q_dist.
    + discriminate.
    + apply flag_true.
Qed.
