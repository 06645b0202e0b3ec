(** C109: a reflecting Compound that is a union of any number of solids, alone in a scene: light bounces between the solids as between separate mirrors; script_testCompound.py. *)
From Coq Require Import Reals ZArith Lra Lia Psatz List String Bool.
From Verif Require Import PyErr Num Vec Shapes Csg Optics General Spec XReal RVec VecProofs AngleProofs FlatProofs SphereProofs CylProofs ShapeExtra TreeProofs SolidProofs CsgProofs CsgStart CsgExact
  RayProofs SceneProofs OrderProofs OpticHits RunXr RunGen Continue GenProofs Props_Shape Props_Compound Props_Touch Props_Nested Props_UnionDiff Props_Single CompoundScript.
Import ListNotations.
Local Open Scope R_scope.

(** no surface of l is touched by the line, and none is met within 1e-12 of the start except at the start itself *)
Definition sharp (l : list solid) (p d : R3) : Prop := forall s, In s l -> regular s p d /\ clear0 s p d.
(** [bounces l p d L pts q d']: from p in direction d light bounces off the surfaces of the solids of l, wherever it meets one first, at the points pts; after the length L it is at q and goes in direction d' *)
Inductive bounces (l : list solid) : R3 -> R3 -> R -> list R3 -> R3 -> R3 -> Prop :=
| B_free p d L : sharp l p d -> 0 < L -> (forall s u, In s l -> 0 < u <= L -> ~ surface s (at_t p d u)) -> bounces l p d L [] (at_t p d L) d
| B_turn p d L u s pts q d' : sharp l p d -> In s l -> 0 < u < L -> surface s (at_t p d u) -> none_before l p d u -> (forall s', In s' l -> surface s' (at_t p d u) -> s' = s) ->
    bounces l (at_t p d u) (refl (inward s (at_t p d u)) d) (L - u) pts q d' -> bounces l p d L (at_t p d u :: pts) q d'.

Lemma union_test o a b t bh ix p d (r : ray xr) : let e := Bin o a b in tree_of e t -> only OpUnion e -> is_unit d -> ray_is r p d -> sharp (solids e) p d ->
  (exists u s f, In s (solids e) /\ 1e-12 < u /\ surface s (at_t p d u) /\ none_before (solids e) p d u /\
     optic_test_intersect (OCompound (mkCompound t bh ix)) r = Ok (H4 true (Some (fv (at_t p d u))) (Some (fv (inward s (at_t p d u)))) f)) \/
  ((forall s u, In s (solids e) -> 0 < u -> ~ surface s (at_t p d u)) /\ exists pt n f, optic_test_intersect (OCompound (mkCompound t bh ix)) r = Ok (H4 false pt n f)).
Proof.
  intros e HT HO Ud Hr Sh. destruct (C94_nearest o a b t p d r HT HO Ud Hr Sh) as (h & E & [(F & u & s & Is & Lu & Sf & Nb & P1 & N1)|(F & No)]).
  - left. exists u, s. eexists. repeat (split; [eassumption|]). cbn [optic_test_intersect]. unfold compound_test_intersect. cbn [co_tree]. rewrite E. cbn [bind unpack6]. rewrite F, P1, N1. reflexivity.
  - right. split; [exact No|]. cbn [optic_test_intersect]. unfold compound_test_intersect. cbn [co_tree]. rewrite E. cbn [bind unpack6]. rewrite F. repeat eexists.
Qed.
Lemma at_0 p d : at_t p d 0 = p. Proof. unfold at_t. r3_ring. Qed.

Theorem C109_bounces : forall o a b t ix p d L pts q d', let e := Bin o a b in tree_of e t -> only OpUnion e -> (forall s, In s (solids e) -> proper s) -> bounces (solids e) p d L pts q d' ->
  forall r : ray xr, is_unit d -> ray_is r p d -> ray_type r <> "faerie_fire"%string -> blocked r = false -> departs (OCompound (mkCompound t "reflect" ix)) r L pts q d' /\ is_unit d'.
Proof.
  intros o a b t ix p d L pts q d' e HT HO Pr B. set (k := OCompound (mkCompound t "reflect" ix)).
  induction B as [p d L Sh HL No|p d L u s pts q d' Sh Is Hu Sf Nb Un B IH]; intros r Ud Hr Ty Hb.
  - split; [|exact Ud]. destruct (union_test o a b t "reflect" ix p d r HT HO Ud Hr Sh) as [(u & s & f & Is & Lu & Sf & Nb & E)|(_ & pt & n & f & E)]; fold k in E.
    + assert (Lu' : L < u) by (apply Rnot_le_lt; intros K; exact (No s u Is ltac:(lra) Sf)).
      destruct (single_free k r L p d Ud Hr) as (r' & Run & Hr' & Hh); try assumption; [right; eexists; split; [exact E|discriminate]| |exists r'; repeat split; try assumption; apply Hr'].
      intros x pt n' (_ & s' & E' & Dx & Lx). rewrite E in E'. injection E' as <- _ _. destruct Hr as [Hp _]. rewrite Hp, distance_fv, dist_back in Dx by exact Ud. injection Dx as <-. rewrite Rabs_right in Lx; lra.
    + destruct (single_free k r L p d Ud Hr) as (r' & Run & Hr' & Hh); try assumption; [right; eexists; split; [exact E|discriminate]| |exists r'; repeat split; try assumption; apply Hr'].
      intros x pt' n' (_ & s' & E' & _). rewrite E in E'. discriminate E'.
  - destruct (union_test o a b t "reflect" ix p d r HT HO Ud Hr Sh) as [(u' & s' & f & Is' & Lu & Sf' & Nb' & E)|(No & _)]; [fold k in E|elim (No s u Is ltac:(lra) Sf)].
    assert (u' = u). { destruct (Rtotal_order u' u) as [K|[K|K]]; [elim (Nb s' u' Is' ltac:(lra) Sf')|exact K|elim (Nb' s u Is ltac:(lra) Sf)]. } subst u'.
    rewrite (Un s' Is' Sf') in *. set (x := at_t p d u) in *. set (d1 := refl (inward s x) d) in *.
    pose proof (inward_unit s x (Pr s Is) Sf) as Uu. assert (Ud1 : is_unit d1) by (apply refl_unit; assumption).
    destruct (proj2 (leg k r p d u L _ _ d1 Ud Hr Ty Hb eq_refl E Lu ltac:(intros r1 Hr1; apply shiny_do; [exact (Pr s Is)|exact Ud|exact Hr1|exact Sf])) ltac:(lra)) as (r1 & Hr1 & Ty1 & Hb1 & Hh & Run).
    destruct (IH r1 Ud1 Hr1 ltac:(congruence) Hb1) as [Dp Ue]. split; [|exact Ue]. apply (departs_more k r r1 x u L); try assumption. lra.
Qed.
Print Assumptions C109_bounces.

(** ** Balls in a row *)
Definition ball (rho h c : R) : solid := Ball (mk3 c h 0) rho.
(** the light comes along +y at the height x above the y axis; it passes all balls, or *)
Definition passes (rho : R) (cs : list R) (x : R) : Prop := forall c, In c cs -> rho < Rabs (x - c).
(** it meets the ball at c before all others (which it does not touch), and the reflected line leaves the other balls behind or passes them *)
Definition meets_first (rho : R) (cs : list R) (x c : R) : Prop := let b := x - c in
  In c cs /\ 1e-12 * 1e-12 < rho * rho - b * b /\
  forall c', In c' cs -> c' <> c -> let a := c' - c in
    Rabs (x - c') <> rho /\ Rabs b < Rabs (x - c') /\ (rho + 1e-12) * (rho + 1e-12) < rho * rho + a * (a - 2 * b) /\
    ((rho * rho - b * b) * ((2 * a * b - rho * rho) * (2 * a * b - rho * rho)) < rho * rho * (rho * rho) * (a * (a - 2 * b)) \/
     2 * a * b <= rho * rho /\ (rho * rho - b * b) * ((2 * a * b - rho * rho) * (2 * a * b - rho * rho)) <> rho * rho * (rho * rho) * (a * (a - 2 * b))).

Definition up_y : R3 := mk3 0 1 0.
Lemma up_y_unit : is_unit up_y. Proof. unfold is_unit, up_y, r3dot. cbn. ring. Qed.
Lemma ball_surface rho h c x y t e : 0 < rho -> surface (ball rho h c) (at_t (mk3 x y 0) e t) <-> (x + t * cx e - c) * (x + t * cx e - c) + (y + t * cy e - h) * (y + t * cy e - h) + (t * cz e) * (t * cz e) = rho * rho.
Proof.
  intros HR. assert (P : proper (ball rho h c)) by (split; [exact HR|exact I]). rewrite (surface_sq _ _ P). cbn [across centre radius ball]. unfold r3dot, at_t, r3sub, r3add, r3scale. cbn [cx cy cz]. split; intros H; [rewrite <- H|rewrite <- H]; ring.
Qed.
Lemma sq_lt_abs a b : Rabs a < Rabs b <-> a * a < b * b.
Proof. split; intros H; unfold Rabs in *; destruct (Rcase_abs a), (Rcase_abs b); nra. Qed.
(** the first leg *)
Lemma ball_up rho h c x t : 0 < rho -> surface (ball rho h c) (at_t (mk3 x 0 0) up_y t) <-> (x - c) * (x - c) + (t - h) * (t - h) = rho * rho.
Proof. intros HR. rewrite ball_surface by exact HR. cbn [cx cy cz up_y]. split; intros H; [rewrite <- H|rewrite <- H]; ring. Qed.
Lemma ball_sharp rho h c x : 0 < rho -> rho + 1e-12 < h -> Rabs (x - c) <> rho -> regular (ball rho h c) (mk3 x 0 0) up_y /\ clear0 (ball rho h c) (mk3 x 0 0) up_y.
Proof.
  intros HR Hh Nt. split.
  - split; [exact HR|]. intros Tg. apply tangent_disc in Tg; [|apply up_y_unit]. unfold sdisc, r3dot, r3sub in Tg. cbn [cx cy cz up_y] in Tg. apply Nt.
    assert (E : (x - c) * (x - c) = rho * rho) by lra. unfold Rabs. destruct (Rcase_abs (x - c)); nra.
  - intros t H. apply ball_up in H; [|exact HR]. right. assert (h - rho <= t) by (apply Rnot_lt_le; intros K; pose proof (Rle_0_sqr (x - c)) as Q; unfold Rsqr in Q; assert (0 < (h - t - rho) * (h - t + rho)) by (apply Rmult_lt_0_compat; lra); lra). rewrite Rabs_right; lra.
Qed.
(** the second leg *)
Section Leg2.
Variables (rho h x c : R).
Let b := x - c.
Let sq := sqrt (rho * rho - b * b).
Let q := mk3 x (h - sq) 0.
Let e := mk3 (2 * b * sq / (rho * rho)) ((2 * (b * b) - rho * rho) / (rho * rho)) 0.
Hypotheses (HR : 0 < rho) (Hb : 1e-12 * 1e-12 < rho * rho - b * b).
Lemma sq_sq : sq * sq = rho * rho - b * b. Proof. apply sqrt_sqrt. lra. Qed.
Lemma sq_pos : 1e-12 < sq. Proof. pose proof sq_sq. assert (0 <= sq) by apply sqrt_pos. nra. Qed.
Lemma q_at : at_t (mk3 x 0 0) up_y (h - sq) = q. Proof. unfold q, at_t, up_y, r3add, r3scale. cbn [cx cy cz]. f_equal; ring. Qed.
Lemma q_on : surface (ball rho h c) q.
Proof. rewrite <- q_at. apply ball_up; [exact HR|]. fold b. pose proof sq_sq. nra. Qed.
Lemma e_refl : refl (inward (ball rho h c) q) up_y = e.
Proof. unfold refl, e, q, up_y. cbn [inward ball]. unfold r3dot, r3sub, r3scale. cbn [cx cy cz]. pose proof sq_sq as S. apply r3_ext; cbn [cx cy cz]; [unfold b; field; lra| |ring]. replace (2 * (b * b) - rho * rho) with (rho * rho - 2 * (sq * sq)) by (rewrite S; ring). field. lra. Qed.
Lemma e_unit : is_unit e.
Proof. rewrite <- e_refl. apply refl_unit; [apply inward_unit; [split; [exact HR|exact I]|exact q_on]|apply up_y_unit]. Qed.
Lemma other c' t : let a := c' - c in let m := (2 * a * b - rho * rho) * sq / (rho * rho) in surface (ball rho h c') (at_t q e t) <-> t * t - 2 * t * m + a * (a - 2 * b) = 0.
Proof.
  intros a m. unfold q. rewrite ball_surface by exact HR. pose proof e_unit as U. unfold is_unit, r3dot in U. pose proof sq_sq as S.
  assert (D : ((x + t * cx e - c') * (x + t * cx e - c') + (h - sq + t * cy e - h) * (h - sq + t * cy e - h) + t * cz e * (t * cz e)) - rho * rho = t * t - 2 * t * m + a * (a - 2 * b)).
  { replace ((x + t * cx e - c') * (x + t * cx e - c') + (h - sq + t * cy e - h) * (h - sq + t * cy e - h) + t * cz e * (t * cz e)) with
      (t * t * (cx e * cx e + cy e * cy e + cz e * cz e) + 2 * t * (cx e * (b - a) - cy e * sq) + ((b - a) * (b - a) + sq * sq)) by (unfold a, b; ring).
    rewrite U, S. assert (M : cx e * (b - a) - cy e * sq = - m).
    { unfold e, m. cbn [cx cy]. replace (2 * b * sq / (rho * rho) * (b - a) - (2 * (b * b) - rho * rho) / (rho * rho) * sq) with (sq * (2 * b * (b - a) - (2 * (b * b) - rho * rho)) / (rho * rho)) by (field; lra). field. lra. }
    rewrite M. ring. }
  split; intros H; lra.
Qed.
Lemma other_sharp c' : let a := c' - c in (rho + 1e-12) * (rho + 1e-12) < rho * rho + a * (a - 2 * b) -> (rho * rho - b * b) * ((2 * a * b - rho * rho) * (2 * a * b - rho * rho)) <> rho * rho * (rho * rho) * (a * (a - 2 * b)) ->
  regular (ball rho h c') q e /\ clear0 (ball rho h c') q e.
Proof.
  intros a Hg Nt. pose proof sq_sq as S. assert (RR : 0 < rho * rho) by nra. set (m := (2 * a * b - rho * rho) * sq / (rho * rho)). assert (Em : m * (rho * rho) = (2 * a * b - rho * rho) * sq) by (unfold m; field; lra).
  assert (M2 : m * m * (rho * rho * (rho * rho)) = (rho * rho - b * b) * ((2 * a * b - rho * rho) * (2 * a * b - rho * rho))). { replace (m * m * (rho * rho * (rho * rho))) with ((m * (rho * rho)) * (m * (rho * rho))) by ring. rewrite Em. rewrite <- S. ring. }
  split.
  - split; [exact HR|]. intros Tg. apply tangent_disc in Tg; [|exact e_unit].
    assert (D : sdisc (mk3 c' h 0) rho q e = m * m - a * (a - 2 * b)).
    { unfold sdisc. assert (X : e ∙ (mk3 c' h 0 - q)%r3 = m). { unfold q, e, m, r3dot, r3sub. cbn [cx cy cz]. replace (x) with (b + c) by (unfold b; ring). unfold a. field. lra. }
      assert (Y : (mk3 c' h 0 - q)%r3 ∙ (mk3 c' h 0 - q)%r3 = a * (a - 2 * b) + rho * rho). { unfold q, r3dot, r3sub. cbn [cx cy cz]. replace (h - (h - sq)) with sq by ring. rewrite S. unfold a, b. ring. }
      first [rewrite X, Y|rewrite (dot_comm _ e), X, Y|idtac]. lra. }
    apply Nt. rewrite <- M2. assert (Z : m * m = a * (a - 2 * b)) by lra. rewrite Z. ring.
  - intros t H. apply other in H. fold a m in H. right. apply Rnot_le_lt. intros K.
    assert (W : m * m <= rho * rho + a * (a - 2 * b)).
    { assert (I : (rho * rho + a * (a - 2 * b) - m * m) * (rho * rho * (rho * rho)) = (rho * rho) * ((a * (rho * rho - 2 * (b * b)) + (rho * rho) * b) * (a * (rho * rho - 2 * (b * b)) + (rho * rho) * b)) / (rho * rho)) by
        (replace ((rho * rho + a * (a - 2 * b) - m * m) * (rho * rho * (rho * rho))) with ((rho * rho + a * (a - 2 * b)) * (rho * rho * (rho * rho)) - m * m * (rho * rho * (rho * rho))) by ring; rewrite M2; field; lra).
      assert (0 <= (rho * rho + a * (a - 2 * b) - m * m) * (rho * rho * (rho * rho))). { rewrite I. unfold Rdiv. apply Rmult_le_pos; [apply Rmult_le_pos; [lra|apply Rle_0_sqr]|left; apply Rinv_0_lt_compat; exact RR]. }
      assert (0 < rho * rho * (rho * rho)) by nra. nra. }
    set (g := a * (a - 2 * b)) in *. clearbody g m. assert (T1 : -1e-12 <= t <= 1e-12) by (unfold Rabs in K; destruct (Rcase_abs t); lra).
    assert (M : - (rho * rho + g + 1) < m < rho * rho + g + 1) by nra.
    set (w := sqrt (rho * rho + g)). assert (Sw : w * w = rho * rho + g) by (apply sqrt_sqrt; nra). assert (0 <= w) by apply sqrt_pos. assert (rho + 1e-12 < w) by nra. assert (Mw : - w <= m <= w) by nra.
    assert (Tm : t * m <= Rabs t * w).
    { apply Rle_trans with (Rabs (t * m)); [apply Rle_abs|]. rewrite Rabs_mult. apply Rmult_le_compat_l; [apply Rabs_pos|]. unfold Rabs. destruct (Rcase_abs m); lra. }
    assert (T2 : Rabs t * Rabs t = t * t) by (unfold Rabs; destruct (Rcase_abs t); ring). assert (0 < (w - Rabs t - rho) * (w - Rabs t + rho)) by (apply Rmult_lt_0_compat; lra). set (v := Rabs t) in *. clearbody v. lra.
Qed.
End Leg2.

Definition leaves_ball (rho h x c : R) : R3 := let b := x - c in mk3 (2 * b * sqrt (rho * rho - b * b) / (rho * rho)) ((2 * (b * b) - rho * rho) / (rho * rho)) 0.
Definition meets_ball (rho h x c : R) : R3 := mk3 x (h - sqrt (rho * rho - (x - c) * (x - c))) 0.
(** Any number of equal balls with centres (c, h, 0), united in any order: light along +y goes straight past them, or is reflected once by the ball it meets first. *)
Theorem C109_row : forall o a b t ix cs rho h x L (r : ray xr), let e := Bin o a b in let k := OCompound (mkCompound t "reflect" ix) in
  tree_of e t -> only OpUnion e -> solids e = map (ball rho h) cs -> 0 < rho -> rho + 1e-12 < h -> h < L -> ray_is r (mk3 x 0 0) up_y -> ray_type r <> "faerie_fire"%string -> blocked r = false ->
  (passes rho cs x -> departs k r L [] (mk3 x L 0) up_y) /\
  (forall c, meets_first rho cs x c -> let q := meets_ball rho h x c in let e' := leaves_ball rho h x c in is_unit e' /\ departs k r L [q] (at_t q e' (L - cy q)) e').
Proof.
  intros o a b t ix cs rho h x L r e k HT HO Hs HR Hh HL Hr Ty Hb.
  assert (Pr : forall s, In s (solids e) -> proper s) by (rewrite Hs; intros s I; apply in_map_iff in I; destruct I as (c & <- & _); split; [exact HR|exact I]).
  assert (Bn : forall pts q d', bounces (solids e) (mk3 x 0 0) up_y L pts q d' -> departs k r L pts q d' /\ is_unit d') by (intros pts q d' B; apply (C109_bounces o a b t ix _ _ _ _ _ _ HT HO Pr B r up_y_unit Hr Ty Hb)).
  split.
  - intros Ps. replace (mk3 x L 0) with (at_t (mk3 x 0 0) up_y L) by (unfold at_t, up_y, r3add, r3scale; cbn [cx cy cz]; f_equal; ring). apply Bn, B_free; rewrite ?Hs; [|lra|].
    + intros s I. apply in_map_iff in I. destruct I as (c & <- & I). apply ball_sharp; try assumption. specialize (Ps c I). lra.
    + intros s u I Hu Sf. apply in_map_iff in I. destruct I as (c & <- & I). apply ball_up in Sf; [|exact HR]. specialize (Ps c I). assert (Q : (x - c) * (x - c) <= rho * rho) by (pose proof (Rle_0_sqr (u - h)) as Q; unfold Rsqr in Q; lra).
      unfold Rabs in Ps. destruct (Rcase_abs (x - c)); nra.
  - intros c (Ic & Hc & Hf) q e'. set (b' := x - c) in *. set (sq := sqrt (rho * rho - b' * b')).
    assert (Eu : is_unit e') by (apply (e_unit rho h x c HR Hc)). split; [exact Eu|].
    pose proof (sq_pos rho x c Hc) as Ps. pose proof (sq_sq rho x c Hc) as Ss. fold b' in Ps, Ss. fold sq in Ps, Ss.
    assert (Lq : sq <= rho) by nra. assert (Eq : at_t (mk3 x 0 0) up_y (h - sq) = q) by apply q_at.
    assert (Sh : sharp (solids e) (mk3 x 0 0) up_y). { rewrite Hs. intros s I. apply in_map_iff in I. destruct I as (c' & <- & I). apply ball_sharp; try assumption. destruct (Req_dec c' c) as [->|N]; [|apply (Hf c' I N)]. fold b'. intros K. unfold Rabs in K. destruct (Rcase_abs b'); nra. }
    assert (On : surface (ball rho h c) q) by apply (q_on rho h x c HR Hc).
    assert (Later : forall c' u, In c' cs -> c' <> c -> surface (ball rho h c') (at_t (mk3 x 0 0) up_y u) -> h - sq < u).
    { intros c' u I N Sf. apply ball_up in Sf; [|exact HR]. destruct (Hf c' I N) as (_ & Lt & _). apply sq_lt_abs in Lt. apply Rnot_le_lt. intros K. assert (0 <= (h - u - sq) * (h - u + sq)) by (apply Rmult_le_pos; lra). nra. }
    assert (Lu : forall u, surface (ball rho h c) (at_t (mk3 x 0 0) up_y u) -> h - sq <= u).
    { intros u Sf. apply ball_up in Sf; [|exact HR]. fold b' in Sf. apply Rnot_lt_le. intros K. assert (0 < (h - u - sq) * (h - u + sq)) by (apply Rmult_lt_0_compat; lra). nra. }
    replace (cy q) with (h - sq) by reflexivity. rewrite <- Eq at 1. apply Bn. apply (B_turn _ _ _ _ (h - sq) (ball rho h c)); [exact Sh|rewrite Hs; now apply in_map|lra|rewrite Eq; exact On| | |].
    + rewrite Hs. intros s u I Hu Sf. apply in_map_iff in I. destruct I as (c' & <- & I). destruct (Req_dec c' c) as [->|N]; [apply Lu in Sf; lra|apply (Later c' u I N) in Sf; lra].
    + rewrite Hs. intros s I Sf. apply in_map_iff in I. destruct I as (c' & <- & I). destruct (Req_dec c' c) as [->|N]; [reflexivity|apply (Later c' _ I N) in Sf; lra].
    + rewrite Eq. assert (Er : refl (inward (ball rho h c) q) up_y = e') by apply (e_refl rho h x c HR Hc). rewrite Er. apply B_free; [|lra|].
      * rewrite Hs. intros s I. apply in_map_iff in I. destruct I as (c' & <- & I). destruct (Req_dec c' c) as [->|N].
        { split; [split; [exact HR|]|].
          - intros Tg. apply tangent_disc in Tg; [|exact Eu]. unfold sdisc in Tg. assert (X : e' ∙ (mk3 c h 0 - q)%r3 = - sq).
            { unfold e', q, leaves_ball, meets_ball, r3dot, r3sub. fold b'. fold sq. cbn [cx cy cz]. replace (c - x) with (- b') by (unfold b'; ring). replace (h - (h - sq)) with sq by ring. field. lra. }
            assert (Y : (mk3 c h 0 - q)%r3 ∙ (mk3 c h 0 - q)%r3 = rho * rho). { unfold q, meets_ball, r3dot, r3sub. fold b'. fold sq. cbn [cx cy cz]. replace (h - (h - sq)) with sq by ring. rewrite Ss. unfold b'. ring. }
            rewrite X, Y in Tg. nra.
          - intros u Sf. apply (other rho h x c HR Hc) in Sf. fold b' in Sf. fold sq in Sf. replace (c - c) with 0 in Sf by ring.
            assert (K : u * (u + 2 * sq) = 0). { rewrite <- Sf. field. lra. } apply Rmult_integral in K. destruct K as [K|K]; [now left|right]. replace u with (- (2 * sq)) by lra. rewrite Rabs_Ropp, Rabs_right; lra. }
        { destruct (Hf c' I N) as (_ & _ & Hg & Hn). apply (other_sharp rho h x c HR Hc); [exact Hg|]. fold b'. destruct Hn as [Hn|[_ Hn]]; [apply Rlt_not_eq; exact Hn|exact Hn]. }
      * rewrite Hs. intros s u I Hu Sf. apply in_map_iff in I. destruct I as (c' & <- & I). apply (other rho h x c HR Hc) in Sf. fold b' in Sf. fold sq in Sf. destruct (Req_dec c' c) as [->|N].
        { replace (c - c) with 0 in Sf by ring. assert (K : u * (u + 2 * sq) = 0) by (rewrite <- Sf; field; lra). nra. }
        { destruct (Hf c' I N) as (_ & Lt & Hg & Hn). set (a' := c' - c) in *. set (g := a' * (a' - 2 * b')) in *. assert (Pg : 0 < g) by nra. set (m := (2 * a' * b' - rho * rho) * sq / (rho * rho)) in Sf. assert (RR : 0 < rho * rho) by nra.
          assert (Em : m * (rho * rho) = (2 * a' * b' - rho * rho) * sq) by (unfold m; field; lra). clearbody m.
          destruct Hn as [Hn|[Hn _]].
          - assert (M2 : m * m * (rho * rho * (rho * rho)) < rho * rho * (rho * rho) * g). { replace (m * m * (rho * rho * (rho * rho))) with ((m * (rho * rho)) * (m * (rho * rho))) by ring. rewrite Em. eapply Rle_lt_trans; [right|exact Hn]. rewrite <- Ss. ring. }
            assert (m * m < g). { apply Rmult_lt_reg_r with (rho * rho * (rho * rho)); [nra|]. lra. } pose proof (Rle_0_sqr (u - m)) as Q. unfold Rsqr in Q. lra.
          - assert (m <= 0). { apply Rmult_le_reg_r with (rho * rho); [exact RR|]. rewrite Em. nra. } nra. }
Qed.
Print Assumptions C109_row.

(** ** script_testCompound.py *)
(** where a ray that starts at (x, 0, 0) ends *)
Definition comes_out (rho h L : R) (cs : list R) (x : R) (r : ray xr) : Prop :=
  (passes rho cs x /\ direction r = fv up_y /\ point_history r = [fv (mk3 x 0 0); fv (mk3 x L 0)]) \/
  (exists c, meets_first rho cs x c /\ let q := meets_ball rho h x c in let e := leaves_ball rho h x c in
     surface (ball rho h c) q /\ is_unit e /\ direction r = fv e /\ point_history r = [fv (mk3 x 0 0); fv q; fv (at_t q e (L - cy q))]).
Theorem C109_compound : forall fuel c1 c2 c3 h rho L x0 x1 n z, (2 <= n)%nat -> 0 < rho -> rho + 1e-12 < h -> h < L -> L / 1e-12 + 1 < INR fuel -> z = 0 ->
  (forall x, (exists i, (i < n)%nat /\ x = x0 + INR i * (x1 - x0) / INR (n - 1)) -> passes rho [c1; c2; c3] x \/ exists c, meets_first rho [c1; c2; c3] x c) ->
  exists xs rays k, evenly x0 x1 n xs /\
    compound_script fuel (fv (mk3 c1 h 0)) (fv (mk3 c2 h 0)) (fv (mk3 c3 h 0)) (Fin (2 * rho)) (Fin L) (Fin x0) (Fin x1) n (Fin z) (Fin z) 1 = Ok (rays, [k]) /\ Forall2 (comes_out rho h L [c1; c2; c3]) xs rays.
Proof.
  intros fuel c1 c2 c3 h rho L x0 x1 n z Hn HR Hh HL Hf -> Hx.
  assert (Es : forall c, mk_sphere (fv (mk3 c h 0)) None (Some (Fin (2 * rho))) = Ok (mkSphere (fv (mk3 c h 0)) (Fin rho) (Fin (2 * rho)))).
  { intros c. unfold mk_sphere. rewrite check_D_only. cbn [bind]. replace (2 * rho / 2) with rho by lra. reflexivity. }
  assert (Tb : forall c, tree_of (Leaf (ball rho h c)) (mk_tree (KShape (SSphere (mkSphere (fv (mk3 c h 0)) (Fin rho) (Fin (2 * rho))))))) by (intros c; apply (TO_ball (mk3 c h 0) rho None (Some (2 * rho))); [cbn; lra|apply Es]).
  set (e := Bin OpUnion (Leaf (ball rho h c1)) (Bin OpUnion (Leaf (ball rho h c2)) (Leaf (ball rho h c3)))).
  destruct (linspace_fin x0 x1 n Hn) as (xs & Ex & Ev). exists xs.
  assert (Hxs : forall x, In x xs -> passes rho [c1; c2; c3] x \/ exists c, meets_first rho [c1; c2; c3] x c).
  { intros x I. apply Hx. destruct (In_nth_error _ _ I) as (i & Ei). exists i. split; [rewrite <- (proj1 Ev); apply nth_error_Some; congruence|apply (proj2 (proj2 Ev) ltac:(lia) i x Ei)]. }
  assert (Ez : linspace (Fin 0) (Fin 0) 1 = [Fin 0]) by (unfold linspace; cbn [seq map Z.of_nat Pos.of_succ_nat Z.ltb Z.compare Pos.compare Pos.compare_cont andb]; rewrite !nofZ_fin, nsub_fin, nmul_fin, nadd_fin; do 2 f_equal; ring).
  set (leaf c := mk_tree (KShape (SSphere (mkSphere (fv (mk3 c h 0)) (Fin rho) (Fin (2 * rho)))))).
  set (t := Node (KStr "union") (leaf c1) (Node (KStr "union") (leaf c2) (leaf c3))). set (k := OCompound (mkCompound t "reflect" (dec 15 1))).
  assert (HT : tree_of e t) by (apply TO_bin; [apply Tb|apply TO_bin; apply Tb]).
  assert (HO : only OpUnion e) by (repeat split).
  assert (G : exists rays, run_all fuel (flat_map (fun x => map (fun z => mk_ray (V x (nofZ 0) z) (V (nofZ 0) (nofZ 1) (nofZ 0)) (nofZ 532) (nofZ 0) "normal") [Fin 0]) (map Fin xs)) (Fin L) [k] None = Ok (rays, [k]) /\ Forall2 (comes_out rho h L [c1; c2; c3]) xs rays).
  { clear Ex Ev Hx. induction xs as [|x xs IH]; [exists []; split; [reflexivity|constructor]|]. destruct IH as (rays & Ra & Fa); [intros y I; apply Hxs; now right|].
    cbn [map flat_map app]. cbn [run_all]. set (r0 := mk_ray _ _ _ _ _). assert (Hr : ray_is r0 (mk3 x 0 0) up_y) by (unfold r0; rewrite !nofZ_fin; split; [reflexivity|exact (unit_vector_unit up_y up_y_unit)]).
    destruct (C109_row OpUnion _ _ t (dec 15 1) [c1; c2; c3] rho h x L r0 HT HO eq_refl HR Hh HL Hr ltac:(discriminate) eq_refl) as [K1 K2].
    assert (X : exists r', run fuel r0 (Fin L) [k] None = Ok (r', [k]) /\ comes_out rho h L [c1; c2; c3] x r').
    { destruct (Hxs x (or_introl eq_refl)) as [P|(c & M)].
      - destruct (K1 P) as (r' & Run & (_ & Hd) & Hh'). exists r'. split; [apply Run; exact Hf|]. left. split; [exact P|]. split; [exact Hd|]. rewrite Hh'. cbn [map app]. unfold r0. cbn [mk_ray point_history app]. rewrite nofZ_fin. reflexivity.
      - destruct (K2 c M) as (Ue & r' & Run & (_ & Hd) & Hh'). exists r'. split; [apply Run; exact Hf|]. right. exists c. split; [exact M|]. split; [apply q_on; [exact HR|exact (proj1 (proj2 M))]|]. split; [exact Ue|]. split; [exact Hd|]. rewrite Hh'. cbn [map app]. unfold r0. cbn [mk_ray point_history app]. rewrite nofZ_fin. reflexivity. }
    destruct X as (r' & Run & Co). exists (r' :: rays). rewrite Run. cbn [bind]. unfold app in Ra. cbn [map flat_map] in Ra. rewrite Ra. split; [reflexivity|]. now constructor. }
  destruct G as (rays & Ra & Fa). exists rays, k. split; [exact Ev|]. split; [|exact Fa].
  unfold compound_script, compound_scene. rewrite !Es. cbn [bind insertLeft insertRight mk_tree at_path]. rewrite Ex, Ez. exact Ra.
Qed.
Print Assumptions C109_compound.
(** with the numbers of the script *)
Lemma abs_lt_lt x y : 0 <= y -> x * x < y * y -> Rabs x < y. Proof. intros. unfold Rabs. destruct (Rcase_abs x); nra. Qed.
Theorem C109_script : forall i, (i < 76)%nat -> let x := -20 + INR i * (55 - -20) / INR (76 - 1) in
  ((i <= 7 \/ 63 <= i)%nat -> passes (25 / 2) [0; 15; 30] x) /\ ((8 <= i <= 27)%nat -> meets_first (25 / 2) [0; 15; 30] x 0) /\ ((28 <= i <= 42)%nat -> meets_first (25 / 2) [0; 15; 30] x 15) /\ ((43 <= i <= 62)%nat -> meets_first (25 / 2) [0; 15; 30] x 30).
Proof.
  intros i Hi x. assert (Ex : x = INR i - 20). { unfold x. replace (INR (76 - 1)) with 75 by (cbn; lra). field. } clearbody x. rewrite INR_IZR_INZ in Ex.
  assert (Rl : forall z : Z, (z <= Z.of_nat i)%Z -> IZR z <= IZR (Z.of_nat i)) by (intros; now apply IZR_le). assert (Rg : forall z : Z, (Z.of_nat i <= z)%Z -> IZR (Z.of_nat i) <= IZR z) by (intros; now apply IZR_le).
  split; [|split; [|split]].
  - intros [H|H] c [<-|[<-|[<-|[]]]]; [pose proof (Rg 7%Z ltac:(lia))|pose proof (Rg 7%Z ltac:(lia))|pose proof (Rg 7%Z ltac:(lia))|pose proof (Rl 63%Z ltac:(lia))|pose proof (Rl 63%Z ltac:(lia))|pose proof (Rl 63%Z ltac:(lia))]; unfold Rabs; destruct (Rcase_abs _); lra.
  - intros H. do 28 (try (destruct i as [|i]; [try lia; cbn in Ex|])). all: try lia.
    all: rewrite Ex; split; [now left|]; split; [lra|]; intros c [<-|[<-|[<-|[]]]] Nc; try (elim Nc; reflexivity); (split; [unfold Rabs; destruct (Rcase_abs _); lra|]); (split; [unfold Rabs; destruct (Rcase_abs _), (Rcase_abs _); lra|]); (split; [lra|first [left; lra|right; split; lra]]).
  - intros H. do 43 (try (destruct i as [|i]; [try lia; cbn in Ex|])). all: try lia.
    all: rewrite Ex; split; [right; now left|]; split; [lra|]; intros c [<-|[<-|[<-|[]]]] Nc; try (elim Nc; reflexivity); (split; [unfold Rabs; destruct (Rcase_abs _); lra|]); (split; [unfold Rabs; destruct (Rcase_abs _), (Rcase_abs _); lra|]); (split; [lra|first [left; lra|right; split; lra]]).
  - intros H. do 63 (try (destruct i as [|i]; [try lia; cbn in Ex|])). all: try lia.
    all: rewrite Ex; split; [right; right; now left|]; split; [lra|]; intros c [<-|[<-|[<-|[]]]] Nc; try (elim Nc; reflexivity); (split; [unfold Rabs; destruct (Rcase_abs _); lra|]); (split; [unfold Rabs; destruct (Rcase_abs _), (Rcase_abs _); lra|]); (split; [lra|first [left; lra|right; split; lra]]).
Qed.
Print Assumptions C109_script.
(** script_testBinaryTree.py, for every number type *)
Theorem C109_binarytree : forall (T : Type) (N : Num T) str (a b c d : vec T) D, exists sa sb sc sd, mk_sphere a None (Some D) = Ok sa /\ mk_sphere b None (Some D) = Ok sb /\ mk_sphere c None (Some D) = Ok sc /\ mk_sphere d None (Some D) = Ok sd /\
  let s x := str (SSphere x) in binarytree_script str a b c d D = Ok (PStr ("( " ++ ("( " ++ ("( " ++ s sc ++ " n " ++ s sd ++ " )") ++ " \ " ++ s sb ++ " )") ++ " u " ++ s sa ++ " )")%string).
Proof. intros. do 4 eexists. repeat (split; [reflexivity|]). reflexivity. Qed.
Print Assumptions C109_binarytree.
