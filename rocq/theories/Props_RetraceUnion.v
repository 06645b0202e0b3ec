(** C111, continued: light retraces its path between the solids of a union. *)
From Coq Require Import Reals ZArith Lra Lia Psatz String List Bool.
From Verif Require Import PyErr Num Vec Shapes Csg Optics Spec XReal RVec VecProofs AngleProofs FlatProofs SphereProofs CylProofs ShapeExtra
  TreeProofs SolidProofs CsgProofs CsgStart CsgExact RayProofs RunGen NoFuel RunXr OpticHits StateXr OrderProofs FlatOptic Props_Ray Props_Loop Props_Run Props_Rehit SceneProofs Props_Scene
  Props_Path Props_Images Props_Reverse Props_Compound Props_Ball Props_Singlet Props_Retrace Props_UnionDiff Props_Single Props_Unions.
Import ListNotations.
Local Open Scope R_scope.

(** ** Between the solids of a union *)
(** a leg of length t from p in direction d: it touches no surface, meets none on the way, and none within 1e-12 of its ends *)
Definition leg_of (l : list solid) (p d : R3) (t : R) : Prop := 0 < t /\ sharp l p d /\ sharp l (at_t p d t) d /\ none_before l p d t.
(** a path over the points pts, each on exactly one surface, with specular reflection there *)
Inductive path (l : list solid) : R3 -> R3 -> R -> list R3 -> R3 -> R3 -> Prop :=
| path_last p d t : leg_of l p d t -> path l p d t [] (at_t p d t) d
| path_turn p d t s m pts q d' : leg_of l p d t -> In s l -> surface s (at_t p d t) -> (forall s', In s' l -> surface s' (at_t p d t) -> s' = s) ->
    path l (at_t p d t) (refl (inward s (at_t p d t)) d) m pts q d' -> path l p d (t + m) (at_t p d t :: pts) q d'.
Definition off_all (l : list solid) (p : R3) : Prop := forall s, In s l -> ~ surface s p.

Lemma at_neg p d t : at_t p (- d)%r3 t = at_t p d (- t). Proof. unfold at_t. r3_ring. Qed.
Lemma regular_neg s p d : regular s p d -> regular s p (- d)%r3.
Proof.
  destruct s as [c rad|c v rad]; cbn [regular].
  - intros [H N]. split; [exact H|]. unfold tangent, axis_dist in *. rewrite perp_opp. exact N.
  - intros (H & N & C). split; [exact H|]. split; [rewrite parallel_neg; exact N|]. intros (_ & t & On & F). apply C. split; [exact N|]. exists (- t). rewrite <- at_neg. split; [exact On|].
    intros t' Nt. replace t' with (- - t') by ring. rewrite <- at_neg. apply F. lra.
Qed.
Lemma sharp_neg l p d : sharp l p d -> sharp l p (- d)%r3.
Proof. intros H s Is. destruct (H s Is) as [A B]. split; [apply regular_neg, A|]. intros t St. rewrite at_neg in St. destruct (B _ St) as [E|E]; [left; lra|right; rewrite Rabs_Ropp in E; exact E]. Qed.
Lemma leg_back l p d t : leg_of l p d t -> leg_of l (at_t p d t) (- d)%r3 t.
Proof.
  intros (H & A & B & N). split; [exact H|]. split; [apply sharp_neg, B|]. rewrite at_back. replace (t - t) with 0 by ring. rewrite at_t_0. split; [apply sharp_neg, A|].
  intros s u Is Hu. rewrite at_back. apply N; [exact Is|lra].
Qed.
Lemma path_pos l p d m pts q d' : path l p d m pts q d' -> 0 < m.
Proof. induction 1 as [? ? ? (? & _)|? ? ? ? ? ? ? ? (? & _)]; lra. Qed.
Lemma path_bounces l p d m pts q d' : path l p d m pts q d' -> off_all l q -> bounces l p d m pts q d'.
Proof.
  induction 1 as [p d t (H & A & _ & N)|p d t s m pts q d' (H & A & _ & N) Is Sf Un P IH]; intros Off.
  - constructor; [exact A|exact H|]. intros s u Is Hu Su. destruct (Req_dec u t) as [->|Ne]; [exact (Off s Is Su)|]. apply (N s u Is); [lra|exact Su].
  - pose proof (path_pos _ _ _ _ _ _ _ P). eapply B_turn; try eassumption; [lra|]. replace (t + m - t) with m by ring. apply IH, Off.
Qed.
Lemma path_snoc l p d m pts y v s t : path l p d m pts y v -> In s l -> surface s y -> (forall s', In s' l -> surface s' y -> s' = s) -> leg_of l y (refl (inward s y) v) t ->
  path l p d (m + t) (pts ++ [y]) (at_t y (refl (inward s y) v) t) (refl (inward s y) v).
Proof.
  induction 1 as [p d t0 Lg|p d t0 s0 m pts q d' Lg Is Sf Un P IH]; intros Is' Sf' Un' Lg'.
  - cbn [app]. apply (path_turn l p d t0 s t); [exact Lg|exact Is'|exact Sf'|exact Un'|]. constructor. exact Lg'.
  - rewrite Rplus_assoc. cbn [app]. apply (path_turn l p d t0 s0 (m + t)); [exact Lg|exact Is|exact Sf|exact Un|]. apply IH; assumption.
Qed.
Lemma path_back l : (forall s, In s l -> proper s) -> forall p d m pts q d', path l p d m pts q d' -> path l q (- d')%r3 m (rev pts) p (- d)%r3.
Proof.
  intros Pr. induction 1 as [p d t Lg|p d t s m pts q d' Lg Is Sf Un P IH].
  - replace p with (at_t (at_t p d t) (- d)%r3 t) at 2 by (rewrite at_back; replace (t - t) with 0 by ring; apply at_t_0). cbn [rev]. constructor. apply leg_back, Lg.
  - cbn [rev]. rewrite Rplus_comm. pose proof (inward_unit s _ (Pr s Is) Sf) as Uu.
    assert (E : refl (inward s (at_t p d t)) (- refl (inward s (at_t p d t)) d)%r3 = (- d)%r3) by (rewrite refl_neg, refl_invol by exact Uu; reflexivity).
    assert (Ep : p = at_t (at_t p d t) (- d)%r3 t) by (rewrite at_back; replace (t - t) with 0 by ring; symmetry; apply at_t_0).
    rewrite Ep at 2. rewrite <- E. apply path_snoc; try assumption. rewrite E. apply leg_back, Lg.
Qed.

(** Light between the balls and cylinders of a reflecting union retraces its path, over any number of reflections. *)
Theorem C111_union : forall o a b t ix p d L pts q d', let e := Bin o a b in let k := OCompound (mkCompound t "reflect" ix) in tree_of e t -> only OpUnion e -> (forall s, In s (solids e) -> proper s) ->
  path (solids e) p d L pts q d' -> off_all (solids e) p -> off_all (solids e) q -> is_unit d ->
  forall r r2 : ray xr, ray_is r p d -> ray_is r2 q (- d')%r3 -> blocked r = false -> blocked r2 = false -> ray_type r <> "faerie_fire"%string -> ray_type r2 <> "faerie_fire"%string ->
  departs k r L pts q d' /\ departs k r2 L (rev pts) p (- d)%r3.
Proof.
  intros o a b t ix p d L pts q d' e k HT HO Pr P Op Oq Ud r r2 Hr Hr2 Hb Hb2 Ty Ty2.
  destruct (C109_bounces o a b t ix p d L pts q d' HT HO Pr (path_bounces _ _ _ _ _ _ _ P Oq) r Ud Hr Ty Hb) as [D1 Ue]. split; [exact D1|].
  exact (proj1 (C109_bounces o a b t ix q (- d')%r3 L (rev pts) p (- d)%r3 HT HO Pr (path_bounces _ _ _ _ _ _ _ (path_back _ Pr _ _ _ _ _ _ P) Op) r2 (unit_opp d' Ue) Hr2 Ty2 Hb2)).
Qed.
Print Assumptions C111_union.
(** the hypotheses are met: two unit balls around (3, 0, 0) and (-3, 0, 0), light on the line between their centres, reflected once by each *)
Definition ball_x (c : R) : solid := Ball (mk3 c 0 0) 1.
Lemma ball_x_on c x (k t : R) : k * k = 1 -> surface (ball_x c) (at_t (mk3 x 0 0) (mk3 k 0 0) t) <-> x + k * t = c + 1 \/ x + k * t = c - 1.
Proof.
  intros K. cbn [surface ball_x]. unfold on_sphere. set (v := x + k * t - c).
  assert (E : dist3 (at_t (mk3 x 0 0) (mk3 k 0 0) t) (mk3 c 0 0) = Rabs v). { unfold dist3. match goal with |- len ?y = _ => change (len y) with (sqrt (y ∙ y)) end. rewrite <- sqrt_Rsqr_abs. f_equal. unfold Rsqr, v, at_t, r3dot. cbn. ring. }
  rewrite E. unfold v, Rabs. destruct Rcase_abs; split; intros H; lra.
Qed.
Lemma ball_x_sharp x k : k = 1 \/ k = -1 -> (forall c, c = 3 \/ c = -3 -> (x = c + 1 \/ 1e-12 < Rabs (c + 1 - x)) /\ (x = c - 1 \/ 1e-12 < Rabs (c - 1 - x))) -> sharp [ball_x 3; ball_x (-3)] (mk3 x 0 0) (mk3 k 0 0).
Proof.
  intros K H s Is. assert (Es : exists c, (c = 3 \/ c = -3) /\ s = ball_x c) by (destruct Is as [<-|[<-|[]]]; eauto). destruct Es as (c & Hc & ->). assert (K2 : k * k = 1) by (destruct K as [->| ->]; ring). split.
  - split; [lra|]. unfold tangent, axis_dist. replace (perp (mk3 k 0 0) (mk3 c 0 0 - mk3 x 0 0)) with r3zero; [rewrite len_zero_r3, Rabs_right by lra; lra|]. unfold perp, r3dot, r3zero. cbn. symmetry. destruct K as [->| ->]; unfold r3sub, r3scale; cbn; f_equal; ring.
  - intros t St. apply (ball_x_on c x k t K2) in St. destruct (H c Hc) as [H1 H2]. assert (A : Rabs t = Rabs (k * t)) by (rewrite Rabs_mult; destruct K as [->| ->]; [rewrite Rabs_R1|replace (-1) with (- (1)) by ring; rewrite Rabs_Ropp, Rabs_R1]; ring). rewrite A.
    destruct St as [St|St]; [destruct H1 as [E|E]; [left|right; replace (k * t) with (c + 1 - x) by lra; exact E]|destruct H2 as [E|E]; [left|right; replace (k * t) with (c - 1 - x) by lra; exact E]].
    all: assert (k * t = 0) by lra; destruct K as [->| ->]; lra.
Qed.
Lemma ball_x_leg x k t : k = 1 \/ k = -1 -> 0 < t -> -2 <= x <= 2 -> -2 <= x + k * t <= 2 -> (x = 2 \/ x = -2 \/ -1 <= x <= 1) -> (x + k * t = 2 \/ x + k * t = -2 \/ -1 <= x + k * t <= 1) -> leg_of [ball_x 3; ball_x (-3)] (mk3 x 0 0) (mk3 k 0 0) t.
Proof.
  intros K Ht Hx Hy Cx Cy. assert (Sh : forall z, -2 <= z <= 2 -> (z = 2 \/ z = -2 \/ -1 <= z <= 1) -> sharp [ball_x 3; ball_x (-3)] (mk3 z 0 0) (mk3 k 0 0)).
  { intros z Hz Cz. apply ball_x_sharp; [exact K|]. intros c [->| ->]; (split; [|]). all: match goal with |- ?a = ?b \/ _ => destruct (Req_dec a b) as [Q|Q]; [left; exact Q|right; unfold Rabs; destruct Rcase_abs; lra] end. }
  split; [exact Ht|]. split; [apply Sh; assumption|]. assert (E : at_t (mk3 x 0 0) (mk3 k 0 0) t = mk3 (x + k * t) 0 0) by (unfold at_t; apply r3_ext; cbn; ring). rewrite E. split; [apply Sh; assumption|].
  intros s u Is Hu Su. assert (Es : exists c, (c = 3 \/ c = -3) /\ s = ball_x c) by (destruct Is as [<-|[<-|[]]]; eauto). destruct Es as (c & Hc & ->). apply ball_x_on in Su; [|destruct K as [->| ->]; ring]. destruct K as [->| ->], Hc as [->| ->], Su; lra.
Qed.
Example C111_union_hyp : path [ball_x 3; ball_x (-3)] (mk3 0 0 0) (mk3 1 0 0) (2 + (4 + 1)) [mk3 2 0 0; mk3 (-2) 0 0] (mk3 (-1) 0 0) (mk3 1 0 0) /\ off_all [ball_x 3; ball_x (-3)] (mk3 0 0 0) /\ off_all [ball_x 3; ball_x (-3)] (mk3 (-1) 0 0) /\
  exists t, tree_of (Bin OpUnion (Leaf (ball_x 3)) (Leaf (ball_x (-3)))) t.
Proof.
  assert (At : forall x k t, at_t (mk3 x 0 0) (mk3 k 0 0) t = mk3 (x + k * t) 0 0) by (intros; unfold at_t; apply r3_ext; cbn; ring).
  assert (On : forall c x, surface (ball_x c) (mk3 x 0 0) <-> x = c + 1 \/ x = c - 1). { intros c x. replace (mk3 x 0 0) with (at_t (mk3 x 0 0) (mk3 1 0 0) 0) by (rewrite At; f_equal; ring). rewrite ball_x_on by ring. split; intros [H|H]; lra. }
  assert (Rf : forall c x k, (x = c + 1 \/ x = c - 1) -> refl (inward (ball_x c) (mk3 x 0 0)) (mk3 k 0 0) = mk3 (- k) 0 0). { intros c x k H. unfold refl, inward, ball_x, r3dot. apply r3_ext; cbn; destruct H as [->| ->]; field. }
  split; [|split; [|split]].
  - assert (E1 : at_t (mk3 0 0 0) (mk3 1 0 0) 2 = mk3 2 0 0) by (rewrite At; f_equal; lra). assert (E2 : at_t (mk3 2 0 0) (mk3 (-1) 0 0) 4 = mk3 (-2) 0 0) by (rewrite At; f_equal; lra). assert (E3 : at_t (mk3 (-2) 0 0) (mk3 1 0 0) 1 = mk3 (-1) 0 0) by (rewrite At; f_equal; lra).
    rewrite <- E1. apply (path_turn _ _ _ 2 (ball_x 3)); [apply ball_x_leg; lra|left; reflexivity|rewrite E1; apply On; lra| |].
    { rewrite E1. intros s' [<-|[<-|[]]] S'; [reflexivity|]. apply On in S'. lra. }
    rewrite E1, (Rf 3 2 1) by lra. replace (- (1)) with (-1) by ring. rewrite <- E2. apply (path_turn _ _ _ 4 (ball_x (-3))); [apply ball_x_leg; lra|right; left; reflexivity|rewrite E2; apply On; lra| |].
    { rewrite E2. intros s' [<-|[<-|[]]] S'; [|reflexivity]. apply On in S'. lra. }
    rewrite E2, (Rf (-3) (-2) (-1)) by lra. replace (- (-1)) with 1 by ring. rewrite <- E3. apply path_last. apply ball_x_leg; lra.
  - intros s [<-|[<-|[]]] S; apply On in S; lra.
  - intros s [<-|[<-|[]]] S; apply On in S; lra.
  - assert (T : forall c, exists t, tree_of (Leaf (ball_x c)) t). { intros c. eexists. eapply TO_ball with (Ro := Some 1) (Do := None); [reflexivity|]. unfold mk_sphere. cbn [fo option_map]. rewrite check_R_only. reflexivity. }
    destruct (T 3) as [a Ha], (T (-3)) as [b Hb]. eexists. apply TO_bin; eassumption.
Qed.
