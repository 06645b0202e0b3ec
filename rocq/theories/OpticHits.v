(** What the optics built by the constructors report, and what they do to the ray: points on the optic's surface,
    unit normals, unit directions. *)
From Coq Require Import Reals ZArith Lra Lia Psatz String List Bool.
From Verif Require Import PyErr Num Vec Shapes Csg Optics Spec XReal RVec VecProofs AngleProofs FlatProofs SphereProofs CylProofs ShapeExtra
  TreeProofs SolidProofs CsgProofs RayProofs RunGen RunXr.
Import ListNotations.
Local Open Scope R_scope.

(* ---- trees: whatever holds of every pair (point, normal) reported by the leaves holds of the result ---- *)
Section Pairs.
Context {T : Type} {N : Num T}.
Variable P : vec T -> option (vec T) -> Prop.
Definition pair_ok (x n : option (vec T)) : Prop := forall v, x = Some v -> P v n.
Definition pairs_ok (h : hit6 T) : Prop := pair_ok (h6_p1 h) (h6_n1 h) /\ pair_ok (h6_p2 h) (h6_n2 h).
Lemma pair_none n : pair_ok None n. Proof. intros v; discriminate. Qed.
Lemma helper_pairs h r m x n dd k : pairs_ok h -> helper_findIntersects h r m = Ok (x, n, dd, k) -> pair_ok x n.
Proof.
  intros [A B]. unfold helper_findIntersects. destruct (h6_p1 h) as [p1|] eqn:E1, (h6_p2 h) as [p2|] eqn:E2; try discriminate.
  - destruct m; [destruct (nlt _ _)|destruct (ngt _ _)]; intros E; injection E as <- <- <- <-; assumption.
  - intros E; injection E as <- <- <- <-; assumption.
  - intros E; injection E as <- <- <- <-. apply pair_none.
Qed.
Ltac pairs := repeat (match goal with
  | H : bind _ _ = Ok _ |- _ => let a := fresh "a" in let E := fresh "E" in apply bind_ok in H; destruct H as (a & E & H); cbn beta in H
  | H : (let '(_, _) := ?p in _) = Ok _ |- _ => destruct p; cbn beta iota in H
  | H : (if ?b then _ else _) = Ok _ |- _ => destruct b
  | H : (match ?o with Some _ => _ | None => _ end) = Ok _ |- _ => destruct o eqn:?
  | H : Err _ = Ok _ |- _ => discriminate H
  | H : Ok _ = Ok _ |- _ => injection H; clear H; intros; subst
  end); split; cbn [h6_p1 h6_p2 h6_n1 h6_n2]; try apply pair_none; try (eapply helper_pairs; [|eassumption]; assumption).
Lemma oper_pairs k f a b r h : csg_oper k = Ok f -> pairs_ok a -> pairs_ok b -> f a b r = Ok h -> pairs_ok h.
Proof.
  unfold csg_oper. destruct k as [s|]; [|discriminate]. destruct (String.eqb s "union"); [|destruct (String.eqb s "difference"); [|destruct (String.eqb s "intersect"); [|discriminate]]];
  intros E; injection E as <-; intros A B H.
  - unfold operCsgUnion in H. pairs.
  - unfold operCsgDifference in H. pairs.
  - unfold operCsgIntersect in H. pairs.
Qed.
End Pairs.

(** the reported pair (x, n), if x is finite: on S, a unit normal, and ahead of the start unless the line touches *)
Definition Pq (S : R3 -> Prop) (G : Prop) (p d : R3) (x : vec xr) (n : option (vec xr)) : Prop :=
  forall q, x = fv q -> S q /\ (exists u, n = Some (fv u) /\ is_unit u) /\ exists t, q = at_t p d t /\ (1e-12 < t \/ G).
Lemma Pq_weaken (S S' : R3 -> Prop) (G G' : Prop) p d x n : (forall q, S q -> S' q) -> (G -> G') -> Pq S G p d x n -> Pq S' G' p d x n.
Proof. intros HS HG H q E. destruct (H q E) as (A & B & t & C & [L|L]); split; auto; split; auto; exists t; auto. Qed.
Lemma pairs_weaken (P Q : vec xr -> option (vec xr) -> Prop) h : (forall x n, P x n -> Q x n) -> pairs_ok P h -> pairs_ok Q h.
Proof. intros H [A B]. split; intros v E; apply H; [apply A|apply B]; exact E. Qed.

Lemma Pq_point (S : R3 -> Prop) (G : Prop) p d t n : S (at_t p d t) -> (exists u, n = Some (fv u) /\ is_unit u) -> 1e-12 < t \/ G ->
  Pq S G p d (fv (at_t p d t)) n.
Proof. intros HS HN HT q E. apply fv_inj in E. subst q. eauto. Qed.
Lemma pair_some (P : vec xr -> option (vec xr) -> Prop) x n : P x n -> pair_ok P (Some x) n.
Proof. intros H v E. injection E as <-. exact H. Qed.

Lemma sphere_pairs c rad D p d r : rad <> 0 -> is_unit d -> ray_is r p d ->
  pairs_ok (Pq (on_sphere c (Rabs rad)) (tangent c rad p d) p d) (sphere_test_intersect (sph c rad D) r).
Proof.
  intros HR Hd Hr.
  assert (Nm : forall x, on_sphere c (Rabs rad) x -> exists u, Some (sphere_normal (sph c rad D) (fv x)) = Some (fv u) /\ is_unit u).
  { intros x O. destruct (sphere_normal_on c rad D x HR O) as [-> U]. eauto. }
  destruct (sphere_cases c rad D p d r Hd Hr).
  - rewrite SR_res. cbv zeta. destruct (Rltb_spec 1e-12 t0); [|destruct (Rltb_spec 1e-12 t1)]; split; cbn [h6_p1 h6_p2 h6_n1 h6_n2]; try apply pair_none;
    apply pair_some, Pq_point; try (apply SR_on; auto); try (apply Nm, SR_on; auto); left; lra.
  - rewrite ST_res. split; [|apply pair_none]. apply pair_some, Pq_point; [apply ST_on; reflexivity|apply Nm, ST_on; reflexivity|auto].
  - rewrite SM_res. split; apply pair_none.
Qed.
Lemma cyl_pairs c u rad D pl p d r h : 0 < rad -> is_unit u -> is_unit d -> ray_is r p d ->
  infcyl_test_intersect (cyl c u rad D pl) r = Ok h -> pairs_ok (Pq (on_cylinder c u rad) (ctangent c u rad p d) p d) h.
Proof.
  intros HR Hu Hd Hr E.
  assert (Nm : forall x, on_cylinder c u rad x -> exists v, Some (infcyl_normal (cyl c u rad D pl) (fv x)) = Some (fv v) /\ is_unit v).
  { intros x O. destruct (infcyl_normal_on c u rad D pl x HR Hu O) as [-> U]. eauto. }
  destruct (infcyl_cases c u rad D pl p d r HR Hu Hd Hr) as (h' & E' & Cs). rewrite E in E'. injection E' as <-. destruct Cs.
  - rewrite CR_res. cbv zeta. destruct (Rltb_spec 1e-12 t0); [|destruct (Rltb_spec 1e-12 t1)]; split; cbn [h6_p1 h6_p2 h6_n1 h6_n2]; try apply pair_none;
    apply pair_some, Pq_point; try (apply CR_on; auto); try (apply Nm, CR_on; auto); left; lra.
  - rewrite CT_res. split; [|apply pair_none]. apply pair_some, Pq_point; [apply CT_on; reflexivity|apply Nm, CT_on; reflexivity|auto].
  - rewrite CP_res. split; [|apply pair_none]. apply pair_some. intros q Q. discriminate Q.
  - rewrite CM_res. split; apply pair_none.
Qed.

(** lines touching one of the solids, surfaces of the solids of an expression *)
Definition touches (s : solid) (p d : R3) : Prop :=
  match s with Ball c rad => tangent c rad p d | Cyl c u rad => ctangent c (dirn u) rad p d end.
Definition on_solids (e : expr solid) (q : R3) : Prop := exists s, In s (solids e) /\ surface s q.
Definition touches_any (e : expr solid) (p d : R3) : Prop := exists s, In s (solids e) /\ touches s p d.
Definition positive (e : expr solid) : Prop := forall c rad, In (Ball c rad) (solids e) -> 0 < rad.
Lemma tree_pairs e t p d r : tree_of e t -> positive e -> is_unit d -> ray_is r p d ->
  forall i, test_tree_intersect t r = Ok i -> exists h, i = I6 h /\ pairs_ok (Pq (on_solids e) (touches_any e p d) p d) h.
Proof.
  intros HT. induction HT as [c rad Ro Do s HR E|c u rad Ro Do s Hu Hp HR E|o a b ta tb Ha IHa Hb IHb]; intros Pos Hd Hr i Ei.
  - destruct (mk_sphere_inv _ _ _ _ _ HR E) as [D ->]. cbn in Ei. injection Ei as <-. eexists. split; [reflexivity|].
    assert (0 < rad) by (apply (Pos c); left; reflexivity).
    eapply pairs_weaken; [|apply sphere_pairs; [lra|exact Hd|exact Hr]].
    intros x n. apply Pq_weaken.
    + intros q Q. exists (Ball c rad). split; [left; reflexivity|]. rewrite Rabs_right in Q by lra. exact Q.
    + intros Q. exists (Ball c rad). split; [left; reflexivity|exact Q].
  - destruct (mk_infcyl_inv _ _ _ _ _ _ Hu HR E) as (D & pl & ->). cbn [test_tree_intersect mk_tree bind key_test_intersect shape_test_intersect] in Ei.
    apply bind_ok in Ei. destruct Ei as (h & Eh & Ei). injection Ei as <-. exists h. split; [reflexivity|].
    eapply pairs_weaken; [|eapply cyl_pairs; [exact Hp|apply dirn_unit, Hu|exact Hd|exact Hr|exact Eh]].
    intros x n. apply Pq_weaken; intros; exists (Cyl c u rad); (split; [left; reflexivity|assumption]).
  - assert (Pa : positive a) by (intros c rad H; apply (Pos c); cbn; apply in_or_app; auto).
    assert (Pb : positive b) by (intros c rad H; apply (Pos c); cbn; apply in_or_app; auto).
    cbn [test_tree_intersect] in Ei. apply bind_ok in Ei. destruct Ei as (ia & Ea & Ei). apply bind_ok in Ei. destruct Ei as (ib & Eb & Ei).
    destruct (IHa Pa Hd Hr _ Ea) as (ha & -> & Qa). destruct (IHb Pb Hd Hr _ Eb) as (hb & -> & Qb).
    apply bind_ok in Ei. destruct Ei as (f & Ef & Ei). cbn [index6 bind] in Ei. apply bind_ok in Ei. destruct Ei as (h & Eh & Ei).
    injection Ei as <-. exists h. split; [reflexivity|]. eapply oper_pairs; [exact Ef| | |exact Eh].
    + eapply pairs_weaken; [|exact Qa]. intros x n. apply Pq_weaken; intros; [destruct H as (s & I & J)|destruct H as (s & I & J)]; exists s; (split; [cbn; apply in_or_app; auto|exact J]).
    + eapply pairs_weaken; [|exact Qb]. intros x n. apply Pq_weaken; intros; [destruct H as (s & I & J)|destruct H as (s & I & J)]; exists s; (split; [cbn; apply in_or_app; auto|exact J]).
Qed.

(* ---- optics built by their constructors ---- *)
Definition real_type (ty : string) : Prop := ty <> "ideal"%string /\ ty <> "ideal_collimate"%string /\ ty <> "ideal_focus"%string.
Definition never (p d : R3) : Prop := False.
(** [valid_optic o S G]: o is built by a constructor call with sensible arguments; S is its surface and G the set of lines
    that touch it without crossing (curved surfaces only). *)
Inductive valid_optic : optic xr -> (R3 -> Prop) -> (R3 -> R3 -> Prop) -> Prop :=
| VO_mirror_circ c n D w h f tg ty dmd m : n <> r3zero -> dmd <> r3zero ->
    mk_mirror (fv c) "circular_flat" (Some (fv n)) (Some (Fin D)) w h f tg ty (Some (fv dmd)) = Ok m ->
    valid_optic (OMirror m) (fun q => on_plane c (dirn n) q /\ dist3 q c < D / 2) never
| VO_mirror_rect c n t D w h f ty dmd m : n <> r3zero -> t <> r3zero -> dmd <> r3zero ->
    mk_mirror (fv c) "rectangular_flat" (Some (fv n)) D (Some (Fin w)) (Some (Fin h)) f (Some (fv t)) ty (Some (fv dmd)) = Ok m ->
    valid_optic (OMirror m) (fun q => on_plane c (dirn n) q /\ in_rect c (dirn n) (dirn t) h w q) never
| VO_mirror_concave c n D w h f tg ty dmd m : n <> r3zero -> dmd <> r3zero -> f <> 0 ->
    mk_mirror (fv c) "circular_concave_spherical" (Some (fv n)) (Some (Fin D)) w h (Some (Fin f)) tg ty (Some (fv dmd)) = Ok m ->
    valid_optic (OMirror m) (on_sphere (c + (f * 2) * dirn n)%r3 (Rabs (f * 2))) (tangent (c + (f * 2) * dirn n)%r3 (f * 2))
| VO_mirror_convex c n D w h f tg ty dmd m : dmd <> r3zero -> D <> 0 ->
    mk_mirror (fv c) "circular_convex_spherical" n (Some (Fin D)) w h f tg ty (Some (fv dmd)) = Ok m ->
    valid_optic (OMirror m) (on_sphere c (Rabs (D / 2))) (tangent c (D / 2))
| VO_lens c n D f ty ix l : n <> r3zero -> 0 < ix -> (real_type ty \/ exists x, f = Some x /\ x <> 0) ->
    mk_lens (fv c) (Some (fv n)) "spherical_biconvex" (Some (Fin D)) (fo f) ty (Fin ix) = Ok l ->
    valid_optic (OLens l) (fun q => on_plane c (dirn n) q /\ dist3 q c < D / 2) never
| VO_ball_lens c n D f ty ix l : real_type ty -> D <> 0 -> 0 < ix ->
    mk_lens (fv c) n "spherical" (Some (Fin D)) f ty (Fin ix) = Ok l ->
    valid_optic (OLens l) (on_sphere c (Rabs (D / 2))) (tangent c (D / 2))
| VO_detector c n t w h d log : n <> r3zero -> t <> r3zero ->
    mk_detector (fv c) (Some (fv n)) (Some (fv t)) "rectangular_flat" (Some (Fin w)) (Some (Fin h)) = Ok d ->
    valid_optic (with_log (ODetector d) log) (fun q => on_plane c (dirn n) q /\ in_rect c (dirn n) (dirn t) h w q) never
| VO_grating c n t w h G g : n <> r3zero -> t <> r3zero ->
    mk_grating (fv c) (Some (fv n)) (Some (fv t)) "rectangular_flat" (Some (Fin w)) (Some (Fin h)) G = Ok g ->
    valid_optic (OGrating g) (fun q => on_plane c (dirn n) q /\ in_rect c (dirn n) (dirn t) h w q) never
| VO_compound e t beh ix : tree_of e t -> positive e -> 0 < ix ->
    valid_optic (OCompound (mkCompound t beh (Fin ix))) (on_solids e) (touches_any e).

Lemma some_fv_inj a b : Some (fv a) = Some (fv b) -> b = a.
Proof. intros H. apply fv_inj. congruence. Qed.
Lemma circle_hit c n D ci p d r h q : n <> r3zero -> is_unit d -> ray_is r p d ->
  mk_circle (fv c) (Some (fv n)) None (Some (Fin D)) = Ok ci -> circle_test_intersect ci r = Ok h -> h3_flag h = true -> h3_pt h = Some (fv q) ->
  (on_plane c (dirn n) q /\ dist3 q c < D / 2) /\ h3_normal h = Some (fv (dirn n)) /\ exists t, q = at_t p d t /\ 1e-9 < t.
Proof.
  intros Hn Hd Hr Hc Hh Hf Hp. destruct (circle_spec c n None (Some D) ci (D / 2) p d r Hn Hd Hr eq_refl Hc) as [(t & (M1 & M2 & M3) & L & E)|(_ & E)];
  rewrite E in Hh; injection Hh as <-; [|discriminate Hf]. cbn [h3_pt] in Hp. apply some_fv_inj in Hp. subst q. split; [split; assumption|]. split; [reflexivity|]. eauto.
Qed.
Lemma rect_hit c n t w hh qq p d r h q : n <> r3zero -> t <> r3zero -> is_unit d -> ray_is r p d ->
  mk_rectangle (fv c) (Some (fv n)) (Some (fv t)) (Some (Fin hh)) (Some (Fin w)) = Ok qq -> rectangle_test_intersect qq r = Ok h -> h3_flag h = true -> h3_pt h = Some (fv q) ->
  (on_plane c (dirn n) q /\ in_rect c (dirn n) (dirn t) hh w q) /\ h3_normal h = Some (fv (dirn n)) /\ re_normal qq = fv (dirn n) /\ exists s, q = at_t p d s /\ 1e-9 < s.
Proof.
  intros Hn Ht Hd Hr Hq Hh Hf Hp. rewrite mk_rectangle_fv in Hq by assumption. destruct (Rleb _ _); [|discriminate].
  destruct (Rltb_spec hh 0); [discriminate|]. destruct (Rltb_spec w 0); [discriminate|]. injection Hq as <-.
  destruct (rectangle_test_spec c (dirn n) (dirn t) hh w p d r) as [(s & (M1 & M2 & M3) & J & E)|(_ & E)]; try (apply dirn_unit; assumption); try assumption; try lra;
  rewrite E in Hh; injection Hh as <-; [|discriminate Hf]. cbn [h3_pt] in Hp. apply some_fv_inj in Hp. subst q.
  split; [split; assumption|]. split; [reflexivity|]. split; [reflexivity|]. eauto.
Qed.

(** the loop over a one-element list of flat surfaces *)
Lemma flat_single b r st0 s st : flat_loop b r st0 [s] = Ok st -> fs_min st0 = PInf -> fs_hit st0 = false ->
  exists h, shape_test_intersect s r = Ok (I3 h) /\ fs_hit st = h3_flag h /\
   (h3_flag h = true -> forall q, fs_pt st = Some (fv q) -> fs_pt st0 = None -> h3_pt h = Some (fv q) /\
      (b = false -> fs_normal st = Some (h3_normal h)) /\ (b = true -> exists n, surface_normal s = Ok n /\ fs_normal st = Some n) ).
Proof.
  intros H Hm Hh. cbn [flat_loop] in H. apply bind_ok in H. destruct H as (st1 & E & H). injection H as <-.
  unfold flat_step in E. apply bind_ok in E. destruct E as (i & Ei & E). apply bind_ok in E. destruct E as (h & Eh & E).
  destruct i as [|h0|]; try discriminate. injection Eh as <-. exists h0. split; [exact Ei|]. destruct (h3_flag h0) eqn:F.
  - apply bind_ok in E. destruct E as (pt & Ept & E). apply need_ok in Ept. rewrite Hm in E.
    destruct (nlt _ _) eqn:L.
    + destruct b.
      * apply bind_ok in E. destruct E as (n & En & E). injection E as <-. split; [reflexivity|]. intros _ q Q _. cbn in Q. split; [congruence|]. split; [discriminate|]. intros _. exists n. auto.
      * cbn [bind] in E. injection E as <-. split; [reflexivity|]. intros _ q Q _. cbn in Q. split; [congruence|]. split; [reflexivity|discriminate].
    + injection E as <-. split; [reflexivity|]. intros _ q Q Z. cbn in Q. congruence.
  - injection E as <-. cbn. split; [exact Hh|discriminate].
Qed.
(** the loop over a single sphere *)
Lemma ball_single r st h st' (P : vec xr -> option (vec xr) -> Prop) : ball_update r st h = Ok st' -> bs_pt st = None -> pairs_ok P h ->
  forall x, bs_pt st' = Some x -> exists n, bs_normal st' = Some (vopp n) /\ P x (Some n).
Proof.
  intros H Z [A B] x Hx. unfold ball_update in H. destruct (h6_flag h); [|injection H as <-; congruence].
  apply bind_ok in H. destruct H as (p1 & E1 & H). apply need_ok in E1. apply bind_ok in H. destruct H as (st1 & E & H).
  assert (I : forall y, bs_pt st1 = Some y -> exists n, bs_normal st1 = Some (vopp n) /\ P y (Some n)).
  { intros y Y. destruct (nlt _ _).
    - apply bind_ok in E. destruct E as (n1 & En & E). apply need_ok in En. injection E as <-. cbn in *. injection Y as <-. exists n1. split; [reflexivity|].
      rewrite <- En. apply A, E1.
    - injection E as <-. cbn in Y. congruence. }
  destruct (h6_p2 h) as [p2|] eqn:E2; [|injection H as <-; apply I, Hx]. clear E. destruct (nlt _ _); [|injection H as <-; apply I, Hx].
  apply bind_ok in H. destruct H as (n2 & En & H). apply need_ok in En. injection H as <-. cbn in *. injection Hx as <-. exists n2. split; [reflexivity|].
  rewrite <- En. apply B. reflexivity.
Qed.

(** the hit reported by a valid optic *)
Definition good_hit (S : R3 -> Prop) (G : R3 -> R3 -> Prop) (p d : R3) (h : hit4 xr) : Prop :=
  forall q, h4_pt h = Some (fv q) -> S q /\ (exists u, h4_normal h = Some (fv u) /\ is_unit u) /\ exists t, q = at_t p d t /\ (1e-12 < t \/ G p d).
Lemma good_of_Pq S (G : R3 -> R3 -> Prop) p d flag x n s : (forall v, x = Some v -> Pq S (G p d) p d v n) -> good_hit S G p d (H4 flag x n s).
Proof. intros H q E. cbn in *. apply (H _ E q eq_refl). Qed.

Lemma mk_sphere_D c D s : mk_sphere (fv c) None (Some (Fin D)) = Ok s -> s = sph c (D / 2) (Fin D).
Proof. unfold mk_sphere. rewrite check_D_only. cbn. intros E; injection E as <-. reflexivity. Qed.
Lemma mk_sphere_R c x s : mk_sphere (fv c) (Some (Fin x)) None = Ok s -> exists D, s = sph c x D.
Proof. unfold mk_sphere. rewrite check_R_only. cbn. intros E; injection E as <-. eexists. reflexivity. Qed.
Lemma Pq_opp S (G : Prop) p d x n : Pq S G p d x (Some n) -> Pq S G p d x (Some (vopp n)).
Proof.
  intros H q E. destruct (H q E) as (A & (u & B & U) & C). split; [exact A|]. split; [|exact C]. injection B as ->.
  exists (- u)%r3. split; [rewrite vopp_fv; reflexivity|apply unit_opp, U].
Qed.

Lemma valid_hit o S G r p d h : valid_optic o S G -> ray_is r p d -> is_unit d -> optic_test_intersect o r = Ok h ->
  h4_flag h = true -> good_hit S G p d h.
Proof.
  intros V Hr Hd Ht Hf. destruct V as [c n D w hh f tg ty dmd m Hn Hdm E|c n t D w hh f ty dmd m Hn Htn Hdm E|c n D w hh f tg ty dmd m Hn Hdm Hf0 E|
    c n D w hh f tg ty dmd m Hdm HD E|c n D f ty ix l Hn Hix Hty E|c n D f ty ix l Hty HD Hix E|c n t w hh de log Hn Htn E|c n t w hh GG g Hn Htn E|e t beh ix HT Pos Hix].
  - unfold mk_mirror in E. apply bind_ok in E. destruct E as (dm & Edm & E). change (String.eqb "circular_flat" "circular_flat") with true in E. cbn iota in E.
    apply bind_ok in E. destruct E as (nn & Enn & E). apply bind_ok in E. destruct E as (ci & Eci & E). injection E as <-.
    cbn [optic_test_intersect] in Ht. unfold mirror_test_intersect in Ht. cbn [mi_shape mi_surfaces] in Ht.
    change (String.eqb "circular_flat" "circular_flat") with true in Ht. cbn [orb] in Ht.
    apply bind_ok in Ht. destruct Ht as (st & Est & Ht). apply bind_ok in Ht. destruct Ht as (no & Eno & Ht). apply bound_ok in Eno. injection Ht as <-. cbn in Hf.
    destruct (flat_single _ _ _ _ _ Est eq_refl eq_refl) as (h3 & Eh & Fh & Q). cbn [shape_test_intersect] in Eh. apply bind_ok in Eh. destruct Eh as (h3' & Eh & X). injection X as ->.
    intros q Hq. cbn in Hq. rewrite Hf in Fh. symmetry in Fh. destruct (Q Fh q Hq eq_refl) as (Q1 & _ & Q3). destruct (Q3 eq_refl) as (nn' & Sn & Fn).
    destruct (circle_hit _ _ _ _ _ _ _ _ _ Hn Hd Hr Eci Eh Fh Q1) as (A & B & t & C & L). split; [exact A|]. split.
    + exists (dirn n). split; [|apply dirn_unit, Hn]. cbn. cbn [surface_normal] in Sn. unfold mk_circle in Eci. rewrite check_D_only in Eci. cbn [bind] in Eci. injection Eci as <-.
      cbn in Sn. injection Sn as <-. rewrite unit_vector_fv in Fn by exact Hn. congruence.
    + exists t. split; [exact C|left; lra].
  - unfold mk_mirror in E. apply bind_ok in E. destruct E as (dm & Edm & E). change (String.eqb "rectangular_flat" "circular_flat") with false in E.
    change (String.eqb "rectangular_flat" "rectangular_flat") with true in E. cbn iota in E.
    apply bind_ok in E. destruct E as (nn & Enn & E). apply bind_ok in E. destruct E as (qq & Eqq & E). injection E as <-.
    cbn [optic_test_intersect] in Ht. unfold mirror_test_intersect in Ht. cbn [mi_shape mi_surfaces] in Ht.
    change (String.eqb "rectangular_flat" "rectangular_flat") with true in Ht. rewrite orb_true_r in Ht.
    apply bind_ok in Ht. destruct Ht as (st & Est & Ht). apply bind_ok in Ht. destruct Ht as (no & Eno & Ht). apply bound_ok in Eno. injection Ht as <-. cbn in Hf.
    destruct (flat_single _ _ _ _ _ Est eq_refl eq_refl) as (h3 & Eh & Fh & Q). cbn [shape_test_intersect] in Eh. apply bind_ok in Eh. destruct Eh as (h3' & Eh & X). injection X as ->.
    intros q Hq. cbn in Hq. rewrite Hf in Fh. symmetry in Fh. destruct (Q Fh q Hq eq_refl) as (Q1 & _ & Q3). destruct (Q3 eq_refl) as (nn' & Sn & Fn).
    destruct (rect_hit _ _ _ _ _ _ _ _ _ _ _ Hn Htn Hd Hr Eqq Eh Fh Q1) as (A & B & B' & s & C & L). split; [exact A|]. split.
    + exists (dirn n). split; [|apply dirn_unit, Hn]. cbn. cbn [surface_normal] in Sn. injection Sn as <-. congruence.
    + exists s. split; [exact C|left; lra].
  - unfold mk_mirror in E. apply bind_ok in E. destruct E as (dm & Edm & E). change (String.eqb "circular_concave_spherical" "circular_flat") with false in E.
    change (String.eqb "circular_concave_spherical" "rectangular_flat") with false in E. change (String.eqb "circular_concave_spherical" "circular_concave_spherical") with true in E. cbn iota in E.
    apply bind_ok in E. destruct E as (nn & Enn & E). cbn [unit_vector_o] in Enn. rewrite unit_vector_fv in Enn by exact Hn. injection Enn as <-.
    cbn [need bind] in E. rewrite nofZ_fin, nmul_fin, vscale_fv, vadd_fv in E.
    apply bind_ok in E. destruct E as (ci & Eci & E). apply bind_ok in E. destruct E as (sp & Esp & E). injection E as <-.
    destruct (mk_sphere_R _ _ _ Esp) as [Ds ->].
    cbn [optic_test_intersect] in Ht. unfold mirror_test_intersect in Ht. cbn [mi_shape mi_surfaces] in Ht.
    change (String.eqb "circular_concave_spherical" "circular_flat") with false in Ht. change (String.eqb "circular_concave_spherical" "rectangular_flat") with false in Ht.
    change (String.eqb "circular_concave_spherical" "circular_concave_spherical") with true in Ht. cbn [orb first_sphere first_circle bound bind] in Ht. cbv zeta in Ht.
    assert (Hrc : f * 2 <> 0) by (apply Rmult_integral_contrapositive_currified; lra).
    destruct (sphere_pairs (c + f * 2 * dirn n)%r3 (f * 2) Ds p d r Hrc Hd Hr) as [P1 P2].
    destruct (h6_flag _); [|injection Ht as <-; discriminate Hf].
    apply bind_ok in Ht. destruct Ht as (hc & Ehc & Ht). destruct (h3_flag hc); [|injection Ht as <-; discriminate Hf].
    apply bind_ok in Ht. destruct Ht as (pc & Epc & Ht). apply bind_ok in Ht. destruct Ht as (p1 & Ep1 & Ht). apply need_ok in Ep1.
    destruct (h6_p2 _) as [p2|]; [destruct (nlt _ _)|]; injection Ht as <-; apply good_of_Pq; intros v Ev; injection Ev as <-; [apply P1; exact Ep1|apply P2; reflexivity|apply P1; exact Ep1].
  - unfold mk_mirror in E. apply bind_ok in E. destruct E as (dm & Edm & E). change (String.eqb "circular_convex_spherical" "circular_flat") with false in E.
    change (String.eqb "circular_convex_spherical" "rectangular_flat") with false in E. change (String.eqb "circular_convex_spherical" "circular_concave_spherical") with false in E.
    change (String.eqb "circular_convex_spherical" "circular_convex_spherical") with true in E. cbn iota in E.
    apply bind_ok in E. destruct E as (sp & Esp & E). injection E as <-. apply mk_sphere_D in Esp. subst sp.
    cbn [optic_test_intersect] in Ht. unfold mirror_test_intersect in Ht. cbn [mi_shape mi_surfaces] in Ht.
    change (String.eqb "circular_convex_spherical" "circular_flat") with false in Ht. change (String.eqb "circular_convex_spherical" "rectangular_flat") with false in Ht.
    change (String.eqb "circular_convex_spherical" "circular_concave_spherical") with false in Ht. change (String.eqb "circular_convex_spherical" "circular_convex_spherical") with true in Ht.
    cbn [orb] in Ht. apply bind_ok in Ht. destruct Ht as (st & Est & Ht). injection Ht as <-. cbn [mirror_ball_loop] in Est. cbv zeta in Est. cbn [bound bind] in Est.
    apply bind_ok in Est. destruct Est as (st2 & Eu & Est). injection Est as <-.
    assert (Hrc : D / 2 <> 0) by lra. pose proof (sphere_pairs c (D / 2) (Fin D) p d r Hrc Hd Hr) as PP.
    apply good_of_Pq. intros v Ev. destruct (ball_single _ _ _ _ _ Eu eq_refl PP v Ev) as (nn & -> & Q). apply Pq_opp, Q.
  - unfold mk_lens in E. change (String.eqb "spherical_biconvex" "spherical_biconvex") with true in E. cbn iota in E.
    apply bind_ok in E. destruct E as (ci & Eci & E). injection E as <-.
    cbn [optic_test_intersect] in Ht. unfold lens_test_intersect in Ht. cbn [le_shape le_surfaces] in Ht.
    change (String.eqb "spherical_biconvex" "spherical_biconvex") with true in Ht. cbn iota in Ht.
    apply bind_ok in Ht. destruct Ht as (st & Est & Ht). apply bind_ok in Ht. destruct Ht as (no & Eno & Ht). apply bound_ok in Eno. injection Ht as <-. cbn in Hf.
    destruct (flat_single _ _ _ _ _ Est eq_refl eq_refl) as (h3 & Eh & Fh & Q). cbn [shape_test_intersect] in Eh. apply bind_ok in Eh. destruct Eh as (h3' & Eh & X). injection X as ->.
    intros q Hq. cbn in Hq. rewrite Hf in Fh. symmetry in Fh. destruct (Q Fh q Hq eq_refl) as (Q1 & Q2 & _). specialize (Q2 eq_refl).
    destruct (circle_hit _ _ _ _ _ _ _ _ _ Hn Hd Hr Eci Eh Fh Q1) as (A & B & t & C & L). split; [exact A|]. split.
    + exists (dirn n). split; [|apply dirn_unit, Hn]. cbn. congruence.
    + exists t. split; [exact C|left; lra].
  - unfold mk_lens in E. change (String.eqb "spherical" "spherical_biconvex") with false in E. change (String.eqb "spherical" "spherical") with true in E. cbn iota in E.
    apply bind_ok in E. destruct E as (sp & Esp & E). injection E as <-. apply mk_sphere_D in Esp. subst sp.
    cbn [optic_test_intersect] in Ht. unfold lens_test_intersect in Ht. cbn [le_shape le_surfaces] in Ht.
    change (String.eqb "spherical" "spherical_biconvex") with false in Ht. change (String.eqb "spherical" "spherical") with true in Ht. cbn iota in Ht.
    apply bind_ok in Ht. destruct Ht as (st & Est & Ht). injection Ht as <-. cbn [lens_ball_loop] in Est. cbv zeta in Est.
    apply bind_ok in Est. destruct Est as (st2 & Eu & Est). injection Est as <-.
    assert (Hrc : D / 2 <> 0) by lra. pose proof (sphere_pairs c (D / 2) (Fin D) p d r Hrc Hd Hr) as PP.
    apply good_of_Pq. intros v Ev. destruct (ball_single _ _ _ _ _ Eu eq_refl PP v Ev) as (nn & -> & Q). apply Pq_opp, Q.
  - unfold mk_detector in E. apply bind_ok in E. destruct E as (nn & Enn & E). apply bind_ok in E. destruct E as (tt & Ett & E).
    change (String.eqb "rectangular_flat" "rectangular_flat") with true in E. cbn iota in E. apply bind_ok in E. destruct E as (qq & Eqq & E). injection E as <-.
    cbn [with_log optic_test_intersect de_shape de_surfaces] in Ht. unfold flat_test_intersect in Ht. change (String.eqb "rectangular_flat" "rectangular_flat") with true in Ht. rewrite orb_true_r in Ht.
    apply bind_ok in Ht. destruct Ht as (st & Est & Ht). apply bind_ok in Ht. destruct Ht as (no & Eno & Ht). apply bound_ok in Eno. injection Ht as <-. cbn in Hf.
    destruct (flat_single _ _ _ _ _ Est eq_refl eq_refl) as (h3 & Eh & Fh & Q). cbn [shape_test_intersect] in Eh. apply bind_ok in Eh. destruct Eh as (h3' & Eh & X). injection X as ->.
    intros q Hq. cbn in Hq. rewrite Hf in Fh. symmetry in Fh. destruct (Q Fh q Hq eq_refl) as (Q1 & Q2 & _). specialize (Q2 eq_refl).
    destruct (rect_hit _ _ _ _ _ _ _ _ _ _ _ Hn Htn Hd Hr Eqq Eh Fh Q1) as (A & B & B' & s & C & L). split; [exact A|]. split.
    + exists (dirn n). split; [|apply dirn_unit, Hn]. cbn. congruence.
    + exists s. split; [exact C|left; lra].
  - unfold mk_grating in E. apply bind_ok in E. destruct E as (nn & Enn & E). apply bind_ok in E. destruct E as (tt & Ett & E).
    change (String.eqb "rectangular_flat" "rectangular_flat") with true in E. cbn iota in E. apply bind_ok in E. destruct E as (qq & Eqq & E). injection E as <-.
    cbn [optic_test_intersect gr_shape gr_surfaces] in Ht. unfold flat_test_intersect in Ht. change (String.eqb "rectangular_flat" "rectangular_flat") with true in Ht. rewrite orb_true_r in Ht.
    apply bind_ok in Ht. destruct Ht as (st & Est & Ht). apply bind_ok in Ht. destruct Ht as (no & Eno & Ht). apply bound_ok in Eno. injection Ht as <-. cbn in Hf.
    destruct (flat_single _ _ _ _ _ Est eq_refl eq_refl) as (h3 & Eh & Fh & Q). cbn [shape_test_intersect] in Eh. apply bind_ok in Eh. destruct Eh as (h3' & Eh & X). injection X as ->.
    intros q Hq. cbn in Hq. rewrite Hf in Fh. symmetry in Fh. destruct (Q Fh q Hq eq_refl) as (Q1 & Q2 & _). specialize (Q2 eq_refl).
    destruct (rect_hit _ _ _ _ _ _ _ _ _ _ _ Hn Htn Hd Hr Eqq Eh Fh Q1) as (A & B & B' & s & C & L). split; [exact A|]. split.
    + exists (dirn n). split; [|apply dirn_unit, Hn]. cbn. congruence.
    + exists s. split; [exact C|left; lra].
  - cbn [optic_test_intersect] in Ht. unfold compound_test_intersect in Ht. cbn [co_tree] in Ht. apply bind_ok in Ht. destruct Ht as (i & Ei & Ht).
    destruct (tree_pairs e t p d r HT Pos Hd Hr i Ei) as (h6 & -> & [P1 _]). cbn [unpack6 bind] in Ht. injection Ht as <-.
    apply good_of_Pq. exact P1.
Qed.
