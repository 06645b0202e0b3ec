(** Plane, Circle, Rectangle at [xr] (Shapes/shapes.py). *)
From Coq Require Import Reals ZArith Lra Psatz Bool List String.
From Verif Require Import PyErr Num Vec Shapes Spec XReal RVec VecProofs.
Local Open Scope R_scope.

Definition ray_is (r : ray xr) (p d : R3) : Prop := position r = fv p /\ direction r = fv d.

Lemma Rabs_le_iff x y : Rabs x <= y <-> - y <= x <= y.
Proof.
  split; [|apply Rabs_le]. intros H. pose proof (Rle_abs x). pose proof (Rle_abs (- x)) as H1.
  rewrite Rabs_Ropp in H1. lra.
Qed.
Lemma clip_fin : INTERSECT_CLIPPING_FLOOR = Fin 1e-12.
Proof. unfold INTERSECT_CLIPPING_FLOOR. rewrite dec_fin by discriminate. reflexivity. Qed.
Lemma arb_fin : ARB_EPSILON_VALUE = Fin 1e-9.
Proof. unfold ARB_EPSILON_VALUE. rewrite dec_fin by discriminate. reflexivity. Qed.

(** The half-line from p in unit direction d meets the plane through c with unit normal u at parameter t,
    beyond 1e-9 and not at (nearly) grazing incidence. *)
Definition meets_plane (c u p d : R3) (t : R) : Prop :=
  1e-9 < Rabs (u ∙ d) /\ 1e-9 < t /\ on_plane c u (at_t p d t).

Lemma on_plane_param c u p d t : u ∙ d <> 0 ->
  (on_plane c u (at_t p d t) <-> t = ((c - p)%r3 ∙ u) / (u ∙ d)).
Proof.
  intros H. unfold on_plane, at_t. rewrite dot_sub_l, dot_add_l, dot_scale_l, dot_sub_l, (dot_comm d u).
  split; intros E.
  - apply (Rmult_eq_reg_r (u ∙ d)); [|exact H]. unfold Rdiv. rewrite Rmult_assoc, Rinv_l, Rmult_1_r by exact H. lra.
  - rewrite E. field. exact H.
Qed.
Lemma meets_plane_unique c u p d t t' : meets_plane c u p d t -> meets_plane c u p d t' -> t = t'.
Proof.
  intros (A & _ & B) (_ & _ & B'). assert (H : u ∙ d <> 0).
  { intros E. rewrite E, Rabs_R0 in A. lra. }
  apply on_plane_param in B; apply on_plane_param in B'; auto. congruence.
Qed.

Lemma plane_test_spec c n p d r : is_unit n -> is_unit d -> ray_is r p d ->
  (exists t, meets_plane c n p d t /\
     plane_test_intersect (mkPlane (fv c) (fv n)) r = H3 true (Some (fv (at_t p d t))) (Some (fv n))) \/
  ((forall t, ~ meets_plane c n p d t) /\ plane_test_intersect (mkPlane (fv c) (fv n)) r = miss3).
Proof.
  intros Hn Hd [Hp Hdir]. unfold plane_test_intersect; cbn [pl_normal pl_center].
  rewrite Hp, Hdir, !unit_vector_unit by assumption. rewrite dot_fv, nabs_fin, arb_fin, ngt_fin.
  destruct (Rltb_spec 1e-9 (Rabs (n ∙ d))) as [A|A].
  - assert (H : n ∙ d <> 0) by (intros E; rewrite E, Rabs_R0 in A; lra).
    rewrite vsub_fv, dot_fv, ndiv_fin by exact H. rewrite ngt_fin.
    destruct (Rltb_spec 1e-9 (((c - p)%r3 ∙ n) / (n ∙ d))) as [B|B].
    + left. eexists. split.
      * split; [exact A|]. split; [exact B|]. apply on_plane_param; auto.
      * rewrite vscale_fv, vadd_fv. reflexivity.
    + right. split; [|reflexivity]. intros t (_ & C & D). apply on_plane_param in D; auto. subst t. contradiction.
  - right. split; [|reflexivity]. intros t (C & _). contradiction.
Qed.
Lemma mk_plane_fv c n : n <> r3zero -> mk_plane (fv c) (fv n) = mkPlane (fv c) (fv (dirn n)).
Proof. intros H. unfold mk_plane. now rewrite unit_vector_fv. Qed.

Lemma plane_spec c n p d r : n <> r3zero -> is_unit d -> ray_is r p d ->
  let h := plane_test_intersect (mk_plane (fv c) (fv n)) r in
  (exists t, meets_plane c (dirn n) p d t /\ (forall t', meets_plane c (dirn n) p d t' -> t' = t) /\
     h = H3 true (Some (fv (at_t p d t))) (Some (fv (dirn n)))) \/
  ((forall t, ~ meets_plane c (dirn n) p d t) /\ h = H3 false None None).
Proof.
  intros Hn Hd Hr. cbv zeta. rewrite mk_plane_fv by exact Hn.
  destruct (plane_test_spec c (dirn n) p d r (dirn_unit n Hn) Hd Hr) as [(t & M & E)|H]; [left|right; exact H].
  exists t. repeat split; try apply M; auto. intros t' M'. eapply meets_plane_unique; eassumption.
Qed.

(* ---- Circle ---- *)
Lemma circle_test_spec c n R D p d r : is_unit n -> is_unit d -> ray_is r p d ->
  let ci := mkCircle (fv c) (Fin R) D (Some (fv n)) (Some (mkPlane (fv c) (fv n))) in
  (exists t, meets_plane c n p d t /\ dist3 (at_t p d t) c < R /\
     circle_test_intersect ci r = Ok (H3 true (Some (fv (at_t p d t))) (Some (fv n)))) \/
  ((forall t, meets_plane c n p d t -> R <= dist3 (at_t p d t) c) /\ circle_test_intersect ci r = Ok miss3).
Proof.
  intros Hn Hd Hr ci. unfold circle_test_intersect, ci; cbn [ci_plane ci_center ci_R].
  destruct (plane_test_spec c n p d r Hn Hd Hr) as [(t & M & ->)|[N ->]]; cbn [h3_flag h3_pt h3_normal miss3 need bind].
  - rewrite distance_fv, nlt_fin. destruct (Rltb_spec (dist3 (at_t p d t) c) R) as [L|L].
    + left. exists t. auto.
    + right. split; [|reflexivity]. intros t' M'. rewrite (meets_plane_unique _ _ _ _ _ _ M' M). lra.
  - right. split; [|reflexivity]. intros t M. exfalso. eapply N, M.
Qed.
Lemma check_R_only x : check_R_and_D (Some (Fin x)) None = Ok (Fin x, Fin (2 * x)).
Proof. cbn. rewrite nofZ_fin, nmul_fin. do 3 f_equal. ring. Qed.
Lemma check_D_only x : check_R_and_D None (Some (Fin x)) = Ok (Fin (x / 2), Fin x).
Proof. cbn. rewrite nofZ_fin, ndiv_fin by lra. reflexivity. Qed.
Lemma check_RD x y : check_R_and_D (Some (Fin x)) (Some (Fin y)) =
  if Rleb (Rabs (y - 2 * x)) (1e-8 + 1e-8 * Rabs (2 * x)) then Ok (Fin x, Fin y) else Err ValueError.
Proof.
  cbn [check_R_and_D]. rewrite nofZ_fin, nmul_fin, dec_fin by discriminate. rewrite isclose_fin.
  now rewrite (Rmult_comm x 2).
Qed.
(** the radius a Circle/Sphere/InfiniteCylinder ends up with *)
Definition radius_arg (Ro Do : option R) (rad : R) : Prop :=
  match Ro, Do with
  | Some x, None => rad = x
  | None, Some y => rad = y / 2
  | Some x, Some y => rad = x /\ Rabs (y - 2 * x) <= 1e-8 + 1e-8 * Rabs (2 * x)
  | None, None => False
  end.
Definition fo (o : option R) : option xr := option_map Fin o.
Lemma check_R_and_D_iff Ro Do : 
  (exists rad dia, radius_arg Ro Do rad /\ check_R_and_D (fo Ro) (fo Do) = Ok (Fin rad, Fin dia)
     /\ match Do with Some y => dia = y | None => dia = 2 * rad end) \/
  ((forall rad, ~ radius_arg Ro Do rad) /\ check_R_and_D (fo Ro) (fo Do) = Err ValueError).
Proof.
  destruct Ro as [x|], Do as [y|]; cbn [fo option_map radius_arg].
  - rewrite check_RD. destruct (Rleb_spec (Rabs (y - 2 * x)) (1e-8 + 1e-8 * Rabs (2 * x))) as [L|L].
    + left. exists x, y. auto.
    + right. split; [|reflexivity]. intros rad [_ H]. contradiction.
  - left. exists x, (2 * x). rewrite check_R_only. auto.
  - left. exists (y / 2), y. rewrite check_D_only. auto.
  - right. split; [|reflexivity]. intros rad H; exact H.
Qed.

Lemma circle_spec c n Ro Do ci rad p d r : n <> r3zero -> is_unit d -> ray_is r p d ->
  radius_arg Ro Do rad -> mk_circle (fv c) (Some (fv n)) (fo Ro) (fo Do) = Ok ci ->
  (exists t, meets_plane c (dirn n) p d t /\ dist3 (at_t p d t) c < rad /\
     circle_test_intersect ci r = Ok (H3 true (Some (fv (at_t p d t))) (Some (fv (dirn n))))) \/
  ((forall t, meets_plane c (dirn n) p d t -> rad <= dist3 (at_t p d t) c) /\
     circle_test_intersect ci r = Ok (H3 false None None)).
Proof.
  intros Hn Hd Hr HR Hci. unfold mk_circle in Hci.
  destruct (check_R_and_D_iff Ro Do) as [(rad' & dia & A & B & _)|[A _]]; [|exfalso; eapply A; eassumption].
  assert (rad' = rad).
  { destruct Ro, Do; cbn [radius_arg] in *; try congruence; try (destruct A, HR; congruence); contradiction. }
  subst rad'. rewrite B in Hci; cbn [bind] in Hci. rewrite mk_plane_fv, unit_vector_fv in Hci by exact Hn.
  injection Hci as <-. apply circle_test_spec; auto using dirn_unit.
Qed.

(* ---- Rectangle ---- *)
Definition rect_of (c n t : R3) (h w : R) : rectangle xr :=
  let t2 := (n × t)%r3 in
  mkRectangle (fv c) (fv n) (fv t) (fv t2) (Fin h) (Fin w)
    (fv ((c + (h / 2) * t) - (w / 2) * t2)%r3)
    (fv ((c + (h / 2) * t) + (w / 2) * t2)%r3)
    (fv ((c - (h / 2) * t) + (w / 2) * t2)%r3)
    (fv ((c - (h / 2) * t) - (w / 2) * t2)%r3)
    (mkPlane (fv c) (fv n)).
Lemma mk_rectangle_fv c n t h w : n <> r3zero -> t <> r3zero ->
  mk_rectangle (fv c) (Some (fv n)) (Some (fv t)) (Some (Fin h)) (Some (Fin w)) =
  if Rleb (Rabs (dirn n ∙ dirn t)) 1e-8 then
    if Rltb h 0 then Err ValueError else if Rltb w 0 then Err ValueError
    else Ok (rect_of c (dirn n) (dirn t) h w)
  else Err ValueError.
Proof.
  intros Hn Ht. unfold mk_rectangle. cbn [unit_vector_o bind]. rewrite !unit_vector_fv by assumption.
  rewrite dot_fv, nofZ_fin, !dec_fin by discriminate. rewrite isclose_fin.
  replace (dirn n ∙ dirn t - 0) with (dirn n ∙ dirn t) by ring. rewrite Rabs_R0.
  rewrite Rmult_0_r, Rplus_0_r. change (1 / IZR (10 ^ 8)) with 1e-8.
  destruct (Rleb (Rabs (dirn n ∙ dirn t)) 1e-8); cbn [negb]; [|reflexivity].
  cbn [check_h_and_w]. rewrite nofZ_fin, !nlt_fin.
  destruct (Rltb h 0); [reflexivity|]. destruct (Rltb w 0); [reflexivity|]. cbn [bind need].
  rewrite nofZ_fin, !ndiv_fin by lra. rewrite cross_fv; repeat (rewrite ?vscale_fv, ?vadd_fv, ?vsub_fv).
  now rewrite mk_plane_fv.
Qed.

(** offset of x from the centre along the tangent t and along n x t within the half sizes; a zero extent
    imposes no condition (this is what the code does) *)
Definition in_rect (c n t : R3) (h w : R) (x : R3) : Prop :=
  (h = 0 \/ Rabs ((x - c)%r3 ∙ t) <= h / 2) /\
  (w = 0 \/ Rabs ((x - c)%r3 ∙ (n × t)%r3) <= w / 2 * ((n × t)%r3 ∙ (n × t)%r3)).

Lemma rect_cond (x s N : R) : 0 <= N -> 0 <= s ->
  ((0 <= s * x + s * s / 2 * N /\ s * x + s * s / 2 * N <= s * s * N) <-> (s = 0 \/ Rabs x <= s / 2 * N)).
Proof.
  intros HN Hs. split.
  - intros [A B]. destruct (Req_dec s 0) as [->|Z]; [left; reflexivity|right].
    assert (0 < s) by lra. apply Rabs_le. split; nra.
  - intros [->|A]; [split; lra|]. apply Rabs_le_iff in A. split; nra.
Qed.

Lemma rectangle_test_spec c n t h w p d r : is_unit n -> is_unit t -> is_unit d -> 0 <= h -> 0 <= w ->
  ray_is r p d ->
  (exists s, meets_plane c n p d s /\ in_rect c n t h w (at_t p d s) /\
     rectangle_test_intersect (rect_of c n t h w) r = Ok (H3 true (Some (fv (at_t p d s))) (Some (fv n)))) \/
  ((forall s, meets_plane c n p d s -> ~ in_rect c n t h w (at_t p d s)) /\
     rectangle_test_intersect (rect_of c n t h w) r = Ok miss3).
Proof.
  intros Hn Ht Hd Hh Hw Hr. unfold rectangle_test_intersect, rect_of; cbn [re_plane re_b0 re_b1 re_b2].
  destruct (plane_test_spec c n p d r Hn Hd Hr) as [(s & M & ->)|[N ->]]; cbn [h3_flag h3_pt h3_normal miss3 need bind].
  2:{ right. split; [|reflexivity]. intros s M. exfalso. eapply N, M. }
  set (x := at_t p d s) in *. rewrite !vsub_fv, !dot_fv, nofZ_fin, !nle_fin.
  set (t2 := (n × t)%r3).
  assert (Ot : t2 ∙ t = 0) by (unfold t2; apply dot_cross_r).
  assert (Ot' : t ∙ t2 = 0) by (rewrite dot_comm; exact Ot).
  assert (HN : 0 <= t2 ∙ t2) by apply dot_self_nonneg.
  assert (E1 : ((c + h / 2 * t + w / 2 * t2) - (c + h / 2 * t - w / 2 * t2))%r3 ∙ (x - (c + h / 2 * t - w / 2 * t2))%r3
     = w * ((x - c)%r3 ∙ t2) + w * w / 2 * (t2 ∙ t2)).
  { transitivity (w * ((x - c)%r3 ∙ t2) - w * (h / 2) * (t2 ∙ t) + w * w / 2 * (t2 ∙ t2)).
    - clearbody t2 x. r3_field.
    - rewrite Ot. ring. }
  assert (E2 : ((c + h / 2 * t + w / 2 * t2) - (c + h / 2 * t - w / 2 * t2))%r3
       ∙ ((c + h / 2 * t + w / 2 * t2) - (c + h / 2 * t - w / 2 * t2))%r3 = w * w * (t2 ∙ t2)).
  { clearbody t2 x. r3_field. }
  assert (E3 : ((c - h / 2 * t + w / 2 * t2) - (c + h / 2 * t + w / 2 * t2))%r3 ∙ (x - (c + h / 2 * t + w / 2 * t2))%r3
     = h * (- ((x - c)%r3 ∙ t)) + h * h / 2 * (t ∙ t)).
  { transitivity (h * (- ((x - c)%r3 ∙ t)) + h * (w / 2) * (t ∙ t2) + h * h / 2 * (t ∙ t)).
    - clearbody t2 x. r3_field.
    - rewrite Ot'. ring. }
  assert (E4 : ((c - h / 2 * t + w / 2 * t2) - (c + h / 2 * t + w / 2 * t2))%r3
      ∙ ((c - h / 2 * t + w / 2 * t2) - (c + h / 2 * t + w / 2 * t2))%r3 = h * h * (t ∙ t)).
  { clearbody t2 x. r3_field. }
  rewrite E1, E2, E3, E4. clear E1 E2 E3 E4.
  assert (Ht1 : t ∙ t = 1) by exact Ht.
  pose proof (rect_cond ((x - c)%r3 ∙ t2) w (t2 ∙ t2) HN Hw) as C1.
  assert (C2 : (0 <= h * - ((x - c)%r3 ∙ t) + h * h / 2 * (t ∙ t) /\
     h * - ((x - c)%r3 ∙ t) + h * h / 2 * (t ∙ t) <= h * h * (t ∙ t)) <-> (h = 0 \/ Rabs ((x - c)%r3 ∙ t) <= h / 2)).
  { rewrite rect_cond by lra. rewrite Rabs_Ropp, Ht1, Rmult_1_r. reflexivity. }
  assert (Hmiss : ~ in_rect c n t h w x -> forall s', meets_plane c n p d s' -> ~ in_rect c n t h w (at_t p d s')).
  { intros NI s' M'. rewrite (meets_plane_unique _ _ _ _ _ _ M' M). exact NI. }
  destruct (Rleb_spec 0 (w * ((x - c)%r3 ∙ t2) + w * w / 2 * (t2 ∙ t2))) as [A1|A1]; cbn [andb];
  [destruct (Rleb_spec (w * ((x - c)%r3 ∙ t2) + w * w / 2 * (t2 ∙ t2)) (w * w * (t2 ∙ t2))) as [A2|A2]|].
  - destruct (Rleb_spec 0 (h * - ((x - c)%r3 ∙ t) + h * h / 2 * (t ∙ t))) as [A3|A3]; cbn [andb];
    [destruct (Rleb_spec (h * - ((x - c)%r3 ∙ t) + h * h / 2 * (t ∙ t)) (h * h * (t ∙ t))) as [A4|A4]|].
    + left. exists s. split; [exact M|]. split; [|reflexivity]. split; [apply C2; auto | apply C1; auto].
    + right. split; [|reflexivity]. apply Hmiss. intros [I1 I2]. apply C2 in I1. tauto.
    + right. split; [|reflexivity]. apply Hmiss. intros [I1 I2]. apply C2 in I1. tauto.
  - right. split; [|reflexivity]. apply Hmiss. intros [I1 I2]. apply C1 in I2. tauto.
  - right. split; [|reflexivity]. apply Hmiss. intros [I1 I2]. apply C1 in I2. tauto.
Qed.

Lemma rectangle_spec c n t h w q p d r : n <> r3zero -> t <> r3zero -> orth n t ->
  0 < h -> 0 < w -> is_unit d -> ray_is r p d ->
  mk_rectangle (fv c) (Some (fv n)) (Some (fv t)) (Some (Fin h)) (Some (Fin w)) = Ok q ->
  let inside x := Rabs ((x - c)%r3 ∙ dirn t) <= h / 2 /\ Rabs ((x - c)%r3 ∙ (dirn n × dirn t)%r3) <= w / 2 in
  (exists s, meets_plane c (dirn n) p d s /\ inside (at_t p d s) /\
     rectangle_test_intersect q r = Ok (H3 true (Some (fv (at_t p d s))) (Some (fv (dirn n))))) \/
  ((forall s, meets_plane c (dirn n) p d s -> ~ inside (at_t p d s)) /\
     rectangle_test_intersect q r = Ok (H3 false None None)).
Proof.
  intros Hn Ht Ho Hh Hw Hd Hr Hq inside. rewrite mk_rectangle_fv in Hq by assumption.
  destruct (Rleb _ _); [|discriminate]. destruct (Rltb h 0); [discriminate|]. destruct (Rltb w 0); [discriminate|].
  injection Hq as <-. pose proof (dirn_unit n Hn) as Un. pose proof (dirn_unit t Ht) as Ut.
  assert (O : dirn n ∙ dirn t = 0).
  { unfold dirn. rewrite dot_scale_l, dot_scale_r. unfold orth in Ho. rewrite Ho. ring. }
  assert (N2 : (dirn n × dirn t)%r3 ∙ (dirn n × dirn t)%r3 = 1).
  { rewrite lagrange, O. unfold is_unit in *. rewrite Un, Ut. ring. }
  assert (I : forall x, in_rect c (dirn n) (dirn t) h w x <-> inside x).
  { intros x. unfold in_rect, inside. rewrite N2, Rmult_1_r. split; intros [A B]; split; try (right; assumption).
    - destruct A; [lra|assumption].
    - destruct B; [lra|assumption]. }
  destruct (rectangle_test_spec c (dirn n) (dirn t) h w p d r) as [(s & M & J & E)|[N E]]; auto; try lra.
  - left. exists s. split; [exact M|]. split; [apply I; exact J | exact E].
  - right. split; [|exact E]. intros s M J. apply (N s M). apply I. exact J.
Qed.
