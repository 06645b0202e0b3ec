(** Property C92: ray queries on nested intersections (general_optics.py:308-320, 379-419, 481-575). *)
From Coq Require Import Reals ZArith Lra Psatz List String Bool.
From Verif Require Import PyErr Num Vec Shapes Csg Spec XReal RVec VecProofs FlatProofs SphereProofs CylProofs ShapeExtra TreeProofs SolidProofs CsgProofs.
Import ListNotations.
Local Open Scope R_scope.

(** An operator's result has a single point, so the operator above it counts one crossing. *)
Lemma bin_p2 o a b t (r : ray xr) h : tree_of (Bin o a b) t -> test_tree_intersect t r = Ok (I6 h) ->
  (exists ta tb hA hB, tree_of a ta /\ tree_of b tb /\ test_tree_intersect ta r = Ok hA /\ test_tree_intersect tb r = Ok hB) /\
  h6_p2 h = None.
Proof.
  intros HT E. inversion HT as [| |o' a' b' ta tb Ha Hb]; subst; clear HT. cbn [test_tree_intersect] in E.
  destruct (test_tree_intersect ta r) as [ra|] eqn:EA; [|discriminate].
  destruct (test_tree_intersect tb r) as [rb|] eqn:EB; [|discriminate]. cbn [bind] in E.
  split; [exists ta, tb, ra, rb; auto|]. destruct ra as [|hA|hA], rb as [|hB|hB]; try (destruct o; cbn in E; discriminate).
  assert (X : (exists f, csg_oper (T := xr) (KStr (op_name o)) = Ok f /\ (forall h', f hA hB r = Ok h' -> h6_p2 h' = None))).
  { destruct o; cbn [op_name]; eexists; (split; [reflexivity|]); intros h';
      [unfold operCsgUnion|unfold operCsgDifference|unfold operCsgIntersect];
      repeat match goal with
      | |- context [if ?c then _ else _] => destruct c
      | |- context [bind ?x _] => destruct x as [?|]; cbn [bind]
      | |- context [match ?x with (_, _) => _ end] => destruct x
      | |- context [match ?x with Some _ => _ | None => _ end] => destruct x
      end; intros K; try discriminate; injection K as <-; reflexivity. }
  destruct X as (f & Ef & Hf). rewrite Ef in E. cbn [bind index6] in E.
  destruct (f hA hB r) as [h'|] eqn:F; [|discriminate]. cbn [bind] in E. injection E as <-. exact (Hf h' eq_refl).
Qed.

(* ---- chords ---- *)
(** the part of a line in an intersection of solids *)
Definition met (e : expr solid) (p d : R3) (x0 x1 : R) : Prop :=
  x0 < x1 /\ (forall u, den e (at_t p d u) <-> x0 < u < x1) /\
  (exists s, In s (solids e) /\ surface s (at_t p d x0)) /\ (exists s, In s (solids e) /\ surface s (at_t p d x1)).

Lemma chord e t p d r : tree_of e t -> only OpIntersect e -> ray_is r p d -> is_unit d ->
  (forall s, In s (solids e) -> regular s p d) ->
  (exists x0 x1, met e p d x0 x1) \/ (forall u, ~ den e (at_t p d u)).
Proof.
  intros HT. revert HT. revert t. induction e as [s|o a IHa b IHb]; intros t HT HO Hr Hd Rg.
  - destruct (leaf_chord s t p d r HT Hr Hd) as [(t0 & t1 & L & Hs & Hm)|N]; [apply Rg; left; reflexivity| |].
    + left. exists t0, t1. split; [exact L|]. split; [exact Hm|].
      split; exists s; (split; [left; reflexivity|apply Hs; auto]).
    + right. exact N.
  - destruct HO as (-> & Oa & Ob). inversion HT as [| |o' a' b' ta tb Ha Hb]; subst.
    destruct (IHa ta Ha Oa Hr Hd) as [(a0 & a1 & La & Ma & (sa0 & Ia0 & Sa0) & (sa1 & Ia1 & Sa1))|Na];
      [intros s I; apply Rg; cbn; apply in_or_app; auto| |right; intros u [M _]; exact (Na u M)].
    destruct (IHb tb Hb Ob Hr Hd) as [(b0 & b1 & Lb & Mb & (sb0 & Ib0 & Sb0) & (sb1 & Ib1 & Sb1))|Nb];
      [intros s I; apply Rg; cbn; apply in_or_app; auto| |right; intros u [_ M]; exact (Nb u M)].
    destruct (Rlt_dec (Rmax a0 b0) (Rmin a1 b1)) as [L|L].
    + left. exists (Rmax a0 b0), (Rmin a1 b1). split; [exact L|]. split; [|split].
      * intros u. cbn [den]. rewrite Ma, Mb. unfold Rmax, Rmin. destruct (Rle_dec a0 b0), (Rle_dec a1 b1); lra.
      * unfold Rmax. destruct (Rle_dec a0 b0); [exists sb0|exists sa0]; (split; [cbn; apply in_or_app; auto|assumption]).
      * unfold Rmin. destruct (Rle_dec a1 b1); [exists sa1|exists sb1]; (split; [cbn; apply in_or_app; auto|assumption]).
    + right. intros u [A B]. apply Ma in A. apply Mb in B. apply L. unfold Rmax, Rmin. destruct (Rle_dec a0 b0), (Rle_dec a1 b1); lra.
Qed.

Lemma fc_interval (S : R -> Prop) x0 x1 t : x0 < x1 -> x0 <> 0 -> x1 <> 0 -> (forall u, 0 <= u -> (S u <-> x0 < u < x1)) ->
  (first_crossing S t <-> (0 < x0 /\ t = x0) \/ (x0 < 0 < x1 /\ t = x1)).
Proof.
  intros L N0 N1 H. split.
  - intros [P [[(e & He & B & A) F]|[(e & He & B & A) F]]].
    + left.
      assert (K : S (t + Rmin (e / 2) (e / 2))) by (apply A; unfold Rmin; destruct (Rle_dec (e/2) (e/2)); lra).
      apply H in K; [|unfold Rmin; destruct (Rle_dec (e/2) (e/2)); lra].
      assert (K0 : ~ S 0) by (apply F; lra). rewrite H in K0 by lra.
      assert (T1 : t < x1) by (unfold Rmin in K; destruct (Rle_dec (e/2) (e/2)); lra).
      assert (X0 : 0 < x0) by lra. split; [exact X0|].
      destruct (Rtotal_order t x0) as [C|[C|C]]; [exfalso|exact C|exfalso].
      * pose proof (A (t + Rmin e (x0 - t) / 2)) as Q. unfold Rmin in Q.
        destruct (Rle_dec e (x0 - t)); (assert (Q' := Q ltac:(lra)); apply H in Q'; lra).
      * pose proof (F ((x0 + t) / 2) ltac:(lra)) as Q. rewrite H in Q by lra. lra.
    + right. assert (K0 : S 0) by (apply F; lra). apply H in K0; [|lra]. split; [lra|].
      destruct (Rtotal_order t x1) as [C|[C|C]]; [exfalso|exact C|exfalso].
      * pose proof (A (t + Rmin e (x1 - t) / 2)) as Q. unfold Rmin in Q.
        destruct (Rle_dec e (x1 - t)); (assert (Q' := Q ltac:(lra)); rewrite H in Q'; lra).
      * pose proof (F ((x1 + t) / 2) ltac:(lra)) as Q. apply H in Q; lra.
  - intros [[X ->]|[X ->]].
    + apply fc_enter with x1; [lra|exact H].
    + apply fc_leave; [lra|]. intros u Hu. rewrite H by exact Hu. lra.
Qed.

(* ---- starts inside every solid ---- *)
(** what a subtree answers then: the point where the intersection is left *)
Definition leaving (e : expr solid) (p d : R3) (h : hit6 xr) (u : R) (s : solid) : Prop :=
  0 < u /\ In s (solids e) /\ surface s (at_t p d u) /\
  (exists k, h = H6 true (Some (fv (at_t p d u))) None (Some (fv (inward s (at_t p d u)))) None k) /\
  (forall v, 0 <= v -> (den e (at_t p d v) <-> v < u)).

Lemma helper_single p d r t n k m : is_unit d -> ray_is r p d -> 0 <= t ->
  helper_findIntersects (H6 true (Some (fv (at_t p d t))) None n None k) r m = Ok (Some (fv (at_t p d t)), n, Some (Fin t), 1%Z).
Proof.
  intros Hd Hr Ht. unfold helper_findIntersects. cbn [h6_p1 h6_p2 h6_n1]. now rewrite (dist_fv p d t r).
Qed.

Lemma inside_all e t p d r : tree_of e t -> only OpIntersect e -> is_unit d -> ray_is r p d ->
  (forall s, In s (solids e) -> regular s p d /\ clear s p d /\ member s p) ->
  exists h u s, test_tree_intersect t r = Ok (I6 h) /\ leaving e p d h u s.
Proof.
  intros HT. revert HT. revert t. induction e as [s|o a IHa b IHb]; intros t HT HO Hd Hr K.
  - destruct (K s (or_introl eq_refl)) as (Rg & Cl & In0).
    destruct (leaf_pos s t p d r HT Hd Hr Rg Cl) as (h & E & [t0 t1 Hp Hs Hm Ht|t0 t1 Hi Hs Hm Ho|Hn Hz]).
    + exfalso. rewrite <- (at_t_0 p d), Hm in In0. lra.
    + exists h, t1, s. split; [exact E|]. split; [lra|]. split; [left; reflexivity|]. split; [apply Hs; auto|].
      split; [exists 1%Z; exact Ho|]. intros v Hv. cbn [den]. rewrite Hm. lra.
    + exfalso. apply (Hn 0); [lra|]. now rewrite at_t_0.
  - destruct HO as (-> & Oa & Ob). inversion HT as [| |o' a' b' ta tb Ha Hb]; subst.
    destruct (IHa ta Ha Oa Hd Hr) as (hA & u & sa & EA & Pu & Ia & Sa & (ka & ->) & Ma);
      [intros s I; apply K; cbn; apply in_or_app; auto|].
    destruct (IHb tb Hb Ob Hd Hr) as (hB & v & sb & EB & Pv & Ib & Sb & (kb & ->) & Mb);
      [intros s I; apply K; cbn; apply in_or_app; auto|].
    cbn [test_tree_intersect]. rewrite EA, EB. cbn [bind index6]. cbn [csg_oper op_name].
    change (if ("intersect" =? "union")%string then _ else _) with (Ok (@operCsgIntersect xr _)). cbn [bind].
    unfold operCsgIntersect. rewrite !(helper_single p d r) by (assumption || lra).
    cbn [h6_flag h6_count andb bind olt need evenb Z.even]. rewrite !nlt_fin.
    destruct (Rltb_spec u v) as [L|L]; cbn [bind].
    + eexists _, u, sa. split; [reflexivity|]. split; [exact Pu|]. split; [cbn; apply in_or_app; auto|]. split; [exact Sa|].
      split; [eexists; reflexivity|]. intros w Hw. cbn [den]. rewrite (Ma w Hw), (Mb w Hw). lra.
    + eexists _, v, sb. split; [reflexivity|]. split; [exact Pv|]. split; [cbn; apply in_or_app; auto|]. split; [exact Sb|].
      split; [eexists; reflexivity|]. intros w Hw. cbn [den]. rewrite (Ma w Hw), (Mb w Hw). lra.
Qed.

(** C92 (starts inside): an intersection of any number of spheres and infinite cylinders, nested in any way, is queried by a
    ray that starts inside all of them: the reported point is where the ray leaves the intersection, it is on the surface
    of one of the solids, and the normal is that solid's inward normal there. *)
Theorem C92_inside : forall e t p d r,
  tree_of e t -> only OpIntersect e -> is_unit d -> ray_is r p d ->
  (forall s, In s (solids e) -> regular s p d /\ clear s p d /\ member s p) ->
  exists h u s, test_tree_intersect t r = Ok (I6 h) /\ h6_flag h = true /\
    h6_p1 h = Some (fv (at_t p d u)) /\ h6_n1 h = Some (fv (inward s (at_t p d u))) /\
    In s (solids e) /\ surface s (at_t p d u) /\ 0 < u /\
    (forall v, 0 <= v < u -> den e (at_t p d v)) /\ (forall v, u <= v -> ~ den e (at_t p d v)).
Proof.
  intros e t p d r HT HO Hd Hr K.
  destruct (inside_all e t p d r HT HO Hd Hr K) as (h & u & s & E & Pu & I & Su & (k & ->) & M).
  exists (H6 true (Some (fv (at_t p d u))) None (Some (fv (inward s (at_t p d u)))) None k), u, s.
  repeat (split; [first [exact E|reflexivity|assumption]|]).
  split; [intros v Hv; apply M; lra|intros v Hv D; apply M in D; lra].
Qed.
Print Assumptions C92_inside.

(* ---- any start ---- *)
(** what is known of the answer of a compound part whose query is right *)
Inductive part_answer (e : expr solid) (p d : R3) (h : hit6 xr) : Prop :=
| PA_ahead x0 x1 (L : 0 < x0 < x1) (M : forall u, den e (at_t p d u) <-> x0 < u < x1)
    (H : exists n k, h = H6 true (Some (fv (at_t p d x0))) None n None k)
    (S0 : exists s, In s (solids e) /\ surface s (at_t p d x0)) (S1 : exists s, In s (solids e) /\ surface s (at_t p d x1))
| PA_inside x0 x1 (L : x0 < 0 < x1) (M : forall u, den e (at_t p d u) <-> x0 < u < x1)
    (H : exists n k, h = H6 true (Some (fv (at_t p d x1))) None n None k)
    (S1 : exists s, In s (solids e) /\ surface s (at_t p d x1))
| PA_never (N : forall u, 0 <= u -> ~ den e (at_t p d u)) (F : h6_flag h = false).

Lemma part_cases o a b t p d r h : let e := Bin o a b in tree_of e t -> only OpIntersect e -> is_unit d -> ray_is r p d ->
  (forall s, In s (solids e) -> regular s p d /\ clear s p d) -> test_tree_intersect t r = Ok (I6 h) ->
  crossing_report (fun u => den e (at_t p d u)) p d h -> part_answer e p d h.
Proof.
  intros e HT HO Hd Hr K E C. destruct (bin_p2 o a b t r h HT E) as [_ P2].
  assert (Z : forall s u, In s (solids e) -> surface s (at_t p d u) -> u <> 0).
  { intros s u I Su E0. destruct (K s I) as [_ Cl]. specialize (Cl u Su). subst u. rewrite Rabs_R0 in Cl. lra. }
  assert (NH : forall u, h6_flag h = true -> h6_p1 h = Some (fv (at_t p d u)) -> exists n k,
            h = H6 true (Some (fv (at_t p d u))) None n (h6_n2 h) k).
  { intros u F P1. exists (h6_n1 h), (h6_count h). destruct h. cbn in *. congruence. }
  assert (N2 : h6_n2 h = None).
  { inversion HT as [| |o' a' b' ta tb Ha Hb]; subst. destruct HO as (-> & _). cbn [test_tree_intersect] in E.
    destruct (test_tree_intersect ta r) as [ra|]; [|discriminate].
    destruct (test_tree_intersect tb r) as [rb|]; [|discriminate]. cbn [bind] in E.
    destruct ra as [|hA|hA], rb as [|hB|hB]; try (cbn in E; discriminate).
    cbn [index6 bind csg_oper op_name] in E.
    change (if ("intersect" =? "union")%string then _ else _) with (Ok (@operCsgIntersect xr _)) in E. cbn [bind] in E.
    destruct (operCsgIntersect hA hB r) as [h'|] eqn:F; [|discriminate]. cbn [bind] in E. injection E as <-.
    revert F. unfold operCsgIntersect.
    repeat match goal with
      | |- context [if ?c then _ else _] => destruct c
      | |- context [bind ?x _] => destruct x as [?|]; cbn [bind]
      | |- context [match ?x with (_, _) => _ end] => destruct x
      end; intros F; try discriminate; injection F as <-; reflexivity. }
  destruct (chord e t p d r HT HO Hr Hd) as [(x0 & x1 & L & M & (s0 & I0 & S0) & (s1 & I1 & S1))|N].
  { intros s I. apply K; exact I. }
  - pose proof (Z s0 x0 I0 S0) as Z0. pose proof (Z s1 x1 I1 S1) as Z1.
    destruct C as [(u & F & P1 & FC)|[F N]].
    + apply (fc_interval _ x0 x1 u L Z0 Z1) in FC; [|intros v _; apply M]. rewrite <- N2 in *.
      destruct (NH u F P1) as (n & k & Eh). rewrite N2 in Eh.
      destruct FC as [[X ->]|[X ->]]; [eapply PA_ahead|eapply PA_inside]; eauto.
    + apply PA_never; auto.
  - destruct C as [(u & F & P1 & FC)|[F _]]; [exfalso|apply PA_never; auto].
    destruct FC as [P [[(ep & He & _ & A) _]|[_ A]]]; [apply (N (u + ep / 2)), A; lra|apply (N 0), A; lra].
Qed.

Lemma crossing_interval (S : R -> Prop) p d n k x0 x1 u : is_unit d -> x0 < x1 -> x0 <> 0 -> x1 <> 0 -> 0 <= u ->
  (forall v, 0 <= v -> (S v <-> x0 < v < x1)) ->
  (crossing_report S p d (H6 true (Some (fv (at_t p d u))) None n None k) <-> (0 < x0 /\ u = x0) \/ (x0 < 0 < x1 /\ u = x1)).
Proof.
  intros Hd L N0 N1 Hu H. rewrite <- (fc_interval S x0 x1 u L N0 N1 H). split.
  - intros [(v & _ & P & FC)|[F _]]; [|discriminate]. cbn in P. injection P as E1 E2 E3.
    assert (0 < v) by apply FC. assert (u = v); [|subst; exact FC].
    rewrite <- (dist_along p d u Hd Hu), <- (dist_along p d v Hd) by lra. f_equal. 
    apply r3_ext; cbn; congruence.
  - intros FC. left. exists u. auto.
Qed.

Lemma at_fv_inj p d u v : is_unit d -> 0 <= u -> 0 <= v -> fv (at_t p d u) = fv (at_t p d v) -> u = v.
Proof. intros Hd Hu Hv E. apply fv_inj in E. rewrite <- (dist_along p d u Hd Hu), <- (dist_along p d v Hd Hv). now rewrite E. Qed.

Lemma crossing_miss (S : R -> Prop) p d k : (crossing_report S p d (H6 false None None None None k) <-> forall u, 0 <= u -> ~ S u).
Proof.
  split.
  - intros [(v & F & _)|[_ N]]; [discriminate|exact N].
  - intros N. right. auto.
Qed.
Lemma crossing_false (S : R -> Prop) p d n k u : (forall v, 0 <= v -> ~ S v) ->
  ~ crossing_report S p d (H6 true (Some (fv (at_t p d u))) None n None k).
Proof.
  intros N [(v & _ & _ & P & [[(e & He & _ & A) _]|[_ A]])|[F _]]; [apply (N (v + e / 2)), A|apply (N 0), A|discriminate]; lra.
Qed.

(** the answer of operCsgIntersect when one side, a compound, reports one point and the other, a solid, two *)
Lemma one_two p d r s a b0 b1 n k hB : is_unit d -> ray_is r p d -> 0 < a -> 0 < b0 < b1 -> two p d s b0 b1 hB ->
  let hA := H6 true (Some (fv (at_t p d a))) None n None k in
  let ans k' := if Rltb a b0 then H6 false None None None None k'
                else H6 true (Some (fv (at_t p d b0))) None (Some (fv (inward s (at_t p d b0)))) None k' in
  (exists k', operCsgIntersect hA hB r = Ok (ans k')) /\ (exists k', operCsgIntersect hB hA r = Ok (ans k')).
Proof.
  intros Hd Hr Ha Hb T hA ans. destruct (helper_two s p d r b0 b1 hB Hd Hr ltac:(lra) T) as (B1 & B2 & B3 & B4).
  subst hA ans. cbv zeta. unfold operCsgIntersect. rewrite !(helper_single p d r) by (assumption || lra). rewrite B1, B2, B3.
  cbn [h6_flag h6_count andb bind olt need evenb Z.even]. rewrite !nlt_fin.
  destruct (Rltb_spec a b0) as [L|L]; cbn [bind].
  - rewrite (Rltb_true_intro a b1) by lra. split; eexists; reflexivity.
  - split; eexists; reflexivity.
Qed.
Lemma one_one p d r a b n m k j : is_unit d -> ray_is r p d -> 0 < a -> 0 < b ->
  let hA := H6 true (Some (fv (at_t p d a))) None n None k in
  let hB := H6 true (Some (fv (at_t p d b))) None m None j in
  exists n' k', operCsgIntersect hA hB r = Ok (H6 true (Some (fv (at_t p d (Rmin a b)))) None n' None k').
Proof.
  intros Hd Hr Ha Hb hA hB. subst hA hB. unfold operCsgIntersect. rewrite !(helper_single p d r) by (assumption || lra).
  cbn [h6_flag h6_count andb bind olt need evenb Z.even]. rewrite !nlt_fin. unfold Rmin.
  destruct (Rltb_spec a b) as [L|L]; cbn [bind]; destruct (Rle_dec a b) as [L'|L']; try lra; try (eexists _, _; reflexivity).
  replace a with b by lra. eexists _, _; reflexivity.
Qed.
Lemma miss_any (h hB : hit6 xr) r : h6_flag h = false ->
  (exists k, operCsgIntersect h hB r = Ok (H6 false None None None None k)) /\
  (exists k, operCsgIntersect hB h r = Ok (H6 false None None None None k)).
Proof.
  intros F. unfold operCsgIntersect. rewrite F, andb_false_r. cbn [andb]. split; eexists; reflexivity.
Qed.

Definition node (ta tb : tree (key xr)) : tree (key xr) := Node (KStr "intersect") ta tb.
Lemma node_query ta tb (r : ray xr) hA hB h : test_tree_intersect ta r = Ok (I6 hA) -> test_tree_intersect tb r = Ok (I6 hB) ->
  operCsgIntersect hA hB r = Ok h -> test_tree_intersect (node ta tb) r = Ok (I6 h).
Proof. intros EA EB E. cbn [test_tree_intersect node]. rewrite EA, EB. cbn. now rewrite E. Qed.

(** C92 (compound and solid): an intersection X of at least two solids, whose own query is right, is intersected with
    another solid s, in either order.  The query of the whole is right exactly in the listed cases; with the start
    outside X, and X and s met by the ray, it is right only if the ray starts inside s and finds a common point, or starts
    outside s and has left X before it comes to s. *)
Theorem C92_solid : forall o a b s tX ts t p d r hX, let X := Bin o a b in
  tree_of X tX -> only OpIntersect X -> tree_of (Leaf s) ts -> t = node tX ts \/ t = node ts tX -> is_unit d -> ray_is r p d ->
  (forall s', In s' (s :: solids X) -> regular s' p d /\ clear s' p d) ->
  (forall s', In s' (solids X) -> no_common s' s p d) ->
  test_tree_intersect tX r = Ok (I6 hX) -> crossing_report (fun u => den X (at_t p d u)) p d hX ->
  let S u := den X (at_t p d u) /\ member s (at_t p d u) in
  exists h, test_tree_intersect t r = Ok (I6 h) /\
  (crossing_report S p d h <->
     den X p \/ (forall u, 0 <= u -> ~ den X (at_t p d u)) \/ (forall u, 0 <= u -> ~ member s (at_t p d u)) \/
     (member s p /\ exists u, 0 <= u /\ S u) \/
     (~ member s p /\ forall u v, 0 <= u -> 0 <= v -> den X (at_t p d u) -> member s (at_t p d v) -> u < v)).
Proof.
  intros o a b s tX ts t p d r hX X HX HO Hs Ht Hd Hr K NC EX CX S.
  assert (PX : part_answer X p d hX).
  { refine (part_cases o a b tX p d r hX HX HO Hd Hr _ EX CX). intros s' I. apply K. right. exact I. }
  destruct (K s (or_introl eq_refl)) as [Rg Cl].
  destruct (leaf_pos s ts p d r Hs Hd Hr Rg Cl) as (hS & ES & PS).
  assert (Q : forall P : hit6 xr -> Prop,
     (exists h, operCsgIntersect hX hS r = Ok h /\ P h) -> (exists h, operCsgIntersect hS hX r = Ok h /\ P h) ->
     exists h, test_tree_intersect t r = Ok (I6 h) /\ P h).
  { intros P (h1 & E1 & P1) (h2 & E2 & P2). destruct Ht as [->| ->].
    - exists h1. split; [exact (node_query tX ts r hX hS h1 EX ES E1)|exact P1].
    - exists h2. split; [exact (node_query ts tX r hS hX h2 ES EX E2)|exact P2]. }
  assert (Q1 : forall P : hit6 xr -> Prop, forall f : Z -> hit6 xr,
     (exists k, operCsgIntersect hX hS r = Ok (f k)) /\ (exists k, operCsgIntersect hS hX r = Ok (f k)) -> (forall k, P (f k)) ->
     exists h, test_tree_intersect t r = Ok (I6 h) /\ P h).
  { intros P f [(k1 & E1) (k2 & E2)] F. apply Q; eexists; split; eauto. }
  assert (At0 : forall e, den e (at_t p d 0) <-> den e p) by (intros e; now rewrite at_t_0).
  assert (As0 : member s (at_t p d 0) <-> member s p) by now rewrite at_t_0.
  destruct PX as [x0 x1 L M (n & k & ->) (sa & Ia & Sa) (sb & Ib & Sb)|x0 x1 L M (n & k & ->) (sb & Ib & Sb)|N F].
  3:{ apply (Q1 _ _ (miss_any hX hS r F)). intros k. rewrite crossing_miss. split; [intros _; right; left; exact N|].
      intros _ u Hu [D _]. exact (N u Hu D). }
  all: destruct PS as [c0 c1 Lc Hsc Mc T|c0 c1 Lc Hsc Mc T|Nc Z].
  3,6: assert (F : h6_flag hS = false) by (rewrite Z; reflexivity);
       destruct (miss_any hS (H6 true (Some (fv (at_t p d x1))) None n None k) r F) as [A1 A2];
       first [apply (Q1 _ _ (conj A2 A1))|
              destruct (miss_any hS (H6 true (Some (fv (at_t p d x0))) None n None k) r F) as [A3 A4]; apply (Q1 _ _ (conj A4 A3))];
       intros k'; rewrite crossing_miss; (split; [intros _; right; right; left; exact Nc|intros _ u Hu [_ D]; exact (Nc u Hu D)]).
  - (* X ahead, s ahead *)
    apply (Q1 _ _ (one_two p d r s x0 c0 c1 n k hS Hd Hr ltac:(lra) Lc T)). intros k'. cbv beta.
    assert (N00 : x0 <> c0). { intros E. apply (NC sa Ia x0); [lra|]. split; [exact Sa|apply Hsc; auto]. }
    assert (XP : ~ den X p) by (rewrite <- At0, M; lra).
    assert (SP : ~ member s p) by (rewrite <- As0, Mc; lra).
    assert (X2 : ~ (forall u, 0 <= u -> ~ den X (at_t p d u))).
    { intros H. apply (H ((x0 + x1) / 2)); [lra|]. apply M. lra. }
    assert (S2 : ~ (forall u, 0 <= u -> ~ member s (at_t p d u))).
    { intros H. apply (H ((c0 + c1) / 2)); [lra|]. apply Mc. lra. }
    assert (Sep : (forall u v, 0 <= u -> 0 <= v -> den X (at_t p d u) -> member s (at_t p d v) -> u < v) <-> x1 <= c0).
    { split.
      - intros H. destruct (Rle_dec x1 c0) as [C|C]; [exact C|exfalso].
        pose proof (H ((Rmax x0 c0 + x1) / 2) (c0 + Rmin (c1 - c0) (Rmax x0 c0 + x1 - 2 * c0) / 2)) as H'.
        rewrite M, Mc in H'. unfold Rmax, Rmin in H'. destruct (Rle_dec x0 c0).
        + destruct (Rle_dec (c1 - c0) (c0 + x1 - 2 * c0)); lra.
        + destruct (Rle_dec (c1 - c0) (x0 + x1 - 2 * c0)); lra.
      - intros C u v _ _ Du Dv. apply M in Du. apply Mc in Dv. lra. }
    rewrite Sep. destruct (Rltb_spec x0 c0) as [C|C].
    + rewrite crossing_miss. split.
      * intros H. right. right. right. right. split; [exact SP|]. destruct (Rle_dec x1 c0) as [G|G]; [exact G|exfalso].
        apply (H (c0 + Rmin (c1 - c0) (x1 - c0) / 2)); unfold Rmin; destruct (Rle_dec (c1 - c0) (x1 - c0)); try lra;
          (split; [apply M; lra|apply Mc; lra]).
      * intros H u Hu [Du Dv]. apply M in Du. apply Mc in Dv. destruct H as [H|[H|[H|[[H _]|[_ H]]]]]; try tauto. lra.
    + split; [|intros [H|[H|[H|[[H _]|[_ H]]]]]; try tauto; lra].
      intros H. exfalso. destruct (Rlt_dec x0 c1) as [G|G].
      * apply (crossing_interval S p d _ _ x0 (Rmin x1 c1) c0) in H; try assumption; try lra.
        -- unfold Rmin. destruct (Rle_dec x1 c1); lra.
        -- unfold Rmin. destruct (Rle_dec x1 c1); lra.
        -- intros v Hv. unfold S. rewrite M, Mc. unfold Rmin. destruct (Rle_dec x1 c1); lra.
      * revert H. apply crossing_false. intros v Hv [Du Dv]. apply M in Du. apply Mc in Dv. lra.
  - (* X ahead, inside s *)
    destruct (one_one p d r x0 c1 n (Some (fv (inward s (at_t p d c1)))) k 1%Z Hd Hr ltac:(lra) ltac:(lra)) as (n1 & k1 & E1).
    destruct (one_one p d r c1 x0 (Some (fv (inward s (at_t p d c1)))) n 1%Z k Hd Hr ltac:(lra) ltac:(lra)) as (n2 & k2 & E2).
    unfold one in T. rewrite (Rmin_comm c1 x0) in E2.
    assert (G : forall n' k', crossing_report S p d (H6 true (Some (fv (at_t p d (Rmin x0 c1)))) None n' None k') <->
       den X p \/ (forall u, 0 <= u -> ~ den X (at_t p d u)) \/ (forall u, 0 <= u -> ~ member s (at_t p d u)) \/
       (member s p /\ exists u, 0 <= u /\ S u) \/
       (~ member s p /\ forall u v, 0 <= u -> 0 <= v -> den X (at_t p d u) -> member s (at_t p d v) -> u < v)).
    { intros n' k'.
      assert (XP : ~ den X p) by (rewrite <- At0, M; lra).
      assert (SP : member s p) by (rewrite <- As0, Mc; lra).
      assert (X2 : ~ (forall u, 0 <= u -> ~ den X (at_t p d u))).
      { intros H. apply (H ((x0 + x1) / 2)); [lra|]. apply M. lra. }
      assert (S2 : ~ (forall u, 0 <= u -> ~ member s (at_t p d u))).
      { intros H. apply (H 0); [lra|]. apply As0. exact SP. }
      destruct (Rlt_dec x0 c1) as [C|C].
      - assert (CI : crossing_report S p d (H6 true (Some (fv (at_t p d (Rmin x0 c1)))) None n' None k')).
        { apply (crossing_interval S p d n' k' x0 (Rmin x1 c1) (Rmin x0 c1)); try assumption; try lra.
          - unfold Rmin. destruct (Rle_dec x1 c1); lra.
          - unfold Rmin. destruct (Rle_dec x1 c1); lra.
          - unfold Rmin. destruct (Rle_dec x0 c1); lra.
          - intros v Hv. unfold S. rewrite M, Mc. unfold Rmin. destruct (Rle_dec x1 c1); lra.
          - left. split; [lra|]. unfold Rmin. destruct (Rle_dec x0 c1); lra. }
        split; [|intros _; exact CI]. intros _. right. right. right. left. split; [exact SP|].
        exists ((x0 + Rmin x1 c1) / 2). unfold S, Rmin. rewrite M, Mc. destruct (Rle_dec x1 c1); lra.
      - assert (NS : forall v, 0 <= v -> ~ S v). { intros v Hv [Du Dv]. apply M in Du. apply Mc in Dv. lra. }
        split; [intros H; exfalso; revert H; apply crossing_false; exact NS|].
        intros [H|[H|[H|[[_ (u & Hu & Su)]|[H _]]]]]; try tauto. exfalso. exact (NS u Hu Su). }
    subst hS. apply Q; eexists; (split; [eassumption|apply G]).
  - (* inside X, s ahead *)
    apply (Q1 _ _ (one_two p d r s x1 c0 c1 n k hS Hd Hr ltac:(lra) Lc T)). intros k'. cbv beta.
    assert (N10 : x1 <> c0). { intros E. apply (NC sb Ib x1); [lra|]. split; [exact Sb|apply Hsc; auto]. }
    assert (XP : den X p) by (rewrite <- At0, M; lra).
    split; [intros _; left; exact XP|intros _]. destruct (Rltb_spec x1 c0) as [C|C].
    + rewrite crossing_miss. intros u Hu [Du Dv]. apply M in Du. apply Mc in Dv. lra.
    + apply (crossing_interval S p d _ _ c0 (Rmin x1 c1) c0); try assumption; try lra.
      * unfold Rmin. destruct (Rle_dec x1 c1); lra.
      * unfold Rmin. destruct (Rle_dec x1 c1); lra.
      * intros v Hv. unfold S. rewrite M, Mc. unfold Rmin. destruct (Rle_dec x1 c1); lra.
  - (* inside both *)
    destruct (one_one p d r x1 c1 n (Some (fv (inward s (at_t p d c1)))) k 1%Z Hd Hr ltac:(lra) ltac:(lra)) as (n1 & k1 & E1).
    destruct (one_one p d r c1 x1 (Some (fv (inward s (at_t p d c1)))) n 1%Z k Hd Hr ltac:(lra) ltac:(lra)) as (n2 & k2 & E2).
    unfold one in T. rewrite (Rmin_comm c1 x1) in E2.
    assert (XP : den X p) by (rewrite <- At0, M; lra).
    assert (G : forall n' k', crossing_report S p d (H6 true (Some (fv (at_t p d (Rmin x1 c1)))) None n' None k')).
    { intros n' k'. apply (crossing_interval S p d n' k' (Rmax x0 c0) (Rmin x1 c1) (Rmin x1 c1)); try assumption.
      - unfold Rmax, Rmin. destruct (Rle_dec x0 c0), (Rle_dec x1 c1); lra.
      - unfold Rmax. destruct (Rle_dec x0 c0); lra.
      - unfold Rmin. destruct (Rle_dec x1 c1); lra.
      - unfold Rmin. destruct (Rle_dec x1 c1); lra.
      - intros v Hv. unfold S. rewrite M, Mc. unfold Rmax, Rmin. destruct (Rle_dec x0 c0), (Rle_dec x1 c1); lra.
      - right. unfold Rmax, Rmin. destruct (Rle_dec x0 c0), (Rle_dec x1 c1); lra. }
    subst hS. apply Q; eexists; (split; [eassumption|]); (split; [intros _; left; exact XP|intros _; apply G]).
Qed.
Print Assumptions C92_solid.

(** C92 (two compounds): two intersections of at least two solids each, whose own queries are right.  The query of their
    intersection is right exactly if one of them is not met, or the ray starts inside both, or it starts inside one of
    them and finds a common point. *)
Theorem C92_compounds : forall o a b o' a' b' tX tY p d r hX hY, let X := Bin o a b in let Y := Bin o' a' b' in
  tree_of X tX -> only OpIntersect X -> tree_of Y tY -> only OpIntersect Y -> is_unit d -> ray_is r p d ->
  (forall s, In s (solids X ++ solids Y) -> regular s p d /\ clear s p d) ->
  (forall s s', In s (solids X) -> In s' (solids Y) -> no_common s s' p d) ->
  test_tree_intersect tX r = Ok (I6 hX) -> crossing_report (fun u => den X (at_t p d u)) p d hX ->
  test_tree_intersect tY r = Ok (I6 hY) -> crossing_report (fun u => den Y (at_t p d u)) p d hY ->
  let S u := den X (at_t p d u) /\ den Y (at_t p d u) in
  exists h, test_tree_intersect (node tX tY) r = Ok (I6 h) /\
  (crossing_report S p d h <->
     (forall u, 0 <= u -> ~ den X (at_t p d u)) \/ (forall u, 0 <= u -> ~ den Y (at_t p d u)) \/
     ((den X p \/ den Y p) /\ exists u, 0 <= u /\ S u)).
Proof.
  intros o a b o' a' b' tX tY p d r hX hY X Y HX HO HY HO' Hd Hr K NC EX CX EY CY S.
  assert (PX : part_answer X p d hX).
  { refine (part_cases o a b tX p d r hX HX HO Hd Hr _ EX CX). intros s I. apply K. apply in_or_app. left. exact I. }
  assert (PY : part_answer Y p d hY).
  { refine (part_cases o' a' b' tY p d r hY HY HO' Hd Hr _ EY CY). intros s I. apply K. apply in_or_app. right. exact I. }
  assert (Q : forall P : hit6 xr -> Prop, (exists h, operCsgIntersect hX hY r = Ok h /\ P h) ->
     exists h, test_tree_intersect (node tX tY) r = Ok (I6 h) /\ P h).
  { intros P (h & E & Ph). exists h. split; [exact (node_query tX tY r hX hY h EX EY E)|exact Ph]. }
  assert (At0 : forall e, den e (at_t p d 0) <-> den e p) by (intros e; now rewrite at_t_0).
  destruct PX as [x0 x1 L M (n & k & ->) (sa & Ia & Sa) (sb & Ib & Sb)|x0 x1 L M (n & k & ->) (sb & Ib & Sb)|N F].
  3:{ destruct (miss_any hX hY r F) as [(k & E) _]. apply Q. eexists. split; [exact E|]. rewrite crossing_miss.
      split; [intros _; left; exact N|]. intros _ u Hu [D _]. exact (N u Hu D). }
  all: destruct PY as [c0 c1 Lc Mc (m & j & ->) (sa' & Ia' & Sa') (sb' & Ib' & Sb')|c0 c1 Lc Mc (m & j & ->) (sb' & Ib' & Sb')|N F].
  3,6: match type of EX with _ = Ok (I6 ?hh) => destruct (miss_any hY hh r F) as [_ (k' & E)] end;
       apply Q; eexists; (split; [exact E|]); rewrite crossing_miss; (split; [intros _; right; left; exact N|]);
       intros _ u Hu [_ D]; exact (N u Hu D).
  - (* both ahead *)
    destruct (one_one p d r x0 c0 n m k j Hd Hr ltac:(lra) ltac:(lra)) as (n1 & k1 & E1).
    apply Q. eexists. split; [exact E1|].
    assert (N00 : x0 <> c0). { intros E. apply (NC sa sa' Ia Ia' x0); [lra|]. split; [exact Sa|rewrite E; exact Sa']. }
    assert (XP : ~ den X p) by (rewrite <- At0, M; lra). assert (YP : ~ den Y p) by (rewrite <- At0, Mc; lra).
    split.
    + intros H. exfalso. destruct (Rlt_dec (Rmax x0 c0) (Rmin x1 c1)) as [G|G].
      * apply (crossing_interval S p d n1 k1 (Rmax x0 c0) (Rmin x1 c1) (Rmin x0 c0)) in H; try assumption.
        -- revert H G. unfold Rmax, Rmin. destruct (Rle_dec x0 c0), (Rle_dec x1 c1); lra.
        -- unfold Rmax. destruct (Rle_dec x0 c0); lra.
        -- unfold Rmin. destruct (Rle_dec x1 c1); lra.
        -- unfold Rmin. destruct (Rle_dec x0 c0); lra.
        -- intros v Hv. unfold S. rewrite M, Mc. unfold Rmax, Rmin. destruct (Rle_dec x0 c0), (Rle_dec x1 c1); lra.
      * revert H. apply crossing_false. intros v Hv [Du Dv]. apply M in Du. apply Mc in Dv. apply G.
        unfold Rmax, Rmin. destruct (Rle_dec x0 c0), (Rle_dec x1 c1); lra.
    + intros [H|[H|[[H|H] _]]]; try tauto; exfalso.
      * apply (H ((x0 + x1) / 2)); [lra|]. apply M. lra.
      * apply (H ((c0 + c1) / 2)); [lra|]. apply Mc. lra.
  - (* X ahead, inside Y *)
    destruct (one_one p d r x0 c1 n m k j Hd Hr ltac:(lra) ltac:(lra)) as (n1 & k1 & E1).
    apply Q. eexists. split; [exact E1|]. assert (YP : den Y p) by (rewrite <- At0, Mc; lra).
    destruct (Rlt_dec x0 c1) as [C|C].
    + assert (CI : crossing_report S p d (H6 true (Some (fv (at_t p d (Rmin x0 c1)))) None n1 None k1)).
      { apply (crossing_interval S p d n1 k1 x0 (Rmin x1 c1) (Rmin x0 c1)); try assumption; try lra.
        - unfold Rmin. destruct (Rle_dec x1 c1); lra.
        - unfold Rmin. destruct (Rle_dec x1 c1); lra.
        - unfold Rmin. destruct (Rle_dec x0 c1); lra.
        - intros v Hv. unfold S. rewrite M, Mc. unfold Rmin. destruct (Rle_dec x1 c1); lra.
        - left. split; [lra|]. unfold Rmin. destruct (Rle_dec x0 c1); lra. }
      split; [|intros _; exact CI]. intros _. right. right. split; [right; exact YP|].
      exists ((x0 + Rmin x1 c1) / 2). unfold S, Rmin. rewrite M, Mc. destruct (Rle_dec x1 c1); lra.
    + assert (NS : forall v, 0 <= v -> ~ S v). { intros v Hv [Du Dv]. apply M in Du. apply Mc in Dv. lra. }
      split; [intros H; exfalso; revert H; apply crossing_false; exact NS|].
      intros [H|[H|[_ (u & Hu & Su)]]]; exfalso; [|exact (H 0 (Rle_refl 0) (proj2 (At0 Y) YP))|exact (NS u Hu Su)].
      apply (H ((x0 + x1) / 2)); [lra|]. apply M. lra.
  - (* inside X, Y ahead *)
    destruct (one_one p d r x1 c0 n m k j Hd Hr ltac:(lra) ltac:(lra)) as (n1 & k1 & E1).
    apply Q. eexists. split; [exact E1|]. assert (XP : den X p) by (rewrite <- At0, M; lra).
    destruct (Rlt_dec c0 x1) as [C|C].
    + assert (CI : crossing_report S p d (H6 true (Some (fv (at_t p d (Rmin x1 c0)))) None n1 None k1)).
      { apply (crossing_interval S p d n1 k1 c0 (Rmin x1 c1) (Rmin x1 c0)); try assumption; try lra.
        - unfold Rmin. destruct (Rle_dec x1 c1); lra.
        - unfold Rmin. destruct (Rle_dec x1 c1); lra.
        - unfold Rmin. destruct (Rle_dec x1 c0); lra.
        - intros v Hv. unfold S. rewrite M, Mc. unfold Rmin. destruct (Rle_dec x1 c1); lra.
        - left. split; [lra|]. unfold Rmin. destruct (Rle_dec x1 c0); lra. }
      split; [|intros _; exact CI]. intros _. right. right. split; [left; exact XP|].
      exists ((c0 + Rmin x1 c1) / 2). unfold S, Rmin. rewrite M, Mc. destruct (Rle_dec x1 c1); lra.
    + assert (NS : forall v, 0 <= v -> ~ S v). { intros v Hv [Du Dv]. apply M in Du. apply Mc in Dv. lra. }
      split; [intros H; exfalso; revert H; apply crossing_false; exact NS|].
      intros [H|[H|[_ (u & Hu & Su)]]]; exfalso; [exact (H 0 (Rle_refl 0) (proj2 (At0 X) XP))| |exact (NS u Hu Su)].
      apply (H ((c0 + c1) / 2)); [lra|]. apply Mc. lra.
  - (* inside both *)
    destruct (one_one p d r x1 c1 n m k j Hd Hr ltac:(lra) ltac:(lra)) as (n1 & k1 & E1).
    apply Q. eexists. split; [exact E1|].
    assert (XP : den X p) by (rewrite <- At0, M; lra). assert (YP : den Y p) by (rewrite <- At0, Mc; lra).
    split; intros _.
    + right. right. split; [left; exact XP|]. exists 0. split; [lra|]. split; apply At0; assumption.
    + apply (crossing_interval S p d n1 k1 (Rmax x0 c0) (Rmin x1 c1) (Rmin x1 c1)); try assumption.
      * unfold Rmax, Rmin. destruct (Rle_dec x0 c0), (Rle_dec x1 c1); lra.
      * unfold Rmax. destruct (Rle_dec x0 c0); lra.
      * unfold Rmin. destruct (Rle_dec x1 c1); lra.
      * unfold Rmin. destruct (Rle_dec x1 c1); lra.
      * intros v Hv. unfold S. rewrite M, Mc. unfold Rmax, Rmin. destruct (Rle_dec x0 c0), (Rle_dec x1 c1); lra.
      * right. unfold Rmax, Rmin. destruct (Rle_dec x0 c0), (Rle_dec x1 c1); lra.
Qed.
Print Assumptions C92_compounds.

(** C92 (three solids): a ray that starts outside the intersection of the first two and outside the third, and meets all
    three in a common point, never gets the right answer. *)
Theorem C92_three : forall s1 s2 s3 tX ts t p d r,
  tree_of (Bin OpIntersect (Leaf s1) (Leaf s2)) tX -> tree_of (Leaf s3) ts -> t = node tX ts \/ t = node ts tX ->
  is_unit d -> ray_is r p d ->
  (forall s, In s [s1; s2; s3] -> regular s p d /\ clear s p d) ->
  no_common s1 s2 p d -> no_common s1 s3 p d -> no_common s2 s3 p d ->
  ~ (member s1 p /\ member s2 p) -> ~ member s3 p ->
  let S u := member s1 (at_t p d u) /\ member s2 (at_t p d u) /\ member s3 (at_t p d u) in
  (exists u, 0 <= u /\ S u) ->
  exists h, test_tree_intersect t r = Ok (I6 h) /\ ~ crossing_report S p d h.
Proof.
  intros s1 s2 s3 tX ts t p d r HX Hs Ht Hd Hr K N12 N13 N23 O12 O3 S (u & Hu & Su).
  destruct (K s1 ltac:(cbn; auto)) as [R1 C1]. destruct (K s2 ltac:(cbn; auto)) as [R2 C2].
  destruct (intersect_two s1 s2 tX p d r HX Hd Hr R1 R2 C1 C2 N12) as (hX & EX & CX & _).
  destruct (C92_solid OpIntersect (Leaf s1) (Leaf s2) s3 tX ts t p d r hX HX) as (h & E & C); try assumption.
  { cbn. auto. }
  { intros s I. apply K. cbn in I |- *. tauto. }
  { intros s [<-|[<-|[]]]; assumption. }
  exists h. split; [exact E|]. intros CR.
  assert (CR' : crossing_report (fun v => den (Bin OpIntersect (Leaf s1) (Leaf s2)) (at_t p d v) /\ member s3 (at_t p d v)) p d h).
  { assert (EQ : forall v, S v <-> den (Bin OpIntersect (Leaf s1) (Leaf s2)) (at_t p d v) /\ member s3 (at_t p d v)).
    { intros v. unfold S. cbn [den]. tauto. }
    destruct CR as [(v & F & P1 & P & FC)|[F N]].
    - left. exists v. split; [exact F|]. split; [exact P1|]. split; [exact P|].
      destruct FC as [[(e & He & B & A) FB]|[(e & He & B & A) FB]].
      + left. split; [exists e; split; [exact He|]; split; intros w Hw|intros w Hw].
        * rewrite <- EQ. apply B; exact Hw.
        * apply EQ, A; exact Hw.
        * rewrite <- EQ. apply FB; exact Hw.
      + right. split; [exists e; split; [exact He|]; split; intros w Hw|intros w Hw].
        * apply EQ, B; exact Hw.
        * rewrite <- EQ. apply A; exact Hw.
        * apply EQ, FB; exact Hw.
    - right. split; [exact F|]. intros v Hv. rewrite <- EQ. apply N; exact Hv. }
  apply C in CR'. cbn [den] in CR'.
  destruct CR' as [H|[H|[H|[[H _]|[_ H]]]]]; try tauto.
  - apply (H u Hu). unfold S in Su. tauto.
  - apply (H u Hu). unfold S in Su. tauto.
  - assert (u < u); [|lra]. unfold S in Su. apply H; tauto.
Qed.
Print Assumptions C92_three.

(** balls met at 7-13, 9-17 and 10-14: the common part is 10-13, and the hypotheses of C92_three hold *)
Lemma axis_set l : (forall s, In s l -> exists x rad, s = axis_ball x rad /\ 0 < rad /\ 1e-12 < Rabs (x - rad) /\ 1e-12 < Rabs (x + rad)) ->
  forall s, In s l -> regular s org ex /\ clear s org ex.
Proof.
  intros H s I. destruct (H s I) as (x & rad & -> & P & A & B). split; [apply axis_regular; exact P|apply axis_clear; assumption].
Qed.
Lemma axis_nc x rad y rad' : 0 < rad -> 0 < rad' ->
  x - rad <> y - rad' -> x - rad <> y + rad' -> x + rad <> y - rad' -> x + rad <> y + rad' ->
  no_common (axis_ball x rad) (axis_ball y rad') org ex.
Proof.
  intros P Q A B C D t _ [E F]. apply axis_surface in E; [|exact P]. apply axis_surface in F; [|exact Q]. lra.
Qed.
Ltac axis_in := let s := fresh in let I := fresh in
  intros s I; cbn in I; repeat (destruct I as [<-|I]; [eexists _, _; split; [reflexivity|];
    split; [lra|]; split; unfold Rabs; match goal with |- context [Rcase_abs ?z] => destruct (Rcase_abs z); lra end|]); destruct I.
Example C92_hyp : let a := axis_ball 10 3 in let b := axis_ball 13 4 in let c := axis_ball 12 2 in
  (exists tX, tree_of (Bin OpIntersect (Leaf a) (Leaf b)) tX) /\ (exists ts, tree_of (Leaf c) ts) /\
  (forall s, In s [a; b; c] -> regular s org ex /\ clear s org ex) /\
  no_common a b org ex /\ no_common a c org ex /\ no_common b c org ex /\
  ~ (member a org /\ member b org) /\ ~ member c org /\
  (member a (at_t org ex 11) /\ member b (at_t org ex 11) /\ member c (at_t org ex 11)).
Proof.
  intros a b c. split; [apply axis_tree2|]. split; [apply axis_tree|]. split; [apply axis_set; unfold a, b, c; axis_in|].
  split; [apply axis_nc; lra|]. split; [apply axis_nc; lra|]. split; [apply axis_nc; lra|].
  assert (Z : forall s, member s org <-> member s (at_t org ex 0)) by (intros s; now rewrite at_t_0).
  rewrite !Z. unfold a, b, c. rewrite !axis_member. lra.
Qed.
(** a start inside three nested balls, and the same start inside two of them with a ball ahead (right by C92_solid) *)
Example C92_hyp_inside : let a := axis_ball 1 3 in let b := axis_ball 2 7 in let c := axis_ball 0 1 in let c' := axis_ball 4 2 in
  let e := Bin OpIntersect (Leaf a) (Bin OpIntersect (Leaf b) (Leaf c)) in
  (exists t, tree_of e t) /\ only OpIntersect e /\ (forall s, In s (solids e) -> regular s org ex /\ clear s org ex /\ member s org) /\
  (forall s, In s [a; b; c'] -> regular s org ex /\ clear s org ex) /\ no_common a b org ex /\
  no_common a c' org ex /\ no_common b c' org ex /\ member a org /\ member b org /\ ~ member c' org /\
  member c' (at_t org ex 3) /\ member a (at_t org ex 3) /\ member b (at_t org ex 3).
Proof.
  intros a b c c' e. split.
  { destruct (axis_tree 1 3) as [t1 H1], (axis_tree2 OpIntersect 2 7 0 1) as [t2 H2]. eexists. apply TO_bin; eassumption. }
  split; [cbn; auto|]. split.
  { intros s I. assert (M : member s org).
    { replace org with (at_t org ex 0) by apply at_t_0. cbn in I. destruct I as [<-|[<-|[<-|[]]]]; unfold a, b, c; apply axis_member; lra. }
    assert (H : regular s org ex /\ clear s org ex); [|tauto]. revert I. apply axis_set. unfold e, a, b, c. axis_in. }
  split; [apply axis_set; unfold a, b, c'; axis_in|].
  split; [apply axis_nc; lra|]. split; [apply axis_nc; lra|]. split; [apply axis_nc; lra|].
  assert (Z : forall s, member s org <-> member s (at_t org ex 0)) by (intros s; now rewrite at_t_0).
  rewrite !Z. unfold a, b, c'. rewrite !axis_member. lra.
Qed.
