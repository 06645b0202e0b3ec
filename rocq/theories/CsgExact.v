(** Unions and differences: exactly when the ray query is right (general_optics.py:308-624). *)
From Coq Require Import Reals ZArith Lra Lia Psatz List String Bool Classical_Prop.
From Verif Require Import PyErr Num Vec Shapes Csg Spec XReal RVec VecProofs FlatProofs SphereProofs CylProofs ShapeExtra TreeProofs SolidProofs CsgProofs CsgStart.
Import ListNotations.
Local Open Scope R_scope.

(** the ray starts inside the set, or on its surface going in *)
Definition starts_in (S : R -> Prop) : Prop := exists e, 0 < e /\ forall u, 0 < u < e -> S u.
(** the query gives the first crossing of the set, with the normal of the surface crossed there, or a miss if there is none *)
Definition right_query (t : tree (key xr)) (r : ray xr) (S : R -> Prop) (p d : R3) (l : list solid) : Prop :=
  exists h, test_tree_intersect t r = Ok (I6 h) /\ two_report S p d l h.
(** no surface of a solid of l is met before t *)
Definition none_before (l : list solid) (p d : R3) (t : R) : Prop := forall s u, In s l -> 0 < u < t -> ~ surface s (at_t p d u).
(** a union is seen fairly from outside, or if no surface of a member is met before the union is left *)
Definition fair_union (e : expr solid) (p d : R3) : Prop :=
  let S u := den e (at_t p d u) in starts_outside S \/ exists t, next_crossing S t /\ none_before (solids e) p d t.
(** a difference A minus B is seen fairly if A is not met; or B is met and: both are ahead and B is not wholly in front of A; or the start is in A only and A is left before B is met; or the start
    is in both and B is left first *)
Definition fair_difference (A B : R -> Prop) : Prop :=
  (forall u, 0 < u -> ~ A u) \/
  ((exists u, 0 < u /\ B u) /\
   ((starts_outside A /\ starts_outside B /\ exists u v, 0 < u < v /\ A u /\ B v) \/
    (starts_in A /\ starts_outside B /\ forall u v, 0 < u -> A u -> 0 < v -> B v -> u < v) \/
    (starts_in A /\ starts_in B /\ exists v, 0 < v /\ A v /\ forall u, v <= u -> ~ B u))).

(* ------------------------------------------------------------------ unions *)
(** what a union reports: the nearest surface point of any member *)
Definition nearest_of (l : list solid) (p d : R3) (r : ray xr) (h : hit6 xr) : Prop :=
  (exists t s, In s l /\ 1e-12 < t /\ surface s (at_t p d t) /\ none_before l p d t /\ h6_flag h = true /\
     exists k, helper_findIntersects h r nearest = Ok (Some (fv (at_t p d t)), Some (fv (inward s (at_t p d t))), Some (Fin t), k)) \/
  (h6_flag h = false /\ forall s u, In s l -> 0 < u -> ~ surface s (at_t p d u)).
Lemma nearest_leaf s t p d r : tree_of (Leaf s) t -> is_unit d -> ray_is r p d -> regular s p d -> clear0 s p d -> exists h, test_tree_intersect t r = Ok (I6 h) /\ nearest_of [s] p d r h.
Proof.
  intros HT Hd Hr Reg Cl. destruct (leaf_pos0 s t p d r HT Hd Hr Reg Cl) as (h & E & L). exists h. split; [exact E|]. destruct L.
  - left. destruct (helper_two s p d r t0 t1 h Hd Hr ltac:(lra) Ht) as (A & _ & B & _). exists t0, s. split; [left; reflexivity|]. split; [lra|]. split; [apply Hs; auto|].
    split; [intros s' u [<-|[]] Hu M; apply Hs in M; lra|]. split; [exact B|]. eexists. exact A.
  - left. destruct (helper_one s p d r t1 h nearest Hd Hr ltac:(lra) Ho) as (A & B & _). exists t1, s. split; [left; reflexivity|]. split; [lra|]. split; [apply Hs; auto|].
    split; [intros s' u [<-|[]] Hu M; apply Hs in M; lra|]. split; [exact B|]. eexists. exact A.
  - right. unfold none in Hz. subst h. split; [reflexivity|]. intros s' u [<-|[]] Hu. apply Hf, Hu.
Qed.
Lemma nearest_bin la lb p d r hA hB : is_unit d -> ray_is r p d -> nearest_of la p d r hA -> nearest_of lb p d r hB ->
  exists h, operCsgUnion hA hB r = Ok h /\ nearest_of (la ++ lb) p d r h /\
  (h6_flag h = true -> forall q n dist k, helper_findIntersects h r nearest = Ok (q, n, dist, k) -> h6_p1 h = q /\ h6_n1 h = n).
Proof.
  intros Hd Hr IA IB. unfold operCsgUnion.
  assert (HX : forall t s c, 0 <= t -> helper_findIntersects (H6 true (Some (fv (at_t p d t))) None (Some (fv (inward s (at_t p d t)))) None c) r nearest
     = Ok (Some (fv (at_t p d t)), Some (fv (inward s (at_t p d t))), Some (Fin t), 1%Z)).
  { intros t s c Ht. unfold helper_findIntersects; cbn [h6_p1 h6_p2 h6_n1]. now rewrite (dist_fv p d t r). }
  assert (HY : forall t s c q n dist k, 0 <= t -> helper_findIntersects (H6 true (Some (fv (at_t p d t))) None (Some (fv (inward s (at_t p d t)))) None c) r nearest
     = Ok (q, n, dist, k) -> Some (fv (at_t p d t)) = q /\ Some (fv (inward s (at_t p d t))) = n).
  { intros t s c q n dist k Ht E. rewrite HX in E by exact Ht. injection E; auto. }
  assert (NB : forall t, none_before la p d t -> none_before lb p d t -> none_before (la ++ lb) p d t) by (intros t H1 H2 s u I; apply in_app_or in I; destruct I; [apply H1|apply H2]; assumption).
  assert (NL : forall l t t', t' <= t -> none_before l p d t -> none_before l p d t') by (intros l t t' L H s u I Hu; apply H; [exact I|lra]).
  assert (NA : forall l t, (forall s u, In s l -> 0 < u -> ~ surface s (at_t p d u)) -> none_before l p d t) by (intros l t H s u I Hu; apply H; [exact I|lra]).
  destruct IA as [(t & s & Is & Ht & Hs & Bf & F & (k & E))|[F Never]]; destruct IB as [(t' & s' & Is' & Ht' & Hs' & Bf' & F' & (k' & E'))|[F' Never']]; rewrite F, F'; cbn [andb].
  - rewrite E, E'. cbn [bind olt need]. rewrite nlt_fin. destruct (Rltb_spec t t') as [L|L]; (eexists; split; [reflexivity|]; split; [left|intros _ q n dist k0; apply HY; lra]).
    + exists t, s. split; [apply in_or_app; auto|]. do 2 (split; [assumption|]). split; [apply NB; [exact Bf|apply (NL _ t'); [lra|exact Bf']]|]. split; [reflexivity|eexists; apply HX; lra].
    + exists t', s'. split; [apply in_or_app; auto|]. do 2 (split; [assumption|]). split; [apply NB; [apply (NL _ t); [lra|exact Bf]|exact Bf']|]. split; [reflexivity|eexists; apply HX; lra].
  - rewrite E. cbn [bind]. eexists. split; [reflexivity|]. split; [left|intros _ q n dist k0; apply HY; lra].
    exists t, s. split; [apply in_or_app; auto|]. do 2 (split; [assumption|]). split; [apply NB; [exact Bf|apply NA, Never']|]. split; [reflexivity|eexists; apply HX; lra].
  - rewrite E'. cbn [bind]. eexists. split; [reflexivity|]. split; [left|intros _ q n dist k0; apply HY; lra].
    exists t', s'. split; [apply in_or_app; auto|]. do 2 (split; [assumption|]). split; [apply NB; [apply NA, Never|exact Bf']|]. split; [reflexivity|eexists; apply HX; lra].
  - eexists. split; [reflexivity|]. split; [right|discriminate]. split; [reflexivity|]. intros s0 u I Hu. apply in_app_or in I. destruct I as [I|I]; [apply Never|apply Never']; auto.
Qed.
Lemma nearest_tree e t p d r : tree_of e t -> only OpUnion e -> is_unit d -> ray_is r p d -> (forall s, In s (solids e) -> regular s p d /\ clear0 s p d) ->
  exists h, test_tree_intersect t r = Ok (I6 h) /\ nearest_of (solids e) p d r h /\
    (forall o a b, e = Bin o a b -> h6_flag h = true -> forall q n dist k, helper_findIntersects h r nearest = Ok (q, n, dist, k) -> h6_p1 h = q /\ h6_n1 h = n).
Proof.
  intros HT. revert HT. revert t. induction e as [s|o a IHa b IHb]; intros t HT HO Hd Hr K.
  - destruct (K s (or_introl eq_refl)) as [Rg Cl]. destruct (nearest_leaf s t p d r HT Hd Hr Rg Cl) as (h & E & I). exists h. split; [exact E|]. split; [exact I|discriminate].
  - destruct HO as (-> & Oa & Ob). inversion HT as [| |o' a' b' ta tb Ha Hb]; subst.
    destruct (IHa ta Ha Oa Hd Hr) as (hA & EA & IA & _); [intros s I; apply K; cbn; apply in_or_app; auto|].
    destruct (IHb tb Hb Ob Hd Hr) as (hB & EB & IB & _); [intros s I; apply K; cbn; apply in_or_app; auto|].
    destruct (nearest_bin _ _ p d r hA hB Hd Hr IA IB) as (h & E & I & Q).
    exists h. cbn [test_tree_intersect]. rewrite EA, EB. cbn [bind index6]. cbn [csg_oper op_name].
    change (if ("union" =? "union")%string then _ else _) with (Ok (@operCsgUnion xr _)). cbn [bind]. rewrite E. split; [reflexivity|]. split; [exact I|].
    intros o a' b' _. exact Q.
Qed.
(** membership can only change on a surface *)
Lemma member_local s ts p d (r : ray xr) t : tree_of (Leaf s) ts -> is_unit d -> ray_is r p d -> regular s p d -> ~ surface s (at_t p d t) ->
  exists e, 0 < e /\ forall u, t - e < u < t + e -> (member s (at_t p d u) <-> member s (at_t p d t)).
Proof.
  intros HT Hd Hr Reg N. destruct (leaf_query s ts p d r HT Hd Hr Reg) as (h & _ & L). destruct L as [t0 t1 lt01 Hs Hm _|Hn Hf _].
  - rewrite Hs in N. exists (Rmin (Rabs (t - t0)) (Rabs (t - t1))). split; [apply Rmin_glb_lt; apply Rabs_pos_lt; lra|].
    intros u Hu. rewrite !Hm. revert Hu. unfold Rmin, Rabs. destruct (Rcase_abs (t - t0)), (Rcase_abs (t - t1)); match goal with |- context [Rle_dec ?a ?b] => destruct (Rle_dec a b) end; lra.
  - exists 1. split; [lra|]. intros u _. split; intros M; exfalso; exact (Hf _ M).
Qed.
Lemma den_local e tr p d (r : ray xr) t : tree_of e tr -> is_unit d -> ray_is r p d -> (forall s, In s (solids e) -> regular s p d) -> (forall s, In s (solids e) -> ~ surface s (at_t p d t)) ->
  exists eps, 0 < eps /\ forall u, t - eps < u < t + eps -> (den e (at_t p d u) <-> den e (at_t p d t)).
Proof.
  revert tr. induction e as [s|o a IHa b IHb]; intros tr HT Hd Hr Rg N.
  - apply (member_local s tr p d r t HT Hd Hr); [apply Rg|apply N]; left; reflexivity.
  - inversion HT as [| |o' a' b' ta tb Ha Hb]; subst. cbn [solids] in Rg, N.
    destruct (IHa ta Ha Hd Hr) as (e1 & P1 & H1); [intros s I; apply Rg, in_or_app; auto|intros s I; apply N, in_or_app; auto|].
    destruct (IHb tb Hb Hd Hr) as (e2 & P2 & H2); [intros s I; apply Rg, in_or_app; auto|intros s I; apply N, in_or_app; auto|].
    exists (Rmin e1 e2). split; [apply Rmin_glb_lt; assumption|]. intros u Hu. assert (L : Rmin e1 e2 <= e1 /\ Rmin e1 e2 <= e2) by (split; [apply Rmin_l|apply Rmin_r]).
    specialize (H1 u ltac:(lra)). specialize (H2 u ltac:(lra)). destruct o; cbn [den]; rewrite H1, H2; reflexivity.
Qed.
Lemma crossing_surface e tr p d (r : ray xr) t : tree_of e tr -> is_unit d -> ray_is r p d -> (forall s, In s (solids e) -> regular s p d) -> next_crossing (fun u => den e (at_t p d u)) t ->
  exists s, In s (solids e) /\ surface s (at_t p d t).
Proof.
  intros HT Hd Hr Rg [Pt C]. apply NNPP. intros N. destruct (den_local e tr p d r t HT Hd Hr Rg) as (eps & Pe & H); [intros s I Sf; apply N; eauto|].
  pose proof (H (t - Rmin eps t / 2)) as H1. assert (K1 : t - eps < t - Rmin eps t / 2 < t + eps /\ 0 < t - Rmin eps t / 2 < t) by (unfold Rmin; destruct (Rle_dec eps t); lra). specialize (H1 (proj1 K1)).
  destruct C as [[Bf (e1 & P1 & Af)]|[Bf (e1 & P1 & Af)]]; pose proof (Bf _ (proj2 K1)) as X1;
  (assert (K2 : t - eps < t + Rmin eps e1 / 2 < t + eps /\ t < t + Rmin eps e1 / 2 < t + e1) by (unfold Rmin; destruct (Rle_dec eps e1); lra)); pose proof (H _ (proj1 K2)) as H2; pose proof (Af _ (proj2 K2)) as X2; tauto.
Qed.
Lemma union_exact o a b t p d r : let e := Bin o a b in tree_of e t -> only OpUnion e -> is_unit d -> ray_is r p d ->
  (forall s, In s (solids e) -> regular s p d /\ clear0 s p d) ->
  (right_query t r (fun u => den e (at_t p d u)) p d (solids e) <-> fair_union e p d).
Proof.
  intros e HT HO Hd Hr K. destruct (nearest_tree e t p d r HT HO Hd Hr K) as (h & E & Nr & Q). split.
  - intros (h' & E' & R). rewrite E in E'. injection E' as <-. destruct R as [(u & s & F & P1 & Is & Sf & N1 & Nx & Lu)|[F No]].
    + right. exists u. split; [exact Nx|]. destruct Nr as [(t0 & s0 & Is0 & L0 & Sf0 & Bf & _ & (k & Eh))|[F' _]]; [|congruence].
      destruct (Q o a b eq_refl F _ _ _ _ Eh) as [P _]. rewrite P1 in P. assert (P' : fv (at_t p d u) = fv (at_t p d t0)) by congruence.
      apply fv_inj, (at_t_inj p d _ _ (unit_nonzero _ Hd)) in P'. rewrite P'. exact Bf.
    + left. exists 1. split; [lra|]. intros u Hu. apply No. lra.
  - intros [Out|(t0 & Nx & Bf)].
    + destruct (union_first0 o a b t p d r HT HO Hd Hr K Out) as (h' & E' & R). exists h'. auto.
    + exists h. split; [exact E|]. destruct (crossing_surface e t p d r t0 HT Hd Hr (fun s I => proj1 (K s I)) Nx) as (s & Is & Sf). pose proof (proj1 Nx) as P0.
      destruct Nr as [(t1 & s1 & Is1 & L1 & Sf1 & Bf1 & F & (k & Eh))|[_ Nv]]; [|destruct (Nv s t0 Is P0 Sf)].
      assert (t1 = t0). { destruct (Rtotal_order t1 t0) as [L|[L|L]]; [exfalso; apply (Bf s1 t1 Is1); [lra|exact Sf1]|exact L|exfalso; apply (Bf1 s t0 Is); [lra|exact Sf]]. } subst t1.
      destruct (Q o a b eq_refl F _ _ _ _ Eh) as [P N]. left. exists t0, s1. auto 10.
Qed.

(* ------------------------------------------------------------------ differences *)
Section Intervals.
Variables (S : R -> Prop) (x y : R).
Hypothesis H : forall u, 0 < u -> (S u <-> x < u < y).
Lemma int_outside : 0 < x -> starts_outside S.
Proof. intros P. exists x. split; [exact P|]. intros u Hu. rewrite H; lra. Qed.
Lemma int_in : x <= 0 -> 0 < y -> starts_in S.
Proof. intros P Q. exists y. split; [exact Q|]. intros u Hu. rewrite H; lra. Qed.
Lemma int_not_in : 0 < x -> ~ starts_in S.
Proof. intros P (e & He & N). specialize (N (Rmin e x / 2)). rewrite H in N by (unfold Rmin; destruct (Rle_dec e x); lra). revert N. unfold Rmin. destruct (Rle_dec e x); lra. Qed.
Lemma int_not_outside : x <= 0 -> 0 < y -> ~ starts_outside S.
Proof. intros P Q (e & He & N). apply (N (Rmin e y / 2)); [|apply H]; unfold Rmin; destruct (Rle_dec e y); lra. Qed.
End Intervals.
Lemma nc_enter' (S : R -> Prop) t t1 : 0 < t < t1 -> (forall u, 0 < u < t -> ~ S u) -> (forall u, t < u < t1 -> S u) -> next_crossing S t.
Proof. intros L N I. split; [lra|]. left. split; [exact N|]. exists (t1 - t). split; [lra|]. intros u Hu. apply I. lra. Qed.
Ltac ivl A B Hma Hmb := intros ?u ?Hu; try unfold A, B; rewrite Hma, Hmb; lra.
Lemma wrong_point t r S p d l h v : is_unit d -> test_tree_intersect t r = Ok (I6 h) -> h6_flag h = true -> h6_p1 h = Some (fv (at_t p d v)) -> ~ next_crossing S v -> ~ right_query t r S p d l.
Proof.
  intros Hd E F P N (h' & E' & R). rewrite E in E'. injection E' as <-. destruct R as [(u & s & _ & P1 & _ & _ & _ & Nx & _)|[F' _]]; [|congruence].
  apply N. assert (P' : fv (at_t p d u) = fv (at_t p d v)) by congruence. apply fv_inj, (at_t_inj p d _ _ (unit_nonzero _ Hd)) in P'. rewrite <- P'. exact Nx.
Qed.
Lemma both_in S : starts_in S -> starts_outside S -> False.
Proof. intros (e & He & I) (e' & He' & O). apply (O (Rmin e e' / 2)); [|apply I]; unfold Rmin; destruct (Rle_dec e e'); lra. Qed.
(** the four arrangements, on the line *)
Lemma fair_ahead (A B : R -> Prop) a0 a1 b0 b1 : 0 < a0 < a1 -> 0 < b0 < b1 -> (forall u, A u <-> a0 < u < a1) -> (forall u, B u <-> b0 < u < b1) -> (fair_difference A B <-> a0 < b1).
Proof.
  intros La Lb HA HB. pose proof (int_outside A a0 a1 (fun u _ => HA u) (proj1 La)) as OA. pose proof (int_outside B b0 b1 (fun u _ => HB u) (proj1 Lb)) as OB. split.
  - intros [N|[_ [(_ & _ & u & v & L & U & V)|[(I & _)|(I & _)]]]].
    + exfalso. apply (N ((a0 + a1) / 2)); [lra|apply HA; lra].
    + apply HA in U. apply HB in V. lra.
    + destruct (both_in A I OA).
    + destruct (both_in A I OA).
  - intros L. right. split; [exists ((b0 + b1) / 2); split; [lra|apply HB; lra]|]. left. split; [exact OA|]. split; [exact OB|].
    pose proof (Rmin_l a1 b1). pose proof (Rmin_r a1 b1). assert (a0 < Rmin a1 b1) by (apply Rmin_glb_lt; lra).
    set (u := (a0 + Rmin a1 b1) / 2). exists u, ((Rmax u b0 + b1) / 2). assert (u < b1) by (unfold u; lra). assert (Rmax u b0 < b1) by (apply Rmax_lub_lt; lra).
    pose proof (Rmax_l u b0). pose proof (Rmax_r u b0). assert (a0 < u < a1) by (unfold u; lra). split; [lra|]. split; [apply HA; lra|apply HB; lra].
Qed.
Lemma fair_in_B (A B : R -> Prop) a0 a1 b0 b1 : 0 < a0 < a1 -> b0 <= 0 < b1 -> (forall u, A u <-> a0 < u < a1) -> (forall u, B u <-> b0 < u < b1) -> ~ fair_difference A B.
Proof.
  intros La Lb HA HB. pose proof (int_outside A a0 a1 (fun u _ => HA u) (proj1 La)) as OA. pose proof (int_in B b0 b1 (fun u _ => HB u) (proj1 Lb) (proj2 Lb)) as IB.
  intros [N|[_ [(_ & O & _)|[(I & _)|(I & _)]]]]; [|destruct (both_in B IB O)|destruct (both_in A I OA)|destruct (both_in A I OA)]. apply (N ((a0 + a1) / 2)); [lra|apply HA; lra].
Qed.
Lemma fair_in_A (A B : R -> Prop) a0 a1 b0 b1 : a0 <= 0 < a1 -> 0 < b0 < b1 -> (forall u, A u <-> a0 < u < a1) -> (forall u, B u <-> b0 < u < b1) -> (fair_difference A B <-> a1 <= b0).
Proof.
  intros La Lb HA HB. pose proof (int_in A a0 a1 (fun u _ => HA u) (proj1 La) (proj2 La)) as IA. pose proof (int_outside B b0 b1 (fun u _ => HB u) (proj1 Lb)) as OB. split.
  - intros [N|[_ [(O & _)|[(_ & _ & L)|(_ & I & _)]]]]; [|destruct (both_in A IA O)| |destruct (both_in B I OB)].
    + exfalso. apply (N (a1 / 2)); [lra|apply HA; lra].
    + destruct (Rle_dec a1 b0) as [K|K]; [exact K|]. exfalso. pose proof (Rmin_l a1 b1). pose proof (Rmin_r a1 b1). assert (b0 < Rmin a1 b1) by (apply Rmin_glb_lt; lra).
      specialize (L ((b0 + Rmin a1 b1) / 2) ((b0 + Rmin a1 b1) / 2) ltac:(lra)). rewrite HA, HB in L. specialize (L ltac:(lra) ltac:(lra) ltac:(lra)). lra.
  - intros K. right. split; [exists ((b0 + b1) / 2); split; [lra|apply HB; lra]|]. right; left. split; [exact IA|]. split; [exact OB|]. intros u v _ U _ V. apply HA in U. apply HB in V. lra.
Qed.
Lemma fair_in_both (A B : R -> Prop) a0 a1 b0 b1 : a0 <= 0 < a1 -> b0 <= 0 < b1 -> (forall u, A u <-> a0 < u < a1) -> (forall u, B u <-> b0 < u < b1) -> (fair_difference A B <-> b1 < a1).
Proof.
  intros La Lb HA HB. pose proof (int_in A a0 a1 (fun u _ => HA u) (proj1 La) (proj2 La)) as IA. pose proof (int_in B b0 b1 (fun u _ => HB u) (proj1 Lb) (proj2 Lb)) as IB. split.
  - intros [N|[_ [(O & _)|[(_ & O & _)|(_ & _ & v & P & V & L)]]]]; [|destruct (both_in A IA O)|destruct (both_in B IB O)|].
    + exfalso. apply (N (a1 / 2)); [lra|apply HA; lra].
    + apply HA in V. destruct (Rlt_dec v b1) as [K|K]; [|lra]. exfalso. apply (L ((v + b1) / 2)); [lra|apply HB; lra].
  - intros K. right. split; [exists (b1 / 2); split; [lra|apply HB; lra]|]. right; right. split; [exact IA|]. split; [exact IB|].
    exists ((b1 + a1) / 2). split; [lra|]. split; [apply HA; lra|]. intros u Hu U. apply HB in U. lra.
Qed.

Lemma difference_exact s1 s2 t p d r : tree_of (Bin OpDifference (Leaf s1) (Leaf s2)) t -> is_unit d -> ray_is r p d ->
  regular s1 p d -> regular s2 p d -> clear0 s1 p d -> clear0 s2 p d -> no_common s1 s2 p d ->
  let A u := member s1 (at_t p d u) in let B u := member s2 (at_t p d u) in
  (right_query t r (fun u => A u /\ ~ B u) p d [s1; s2] <-> fair_difference A B) /\
  (test_tree_intersect t r = Err ValueError <-> (exists u, 0 < u /\ A u) /\ forall u, 0 < u -> ~ B u) /\
  (test_tree_intersect t r <> Err ValueError -> exists h, test_tree_intersect t r = Ok (I6 h)).
Proof.
  intros HT Hd Hr Rg1 Rg2 C1 C2 NC A B. inversion HT as [| |o a b ta tb Ha Hb]; subst; clear HT.
  destruct (leaf_pos0 s1 ta p d r Ha Hd Hr Rg1 C1) as (hA & EA & PA).
  destruct (leaf_pos0 s2 tb p d r Hb Hd Hr Rg2 C2) as (hB & EB & PB).
  assert (EQ : test_tree_intersect (Node (KStr (op_name OpDifference)) ta tb) r = (do h <- operCsgDifference hA hB r; Ok (I6 h))) by (cbn [test_tree_intersect]; rewrite EA, EB; reflexivity).
  set (t := Node _ ta tb) in *. clearbody t.
  assert (OKc : forall h, operCsgDifference hA hB r = Ok h -> ((forall u, 0 < u -> ~ A u) \/ exists u, 0 < u /\ B u) -> (test_tree_intersect t r = Ok (I6 h) -> right_query t r (fun u => A u /\ ~ B u) p d [s1; s2] <-> fair_difference A B) ->
     (right_query t r (fun u => A u /\ ~ B u) p d [s1; s2] <-> fair_difference A B) /\
     (test_tree_intersect t r = Err ValueError <-> (exists u, 0 < u /\ A u) /\ forall u, 0 < u -> ~ B u) /\
     (test_tree_intersect t r <> Err ValueError -> exists h, test_tree_intersect t r = Ok (I6 h))).
  { intros h E K Q. rewrite E in EQ. cbn [bind] in EQ. split; [apply Q, EQ|]. rewrite EQ. split; [|intros _; eauto]. split; [discriminate|].
    intros [(u & Pu & Au) Nb]. destruct K as [K|(v & Pv & Bv)]; [destruct (K u Pu Au)|destruct (Nb v Pv Bv)]. }
  assert (Fn : forall h, none h -> h6_flag h = false) by (intros h ->; reflexivity).
  assert (I1 : In s1 [s1; s2]) by (left; reflexivity). assert (I2 : In s2 [s1; s2]) by (right; left; reflexivity).
  unfold operCsgDifference in *.
  destruct PA as [a0 a1 Hpa Hsa Hma Ta|a0 a1 Hia Hia1 Hsa Hma Oa|Na Nfa Za].
  3:{ rewrite (Fn _ Za) in *. cbn [andb bind] in *. eapply OKc; [reflexivity|left; exact Na|]. intros E. split; [intros _; left; exact Na|intros _]. eexists. split; [exact E|]. right. split; [reflexivity|]. intros u Hu [M _]. exact (Na u Hu M). }
  all: destruct PB as [b0 b1 Hpb Hsb Hmb Tb|b0 b1 Hib Hib1 Hsb Hmb Ob|Nb Nfb Zb].
  - (* both ahead *)
    destruct (helper_two s1 p d r a0 a1 hA Hd Hr ltac:(lra) Ta) as (A1 & A2 & A3 & A4).
    destruct (helper_two s2 p d r b0 b1 hB Hd Hr ltac:(lra) Tb) as (B1 & B2 & B3 & B4). clear EQ.
    rewrite A1, A2, A3, B1, B2, B3 in OKc. cbn [andb bind olt need] in OKc. rewrite !nlt_fin in OKc.
    assert (N00 : a0 <> b0). { intros E. apply (NC a0); [lra|]. split; [apply Hsa; auto|apply Hsb; auto]. }
    assert (N01 : a0 <> b1). { intros E. apply (NC a0); [lra|]. split; [apply Hsa; auto|apply Hsb; auto]. }
    assert (N11 : a1 <> b1). { intros E. apply (NC a1); [lra|]. split; [apply Hsa; auto|apply Hsb; auto]. }
    assert (Bm : (forall u, 0 < u -> ~ A u) \/ exists u, 0 < u /\ B u) by (right; exists ((b0 + b1) / 2); split; [lra|apply Hmb; lra]).
    pose proof (fair_ahead A B a0 a1 b0 b1 ltac:(lra) ltac:(lra) Hma Hmb) as FR.
    destruct (Rltb_spec a0 b0) as [L1|L1]; [|destruct (Rltb_spec b1 a1) as [L2|L2]]; cbn [bind] in OKc; unfold A, B in *; (eapply OKc; [reflexivity|exact Bm|intros E]).
    + split; intros _; [apply FR; lra|]. eexists. split; [exact E|]. left. exists a0, s1. repeat (split; [first [reflexivity|assumption|apply Hsa; auto]|]). split; [|lra].
      split; [lra|]. left. split; [intros u Hu [M _]; apply Hma in M; lra|]. exists (Rmin b0 a1 - a0). unfold Rmin. destruct (Rle_dec b0 a1); (split; [lra|]); intros u Hu; unfold A, B; rewrite Hma, Hmb; lra.
    + destruct (Rlt_dec a0 b1) as [L3|L3].
      * split; intros _; [apply FR, L3|]. eexists. split; [exact E|]. left. exists b1, s2. repeat (split; [first [reflexivity|assumption|apply Hsb; auto]|]). split; [|lra].
        apply nc_enter' with a1; [lra|ivl A B Hma Hmb|ivl A B Hma Hmb].
      * split; [|intros F; apply FR in F; lra]. intros Q. exfalso. revert Q. eapply (wrong_point _ _ _ _ _ _ _ b1 Hd E); [reflexivity|reflexivity|].
        intros Nx. assert (Nx' : next_crossing (fun u => A u /\ ~ B u) a0) by (apply nc_enter' with a1; [lra|ivl A B Hma Hmb|ivl A B Hma Hmb]).
        pose proof (nc_unique _ _ _ Nx Nx'). lra.
    + split; intros _; [apply FR; lra|]. eexists. split; [exact E|]. right. split; [reflexivity|]. intros u Hu [M1 M2]. apply M2. apply Hma in M1. apply Hmb. lra.
  - (* A ahead, inside B *)
    destruct (helper_two s1 p d r a0 a1 hA Hd Hr ltac:(lra) Ta) as (A1 & A2 & A3 & A4).
    destruct (helper_one s2 p d r b1 hB nearest Hd Hr ltac:(lra) Ob) as (B1 & B3 & B4).
    destruct (helper_one s2 p d r b1 hB farthest Hd Hr ltac:(lra) Ob) as (B2 & _ & _). clear EQ.
    rewrite A1, A2, A3, B1, B2, B3 in OKc. cbn [andb bind olt need] in OKc. rewrite !nlt_fin in OKc.
    assert (N01 : a0 <> b1). { intros E. apply (NC a0); [lra|]. split; [apply Hsa; auto|apply Hsb; auto]. }
    assert (Bm : (forall u, 0 < u -> ~ A u) \/ exists u, 0 < u /\ B u) by (right; exists (b1 / 2); split; [lra|apply Hmb; lra]).
    pose proof (fair_in_B A B a0 a1 b0 b1 ltac:(lra) ltac:(lra) Hma Hmb) as FR.
    destruct (Rltb_spec a0 b1) as [L1|L1]; [|rewrite (Rltb_true_intro b1 a1) in OKc by lra]; cbn [bind] in OKc; unfold A, B in *; (eapply OKc; [reflexivity|exact Bm|intros E; split; [|intros F; destruct (FR F)]]); intros Q; exfalso; revert Q.
    + eapply (wrong_point _ _ _ _ _ _ _ a0 Hd E); [reflexivity|reflexivity|]. intros Nx. destruct (Rlt_dec b1 a1) as [L2|L2].
      * assert (Nx' : next_crossing (fun u => A u /\ ~ B u) b1) by (apply nc_enter' with a1; [lra|ivl A B Hma Hmb|ivl A B Hma Hmb]). pose proof (nc_unique _ _ _ Nx Nx'). lra.
      * revert Nx. apply nc_none. intros u Hu [M1 M2]. apply M2. apply Hma in M1. apply Hmb. lra.
    + eapply (wrong_point _ _ _ _ _ _ _ b1 Hd E); [reflexivity|reflexivity|]. intros Nx.
      assert (Nx' : next_crossing (fun u => A u /\ ~ B u) a0) by (apply nc_enter' with a1; [lra|ivl A B Hma Hmb|ivl A B Hma Hmb]). pose proof (nc_unique _ _ _ Nx Nx'). lra.
  - (* A ahead, B never *)
    destruct (helper_two s1 p d r a0 a1 hA Hd Hr ltac:(lra) Ta) as (A1 & A2 & A3 & A4). clear OKc.
    rewrite A1, A3, (Fn _ Zb) in EQ. cbn [andb bind] in EQ. rewrite EQ. split; [|split; [|intros X; destruct (X eq_refl)]].
    + split; [intros (h & E & _); rewrite EQ in E; discriminate|]. intros [N|[(u & Pu & Bu) _]]; [|destruct (Nb u Pu Bu)]. exfalso. apply (N ((a0 + a1) / 2)); [lra|apply Hma; lra].
    + split; [|reflexivity]. intros _. split; [exists ((a0 + a1) / 2); split; [lra|apply Hma; lra]|exact Nb].
  - (* inside A, B ahead *)
    destruct (helper_two s2 p d r b0 b1 hB Hd Hr ltac:(lra) Tb) as (B1 & B2 & B3 & B4).
    destruct (helper_one s1 p d r a1 hA nearest Hd Hr ltac:(lra) Oa) as (A1 & A3 & A4).
    destruct (helper_one s1 p d r a1 hA farthest Hd Hr ltac:(lra) Oa) as (A2 & _ & _). clear EQ.
    rewrite A1, A2, A3, B1, B2, B3 in OKc. cbn [andb bind olt need] in OKc. rewrite !nlt_fin in OKc.
    assert (N10 : a1 <> b0). { intros E. apply (NC a1); [lra|]. split; [apply Hsa; auto|apply Hsb; auto]. }
    assert (Bm : (forall u, 0 < u -> ~ A u) \/ exists u, 0 < u /\ B u) by (right; exists ((b0 + b1) / 2); split; [lra|apply Hmb; lra]).
    pose proof (fair_in_A A B a0 a1 b0 b1 ltac:(lra) ltac:(lra) Hma Hmb) as FR.
    destruct (Rltb_spec a1 b0) as [L1|L1]; [|destruct (Rltb_spec b1 a1) as [L2|L2]]; cbn [bind] in OKc; unfold A, B in *; (eapply OKc; [reflexivity|exact Bm|intros E]).
    + split; intros _; [apply FR; lra|]. eexists. split; [exact E|]. left. exists a1, s1. repeat (split; [first [reflexivity|assumption|apply Hsa; auto]|]). split; [|lra].
      split; [lra|]. right. split; [ivl A B Hma Hmb|]. exists 1. split; [lra|ivl A B Hma Hmb].
    + split; [|intros F; apply FR in F; lra]. intros Q. exfalso. revert Q. eapply (wrong_point _ _ _ _ _ _ _ b1 Hd E); [reflexivity|reflexivity|].
      intros Nx. assert (Nx' : next_crossing (fun u => A u /\ ~ B u) b0).
      { split; [lra|]. right. split; [intros u Hu; unfold A, B; rewrite Hma, Hmb; lra|]. exists (b1 - b0). split; [lra|]. intros u Hu. unfold A, B. rewrite Hma, Hmb. lra. }
      pose proof (nc_unique _ _ _ Nx Nx'). lra.
    + split; [|intros F; apply FR in F; lra]. intros (h & E' & [(u & s & F & _)|[_ N]]); [rewrite E in E'; injection E' as <-; discriminate|].
      exfalso. apply (N (b0 / 2)); [lra|]. unfold A, B. rewrite Hma, Hmb. lra.
  - (* inside both *)
    destruct (helper_one s1 p d r a1 hA nearest Hd Hr ltac:(lra) Oa) as (A1 & A3 & A4).
    destruct (helper_one s1 p d r a1 hA farthest Hd Hr ltac:(lra) Oa) as (A2 & _ & _).
    destruct (helper_one s2 p d r b1 hB nearest Hd Hr ltac:(lra) Ob) as (B1 & B3 & B4).
    destruct (helper_one s2 p d r b1 hB farthest Hd Hr ltac:(lra) Ob) as (B2 & _ & _). clear EQ.
    rewrite A1, A2, A3, B1, B2, B3 in OKc. cbn [andb bind olt need] in OKc. rewrite !nlt_fin in OKc.
    assert (N11 : a1 <> b1). { intros E. apply (NC a1); [lra|]. split; [apply Hsa; auto|apply Hsb; auto]. }
    assert (Bm : (forall u, 0 < u -> ~ A u) \/ exists u, 0 < u /\ B u) by (right; exists (b1 / 2); split; [lra|apply Hmb; lra]).
    pose proof (fair_in_both A B a0 a1 b0 b1 ltac:(lra) ltac:(lra) Hma Hmb) as FR.
    destruct (Rltb_spec a1 b1) as [L1|L1]; [|rewrite (Rltb_true_intro b1 a1) in OKc by lra]; cbn [bind] in OKc; unfold A, B in *; (eapply OKc; [reflexivity|exact Bm|intros E]).
    + split; [|intros F; apply FR in F; lra]. intros Q. exfalso. revert Q. eapply (wrong_point _ _ _ _ _ _ _ a1 Hd E); [reflexivity|reflexivity|].
      apply nc_none. intros u Hu [M1 M2]. apply M2. apply Hma in M1. apply Hmb. lra.
    + split; intros _; [apply FR; lra|]. eexists. split; [exact E|]. left. exists b1, s2. repeat (split; [first [reflexivity|assumption|apply Hsb; auto]|]). split; [|lra].
      apply nc_enter' with a1; [lra|ivl A B Hma Hmb|ivl A B Hma Hmb].
  - (* inside A, B never *)
    destruct (helper_one s1 p d r a1 hA nearest Hd Hr ltac:(lra) Oa) as (A1 & A3 & A4). clear OKc.
    rewrite A1, A3, (Fn _ Zb) in EQ. cbn [andb bind] in EQ. rewrite EQ. split; [|split; [|intros X; destruct (X eq_refl)]].
    + split; [intros (h & E & _); rewrite EQ in E; discriminate|]. intros [N|[(u & Pu & Bu) _]]; [|destruct (Nb u Pu Bu)]. exfalso. apply (N (a1 / 2)); [lra|apply Hma; lra].
    + split; [|reflexivity]. intros _. split; [exists (a1 / 2); split; [lra|apply Hma; lra]|exact Nb].
Qed.
