(** Ray queries on CSG trees of real solids: union, intersect, difference (general_optics.py:308-624). *)
From Coq Require Import Reals ZArith Lra Lia Psatz List String Bool.
From Verif Require Import PyErr Num Vec Shapes Csg Spec XReal RVec VecProofs FlatProofs SphereProofs CylProofs ShapeExtra TreeProofs SolidProofs.
Import ListNotations.
Local Open Scope R_scope.

(** boundary surface and inward unit normal of a solid *)
Definition surface (s : solid) (x : R3) : Prop :=
  match s with Ball c rad => on_sphere c rad x | Cyl c u rad => on_cylinder c (dirn u) rad x end.
Definition inward (s : solid) (x : R3) : R3 :=
  match s with Ball c rad => (/ rad * (c - x))%r3 | Cyl c u rad => (/ rad * perp (dirn u) (c - x))%r3 end.
(** the line is neither tangent to the solid nor (cylinder) parallel to its axis *)
Definition regular (s : solid) (p d : R3) : Prop :=
  match s with
  | Ball c rad => 0 < rad /\ ~ tangent c rad p d
  | Cyl c u rad => 0 < rad /\ ~ parallel (dirn u) d /\ ~ ctangent c (dirn u) rad p d
  end.
(** every crossing is farther than 1e-12 from the start *)
Definition clear (s : solid) (p d : R3) : Prop := forall t, surface s (at_t p d t) -> 1e-12 < Rabs t.

(** the two crossings reported, in either order *)
Definition two (p d : R3) (s : solid) (t0 t1 : R) (h : hit6 xr) : Prop :=
  let pt t := Some (fv (at_t p d t)) in let n t := Some (fv (inward s (at_t p d t))) in
  h = H6 true (pt t0) (pt t1) (n t0) (n t1) 2 \/ h = H6 true (pt t1) (pt t0) (n t1) (n t0) 2.
Definition one (p d : R3) (s : solid) (t : R) (h : hit6 xr) : Prop :=
  h = H6 true (Some (fv (at_t p d t))) None (Some (fv (inward s (at_t p d t)))) None 1.
Definition none (h : hit6 xr) : Prop := h = H6 false None None None None 0.

Inductive leaf_result (s : solid) (p d : R3) (h : hit6 xr) : Prop :=
| LR_chord t0 t1 (lt01 : t0 < t1)
    (Hsurf : forall t, surface s (at_t p d t) <-> t = t0 \/ t = t1)
    (Hmem : forall t, member s (at_t p d t) <-> t0 < t < t1)
    (Hres : (1e-12 < t0 /\ two p d s t0 t1 h) \/ (~ 1e-12 < t0 /\ 1e-12 < t1 /\ one p d s t1 h)
            \/ (~ 1e-12 < t1 /\ none h))
| LR_none (Hsurf0 : forall t, ~ surface s (at_t p d t)) (Hmem0 : forall t, ~ member s (at_t p d t)) (Hres0 : none h).

Lemma leaf_query s t p d r : tree_of (Leaf s) t -> is_unit d -> ray_is r p d -> regular s p d ->
  exists h, test_tree_intersect t r = Ok (I6 h) /\ leaf_result s p d h.
Proof.
  intros HT Hd Hr Reg. inversion HT as [c rad Ro Do sp HR E|c u rad Ro Do sp Hu Hp HR E|]; subst; clear HT.
  - destruct Reg as [Hrad NT]. destruct (mk_sphere_inv _ _ _ _ _ HR E) as [D ->].
    cbn [test_tree_intersect bind key_test_intersect shape_test_intersect mk_tree].
    eexists; split; [reflexivity|].
    assert (RR : Rabs rad = rad) by (apply Rabs_right; lra).
    destruct (sphere_cases c rad D p d r Hd Hr); try contradiction.
    + assert (N0 : sphere_normal (sph c rad D) (fv (at_t p d t0)) = fv (inward (Ball c rad) (at_t p d t0))).
      { destruct (sphere_normal_on c rad D (at_t p d t0)) as [-> _]; [lra|apply SR_on; auto|]. now rewrite RR. }
      assert (N1 : sphere_normal (sph c rad D) (fv (at_t p d t1)) = fv (inward (Ball c rad) (at_t p d t1))).
      { destruct (sphere_normal_on c rad D (at_t p d t1)) as [-> _]; [lra|apply SR_on; auto|]. now rewrite RR. }
      rewrite RR in *. apply LR_chord with (t0 := t0) (t1 := t1); auto.
      rewrite SR_res. cbv zeta. rewrite N0, N1.
      destruct (Rltb_spec 1e-12 t0) as [a|a]; [left; split; [exact a|right; reflexivity]|].
      destruct (Rltb_spec 1e-12 t1) as [b|b]; [right; left; repeat split; auto|right; right; split; auto; reflexivity].
    + rewrite RR in *. apply LR_none; auto.
  - destruct Reg as (Hrad & NP & NT). destruct (mk_infcyl_inv _ _ _ _ _ _ Hu HR E) as (D & pl & ->).
    cbn [test_tree_intersect bind key_test_intersect shape_test_intersect mk_tree].
    pose proof (dirn_unit u Hu) as Uu.
    destruct (infcyl_cases c (dirn u) rad D pl p d r Hp Uu Hd Hr) as (h & -> & RC). cbn [bind].
    eexists; split; [reflexivity|]. destruct RC; try contradiction.
    + assert (N0 : infcyl_normal (cyl c (dirn u) rad D pl) (fv (at_t p d t0)) = fv (inward (Cyl c u rad) (at_t p d t0))).
      { destruct (infcyl_normal_on c (dirn u) rad D pl (at_t p d t0)) as [-> _]; auto. apply CR_on; auto. }
      assert (N1 : infcyl_normal (cyl c (dirn u) rad D pl) (fv (at_t p d t1)) = fv (inward (Cyl c u rad) (at_t p d t1))).
      { destruct (infcyl_normal_on c (dirn u) rad D pl (at_t p d t1)) as [-> _]; auto. apply CR_on; auto. }
      apply LR_chord with (t0 := t0) (t1 := t1); auto.
      rewrite CR_res. cbv zeta. rewrite N0, N1.
      destruct (Rltb_spec 1e-12 t0) as [a|a]; [left; split; [exact a|left; reflexivity]|].
      destruct (Rltb_spec 1e-12 t1) as [b|b]; [right; left; repeat split; auto|right; right; split; auto; reflexivity].
    + apply LR_none; auto.
Qed.

(** the same chord, without the query *)
Lemma leaf_chord s t p d r : tree_of (Leaf s) t -> ray_is r p d -> is_unit d -> regular s p d ->
  (exists t0 t1, t0 < t1 /\ (forall t, surface s (at_t p d t) <-> t = t0 \/ t = t1) /\
     (forall t, member s (at_t p d t) <-> t0 < t < t1)) \/ (forall t, ~ member s (at_t p d t)).
Proof.
  intros HT Hr Hd Rg. destruct (leaf_query s t p d r HT Hd Hr Rg) as (h & _ & [t0 t1 L Hs Hm _|_ Hm _]).
  - left. exists t0, t1. auto.
  - right. exact Hm.
Qed.

Lemma dist_along p d t : is_unit d -> 0 <= t -> dist3 p (at_t p d t) = t.
Proof.
  intros Hd Ht. rewrite dist3_sym. unfold dist3. replace (at_t p d t - p)%r3 with (t * d)%r3 by r3_ring.
  rewrite len_scale, (len_unit d Hd), Rabs_right by lra. ring.
Qed.
Lemma dist_fv p d t r : is_unit d -> 0 <= t -> ray_is r p d ->
  distance_between (position r) (fv (at_t p d t)) = Fin t.
Proof. intros Hd Ht [-> _]. now rewrite distance_fv, dist_along. Qed.

Lemma helper_two s p d r t0 t1 h : is_unit d -> ray_is r p d -> 0 <= t0 < t1 -> two p d s t0 t1 h ->
  helper_findIntersects h r nearest = Ok (Some (fv (at_t p d t0)), Some (fv (inward s (at_t p d t0))), Some (Fin t0), 2%Z) /\
  helper_findIntersects h r farthest = Ok (Some (fv (at_t p d t1)), Some (fv (inward s (at_t p d t1))), Some (Fin t1), 2%Z) /\
  h6_flag h = true /\ h6_count h = 2%Z.
Proof.
  intros Hd Hr Ht [E|E]; rewrite E; unfold helper_findIntersects; cbn [h6_p1 h6_p2 h6_n1 h6_n2 h6_flag h6_count];
    rewrite (dist_fv p d t0 r), (dist_fv p d t1 r) by (assumption || lra); rewrite !nlt_fin, !ngt_fin.
  - rewrite (Rltb_true_intro t0 t1), (Rltb_false_intro t1 t0) by lra. auto.
  - rewrite (Rltb_true_intro t0 t1), (Rltb_false_intro t1 t0) by lra. auto.
Qed.
Lemma helper_one s p d r t h m : is_unit d -> ray_is r p d -> 0 <= t -> one p d s t h ->
  helper_findIntersects h r m = Ok (Some (fv (at_t p d t)), Some (fv (inward s (at_t p d t))), Some (Fin t), 1%Z) /\
  h6_flag h = true /\ h6_count h = 1%Z.
Proof.
  intros Hd Hr Ht E. unfold one in E. rewrite E. unfold helper_findIntersects; cbn [h6_p1 h6_p2 h6_n1 h6_n2 h6_flag h6_count].
  rewrite (dist_fv p d t r) by assumption. auto.
Qed.

(* ---- spec: crossings of a set along the ray ---- *)
Definition enters (S : R -> Prop) (t : R) : Prop :=
  exists e, 0 < e /\ (forall s, t - e < s < t -> ~ S s) /\ (forall s, t < s < t + e -> S s).
Definition leaves (S : R -> Prop) (t : R) : Prop := enters (fun s => ~ S s) t.
(** t is the first crossing of the boundary of S on the forward ray *)
Definition first_crossing (S : R -> Prop) (t : R) : Prop :=
  0 < t /\ ((enters S t /\ forall s, 0 <= s < t -> ~ S s) \/
            ((exists e, 0 < e /\ (forall s, t - e < s < t -> S s) /\ (forall s, t < s < t + e -> ~ S s))
             /\ forall s, 0 <= s < t -> S s)).

(* ---- Union ---- *)
Fixpoint solids (e : expr solid) : list solid :=
  match e with Leaf s => [s] | Bin _ a b => solids a ++ solids b end.
Fixpoint only (o : op) (e : expr solid) : Prop :=
  match e with Leaf _ => True | Bin o' a b => o' = o /\ only o a /\ only o b end.

Definition outside_clear (s : solid) (p d : R3) : Prop :=
  regular s p d /\ clear s p d /\ ~ member s p.

(** result of a union subtree: nearest crossing of all leaves *)
Definition union_inv (e : expr solid) (p d : R3) (r : ray xr) (h : hit6 xr) : Prop :=
  (exists t s t1, In s (solids e) /\ 1e-12 < t < t1 /\ surface s (at_t p d t) /\
     (forall u, t < u < t1 -> member s (at_t p d u)) /\
     h6_flag h = true /\
     (exists k, helper_findIntersects h r nearest
       = Ok (Some (fv (at_t p d t)), Some (fv (inward s (at_t p d t))), Some (Fin t), k)) /\
     (forall s' u, In s' (solids e) -> 0 <= u <= t -> ~ member s' (at_t p d u)))
  \/ (h6_flag h = false /\ (forall s' u, In s' (solids e) -> 0 <= u -> ~ member s' (at_t p d u))).

Lemma den_union e x : only OpUnion e -> (den e x <-> exists s, In s (solids e) /\ member s x).
Proof.
  induction e as [s|o a IHa b IHb]; cbn.
  - intros _. split; [intros H; exists s; auto|intros (s' & [<-|[]] & H); exact H].
  - intros (-> & Ha & Hb). rewrite (IHa Ha), (IHb Hb). split.
    + intros [(s & I & M)|(s & I & M)]; exists s; (split; [apply in_or_app; auto|exact M]).
    + intros (s & I & M). apply in_app_or in I. destruct I; [left|right]; exists s; auto.
Qed.

Lemma union_leaf s t p d r : tree_of (Leaf s) t -> is_unit d -> ray_is r p d -> outside_clear s p d ->
  exists h, test_tree_intersect t r = Ok (I6 h) /\ union_inv (Leaf s) p d r h.
Proof.
  intros HT Hd Hr (Reg & Cl & Out). destruct (leaf_query s t p d r HT Hd Hr Reg) as (h & E & L).
  exists h. split; [exact E|]. destruct L.
  - assert (C0 : 1e-12 < Rabs t0) by (apply Cl, Hsurf; auto).
    assert (C1 : 1e-12 < Rabs t1) by (apply Cl, Hsurf; auto).
    assert (O : ~ (t0 < 0 < t1)) by (rewrite <- Hmem, at_t_0; exact Out).
    unfold Rabs in C0, C1. destruct (Rcase_abs t0), (Rcase_abs t1); try lra.
    + right. destruct Hres as [[H _]|[[_ [H _]]|[_ H]]]; try lra. unfold none in H. subst h. split; [reflexivity|].
      intros s' u [<-|[]] Hu M. apply Hmem in M. lra.
    + left. destruct Hres as [[H0 H]|[[H _]|[H _]]]; try lra.
      destruct (helper_two s p d r t0 t1 h Hd Hr ltac:(lra) H) as (A & _ & B & _).
      exists t0, s, t1. split; [left; reflexivity|]. split; [lra|]. split; [apply Hsurf; auto|].
      split; [intros u Hu; apply Hmem; exact Hu|]. split; [exact B|]. split; [eexists; exact A|].
      intros s' u [<-|[]] Hu M. apply Hmem in M. lra.
  - right. unfold none in Hres0. subst h. split; [reflexivity|]. intros s' u [<-|[]] _ M. exact (Hmem0 _ M).
Qed.

Lemma union_bin a b p d r hA hB : is_unit d -> ray_is r p d -> union_inv a p d r hA -> union_inv b p d r hB ->
  exists h, operCsgUnion hA hB r = Ok h /\ union_inv (Bin OpUnion a b) p d r h /\ h6_p2 h = None /\
  (h6_flag h = true -> forall q n dist k, helper_findIntersects h r nearest = Ok (q, n, dist, k) -> h6_p1 h = q /\ h6_n1 h = n).
Proof.
  intros Hd Hr IA IB. unfold operCsgUnion.
  assert (HX : forall t s c, 0 <= t ->
     helper_findIntersects (H6 true (Some (fv (at_t p d t))) None (Some (fv (inward s (at_t p d t)))) None c) r nearest
     = Ok (Some (fv (at_t p d t)), Some (fv (inward s (at_t p d t))), Some (Fin t), 1%Z)).
  { intros t s c Ht. unfold helper_findIntersects; cbn [h6_p1 h6_p2 h6_n1]. now rewrite (dist_fv p d t r). }
  assert (HY : forall t s c q n dist k, 0 <= t ->
     helper_findIntersects (H6 true (Some (fv (at_t p d t))) None (Some (fv (inward s (at_t p d t)))) None c) r nearest
     = Ok (q, n, dist, k) -> Some (fv (at_t p d t)) = q /\ Some (fv (inward s (at_t p d t))) = n).
  { intros t s c q n dist k Ht E. rewrite HX in E by exact Ht. injection E; auto. }
  destruct IA as [(t & s & t1 & Is & Ht & Hs & Hm & F & (k & E) & Before)|[F Never]];
  destruct IB as [(t' & s' & t1' & Is' & Ht' & Hs' & Hm' & F' & (k' & E') & Before')|[F' Never']]; rewrite F, F'; cbn [andb].
  - rewrite E, E'. cbn [bind olt need]. rewrite nlt_fin. destruct (Rltb_spec t t') as [L|L].
    + eexists. split; [reflexivity|]. split; [left|split; [reflexivity|intros _ q n dist k0; apply HY; lra]].
      exists t, s, t1. split; [cbn; apply in_or_app; auto|]. split; [exact Ht|]. split; [exact Hs|]. split; [exact Hm|].
      split; [reflexivity|]. split; [eexists; apply HX; lra|].
      intros s0 u I Hu. cbn in I. apply in_app_or in I. destruct I as [I|I]; [apply Before; auto|apply Before'; auto; lra].
    + eexists. split; [reflexivity|]. split; [left|split; [reflexivity|intros _ q n dist k0; apply HY; lra]].
      exists t', s', t1'. split; [cbn; apply in_or_app; auto|]. split; [exact Ht'|]. split; [exact Hs'|]. split; [exact Hm'|].
      split; [reflexivity|]. split; [eexists; apply HX; lra|].
      intros s0 u I Hu. cbn in I. apply in_app_or in I. destruct I as [I|I]; [apply Before; auto; lra|apply Before'; auto].
  - rewrite E. cbn [bind]. eexists. split; [reflexivity|]. split; [left|split; [reflexivity|intros _ q n dist k0; apply HY; lra]].
    exists t, s, t1. split; [cbn; apply in_or_app; auto|]. split; [exact Ht|]. split; [exact Hs|]. split; [exact Hm|].
    split; [reflexivity|]. split; [eexists; apply HX; lra|].
    intros s0 u I Hu. cbn in I. apply in_app_or in I. destruct I as [I|I]; [apply Before; auto|apply Never'; auto; lra].
  - rewrite E'. cbn [bind]. eexists. split; [reflexivity|]. split; [left|split; [reflexivity|intros _ q n dist k0; apply HY; lra]].
    exists t', s', t1'. split; [cbn; apply in_or_app; auto|]. split; [exact Ht'|]. split; [exact Hs'|]. split; [exact Hm'|].
    split; [reflexivity|]. split; [eexists; apply HX; lra|].
    intros s0 u I Hu. cbn in I. apply in_app_or in I. destruct I as [I|I]; [apply Never; auto; lra|apply Before'; auto].
  - eexists. split; [reflexivity|]. split; [right|split; [reflexivity|discriminate]]. split; [reflexivity|].
    intros s0 u I Hu. cbn in I. apply in_app_or in I. destruct I as [I|I]; [apply Never|apply Never']; auto.
Qed.

Lemma union_tree e t p d r : tree_of e t -> only OpUnion e -> is_unit d -> ray_is r p d ->
  (forall s, In s (solids e) -> outside_clear s p d) ->
  exists h, test_tree_intersect t r = Ok (I6 h) /\ union_inv e p d r h /\
  ((exists o a b, e = Bin o a b) -> h6_p2 h = None /\
   (h6_flag h = true -> forall q n dist k, helper_findIntersects h r nearest = Ok (q, n, dist, k) -> h6_p1 h = q /\ h6_n1 h = n)).
Proof.
  intros HT HO Hd Hr HS. induction HT as [c rad Ro Do s HR E|c u rad Ro Do s Hu Hp HR E|o a b ta tb Ha IHa Hb IHb].
  - destruct (union_leaf (Ball c rad) (mk_tree (KShape (SSphere s))) p d r) as (h & E1 & I1); auto.
    + eapply TO_ball; eassumption.
    + apply HS. left; reflexivity.
    + exists h. split; [exact E1|]. split; [exact I1|]. intros (o & a & b & X). discriminate.
  - destruct (union_leaf (Cyl c u rad) (mk_tree (KShape (SInfCyl s))) p d r) as (h & E1 & I1); auto.
    + eapply TO_cyl; eassumption.
    + apply HS. left; reflexivity.
    + exists h. split; [exact E1|]. split; [exact I1|]. intros (o & a & b & X). discriminate.
  - cbn in HO. destruct HO as (-> & HOa & HOb).
    destruct IHa as (hA & EA & IA & _); auto. { intros s I. apply HS. cbn. apply in_or_app; auto. }
    destruct IHb as (hB & EB & IB & _); auto. { intros s I. apply HS. cbn. apply in_or_app; auto. }
    cbn [test_tree_intersect]. rewrite EA, EB. cbn [bind csg_oper op_name String.eqb index6].
    destruct (union_bin a b p d r hA hB Hd Hr IA IB) as (h & E & I & P). cbn. rewrite E. cbn [bind].
    exists h. auto.
Qed.

(** the property as stated: first point of the union *)
Lemma union_first e o a b t p d r : e = Bin o a b -> tree_of e t -> only OpUnion e -> is_unit d -> ray_is r p d ->
  (forall s, In s (solids e) -> outside_clear s p d) ->
  let S u := den e (at_t p d u) in
  exists h, test_tree_intersect t r = Ok (I6 h) /\
  ((exists u s, h6_flag h = true /\ h6_p1 h = Some (fv (at_t p d u)) /\ In s (solids e) /\ surface s (at_t p d u) /\
      h6_n1 h = Some (fv (inward s (at_t p d u))) /\ first_crossing S u) \/
   (h6_flag h = false /\ forall u, 0 <= u -> ~ S u)).
Proof.
  intros Ee HT HO Hd Hr HS S. destruct (union_tree e t p d r HT HO Hd Hr HS) as (h & E & I & P).
  exists h. split; [exact E|]. destruct P as [_ P]; [exists o, a, b; exact Ee|].
  destruct I as [(u & s & t1 & Is & Hu & Hs & Hm & F & (k & Eh) & B)|[F Nv]].
  - left. exists u, s. destruct (P F _ _ _ _ Eh) as [-> ->]. split; [exact F|]. split; [reflexivity|]. split; [exact Is|].
    split; [exact Hs|]. split; [reflexivity|]. split; [lra|]. left.
    assert (NB : forall v, 0 <= v <= u -> ~ S v).
    { intros v Hv D. apply (den_union e _ HO) in D. destruct D as (s' & I' & M). exact (B s' v I' Hv M). }
    split; [|intros v Hv; apply NB; lra].
    exists (Rmin u (t1 - u)). split; [apply Rmin_glb_lt; lra|].
    pose proof (Rmin_l u (t1 - u)). pose proof (Rmin_r u (t1 - u)). split.
    + intros v Hv. apply NB. lra.
    + intros v Hv. apply (den_union e _ HO). exists s. split; [exact Is|]. apply Hm. lra.
  - right. split; [exact F|]. intros u Hu D. apply (den_union e _ HO) in D. destruct D as (s & I & M). exact (Nv s u I Hu M).
Qed.

(* ---- two solids ---- *)
(** where the start is, in terms of the chord *)
Inductive pos_result (s : solid) (p d : R3) (h : hit6 xr) : Prop :=
| PR_ahead t0 t1 (Hp : 0 < t0 < t1) (Hs : forall t, surface s (at_t p d t) <-> t = t0 \/ t = t1)
    (Hm : forall t, member s (at_t p d t) <-> t0 < t < t1) (Ht : two p d s t0 t1 h)
| PR_inside t0 t1 (Hi : t0 < 0 < t1) (Hs : forall t, surface s (at_t p d t) <-> t = t0 \/ t = t1)
    (Hm : forall t, member s (at_t p d t) <-> t0 < t < t1) (Ho : one p d s t1 h)
| PR_never (Hn : forall t, 0 <= t -> ~ member s (at_t p d t)) (Hz : none h).

Lemma leaf_pos s t p d r : tree_of (Leaf s) t -> is_unit d -> ray_is r p d -> regular s p d -> clear s p d ->
  exists h, test_tree_intersect t r = Ok (I6 h) /\ pos_result s p d h.
Proof.
  intros HT Hd Hr Reg Cl. destruct (leaf_query s t p d r HT Hd Hr Reg) as (h & E & L).
  exists h. split; [exact E|]. destruct L.
  - assert (C0 : 1e-12 < Rabs t0) by (apply Cl, Hsurf; auto).
    assert (C1 : 1e-12 < Rabs t1) by (apply Cl, Hsurf; auto).
    unfold Rabs in C0, C1. destruct (Rcase_abs t0), (Rcase_abs t1); try lra.
    + apply PR_never. { intros u Hu M. apply Hmem in M. lra. }
      destruct Hres as [[H _]|[[_ [H _]]|[_ H]]]; try lra. exact H.
    + apply PR_inside with t0 t1; auto; [lra|]. destruct Hres as [[H _]|[[_ [_ H]]|[H _]]]; try lra. exact H.
    + apply PR_ahead with t0 t1; auto; [lra|]. destruct Hres as [[_ H]|[[H _]|[H _]]]; try lra. exact H.
  - apply PR_never; auto.
Qed.

Ltac fc_in e := exists e; split; [|split; intros].

(** a maximal interval of S around/ahead of the start *)
Lemma fc_enter S t t1 : 0 < t < t1 -> (forall u, 0 <= u -> (S u <-> t < u < t1)) -> first_crossing S t.
Proof.
  intros Ht H. split; [lra|]. left. split.
  - exists (Rmin t (t1 - t)). pose proof (Rmin_l t (t1 - t)). pose proof (Rmin_r t (t1 - t)).
    split; [apply Rmin_glb_lt; lra|]. split; intros s Hs; [rewrite H by lra|apply H]; lra.
  - intros s Hs. rewrite H by lra. lra.
Qed.
Lemma fc_leave S t : 0 < t -> (forall u, 0 <= u -> (S u <-> u < t)) -> first_crossing S t.
Proof.
  intros Ht H. split; [lra|]. right. split.
  - exists t. split; [lra|]. split; intros s Hs; [apply H|rewrite H by lra]; lra.
  - intros s Hs. apply H; lra.
Qed.

Definition crossing_report (S : R -> Prop) (p d : R3) (h : hit6 xr) : Prop :=
  (exists u, h6_flag h = true /\ h6_p1 h = Some (fv (at_t p d u)) /\ first_crossing S u) \/
  (h6_flag h = false /\ forall u, 0 <= u -> ~ S u).

(** no point of the ray is on both surfaces *)
Definition no_common (s1 s2 : solid) (p d : R3) : Prop :=
  forall t, 0 < t -> ~ (surface s1 (at_t p d t) /\ surface s2 (at_t p d t)).

Lemma none_flag h : none h -> h6_flag h = false /\ h6_count h = 0%Z.
Proof. intros ->; auto. Qed.

Definition on_member_surface (s1 s2 : solid) (p d : R3) (h : hit6 xr) : Prop :=
  h6_flag h = true -> exists s u, (s = s1 \/ s = s2) /\ h6_p1 h = Some (fv (at_t p d u)) /\ surface s (at_t p d u) /\
     h6_n1 h = Some (fv (inward s (at_t p d u))).

Lemma intersect_two s1 s2 t p d r : tree_of (Bin OpIntersect (Leaf s1) (Leaf s2)) t -> is_unit d -> ray_is r p d ->
  regular s1 p d -> regular s2 p d -> clear s1 p d -> clear s2 p d -> no_common s1 s2 p d ->
  let S u := member s1 (at_t p d u) /\ member s2 (at_t p d u) in
  exists h, test_tree_intersect t r = Ok (I6 h) /\ crossing_report S p d h /\ on_member_surface s1 s2 p d h.
Proof.
  intros HT Hd Hr Rg1 Rg2 C1 C2 NC S. inversion HT as [| |o a b ta tb Ha Hb]; subst; clear HT.
  destruct (leaf_pos s1 ta p d r Ha Hd Hr Rg1 C1) as (hA & EA & PA).
  destruct (leaf_pos s2 tb p d r Hb Hd Hr Rg2 C2) as (hB & EB & PB).
  cbn [test_tree_intersect]. rewrite EA, EB. cbn [bind index6]. cbn [csg_oper op_name].
  change (if ("intersect" =? "union")%string then _ else _) with (Ok (@operCsgIntersect xr _)). cbn [bind].
  unfold operCsgIntersect.
  assert (Fn : forall h, none h -> h6_flag h = false) by (intros h ->; reflexivity).
  destruct PA as [a0 a1 Hpa Hsa Hma Ta|a0 a1 Hia Hsa Hma Oa|Na Za].
  3:{ rewrite (Fn _ Za). cbn [andb bind]. eexists; split; [reflexivity|]. split; [|discriminate]. right. split; [reflexivity|].
      intros u Hu [M _]. exact (Na u Hu M). }
  all: destruct PB as [b0 b1 Hpb Hsb Hmb Tb|b0 b1 Hib Hsb Hmb Ob|Nb Zb].
  3,6: rewrite (Fn _ Zb); rewrite andb_false_r; cbn [bind]; eexists; (split; [reflexivity|]); (split; [|discriminate]); right;
       (split; [reflexivity|]); intros u Hu [_ M]; exact (Nb u Hu M).
  - (* both ahead *)
    destruct (helper_two s1 p d r a0 a1 hA Hd Hr ltac:(lra) Ta) as (A1 & A2 & A3 & A4).
    destruct (helper_two s2 p d r b0 b1 hB Hd Hr ltac:(lra) Tb) as (B1 & B2 & B3 & B4).
    rewrite A1, A2, A3, B1, B2, B3. cbn [andb bind olt need evenb Z.even]. rewrite !nlt_fin.
    assert (N00 : a0 <> b0). { intros E. apply (NC a0); [lra|]. split; [apply Hsa; auto|apply Hsb; auto]. }
    assert (N01 : a0 <> b1). { intros E. apply (NC a0); [lra|]. split; [apply Hsa; auto|apply Hsb; auto]. }
    assert (N10 : a1 <> b0). { intros E. apply (NC a1); [lra|]. split; [apply Hsa; auto|apply Hsb; auto]. }
    destruct (Rltb_spec a0 b0) as [L1|L1]; [destruct (Rltb_spec b0 a1) as [L2|L2]|]; cbn [bind].
    + eexists; split; [reflexivity|]. split.
      * left. exists b0. split; [reflexivity|]. split; [reflexivity|]. apply fc_enter with (Rmin a1 b1).
        -- split; [lra|apply Rmin_glb_lt; lra].
        -- intros u Hu. unfold S. rewrite Hma, Hmb. unfold Rmin. destruct (Rle_dec a1 b1); lra.
      * intros _. exists s2, b0. repeat split; auto. apply Hsb; auto.
    + rewrite (Rltb_false_intro b0 a0) by lra. cbn [bind]. eexists; split; [reflexivity|]. split; [|discriminate].
      right. split; [reflexivity|]. intros u Hu [M1 M2]. apply Hma in M1. apply Hmb in M2. lra.
    + rewrite (Rltb_true_intro b0 a0) by lra. cbn [bind]. destruct (Rltb_spec a0 b1) as [L2|L2]; cbn [bind].
      * eexists; split; [reflexivity|]. split.
        -- left. exists a0. split; [reflexivity|]. split; [reflexivity|]. apply fc_enter with (Rmin a1 b1).
           ++ split; [lra|apply Rmin_glb_lt; lra].
           ++ intros u Hu. unfold S. rewrite Hma, Hmb. unfold Rmin. destruct (Rle_dec a1 b1); lra.
        -- intros _. exists s1, a0. repeat split; auto. apply Hsa; auto.
      * eexists; split; [reflexivity|]. split; [|discriminate].
        right. split; [reflexivity|]. intros u Hu [M1 M2]. apply Hma in M1. apply Hmb in M2. lra.
  - (* A ahead, inside B *)
    destruct (helper_two s1 p d r a0 a1 hA Hd Hr ltac:(lra) Ta) as (A1 & A2 & A3 & A4).
    destruct (helper_one s2 p d r b1 hB nearest Hd Hr ltac:(lra) Ob) as (B1 & B3 & B4).
    destruct (helper_one s2 p d r b1 hB farthest Hd Hr ltac:(lra) Ob) as (B2 & _ & _).
    rewrite A1, A2, A3, B1, B2, B3. cbn [andb bind olt need evenb Z.even]. rewrite !nlt_fin.
    assert (N01 : a0 <> b1). { intros E. apply (NC a0); [lra|]. split; [apply Hsa; auto|apply Hsb; auto]. }
    destruct (Rltb_spec b1 a0) as [L1|L1]; cbn [bind].
    + rewrite (Rltb_true_intro b1 a1) by lra. eexists; split; [reflexivity|]. split; [|discriminate].
      right. split; [reflexivity|]. intros u Hu [M1 M2]. apply Hma in M1. apply Hmb in M2. lra.
    + eexists; split; [reflexivity|]. split.
      * left. exists a0. split; [reflexivity|]. split; [reflexivity|]. apply fc_enter with (Rmin a1 b1).
        -- split; [lra|apply Rmin_glb_lt; lra].
        -- intros u Hu. unfold S. rewrite Hma, Hmb. unfold Rmin. destruct (Rle_dec a1 b1); lra.
      * intros _. exists s1, a0. repeat split; auto. apply Hsa; auto.
  - (* inside A, B ahead *)
    destruct (helper_two s2 p d r b0 b1 hB Hd Hr ltac:(lra) Tb) as (B1 & B2 & B3 & B4).
    destruct (helper_one s1 p d r a1 hA nearest Hd Hr ltac:(lra) Oa) as (A1 & A3 & A4).
    destruct (helper_one s1 p d r a1 hA farthest Hd Hr ltac:(lra) Oa) as (A2 & _ & _).
    rewrite A1, A2, A3, B1, B2, B3. cbn [andb bind olt need evenb Z.even]. rewrite !nlt_fin.
    assert (N01 : a1 <> b0). { intros E. apply (NC a1); [lra|]. split; [apply Hsa; auto|apply Hsb; auto]. }
    destruct (Rltb_spec a1 b0) as [L1|L1]; cbn [bind].
    + rewrite (Rltb_true_intro a1 b1) by lra. eexists; split; [reflexivity|]. split; [|discriminate].
      right. split; [reflexivity|]. intros u Hu [M1 M2]. apply Hma in M1. apply Hmb in M2. lra.
    + eexists; split; [reflexivity|]. split.
      * left. exists b0. split; [reflexivity|]. split; [reflexivity|]. apply fc_enter with (Rmin a1 b1).
        -- split; [lra|apply Rmin_glb_lt; lra].
        -- intros u Hu. unfold S. rewrite Hma, Hmb. unfold Rmin. destruct (Rle_dec a1 b1); lra.
      * intros _. exists s2, b0. repeat split; auto. apply Hsb; auto.
  - (* inside both *)
    destruct (helper_one s1 p d r a1 hA nearest Hd Hr ltac:(lra) Oa) as (A1 & A3 & A4).
    destruct (helper_one s1 p d r a1 hA farthest Hd Hr ltac:(lra) Oa) as (A2 & _ & _).
    destruct (helper_one s2 p d r b1 hB nearest Hd Hr ltac:(lra) Ob) as (B1 & B3 & B4).
    destruct (helper_one s2 p d r b1 hB farthest Hd Hr ltac:(lra) Ob) as (B2 & _ & _).
    rewrite A1, A2, A3, B1, B2, B3. cbn [andb bind olt need evenb Z.even]. rewrite !nlt_fin.
    destruct (Rltb_spec a1 b1) as [L1|L1]; cbn [bind].
    + eexists; split; [reflexivity|]. split.
      * left. exists a1. split; [reflexivity|]. split; [reflexivity|]. apply fc_leave; [lra|].
        intros u Hu. unfold S. rewrite Hma, Hmb. lra.
      * intros _. exists s1, a1. repeat split; auto. apply Hsa; auto.
    + eexists; split; [reflexivity|]. split.
      * left. exists b1. split; [reflexivity|]. split; [reflexivity|]. apply fc_leave; [lra|].
        intros u Hu. unfold S. rewrite Hma, Hmb. lra.
      * intros _. exists s2, b1. repeat split; auto. apply Hsb; auto.
Qed.

(** two solids entered at the same point: the intersection is missed altogether *)
Lemma intersect_tie s1 s2 t p d r a0 a1 b1 : tree_of (Bin OpIntersect (Leaf s1) (Leaf s2)) t -> is_unit d -> ray_is r p d ->
  regular s1 p d -> regular s2 p d -> clear s1 p d -> clear s2 p d -> 0 < a0 -> a0 < a1 -> a0 < b1 ->
  (forall u, member s1 (at_t p d u) <-> a0 < u < a1) -> (forall u, member s2 (at_t p d u) <-> a0 < u < b1) ->
  exists h, test_tree_intersect t r = Ok (I6 h) /\ h6_flag h = false.
Proof.
  intros HT Hd Hr Rg1 Rg2 C1 C2 H0 H1 H2 M1 M2. inversion HT as [| |o a b ta tb Ha Hb]; subst; clear HT.
  destruct (leaf_pos s1 ta p d r Ha Hd Hr Rg1 C1) as (hA & EA & PA).
  destruct (leaf_pos s2 tb p d r Hb Hd Hr Rg2 C2) as (hB & EB & PB).
  cbn [test_tree_intersect]. rewrite EA, EB. cbn [bind index6]. cbn [csg_oper op_name].
  change (if ("intersect" =? "union")%string then _ else _) with (Ok (@operCsgIntersect xr _)). cbn [bind].
  unfold operCsgIntersect.
  assert (X : forall x y z w, x < y -> z < w -> (forall u, x < u < y <-> z < u < w) -> x = z).
  { intros x y z w Hxy Hzw H. destruct (Rtotal_order x z) as [L|[L|L]]; [exfalso| exact L|exfalso].
    - pose proof (H ((x + Rmin y z) / 2)) as K. unfold Rmin in K. destruct (Rle_dec y z); lra.
    - pose proof (H ((z + Rmin w x) / 2)) as K. unfold Rmin in K. destruct (Rle_dec w x); lra. }
  destruct PA as [a0' a1' Hpa Hsa Hma Ta|a0' a1' Hia Hsa Hma Oa|Na Za].
  2:{ exfalso. assert (a0' = a0) by (apply (X a0' a1' a0 a1); try lra; intros u; rewrite <- Hma, <- M1; tauto). lra. }
  2:{ exfalso. apply (Na ((a0 + a1)/2)); [lra|]. apply M1. lra. }
  destruct PB as [b0' b1' Hpb Hsb Hmb Tb|b0' b1' Hib Hsb Hmb Ob|Nb Zb].
  2:{ exfalso. assert (b0' = a0) by (apply (X b0' b1' a0 b1); try lra; intros u; rewrite <- Hmb, <- M2; tauto). lra. }
  2:{ exfalso. apply (Nb ((a0 + b1)/2)); [lra|]. apply M2. lra. }
  assert (a0' = a0) by (apply (X a0' a1' a0 a1); try lra; intros u; rewrite <- Hma, <- M1; tauto).
  assert (b0' = a0) by (apply (X b0' b1' a0 b1); try lra; intros u; rewrite <- Hmb, <- M2; tauto). subst a0' b0'.
  destruct (helper_two s1 p d r a0 a1' hA Hd Hr ltac:(lra) Ta) as (A1 & A2 & A3 & A4).
  destruct (helper_two s2 p d r a0 b1' hB Hd Hr ltac:(lra) Tb) as (B1 & B2 & B3 & B4).
  rewrite A1, A2, A3, B1, B2, B3. cbn [andb bind olt need evenb Z.even]. rewrite !nlt_fin.
  rewrite (Rltb_false_intro a0 a0) by lra. cbn [bind]. eexists. split; reflexivity.
Qed.

(* ---- Difference ---- *)
Definition diff_eval (s1 s2 : solid) (p d : R3) (res : Res (ires xr)) : Prop :=
  let hit u s := exists h, res = Ok (I6 h) /\ h6_flag h = true /\ h6_p1 h = Some (fv (at_t p d u))
                   /\ h6_n1 h = Some (fv (inward s (at_t p d u))) in
  let miss := exists h, res = Ok (I6 h) /\ h6_flag h = false in
  (* A is not ahead *)
  ((forall u, 0 <= u -> ~ member s1 (at_t p d u)) /\ miss) \/
  (* A is ahead or around, B is not *)
  (exists a0 a1, a0 < a1 /\ 0 < a1 /\ (forall u, member s1 (at_t p d u) <-> a0 < u < a1) /\
     (forall u, 0 <= u -> ~ member s2 (at_t p d u)) /\ res = Err ValueError) \/
  (* both *)
  (exists a0 a1 b0 b1, a0 < a1 /\ 0 < a1 /\ a0 <> 0 /\ b0 < b1 /\ 0 < b1 /\ b0 <> 0 /\
     (forall u, member s1 (at_t p d u) <-> a0 < u < a1) /\ (forall u, member s2 (at_t p d u) <-> b0 < u < b1) /\
     let an := if Rltb 0 a0 then a0 else a1 in let bn := if Rltb 0 b0 then b0 else b1 in
     (an < bn -> hit an s1) /\ (bn <= an -> b1 < a1 -> hit b1 s2) /\ (bn <= an -> a1 <= b1 -> miss)).

Lemma diff_two s1 s2 t p d r : tree_of (Bin OpDifference (Leaf s1) (Leaf s2)) t -> is_unit d -> ray_is r p d ->
  regular s1 p d -> regular s2 p d -> clear s1 p d -> clear s2 p d -> diff_eval s1 s2 p d (test_tree_intersect t r).
Proof.
  intros HT Hd Hr Rg1 Rg2 C1 C2. inversion HT as [| |o a b ta tb Ha Hb]; subst; clear HT.
  destruct (leaf_pos s1 ta p d r Ha Hd Hr Rg1 C1) as (hA & EA & PA).
  destruct (leaf_pos s2 tb p d r Hb Hd Hr Rg2 C2) as (hB & EB & PB).
  cbn [test_tree_intersect]. rewrite EA, EB. cbn [bind index6]. cbn [csg_oper op_name].
  change (if ("difference" =? "union")%string then _ else _) with (Ok (@operCsgDifference xr _)). cbn [bind].
  unfold operCsgDifference.
  assert (Fn : forall h, none h -> h6_flag h = false) by (intros h ->; reflexivity).
  (* uniform description of a hit *)
  assert (U : forall s h, pos_result s p d h ->
    (exists a0 a1, a0 < a1 /\ 0 < a1 /\ a0 <> 0 /\ (forall u, member s (at_t p d u) <-> a0 < u < a1) /\ h6_flag h = true /\
      let an := if Rltb 0 a0 then a0 else a1 in exists k,
      helper_findIntersects h r nearest = Ok (Some (fv (at_t p d an)), Some (fv (inward s (at_t p d an))), Some (Fin an), k) /\
      helper_findIntersects h r farthest = Ok (Some (fv (at_t p d a1)), Some (fv (inward s (at_t p d a1))), Some (Fin a1), k))
    \/ ((forall u, 0 <= u -> ~ member s (at_t p d u)) /\ h6_flag h = false)).
  { intros s h [a0 a1 Hp Hs Hm T|a0 a1 Hi Hs Hm O|N Z].
    - left. exists a0, a1. destruct (helper_two s p d r a0 a1 h Hd Hr ltac:(lra) T) as (A1 & A2 & A3 & A4).
      do 3 (split; [lra|]). split; [exact Hm|]. split; [exact A3|]. cbv zeta. rewrite (Rltb_true_intro 0 a0) by lra.
      exists 2%Z. auto.
    - left. exists a0, a1. destruct (helper_one s p d r a1 h nearest Hd Hr ltac:(lra) O) as (A1 & A3 & A4).
      destruct (helper_one s p d r a1 h farthest Hd Hr ltac:(lra) O) as (A2 & _ & _).
      do 3 (split; [lra|]). split; [exact Hm|]. split; [exact A3|]. cbv zeta. rewrite (Rltb_false_intro 0 a0) by lra.
      exists 1%Z. auto.
    - right. auto. }
  destruct (U s1 hA PA) as [(a0 & a1 & L01 & La & Na & Ma & FA & k & NA & FFA)|[Nv FA]].
  2:{ left. split; [exact Nv|]. rewrite FA. cbn [andb bind]. eexists; split; reflexivity. }
  destruct (U s2 hB PB) as [(b0 & b1 & M01 & Lb & Nb & Mb & FB & k' & NB & FFB)|[Nv FB]].
  2:{ right; left. exists a0, a1. rewrite FA, FB. cbn [andb]. rewrite NA. cbn [bind]. auto 10. }
  right; right. exists a0, a1, b0, b1. do 6 (split; [assumption|]). do 2 (split; [assumption|]). cbv zeta in *.
  revert NA FFA NB FFB. generalize (if Rltb 0 a0 then a0 else a1). generalize (if Rltb 0 b0 then b0 else b1).
  intros bn an NA FFA NB FFB. rewrite FA, FB. cbn [andb]. rewrite NA, NB, FFA, FFB. cbn [bind olt need]. rewrite !nlt_fin.
  destruct (Rltb_spec an bn) as [L|L]; cbn [bind].
  - split; [intros _; eexists; repeat split|]. split; intros; lra.
  - split; [intros; lra|]. destruct (Rltb_spec b1 a1) as [L'|L']; cbn [bind]; split; intros; try lra; eexists; repeat split.
Qed.

(** configurations for which the answer is right: A is not ahead; or both are ahead and B is not wholly
    in front of A; or the start is inside A and A ends before B; or the start is inside both and B ends first *)
Definition diff_ok (s1 s2 : solid) (p d : R3) : Prop :=
  let A u := member s1 (at_t p d u) in let B u := member s2 (at_t p d u) in
  (forall u, 0 <= u -> ~ A u) \/
  ((exists u, 0 <= u /\ B u) /\
   ((~ A 0 /\ ~ B 0 /\ exists u v, 0 <= u < v /\ A u /\ B v) \/
    (A 0 /\ ~ B 0 /\ forall u v, 0 <= u -> A u -> B v -> 0 <= v -> u < v) \/
    (A 0 /\ B 0 /\ exists v, 0 <= v /\ A v /\ forall u, v <= u -> ~ B u))).

Lemma diff_ok_correct s1 s2 t p d r : tree_of (Bin OpDifference (Leaf s1) (Leaf s2)) t -> is_unit d -> ray_is r p d ->
  regular s1 p d -> regular s2 p d -> clear s1 p d -> clear s2 p d -> no_common s1 s2 p d -> diff_ok s1 s2 p d ->
  let S u := member s1 (at_t p d u) /\ ~ member s2 (at_t p d u) in
  exists h, test_tree_intersect t r = Ok (I6 h) /\ crossing_report S p d h.
Proof.
  intros HT Hd Hr Rg1 Rg2 C1 C2 NC OK S.
  assert (exists ta, tree_of (Leaf s1) ta) as [ta Ta] by (inversion HT; eauto).
  assert (exists tb, tree_of (Leaf s2) tb) as [tb Tb] by (inversion HT; eauto).
  assert (Cross : forall s tt x y, tree_of (Leaf s) tt -> regular s p d -> x < y -> (forall u, member s (at_t p d u) <-> x < u < y) ->
     surface s (at_t p d x) /\ surface s (at_t p d y)).
  { intros s tt x y Tt Rg L M. destruct (leaf_chord s tt p d r Tt Hr Hd Rg) as [(t0 & t1 & L' & Su & Me)|N].
    - assert (x = t0 /\ y = t1) as [-> ->].
      { split; apply Rle_antisym; apply Rnot_lt_le; intros K.
        - pose proof (M ((t0 + Rmin x t1) / 2)) as Q. rewrite Me in Q. unfold Rmin in Q. destruct (Rle_dec x t1); lra.
        - pose proof (M ((x + Rmin y t0) / 2)) as Q. rewrite Me in Q. unfold Rmin in Q. destruct (Rle_dec y t0); lra.
        - pose proof (M ((y + Rmax x t1) / 2)) as Q. rewrite Me in Q. unfold Rmax in Q. destruct (Rle_dec x t1); try lra.
        - pose proof (M ((t1 + Rmax y t0) / 2)) as Q. rewrite Me in Q. unfold Rmax in Q. destruct (Rle_dec y t0); lra. }
      split; apply Su; auto.
    - exfalso. apply (N ((x + y)/2)). apply M. lra. }
  pose proof (diff_two s1 s2 t p d r HT Hd Hr Rg1 Rg2 C1 C2) as D. unfold diff_eval in D. cbv zeta in D.
  destruct D as [[Nv (h & E & F)]|[(a0 & a1 & L01 & La & Ma & Nv & E)|(a0 & a1 & b0 & b1 & L01 & La & Na & M01 & Lb & Nb & Ma & Mb & D1 & D2 & D3)]].
  - exists h. split; [exact E|]. right. split; [exact F|]. intros u Hu [M _]. exact (Nv u Hu M).
  - exfalso. destruct OK as [K|[(u & Hu & K) _]].
    + apply (K ((Rmax 0 a0 + a1)/2)); [|apply Ma]; unfold Rmax; destruct (Rle_dec 0 a0); lra.
    + exact (Nv u Hu K).
  - assert (Z : at_t p d 0 = p) by apply at_t_0.
    assert (AheadA : ~ forall u, 0 <= u -> ~ member s1 (at_t p d u)).
    { intros K. apply (K ((Rmax 0 a0 + a1)/2)); [|apply Ma]; unfold Rmax; destruct (Rle_dec 0 a0); lra. }
    destruct OK as [K|[_ OK]]; [contradiction|]. rewrite !Ma, !Mb in OK.
    destruct OK as [(NA & NB & u & v & Huv & Au & Bv)|[(IA & NB & Bef)|(IA & IB & v & Hv & Av & NBv)]].
    + rewrite Ma in Au. rewrite Mb in Bv.
      rewrite (Rltb_true_intro 0 a0), (Rltb_true_intro 0 b0) in * by lra.
      destruct (Rlt_dec a0 b0) as [L|L]; [|destruct (Rlt_dec b1 a1) as [L'|L']].
      * destruct (D1 L) as (h & E & F & P & _). exists h. split; [exact E|]. left. exists a0. split; [exact F|]. split; [exact P|].
        split; [lra|]. left. split.
        -- exists (Rmin a0 (Rmin a1 b0 - a0)). assert (a0 < Rmin a1 b0) by (apply Rmin_glb_lt; lra).
           pose proof (Rmin_l a0 (Rmin a1 b0 - a0)). pose proof (Rmin_r a0 (Rmin a1 b0 - a0)).
           pose proof (Rmin_l a1 b0). pose proof (Rmin_r a1 b0). split; [apply Rmin_glb_lt; lra|].
           split; intros s Hs; unfold S; rewrite Ma, Mb; lra.
        -- intros s Hs. unfold S. rewrite Ma, Mb; lra.
      * destruct (D2 ltac:(lra) L') as (h & E & F & P & _). exists h. split; [exact E|]. left. exists b1. split; [exact F|]. split; [exact P|].
        split; [lra|]. left. split.
        -- exists (Rmin (b1 - b0) (a1 - b1)).
           pose proof (Rmin_l (b1 - b0) (a1 - b1)). pose proof (Rmin_r (b1 - b0) (a1 - b1)). split; [apply Rmin_glb_lt; lra|].
           split; intros s Hs; unfold S; rewrite Ma, Mb; lra.
        -- intros s Hs. unfold S. rewrite Ma, Mb; lra.
      * destruct (D3 ltac:(lra) ltac:(lra)) as (h & E & F). exists h. split; [exact E|]. right. split; [exact F|].
        intros s Hs. unfold S. rewrite Ma, Mb; lra.
    + rewrite (Rltb_false_intro 0 a0), (Rltb_true_intro 0 b0) in * by lra.
      assert (L : a1 < b0).
      { destruct (Rtotal_order a1 b0) as [L|[L|L]]; [exact L|exfalso|exfalso].
        - destruct (Cross s1 ta a0 a1 Ta Rg1 L01 Ma) as [_ S1]. destruct (Cross s2 tb b0 b1 Tb Rg2 M01 Mb) as [S2 _].
          apply (NC a1 La). split; [exact S1|]. rewrite L. exact S2.
        - set (w := (b0 + Rmin a1 b1) / 2). assert (b0 < Rmin a1 b1) by (apply Rmin_glb_lt; lra).
          pose proof (Rmin_l a1 b1). pose proof (Rmin_r a1 b1).
          assert (w < w) by (apply Bef; unfold w; try lra; [apply Ma|apply Mb]; lra). lra. }
      destruct (D1 L) as (h & E & F & P & _). exists h. split; [exact E|]. left. exists a1. split; [exact F|]. split; [exact P|].
      split; [lra|]. right. split.
      * exists a1. split; [lra|]. split; intros s Hs; unfold S; rewrite Ma, Mb; lra.
      * intros s Hs. unfold S. rewrite Ma, Mb; lra.
    + rewrite (Rltb_false_intro 0 a0), (Rltb_false_intro 0 b0) in * by lra. rewrite Ma in Av.
      assert (L : b1 <= v). { apply Rnot_lt_le. intros K. apply (NBv v); [lra|]. apply Mb. lra. }
      destruct (D2 ltac:(lra) ltac:(lra)) as (h & E & F & P & _). exists h. split; [exact E|]. left. exists b1. split; [exact F|]. split; [exact P|].
      split; [lra|]. left. split.
      * exists (Rmin b1 (a1 - b1)).
        pose proof (Rmin_l b1 (a1 - b1)). pose proof (Rmin_r b1 (a1 - b1)). split; [apply Rmin_glb_lt; lra|].
        split; intros s Hs; unfold S; rewrite Ma, Mb; lra.
      * intros s Hs. unfold S. rewrite Ma, Mb; lra.
Qed.

(** wrong answers, for every ray in the configuration *)
Lemma diff_only_A s1 s2 t p d r : tree_of (Bin OpDifference (Leaf s1) (Leaf s2)) t -> is_unit d -> ray_is r p d ->
  regular s1 p d -> regular s2 p d -> clear s1 p d -> clear s2 p d ->
  (exists u, 0 <= u /\ member s1 (at_t p d u)) -> (forall u, 0 <= u -> ~ member s2 (at_t p d u)) ->
  test_tree_intersect t r = Err ValueError.
Proof.
  intros HT Hd Hr Rg1 Rg2 C1 C2 (u & Hu & M) N.
  pose proof (diff_two s1 s2 t p d r HT Hd Hr Rg1 Rg2 C1 C2) as D. unfold diff_eval in D. cbv zeta in D.
  destruct D as [[Nv _]|[(a0 & a1 & _ & _ & _ & _ & E)|(a0 & a1 & b0 & b1 & L01 & La & Na & M01 & Lb & Nb & Ma & Mb & _)]].
  - exfalso. exact (Nv u Hu M).
  - exact E.
  - exfalso. apply (N ((Rmax 0 b0 + b1)/2)); [|apply Mb]; unfold Rmax; destruct (Rle_dec 0 b0); lra.
Qed.

(** B wholly in front of A: the reported point lies on B's far side and is not on the boundary of A \ B *)
Lemma diff_B_first s1 s2 t p d r a0 a1 b0 b1 : tree_of (Bin OpDifference (Leaf s1) (Leaf s2)) t -> is_unit d -> ray_is r p d ->
  regular s1 p d -> regular s2 p d -> clear s1 p d -> clear s2 p d ->
  0 < b0 < b1 -> b1 < a0 -> a0 < a1 ->
  (forall u, member s1 (at_t p d u) <-> a0 < u < a1) -> (forall u, member s2 (at_t p d u) <-> b0 < u < b1) ->
  exists h, test_tree_intersect t r = Ok (I6 h) /\ h6_flag h = true /\ h6_p1 h = Some (fv (at_t p d b1)).
Proof.
  intros HT Hd Hr Rg1 Rg2 C1 C2 Hb Hba Ha M1 M2.
  pose proof (diff_two s1 s2 t p d r HT Hd Hr Rg1 Rg2 C1 C2) as D. unfold diff_eval in D. cbv zeta in D.
  destruct D as [[Nv _]|[(x0 & x1 & _ & _ & _ & N & _)|(x0 & x1 & y0 & y1 & L01 & La & Na & M01 & Lb & Nb & Ma & Mb & D1 & D2 & D3)]].
  - exfalso. apply (Nv ((a0 + a1)/2)); [lra|]. apply M1. lra.
  - exfalso. apply (N ((b0 + b1)/2)); [lra|]. apply M2. lra.
  - assert (X : forall x y z w, x < y -> z < w -> (forall u, x < u < y <-> z < u < w) -> x = z /\ y = w).
    { intros x y z w Hxy Hzw H. assert (x = z).
      { destruct (Rtotal_order x z) as [L|[L|L]]; [exfalso| exact L|exfalso].
        - pose proof (H ((x + Rmin y z) / 2)) as K. unfold Rmin in K. destruct (Rle_dec y z); lra.
        - pose proof (H ((z + Rmin w x) / 2)) as K. unfold Rmin in K. destruct (Rle_dec w x); lra. }
      subst z. split; [reflexivity|]. destruct (Rtotal_order y w) as [L|[L|L]]; [exfalso| exact L|exfalso].
      - pose proof (H ((y + w) / 2)). lra.
      - pose proof (H ((y + w) / 2)). lra. }
    destruct (X x0 x1 a0 a1 L01 Ha) as [-> ->]. { intros u. rewrite <- Ma, <- M1. tauto. }
    destruct (X y0 y1 b0 b1 M01 ltac:(lra)) as [-> ->]. { intros u. rewrite <- Mb, <- M2. tauto. }
    rewrite (Rltb_true_intro 0 a0), (Rltb_true_intro 0 b0) in * by lra.
    destruct (D2 ltac:(lra) ltac:(lra)) as (h & E & F & P & _). exists h. auto.
Qed.

(* ---- concrete spheres on the x axis, for the examples ---- *)
Definition axis_ball (x rad : R) : solid := Ball (mk3 x 0 0) rad.
Definition org : R3 := mk3 0 0 0.
Definition ex : R3 := mk3 1 0 0.

Lemma ex_unit : is_unit ex.
Proof. unfold is_unit, r3dot, ex; cbn. ring. Qed.
Lemma axis_dist3 x t : dist3 (at_t org ex t) (mk3 x 0 0) = Rabs (t - x).
Proof.
  apply sq_eq_abs; [apply dist3_nonneg|]. rewrite dist3_sq. unfold r3dot, org, ex; cbn. ring.
Qed.
Lemma axis_member x rad t : member (axis_ball x rad) (at_t org ex t) <-> x - rad < t < x + rad.
Proof.
  cbn. unfold in_ball. rewrite axis_dist3. split.
  - intros K. apply Rabs_def2 in K. lra.
  - intros K. apply Rabs_def1; lra.
Qed.
Lemma axis_surface x rad t : 0 < rad -> (surface (axis_ball x rad) (at_t org ex t) <-> t = x - rad \/ t = x + rad).
Proof.
  intros H. cbn. unfold on_sphere. rewrite axis_dist3. unfold Rabs. destruct (Rcase_abs (t - x)); lra.
Qed.
Lemma axis_regular x rad : 0 < rad -> regular (axis_ball x rad) org ex.
Proof.
  intros H. split; [exact H|]. unfold tangent, axis_dist. intros K. apply sq_eq_abs in K; [|apply len_nonneg].
  rewrite len_sq in K. unfold perp, r3dot, org, ex in K; cbn in K.
  assert (rad * rad = 0) by (rewrite <- K; ring). nra.
Qed.
Lemma axis_clear x rad : 0 < rad -> 1e-12 < Rabs (x - rad) -> 1e-12 < Rabs (x + rad) -> clear (axis_ball x rad) org ex.
Proof. intros H A B t K. apply axis_surface in K; [|exact H]. destruct K; subst; assumption. Qed.
Lemma axis_tree x rad : exists t, tree_of (Leaf (axis_ball x rad)) t.
Proof.
  eexists. eapply TO_ball with (Ro := Some rad) (Do := None); [reflexivity|].
  unfold mk_sphere. cbn [fo option_map]. rewrite check_R_only. reflexivity.
Qed.
Lemma axis_tree2 o x rad x' rad' : exists t, tree_of (Bin o (Leaf (axis_ball x rad)) (Leaf (axis_ball x' rad'))) t.
Proof. destruct (axis_tree x rad) as [a Ha], (axis_tree x' rad') as [b Hb]. eexists. apply TO_bin; eassumption. Qed.
