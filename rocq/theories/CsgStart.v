(** Ray queries on two-solid intersections and on unions, for rays that may start on one of the surfaces (general_optics.py:308-575). *)
From Coq Require Import Reals ZArith Lra Lia Psatz List String Bool.
From Verif Require Import PyErr Num Vec Shapes Csg Spec XReal RVec VecProofs FlatProofs SphereProofs CylProofs ShapeExtra TreeProofs SolidProofs CsgProofs.
Import ListNotations.
Local Open Scope R_scope.

(** every crossing is the start itself or farther than 1e-12 from it *)
Definition clear0 (s : solid) (p d : R3) : Prop := forall t, surface s (at_t p d t) -> t = 0 \/ 1e-12 < Rabs t.
(** t is where the ray, after its start, first enters or leaves S *)
Definition next_crossing (S : R -> Prop) (t : R) : Prop :=
  0 < t /\ (((forall s, 0 < s < t -> ~ S s) /\ exists e, 0 < e /\ forall s, t < s < t + e -> S s) \/
            ((forall s, 0 < s < t -> S s) /\ exists e, 0 < e /\ forall s, t < s < t + e -> ~ S s)).

Lemma nc_unique S t t' : next_crossing S t -> next_crossing S t' -> t = t'.
Proof.
  assert (X : forall a b, next_crossing S a -> next_crossing S b -> ~ a < b).
  { intros a b [Pa Ca] [Pb Cb] L.
    destruct Ca as [[Ba (e & He & Aa)]|[Ba (e & He & Aa)]]; pose proof (Aa (a + Rmin e (b - a) / 2)) as A; pose proof (Ba (a / 2) ltac:(lra)) as B;
    (assert (K : a < a + Rmin e (b - a) / 2 < a + e /\ 0 < a + Rmin e (b - a) / 2 < b) by (unfold Rmin; destruct (Rle_dec e (b - a)); lra));
    destruct K as [K1 K2]; specialize (A K1);
    (destruct Cb as [[Bb _]|[Bb _]]; [pose proof (Bb (a / 2) ltac:(lra)); pose proof (Bb _ K2)|pose proof (Bb (a / 2) ltac:(lra)); pose proof (Bb _ K2)]; tauto). }
  intros H H'. destruct (Rtotal_order t t') as [L|[L|L]]; [destruct (X _ _ H H' L)|exact L|destruct (X _ _ H' H L)].
Qed.
Lemma nc_enter S t t1 : 0 < t < t1 -> (forall u, 0 < u -> (S u <-> t < u < t1)) -> next_crossing S t.
Proof.
  intros Ht H. split; [lra|]. left. split; [intros s Hs; rewrite H by lra; lra|]. exists (t1 - t). split; [lra|]. intros s Hs. apply H; lra.
Qed.
Lemma nc_leave S t : 0 < t -> (forall u, 0 < u -> (S u <-> u < t)) -> next_crossing S t.
Proof.
  intros Ht H. split; [lra|]. right. split; [intros s Hs; apply H; lra|]. exists 1. split; [lra|]. intros s Hs. rewrite H by lra. lra.
Qed.
Lemma nc_none S t : (forall u, 0 < u -> ~ S u) -> ~ next_crossing S t.
Proof.
  intros N [P [[_ (e & He & A)]|[A _]]]; [apply (N (t + e / 2)), A|apply (N (t / 2)), A]; lra.
Qed.

(** where the start is, in terms of the chord *)
Inductive pos0 (s : solid) (p d : R3) (h : hit6 xr) : Prop :=
| P0_ahead t0 t1 (Hp : 1e-12 < t0 < t1) (Hs : forall t, surface s (at_t p d t) <-> t = t0 \/ t = t1)
    (Hm : forall t, member s (at_t p d t) <-> t0 < t < t1) (Ht : two p d s t0 t1 h)
| P0_inside t0 t1 (Hi : t0 <= 0) (Hi1 : 1e-12 < t1) (Hs : forall t, surface s (at_t p d t) <-> t = t0 \/ t = t1)
    (Hm : forall t, member s (at_t p d t) <-> t0 < t < t1) (Ho : one p d s t1 h)
| P0_never (Hn : forall t, 0 < t -> ~ member s (at_t p d t)) (Hf : forall t, 0 < t -> ~ surface s (at_t p d t)) (Hz : none h).

Lemma leaf_pos0 s t p d r : tree_of (Leaf s) t -> is_unit d -> ray_is r p d -> regular s p d -> clear0 s p d ->
  exists h, test_tree_intersect t r = Ok (I6 h) /\ pos0 s p d h.
Proof.
  intros HT Hd Hr Reg Cl. destruct (leaf_query s t p d r HT Hd Hr Reg) as (h & E & L).
  exists h. split; [exact E|]. destruct L.
  - assert (C0 : t0 = 0 \/ 1e-12 < Rabs t0) by (apply Cl, Hsurf; auto).
    assert (C1 : t1 = 0 \/ 1e-12 < Rabs t1) by (apply Cl, Hsurf; auto).
    unfold Rabs in C0, C1. destruct Hres as [[H0 H]|[[H0 [H1 H]]|[H0 H]]].
    + apply P0_ahead with t0 t1; auto.
    + apply P0_inside with t0 t1; auto. destruct (Rcase_abs t0); lra.
    + apply P0_never; auto; intros u Hu M; [apply Hmem in M|apply Hsurf in M]; destruct (Rcase_abs t1), (Rcase_abs t0); lra.
  - apply P0_never; auto.
Qed.

Definition two_report (S : R -> Prop) (p d : R3) (l : list solid) (h : hit6 xr) : Prop :=
  (exists u s, h6_flag h = true /\ h6_p1 h = Some (fv (at_t p d u)) /\ In s l /\ surface s (at_t p d u) /\
      h6_n1 h = Some (fv (inward s (at_t p d u))) /\ next_crossing S u /\ 1e-12 < u) \/
  (h6_flag h = false /\ forall u, 0 < u -> ~ S u).

Lemma intersect_two0 s1 s2 t p d r : tree_of (Bin OpIntersect (Leaf s1) (Leaf s2)) t -> is_unit d -> ray_is r p d ->
  regular s1 p d -> regular s2 p d -> clear0 s1 p d -> clear0 s2 p d -> no_common s1 s2 p d ->
  let S u := member s1 (at_t p d u) /\ member s2 (at_t p d u) in
  exists h, test_tree_intersect t r = Ok (I6 h) /\ two_report S p d [s1; s2] h.
Proof.
  intros HT Hd Hr Rg1 Rg2 C1 C2 NC S. inversion HT as [| |o a b ta tb Ha Hb]; subst; clear HT.
  destruct (leaf_pos0 s1 ta p d r Ha Hd Hr Rg1 C1) as (hA & EA & PA).
  destruct (leaf_pos0 s2 tb p d r Hb Hd Hr Rg2 C2) as (hB & EB & PB).
  cbn [test_tree_intersect]. rewrite EA, EB. cbn [bind index6]. cbn [csg_oper op_name].
  change (if ("intersect" =? "union")%string then _ else _) with (Ok (@operCsgIntersect xr _)). cbn [bind].
  unfold operCsgIntersect.
  assert (Fn : forall h, none h -> h6_flag h = false) by (intros h ->; reflexivity).
  assert (I1 : In s1 [s1; s2]) by (left; reflexivity). assert (I2 : In s2 [s1; s2]) by (right; left; reflexivity).
  destruct PA as [a0 a1 Hpa Hsa Hma Ta|a0 a1 Hia Hia1 Hsa Hma Oa|Na Nfa Za].
  3:{ rewrite (Fn _ Za). cbn [andb bind]. eexists; split; [reflexivity|]. right. split; [reflexivity|].
      intros u Hu [M _]. exact (Na u Hu M). }
  all: destruct PB as [b0 b1 Hpb Hsb Hmb Tb|b0 b1 Hib Hib1 Hsb Hmb Ob|Nb Nfb Zb].
  3,6: rewrite (Fn _ Zb); rewrite andb_false_r; cbn [bind]; eexists; (split; [reflexivity|]); right;
       (split; [reflexivity|]); intros u Hu [_ M]; exact (Nb u Hu M).
  - (* both ahead *)
    destruct (helper_two s1 p d r a0 a1 hA Hd Hr ltac:(lra) Ta) as (A1 & A2 & A3 & A4).
    destruct (helper_two s2 p d r b0 b1 hB Hd Hr ltac:(lra) Tb) as (B1 & B2 & B3 & B4).
    rewrite A1, A2, A3, B1, B2, B3. cbn [andb bind olt need evenb Z.even]. rewrite !nlt_fin.
    assert (N00 : a0 <> b0). { intros E. apply (NC a0); [lra|]. split; [apply Hsa; auto|apply Hsb; auto]. }
    assert (N01 : a0 <> b1). { intros E. apply (NC a0); [lra|]. split; [apply Hsa; auto|apply Hsb; auto]. }
    assert (N10 : a1 <> b0). { intros E. apply (NC a1); [lra|]. split; [apply Hsa; auto|apply Hsb; auto]. }
    destruct (Rltb_spec a0 b0) as [L1|L1]; [destruct (Rltb_spec b0 a1) as [L2|L2]|]; cbn [bind].
    + eexists; split; [reflexivity|]. left. exists b0, s2. repeat (split; [first [reflexivity|assumption|apply Hsb; auto]|]). split; [|lra].
      apply nc_enter with (Rmin a1 b1); [split; [lra|apply Rmin_glb_lt; lra]|].
      intros u Hu. unfold S. rewrite Hma, Hmb. unfold Rmin. destruct (Rle_dec a1 b1); lra.
    + rewrite (Rltb_false_intro b0 a0) by lra. cbn [bind]. eexists; split; [reflexivity|].
      right. split; [reflexivity|]. intros u Hu [M1 M2]. apply Hma in M1. apply Hmb in M2. lra.
    + rewrite (Rltb_true_intro b0 a0) by lra. cbn [bind]. destruct (Rltb_spec a0 b1) as [L2|L2]; cbn [bind].
      * eexists; split; [reflexivity|]. left. exists a0, s1. repeat (split; [first [reflexivity|assumption|apply Hsa; auto]|]). split; [|lra].
        apply nc_enter with (Rmin a1 b1); [split; [lra|apply Rmin_glb_lt; lra]|].
        intros u Hu. unfold S. rewrite Hma, Hmb. unfold Rmin. destruct (Rle_dec a1 b1); lra.
      * eexists; split; [reflexivity|].
        right. split; [reflexivity|]. intros u Hu [M1 M2]. apply Hma in M1. apply Hmb in M2. lra.
  - (* A ahead, inside B *)
    destruct (helper_two s1 p d r a0 a1 hA Hd Hr ltac:(lra) Ta) as (A1 & A2 & A3 & A4).
    destruct (helper_one s2 p d r b1 hB nearest Hd Hr ltac:(lra) Ob) as (B1 & B3 & B4).
    destruct (helper_one s2 p d r b1 hB farthest Hd Hr ltac:(lra) Ob) as (B2 & _ & _).
    rewrite A1, A2, A3, B1, B2, B3. cbn [andb bind olt need evenb Z.even]. rewrite !nlt_fin.
    assert (N01 : a0 <> b1). { intros E. apply (NC a0); [lra|]. split; [apply Hsa; auto|apply Hsb; auto]. }
    destruct (Rltb_spec b1 a0) as [L1|L1]; cbn [bind].
    + rewrite (Rltb_true_intro b1 a1) by lra. eexists; split; [reflexivity|].
      right. split; [reflexivity|]. intros u Hu [M1 M2]. apply Hma in M1. apply Hmb in M2. lra.
    + eexists; split; [reflexivity|]. left. exists a0, s1. repeat (split; [first [reflexivity|assumption|apply Hsa; auto]|]). split; [|lra].
      apply nc_enter with (Rmin a1 b1); [split; [lra|apply Rmin_glb_lt; lra]|].
      intros u Hu. unfold S. rewrite Hma, Hmb. unfold Rmin. destruct (Rle_dec a1 b1); lra.
  - (* inside A, B ahead *)
    destruct (helper_two s2 p d r b0 b1 hB Hd Hr ltac:(lra) Tb) as (B1 & B2 & B3 & B4).
    destruct (helper_one s1 p d r a1 hA nearest Hd Hr ltac:(lra) Oa) as (A1 & A3 & A4).
    destruct (helper_one s1 p d r a1 hA farthest Hd Hr ltac:(lra) Oa) as (A2 & _ & _).
    rewrite A1, A2, A3, B1, B2, B3. cbn [andb bind olt need evenb Z.even]. rewrite !nlt_fin.
    assert (N01 : a1 <> b0). { intros E. apply (NC a1); [lra|]. split; [apply Hsa; auto|apply Hsb; auto]. }
    destruct (Rltb_spec a1 b0) as [L1|L1]; cbn [bind].
    + rewrite (Rltb_true_intro a1 b1) by lra. eexists; split; [reflexivity|].
      right. split; [reflexivity|]. intros u Hu [M1 M2]. apply Hma in M1. apply Hmb in M2. lra.
    + eexists; split; [reflexivity|]. left. exists b0, s2. repeat (split; [first [reflexivity|assumption|apply Hsb; auto]|]). split; [|lra].
      apply nc_enter with (Rmin a1 b1); [split; [lra|apply Rmin_glb_lt; lra]|].
      intros u Hu. unfold S. rewrite Hma, Hmb. unfold Rmin. destruct (Rle_dec a1 b1); lra.
  - (* inside both *)
    destruct (helper_one s1 p d r a1 hA nearest Hd Hr ltac:(lra) Oa) as (A1 & A3 & A4).
    destruct (helper_one s1 p d r a1 hA farthest Hd Hr ltac:(lra) Oa) as (A2 & _ & _).
    destruct (helper_one s2 p d r b1 hB nearest Hd Hr ltac:(lra) Ob) as (B1 & B3 & B4).
    destruct (helper_one s2 p d r b1 hB farthest Hd Hr ltac:(lra) Ob) as (B2 & _ & _).
    rewrite A1, A2, A3, B1, B2, B3. cbn [andb bind olt need evenb Z.even]. rewrite !nlt_fin.
    destruct (Rltb_spec a1 b1) as [L1|L1]; cbn [bind].
    + eexists; split; [reflexivity|]. left. exists a1, s1. repeat (split; [first [reflexivity|assumption|apply Hsa; auto]|]). split; [|lra].
      apply nc_leave; [lra|]. intros u Hu. unfold S. rewrite Hma, Hmb. lra.
    + eexists; split; [reflexivity|]. left. exists b1, s2. repeat (split; [first [reflexivity|assumption|apply Hsb; auto]|]). split; [|lra].
      apply nc_leave; [lra|]. intros u Hu. unfold S. rewrite Hma, Hmb. lra.
Qed.

(* ---- unions ---- *)
(** the ray starts outside the set, or on its surface going out *)
Definition starts_outside (S : R -> Prop) : Prop := exists e, 0 < e /\ forall u, 0 < u < e -> ~ S u.
Definition union_inv0 (e : expr solid) (p d : R3) (r : ray xr) (h : hit6 xr) : Prop :=
  (exists t s t1, In s (solids e) /\ 1e-12 < t < t1 /\ surface s (at_t p d t) /\
     (forall u, t < u < t1 -> member s (at_t p d u)) /\
     h6_flag h = true /\
     (exists k, helper_findIntersects h r nearest
       = Ok (Some (fv (at_t p d t)), Some (fv (inward s (at_t p d t))), Some (Fin t), k)) /\
     (forall s' u, In s' (solids e) -> 0 < u <= t -> ~ member s' (at_t p d u)))
  \/ (h6_flag h = false /\ (forall s' u, In s' (solids e) -> 0 < u -> ~ member s' (at_t p d u))).

Lemma union_leaf0 s t p d r : tree_of (Leaf s) t -> is_unit d -> ray_is r p d -> regular s p d -> clear0 s p d ->
  starts_outside (fun u => member s (at_t p d u)) ->
  exists h, test_tree_intersect t r = Ok (I6 h) /\ union_inv0 (Leaf s) p d r h.
Proof.
  intros HT Hd Hr Reg Cl (e & He & Out). destruct (leaf_pos0 s t p d r HT Hd Hr Reg Cl) as (h & E & L).
  exists h. split; [exact E|]. destruct L.
  - left. destruct (helper_two s p d r t0 t1 h Hd Hr ltac:(lra) Ht) as (A & _ & B & _).
    exists t0, s, t1. split; [left; reflexivity|]. split; [lra|]. split; [apply Hs; auto|].
    split; [intros u Hu; apply Hm; exact Hu|]. split; [exact B|]. split; [eexists; exact A|].
    intros s' u [<-|[]] Hu M. apply Hm in M. lra.
  - exfalso. apply (Out (Rmin e t1 / 2)); [|apply Hm]; unfold Rmin; destruct (Rle_dec e t1); lra.
  - right. unfold none in Hz. subst h. split; [reflexivity|]. intros s' u [<-|[]] Hu M. exact (Hn _ Hu M).
Qed.
Lemma union_bin0 a b p d r hA hB : is_unit d -> ray_is r p d -> union_inv0 a p d r hA -> union_inv0 b p d r hB ->
  exists h, operCsgUnion hA hB r = Ok h /\ union_inv0 (Bin OpUnion a b) p d r h /\
  (h6_flag h = true -> forall q n dist k, helper_findIntersects h r nearest = Ok (q, n, dist, k) -> h6_p1 h = q /\ h6_n1 h = n).
Proof.
  intros Hd Hr IA IB. unfold operCsgUnion.
  assert (HX : forall t s c, 0 <= t ->
     helper_findIntersects (H6 true (Some (fv (at_t p d t))) None (Some (fv (inward s (at_t p d t)))) None c) r nearest
     = Ok (Some (fv (at_t p d t)), Some (fv (inward s (at_t p d t))), Some (Fin t), 1%Z)).
  { intros t s c Ht. unfold helper_findIntersects; cbn [h6_p1 h6_p2 h6_n1]. now rewrite (dist_fv p d t r). }
  assert (HY : forall t s c q n dist k, 0 <= t ->
     helper_findIntersects (H6 true (Some (fv (at_t p d t))) None (Some (fv (inward s (at_t p d t)))) None c) r nearest
     = Ok (q, n, dist, k) -> Some (fv (at_t p d t)) = q /\ Some (fv (inward s (at_t p d t))) = n).
  { intros t s c q n dist k Ht E. rewrite HX in E by exact Ht. injection E; auto. }
  destruct IA as [(t & s & t1 & Is & Ht & Hs & Hm & F & (k & E) & Before)|[F Never]];
  destruct IB as [(t' & s' & t1' & Is' & Ht' & Hs' & Hm' & F' & (k' & E') & Before')|[F' Never']]; rewrite F, F'; cbn [andb].
  - rewrite E, E'. cbn [bind olt need]. rewrite nlt_fin. destruct (Rltb_spec t t') as [L|L].
    + eexists. split; [reflexivity|]. split; [left|intros _ q n dist k0; apply HY; lra].
      exists t, s, t1. split; [cbn; apply in_or_app; auto|]. split; [exact Ht|]. split; [exact Hs|]. split; [exact Hm|].
      split; [reflexivity|]. split; [eexists; apply HX; lra|].
      intros s0 u I Hu. cbn in I. apply in_app_or in I. destruct I as [I|I]; [apply Before; auto|apply Before'; auto; lra].
    + eexists. split; [reflexivity|]. split; [left|intros _ q n dist k0; apply HY; lra].
      exists t', s', t1'. split; [cbn; apply in_or_app; auto|]. split; [exact Ht'|]. split; [exact Hs'|]. split; [exact Hm'|].
      split; [reflexivity|]. split; [eexists; apply HX; lra|].
      intros s0 u I Hu. cbn in I. apply in_app_or in I. destruct I as [I|I]; [apply Before; auto; lra|apply Before'; auto].
  - rewrite E. cbn [bind]. eexists. split; [reflexivity|]. split; [left|intros _ q n dist k0; apply HY; lra].
    exists t, s, t1. split; [cbn; apply in_or_app; auto|]. split; [exact Ht|]. split; [exact Hs|]. split; [exact Hm|].
    split; [reflexivity|]. split; [eexists; apply HX; lra|].
    intros s0 u I Hu. cbn in I. apply in_app_or in I. destruct I as [I|I]; [apply Before; auto|apply Never'; auto; lra].
  - rewrite E'. cbn [bind]. eexists. split; [reflexivity|]. split; [left|intros _ q n dist k0; apply HY; lra].
    exists t', s', t1'. split; [cbn; apply in_or_app; auto|]. split; [exact Ht'|]. split; [exact Hs'|]. split; [exact Hm'|].
    split; [reflexivity|]. split; [eexists; apply HX; lra|].
    intros s0 u I Hu. cbn in I. apply in_app_or in I. destruct I as [I|I]; [apply Never; auto; lra|apply Before'; auto].
  - eexists. split; [reflexivity|]. split; [right|discriminate]. split; [reflexivity|].
    intros s0 u I Hu. cbn in I. apply in_app_or in I. destruct I as [I|I]; [apply Never|apply Never']; auto.
Qed.
Lemma outside_sub (S S' : R -> Prop) : (forall u, S' u -> S u) -> starts_outside S -> starts_outside S'.
Proof. intros H (e & He & N). exists e. split; [exact He|]. intros u Hu K. exact (N u Hu (H u K)). Qed.
Lemma union_tree0 e t p d r : tree_of e t -> only OpUnion e -> is_unit d -> ray_is r p d ->
  (forall s, In s (solids e) -> regular s p d /\ clear0 s p d) -> starts_outside (fun u => den e (at_t p d u)) ->
  exists h, test_tree_intersect t r = Ok (I6 h) /\ union_inv0 e p d r h /\
    (forall o a b, e = Bin o a b -> h6_flag h = true -> forall q n dist k, helper_findIntersects h r nearest = Ok (q, n, dist, k) -> h6_p1 h = q /\ h6_n1 h = n).
Proof.
  intros HT. revert HT. revert t. induction e as [s|o a IHa b IHb]; intros t HT HO Hd Hr K Out.
  - destruct (K s (or_introl eq_refl)) as [Rg Cl]. destruct (union_leaf0 s t p d r HT Hd Hr Rg Cl Out) as (h & E & I).
    exists h. split; [exact E|]. split; [exact I|discriminate].
  - destruct HO as (-> & Oa & Ob). inversion HT as [| |o' a' b' ta tb Ha Hb]; subst.
    destruct (IHa ta Ha Oa Hd Hr) as (hA & EA & IA & _);
      [intros s I; apply K; cbn; apply in_or_app; auto|eapply outside_sub; [|exact Out]; cbn; tauto|].
    destruct (IHb tb Hb Ob Hd Hr) as (hB & EB & IB & _);
      [intros s I; apply K; cbn; apply in_or_app; auto|eapply outside_sub; [|exact Out]; cbn; tauto|].
    destruct (union_bin0 a b p d r hA hB Hd Hr IA IB) as (h & E & I & Q).
    exists h. cbn [test_tree_intersect]. rewrite EA, EB. cbn [bind index6]. cbn [csg_oper op_name].
    change (if ("union" =? "union")%string then _ else _) with (Ok (@operCsgUnion xr _)). cbn [bind]. rewrite E. split; [reflexivity|]. split; [exact I|].
    intros o a' b' _. exact Q.
Qed.
Lemma union_first0 o a b t p d r : let e := Bin o a b in tree_of e t -> only OpUnion e -> is_unit d -> ray_is r p d ->
  (forall s, In s (solids e) -> regular s p d /\ clear0 s p d) -> starts_outside (fun u => den e (at_t p d u)) ->
  exists h, test_tree_intersect t r = Ok (I6 h) /\ two_report (fun u => den e (at_t p d u)) p d (solids e) h.
Proof.
  intros e HT HO Hd Hr K Out. destruct (union_tree0 e t p d r HT HO Hd Hr K Out) as (h & E & I & Q).
  exists h. split; [exact E|]. destruct I as [(u & s & t1 & Is & Hu & Hs & Hm & F & (k & Eh) & Before)|[F Never]].
  - left. destruct (Q o a b eq_refl F _ _ _ _ Eh) as [P1 N1]. exists u, s. repeat (split; [assumption|]). split; [|lra].
    split; [lra|]. left. split.
    + intros v Hv D. apply (den_union e _ HO) in D. destruct D as (s' & I' & M). exact (Before s' v I' ltac:(lra) M).
    + exists (t1 - u). split; [lra|]. intros v Hv. apply (den_union e _ HO). exists s. split; [exact Is|]. apply Hm. lra.
  - right. split; [exact F|]. intros u Hu D. apply (den_union e _ HO) in D. destruct D as (s & I' & M). exact (Never s u I' Hu M).
Qed.
