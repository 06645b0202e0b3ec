(** Property C72: which side of a compound a ray is said to come from (Compound.test_intersect, optics3d.py:93-100). *)
From Coq Require Import Reals ZArith Lra Lia Psatz String List Bool.
From Verif Require Import PyErr Num Vec Shapes Csg Optics Spec XReal RVec VecProofs FlatProofs SphereProofs CylProofs ShapeExtra TreeProofs SolidProofs CsgProofs.
Import ListNotations.
Local Open Scope R_scope.

Definition member_dec s x : {member s x} + {~ member s x}.
Proof. destruct s; apply Rlt_dec. Defined.
(** the number of leaves of the tree that contain the point *)
Fixpoint containing (e : expr solid) (x : R3) : nat :=
  match e with Leaf s => if member_dec s x then 1 else 0 | Bin _ a b => containing a x + containing b x end%nat.
(** no intersections in the tree *)
Fixpoint no_meet (e : expr solid) : Prop :=
  match e with Leaf _ => True | Bin o a b => o <> OpIntersect /\ no_meet a /\ no_meet b end.

Lemma leaf_count s t p d r : tree_of (Leaf s) t -> is_unit d -> ray_is r p d -> regular s p d -> clear s p d ->
  exists h, test_tree_intersect t r = Ok (I6 h) /\ Z.even (h6_count h) = Nat.even (containing (Leaf s) p).
Proof.
  intros HT Ud Hr Rg Cl. destruct (leaf_pos s t p d r HT Ud Hr Rg Cl) as (h & E & PR). exists h. split; [exact E|]. cbn [containing].
  destruct PR as [t0 t1 Hp Hs Hm T|t0 t1 Hi Hs Hm O|Hn Z].
  - destruct (member_dec s p) as [M|M]; [exfalso; rewrite <- (at_t_0 p d) in M; apply Hm in M; lra|]. destruct T as [-> | ->]; reflexivity.
  - destruct (member_dec s p) as [M|M]; [|exfalso; apply M; rewrite <- (at_t_0 p d); apply Hm; lra]. rewrite O. reflexivity.
  - destruct (member_dec s p) as [M|M]; [exfalso; apply (Hn 0); [lra|rewrite at_t_0; exact M]|]. rewrite Z. reflexivity.
Qed.
Lemma union_count (A B h : hit6 xr) r : operCsgUnion A B r = Ok h -> h6_count h = (h6_count A + h6_count B)%Z.
Proof.
  unfold operCsgUnion. destruct (h6_flag A), (h6_flag B); cbn [andb]; intros E;
  repeat match type of E with
  | bind ?m _ = Ok _ => destruct m as [[[[? ?] ?] ?]|] eqn:?; cbn [bind] in E; [|discriminate E]
  | (match ?x with Some _ => _ | None => _ end) = Ok _ => destruct x
  | bind ?m _ = Ok _ => destruct m as [[]|]; cbn [bind] in E; [| |discriminate E]
  end; injection E as <-; reflexivity.
Qed.
Lemma diff_count (A B h : hit6 xr) r : operCsgDifference A B r = Ok h -> h6_count h = (h6_count A + h6_count B)%Z.
Proof.
  unfold operCsgDifference. destruct (h6_flag A), (h6_flag B); cbn [andb]; intros E;
  repeat match type of E with
  | bind ?m _ = Ok _ => destruct m as [[[[? ?] ?] ?]|] eqn:?; cbn [bind] in E; [|discriminate E]
  | bind ?m _ = Ok _ => destruct m as [[]|]; cbn [bind] in E; [| |discriminate E]
  end; try discriminate E; injection E as <-; reflexivity.
Qed.
Lemma tree_count e t p d r : tree_of e t -> no_meet e -> is_unit d -> ray_is r p d -> (forall s, In s (solids e) -> regular s p d /\ clear s p d) ->
  forall i, test_tree_intersect t r = Ok i -> exists h, i = I6 h /\ Z.even (h6_count h) = Nat.even (containing e p).
Proof.
  intros HT NM Ud Hr. induction HT as [c rad Ro Do s HR E|c u rad Ro Do s Hu Hp HR E|o a b ta tb Ha IHa Hb IHb]; intros HS i Ei.
  - destruct (HS (Ball c rad) (or_introl eq_refl)) as [Rg Cl]. destruct (leaf_count (Ball c rad) _ p d r (TO_ball c rad Ro Do s HR E) Ud Hr Rg Cl) as (h & Eh & C).
    exists h. split; [congruence|exact C].
  - destruct (HS (Cyl c u rad) (or_introl eq_refl)) as [Rg Cl]. destruct (leaf_count (Cyl c u rad) _ p d r (TO_cyl c u rad Ro Do s Hu Hp HR E) Ud Hr Rg Cl) as (h & Eh & C).
    exists h. split; [congruence|exact C].
  - destruct NM as (No & Na & Nb). cbn [test_tree_intersect] in Ei. destruct (test_tree_intersect ta r) as [ia|] eqn:Ea; cbn [bind] in Ei; [|discriminate Ei].
    destruct (test_tree_intersect tb r) as [ib|] eqn:Eb; cbn [bind] in Ei; [|discriminate Ei].
    destruct (IHa Na (fun s I => HS s (in_or_app _ _ _ (or_introl I))) ia eq_refl) as (hA & -> & CA). destruct (IHb Nb (fun s I => HS s (in_or_app _ _ _ (or_intror I))) ib eq_refl) as (hB & -> & CB).
    cbn [bind index6] in Ei. cbn [containing]. rewrite Nat.even_add, <- CA, <- CB.
    destruct o; try (exfalso; apply No; reflexivity); cbn in Ei.
    + destruct (operCsgUnion hA hB r) as [h|] eqn:Eo; [|discriminate Ei]. injection Ei as <-. exists h. split; [reflexivity|]. rewrite (union_count _ _ _ _ Eo), Z.even_add. reflexivity.
    + destruct (operCsgDifference hA hB r) as [h|] eqn:Eo; [|discriminate Ei]. injection Ei as <-. exists h. split; [reflexivity|]. rewrite (diff_count _ _ _ _ Eo), Z.even_add. reflexivity.
Qed.

(** C72: a tree of unions and differences, of any depth, reports "from outside" exactly when the start of the ray is in an even number of its leaves *)
Theorem C72_parity : forall e t beh ix p d r h, tree_of e t -> no_meet e -> is_unit d -> ray_is r p d -> (forall s, In s (solids e) -> regular s p d /\ clear s p d) ->
  compound_test_intersect (mkCompound t beh ix) r = Ok h -> h4_sfo h = SfoBool (Nat.even (containing e p)).
Proof.
  intros e t beh ix p d r h HT NM Ud Hr HS E. unfold compound_test_intersect in E. cbn [co_tree] in E. destruct (test_tree_intersect t r) as [i|] eqn:Ei; cbn [bind] in E; [|discriminate E].
  destruct (tree_count e t p d r HT NM Ud Hr HS i Ei) as (h6 & -> & C). cbn [unpack6 bind] in E. injection E as <-. cbn [h4_sfo]. unfold evenb. rewrite C. reflexivity.
Qed.
Print Assumptions C72_parity.
(** so the side is right for one solid, for unions of solids of which at most one contains the start, and for a difference of two solids unless the start is in the second only *)
Theorem C72_right : forall e t beh ix p d r h, tree_of e t -> no_meet e -> is_unit d -> ray_is r p d -> (forall s, In s (solids e) -> regular s p d /\ clear s p d) ->
  compound_test_intersect (mkCompound t beh ix) r = Ok h ->
  (only OpUnion e /\ (containing e p <= 1)%nat) \/ (exists s1 s2, e = Bin OpDifference (Leaf s1) (Leaf s2) /\ (member s2 p -> member s1 p)) ->
  h4_sfo h = SfoBool true /\ ~ den e p \/ h4_sfo h = SfoBool false /\ den e p.
Proof.
  intros e t beh ix p d r h HT NM Ud Hr HS E W. rewrite (C72_parity e t beh ix p d r h HT NM Ud Hr HS E). destruct W as [[U L]|(s1 & s2 & -> & W)].
  - assert (X : den e p <-> (1 <= containing e p)%nat).
    { rewrite (den_union e p U). clear - e. induction e as [s|o a IHa b IHb]; cbn [solids containing].
      - destruct (member_dec s p) as [M|M]; split; [lia|intros _; exists s; split; [left; reflexivity|exact M]|intros (s' & [<-|[]] & M'); contradiction|lia].
      - split.
        + intros (s & I & M). apply in_app_or in I. destruct I as [I|I]; [assert (1 <= containing a p)%nat by (apply IHa; eauto)|assert (1 <= containing b p)%nat by (apply IHb; eauto)]; lia.
        + intros H. assert (1 <= containing a p \/ 1 <= containing b p)%nat as [K|K] by lia; [apply IHa in K|apply IHb in K]; destruct K as (s & I & M); exists s; split; auto; apply in_or_app; auto. }
    destruct (containing e p) as [|[|k]]; [left|right|lia]; (split; [reflexivity|]); rewrite X; lia.
  - cbn [containing den]. destruct (member_dec s1 p), (member_dec s2 p); cbn; tauto.
Qed.
Print Assumptions C72_right.
(** the intersection of two solids reports "from outside" exactly when the start is in neither of them: wrong when it is in exactly one *)
Theorem C72_intersect : forall s1 s2 t beh ix p d r h, tree_of (Bin OpIntersect (Leaf s1) (Leaf s2)) t -> is_unit d -> ray_is r p d ->
  regular s1 p d -> clear s1 p d -> regular s2 p d -> clear s2 p d ->
  compound_test_intersect (mkCompound t beh ix) r = Ok h -> (h4_sfo h = SfoBool true <-> ~ member s1 p /\ ~ member s2 p) /\ (h4_sfo h = SfoBool false <-> member s1 p \/ member s2 p).
Proof.
  intros s1 s2 t beh ix p d r h HT Ud Hr Rg1 C1 Rg2 C2 E. inversion HT as [| |o a b ta tb Ha Hb]; subst; clear HT.
  destruct (leaf_pos s1 ta p d r Ha Ud Hr Rg1 C1) as (hA & EA & PA). destruct (leaf_pos s2 tb p d r Hb Ud Hr Rg2 C2) as (hB & EB & PB).
  unfold compound_test_intersect in E. cbn [co_tree test_tree_intersect] in E. rewrite EA, EB in E. cbn [bind index6 csg_oper op_name] in E.
  change (if ("intersect" =? "union")%string then _ else _) with (Ok (@operCsgIntersect xr _)) in E. cbn [bind] in E.
  assert (X : exists g, operCsgIntersect hA hB r = Ok g /\ Z.even (h6_count g) = negb (orb (if member_dec s1 p then true else false) (if member_dec s2 p then true else false))).
  { assert (MA : forall s t0 t1, (forall t, member s (at_t p d t) <-> t0 < t < t1) -> (member s p <-> t0 < 0 < t1)) by (intros s t0 t1 Hm; rewrite <- (Hm 0), at_t_0; reflexivity).
    assert (MN : forall s, (forall t, 0 <= t -> ~ member s (at_t p d t)) -> ~ member s p) by (intros s Hn M; apply (Hn 0); [lra|rewrite at_t_0; exact M]).
    unfold operCsgIntersect.
    destruct PA as [a0 a1 Hpa Hsa Hma Ta|a0 a1 Hia Hsa Hma Oa|Na Za]; destruct PB as [b0 b1 Hpb Hsb Hmb Tb|b0 b1 Hib Hsb Hmb Ob|Nb Zb];
      try (specialize (MA s1 a0 a1 Hma) as M1); try (specialize (MA s2 b0 b1 Hmb) as M2); try (specialize (MN s1 Na) as M1); try (specialize (MN s2 Nb) as M2);
      destruct (member_dec s1 p) as [I1|I1]; try (exfalso; tauto); try (exfalso; apply M1 in I1; lra); try (exfalso; apply I1, M1; lra);
      destruct (member_dec s2 p) as [I2|I2]; try (exfalso; tauto); try (exfalso; apply M2 in I2; lra); try (exfalso; apply I2, M2; lra); cbn [orb negb].
    - destruct (helper_two s1 p d r a0 a1 hA Ud Hr ltac:(lra) Ta) as (A1 & A2 & A3 & A4). destruct (helper_two s2 p d r b0 b1 hB Ud Hr ltac:(lra) Tb) as (B1 & B2 & B3 & B4).
      rewrite A1, A2, A3, A4, B1, B2, B3, B4. cbn [andb bind olt need evenb Z.even]. rewrite !nlt_fin.
      destruct (Rltb a0 b0), (Rltb b0 a1), (Rltb b0 a0), (Rltb a0 b1); cbn [bind]; eexists; (split; reflexivity).
    - destruct (helper_two s1 p d r a0 a1 hA Ud Hr ltac:(lra) Ta) as (A1 & A2 & A3 & A4). destruct (helper_one s2 p d r b1 hB nearest Ud Hr ltac:(lra) Ob) as (B1 & B3 & B4).
      destruct (helper_one s2 p d r b1 hB farthest Ud Hr ltac:(lra) Ob) as (B2 & _ & _).
      rewrite A1, A2, A3, A4, B1, B2, B3, B4. cbn [andb bind olt need evenb Z.even]. rewrite !nlt_fin. destruct (Rltb b1 a0), (Rltb b1 a1); cbn [bind]; eexists; (split; reflexivity).
    - destruct (helper_two s1 p d r a0 a1 hA Ud Hr ltac:(lra) Ta) as (A1 & A2 & A3 & A4). rewrite Zb, A3, A4. cbn. eexists; (split; reflexivity).
    - destruct (helper_two s2 p d r b0 b1 hB Ud Hr ltac:(lra) Tb) as (B1 & B2 & B3 & B4). destruct (helper_one s1 p d r a1 hA nearest Ud Hr ltac:(lra) Oa) as (A1 & A3 & A4).
      destruct (helper_one s1 p d r a1 hA farthest Ud Hr ltac:(lra) Oa) as (A2 & _ & _).
      rewrite A1, A2, A3, A4, B1, B2, B3, B4. cbn [andb bind olt need evenb Z.even]. rewrite !nlt_fin. destruct (Rltb a1 b0), (Rltb a1 b1); cbn [bind]; eexists; (split; reflexivity).
    - destruct (helper_one s1 p d r a1 hA nearest Ud Hr ltac:(lra) Oa) as (A1 & A3 & A4). destruct (helper_one s1 p d r a1 hA farthest Ud Hr ltac:(lra) Oa) as (A2 & _ & _).
      destruct (helper_one s2 p d r b1 hB nearest Ud Hr ltac:(lra) Ob) as (B1 & B3 & B4). destruct (helper_one s2 p d r b1 hB farthest Ud Hr ltac:(lra) Ob) as (B2 & _ & _).
      rewrite A1, A2, A3, A4, B1, B2, B3, B4. cbn [andb bind olt need evenb Z.even]. rewrite !nlt_fin. destruct (Rltb a1 b1); cbn [bind]; eexists; (split; reflexivity).
    - rewrite Oa, Zb. cbn. eexists; (split; reflexivity).
    - destruct (helper_two s2 p d r b0 b1 hB Ud Hr ltac:(lra) Tb) as (B1 & B2 & B3 & B4). rewrite Za, B4. cbn. eexists; (split; reflexivity).
    - rewrite Za, Ob. cbn. eexists; (split; reflexivity).
    - rewrite Za, Zb. cbn. eexists; (split; reflexivity). }
  destruct X as (g & Eg & Cg). rewrite Eg in E. cbn [bind unpack6] in E. injection E as <-. cbn [h4_sfo]. unfold evenb. rewrite Cg.
  destruct (member_dec s1 p), (member_dec s2 p); cbn; split; split; intros K; try tauto; try discriminate K; try (destruct K; contradiction); reflexivity.
Qed.
Print Assumptions C72_intersect.

(** an axis ball around the origin, seen from the origin along x *)
Lemma axis_inside x rad t r : 0 < rad -> x - rad < - 1e-12 -> 1e-12 < x + rad -> tree_of (Leaf (axis_ball x rad)) t -> ray_is r org ex ->
  regular (axis_ball x rad) org ex /\ clear (axis_ball x rad) org ex /\ member (axis_ball x rad) org /\
  exists h, test_tree_intersect t r = Ok (I6 h) /\ one org ex (axis_ball x rad) (x + rad) h.
Proof.
  intros HR L0 L1 HT Hr. assert (Cl : clear (axis_ball x rad) org ex) by (apply axis_clear; auto; unfold Rabs; match goal with |- _ < (if ?c then _ else _) => destruct c; lra end).
  assert (M : member (axis_ball x rad) org) by (rewrite <- (at_t_0 org ex); apply axis_member; lra).
  split; [apply axis_regular, HR|]. split; [exact Cl|]. split; [exact M|].
  destruct (leaf_pos (axis_ball x rad) t org ex r HT ex_unit Hr (axis_regular x rad HR) Cl) as (h & E & P). exists h. split; [exact E|].
  destruct P as [t0 t1 Hp Hs Hm T|t0 t1 Hi Hs Hm O|Hn Z].
  - exfalso. rewrite <- (at_t_0 org ex) in M. apply Hm in M. lra.
  - assert (K : surface (axis_ball x rad) (at_t org ex (x + rad))) by (apply axis_surface; auto). apply Hs in K. destruct K as [K|K]; [lra|]. rewrite K. exact O.
  - exfalso. apply (Hn 0); [lra|]. rewrite at_t_0. exact M.
Qed.
(** C72 is false in the overlap of a union: a ray that starts inside is said to come from outside *)
Theorem C72_union_refuted : exists t r h, tree_of (Bin OpUnion (Leaf (axis_ball 1 2)) (Leaf (axis_ball 3 5))) t /\ ray_is r org ex /\
  compound_test_intersect (mkCompound t "refract" (Fin (3/2))) r = Ok h /\ h4_flag h = true /\ h4_sfo h = SfoBool true /\ den (Bin OpUnion (Leaf (axis_ball 1 2)) (Leaf (axis_ball 3 5))) org.
Proof.
  destruct (axis_tree 1 2) as [ta Ha]. destruct (axis_tree 3 5) as [tb Hb]. set (r := mkRay (fv org) (fv ex) (Fin 532) (Fin 0) [fv org] false "normal" : ray xr). assert (Hr : ray_is r org ex) by (split; reflexivity).
  destruct (axis_inside 1 2 ta r ltac:(lra) ltac:(lra) ltac:(lra) Ha Hr) as (_ & _ & Ma & hA & EA & OA). destruct (axis_inside 3 5 tb r ltac:(lra) ltac:(lra) ltac:(lra) Hb Hr) as (_ & _ & Mb & hB & EB & OB).
  exists (Node (KStr "union") ta tb), r. unfold compound_test_intersect. cbn [co_tree test_tree_intersect]. rewrite EA, EB. cbn [bind index6 csg_oper]. cbn [String.eqb]. cbn.
  destruct (helper_one _ org ex r (1 + 2) hA nearest ex_unit Hr ltac:(lra) OA) as (A1 & A3 & A4). destruct (helper_one _ org ex r (3 + 5) hB nearest ex_unit Hr ltac:(lra) OB) as (B1 & B3 & B4).
  unfold operCsgUnion. rewrite A1, A3, A4, B1, B3, B4. cbn [andb bind olt need]. rewrite nlt_fin. rewrite Rltb_true by lra. cbn [bind unpack6]. eexists.
  split; [apply (TO_bin OpUnion _ _ _ _ Ha Hb)|]. split; [exact Hr|]. split; [reflexivity|]. split; [reflexivity|]. split; [reflexivity|]. left. exact Ma.
Qed.
Print Assumptions C72_union_refuted.
Lemma axis_ahead x rad t r : 0 < rad -> 1e-12 < x - rad -> tree_of (Leaf (axis_ball x rad)) t -> ray_is r org ex ->
  regular (axis_ball x rad) org ex /\ clear (axis_ball x rad) org ex /\ ~ member (axis_ball x rad) org /\
  exists h, test_tree_intersect t r = Ok (I6 h) /\ two org ex (axis_ball x rad) (x - rad) (x + rad) h.
Proof.
  intros HR L0 HT Hr. assert (Cl : clear (axis_ball x rad) org ex) by (apply axis_clear; auto; unfold Rabs; match goal with |- _ < (if ?c then _ else _) => destruct c; lra end).
  assert (M : ~ member (axis_ball x rad) org) by (rewrite <- (at_t_0 org ex), axis_member; lra).
  split; [apply axis_regular, HR|]. split; [exact Cl|]. split; [exact M|].
  destruct (leaf_pos (axis_ball x rad) t org ex r HT ex_unit Hr (axis_regular x rad HR) Cl) as (h & E & P). exists h. split; [exact E|].
  assert (K0 : surface (axis_ball x rad) (at_t org ex (x - rad))) by (apply axis_surface; auto). assert (K1 : surface (axis_ball x rad) (at_t org ex (x + rad))) by (apply axis_surface; auto).
  destruct P as [t0 t1 Hp Hs Hm T|t0 t1 Hi Hs Hm O|Hn Z].
  - apply Hs in K0. apply Hs in K1. replace (x - rad) with t0 by (destruct K0, K1; lra). replace (x + rad) with t1 by (destruct K0, K1; lra). exact T.
  - exfalso. apply M. rewrite <- (at_t_0 org ex). apply Hm. lra.
  - exfalso. apply (Hn x); [lra|]. apply axis_member. lra.
Qed.
(** C72 is false for an intersection and for a difference when the start is in one solid only: a ray outside the compound that hits it is said to come from inside *)
Theorem C72_one_solid_refuted : exists ta tb r h h', tree_of (Leaf (axis_ball 10 3)) ta /\ tree_of (Leaf (axis_ball 5 7)) tb /\ ray_is r org ex /\
  ~ member (axis_ball 10 3) org /\
  compound_test_intersect (mkCompound (Node (KStr "intersect") ta tb) "refract" (Fin (3/2))) r = Ok h /\ h4_flag h = true /\ h4_sfo h = SfoBool false /\
  compound_test_intersect (mkCompound (Node (KStr "difference") ta tb) "refract" (Fin (3/2))) r = Ok h' /\ h4_flag h' = true /\ h4_sfo h' = SfoBool false.
Proof.
  destruct (axis_tree 10 3) as [ta Ha]. destruct (axis_tree 5 7) as [tb Hb]. set (r := mkRay (fv org) (fv ex) (Fin 532) (Fin 0) [fv org] false "normal" : ray xr). assert (Hr : ray_is r org ex) by (split; reflexivity).
  destruct (axis_ahead 10 3 ta r ltac:(lra) ltac:(lra) Ha Hr) as (_ & _ & Ma & hA & EA & TA). destruct (axis_inside 5 7 tb r ltac:(lra) ltac:(lra) ltac:(lra) Hb Hr) as (_ & _ & Mb & hB & EB & OB).
  destruct (helper_two _ org ex r (10 - 3) (10 + 3) hA ex_unit Hr ltac:(lra) TA) as (A1 & A2 & A3 & A4). destruct (helper_one _ org ex r (5 + 7) hB nearest ex_unit Hr ltac:(lra) OB) as (B1 & B3 & B4).
  destruct (helper_one _ org ex r (5 + 7) hB farthest ex_unit Hr ltac:(lra) OB) as (B2 & _ & _).
  exists ta, tb, r. unfold compound_test_intersect. cbn [co_tree test_tree_intersect]. rewrite EA, EB. cbn [bind index6 csg_oper String.eqb Ascii.eqb Bool.eqb]. unfold operCsgIntersect, operCsgDifference.
  rewrite A1, A2, A3, A4, B1, B2, B3, B4. cbn [andb bind olt need evenb Z.even]. rewrite !nlt_fin.
  rewrite (Rltb_false (5 + 7) (10 - 3)), (Rltb_true (10 - 3) (5 + 7)) by lra. cbn [bind unpack6].
  eexists. eexists. split; [exact Ha|]. split; [exact Hb|]. split; [exact Hr|]. split; [exact Ma|].
  split; [reflexivity|]. split; [reflexivity|]. split; [reflexivity|]. split; [reflexivity|]. split; reflexivity.
Qed.
Print Assumptions C72_one_solid_refuted.
(** two overlapping balls, the second taken from the first; the origin is in the first only: in one leaf *)
Example C72_hyp : no_meet (Bin OpDifference (Leaf (axis_ball 1 2)) (Leaf (axis_ball 3 1))) /\
  (forall s, In s (solids (Bin OpDifference (Leaf (axis_ball 1 2)) (Leaf (axis_ball 3 1)))) -> regular s org ex /\ clear s org ex) /\
  containing (Bin OpDifference (Leaf (axis_ball 1 2)) (Leaf (axis_ball 3 1))) org = 1%nat /\
  exists t r h, tree_of (Bin OpDifference (Leaf (axis_ball 1 2)) (Leaf (axis_ball 3 1))) t /\ ray_is r org ex /\ compound_test_intersect (mkCompound t "refract" (Fin (3/2))) r = Ok h.
Proof.
  destruct (axis_tree 1 2) as [ta Ha]. destruct (axis_tree 3 1) as [tb Hb]. set (r := mkRay (fv org) (fv ex) (Fin 532) (Fin 0) [fv org] false "normal" : ray xr). assert (Hr : ray_is r org ex) by (split; reflexivity).
  destruct (axis_inside 1 2 ta r ltac:(lra) ltac:(lra) ltac:(lra) Ha Hr) as (Ra & Ca & Ma & hA & EA & OA). destruct (axis_ahead 3 1 tb r ltac:(lra) ltac:(lra) Hb Hr) as (Rb & Cb & Mb & hB & EB & TB).
  split; [cbn; repeat split; discriminate|]. split; [intros s [<-|[<-|[]]]; auto|]. split.
  - cbn [containing]. destruct (member_dec (axis_ball 1 2) org); [|contradiction]. destruct (member_dec (axis_ball 3 1) org); [contradiction|reflexivity].
  - exists (Node (KStr "difference") ta tb), r. unfold compound_test_intersect. cbn [co_tree test_tree_intersect]. rewrite EA, EB. cbn [bind index6 csg_oper String.eqb Ascii.eqb Bool.eqb]. unfold operCsgDifference.
    destruct (helper_one _ org ex r (1 + 2) hA nearest ex_unit Hr ltac:(lra) OA) as (A1 & A3 & A4). destruct (helper_one _ org ex r (1 + 2) hA farthest ex_unit Hr ltac:(lra) OA) as (A2 & _ & _).
    destruct (helper_two _ org ex r (3 - 1) (3 + 1) hB ex_unit Hr ltac:(lra) TB) as (B1 & B2 & B3 & B4). rewrite A1, A2, A3, A4, B1, B2, B3, B4. cbn [andb bind olt need]. rewrite !nlt_fin.
    rewrite (Rltb_false (1 + 2) (3 - 1)), (Rltb_false (3 + 1) (1 + 2)) by lra. cbn [bind unpack6]. eexists. split; [apply (TO_bin OpDifference _ _ _ _ Ha Hb)|]. split; [exact Hr|reflexivity].
Qed.
