(** Light in a plane of symmetry of the scene. *)
From Coq Require Import Reals ZArith Lra Lia String List Bool.
From Verif Require Import PyErr Num Vec Shapes Csg Optics Spec XReal RVec VecProofs CylProofs GratingProofs RayProofs RunGen RunXr Props_Ray Props_Loop Rotate Props_Rotate MirrorImage Props_Mirror.
Import ListNotations.
Local Open Scope R_scope.

(* C113.  Light that starts in a plane of symmetry of the scene stays in it.  k is the unit normal of a plane through the origin.  An optic is symmetric
   when it is its own image in the plane ([im_optic], MirrorImage.v); C113_optics says which arguments give such optics. *)
Definition in_plane_ray (k : R3) (r : ray xr) : Prop :=
  exists p d h, position r = fv p /\ direction r = fv d /\ point_history r = map fv h /\ p ∙ k = 0 /\ d ∙ k = 0 /\ Forall (fun x => x ∙ k = 0) h.
Definition symmetric (k : R3) (o : optic xr) : Prop := im_optic (reflection k) o o.

Lemma fixed_in_plane k x : is_unit k -> reflection k x = x <-> x ∙ k = 0.
Proof.
  intros U. split; [|apply (C112_reflections k U)]. unfold reflection. intros E. pose proof (f_equal (fun v => v ∙ k) E) as F. cbv beta in F. autorewrite with dotr in F. unfold is_unit in U. rewrite U in F. lra.
Qed.
Lemma im_own k x : is_unit k -> im (reflection k) (fv x) (fv x) -> x ∙ k = 0.
Proof.
  intros U [(y & E & F)|[[N|[N|N]] _]]; try discriminate N. apply fv_inj in E, F. subst y. apply (fixed_in_plane k x U). now symmetry.
Qed.
Lemma own_im k x : is_unit k -> x ∙ k = 0 -> im (reflection k) (fv x) (fv x).
Proof. intros U H. left. exists x. split; [reflexivity|]. f_equal. symmetry. now apply fixed_in_plane. Qed.
Lemma own_ray k r : is_unit k -> in_plane_ray k r -> im_ray (reflection k) r r.
Proof.
  intros U (p & d & h & Ep & Ed & Eh & Hp & Hd & Hh). unfold im_ray. rewrite Ep, Ed, Eh. repeat split; try (now apply own_im).
  clear - U Hh. induction Hh as [|x h Hx Hh IH]; cbn; constructor; auto. now apply own_im.
Qed.
Lemma Forall2_diag {A} (P : A -> A -> Prop) l : Forall2 P l l <-> Forall (fun x => P x x) l.
Proof.
  split.
  - induction l as [|x l IH]; intros H; [constructor|]. inversion H; subst. constructor; auto.
  - induction 1; constructor; auto.
Qed.

(* The points and directions that contain no NaN lie in the plane; the records of every detector too; the scene stays symmetric, so this goes on with the next ray. *)
Theorem C113_plane (k : R3) fuel (r s : ray xr) (max_distance : xr) (world w : list (optic xr)) (max_interactions : option Z) :
  is_unit k -> tame max_distance -> in_plane_ray k r -> Forall (symmetric k) world -> run fuel r max_distance world max_interactions = Ok (s, w) ->
  (forall p, In (fv p) (point_history s) -> p ∙ k = 0) /\ (forall p, position s = fv p -> p ∙ k = 0) /\ (forall d, direction s = fv d -> d ∙ k = 0) /\
  (forall e p lam, In (ODetector e) w -> In (fv p, lam) (de_hit_data e) -> p ∙ k = 0) /\ Forall (symmetric k) w.
Proof.
  intros U Tm Hr Hw E. pose proof (proj1 (C112_reflections k U)) as HQ.
  pose proof (C112_mirror (reflection k) fuel r r max_distance world world max_interactions HQ Tm (own_ray k r U Hr) (proj2 (Forall2_diag _ _) Hw)) as H.
  rewrite E in H. destruct H as [(Hp & Hd & _ & _ & Hh & _) Ho]. apply Forall2_diag in Ho, Hh. rewrite Forall_forall in Hh, Ho.
  split; [intros p I; now apply (im_own k p U), Hh|]. split; [intros p Ep; rewrite Ep in Hp; now apply (im_own k)|]. split; [intros d Ed; rewrite Ed in Hd; now apply (im_own k)|].
  split; [|apply Forall_forall; exact Ho].
  intros e p lam Ie Ip. specialize (Ho _ Ie). destruct Ho as (_ & _ & _ & _ & _ & Hd'). apply Forall2_diag in Hd'. rewrite Forall_forall in Hd'. destruct (Hd' _ Ip) as [Q _]. now apply (im_own k).
Qed.
Print Assumptions C113_plane.
Theorem C113_plane_all (k : R3) fuel (rays ss : list (ray xr)) (max_distance : xr) (world w : list (optic xr)) (max_interactions : option Z) :
  is_unit k -> tame max_distance -> Forall (in_plane_ray k) rays -> Forall (symmetric k) world -> run_all fuel rays max_distance world max_interactions = Ok (ss, w) ->
  (forall s p, In s ss -> In (fv p) (point_history s) -> p ∙ k = 0) /\ (forall s d, In s ss -> direction s = fv d -> d ∙ k = 0) /\
  (forall e p lam, In (ODetector e) w -> In (fv p, lam) (de_hit_data e) -> p ∙ k = 0).
Proof.
  intros U Tm Hr Hw E. pose proof (proj1 (C112_reflections k U)) as HQ.
  assert (Hr' : Forall2 (im_ray (reflection k)) rays rays) by (apply Forall2_diag; eapply Forall_impl; [|exact Hr]; intros; now apply own_ray).
  pose proof (C112_mirror_all (reflection k) fuel rays rays max_distance world world max_interactions HQ Tm Hr' (proj2 (Forall2_diag _ _) Hw)) as H.
  rewrite E in H. destruct H as [Hs Ho]. apply Forall2_diag in Ho, Hs. rewrite Forall_forall in Hs, Ho.
  split; [|split].
  - intros s p Is Ip. destruct (Hs _ Is) as (_ & _ & _ & _ & Hh & _). apply Forall2_diag in Hh. rewrite Forall_forall in Hh. now apply (im_own k), Hh.
  - intros s d Is Ed. destruct (Hs _ Is) as (_ & Hd & _). rewrite Ed in Hd. now apply (im_own k).
  - intros e p lam Ie Ip. specialize (Ho _ Ie). destruct Ho as (_ & _ & _ & _ & _ & Hd'). apply Forall2_diag in Hd'. rewrite Forall_forall in Hd'. destruct (Hd' _ Ip) as [Q _]. now apply (im_own k).
Qed.
Print Assumptions C113_plane_all.

(* Light that starts along the axis in which two planes of symmetry meet stays on that axis: it is never deviated, only stopped, absorbed or sent back. *)
Lemma orth_both k1 k2 x : (k1 × k2)%r3 <> r3zero -> x ∙ k1 = 0 -> x ∙ k2 = 0 -> exists t, x = (t * (k1 × k2))%r3.
Proof.
  intros N H1 H2. set (c := (k1 × k2)%r3) in *.
  assert (Cc : 0 < c ∙ c) by (apply dot_self_pos, N).
  exists ((x ∙ c) / (c ∙ c)).
  assert (X : ((c ∙ c) * x)%r3 = ((x ∙ c) * c)%r3).
  { assert (Z : (c × (x × c))%r3 = r3zero).
    { unfold c. replace (x × (k1 × k2))%r3 with ((x ∙ k2) * k1 - (x ∙ k1) * k2)%r3 by (clear; r3_ring). rewrite H1, H2. clear. r3_ring. }
    replace ((c ∙ c) * x)%r3 with ((c × (x × c)) + (x ∙ c) * c)%r3 by (clear; r3_ring). rewrite Z. clear. r3_ring. }
  replace x with ((/ (c ∙ c)) * ((c ∙ c) * x))%r3 at 1.
  - rewrite X. unfold Rdiv. clear. r3_ring.
  - replace ((/ (c ∙ c)) * ((c ∙ c) * x))%r3 with ((/ (c ∙ c) * (c ∙ c)) * x)%r3 by (clear; generalize (/ (c ∙ c)) (c ∙ c); intros; r3_ring). rewrite Rinv_l by lra. clear. r3_ring.
Qed.
Theorem C113_axis (k1 k2 : R3) fuel (r s : ray xr) (max_distance : xr) (world w : list (optic xr)) (max_interactions : option Z) :
  is_unit k1 -> is_unit k2 -> (k1 × k2)%r3 <> r3zero -> tame max_distance -> in_plane_ray k1 r -> in_plane_ray k2 r -> Forall (symmetric k1) world -> Forall (symmetric k2) world ->
  run fuel r max_distance world max_interactions = Ok (s, w) ->
  (forall p, In (fv p) (point_history s) -> exists t, p = (t * (k1 × k2))%r3) /\ (forall d, direction s = fv d -> exists t, d = (t * (k1 × k2))%r3) /\
  (forall e p lam, In (ODetector e) w -> In (fv p, lam) (de_hit_data e) -> exists t, p = (t * (k1 × k2))%r3).
Proof.
  intros U1 U2 N Tm R1 R2 W1 W2 E.
  destruct (C113_plane k1 _ _ _ _ _ _ _ U1 Tm R1 W1 E) as (A1 & _ & B1 & D1 & _). destruct (C113_plane k2 _ _ _ _ _ _ _ U2 Tm R2 W2 E) as (A2 & _ & B2 & D2 & _).
  split; [|split]; intros; apply orth_both; eauto.
Qed.
Print Assumptions C113_axis.

(* Which optics are symmetric: everything that turns or mirrors has its centre and normal in the plane; a rectangle has a side in the plane; the tangent of
   a grating (its grooves) is orthogonal to the plane; balls have their centre in the plane and cylinders their axis; compounds consist of such solids. *)
Definition along_or_across (k t : R3) : Prop := t ∙ k = 0 \/ (t × k)%r3 = r3zero.
Lemma across k t : is_unit k -> (t × k)%r3 = r3zero -> reflection k t = (- t)%r3.
Proof.
  intros U H. unfold reflection. assert (E : t = ((t ∙ k) * k)%r3).
  { replace t with ((k ∙ k) * t)%r3 at 1 by (unfold is_unit in U; rewrite U; clear; r3_ring). replace ((k ∙ k) * t)%r3 with ((k × (t × k)) + (t ∙ k) * k)%r3 by (clear; r3_ring). rewrite H. clear. r3_ring. }
  set (s := t ∙ k) in *. clearbody s. rewrite E. clear. r3_ring.
Qed.
Theorem C113_optics (k : R3) : is_unit k ->
  (forall p d wl o ty, p ∙ k = 0 -> d ∙ k = 0 -> d <> r3zero -> in_plane_ray k (mk_ray (fv p) (fv d) wl o ty)) /\
  (forall p shp n D w h f t ty dmd m, p ∙ k = 0 -> n ∙ k = 0 -> along_or_across k t -> dmd ∙ k = 0 ->
     mk_mirror (fv p) shp (Some (fv n)) (Some (Fin D)) (Some (Fin w)) (Some (Fin h)) (Some (Fin f)) (Some (fv t)) ty (Some (fv dmd)) = Ok m -> symmetric k (OMirror m)) /\
  (forall p n shp D f ty ix l, p ∙ k = 0 -> n ∙ k = 0 -> ty <> "ideal"%string ->
     mk_lens (fv p) (Some (fv n)) shp (Some (Fin D)) (Some (Fin f)) ty (Fin ix) = Ok l -> symmetric k (OLens l)) /\
  (forall p n t shp w h G g, p ∙ k = 0 -> n ∙ k = 0 -> (t × k)%r3 = r3zero ->
     mk_grating (fv p) (Some (fv n)) (Some (fv t)) shp (Some (Fin w)) (Some (Fin h)) G = Ok g -> symmetric k (OGrating g)) /\
  (forall p n t shp w h e, p ∙ k = 0 -> n ∙ k = 0 -> along_or_across k t ->
     mk_detector (fv p) (Some (fv n)) (Some (fv t)) shp (Some (Fin w)) (Some (Fin h)) = Ok e -> symmetric k (ODetector e)) /\
  (forall t behavior ix, im_tree (reflection k) t t -> symmetric k (OCompound (mkCompound t behavior (Fin ix)))) /\
  (forall p R D s, p ∙ k = 0 -> otame R -> otame D -> mk_sphere (fv p) R D = Ok s -> im_tree (reflection k) (Node (KShape (SSphere s)) Nil Nil) (Node (KShape (SSphere s)) Nil Nil)) /\
  (forall p u R c, p ∙ k = 0 -> u ∙ k = 0 -> u <> r3zero -> mk_infcyl (fv p) (fv u) (Some (Fin R)) None = Ok c ->
     im_tree (reflection k) (Node (KShape (SInfCyl c)) Nil Nil) (Node (KShape (SInfCyl c)) Nil Nil)) /\
  (forall s a b, im_tree (reflection k) a a -> im_tree (reflection k) b b -> im_tree (reflection k) (Node (KStr s) a b) (Node (KStr s) a b)).
Proof.
  intros U. pose proof (proj1 (C112_reflections k U)) as HQ. assert (Fx : forall x, x ∙ k = 0 -> reflection k x = x) by (intros x; apply (fixed_in_plane k x U)).
  destruct (C112_constructors (reflection k) HQ) as (_ & Cm & Cl & Cg & Cd & Cs & Cc).
  assert (Tg : forall t, along_or_across k t -> t = reflection k t \/ t = (- reflection k t)%r3).
  { intros t [H|H]; [left; symmetry; now apply Fx|right]. rewrite (across k t U H). clear. r3_ring. }
  split. { intros p d wl o ty Hp Hd Hz. exists p, (dirn d), [p]. split; [reflexivity|]. split; [apply unit_vector_fv, Hz|]. split; [reflexivity|]. split; [exact Hp|]. split; [|auto]. unfold dirn. rewrite dot_scale_l, Hd. ring. }
  split. { intros p shp n D w h f t ty dmd m Hp Hn Ht Hdm E. pose proof (Cm p shp n D w h f t t ty dmd (Tg t Ht)) as H. rewrite !Fx in H by assumption. rewrite E in H. exact H. }
  split. { intros p n shp D f ty ix l Hp Hn Hty E. pose proof (Cl p n shp D f ty ix Hty) as H. rewrite !Fx in H by assumption. rewrite E in H. exact H. }
  split. { intros p n t shp w h G g Hp Hn Ht E. pose proof (Cg p n t shp w h G) as H. rewrite !Fx in H by assumption. rewrite (across k t U Ht), r3_opp_opp, E in H. exact H. }
  split. { intros p n t shp w h e Hp Hn Ht E. pose proof (Cd p n t t shp w h (Tg t Ht)) as H. rewrite !Fx in H by assumption. rewrite E in H. exact H. }
  split. { intros t bh ix Ht. split; [exact Ht|]. repeat split. }
  split. { intros p R D s Hp HR HD E. pose proof (Cs p R D HR HD) as H. rewrite !Fx in H by assumption. rewrite E in H. split; [exact H|split; exact I]. }
  split. { intros p u R c Hp Hu Hz E. pose proof (Cc p u R Hz) as H. rewrite !Fx in H by assumption. rewrite E in H. split; [exact H|split; exact I]. }
  intros s a b Ha Hb. split; [reflexivity|split; assumption].
Qed.
Print Assumptions C113_optics.

Example C113_hyp : let k1 := mk3 1 0 0 in let k2 := mk3 0 1 0 in
  is_unit k1 /\ is_unit k2 /\ (k1 × k2)%r3 <> r3zero /\ in_plane_ray k1 z_ray /\ in_plane_ray k2 z_ray /\
  symmetric k1 (OMirror (mirror_at 5)) /\ symmetric k2 (OMirror (mirror_at 5)) /\
  steps (Fin 100) None 1 (run_init z_ray (Fin 100) [OMirror (mirror_at 5)])
      (mkRun bounced [OMirror (mirror_at 5)] 1 (Fin (100 - 5)) (Some (mkSel 0 (fv (at_z 5)) (Some (fv e_z)))) (Some SfoNone)).
Proof.
  assert (S : forall k, is_unit k -> cz k = 0 -> symmetric k (OMirror (mirror_at 5))).
  { intros k U Z. pose proof (proj1 (C112_reflections k U)) as HQ.
    assert (A : at_z 5 ∙ k = 0) by (unfold r3dot, at_z; cbn; rewrite Z; ring). assert (B : e_z ∙ k = 0) by (unfold r3dot, e_z; cbn; rewrite Z; ring).
    pose proof (im_mk_mirror (reflection k) HQ (fv (at_z 5)) (fv (at_z 5)) "circular_flat" (Some (fv e_z)) (Some (fv e_z)) (Some (Fin 2)) None None None None None "normal" (Some (fv e_z)) (Some (fv e_z))) as H.
    rewrite mirror_at_built in H.
    assert (T : otame (Some (Fin 2))) by (intros y E; injection E as <-; exact I). assert (Tn : otame None) by (intros y E; discriminate).
    assert (Rz : imo (reflection k) (Some (fv e_z)) (Some (fv e_z))) by (apply own_im; assumption).
    exact (H ltac:(apply own_im; assumption) Rz I Rz T Tn Tn Tn). }
  assert (P : forall k, cz k = 0 -> in_plane_ray k z_ray).
  { intros k Z. exists (at_z 0), e_z, [at_z 0]. assert (A : at_z 0 ∙ k = 0) by (unfold r3dot, at_z; cbn; ring). assert (B : e_z ∙ k = 0) by (unfold r3dot, e_z; cbn; rewrite Z; ring). repeat split; auto. }
  assert (U1 : is_unit (mk3 1 0 0)) by (unfold is_unit, r3dot; cbn; ring). assert (U2 : is_unit (mk3 0 1 0)) by (unfold is_unit, r3dot; cbn; ring).
  cbv zeta. split; [exact U1|]. split; [exact U2|]. split; [intros E; apply (f_equal cz) in E; cbn in E; lra|].
  split; [now apply P|]. split; [now apply P|]. split; [now apply S|]. split; [now apply S|]. apply C33_hyp.
Qed.
