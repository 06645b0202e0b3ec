(** Translation of rays and scenes by a finite vector, and its effect on every modelled function (for all values, NaN and infinities included). *)
From Coq Require Import Reals ZArith Lra String List Bool.
From Verif Require Import PyErr Num Vec Shapes Csg Optics Spec XReal RVec.
Import ListNotations.
Local Open Scope R_scope.

(* ---- what translating a scene means: positions move, directions, sizes and strings do not ---- *)
Section Tr.
Variable v : R3.
Definition tv (a : vec xr) : vec xr := V (xadd (vx a) (Fin (cx v))) (xadd (vy a) (Fin (cy v))) (xadd (vz a) (Fin (cz v))).
Definition tr_ray (r : ray xr) : ray xr :=
  mkRay (tv (position r)) (direction r) (wavelength r) (order r) (map tv (point_history r)) (blocked r) (ray_type r).
Definition tr_plane (p : plane xr) : plane xr := mkPlane (tv (pl_center p)) (pl_normal p).
Definition tr_circle (c : circle xr) : circle xr := mkCircle (tv (ci_center c)) (ci_R c) (ci_D c) (ci_normal c) (option_map tr_plane (ci_plane c)).
Definition tr_infcyl (c : infcyl xr) : infcyl xr := mkInfCyl (tv (ic_center c)) (ic_R c) (ic_D c) (ic_direction c) (tr_plane (ic_plane c)).
Definition tr_sphere (s : sphere xr) : sphere xr := mkSphere (tv (sp_center s)) (sp_R s) (sp_D s).
Definition tr_cylinder (c : cylinder xr) : cylinder xr := mkCylinder (tv (cy_center c)) (cy_R c) (cy_D c) (cy_h c).
Definition tr_rectangle (q : rectangle xr) : rectangle xr :=
  mkRectangle (tv (re_center q)) (re_normal q) (re_tangent q) (re_tangent2 q) (re_h q) (re_w q)
    (tv (re_b0 q)) (tv (re_b1 q)) (tv (re_b2 q)) (tv (re_b3 q)) (tr_plane (re_plane q)).
Definition tr_shape (s : shape xr) : shape xr :=
  match s with
  | SPlane p => SPlane (tr_plane p) | SCircle c => SCircle (tr_circle c) | SInfCyl c => SInfCyl (tr_infcyl c)
  | SSphere s => SSphere (tr_sphere s) | SCylinder c => SCylinder (tr_cylinder c) | SRectangle q => SRectangle (tr_rectangle q)
  end.
Definition tr_key (k : key xr) : key xr := match k with KStr s => KStr s | KShape s => KShape (tr_shape s) end.
Fixpoint tr_tree (t : tree (key xr)) : tree (key xr) :=
  match t with Nil => Nil | Node k l r => Node (tr_key k) (tr_tree l) (tr_tree r) end.
Definition tr_base (b : base xr) : base xr := mkBase (tv (ba_position b)) (ba_normal b).
Definition tr_lens (l : lens xr) : lens xr :=
  mkLens (tv (le_position l)) (le_normal l) (le_shape l) (le_f l) (le_type l) (le_index l) (map tr_shape (le_surfaces l)).
Definition tr_compound (c : compound xr) : compound xr := mkCompound (tr_tree (co_tree c)) (co_surface_behavior c) (co_index c).
Definition tr_mirror (m : mirror xr) : mirror xr :=
  mkMirror (tv (mi_position m)) (mi_shape m) (mi_normal m) (mi_type m) (mi_dmd_normal m) (map tr_shape (mi_surfaces m)).
Definition tr_grating (g : grating xr) : grating xr :=
  mkGrating (tv (gr_position g)) (gr_normal g) (gr_tangent g) (gr_shape g) (gr_G g) (map tr_shape (gr_surfaces g)).
Definition tr_record (h : vec xr * xr) : vec xr * xr := (tv (fst h), snd h).
Definition tr_detector (d : detector xr) : detector xr :=
  mkDetector (tv (de_position d)) (de_normal d) (de_tangent d) (de_shape d) (map tr_shape (de_surfaces d)) (map tr_record (de_hit_data d)).
Definition tr_optic (o : optic xr) : optic xr :=
  match o with
  | OOptic b => OOptic (tr_base b) | OCompound c => OCompound (tr_compound c) | OMirror m => OMirror (tr_mirror m) | OLens l => OLens (tr_lens l)
  | OGrating g => OGrating (tr_grating g) | ODetector d => ODetector (tr_detector d) | OAnnotation b => OAnnotation (tr_base b)
  | OFilter b => OFilter (tr_base b) | OWindow b => OWindow (tr_base b) | OBlock b => OBlock (tr_base b)
  end.
(** apply a function to the value of a result; exceptions pass through *)
Definition rmap {A B} (f : A -> B) (r : Res A) : Res B := match r with Ok a => Ok (f a) | Err e => Err e end.

(* ---- results of the internal functions ---- *)
Definition tr_hit3 (h : hit3 xr) : hit3 xr := H3 (h3_flag h) (option_map tv (h3_pt h)) (h3_normal h).
Definition tr_hit6 (h : hit6 xr) : hit6 xr := H6 (h6_flag h) (option_map tv (h6_p1 h)) (option_map tv (h6_p2 h)) (h6_n1 h) (h6_n2 h) (h6_count h).
Definition tr_ires (i : ires xr) : ires xr := match i with INone => INone | I3 h => I3 (tr_hit3 h) | I6 h => I6 (tr_hit6 h) end.
Definition tr_hit4 (h : hit4 xr) : hit4 xr := H4 (h4_flag h) (option_map tv (h4_pt h)) (h4_normal h) (h4_sfo h).
Definition tr_flat (s : flat_st) : flat_st := mkFlat (fs_hit s) (fs_min s) (option_map tv (fs_pt s)) (fs_normal s).
Definition tr_ball (s : ball_st) : ball_st := mkBall (bs_hit s) (bs_min s) (option_map tv (bs_pt s)) (bs_normal s) (bs_sfo s).
Definition tr_sel (s : sel) : sel := mkSel (se_idx s) (tv (se_pt s)) (se_normal s).
Definition tr_scan (s : scan_st) : scan_st := mkScan (sc_hit s) (sc_min s) (option_map tr_sel (sc_sel s)) (sc_sfo s).
Definition tr_run (s : run_st) : run_st :=
  mkRun (tr_ray (rs_ray s)) (map tr_optic (rs_world s)) (rs_count s) (rs_remaining s) (option_map tr_sel (rs_sel s)) (rs_sfo s).

(* ---- arithmetic ---- *)
Lemma sub_tr a b x : xsub (xadd a (Fin x)) (xadd b (Fin x)) = xsub a b.
Proof. destruct a, b; cbn; try reflexivity. f_equal. ring. Qed.
Lemma add_tr a b x : xadd (xadd a (Fin x)) b = xadd (xadd a b) (Fin x).
Proof. destruct a, b; cbn; try reflexivity. f_equal. ring. Qed.
Lemma sub_tr_l a b x : xsub (xadd a (Fin x)) b = xadd (xsub a b) (Fin x).
Proof. unfold xsub. apply add_tr. Qed.
Lemma vsub_tv a b : vsub (tv a) (tv b) = vsub a b.
Proof. unfold vsub, tv; cbn [vx vy vz]. change (@nsub xr _) with xsub. now rewrite !sub_tr. Qed.
Lemma vadd_tv a b : vadd (tv a) b = tv (vadd a b).
Proof. unfold vadd, tv; cbn [vx vy vz]. change (@nadd xr _) with xadd. now rewrite !add_tr. Qed.
Lemma vsub_tv_l a b : vsub (tv a) b = tv (vsub a b).
Proof. unfold vsub, tv; cbn [vx vy vz]. change (@nsub xr _) with xsub. now rewrite !sub_tr_l. Qed.
Lemma dist_tv a b : distance_between (tv a) (tv b) = distance_between a b.
Proof. unfold distance_between. now rewrite vsub_tv. Qed.

(* ---- shapes ---- *)
Lemma plane_tr p r : plane_test_intersect (tr_plane p) (tr_ray r) = tr_hit3 (plane_test_intersect p r).
Proof.
  unfold plane_test_intersect. cbn [tr_plane pl_normal pl_center tr_ray direction position]. rewrite vsub_tv.
  destruct (ngt _ _); [|reflexivity]. cbv zeta. destruct (ngt _ _); [|reflexivity]. rewrite vadd_tv. reflexivity.
Qed.
Lemma circle_tr c r : circle_test_intersect (tr_circle c) (tr_ray r) = rmap tr_hit3 (circle_test_intersect c r).
Proof.
  unfold circle_test_intersect. cbn [tr_circle ci_plane ci_center ci_R]. destruct (ci_plane c) as [p|]; [|reflexivity]. cbn [option_map]. rewrite plane_tr. cbv zeta.
  set (h := plane_test_intersect p r). cbn [tr_hit3 h3_flag h3_pt h3_normal]. destruct (h3_flag h); [|reflexivity]. destruct (h3_pt h) as [x|]; [|reflexivity]. cbn [option_map need bind].
  rewrite dist_tv. destruct (nlt _ _); reflexivity.
Qed.
Lemma rectangle_tr q r : rectangle_test_intersect (tr_rectangle q) (tr_ray r) = rmap tr_hit3 (rectangle_test_intersect q r).
Proof.
  unfold rectangle_test_intersect. cbn [tr_rectangle re_plane re_b0 re_b1 re_b2]. rewrite plane_tr. cbv zeta.
  set (h := plane_test_intersect _ r). cbn [tr_hit3 h3_flag h3_pt h3_normal]. destruct (h3_flag h); [|reflexivity]. destruct (h3_pt h) as [x|]; [|reflexivity]. cbn [option_map need bind].
  rewrite !vsub_tv. destruct (andb _ _); [|reflexivity]. destruct (andb _ _); reflexivity.
Qed.
Lemma sphere_normal_tr s p : sphere_normal (tr_sphere s) (tv p) = sphere_normal s p.
Proof. unfold sphere_normal. cbn [tr_sphere sp_center]. now rewrite vsub_tv. Qed.
Lemma sphere_point_tr s p : sphere_test_point (tr_sphere s) (tv p) = sphere_test_point s p.
Proof. unfold sphere_test_point. cbn [tr_sphere sp_center sp_R]. now rewrite dist_tv. Qed.
Lemma sphere_tr s r : sphere_test_intersect (tr_sphere s) (tr_ray r) = tr_hit6 (sphere_test_intersect s r).
Proof.
  unfold sphere_test_intersect. cbv zeta. cbn [tr_ray position direction]. replace (sp_center (tr_sphere s)) with (tv (sp_center s)) by reflexivity. replace (sp_R (tr_sphere s)) with (sp_R s) by reflexivity.
  rewrite !vsub_tv, !vadd_tv, !sphere_normal_tr. repeat match goal with |- context [if ?b then _ else _] => destruct b end; reflexivity.
Qed.
(** row of the translation matrix: 1*x + 0*y + 0*z + (-c)*1 in some order *)
Lemma obj_tr c k p : infcyl_point_objectSpace (tr_infcyl c) k (tv p) = infcyl_point_objectSpace c k p.
Proof.
  unfold infcyl_point_objectSpace. cbv zeta. replace (infcyl_rotation (tr_infcyl c)) with (infcyl_rotation c) by reflexivity.
  replace (mv4 (translation_matrix4 (vopp (ic_center (tr_infcyl c)))) (V4 (vx (tv p)) (vy (tv p)) (vz (tv p)) (nofZ 1)))
    with (mv4 (translation_matrix4 (vopp (ic_center c))) (V4 (vx p) (vy p) (vz p) (nofZ 1))); [reflexivity|].
  unfold mv4, dot4, translation_matrix4, tr_infcyl, vopp. cbn [ic_center r4_0 r4_1 r4_2 r4_3 v4x v4y v4z v4w vx vy vz]. unfold tv. cbn [vx vy vz].
  change (@nadd xr _) with xadd. change (@nmul xr _) with xmul. change (@nopp xr _) with xopp. change (@nofZ xr _ 1) with (Fin 1). change (@nofZ xr _ 0) with (Fin 0).
  assert (H1 : forall a x, xmul (Fin 1) (xadd a (Fin x)) = xadd (xmul (Fin 1) a) (Fin x)).
  { intros [y| | |] x; cbn; try reflexivity; [f_equal; ring|unfold inf_times; destruct (Rlt_dec 0 1); [reflexivity|lra]|unfold inf_times; destruct (Rlt_dec 0 1); [reflexivity|lra]]. }
  assert (H0 : forall a x, xmul (Fin 0) (xadd a (Fin x)) = xmul (Fin 0) a).
  { intros [y| | |] x; cbn; try reflexivity. f_equal; ring. }
  assert (Hn : forall a x, xmul (xopp (xadd a (Fin x))) (Fin 1) = xadd (xmul (xopp a) (Fin 1)) (Fin (- x))).
  { intros [y| | |] x; cbn; try reflexivity; [f_equal; ring|unfold inf_times; destruct (Rlt_dec 0 1); [reflexivity|lra]|unfold inf_times; destruct (Rlt_dec 0 1); [reflexivity|lra]]. }
  assert (A : forall a b c x, xadd (xadd a (xadd b (Fin x))) (xadd c (Fin (- x))) = xadd (xadd a b) c).
  { intros [?| | |] [?| | |] [?| | |] x; cbn; try reflexivity; f_equal; ring. }
  assert (B : forall a b c x, xadd (xadd (xadd a (Fin x)) b) (xadd c (Fin (- x))) = xadd (xadd a b) c).
  { intros [?| | |] [?| | |] [?| | |] x; cbn; try reflexivity; f_equal; ring. }
  rewrite !H1, !H0, !Hn. f_equal; symmetry.
  - rewrite (add_tr (xmul (Fin 1) (vx p))). apply B.
  - replace (xadd (xmul (Fin 0) (vx p)) (xadd (xmul (Fin 1) (vy p)) (Fin (cy v)))) with (xadd (xadd (xmul (Fin 0) (vx p)) (xmul (Fin 1) (vy p))) (Fin (cy v))); [apply B|].
    destruct (xmul (Fin 0) (vx p)), (xmul (Fin 1) (vy p)); cbn; try reflexivity; f_equal; ring.
  - apply A.
Qed.
Lemma infcyl_normal_tr c p : infcyl_normal (tr_infcyl c) (tv p) = infcyl_normal c p.
Proof. unfold infcyl_normal. cbn [tr_infcyl ic_center ic_direction]. now rewrite vsub_tv. Qed.
Lemma infcyl_point_tr c p : infcyl_test_point (tr_infcyl c) (tv p) = infcyl_test_point c p.
Proof. unfold infcyl_test_point. replace (ic_R (tr_infcyl c)) with (ic_R c) by reflexivity. cbv zeta. now rewrite !obj_tr. Qed.
Lemma infcyl_tr c r : infcyl_test_intersect (tr_infcyl c) (tr_ray r) = rmap tr_hit6 (infcyl_test_intersect c r).
Proof.
  unfold infcyl_test_intersect. replace (ic_R (tr_infcyl c)) with (ic_R c) by reflexivity. destruct (neqb (ic_R c) _); [reflexivity|]. cbv zeta.
  replace (infcyl_dir_objectSpace (tr_infcyl c) (direction (tr_ray r))) with (infcyl_dir_objectSpace c (direction r)) by reflexivity.
  cbn [tr_ray position direction]. rewrite !obj_tr, !vadd_tv, !infcyl_normal_tr.
  destruct (ngt _ _).
  - cbn [rmap]. f_equal. repeat match goal with |- context [if ?b then H6 _ _ _ _ _ _ else _] => destruct b | |- context [if ?b then (if _ then _ else _) else _] => destruct b end; reflexivity.
  - destruct (neqb _ _); reflexivity.
Qed.
Lemma shape_tr s r : shape_test_intersect (tr_shape s) (tr_ray r) = rmap tr_ires (shape_test_intersect s r).
Proof.
  destruct s; cbn [tr_shape shape_test_intersect].
  - rewrite plane_tr. reflexivity.
  - rewrite circle_tr. destruct (circle_test_intersect c r); reflexivity.
  - rewrite infcyl_tr. destruct (infcyl_test_intersect c r); reflexivity.
  - rewrite sphere_tr. reflexivity.
  - reflexivity.
  - rewrite rectangle_tr. destruct (rectangle_test_intersect r0 r); reflexivity.
Qed.
Lemma shape_point_tr s p : shape_test_point (tr_shape s) (tv p) = shape_test_point s p.
Proof. destruct s; cbn [tr_shape shape_test_point]; try reflexivity; [now rewrite infcyl_point_tr|now rewrite sphere_point_tr]. Qed.

(* ---- trees ---- *)
Lemma tree_point_tr t p : test_tree_point (tr_tree t) (tv p) = test_tree_point t p.
Proof.
  induction t as [|k l IHl r IHr]; [reflexivity|]. cbn [tr_tree test_tree_point]. rewrite IHl, IHr. destruct (test_tree_point l p) as [a|]; [|reflexivity]. cbn [bind].
  destruct (test_tree_point r p) as [b|]; [|reflexivity]. cbn [bind]. assert (K : key_test_point (tr_key k) (tv p) = key_test_point k p) by (destruct k; [reflexivity|apply shape_point_tr]).
  destruct a, b; try exact K. destruct k; reflexivity.
Qed.
Definition tr4 (x : option (vec xr) * option (vec xr) * option xr * Z) := match x with (a, b, c, d) => (option_map tv a, b, c, d) end.
Lemma helper_tr h r m : helper_findIntersects (tr_hit6 h) (tr_ray r) m = rmap tr4 (helper_findIntersects h r m).
Proof.
  unfold helper_findIntersects. cbn [tr_hit6 h6_p1 h6_p2 h6_n1 h6_n2 tr_ray position]. destruct (h6_p1 h) as [a|], (h6_p2 h) as [b|]; cbn [option_map]; try reflexivity.
  - cbv zeta. rewrite !dist_tv. destruct m; [destruct (nlt _ _)|destruct (ngt _ _)]; reflexivity.
  - rewrite dist_tv. reflexivity.
Qed.
Ltac helpers := cbn [tr_hit6 h6_flag h6_count]; rewrite ?helper_tr;
  repeat match goal with |- context [helper_findIntersects ?h ?r ?m] =>
    let x := fresh "x" in destruct (helper_findIntersects h r m) as [x|]; [destruct x as [[[? ?] ?] ?]|reflexivity]; cbn [bind rmap tr4] end.
Ltac olts := repeat match goal with
  | |- context [olt ?a ?b] => destruct (olt a b) as [[|]|]; cbn [bind]; try reflexivity
  | |- context [if (evenb ?a && evenb ?b)%bool then _ else _] => destruct (evenb a), (evenb b); cbn [andb bind]
  end.
Lemma union_tr a b r : operCsgUnion (tr_hit6 a) (tr_hit6 b) (tr_ray r) = rmap tr_hit6 (operCsgUnion a b r).
Proof.
  unfold operCsgUnion. cbv zeta. cbn [tr_hit6 h6_flag h6_count]. destruct (h6_flag a), (h6_flag b); cbn [andb]; try reflexivity.
  - helpers. destruct o, o2; cbn [option_map]; olts; reflexivity.
  - helpers. reflexivity.
  - helpers. reflexivity.
Qed.
Lemma intersect_tr a b r : operCsgIntersect (tr_hit6 a) (tr_hit6 b) (tr_ray r) = rmap tr_hit6 (operCsgIntersect a b r).
Proof.
  unfold operCsgIntersect. cbv zeta. cbn [tr_hit6 h6_flag h6_count]. destruct (h6_flag a), (h6_flag b); cbn [andb]; try reflexivity.
  helpers. olts; reflexivity.
Qed.
Lemma difference_tr a b r : operCsgDifference (tr_hit6 a) (tr_hit6 b) (tr_ray r) = rmap tr_hit6 (operCsgDifference a b r).
Proof.
  unfold operCsgDifference. cbv zeta. cbn [tr_hit6 h6_flag h6_count]. destruct (h6_flag a), (h6_flag b); cbn [andb]; try reflexivity.
  - helpers. olts; reflexivity.
  - helpers. reflexivity.
Qed.
Lemma oper_tr k : match csg_oper k with
  | Ok f => exists g, csg_oper (tr_key k) = Ok g /\ forall a b r, g (tr_hit6 a) (tr_hit6 b) (tr_ray r) = rmap tr_hit6 (f a b r)
  | Err e => csg_oper (tr_key k) = Err e end.
Proof.
  destruct k as [s|s]; cbn; [|reflexivity]. destruct (String.eqb s "union"); [|destruct (String.eqb s "difference"); [|destruct (String.eqb s "intersect"); [|reflexivity]]]; eexists; (split; [reflexivity|]).
  - apply union_tr. - apply difference_tr. - apply intersect_tr.
Qed.
Lemma tree_tr t r : test_tree_intersect (tr_tree t) (tr_ray r) = rmap tr_ires (test_tree_intersect t r).
Proof.
  induction t as [|k l IHl rt IHr]; [reflexivity|]. cbn [tr_tree test_tree_intersect]. rewrite IHl, IHr. destruct (test_tree_intersect l r) as [a|]; [|reflexivity]. cbn [bind rmap].
  destruct (test_tree_intersect rt r) as [b|]; [|reflexivity]. cbn [bind rmap].
  assert (K : key_test_intersect (tr_key k) (tr_ray r) = rmap tr_ires (key_test_intersect k r)) by (destruct k; [reflexivity|apply shape_tr]).
  assert (O := oper_tr k).
  destruct a, b; cbn [tr_ires]; try exact K; (destruct (csg_oper k) as [f|]; [destruct O as (g & -> & O)|rewrite O; reflexivity]); cbn [bind index6]; try reflexivity.
  rewrite O. destruct (f _ _ _); reflexivity.
Qed.

(* ---- optics ---- *)
Lemma flat_step_tr own r st s : flat_step own (tr_ray r) (tr_flat st) (tr_shape s) = rmap tr_flat (flat_step own r st s).
Proof.
  unfold flat_step. rewrite shape_tr. destruct (shape_test_intersect s r) as [i|]; [|reflexivity]. cbn [bind rmap]. destruct i as [|h|h]; cbn [tr_ires unpack3 bind]; try reflexivity.
  cbn [tr_hit3 h3_flag h3_pt h3_normal]. destruct (h3_flag h); [|reflexivity]. destruct (h3_pt h) as [x|]; [|reflexivity]. cbn [option_map need bind]. cbv zeta.
  replace (distance_between (position (tr_ray r)) (tv x)) with (distance_between (position r) x) by (symmetry; apply dist_tv). cbn [tr_flat fs_min fs_pt].
  destruct (nlt _ _); [|reflexivity]. replace (surface_normal (tr_shape s)) with (surface_normal s) by (destruct s; reflexivity). destruct (if own then _ else _); reflexivity.
Qed.
Lemma flat_loop_tr own r l st : flat_loop own (tr_ray r) (tr_flat st) (map tr_shape l) = rmap tr_flat (flat_loop own r st l).
Proof.
  revert st; induction l as [|s l IH]; intros st; [reflexivity|]. cbn [map flat_loop]. rewrite flat_step_tr. destruct (flat_step own r st s); [|reflexivity]. cbn [bind rmap]. apply IH.
Qed.
Lemma first_sphere_tr l : first_sphere (map tr_shape l) = option_map tr_sphere (first_sphere l).
Proof. induction l as [|[] l IH]; cbn; auto. Qed.
Lemma first_circle_tr l : first_circle (map tr_shape l) = option_map tr_circle (first_circle l).
Proof. induction l as [|[] l IH]; cbn; auto. Qed.
Lemma ball_update_tr r st h : ball_update (tr_ray r) (tr_ball st) (tr_hit6 h) = rmap tr_ball (ball_update r st h).
Proof.
  unfold ball_update. cbn [tr_hit6 h6_flag h6_p1 h6_p2 h6_n1 h6_n2]. destruct (h6_flag h); [|reflexivity]. destruct (h6_p1 h) as [a|]; [|reflexivity]. cbn [option_map need bind]. cbv zeta.
  cbn [tr_ray position]. rewrite dist_tv. cbn [tr_ball bs_min bs_pt bs_normal bs_sfo].
  destruct (nlt _ _).
  - destruct (h6_n1 h) as [n|]; [|reflexivity]. cbn [need bind]. destruct (h6_p2 h) as [b|]; [|reflexivity]. cbn [option_map bs_min bs_sfo]. rewrite dist_tv.
    destruct (nlt _ _); [|reflexivity]. destruct (h6_n2 h); reflexivity.
  - cbn [bind]. destruct (h6_p2 h) as [b|]; [|reflexivity]. cbn [option_map bs_min bs_sfo]. rewrite dist_tv.
    destruct (nlt _ _); [|reflexivity]. destruct (h6_n2 h); reflexivity.
Qed.
Lemma mirror_loop_tr r l st last : mirror_ball_loop (tr_ray r) (tr_ball st) (option_map tr_hit6 last) (map tr_shape l) = rmap tr_ball (mirror_ball_loop r st last l).
Proof.
  revert st last; induction l as [|s l IH]; intros st last; [reflexivity|]. cbn [map mirror_ball_loop].
  assert (Step : forall st1 last1, (do h <- bound (option_map tr_hit6 last1); do st2 <- ball_update (tr_ray r) (tr_ball st1) h; mirror_ball_loop (tr_ray r) st2 (option_map tr_hit6 last1) (map tr_shape l))
     = rmap tr_ball (do h <- bound last1; do st2 <- ball_update r st1 h; mirror_ball_loop r st2 last1 l)).
  { intros st1 [h|]; [|reflexivity]. cbn [option_map bound bind]. rewrite ball_update_tr. destruct (ball_update r st1 h); [|reflexivity]. cbn [rmap bind]. apply (IH a (Some h)). }
  destruct s; cbn [tr_shape]; try apply (Step st last). cbv zeta. rewrite sphere_tr. apply (Step (mkBall (bs_hit st) (bs_min st) (bs_pt st) (bs_normal st) _) (Some _)).
Qed.
Lemma lens_loop_tr r l st : lens_ball_loop (tr_ray r) (tr_ball st) (map tr_shape l) = rmap tr_ball (lens_ball_loop r st l).
Proof.
  revert st; induction l as [|s l IH]; intros st; [reflexivity|]. cbn [map lens_ball_loop].
  destruct s; cbn [tr_shape bind]; try apply IH. cbv zeta. rewrite sphere_tr. cbn [tr_hit6 h6_count].
  pose proof (ball_update_tr r (mkBall (bs_hit st) (bs_min st) (bs_pt st) (bs_normal st) (SfoBool (evenb (h6_count (sphere_test_intersect s r))))) (sphere_test_intersect s r)) as U.
  unfold tr_ball at 1 in U. cbn [bs_hit bs_min bs_pt bs_normal bs_sfo] in U. change (bs_hit (tr_ball st)) with (bs_hit st). change (bs_min (tr_ball st)) with (bs_min st).
  change (bs_pt (tr_ball st)) with (option_map tv (bs_pt st)). change (bs_normal (tr_ball st)) with (bs_normal st). rewrite U.
  destruct (ball_update r _ _); [|reflexivity]. cbn [rmap bind]. apply IH.
Qed.
Lemma flat_test_tr shp l r : flat_test_intersect shp (map tr_shape l) (tr_ray r) = rmap tr_hit4 (flat_test_intersect shp l r).
Proof.
  unfold flat_test_intersect. destruct (_ || _)%bool; [|reflexivity]. change flat_init with (tr_flat flat_init) at 1. rewrite flat_loop_tr. destruct (flat_loop _ _ _ _) as [st|]; [|reflexivity].
  cbn [rmap bind tr_flat fs_normal fs_hit fs_pt]. destruct (fs_normal st); reflexivity.
Qed.
Lemma mirror_test_tr m r : mirror_test_intersect (tr_mirror m) (tr_ray r) = rmap tr_hit4 (mirror_test_intersect m r).
Proof.
  unfold mirror_test_intersect. cbn [tr_mirror mi_shape mi_surfaces]. destruct (_ || _)%bool.
  { change flat_init with (tr_flat flat_init) at 1. rewrite flat_loop_tr. destruct (flat_loop _ _ _ _) as [st|]; [|reflexivity].
    cbn [rmap bind tr_flat fs_normal fs_hit fs_pt]. destruct (fs_normal st); reflexivity. }
  destruct (String.eqb _ _).
  { rewrite first_sphere_tr, first_circle_tr. destruct (first_sphere _) as [s|]; [|reflexivity]. cbn [option_map bound bind]. cbv zeta. rewrite sphere_tr. set (h := sphere_test_intersect s r).
    cbn [tr_hit6 h6_flag h6_p1 h6_p2 h6_n1 h6_n2 h6_count]. destruct (h6_flag h); [|reflexivity]. destruct (first_circle _) as [c|]; [|reflexivity]. cbn [option_map bound bind]. rewrite circle_tr.
    destruct (circle_test_intersect c r) as [hc|]; [|reflexivity]. cbn [rmap bind tr_hit3 h3_flag h3_pt]. destruct (h3_flag hc); [|reflexivity]. destruct (h3_pt hc) as [pc|]; [|reflexivity]. cbn [option_map need bind].
    destruct (h6_p1 h) as [p1|]; [|reflexivity]. cbn [option_map need bind]. destruct (h6_p2 h) as [p2|]; [|reflexivity]. cbn [option_map]. cbv zeta. rewrite !dist_tv. destruct (nlt _ _); reflexivity. }
  destruct (String.eqb _ _); [|reflexivity].
  change (mkBall false ninf None None SfoNone) with (tr_ball (mkBall false ninf None None SfoNone)) at 1. change (@None (hit6 xr)) with (option_map tr_hit6 None) at 1. rewrite mirror_loop_tr.
  destruct (mirror_ball_loop _ _ _ _); reflexivity.
Qed.
Lemma lens_test_tr l r : lens_test_intersect (tr_lens l) (tr_ray r) = rmap tr_hit4 (lens_test_intersect l r).
Proof.
  unfold lens_test_intersect. cbn [tr_lens le_shape le_surfaces]. destruct (String.eqb _ _); [|destruct (String.eqb _ _); [|reflexivity]].
  - change (mkFlat false ninf None (Some None)) with (tr_flat (mkFlat false ninf None (Some None))) at 1. rewrite flat_loop_tr. destruct (flat_loop _ _ _ _) as [st|]; [|reflexivity].
    cbn [rmap bind tr_flat fs_normal fs_hit fs_pt]. destruct (fs_normal st); reflexivity.
  - change (mkBall false ninf None None (SfoBool true)) with (tr_ball (mkBall false ninf None None (SfoBool true))) at 1. rewrite lens_loop_tr. destruct (lens_ball_loop _ _ _); reflexivity.
Qed.
Lemma optic_test_tr o r : optic_test_intersect (tr_optic o) (tr_ray r) = rmap tr_hit4 (optic_test_intersect o r).
Proof.
  destruct o; cbn [tr_optic optic_test_intersect]; try reflexivity; try apply mirror_test_tr; try apply lens_test_tr; try apply flat_test_tr.
  unfold compound_test_intersect. cbn [tr_compound co_tree]. rewrite tree_tr. destruct (test_tree_intersect _ _) as [[]|]; reflexivity.
Qed.

Lemma set_dir_tr r d : tr_ray (set_direction r d) = set_direction (tr_ray r) d. Proof. reflexivity. Qed.
Lemma reflect_tr r n : reflect_specular (tr_ray r) n = tr_ray (reflect_specular r n). Proof. reflexivity. Qed.
Lemma snell_tr r n a b : refract_snells_law (tr_ray r) n a b = rmap tr_ray (refract_snells_law r n a b).
Proof.
  unfold refract_snells_law. cbn [tr_ray direction]. destruct (neqb b _); [reflexivity|]. cbv zeta. destruct (if ngt a b then _ else _); reflexivity.
Qed.
Lemma thin_tr r l p : refract_thin_lens (tr_ray r) (tr_lens l) (tv p) = rmap tr_ray (refract_thin_lens r l p).
Proof.
  unfold refract_thin_lens. cbn [tr_lens le_position le_normal le_f tr_ray direction position]. rewrite vsub_tv. destruct (le_normal l) as [n|]; [|reflexivity]. cbn [need bind]. cbv zeta.
  destruct (isclose _ _ _ _); [reflexivity|]. destruct (_ || _)%bool; destruct (le_f l) as [f|]; cbn [need bind rmap]; try reflexivity.
  rewrite vadd_tv, vsub_tv. reflexivity.
Qed.
Lemma lens_do_tr l r p n s : lens_do_intersect (tr_lens l) (tr_ray r) (tv p) n s = rmap tr_ray (lens_do_intersect l r p n s).
Proof.
  unfold lens_do_intersect. cbn [tr_lens le_type le_index]. destruct (String.eqb _ _); [apply thin_tr|]. destruct (String.eqb _ _).
  { unfold refract_ideal_collimate. cbn [tr_lens le_normal]. destruct (le_normal l); reflexivity. }
  destruct (String.eqb _ _).
  { unfold refract_ideal_focus. cbn [tr_lens le_normal le_f le_position tr_ray direction position]. destruct (le_normal l) as [m|]; [|reflexivity]. cbn [need bind].
    destruct (le_f l) as [f|]; [|reflexivity]. cbn [need bind rmap]. rewrite vadd_tv, vsub_tv. reflexivity. }
  destruct n as [n|]; [|reflexivity]. cbn [need bind]. destruct (sfo_truthy s); apply snell_tr.
Qed.
Lemma optic_do_tr o r p n s : optic_do_intersect (tr_optic o) (tr_ray r) (tv p) n s = rmap (fun x => (tr_ray (fst x), tr_optic (snd x))) (optic_do_intersect o r p n s).
Proof.
  destruct o; cbn [tr_optic optic_do_intersect]; try reflexivity.
  - assert (C : compound_do_intersect (tr_compound c) (tr_ray r) (tv p) n = rmap tr_ray (compound_do_intersect c r p n)).
    { unfold compound_do_intersect. cbn [tr_compound co_surface_behavior co_index]. destruct (String.eqb _ _); [destruct n; reflexivity|]. destruct (String.eqb _ _); [|reflexivity].
      cbn [tr_ray direction]. rewrite vadd_tv. unfold compound_index_if_inside. cbn [tr_compound co_tree co_index]. rewrite tree_point_tr.
      destruct (test_tree_point _ _) as [[[|]|]|]; cbn [bind]; try reflexivity; (destruct n as [n|]; [|reflexivity]; cbn [need bind]; apply snell_tr). }
    rewrite C. destruct (compound_do_intersect c r p n); reflexivity.
  - assert (C : mirror_do_intersect (tr_mirror m) (tr_ray r) n = rmap tr_ray (mirror_do_intersect m r n)).
    { unfold mirror_do_intersect. cbn [tr_mirror mi_type mi_dmd_normal]. destruct (String.eqb _ _); [destruct n; reflexivity|]. destruct (String.eqb _ _); reflexivity. }
    rewrite C. destruct (mirror_do_intersect m r n); reflexivity.
  - rewrite lens_do_tr. destruct (lens_do_intersect l r p n s); reflexivity.
  - assert (C : grating_do_intersect (tr_grating g) (tr_ray r) n = rmap tr_ray (grating_do_intersect g r n)).
    { unfold grating_do_intersect. destruct n as [n|]; [|reflexivity]. cbn [need bind tr_ray order]. destruct (neqb _ _); [reflexivity|]. unfold reflect_grating. cbn [tr_grating gr_G gr_tangent]. destruct (gr_G g); reflexivity. }
    rewrite C. destruct (grating_do_intersect g r n); reflexivity.
  - unfold record_hit, tr_detector. cbn [rmap fst snd tr_optic de_position de_normal de_tangent de_shape de_surfaces de_hit_data]. unfold tr_detector. cbn [de_position de_normal de_tangent de_shape de_surfaces de_hit_data].
    rewrite map_app. reflexivity.
Qed.

(* ---- run ---- *)
Lemma fly_tr r d : fly (tr_ray r) d = tr_ray (fly r d).
Proof. unfold fly. cbn [tr_ray position direction wavelength order point_history blocked ray_type]. unfold tr_ray. cbn [position direction wavelength order point_history blocked ray_type]. rewrite vadd_tv, map_app. reflexivity. Qed.
Lemma skipped_tr o : skipped (tr_optic o) = skipped o. Proof. destruct o; reflexivity. Qed.
Lemma scan_step_tr r rm st i o : scan_step (tr_ray r) rm (tr_scan st) i (tr_optic o) = rmap tr_scan (scan_step r rm st i o).
Proof.
  unfold scan_step. rewrite skipped_tr. destruct (skipped o); [reflexivity|]. rewrite optic_test_tr. destruct (optic_test_intersect o r) as [h|]; [|reflexivity].
  cbn [rmap bind tr_hit4 h4_flag h4_pt h4_normal h4_sfo]. cbv zeta. destruct (h4_flag h); [|reflexivity]. destruct (h4_pt h) as [p|]; [|reflexivity]. cbn [option_map need bind].
  cbn [tr_ray position]. rewrite dist_tv. cbn [tr_scan sc_hit sc_min sc_sel sc_sfo]. destruct (ngt _ _); [reflexivity|]. destruct (ngt _ _); [|reflexivity]. destruct (nlt _ _); reflexivity.
Qed.
Lemma scan_tr r rm l st i : scan (tr_ray r) rm (tr_scan st) i (map tr_optic l) = rmap tr_scan (scan r rm st i l).
Proof.
  revert st i; induction l as [|o l IH]; intros st i; [reflexivity|]. cbn [map scan]. rewrite scan_step_tr. destruct (scan_step r rm st i o); [|reflexivity]. cbn [rmap bind]. apply IH.
Qed.
Lemma set_nth_map {A B} (f : A -> B) l k a : set_nth (map f l) k (f a) = map f (set_nth l k a).
Proof. revert k; induction l as [|x l IH]; intros [|k]; cbn; f_equal; auto. Qed.
Lemma body_tr md st : run_body md (tr_run st) = rmap tr_run (run_body md st).
Proof.
  unfold run_body. cbv zeta. cbn [tr_run rs_ray rs_world rs_count rs_remaining rs_sel rs_sfo].
  change (mkScan false ninf (option_map tr_sel (rs_sel st)) (rs_sfo st)) with (tr_scan (mkScan false ninf (rs_sel st) (rs_sfo st))). rewrite scan_tr.
  destruct (scan _ _ _ _ _) as [sc|]; [|reflexivity]. cbn [rmap bind tr_scan sc_hit sc_sel sc_sfo]. destruct (negb _).
  { cbn [rmap]. rewrite fly_tr. reflexivity. }
  destruct (sc_sel sc) as [s|]; [|reflexivity]. cbn [option_map bound bind tr_sel se_idx se_pt se_normal]. cbn [tr_ray position ray_type] in *. 
  replace (distance_between (tv (position (rs_ray st))) (tv (se_pt s))) with (distance_between (position (rs_ray st)) (se_pt s)) by (symmetry; apply dist_tv).
  rewrite fly_tr. destruct (String.eqb _ _); [reflexivity|]. destruct (sc_sfo sc) as [f|]; [|reflexivity]. cbn [bound bind]. rewrite nth_error_map. destruct (nth_error _ _) as [o|]; [|reflexivity]. cbn [option_map].
  rewrite optic_do_tr. destruct (optic_do_intersect o _ _ _ _) as [[r2 o']|]; [|reflexivity]. cbn [rmap bind fst snd]. rewrite set_nth_map. reflexivity.
Qed.
Lemma cond_tr maxi st : run_cond maxi (tr_run st) = run_cond maxi st. Proof. reflexivity. Qed.
Lemma loop_tr fuel md maxi st : run_loop fuel md maxi (tr_run st) = rmap tr_run (run_loop fuel md maxi st).
Proof.
  revert st; induction fuel as [|n IH]; intros st; cbn [run_loop]; rewrite cond_tr; destruct (run_cond maxi st); try reflexivity.
  rewrite body_tr. destruct (run_body md st); [|reflexivity]. cbn [rmap bind]. apply IH.
Qed.
Lemma run_tr fuel r md w maxi : run fuel (tr_ray r) md (map tr_optic w) maxi = rmap (fun x => (tr_ray (fst x), map tr_optic (snd x))) (run fuel r md w maxi).
Proof.
  unfold run. change (run_init (tr_ray r) md (map tr_optic w)) with (tr_run (run_init r md w)). rewrite loop_tr. destruct (run_loop _ _ _ _); reflexivity.
Qed.
Lemma run_all_tr fuel rs md w maxi : run_all fuel (map tr_ray rs) md (map tr_optic w) maxi = rmap (fun x => (map tr_ray (fst x), map tr_optic (snd x))) (run_all fuel rs md w maxi).
Proof.
  revert w; induction rs as [|r rs IH]; intros w; [reflexivity|]. cbn [map run_all]. rewrite run_tr. destruct (run fuel r md w maxi) as [[r' w']|]; [|reflexivity]. cbn [rmap bind fst snd].
  rewrite IH. destruct (run_all fuel rs md w' maxi) as [[rs' w'']|]; reflexivity.
Qed.

(* ---- constructors ---- *)
Lemma mk_ray_tr p d wl o ty : mk_ray (tv p) d wl o ty = tr_ray (mk_ray p d wl o ty). Proof. reflexivity. Qed.
Lemma mk_circle_tr p n R D : mk_circle (tv p) n R D = rmap tr_circle (mk_circle p n R D).
Proof. unfold mk_circle. destruct (check_R_and_D R D) as [[a b]|]; [|reflexivity]. destruct n; reflexivity. Qed.
Lemma mk_sphere_tr p R D : mk_sphere (tv p) R D = rmap tr_sphere (mk_sphere p R D).
Proof. unfold mk_sphere. destruct (check_R_and_D R D) as [[a b]|]; reflexivity. Qed.
Lemma mk_infcyl_tr p d R D : mk_infcyl (tv p) d R D = rmap tr_infcyl (mk_infcyl p d R D).
Proof. unfold mk_infcyl. destruct (check_R_and_D R D) as [[a b]|]; reflexivity. Qed.
Lemma mk_rectangle_tr p n t h w : mk_rectangle (tv p) n t h w = rmap tr_rectangle (mk_rectangle p n t h w).
Proof.
  unfold mk_rectangle. destruct (unit_vector_o n) as [n'|]; [|reflexivity]. cbn [bind]. destruct (unit_vector_o t) as [t'|]; [|reflexivity]. cbn [bind]. destruct (negb _); [reflexivity|]. cbv zeta.
  destruct (check_h_and_w h w) as [[a b]|]; [|reflexivity]. cbn [bind]. destruct n as [n|]; [|reflexivity]. cbn [need bind rmap]. repeat (rewrite ?vadd_tv, ?vsub_tv_l). reflexivity.
Qed.
Lemma mk_mirror_tr p shp n D w h f tg ty dmd : mk_mirror (tv p) shp n D w h f tg ty dmd = rmap tr_mirror (mk_mirror p shp n D w h f tg ty dmd).
Proof.
  unfold mk_mirror. destruct (unit_vector_o dmd) as [dm|]; [|reflexivity]. cbn [bind].
  repeat (destruct (String.eqb _ _)); try reflexivity.
  - destruct (unit_vector_o n) as [n'|]; [|reflexivity]. cbn [bind]. rewrite mk_circle_tr. destruct (mk_circle _ _ _ _); reflexivity.
  - destruct (unit_vector_o n) as [n'|]; [|reflexivity]. cbn [bind]. rewrite mk_rectangle_tr. destruct (mk_rectangle _ _ _ _ _); reflexivity.
  - destruct (unit_vector_o n) as [n'|]; [|reflexivity]. cbn [bind]. destruct f as [f|]; [|reflexivity]. cbn [need bind]. cbv zeta. rewrite mk_circle_tr, vadd_tv, mk_sphere_tr.
    destruct (mk_circle _ _ _ _); [|reflexivity]. cbn [rmap bind]. destruct (mk_sphere _ _ _); reflexivity.
  - rewrite mk_sphere_tr. destruct (mk_sphere _ _ _); reflexivity.
Qed.
Lemma mk_lens_tr p n shp D f ty ix : mk_lens (tv p) n shp D f ty ix = rmap tr_lens (mk_lens p n shp D f ty ix).
Proof.
  unfold mk_lens. cbv zeta. repeat (destruct (String.eqb _ _)); try reflexivity.
  - rewrite mk_circle_tr. destruct (mk_circle _ _ _ _); reflexivity.
  - rewrite mk_sphere_tr. destruct (mk_sphere _ _ _); reflexivity.
Qed.
Lemma mk_grating_tr p n t shp w h G : mk_grating (tv p) n t shp w h G = rmap tr_grating (mk_grating p n t shp w h G).
Proof.
  unfold mk_grating. destruct (unit_vector_o n) as [n'|]; [|reflexivity]. cbn [bind]. destruct (unit_vector_o t) as [t'|]; [|reflexivity]. cbn [bind]. destruct (String.eqb _ _); [|reflexivity].
  rewrite mk_rectangle_tr. destruct (mk_rectangle _ _ _ _ _); reflexivity.
Qed.
Lemma mk_detector_tr p n t shp w h : mk_detector (tv p) n t shp w h = rmap tr_detector (mk_detector p n t shp w h).
Proof.
  unfold mk_detector. destruct (unit_vector_o n) as [n'|]; [|reflexivity]. cbn [bind]. destruct (unit_vector_o t) as [t'|]; [|reflexivity]. cbn [bind]. destruct (String.eqb _ _); [|reflexivity].
  rewrite mk_rectangle_tr. destruct (mk_rectangle _ _ _ _ _); reflexivity.
Qed.
End Tr.
Lemma tv_fv v p : tv v (fv p) = fv (p + v)%r3. Proof. reflexivity. Qed.
