(** C101: which exception the misuse of optics and CSG trees raises, for every number type. *)
From Coq Require Import ZArith SpecFloat String List Bool.
From Verif Require Import PyErr Num Vec Shapes Csg Optics XReal FloatInst.
Import ListNotations.
Local Open Scope string_scope.

Section Kind.
Context {T : Type} {N : Num T}.

(** flat shapes answer a query with three values, solids with six, the unfinished Cylinder with None *)
Definition three (s : shape T) : Prop := match s with SPlane _ | SCircle _ | SRectangle _ => True | _ => False end.
Definition six (s : shape T) : Prop := match s with SSphere _ | SInfCyl _ => True | _ => False end.
Definition unfinished (s : shape T) : Prop := match s with SCylinder _ => True | _ => False end.
(** the query of the shape itself does not raise *)
Definition answers (s : shape T) (r : ray T) : Prop := exists i, shape_test_intersect s r = Ok i.
Definition leaf (s : shape T) : tree (key T) := Node (KShape s) Nil Nil.
Definition known (op : string) : Prop := op = "union" \/ op = "difference" \/ op = "intersect".

Lemma kind3 s r : three s -> answers s r -> exists h, shape_test_intersect s r = Ok (I3 h).
Proof. intros K (i & E). destruct s as [a|a|a|a|a|a]; try contradiction; cbn in *; [eauto|destruct (circle_test_intersect a r)|destruct (rectangle_test_intersect a r)]; cbn in *; try discriminate; eauto. Qed.
Lemma kind6 s r : six s -> answers s r -> exists h, shape_test_intersect s r = Ok (I6 h).
Proof. intros K (i & E). destruct s as [a|a|a|a|a|a]; try contradiction; cbn in *; [destruct (infcyl_test_intersect a r)|]; cbn in *; try discriminate; eauto. Qed.
Lemma kind0 s r : unfinished s -> shape_test_intersect s r = Ok INone.
Proof. destruct s; try contradiction. reflexivity. Qed.

(** Compounds: the tree is a single shape, an operator on two shapes, or empty *)
Theorem C101_compound : forall (b : string) (n : T) r,
  (forall s, three s -> answers s r -> compound_test_intersect (mkCompound (leaf s) b n) r = Err ValueError) /\
  (forall s, unfinished s -> compound_test_intersect (mkCompound (leaf s) b n) r = Err TypeError) /\
  compound_test_intersect (mkCompound Nil b n) r = Err TypeError /\
  (forall op, compound_test_intersect (mkCompound (Node (KStr op) Nil Nil) b n) r = Err AttributeError) /\
  (forall op s1 s2, unfinished s1 /\ answers s2 r \/ unfinished s2 /\ answers s1 r -> compound_test_intersect (mkCompound (Node (KStr op) (leaf s1) (leaf s2)) b n) r = Err AttributeError) /\
  (forall op s1 s2, known op -> three s1 /\ ~ unfinished s2 \/ six s1 /\ three s2 -> answers s1 r -> answers s2 r -> compound_test_intersect (mkCompound (Node (KStr op) (leaf s1) (leaf s2)) b n) r = Err IndexError) /\
  (forall op s1 s2, ~ known op -> ~ unfinished s1 -> ~ unfinished s2 -> answers s1 r -> answers s2 r -> compound_test_intersect (mkCompound (Node (KStr op) (leaf s1) (leaf s2)) b n) r = Err KeyError) /\
  (forall s s1 s2, ~ unfinished s1 -> ~ unfinished s2 -> answers s1 r -> answers s2 r -> compound_test_intersect (mkCompound (Node (KShape s) (leaf s1) (leaf s2)) b n) r = Err KeyError).
Proof.
  intros b n r.
  assert (Lf : forall s, test_tree_intersect (leaf s) r = shape_test_intersect s r) by reflexivity.
  assert (Nd : forall k s1 s2, compound_test_intersect (mkCompound (Node k (leaf s1) (leaf s2)) b n) r =
     do i <- (do a <- shape_test_intersect s1 r; do c <- shape_test_intersect s2 r;
       match a, c with INone, _ | _, INone => key_test_intersect k r | _, _ => do f <- csg_oper k; do x <- index6 a; do y <- index6 c; do h <- f x y r; Ok (I6 h) end);
     do h <- unpack6 i; Ok (H4 (h6_flag h) (h6_p1 h) (h6_n1 h) (SfoBool (evenb (h6_count h))))) by reflexivity.
  assert (Kd : forall s, ~ unfinished s -> answers s r -> (exists h, shape_test_intersect s r = Ok (I3 h)) \/ exists h, shape_test_intersect s r = Ok (I6 h)).
  { intros s U A. destruct s; try (left; now apply kind3); try (right; now apply kind6). now elim U. }
  assert (Op : forall op, known op -> exists f, csg_oper (KStr op) = Ok f) by (intros op [->|[->| ->]]; eexists; reflexivity).
  assert (NOp : forall op, ~ known op -> csg_oper (KStr op : key T) = Err KeyError).
  { intros op K. unfold csg_oper. destruct (String.eqb_spec op "union"); [elim K; now left|]. destruct (String.eqb_spec op "difference"); [elim K; now right; left|]. destruct (String.eqb_spec op "intersect"); [elim K; now right; right|]. reflexivity. }
  split; [|split; [|split; [|split; [|split; [|split; [|split]]]]]].
  - intros s K A. destruct (kind3 s r K A) as (h & E). unfold compound_test_intersect. cbn [co_tree]. rewrite Lf, E. reflexivity.
  - intros s K. unfold compound_test_intersect. cbn [co_tree]. rewrite Lf, kind0 by exact K. reflexivity.
  - reflexivity.
  - reflexivity.
  - intros op s1 s2 H. rewrite Nd. destruct H as [[K (i & E)]|[K (i & E)]]; rewrite (kind0 _ r K), E; cbn [bind]; [reflexivity|destruct i; reflexivity].
  - intros op s1 s2 K H A1 A2. rewrite Nd. destruct (Op op K) as (f & Ef). destruct H as [[K1 K2]|[K1 K2]].
    + destruct (kind3 s1 r K1 A1) as (h & E). rewrite E. destruct (Kd s2 K2 A2) as [(h' & E')|(h' & E')]; rewrite E'; cbn [bind]; rewrite Ef; reflexivity.
    + destruct (kind6 s1 r K1 A1) as (h & E). destruct (kind3 s2 r K2 A2) as (h' & E'). rewrite E, E'. cbn [bind]. rewrite Ef. reflexivity.
  - intros op s1 s2 K K1 K2 A1 A2. rewrite Nd. pose proof (NOp op K) as Ef. destruct (Kd s1 K1 A1) as [(h & E)|(h & E)], (Kd s2 K2 A2) as [(h' & E')|(h' & E')]; rewrite E, E'; cbn [bind]; rewrite Ef; reflexivity.
  - intros s s1 s2 K1 K2 A1 A2. rewrite Nd. destruct (Kd s1 K1 A1) as [(h & E)|(h & E)], (Kd s2 K2 A2) as [(h' & E')|(h' & E')]; rewrite E, E'; reflexivity.
Qed.

(** Flat optics: the first surface is a solid or unfinished; there is none; the shape name is unknown *)
Definition bad_surface (s : shape T) (r : ray T) (e : exn) : Prop := six s /\ answers s r /\ e = ValueError \/ unfinished s /\ e = TypeError.
Lemma bad_loop own r st s l e : bad_surface s r e -> flat_loop own r st (s :: l) = Err e.
Proof.
  intros [(K & A & ->)|(K & ->)]; cbn [flat_loop]; unfold flat_step; [destruct (kind6 s r K A) as (h & E); rewrite E|rewrite (kind0 s r K)]; reflexivity.
Qed.
Theorem C101_flat : forall r s l e, bad_surface s r e ->
  (forall m : mirror T, mi_shape m = "circular_flat" \/ mi_shape m = "rectangular_flat" -> mi_surfaces m = s :: l -> optic_test_intersect (OMirror m) r = Err e) /\
  (forall k : lens T, le_shape k = "spherical_biconvex" -> le_surfaces k = s :: l -> optic_test_intersect (OLens k) r = Err e) /\
  (forall g : grating T, gr_shape g = "circular_flat" \/ gr_shape g = "rectangular_flat" -> gr_surfaces g = s :: l -> optic_test_intersect (OGrating g) r = Err e) /\
  (forall d : detector T, de_shape d = "circular_flat" \/ de_shape d = "rectangular_flat" -> de_surfaces d = s :: l -> optic_test_intersect (ODetector d) r = Err e).
Proof.
  intros r s l e B. split; [|split; [|split]]; cbn [optic_test_intersect].
  - intros m H E. unfold mirror_test_intersect. destruct H as [-> | ->]; cbn [String.eqb Ascii.eqb Bool.eqb orb]; rewrite E, (bad_loop _ _ _ _ _ _ B); reflexivity.
  - intros k H E. unfold lens_test_intersect. rewrite H. cbn [String.eqb Ascii.eqb Bool.eqb]. rewrite E, (bad_loop _ _ _ _ _ _ B). reflexivity.
  - intros g H E. unfold flat_test_intersect. destruct H as [-> | ->]; cbn [String.eqb Ascii.eqb Bool.eqb orb]; rewrite E, (bad_loop _ _ _ _ _ _ B); reflexivity.
  - intros g H E. unfold flat_test_intersect. destruct H as [-> | ->]; cbn [String.eqb Ascii.eqb Bool.eqb orb]; rewrite E, (bad_loop _ _ _ _ _ _ B); reflexivity.
Qed.
Theorem C101_names : forall r,
  (forall m : mirror T, ~ In (mi_shape m) ["circular_flat"; "rectangular_flat"; "circular_concave_spherical"; "circular_convex_spherical"] -> optic_test_intersect (OMirror m) r = Err ValueError) /\
  (forall k : lens T, ~ In (le_shape k) ["spherical_biconvex"; "spherical"] -> optic_test_intersect (OLens k) r = Err ValueError) /\
  (forall g : grating T, ~ In (gr_shape g) ["circular_flat"; "rectangular_flat"] \/ gr_surfaces g = [] -> optic_test_intersect (OGrating g) r = Err UnboundLocalError) /\
  (forall d : detector T, ~ In (de_shape d) ["circular_flat"; "rectangular_flat"] \/ de_surfaces d = [] -> optic_test_intersect (ODetector d) r = Err UnboundLocalError) /\
  (forall b : base T, optic_test_intersect (OOptic b) r = Err AttributeError /\ optic_test_intersect (OBlock b) r = Err AttributeError).
Proof.
  intros r. split; [|split; [|split; [|split]]]; cbn [optic_test_intersect].
  - intros m H. unfold mirror_test_intersect. destruct (String.eqb_spec (mi_shape m) "circular_flat") as [E|_]; [elim H; rewrite E; now left|]. destruct (String.eqb_spec (mi_shape m) "rectangular_flat") as [E|_]; [elim H; rewrite E; right; now left|].
    destruct (String.eqb_spec (mi_shape m) "circular_concave_spherical") as [E|_]; [elim H; rewrite E; right; right; now left|]. destruct (String.eqb_spec (mi_shape m) "circular_convex_spherical") as [E|_]; [elim H; rewrite E; right; right; right; now left|]. reflexivity.
  - intros k H. unfold lens_test_intersect. destruct (String.eqb_spec (le_shape k) "spherical_biconvex") as [E|_]; [elim H; rewrite E; now left|]. destruct (String.eqb_spec (le_shape k) "spherical") as [E|_]; [elim H; rewrite E; right; now left|]. reflexivity.
  - intros g [H| ->]; unfold flat_test_intersect.
    + destruct (String.eqb_spec (gr_shape g) "circular_flat") as [E|_]; [elim H; rewrite E; now left|]. destruct (String.eqb_spec (gr_shape g) "rectangular_flat") as [E|_]; [elim H; rewrite E; right; now left|]. reflexivity.
    + destruct (_ || _)%bool; reflexivity.
  - intros g [H| ->]; unfold flat_test_intersect.
    + destruct (String.eqb_spec (de_shape g) "circular_flat") as [E|_]; [elim H; rewrite E; now left|]. destruct (String.eqb_spec (de_shape g) "rectangular_flat") as [E|_]; [elim H; rewrite E; right; now left|]. reflexivity.
    + destruct (_ || _)%bool; reflexivity.
  - intros b. split; reflexivity.
Qed.

(** the exception reaches the caller of Ray.run, if the optics before it in the list answer *)
Lemma scan_raises r d w o e : skipped o = false -> optic_test_intersect o r = Err e -> forall pre st i,
  Forall (fun q => exists h, optic_test_intersect q r = Ok h /\ h4_flag h = false) pre -> scan r d st i (pre ++ o :: w) = Err e.
Proof.
  intros Sk E pre. induction pre as [|q pre IH]; intros st i F; cbn [app scan].
  - unfold scan_step. rewrite Sk, E. reflexivity.
  - inversion F as [|? ? (h & Eh & Fl) F']; subst. unfold scan_step at 1. destruct (skipped q); cbn [bind]; [now apply IH|]. rewrite Eh. cbn [bind]. rewrite Fl. cbn [bind]. now apply IH.
Qed.
Theorem C101_run {TT : Trig T} : forall fuel r d pre o w maxi e, skipped o = false -> optic_test_intersect o r = Err e ->
  Forall (fun q => exists h, optic_test_intersect q r = Ok h /\ h4_flag h = false) pre ->
  ngt d (nofZ 0) = true -> blocked r = false -> (forall m, maxi = Some m -> (0 < m)%Z) -> run (S fuel) r d (pre ++ o :: w) maxi = Err e.
Proof.
  intros fuel r d pre o w maxi e Sk E F D B M. unfold run. cbn [run_loop]. unfold run_cond, run_init. cbn [rs_remaining rs_count rs_ray]. rewrite D, B.
  assert (C : match maxi with None => true | Some m => (0 <? m)%Z end = true) by (destruct maxi as [m|]; [apply Z.ltb_lt, M; reflexivity|reflexivity]). rewrite C. cbn [andb negb]. unfold run_body. cbn [rs_remaining rs_ray rs_world rs_sel rs_sfo].
  rewrite (scan_raises r d w o e Sk E pre _ _ F). reflexivity.
Qed.
(** Interactions: a name of a surface behaviour that is not known, and a query that reported no normal *)
Theorem C101_do {TT : Trig T} : forall (r : ray T) pt s,
  (forall (c : compound T) n, co_surface_behavior c <> "reflect" -> co_surface_behavior c <> "refract" -> optic_do_intersect (OCompound c) r pt n s = Err ValueError) /\
  (forall c : compound T, co_surface_behavior c = "reflect" -> optic_do_intersect (OCompound c) r pt None s = Err TypeError) /\
  (forall (c : compound T) x, co_surface_behavior c = "refract" -> compound_index_if_inside c (vadd pt (vscale (dec 1 8) (direction r))) = Ok x -> optic_do_intersect (OCompound c) r pt None s = Err TypeError) /\
  (forall m : mirror T, mi_type m = "normal" -> optic_do_intersect (OMirror m) r pt None s = Err TypeError) /\
  (forall (m : mirror T) n, mi_type m <> "normal" -> mi_type m <> "dmd" -> optic_do_intersect (OMirror m) r pt n s = Ok (r, OMirror m)) /\
  (forall l : lens T, ~ In (le_type l) ["ideal"; "ideal_collimate"; "ideal_focus"] -> optic_do_intersect (OLens l) r pt None s = Err TypeError) /\
  (forall g : grating T, optic_do_intersect (OGrating g) r pt None s = Err TypeError) /\
  fly_o r None = Err ValueError.
Proof.
  intros r pt s. split; [|split; [|split; [|split; [|split; [|split; [|split]]]]]]; cbn [optic_do_intersect]; try reflexivity.
  - intros c n A B. unfold compound_do_intersect. apply String.eqb_neq in A, B. rewrite A, B. reflexivity.
  - intros c A. unfold compound_do_intersect. rewrite A. reflexivity.
  - intros c x A E. unfold compound_do_intersect. rewrite A. cbn [String.eqb Ascii.eqb Bool.eqb]. rewrite E. destruct x; reflexivity.
  - intros m A. unfold mirror_do_intersect. rewrite A. reflexivity.
  - intros m n A B. unfold mirror_do_intersect. apply String.eqb_neq in A, B. rewrite A, B. reflexivity.
  - intros l A. unfold lens_do_intersect. destruct (String.eqb_spec (le_type l) "ideal") as [E|_]; [elim A; rewrite E; now left|].
    destruct (String.eqb_spec (le_type l) "ideal_collimate") as [E|_]; [elim A; rewrite E; right; now left|]. destruct (String.eqb_spec (le_type l) "ideal_focus") as [E|_]; [elim A; rewrite E; right; right; now left|]. reflexivity.
Qed.
(** A ball (convex mirror or ball lens) that is hit at points whose distance is not below infinity, because a square overflowed or is not a number: the query says hit, and gives no point;
    Ray.run then raises TypeError. *)
Definition faraway (r : ray T) (h : hit6 T) : Prop :=
  h6_flag h = true /\ (exists p1, h6_p1 h = Some p1 /\ nlt (distance_between (position r) p1) ninf = false) /\
  (forall p2, h6_p2 h = Some p2 -> nlt (distance_between (position r) p2) ninf = false).
Lemma far_update r b s h : faraway r h -> ball_update r (mkBall b ninf None None s) h = Ok (mkBall true ninf None None s).
Proof.
  intros (F & (p1 & E1 & L1) & H2). unfold ball_update. rewrite F, E1. cbn [need bind bs_min bs_pt bs_normal bs_sfo]. rewrite L1. cbn [bind].
  destruct (h6_p2 h) as [p2|] eqn:E2; [|reflexivity]. cbn [bs_min]. rewrite (H2 p2 eq_refl). reflexivity.
Qed.
Theorem C101_far {TT : Trig T} : forall (s : sphere T) r o, faraway r (sphere_test_intersect s r) ->
  (exists m, o = OMirror m /\ mi_shape m = "circular_convex_spherical" /\ mi_surfaces m = [SSphere s]) \/ (exists l, o = OLens l /\ le_shape l = "spherical" /\ le_surfaces l = [SSphere s]) ->
  (exists f, optic_test_intersect o r = Ok (H4 true None None f)) /\
  forall fuel d pre w maxi, Forall (fun q => exists h, optic_test_intersect q r = Ok h /\ h4_flag h = false) pre ->
    ngt d (nofZ 0) = true -> blocked r = false -> (forall m, maxi = Some m -> (0 < m)%Z) -> run (S fuel) r d (pre ++ o :: w) maxi = Err TypeError.
Proof.
  intros s r o F K.
  assert (E : skipped o = false /\ exists f, optic_test_intersect o r = Ok (H4 true None None f)).
  { destruct K as [(m & -> & Sh & Su)|(l & -> & Sh & Su)]; (split; [reflexivity|]); cbn [optic_test_intersect].
    - unfold mirror_test_intersect. rewrite Sh, Su. cbn [String.eqb Ascii.eqb Bool.eqb orb mirror_ball_loop bound bind bs_hit bs_min bs_pt bs_normal]. rewrite (far_update r _ _ _ F). cbn [bind bs_hit bs_pt bs_normal bs_sfo]. eexists. reflexivity.
    - unfold lens_test_intersect. rewrite Sh, Su. cbn [String.eqb Ascii.eqb Bool.eqb orb lens_ball_loop bound bind bs_hit bs_min bs_pt bs_normal]. rewrite (far_update r _ _ _ F). cbn [bind bs_hit bs_pt bs_normal bs_sfo]. eexists. reflexivity. }
  destruct E as (Sk & f & E). split; [now exists f|]. intros fuel d pre w maxi P D B M.
  assert (Sc : forall pre st i, Forall (fun q => exists h, optic_test_intersect q r = Ok h /\ h4_flag h = false) pre -> scan r d st i (pre ++ o :: w) = Err TypeError).
  { intros q. induction q as [|x q IH]; intros st i Fq; cbn [app scan].
    - unfold scan_step. rewrite Sk, E. reflexivity.
    - inversion Fq as [|? ? (h & Eh & Fl) F']; subst. unfold scan_step at 1. destruct (skipped x); cbn [bind]; [now apply IH|]. rewrite Eh. cbn [bind]. rewrite Fl. cbn [bind]. now apply IH. }
  unfold run. cbn [run_loop]. unfold run_cond, run_init. cbn [rs_remaining rs_count rs_ray]. rewrite D, B.
  assert (C : match maxi with None => true | Some m => (0 <? m)%Z end = true) by (destruct maxi as [m|]; [apply Z.ltb_lt, M; reflexivity|reflexivity]). rewrite C. cbn [andb negb]. unfold run_body. cbn [rs_remaining rs_ray rs_world rs_sel rs_sfo].
  rewrite (Sc pre _ _ P). reflexivity.
Qed.
End Kind.
Print Assumptions C101_compound.
Print Assumptions C101_flat.
Print Assumptions C101_names.
Print Assumptions C101_run.
Print Assumptions C101_do.
Print Assumptions C101_far.
(** a convex mirror of diameter 2^601 in binary64, seen from its centre *)
Example C101_far_hyp : let D := S754_finite false 4503599627370496 549 in
  exists m, mk_mirror (V (nofZ 0) (nofZ 0) (nofZ 0)) "circular_convex_spherical" None (Some D) None None None None "normal" (Some (V #1 #0 #0)%num) = Ok m /\
    exists s, mi_surfaces m = [SSphere s] /\ faraway (mk_ray (V #0 #0 #0) (V #0 #1 #0) #532 #0 "normal")%num (sphere_test_intersect s (mk_ray (V #0 #0 #0) (V #0 #1 #0) #532 #0 "normal")%num).
Proof.
  intros D. eexists. split; [vm_compute; reflexivity|]. eexists. split; [reflexivity|]. split; [vm_compute; reflexivity|]. split.
  - match goal with |- exists p1, h6_p1 ?h = _ /\ _ => let v := eval vm_compute in h in replace h with v by (vm_compute; reflexivity) end. cbn [h6_p1]. eexists. split; [reflexivity|]. vm_compute. reflexivity.
  - intros p2 H. vm_compute in H. discriminate H.
Qed.
Example C101_hyp : forall (p : plane xr) (c : cylinder xr) (s : sphere xr) r, three (SPlane p) /\ answers (SPlane p) r /\ unfinished (SCylinder c) /\ six (SSphere s) /\ answers (SSphere s) r /\
  bad_surface (SSphere s) r ValueError /\ bad_surface (SCylinder c) r TypeError /\ ~ known "xor".
Proof.
  intros p c s r. assert (A : answers (SPlane p) r) by (eexists; reflexivity). assert (B : answers (SSphere s) r) by (eexists; reflexivity).
  split; [exact I|]. split; [exact A|]. split; [exact I|]. split; [exact I|]. split; [exact B|]. split; [left; split; [exact I|split; [exact B|reflexivity]]|]. split; [right; split; [exact I|reflexivity]|].
  intros [H|[H|H]]; discriminate.
Qed.
