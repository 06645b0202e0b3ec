(** What a run depends on: position, direction and kind of the ray, and its colour only at gratings. *)
From Coq Require Import Reals ZArith Lra Lia Psatz String List Bool.
From Verif Require Import PyErr Num Vec Shapes Csg Optics Spec XReal RVec VecProofs AngleProofs FlatProofs RayProofs RunGen Props_Ray OpticHits StateXr OrderProofs Props_Loop Props_Run Props_Path.
Import ListNotations.

Section Depends.
Context {T : Type} {N : Num T} {TT : Trig T}.

(** the same place, direction, blocking and kind (ordinary or faerie fire); wavelength, order and history may differ *)
Definition alike (r r2 : ray T) : Prop :=
  position r2 = position r /\ direction r2 = direction r /\ blocked r2 = blocked r /\ (ray_type r2 = "faerie_fire"%string <-> ray_type r = "faerie_fire"%string).
Definition same_place (r r2 : ray T) : Prop := position r2 = position r /\ direction r2 = direction r.

(* ---- the queries only look at position and direction ---- *)
Lemma shape_place s (r r2 : ray T) : same_place r r2 -> shape_test_intersect s r2 = shape_test_intersect s r.
Proof. destruct r, r2. intros [A B]. cbn in A, B. subst. destruct s; reflexivity. Qed.
Lemma oper_place k (r r2 : ray T) a b : same_place r r2 -> (do f <- csg_oper k; do h <- f a b r2; Ok (I6 h)) = (do f <- csg_oper k; do h <- f a b r; Ok (I6 h)).
Proof. destruct r, r2. intros [A B]. cbn in A, B. subst. unfold csg_oper. destruct k as [s|s]; repeat match goal with |- context [if ?c then _ else _] => destruct c end; reflexivity. Qed.
Lemma tree_place t (r r2 : ray T) : same_place r r2 -> test_tree_intersect t r2 = test_tree_intersect t r.
Proof.
  intros P. induction t as [|k a IHa b IHb]; cbn [test_tree_intersect]; [reflexivity|]. rewrite IHa, IHb.
  destruct (test_tree_intersect a r) as [ia|]; [|reflexivity]. destruct (test_tree_intersect b r) as [ib|]; [|reflexivity]. cbn [bind].
  assert (K : key_test_intersect k r2 = key_test_intersect k r) by (unfold key_test_intersect; destruct k; auto using shape_place).
  destruct ia, ib; try exact K; destruct (csg_oper k) as [f|] eqn:Ef; cbn [bind index6]; try reflexivity.
  pose proof (oper_place k r r2 h h0 P) as Q. rewrite Ef in Q. exact Q.
Qed.
Lemma flat_place own (r r2 : ray T) l : same_place r r2 -> forall st, flat_loop own r2 st l = flat_loop own r st l.
Proof.
  intros P. induction l as [|s l IH]; intros st; cbn [flat_loop]; [reflexivity|]. unfold flat_step. rewrite (shape_place s r r2 P). rewrite (proj1 P).
  match goal with |- bind ?x _ = _ => destruct x end; cbn [bind]; [apply IH|reflexivity].
Qed.
Lemma ball_place (r r2 : ray T) st h : same_place r r2 -> ball_update r2 st h = ball_update r st h.
Proof. destruct r, r2. intros [A B]. cbn in A, B. subst. reflexivity. Qed.
Lemma sphere_place s (r r2 : ray T) : same_place r r2 -> sphere_test_intersect s r2 = sphere_test_intersect s r.
Proof. destruct r, r2. intros [A B]. cbn in A, B. subst. reflexivity. Qed.
Lemma circle_place s (r r2 : ray T) : same_place r r2 -> circle_test_intersect s r2 = circle_test_intersect s r.
Proof. destruct r, r2. intros [A B]. cbn in A, B. subst. reflexivity. Qed.
Lemma mball_place (r r2 : ray T) l : same_place r r2 -> forall st last, mirror_ball_loop r2 st last l = mirror_ball_loop r st last l.
Proof.
  intros P. induction l as [|s l IH]; intros st last; cbn [mirror_ball_loop]; [reflexivity|].
  destruct s; try rewrite (sphere_place _ r r2 P); cbv zeta; match goal with |- bind ?x _ = _ => destruct x end; cbn [bind]; try reflexivity; rewrite (ball_place r r2 _ _ P);
   match goal with |- bind ?x _ = _ => destruct x end; cbn [bind]; try reflexivity; apply IH.
Qed.
Lemma lball_place (r r2 : ray T) l : same_place r r2 -> forall st, lens_ball_loop r2 st l = lens_ball_loop r st l.
Proof.
  intros P. induction l as [|s l IH]; intros st; cbn [lens_ball_loop]; [reflexivity|].
  destruct s; try rewrite (sphere_place _ r r2 P); cbv zeta; try rewrite (ball_place r r2 _ _ P); match goal with |- bind ?x _ = _ => destruct x end; cbn [bind]; try reflexivity; apply IH.
Qed.
Lemma test_place o (r r2 : ray T) : same_place r r2 -> optic_test_intersect o r2 = optic_test_intersect o r.
Proof.
  intros P. destruct o; cbn [optic_test_intersect]; try reflexivity.
  - unfold compound_test_intersect. now rewrite (tree_place _ r r2 P).
  - unfold mirror_test_intersect. rewrite (flat_place _ r r2 _ P), (mball_place r r2 _ P). destruct (first_sphere _); cbn [bound bind]; [|reflexivity]. rewrite (sphere_place _ r r2 P).
    destruct (first_circle _); cbn [bound bind]; [|reflexivity]. rewrite (circle_place _ r r2 P). reflexivity.
  - unfold lens_test_intersect. rewrite (flat_place _ r r2 _ P), (lball_place r r2 _ P). reflexivity.
  - unfold flat_test_intersect. rewrite (flat_place _ r r2 _ P). reflexivity.
  - unfold flat_test_intersect. rewrite (flat_place _ r r2 _ P). reflexivity.
Qed.
Lemma scan_place (r r2 : ray T) rem l : same_place r r2 -> forall st idx, scan r2 rem st idx l = scan r rem st idx l.
Proof.
  intros P. induction l as [|o l IH]; intros st idx; cbn [scan]; [reflexivity|]. unfold scan_step. rewrite (test_place o r r2 P), (proj1 P).
  match goal with |- bind ?x _ = _ => destruct x end; cbn [bind]; [apply IH|reflexivity].
Qed.

(* ---- the interactions ---- *)
Definition turned (x y : ray T) : Prop := direction y = direction x /\ blocked y = blocked x.
(** a grating turns two rays of colours (wavelength l, order k) and (l2, k2) in the same way *)
Definition grating_alike (l k l2 k2 : T) (g : grating T) : Prop := forall a b n, same_place a b ->
  wavelength a = l -> order a = k -> wavelength b = l2 -> order b = k2 ->
  match grating_do_intersect g a n, grating_do_intersect g b n with Ok x, Ok y => direction y = direction x | Err e, Err e2 => e = e2 | _, _ => False end.

Ltac turn := repeat first [ apply res_rel_same; intros | match goal with |- context [if ?c then _ else _] => destruct c end ]; cbn; unfold turned; cbn; auto.
Lemma snell_turn (a b : ray T) n e1 e2 : same_place a b -> blocked b = blocked a -> res_rel turned (refract_snells_law a n e1 e2) (refract_snells_law b n e1 e2).
Proof. destruct a as [a1 a2 a3 a4 a5 a6 a7], b as [b1 b2 b3 b4 b5 b6 b7]. intros [A B] C. cbn in A, B, C. subst. unfold refract_snells_law. cbn [direction position]. turn. Qed.
Lemma do_turn o (a b : ray T) pt n s l k l2 k2 : same_place a b -> blocked b = blocked a -> wavelength a = l -> order a = k -> wavelength b = l2 -> order b = k2 ->
  match o with OGrating g => grating_alike l k l2 k2 g | ODetector _ | OBlock _ => False | _ => True end ->
  res_rel (fun x y => turned (fst x) (fst y) /\ snd x = o /\ snd y = o) (optic_do_intersect o a pt n s) (optic_do_intersect o b pt n s).
Proof.
  intros P Hb Wa Oa Wb Ob G.
  assert (K : forall x y : Res (ray T), res_rel turned x y -> res_rel (fun x y => turned (fst x) (fst y) /\ snd x = o /\ snd y = o) (do r' <- x; Ok (r', o)) (do r' <- y; Ok (r', o))).
  { intros x y. destruct x, y; cbn; auto. }
  assert (Rf : forall v, turned (reflect_specular a v) (reflect_specular b v)) by (intros v; revert P Hb; clear; destruct a as [a1 a2 a3 a4 a5 a6 a7], b as [b1 b2 b3 b4 b5 b6 b7]; intros [A B] C; cbn in A, B, C; subst; split; reflexivity).
  destruct o; cbn [optic_do_intersect]; try (apply K); try contradiction.
  1: cbn; unfold turned; destruct P; auto.
  - unfold compound_do_intersect. rewrite (proj2 P). destruct (String.eqb _ "reflect"); [apply res_rel_same; intros v; cbn; apply Rf|]. destruct (String.eqb _ "refract"); [|reflexivity].
    apply res_rel_same; intros oi. destruct oi; apply res_rel_same; intros v; apply snell_turn; assumption.
  - unfold mirror_do_intersect. destruct (String.eqb _ "normal"); [apply res_rel_same; intros v; cbn; apply Rf|]. destruct (String.eqb _ "dmd"); [cbn; apply Rf|]. cbn. destruct P. split; auto.
  - unfold lens_do_intersect. destruct (String.eqb _ "ideal"); [|destruct (String.eqb _ "ideal_collimate"); [|destruct (String.eqb _ "ideal_focus")]].
    + revert P Hb. clear. destruct a as [a1 a2 a3 a4 a5 a6 a7], b as [b1 b2 b3 b4 b5 b6 b7]; intros [A B] C; cbn in A, B, C; subst. unfold refract_thin_lens. cbn [direction position]. turn.
    + revert P Hb. clear. destruct a as [a1 a2 a3 a4 a5 a6 a7], b as [b1 b2 b3 b4 b5 b6 b7]; intros [A B] C; cbn in A, B, C; subst. unfold refract_ideal_collimate. cbn [direction position]. turn.
    + revert P Hb. clear. destruct a as [a1 a2 a3 a4 a5 a6 a7], b as [b1 b2 b3 b4 b5 b6 b7]; intros [A B] C; cbn in A, B, C; subst. unfold refract_ideal_focus. cbn [direction position]. turn.
    + apply res_rel_same. intros v. destruct (sfo_truthy s); apply snell_turn; assumption.
  - specialize (G a b n P Wa Oa Wb Ob).
    assert (Bk : forall r r', grating_do_intersect g r n = Ok r' -> blocked r' = blocked r).
    { clear. intros r r' E. unfold grating_do_intersect, reflect_grating in E. destruct n; [|discriminate]. cbn [need bind] in E. destruct (neqb _ _); [injection E as <-; reflexivity|].
      destruct (gr_G g); [|discriminate]. cbn [need bind] in E. injection E as <-. reflexivity. }
    destruct (grating_do_intersect g a n) eqn:Ea, (grating_do_intersect g b n) eqn:Eb; cbn; auto. split; [exact G|]. rewrite (Bk _ _ Ea), (Bk _ _ Eb). exact Hb.
  - cbn. unfold turned. destruct P; auto.
  - cbn. unfold turned. destruct P; auto.
  - cbn. unfold turned. destruct P; auto.
Qed.

(* ---- the loop ---- *)
(** one list of points per optic: the records of a ray of wavelength l *)
Definition records (l : T) (ls : list (list (vec T))) : list (list (vec T * T)) := map (map (fun q => (q, l))) ls.
Lemma add_logs_grating (w : list (optic T)) : forall ls g, In (OGrating g) (add_logs w ls) -> In (OGrating g) w.
Proof.
  induction w as [|o w IH]; intros [|l ls] g; cbn; auto. intros [E|E]; [|right; eapply IH; exact E]. left. destruct o; try discriminate E; exact E.
Qed.
Definition points_at (k : nat) (add : list (vec T)) (n : nat) : list (list (vec T)) :=
  (fix go k n := match n with O => [] | S n => match k with O => add :: repeat [] n | S k => [] :: go k n end end) k n.
Lemma records_at l add n : forall k, records l (points_at k add n) = log_at k (map (fun q => (q, l)) add) n.
Proof.
  induction n; intros [|k]; cbn; try reflexivity; f_equal; [|apply IHn]. unfold records. clear. induction n; cbn; congruence.
Qed.
Lemma points_at_length add n : forall k, length (points_at k add n) = n.
Proof. induction n; intros [|k]; cbn; try reflexivity; f_equal; [apply repeat_length|apply IHn]. Qed.
Definition join (a b : list (list (vec T))) : list (list (vec T)) := map (fun p => fst p ++ snd p) (combine a b).
Lemma records_join l a : forall b, records l (join a b) = zip_app (records l a) (records l b).
Proof. induction a as [|x a IH]; intros [|y b]; cbn; try reflexivity. rewrite map_app. f_equal. apply IH. Qed.
Lemma records_length l a : length (records l a) = length a. Proof. apply map_length. Qed.
Lemma fresh_records w l l2 ls ls2 : map fresh (add_logs w (records l ls)) = map fresh (add_logs w (records l2 ls2)).
Proof. rewrite !fresh_add_logs. reflexivity. Qed.

Definition run_rel (r r2 : ray T) (w : list (optic T)) (a b : @run_st T) : Prop :=
  alike (rs_ray a) (rs_ray b) /\
  (wavelength (rs_ray a) = wavelength r /\ order (rs_ray a) = order r /\ ray_type (rs_ray a) = ray_type r) /\
  (wavelength (rs_ray b) = wavelength r2 /\ order (rs_ray b) = order r2 /\ ray_type (rs_ray b) = ray_type r2) /\
  (exists pts, point_history (rs_ray a) = point_history r ++ pts /\ point_history (rs_ray b) = point_history r2 ++ pts) /\
  rs_count b = rs_count a /\ rs_remaining b = rs_remaining a /\ rs_sfo b = rs_sfo a /\ rs_sel b = rs_sel a /\
  exists ls, length ls = length w /\ rs_world a = add_logs w (records (wavelength r) ls) /\ rs_world b = add_logs w (records (wavelength r2) ls).
Lemma fly_alike (a b : ray T) x : alike a b -> alike (fly a x) (fly b x).
Proof. intros (A & B & C & D). unfold alike, fly. cbn. rewrite A, B. auto. Qed.
Lemma alike_place (a b : ray T) : alike a b -> same_place a b. Proof. intros (A & B & _). split; assumption. Qed.
Lemma eqb_alike (a b : ray T) : alike a b -> String.eqb (ray_type b) "faerie_fire" = String.eqb (ray_type a) "faerie_fire".
Proof.
  intros (_ & _ & _ & D). destruct (String.eqb (ray_type a) "faerie_fire") eqn:E; [apply String.eqb_eq, D, String.eqb_eq, E|].
  apply String.eqb_neq. apply String.eqb_neq in E. tauto.
Qed.
Lemma body_alike md r r2 w a b : (forall g, In (OGrating g) w -> grating_alike (wavelength r) (order r) (wavelength r2) (order r2) g) ->
  run_rel r r2 w a b -> res_rel (run_rel r r2 w) (run_body md a) (run_body md b).
Proof.
  intros G (Al & Ca & Cb & (pts & Ha & Hb) & R2 & R3 & R4 & R5 & ls & L & Wa & Wb). unfold run_body. rewrite R2, R3, R4, R5.
  pose proof (alike_place _ _ Al) as Pl. rewrite (scan_place _ _ _ _ Pl). rewrite (eqb_alike _ _ Al), (proj1 Pl).
  assert (EW : map fresh (rs_world b) = map fresh (rs_world a)) by (rewrite Wa, Wb; apply fresh_records).
  rewrite (scan_same _ _ _ _ _ _ EW). apply res_rel_same. intros sc.
  assert (Hist : forall x, exists pts', point_history (fly (rs_ray a) x) = point_history r ++ pts' /\ point_history (fly (rs_ray b) x) = point_history r2 ++ pts').
  { intros x. unfold fly. cbn. rewrite (proj1 Pl), (proj2 Pl), Ha, Hb, <- !app_assoc. eauto. }
  destruct (negb (sc_hit sc)).
  { cbn. split; [apply fly_alike, Al|]. cbn. split; [exact Ca|]. split; [exact Cb|]. split; [apply Hist|]. repeat split. exists ls. auto. }
  apply res_rel_same. intros s. destruct (String.eqb _ _).
  { cbn. split; [destruct (fly_alike _ _ (distance_between (position (rs_ray a)) (se_pt s)) Al) as (A & B & _ & D); repeat split; cbn; apply A || apply B || apply D|]. cbn. split; [exact Ca|]. split; [exact Cb|].
    split; [apply Hist|]. repeat split. exists ls. auto. }
  apply res_rel_same. intros f. destruct (nth_error (rs_world a) (se_idx s)) as [o|] eqn:En.
  2: { symmetry in EW. rewrite (nth_none_fresh _ _ _ EW En). reflexivity. }
  symmetry in EW. destruct (nth_fresh _ _ _ _ EW En) as (o2 & En2 & Eo). rewrite En2.
  set (x := distance_between (position (rs_ray a)) (se_pt s)). pose proof (fly_alike _ _ x Al) as Fl.
  assert (D : exists add, res_rel (fun u v => turned (fst u) (fst v) /\ snd u = add_log o (map (fun q => (q, wavelength r)) add) /\ snd v = add_log o2 (map (fun q => (q, wavelength r2)) add))
     (optic_do_intersect o (fly (rs_ray a) x) (se_pt s) (se_normal s) f) (optic_do_intersect o2 (fly (rs_ray b) x) (se_pt s) (se_normal s) f)).
  { assert (Gen : match o with ODetector _ | OBlock _ => False | _ => True end -> o2 = o -> exists add, res_rel (fun u v => turned (fst u) (fst v) /\ snd u = add_log o (map (fun q => (q, wavelength r)) add) /\ snd v = add_log o2 (map (fun q => (q, wavelength r2)) add))
     (optic_do_intersect o (fly (rs_ray a) x) (se_pt s) (se_normal s) f) (optic_do_intersect o2 (fly (rs_ray b) x) (se_pt s) (se_normal s) f)).
    { intros Nd ->. exists []. cbn [map]. rewrite add_nil. eapply do_turn; [apply alike_place, Fl|apply Fl|cbn; apply Ca|cbn; apply Ca|cbn; apply Cb|cbn; apply Cb|].
      destruct o; try exact I; try contradiction. apply G. apply nth_error_In in En. rewrite Wa in En. apply add_logs_grating in En. exact En. }
    destruct o; destruct o2; try discriminate Eo; try (apply Gen; [exact I|]; unfold fresh in Eo; cbn in Eo; congruence).
    - exists [se_pt s]. cbn. unfold turned, record_hit, add_log. cbn. rewrite (proj1 Ca), (proj1 Cb). split; [|auto]. split; [apply (proj2 Pl)|reflexivity].
    - exists []. unfold fresh in Eo. cbn in Eo. injection Eo as <-. cbn. unfold turned. cbn. split; [|auto]. split; [apply (proj2 Pl)|reflexivity]. }
  destruct D as (add & D).
  destruct (optic_do_intersect o (fly (rs_ray a) x) (se_pt s) (se_normal s) f) as [[ra oa]|] eqn:Da, (optic_do_intersect o2 (fly (rs_ray b) x) (se_pt s) (se_normal s) f) as [[rb ob]|] eqn:Db; cbn in D; try contradiction; [|exact D].
  destruct D as ((D1 & D2) & -> & ->). cbn [bind].
  destruct (do_frame _ _ _ _ _ _ _ Da) as [(A1 & A2 & A3 & A4 & A5) _]. destruct (do_frame _ _ _ _ _ _ _ Db) as [(B1 & B2 & B3 & B4 & B5) _].
  destruct (Hist x) as (pts' & H1 & H2). cbn [res_rel]. unfold run_rel. cbn [rs_ray rs_world rs_count rs_remaining rs_sfo rs_sel].
  split; [split; [rewrite A1, B1; apply Fl|split; [exact D1|split; [exact D2|rewrite A5, B5; apply Fl]]]|].
  split; [rewrite A2, A3, A5; exact Ca|]. split; [rewrite B2, B3, B5; exact Cb|]. split; [exists pts'; rewrite A4, B4; auto|]. split; [reflexivity|]. split; [reflexivity|]. split; [reflexivity|]. split; [reflexivity|].
  exists (join ls (points_at (se_idx s) add (length w))). split; [unfold join; rewrite map_length, combine_length, points_at_length; lia|].
  rewrite (set_log _ _ _ _ En), (set_log _ _ _ _ En2), !records_join, !records_at, Wa, Wb, !add_logs_length.
  rewrite !add_logs_zip by (rewrite ?log_at_length, ?records_length; lia). auto.
Qed.
Lemma run_alike fuel md maxi (r r2 : ray T) w : (forall g, In (OGrating g) w -> grating_alike (wavelength r) (order r) (wavelength r2) (order r2) g) -> alike r r2 ->
  res_rel (fun x y => exists a b, x = (rs_ray a, rs_world a) /\ y = (rs_ray b, rs_world b) /\ run_rel r r2 w a b) (run fuel r md w maxi) (run fuel r2 md w maxi).
Proof.
  intros G Al.
  assert (K : forall fuel a b, run_rel r r2 w a b -> res_rel (run_rel r r2 w) (run_loop fuel md maxi a) (run_loop fuel md maxi b)).
  { clear fuel. induction fuel; intros a b R; cbn [run_loop];
    assert (C : run_cond maxi b = run_cond maxi a) by (destruct R as ((_ & _ & Bl & _) & _ & _ & _ & R3 & R4 & _); unfold run_cond; rewrite Bl, R3, R4; reflexivity);
    rewrite C; destruct (run_cond maxi a); try exact R; [reflexivity|]. eapply res_rel_bind; [apply body_alike; [exact G|exact R]|exact IHfuel]. }
  unfold run. eapply res_rel_bind; [apply K|intros a b R; cbn; eauto].
  split; [exact Al|]. cbn. split; [auto|]. split; [auto|]. split; [exists []; rewrite !app_nil_r; auto|]. repeat split.
  exists (map (fun _ => []) w). split; [apply map_length|].
  assert (Z : forall l, records l (map (fun _ => []) w) = no_logs w) by (intros l; unfold records, no_logs; rewrite map_map; reflexivity). rewrite !Z, add_logs_nil. auto.
Qed.
End Depends.

Section Colour.
Context {T : Type} {N : Num T} {TT : Trig T}.
Lemma same_colour l k (g : grating T) : grating_alike l k l k g.
Proof.
  intros a b n P Wa Oa Wb Ob. unfold grating_do_intersect. rewrite Oa, Ob. destruct n as [v|]; cbn [need bind]; [|reflexivity]. destruct P as [P1 P2].
  destruct (neqb k _); [unfold reflect_specular; rewrite P2; reflexivity|]. unfold reflect_grating. destruct (gr_G g); cbn [need bind]; [|reflexivity]. rewrite Oa, Ob, Wa, Wb, P2. reflexivity.
Qed.
Lemma zero_order l k l2 k2 (g : grating T) : neqb k (nofZ 0) = true -> neqb k2 (nofZ 0) = true -> grating_alike l k l2 k2 g.
Proof.
  intros Z Z2 a b n P Wa Oa Wb Ob. unfold grating_do_intersect. rewrite Oa, Ob, Z, Z2. destruct n as [v|]; cbn [need bind]; [|reflexivity]. unfold reflect_specular. rewrite (proj2 P). reflexivity.
Qed.
(** two runs that agree: the same recorded points, end, direction and blocking; the detectors record the same points, each with the wavelength of its own ray; the same exception otherwise *)
Definition runs_agree (w : list (optic T)) (r r2 : ray T) (x x2 : Res (ray T * list (optic T))) : Prop :=
  (forall s w', x = Ok (s, w') -> exists s2 w2 pts ls, x2 = Ok (s2, w2) /\ alike s s2 /\
     point_history s = point_history r ++ pts /\ point_history s2 = point_history r2 ++ pts /\
     wavelength s = wavelength r /\ order s = order r /\ wavelength s2 = wavelength r2 /\ order s2 = order r2 /\
     length ls = length w /\ w' = add_logs w (records (wavelength r) ls) /\ w2 = add_logs w (records (wavelength r2) ls)) /\
  (forall e, x = Err e <-> x2 = Err e).
Lemma run_agree fuel md maxi (r r2 : ray T) w : (forall g, In (OGrating g) w -> grating_alike (wavelength r) (order r) (wavelength r2) (order r2) g) -> alike r r2 ->
  runs_agree w r r2 (run fuel r md w maxi) (run fuel r2 md w maxi).
Proof.
  intros G Al. pose proof (run_alike fuel md maxi r r2 w G Al) as H. destruct (run fuel r md w maxi) as [[s w1]|e], (run fuel r2 md w maxi) as [[s2 w2]|e2]; cbn in H; try contradiction.
  - split; [|intros e; split; discriminate]. intros s' w' E. injection E as <- <-.
    destruct H as (a & b & E1 & E2 & (A & (A1 & A2 & A3) & (B1 & B2 & B3) & (pts & H1 & H2) & _ & _ & _ & _ & ls & L & Wa & Wb)). injection E1 as -> ->. injection E2 as -> ->.
    exists (rs_ray b), (rs_world b), pts, ls. repeat split; try assumption; apply A.
  - subst e2. split; [discriminate|]. intros e'. tauto.
Qed.
End Colour.

(* C115, any number type.  The outcome of run depends on the ray only through its position, direction, blocked flag, whether it is a faerie-fire ray, and - at
   gratings - its colour.  Its history never matters; its wavelength and order do not matter in a scene without gratings, nor in order 0. *)
Definition no_grating {T} (w : list (optic T)) : Prop := forall g, ~ In (OGrating g) w.
Theorem C115_depends : forall T (N : Num T) (TT : Trig T) fuel md maxi (r r2 : ray T) (w : list (optic T)), alike r r2 ->
  no_grating w \/ (order r2 = order r /\ wavelength r2 = wavelength r) \/ (neqb (order r) (nofZ 0) = true /\ neqb (order r2) (nofZ 0) = true) ->
  runs_agree w r r2 (run fuel r md w maxi) (run fuel r2 md w maxi).
Proof.
  intros T N TT fuel md maxi r r2 w Al H. apply run_agree; [|exact Al]. intros g Ig. destruct H as [H|[[-> ->]|[H H2]]]; [destruct (H g Ig)|apply same_colour|now apply zero_order].
Qed.
Print Assumptions C115_depends.

(* Exact arithmetic: at gratings only the product of order and wavelength matters, so the orders of a spectrum overlap: order 2 at 300 nm takes the path of order 1 at 600 nm. *)
Local Open Scope R_scope.
Theorem C115_overlap : forall fuel md maxi (r r2 : ray xr) (w : list (optic xr)) (k l k2 l2 : R), alike r r2 ->
  order r = Fin k -> wavelength r = Fin l -> order r2 = Fin k2 -> wavelength r2 = Fin l2 -> k <> 0 -> k2 <> 0 -> k * l = k2 * l2 ->
  (forall g, In (OGrating g) w -> match gr_G g with Some (Fin _) | None => True | _ => False end) ->
  runs_agree w r r2 (run fuel r md w maxi) (run fuel r2 md w maxi).
Proof.
  intros fuel md maxi r r2 w k l k2 l2 Al Ok Ol Ok2 Ol2 Nk Nk2 E G. apply run_agree; [|exact Al]. intros g Ig a b n P Wa Oa Wb Ob. specialize (G g Ig).
  unfold grating_do_intersect. rewrite Oa, Ob, Ok, Ok2, nofZ_fin, !neqb_fin, !Reqb_false by assumption. destruct n as [v|]; cbn [need bind]; [|reflexivity].
  unfold reflect_grating. destruct (gr_G g) as [[G0| | |]|]; try contradiction; cbn [need bind]; [|reflexivity]. rewrite Oa, Ob, Wa, Wb, Ok, Ok2, Ol, Ol2, (proj2 P).
  assert (X : (Fin G0 / nofZ (10 ^ 6) * Fin k * Fin l)%num = (Fin G0 / nofZ (10 ^ 6) * Fin k2 * Fin l2)%num).
  { rewrite nofZ_fin, ndiv_fin by (apply IZR_neq; lia). rewrite !nmul_fin. f_equal. rewrite !Rmult_assoc, E. reflexivity. }
  rewrite X. reflexivity.
Qed.
Print Assumptions C115_overlap.

(* Whole fans: every ray of the second fan ends as the ray of the first fan in its place. *)
Theorem C115_all : forall T (N : Num T) (TT : Trig T) fuel md maxi (rs rs2 rs' : list (ray T)) (w w' : list (optic T)), Forall2 alike rs rs2 ->
  (forall i r r2, nth_error rs i = Some r -> nth_error rs2 i = Some r2 ->
     no_grating w \/ (order r2 = order r /\ wavelength r2 = wavelength r) \/ (neqb (order r) (nofZ 0) = true /\ neqb (order r2) (nofZ 0) = true)) ->
  run_all fuel rs md w maxi = Ok (rs', w') -> exists rs2' w2, run_all fuel rs2 md w maxi = Ok (rs2', w2) /\ length rs2' = length rs' /\
  forall i r r2 s s2, nth_error rs i = Some r -> nth_error rs2 i = Some r2 -> nth_error rs' i = Some s -> nth_error rs2' i = Some s2 ->
    alike s s2 /\ exists pts, point_history s = point_history r ++ pts /\ point_history s2 = point_history r2 ++ pts.
Proof.
  intros T N TT fuel md maxi rs rs2 rs' w w' F H E.
  assert (At : forall (rs rs' : list (ray T)) w', run_all fuel rs md w maxi = Ok (rs', w') -> length rs' = length rs /\ forall i r, nth_error rs i = Some r -> exists s ls, nth_error rs' i = Some s /\ run fuel r md w maxi = Ok (s, add_logs w ls)).
  { clear. intros rs rs' w' E. destruct (C39_independent T N TT fuel rs md maxi w) as [A _]. destruct (A _ _ E) as (lss & _ & L & F & L2). split; [exact L2|]. clear A E.
    revert rs' lss L F L2. induction rs as [|a rs IH]; intros [|b rs'] [|l lss] L F L2 [|i] r Hi; try discriminate; cbn [combine] in F; inversion F as [|? ? ? ? [F1 _] F2]; subst.
    - injection Hi as <-. exists b, l. auto.
    - apply (IH rs' lss); auto. }
  destruct (At _ _ _ E) as [L A]. assert (LF : length rs = length rs2) by (clear - F; induction F; cbn; congruence).
  assert (Nth : forall i r2, nth_error rs2 i = Some r2 -> exists r, nth_error rs i = Some r /\ alike r r2).
  { clear - F. induction F as [|x y l l' Hx F IH]; intros [|i] r2 Hi; try discriminate; cbn in *; [injection Hi as <-; eauto|eauto]. }
  assert (Ag : forall i r r2, nth_error rs i = Some r -> nth_error rs2 i = Some r2 -> runs_agree w r r2 (run fuel r md w maxi) (run fuel r2 md w maxi)).
  { intros i r r2 Hr Hr2. destruct (Nth i r2 Hr2) as (r0 & Hr0 & Al). rewrite Hr in Hr0. injection Hr0 as <-. apply C115_depends; [exact Al|eapply H; eassumption]. }
  destruct (C39_independent T N TT fuel rs2 md maxi w) as [_ B].
  destruct B as [[rs2' w2] E2].
  { intros r2 I2. apply In_nth_error in I2. destruct I2 as [i Hi]. destruct (Nth i r2 Hi) as (r & Hr & _). destruct (A i r Hr) as (s & ls & _ & R). destruct (Ag i r r2 Hr Hi) as [G _]. destruct (G _ _ R) as (s2 & w2 & _ & _ & R2 & _). eauto. }
  exists rs2', w2. split; [exact E2|]. destruct (At _ _ _ E2) as [L2 A2]. split; [lia|]. intros i r r2 s s2 Hr Hr2 Hs Hs2.
  destruct (A i r Hr) as (s0 & ls & Hs0 & R). destruct (A2 i r2 Hr2) as (s20 & ls2 & Hs20 & R2). rewrite Hs in Hs0. injection Hs0 as <-. rewrite Hs2 in Hs20. injection Hs20 as <-.
  destruct (Ag i r r2 Hr Hr2) as [G _]. destruct (G _ _ R) as (t & w3 & pts & ls3 & R3 & Al & P1 & P2 & _). rewrite R2 in R3. injection R3 as <- _. eauto.
Qed.
Print Assumptions C115_all.

(* A red ray with a longer history beside the ray of 500 nm, before a mirror, with its run; and order 1 at 600 nm beside order 2 at 300 nm before a grating. *)
Example C115_hyp : alike z_ray (mkRay (fv (at_z 0)) (fv e_z) (Fin 700) (Fin 3) [fv (at_z (-1)); fv (at_z 0)] false "normal"%string) /\
  no_grating [OMirror (mirror_at 5)] /\ run 3 z_ray (Fin 10) [OMirror (mirror_at 5)] (Some 1%Z) = Ok (bounced, [OMirror (mirror_at 5)]) /\
  alike (a_ray (at_z 0) e_z 1 600) (a_ray (at_z 0) e_z 2 300) /\ 1 * 600 = 2 * 300 /\
  (exists g, mk_grating (fv (at_z 5)) (Some (fv e_z)) (Some (fv e_x)) "rectangular_flat" (Some (Fin 2)) (Some (Fin 2)) (Some (Fin 1000)) = Ok g /\ gr_G g = Some (Fin 1000)).
Proof.
  assert (Al : forall a b : ray xr, position b = position a -> direction b = direction a -> blocked b = blocked a -> ray_type a <> "faerie_fire"%string -> ray_type b <> "faerie_fire"%string -> alike a b) by (intros a b A B C D E; repeat split; try assumption; intros X; contradiction).
  split; [apply Al; try reflexivity; discriminate|]. split; [intros g [X|[]]; discriminate X|]. split; [apply z_run; lra|]. split; [apply Al; try reflexivity; discriminate|]. split; [lra|].
  exists grat5. split; [exact grat5_built|reflexivity].
Qed.
