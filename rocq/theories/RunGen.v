(** Ray.run for every number type: facts that use no law of arithmetic. *)
From Coq Require Import ZArith String List Bool Lia.
From Verif Require Import PyErr Num Vec Shapes Csg Optics.
Import ListNotations.

(** one line of a result computation *)
Lemma bind_ok {A B} (x : Res A) (k : A -> Res B) b : bind x k = Ok b -> exists a, x = Ok a /\ k a = Ok b.
Proof. destruct x; cbn; [eauto|discriminate]. Qed.
Lemma bind_err {A B} (x : Res A) (k : A -> Res B) e : bind x k = Err e -> x = Err e \/ exists a, x = Ok a /\ k a = Err e.
Proof. destruct x; cbn; [eauto|intros H; injection H as ->; auto]. Qed.
Lemma need_ok {A} (o : option A) a : need o = Ok a -> o = Some a.
Proof. destruct o; cbn; congruence. Qed.
Lemma bound_ok {A} (o : option A) a : bound o = Ok a -> o = Some a.
Proof. destruct o; cbn; congruence. Qed.

Lemma nth_set_same {A} (l : list A) k a x : nth_error l k = Some x -> nth_error (set_nth l k a) k = Some a.
Proof. revert k; induction l; intros [|k]; cbn; try discriminate; auto. Qed.
Lemma nth_set_other {A} (l : list A) k j a : j <> k -> nth_error (set_nth l k a) j = nth_error l j.
Proof. revert k j; induction l; intros [|k] [|j]; cbn; auto; try congruence. Qed.
Lemma set_nth_self {A} (l : list A) k a : nth_error l k = Some a -> set_nth l k a = l.
Proof. revert k; induction l; intros [|k]; cbn; try discriminate; intros E; [congruence|f_equal; auto]. Qed.
Lemma set_nth_map {A B} (f : A -> B) l k a : map f (set_nth l k a) = set_nth (map f l) k (f a).
Proof. revert k; induction l; intros [|k]; cbn; auto. f_equal; auto. Qed.
Lemma set_nth_length {A} (l : list A) k a : length (set_nth l k a) = length l.
Proof. revert k; induction l; intros [|k]; cbn; auto. Qed.

Section Gen.
Context {T : Type} {N : Num T} {TT : Trig T}.

Ltac inv_bind := repeat match goal with
  | H : bind _ _ = Ok _ |- _ => let a := fresh "a" in let E := fresh "E" in
      apply bind_ok in H; destruct H as (a & E & H); cbn beta in H
  | H : need _ = Ok _ |- _ => apply need_ok in H
  | H : bound _ = Ok _ |- _ => apply bound_ok in H
  | H : Ok _ = Ok _ |- _ => injection H; clear H; intros; subst
  | H : Err _ = Ok _ |- _ => discriminate H
  | H : (let '(_, _) := ?p in _) = Ok _ |- _ => destruct p; cbn beta iota in H
  | H : (if ?b then _ else _) = Ok _ |- _ => let E := fresh "C" in destruct b eqn:E
  end.

(** an interaction changes nothing but the direction *)
Definition turns (r r' : ray T) : Prop := exists d, r' = set_direction r d.
Lemma turns_refl r : turns r r.
Proof. exists (direction r). destruct r; reflexivity. Qed.
Lemma turns_set r d : turns r (set_direction r d). Proof. exists d; reflexivity. Qed.
Lemma turns_spec r n : turns r (reflect_specular r n). Proof. apply turns_set. Qed.
Hint Resolve turns_refl turns_set turns_spec : turns.
Lemma turns_snell r n a b r' : refract_snells_law r n a b = Ok r' -> turns r r'.
Proof. unfold refract_snells_law. intros H. inv_bind; auto with turns. Qed.
Lemma turns_thin r l p r' : refract_thin_lens r l p = Ok r' -> turns r r'.
Proof. unfold refract_thin_lens. intros H. inv_bind; auto with turns. Qed.
Lemma turns_coll r l r' : refract_ideal_collimate r l = Ok r' -> turns r r'.
Proof. unfold refract_ideal_collimate. intros H. inv_bind; auto with turns. Qed.
Lemma turns_focus r l r' : refract_ideal_focus r l = Ok r' -> turns r r'.
Proof. unfold refract_ideal_focus. intros H. inv_bind; auto with turns. Qed.
Lemma turns_grating r n g r' : reflect_grating r n g = Ok r' -> turns r r'.
Proof. unfold reflect_grating. intros H. inv_bind; auto with turns. Qed.
Hint Resolve turns_snell turns_thin turns_coll turns_focus turns_grating : turns.

Definition is_detector (o : optic T) : bool := match o with ODetector _ => true | _ => false end.
Definition is_block (o : optic T) : bool := match o with OBlock _ => true | _ => false end.
Lemma do_turns o r pt n s r' o' : optic_do_intersect o r pt n s = Ok (r', o') ->
  match o with
  | ODetector d => r' = set_blocked r /\ o' = ODetector (record_hit d pt (wavelength r))
  | OBlock _ => r' = set_blocked r /\ o' = o
  | _ => turns r r' /\ o' = o
  end.
Proof.
  destruct o; cbn [optic_do_intersect]; intros H; inv_bind; try (split; [|reflexivity]); auto with turns.
  - unfold compound_do_intersect in E. inv_bind; eauto with turns.
  - unfold mirror_do_intersect in E. inv_bind; eauto with turns.
  - unfold lens_do_intersect in E. inv_bind; eauto with turns.
  - unfold grating_do_intersect in E. inv_bind; eauto with turns.
Qed.

(** what no interaction changes *)
Definition frame (r r' : ray T) : Prop := position r' = position r /\ wavelength r' = wavelength r /\ order r' = order r /\
  point_history r' = point_history r /\ ray_type r' = ray_type r.
Lemma do_frame o r pt n s r' o' : optic_do_intersect o r pt n s = Ok (r', o') -> frame r r' /\ skipped o' = skipped o.
Proof.
  intros H. apply do_turns in H.
  destruct o; destruct H as [H ->]; (split; [|reflexivity]);
   match type of H with turns _ _ => destruct H as [x ->] | _ => subst r' end; repeat split.
Qed.

(** n iterations of the while loop, each entered through the loop condition *)
Inductive steps (md : T) (maxi : option Z) : nat -> run_st -> run_st -> Prop :=
| steps_O st : steps md maxi 0 st st
| steps_S n st st1 st2 : steps md maxi n st st1 -> run_cond maxi st1 = true -> run_body md st1 = Ok st2 ->
    steps md maxi (S n) st st2.
Lemma steps_cons md maxi n st st1 st2 : run_cond maxi st = true -> run_body md st = Ok st1 -> steps md maxi n st1 st2 ->
  steps md maxi (S n) st st2.
Proof.
  intros C B H. revert C B. induction H; intros C B.
  - eapply steps_S; [apply steps_O| |]; eassumption.
  - eapply steps_S; [apply IHsteps; assumption| |]; eassumption.
Qed.
Lemma loop_steps fuel md maxi st st' : run_loop fuel md maxi st = Ok st' ->
  exists n, (n <= fuel)%nat /\ steps md maxi n st st' /\ run_cond maxi st' = false.
Proof.
  revert st. induction fuel; intros st; cbn [run_loop]; destruct (run_cond maxi st) eqn:C; try discriminate.
  - intros H; injection H as <-. exists 0%nat. split; [lia|]. split; [apply steps_O|exact C].
  - intros H. apply bind_ok in H. destruct H as (st1 & B & H). destruct (IHfuel _ H) as (n & L & S & D).
    exists (Datatypes.S n). split; [lia|]. split; [eapply steps_cons; eassumption|exact D].
  - intros H; injection H as <-. exists 0%nat. split; [lia|]. split; [apply steps_O|exact C].
Qed.
Lemma steps_loop md maxi n st st' fuel : steps md maxi n st st' -> run_cond maxi st' = false -> (n <= fuel)%nat ->
  run_loop fuel md maxi st = Ok st'.
Proof.
  intros S C. assert (G : forall k, (n <= k)%nat -> run_loop k md maxi st = run_loop (k - n) md maxi st').
  { clear C. induction S; intros k L; [f_equal; lia|]. rewrite IHS by lia.
    replace (k - n)%nat with (Datatypes.S (k - Datatypes.S n)) by lia. cbn [run_loop]. rewrite H, H0. reflexivity. }
  intros L. rewrite G by exact L. destruct (fuel - n)%nat; cbn [run_loop]; rewrite C; reflexivity.
Qed.
(** the loop fails either because an iteration raises, or because the fuel is used up *)
Lemma loop_err fuel md maxi st e : run_loop fuel md maxi st = Err e ->
  exists n st1, steps md maxi n st st1 /\ run_cond maxi st1 = true /\
   ((n < fuel)%nat /\ run_body md st1 = Err e \/ n = fuel /\ e = OutOfFuel).
Proof.
  revert st. induction fuel; intros st; cbn [run_loop]; destruct (run_cond maxi st) eqn:C; try discriminate; intros H.
  - injection H as <-. exists 0%nat, st. split; [apply steps_O|]. auto.
  - apply bind_err in H. destruct H as [H|(st1 & B & H)].
    + exists 0%nat, st. split; [apply steps_O|]. split; [exact C|]. left. split; [lia|exact H].
    + destruct (IHfuel _ H) as (n & st2 & S & C2 & D). exists (Datatypes.S n), st2. split; [eapply steps_cons; eassumption|].
      split; [exact C2|]. destruct D as [[L D]|[L D]]; [left|right]; split; try exact D; lia.
Qed.
Lemma steps_inv (P : run_st -> Prop) md maxi n st st' :
  (forall a b, run_cond maxi a = true -> run_body md a = Ok b -> P a -> P b) -> steps md maxi n st st' -> P st -> P st'.
Proof. intros I S. induction S; eauto. Qed.

(** the three outcomes of an iteration *)
Inductive outcome (md : T) (st st' : run_st) : Prop :=
| out_miss sc : scan (rs_ray st) (rs_remaining st) (mkScan false ninf (rs_sel st) (rs_sfo st)) 0 (rs_world st) = Ok sc ->
    sc_hit sc = false ->
    st' = mkRun (fly (rs_ray st) (rs_remaining st)) (rs_world st) (rs_count st) (nsub (rs_remaining st) md) (sc_sel sc) (sc_sfo sc) ->
    outcome md st st'
| out_faerie sc s : scan (rs_ray st) (rs_remaining st) (mkScan false ninf (rs_sel st) (rs_sfo st)) 0 (rs_world st) = Ok sc ->
    sc_hit sc = true -> sc_sel sc = Some s -> ray_type (rs_ray st) = "faerie_fire"%string ->
    st' = mkRun (set_blocked (fly (rs_ray st) (distance_between (position (rs_ray st)) (se_pt s)))) (rs_world st) (rs_count st + 1)
                (nsub (rs_remaining st) (distance_between (position (rs_ray st)) (se_pt s))) (sc_sel sc) (sc_sfo sc) ->
    outcome md st st'
| out_hit sc s f o r2 o' : scan (rs_ray st) (rs_remaining st) (mkScan false ninf (rs_sel st) (rs_sfo st)) 0 (rs_world st) = Ok sc ->
    sc_hit sc = true -> sc_sel sc = Some s -> ray_type (rs_ray st) <> "faerie_fire"%string -> sc_sfo sc = Some f ->
    nth_error (rs_world st) (se_idx s) = Some o ->
    optic_do_intersect o (fly (rs_ray st) (distance_between (position (rs_ray st)) (se_pt s))) (se_pt s) (se_normal s) f = Ok (r2, o') ->
    st' = mkRun r2 (set_nth (rs_world st) (se_idx s) o') (rs_count st + 1)
                (nsub (rs_remaining st) (distance_between (position (rs_ray st)) (se_pt s))) (sc_sel sc) (sc_sfo sc) ->
    outcome md st st'.
Lemma body_outcome md st st' : run_body md st = Ok st' -> outcome md st st'.
Proof.
  unfold run_body. intros H. apply bind_ok in H. destruct H as (sc & E & H). destruct (sc_hit sc) eqn:HH; cbn [negb] in H.
  - apply bind_ok in H. destruct H as (s & Es & H). apply bound_ok in Es.
    destruct (String.eqb (ray_type (rs_ray st)) "faerie_fire") eqn:F.
    + apply String.eqb_eq in F. injection H as <-. eapply out_faerie; eauto.
    + apply String.eqb_neq in F. apply bind_ok in H. destruct H as (f & Ef & H). apply bound_ok in Ef.
      destruct (nth_error (rs_world st) (se_idx s)) as [o|] eqn:En; [|discriminate].
      apply bind_ok in H. destruct H as ([r2 o'] & Ed & H). injection H as <-. eapply out_hit; eauto.
  - injection H as <-. eapply out_miss; eauto.
Qed.

(** the scan only ever selects a hit just reported by an optic of the list *)
Lemma scan_sel r rem l : forall st idx st', scan r rem st idx l = Ok st' ->
  (sc_sel st' = sc_sel st /\ sc_min st' = sc_min st) \/
  exists k o h pt, nth_error l k = Some o /\ skipped o = false /\ optic_test_intersect o r = Ok h /\ h4_flag h = true /\
    h4_pt h = Some pt /\ sc_sel st' = Some (mkSel (idx + k) pt (h4_normal h)) /\ sc_hit st' = true.
Proof.
  assert (Mono : forall l st idx st', scan r rem st idx l = Ok st' -> sc_hit st = true -> sc_hit st' = true).
  { clear. induction l as [|o l IH]; cbn [scan]; intros st idx st' H Hh.
    - injection H as <-. exact Hh.
    - apply bind_ok in H. destruct H as (st1 & E & H). apply (IH _ _ _ H).
      unfold scan_step in E. inv_bind; cbn; auto. }
  induction l as [|o l IH]; cbn [scan]; intros st idx st' H.
  - injection H as <-. left. auto.
  - apply bind_ok in H. destruct H as (st1 & E & H). pose proof (Mono _ _ _ _ H) as Mn.
    apply IH in H. destruct H as [[Hs Hm]|(k & o' & h & pt & A)].
    + unfold scan_step in E. destruct (skipped o) eqn:Sk; inv_bind; cbn [sc_sel sc_min sc_hit] in *; auto.
      right. exists 0%nat, o. do 2 eexists. rewrite Nat.add_0_r. cbn [nth_error]. repeat split; try eassumption. apply Mn; reflexivity.
    + right. exists (S k), o', h, pt. cbn [nth_error]. replace (idx + S k)%nat with (S idx + k)%nat by lia. exact A.
Qed.

(** C42, one iteration: the ray flies along its direction and appends the point reached *)
Lemma body_history md st st' : run_body md st = Ok st' -> exists dist,
  position (rs_ray st') = vadd (position (rs_ray st)) (vscale dist (direction (rs_ray st))) /\
  point_history (rs_ray st') = point_history (rs_ray st) ++ [position (rs_ray st')] /\
  wavelength (rs_ray st') = wavelength (rs_ray st) /\ order (rs_ray st') = order (rs_ray st) /\ ray_type (rs_ray st') = ray_type (rs_ray st).
Proof.
  intros H. apply body_outcome in H. destruct H as [sc E Hh ->|sc s E Hh Es F ->|sc s f o r2 o' E Hh Es F Ef En Ed ->].
  - exists (rs_remaining st). cbn. auto.
  - eexists. cbn. repeat split.
  - apply do_frame in Ed. destruct Ed as [(P & W & O & H & Y) _]. eexists. cbn [rs_ray rs_world]. rewrite P, W, O, H, Y. cbn. repeat split.
Qed.
(** the history grows by one entry per iteration; the last entry is the position *)
Definition chained (r : ray T) : Prop := exists l, point_history r = l ++ [position r].
Lemma steps_history md maxi n st st' : steps md maxi n st st' -> exists added,
  length added = n /\ point_history (rs_ray st') = point_history (rs_ray st) ++ added /\
  (n <> 0%nat -> exists l, added = l ++ [position (rs_ray st')]) /\ (n = 0%nat -> st' = st) /\
  wavelength (rs_ray st') = wavelength (rs_ray st) /\ order (rs_ray st') = order (rs_ray st) /\ ray_type (rs_ray st') = ray_type (rs_ray st).
Proof.
  induction 1 as [|n st st1 st2 S (added & L & P & _ & _ & W & O & Y) C B].
  - exists []. rewrite app_nil_r. repeat split; congruence.
  - destruct (body_history _ _ _ B) as (dist & Q & Hh & W' & O' & Y'). exists (added ++ [position (rs_ray st2)]).
    rewrite app_length; cbn. split; [lia|]. rewrite Hh, P, <- app_assoc. split; [reflexivity|].
    split; [eauto|]. split; [discriminate|]. repeat split; congruence.
Qed.

(** C41 *)
Lemma run_inert fuel r md w maxi : run_cond maxi (run_init r md w) = false -> run fuel r md w maxi = Ok (r, w).
Proof. intros C. unfold run. destruct fuel; cbn [run_loop]; rewrite C; reflexivity. Qed.

(** C38: bookkeeping *)
Definition recorded (r : ray T) (w w' : list (optic T)) (pt : vec T) : Prop := exists k d,
  nth_error w k = Some (ODetector d) /\ w' = set_nth w k (ODetector (record_hit d pt (wavelength r))).
Lemma steps_world md maxi n st st' : steps md maxi n st st' ->
  rs_world st' = rs_world st \/
  (blocked (rs_ray st') = true /\ exists pt, recorded (rs_ray st) (rs_world st) (rs_world st') pt).
Proof.
  induction 1 as [|n st st1 st2 S IH C B]; [auto|].
  destruct IH as [IH|[K _]]; [|unfold run_cond in C; rewrite K, !andb_false_r in C; discriminate].
  destruct (steps_history _ _ _ _ _ S) as (_ & _ & _ & _ & _ & W & _).
  apply body_outcome in B. destruct B as [sc E Hh ->|sc s E Hh Es F ->|sc s f o r2 o' E Hh Es F Ef En Ed ->]; cbn [rs_world rs_ray]; auto.
  pose proof (do_turns _ _ _ _ _ _ _ Ed) as D. rewrite <- IH. destruct o; try (left; destruct D as [_ ->]; apply set_nth_self, En).
  right. destruct D as [-> ->]. split; [reflexivity|]. exists (se_pt s), (se_idx s), d. cbn. rewrite <- W. auto.
Qed.

(** C40: a faerie-fire ray never interacts *)
Lemma steps_faerie md maxi n st st' : steps md maxi n st st' -> ray_type (rs_ray st) = "faerie_fire"%string ->
  direction (rs_ray st') = direction (rs_ray st) /\ rs_world st' = rs_world st.
Proof.
  intros S F. induction S as [|n st st1 st2 S IH C B]; [auto|]. specialize (IH F).
  destruct (steps_history _ _ _ _ _ S) as (_ & _ & _ & _ & _ & _ & _ & Y).
  apply body_outcome in B. destruct B as [sc E Hh ->|sc s E Hh Es F' ->|sc s f o r2 o' E Hh Es F' Ef En Ed ->]; cbn [rs_world rs_ray]; auto.
  congruence.
Qed.

(** C45: an optic without test_intersect makes every active run raise *)
Lemma scan_err r rem l o : In o l -> skipped o = false -> (exists e, optic_test_intersect o r = Err e) ->
  forall st idx, exists e, scan r rem st idx l = Err e.
Proof.
  intros Hi Hs [e He]. induction l as [|a l IH]; [destruct Hi|]. intros st idx. cbn [scan]. destruct Hi as [->|Hi].
  - unfold scan_step. rewrite Hs, He. cbn. eauto.
  - destruct (scan_step r rem st idx a); cbn; [apply IH, Hi|eauto].
Qed.
Lemma run_err fuel r md w maxi o : In o w -> skipped o = false -> (forall r, exists e, optic_test_intersect o r = Err e) ->
  run_cond maxi (run_init r md w) = true -> exists e, run fuel r md w maxi = Err e.
Proof.
  intros Hi Hs He C. unfold run. destruct fuel; cbn [run_loop]; rewrite C; [cbn; eauto|].
  unfold run_body. cbn [run_init rs_ray rs_remaining rs_sel rs_sfo rs_world].
  destruct (scan_err r md w o Hi Hs (He r) (mkScan false ninf None None) 0) as [e E]. rewrite E. cbn. eauto.
Qed.

(* ---- C44: skipped optics ---- *)
Definition kept (o : optic T) : bool := negb (skipped o).
Definition strip (l : list (optic T)) : list (optic T) := filter kept l.
Definition rank (l : list (optic T)) (k : nat) : nat := length (strip (firstn k l)).
Lemma strip_nth l k o : nth_error l k = Some o -> kept o = true -> nth_error (strip l) (rank l k) = Some o.
Proof.
  unfold rank, strip. revert k; induction l as [|a l IH]; intros [|k]; cbn; try discriminate.
  - intros E; injection E as ->. intros ->. reflexivity.
  - intros E Ho. destruct (kept a); cbn; apply IH; assumption.
Qed.
Lemma strip_set l k o o' : nth_error l k = Some o -> kept o = true -> kept o' = true ->
  strip (set_nth l k o') = set_nth (strip l) (rank l k) o'.
Proof.
  unfold rank, strip. revert k; induction l as [|a l IH]; intros [|k]; cbn; try discriminate.
  - intros E; injection E as ->. intros -> ->. reflexivity.
  - intros E Ho Ho'. destruct (kept a); cbn; rewrite IH by assumption; reflexivity.
Qed.
Lemma rank_set l k o' j o : nth_error l k = Some o -> kept o' = kept o -> rank (set_nth l k o') j = rank l j.
Proof.
  unfold rank, strip. revert k j; induction l as [|a l IH]; intros [|k] [|j]; cbn; try discriminate; auto.
  - intros E; injection E as ->. intros ->. destruct (kept o); reflexivity.
  - intros E Ho. destruct (kept a); cbn; rewrite IH by assumption; reflexivity.
Qed.
(** selections that denote the same optic in a scene and in the stripped scene *)
Definition sel_rel (l : list (optic T)) (s s' : option (@sel T)) : Prop :=
  match s, s' with
  | None, None => True
  | Some a, Some b => se_pt b = se_pt a /\ se_normal b = se_normal a /\ se_idx b = rank l (se_idx a) /\
      (exists o, nth_error l (se_idx a) = Some o /\ kept o = true)
  | _, _ => False
  end.
Definition scan_rel l (a b : @scan_st T) : Prop := sc_hit b = sc_hit a /\ sc_min b = sc_min a /\ sc_sfo b = sc_sfo a /\
  sel_rel l (sc_sel a) (sc_sel b).
Definition res_rel {A B} (P : A -> B -> Prop) (x : Res A) (y : Res B) : Prop :=
  match x, y with Ok a, Ok b => P a b | Err e, Err e' => e = e' | _, _ => False end.
Lemma res_rel_bind {A B A' B'} (P : A -> A' -> Prop) (Q : B -> B' -> Prop) x x' k k' :
  res_rel P x x' -> (forall a a', P a a' -> res_rel Q (k a) (k' a')) -> res_rel Q (bind x k) (bind x' k').
Proof. destruct x, x'; cbn; intros H K; try contradiction; auto. Qed.
Lemma res_rel_same {A B B'} (Q : B -> B' -> Prop) (x : Res A) k k' :
  (forall a, res_rel Q (k a) (k' a)) -> res_rel Q (bind x k) (bind x k').
Proof. destruct x; cbn; auto. Qed.
Lemma rank_app pre o l : rank (pre ++ o :: l) (length pre) = length (strip pre).
Proof. unfold rank. rewrite firstn_app, firstn_all, Nat.sub_diag. cbn. rewrite app_nil_r. reflexivity. Qed.
Lemma scan_step_rel full r rem a b idx idx' o : kept o = true -> nth_error full idx = Some o -> idx' = rank full idx ->
  scan_rel full a b -> res_rel (scan_rel full) (scan_step r rem a idx o) (scan_step r rem b idx' o).
Proof.
  intros Ho Hn -> (Hh & Hm & Hf & Hs). unfold scan_step. unfold kept in Ho. apply negb_true_iff in Ho. rewrite Ho.
  apply res_rel_same. intros h. destruct (h4_flag h).
  2: { cbn. unfold scan_rel; cbn. auto. }
  apply res_rel_same. intros pt. rewrite Hm. destruct (ngt _ rem); [cbn; unfold scan_rel; cbn; auto|].
  destruct (ngt _ _); [|cbn; unfold scan_rel; cbn; auto]. destruct (nlt _ _); cbn; unfold scan_rel; cbn; auto.
  repeat split; auto. exists o. split; [exact Hn|]. unfold kept. rewrite Ho. reflexivity.
Qed.
Lemma scan_strip r rem l : forall pre full a b, full = pre ++ l -> scan_rel full a b ->
  res_rel (scan_rel full) (scan r rem a (length pre) l) (scan r rem b (length (strip pre)) (strip l)).
Proof.
  induction l as [|o l IH]; intros pre full a b -> R; cbn [scan]; [exact R|].
  assert (Next : forall a b, scan_rel (pre ++ o :: l) a b ->
     res_rel (scan_rel (pre ++ o :: l)) (scan r rem a (S (length pre)) l) (scan r rem b (length (strip (pre ++ [o]))) (strip l))).
  { intros a0 b0 R0. specialize (IH (pre ++ [o]) (pre ++ o :: l) a0 b0).
    rewrite app_length, Nat.add_1_r in IH. apply IH; [rewrite <- app_assoc; reflexivity|exact R0]. }
  unfold strip in *. cbn [filter]. rewrite filter_app, app_length in Next. cbn [filter] in Next. destruct (kept o) eqn:Ho.
  - cbn [scan length] in *. rewrite Nat.add_1_r in Next. eapply res_rel_bind; [|exact Next].
    apply scan_step_rel; [exact Ho| | |exact R].
    + rewrite nth_error_app2, Nat.sub_diag by lia. reflexivity.
    + symmetry. apply rank_app.
  - rewrite Nat.add_0_r in Next. unfold scan_step at 1. unfold kept in Ho. apply negb_false_iff in Ho. rewrite Ho. cbn [bind]. apply Next, R.
Qed.
Definition st_rel (a b : @run_st T) : Prop := rs_ray b = rs_ray a /\ rs_world b = strip (rs_world a) /\ rs_count b = rs_count a /\
  rs_remaining b = rs_remaining a /\ rs_sfo b = rs_sfo a /\ sel_rel (rs_world a) (rs_sel a) (rs_sel b).
Lemma do_kept o r pt n s r' o' : optic_do_intersect o r pt n s = Ok (r', o') -> kept o' = kept o.
Proof. intros H. apply do_frame in H. destruct H as [_ H]. unfold kept. congruence. Qed.
Lemma body_strip md a b : st_rel a b -> res_rel st_rel (run_body md a) (run_body md b).
Proof.
  intros (R1 & R2 & R3 & R4 & R5 & R6). unfold run_body. rewrite R1, R2, R3, R4, R5.
  apply (res_rel_bind (scan_rel (rs_world a))).
  { apply (scan_strip (rs_ray a) (rs_remaining a) (rs_world a) [] (rs_world a)); [reflexivity|]. repeat split; exact R6. }
  intros x y (Hh & Hm & Hf & Hs). rewrite Hh, Hf. destruct (sc_hit x); cbn [negb].
  2: { cbn. repeat split; assumption. }
  destruct (sc_sel x) as [s|] eqn:Es, (sc_sel y) as [s'|] eqn:Es'; cbn in Hs; try tauto; [|reflexivity].
  destruct Hs as (P & Q & I & o & En & Ho). cbn [bound bind]. rewrite P, Q, I.
  destruct (String.eqb _ _).
  { cbn. repeat split; auto. exists o. auto. }
  apply res_rel_same. intros f. rewrite En, (strip_nth _ _ _ En Ho).
  destruct (optic_do_intersect o _ _ _ f) as [[r2 o']|e] eqn:Ed; cbn; [|reflexivity].
  pose proof (do_kept _ _ _ _ _ _ _ Ed) as K. repeat split; cbn; auto.
  - symmetry. apply (strip_set _ _ o); [exact En|exact Ho|congruence].
  - rewrite I. symmetry. apply (rank_set _ _ _ _ o); assumption.
  - exists o'. split; [eapply nth_set_same, En|congruence].
Qed.
Lemma run_strip fuel r md w maxi : run fuel r md (strip w) maxi = do (r', w') <- run fuel r md w maxi; Ok (r', strip w').
Proof.
  assert (G : forall fuel a b, st_rel a b -> res_rel st_rel (run_loop fuel md maxi a) (run_loop fuel md maxi b)).
  { clear. induction fuel; intros a b R; cbn [run_loop];
    assert (C : run_cond maxi b = run_cond maxi a) by (destruct R as (R1 & R2 & R3 & R4 & R5 & R6); unfold run_cond; rewrite R1, R3, R4; reflexivity);
    rewrite C; destruct (run_cond maxi a); try exact R; [reflexivity|].
    eapply res_rel_bind; [apply body_strip, R|exact IHfuel]. }
  unfold run. specialize (G fuel (run_init r md w) (run_init r md (strip w))).
  assert (I : st_rel (run_init r md w) (run_init r md (strip w))) by (repeat split). specialize (G I).
  destruct (run_loop fuel md maxi (run_init r md w)), (run_loop fuel md maxi (run_init r md (strip w))); cbn in G |- *; try tauto.
  - destruct G as (R1 & R2 & _). rewrite R1, R2. reflexivity.
  - congruence.
Qed.

(* ---- C39: detector logs do not influence rays ---- *)
Definition log_of (o : optic T) : list (vec T * T) := match o with ODetector d => de_hit_data d | _ => [] end.
Definition with_log (o : optic T) (l : list (vec T * T)) : optic T :=
  match o with
  | ODetector d => ODetector (mkDetector (de_position d) (de_normal d) (de_tangent d) (de_shape d) (de_surfaces d) l)
  | _ => o
  end.
(** append a list of records to the log of each optic *)
Definition add_log (o : optic T) (l : list (vec T * T)) : optic T := with_log o (log_of o ++ l).
Fixpoint add_logs (w : list (optic T)) (ls : list (list (vec T * T))) : list (optic T) :=
  match w, ls with
  | o :: w, l :: ls => add_log o l :: add_logs w ls
  | w, _ => w
  end.
Definition fresh (o : optic T) : optic T := with_log o [].
Definition no_logs (w : list (optic T)) : list (list (vec T * T)) := map (fun _ => []) w.
Lemma fresh_add o l : fresh (add_log o l) = fresh o. Proof. destruct o; reflexivity. Qed.
Lemma add_nil o : add_log o [] = o.
Proof. destruct o; try reflexivity. unfold add_log; cbn. rewrite app_nil_r. destruct d; reflexivity. Qed.
Lemma add_logs_nil w : add_logs w (no_logs w) = w.
Proof. induction w as [|o w IH]; cbn; [reflexivity|]. rewrite add_nil. f_equal. exact IH. Qed.
Lemma fresh_add_logs w ls : map fresh (add_logs w ls) = map fresh w.
Proof. revert ls; induction w as [|o w IH]; intros [|l ls]; cbn; auto. rewrite fresh_add, IH. reflexivity. Qed.
Lemma test_fresh o r : optic_test_intersect (fresh o) r = optic_test_intersect o r. Proof. destruct o; reflexivity. Qed.
Lemma test_same o o' r : fresh o = fresh o' -> optic_test_intersect o r = optic_test_intersect o' r.
Proof. rewrite <- (test_fresh o), <- (test_fresh o'). intros ->. reflexivity. Qed.
Lemma skipped_same o o' : fresh o = fresh o' -> skipped o = skipped o'.
Proof. intros E. assert (S : forall o, skipped (fresh o) = skipped o) by (intros []; reflexivity). rewrite <- (S o), <- (S o'), E. reflexivity. Qed.
(** same interaction, same record *)
Lemma do_same o o2 r pt n s : fresh o = fresh o2 -> exists add,
  res_rel (fun x y => fst x = fst y /\ snd x = add_log o add /\ snd y = add_log o2 add)
    (optic_do_intersect o r pt n s) (optic_do_intersect o2 r pt n s).
Proof.
  intros E. destruct o, o2; try discriminate E; try (injection E as E'; subst); cbn [optic_do_intersect];
   try solve [exists []; apply res_rel_same; intros a; cbn; auto | exists []; cbn; auto].
  exists [(pt, wavelength r)]. cbn. unfold record_hit, add_log; cbn. auto.
Qed.
Lemma scan_same r rem l : forall l2 st idx, map fresh l = map fresh l2 -> scan r rem st idx l = scan r rem st idx l2.
Proof.
  induction l as [|o l IH]; intros [|o2 l2] st idx; cbn [map]; try discriminate; [reflexivity|].
  intros E. assert (E1 : fresh o = fresh o2) by congruence. assert (E2 : map fresh l = map fresh l2) by congruence.
  cbn [scan]. unfold scan_step. rewrite (skipped_same o o2 E1), (test_same o o2 r E1).
  match goal with |- bind ?x _ = bind ?y _ => destruct x; cbn; [apply IH, E2|reflexivity] end.
Qed.
Fixpoint log_at (k : nat) (add : list (vec T * T)) (n : nat) : list (list (vec T * T)) :=
  match n with O => [] | S n => match k with O => add :: repeat [] n | S k => [] :: log_at k add n end end.
Lemma add_logs_rep w : add_logs w (repeat [] (length w)) = w.
Proof. induction w; cbn; [reflexivity|]. rewrite add_nil, IHw. reflexivity. Qed.
Lemma set_log w : forall k o add, nth_error w k = Some o -> set_nth w k (add_log o add) = add_logs w (log_at k add (length w)).
Proof.
  induction w as [|a w IH]; intros [|k] o add; cbn; try discriminate.
  - intros E; injection E as ->. rewrite add_logs_rep. reflexivity.
  - intros E. rewrite add_nil, (IH _ _ _ E). reflexivity.
Qed.
(** pointwise concatenation of log increments *)
Fixpoint zip_app (a b : list (list (vec T * T))) : list (list (vec T * T)) :=
  match a, b with x :: a, y :: b => (x ++ y) :: zip_app a b | _, _ => [] end.
Lemma add_add o a b : add_log (add_log o a) b = add_log o (a ++ b).
Proof. destruct o; try reflexivity. unfold add_log; cbn. rewrite app_assoc. reflexivity. Qed.
Lemma add_logs_zip w : forall a b, length a = length w -> length b = length w ->
  add_logs (add_logs w a) b = add_logs w (zip_app a b).
Proof.
  induction w as [|o w IH]; intros [|x a] [|y b]; cbn; try discriminate; auto. intros La Lb.
  rewrite add_add, IH by lia. reflexivity.
Qed.
Lemma zip_length a : forall b, length a = length b -> length (zip_app a b) = length a.
Proof. induction a; intros [|y b]; cbn; try discriminate; auto. Qed.
Lemma log_at_length n : forall k add, length (log_at k add n) = n.
Proof. induction n; intros [|k] add; cbn; auto. rewrite repeat_length. reflexivity. Qed.
Lemma add_logs_length w : forall ls, length (add_logs w ls) = length w.
Proof. induction w; intros [|l ls]; cbn; auto. Qed.

Definition log_rel (w w2 : list (optic T)) (a b : @run_st T) : Prop :=
  rs_ray b = rs_ray a /\ rs_count b = rs_count a /\ rs_remaining b = rs_remaining a /\ rs_sfo b = rs_sfo a /\ rs_sel b = rs_sel a /\
  exists ls, length ls = length w /\ rs_world a = add_logs w ls /\ rs_world b = add_logs w2 ls.
Lemma nth_fresh w : forall w2 k o, map fresh w = map fresh w2 -> nth_error w k = Some o ->
  exists o2, nth_error w2 k = Some o2 /\ fresh o = fresh o2.
Proof.
  induction w as [|a w IH]; intros [|a2 w2] [|k] o; cbn; try discriminate; intros E.
  - intros X; injection X as ->. exists a2. split; congruence.
  - apply IH. congruence.
Qed.
Lemma nth_none_fresh w : forall w2 k, map fresh w = map fresh w2 -> nth_error w k = None -> nth_error w2 k = None.
Proof.
  intros w2 k E. rewrite !nth_error_None. rewrite <- (map_length fresh w), <- (map_length fresh w2), E. auto.
Qed.
Lemma body_log md w w2 a b : map fresh w = map fresh w2 -> log_rel w w2 a b -> res_rel (log_rel w w2) (run_body md a) (run_body md b).
Proof.
  intros E (R1 & R2 & R3 & R4 & R5 & ls & L & Wa & Wb). unfold run_body. rewrite R1, R2, R3, R4, R5.
  assert (LW : length w = length w2) by (rewrite <- (map_length fresh w), <- (map_length fresh w2), E; reflexivity).
  assert (EW : map fresh (rs_world a) = map fresh (rs_world b)) by (rewrite Wa, Wb, !fresh_add_logs; exact E).
  rewrite (scan_same _ _ _ _ _ _ EW). apply res_rel_same. intros sc. destruct (negb (sc_hit sc)).
  { cbn. repeat split. exists ls. auto. }
  apply res_rel_same. intros s. destruct (String.eqb _ _).
  { cbn. repeat split. exists ls. auto. }
  apply res_rel_same. intros f. destruct (nth_error (rs_world a) (se_idx s)) as [o|] eqn:En.
  2: { rewrite (nth_none_fresh _ _ _ EW En). reflexivity. }
  destruct (nth_fresh _ _ _ _ EW En) as (o2 & En2 & Eo). rewrite En2.
  destruct (do_same o o2 (fly (rs_ray a) (distance_between (position (rs_ray a)) (se_pt s))) (se_pt s) (se_normal s) f Eo) as (add & D).
  eapply res_rel_bind; [exact D|]. intros [r2 o'] [r2' o2'] (X & Y & Z). cbn in X, Y, Z. subst. cbn. repeat split. cbn.
  exists (zip_app ls (log_at (se_idx s) add (length w))).
  rewrite (set_log _ _ _ _ En), (set_log _ _ _ _ En2), Wa, Wb, !add_logs_length, <- LW.
  rewrite !add_logs_zip by (rewrite ?log_at_length; lia). rewrite zip_length by (rewrite log_at_length; lia). auto.
Qed.
(** the same ray in two scenes that differ only in their logs *)
Lemma run_log fuel r md w w2 maxi : map fresh w = map fresh w2 ->
  res_rel (fun x y => fst x = fst y /\ exists ls, length ls = length w /\ snd x = add_logs w ls /\ snd y = add_logs w2 ls)
    (run fuel r md w maxi) (run fuel r md w2 maxi).
Proof.
  intros E.
  assert (G : forall fuel a b, log_rel w w2 a b -> res_rel (log_rel w w2) (run_loop fuel md maxi a) (run_loop fuel md maxi b)).
  { clear fuel r. induction fuel; intros a b R; cbn [run_loop];
    assert (C : run_cond maxi b = run_cond maxi a) by (destruct R as (R1 & R3 & R4 & _); unfold run_cond; rewrite R1, R3, R4; reflexivity);
    rewrite C; destruct (run_cond maxi a); try exact R; [reflexivity|].
    eapply res_rel_bind; [apply body_log; [exact E|exact R]|exact IHfuel]. }
  unfold run. eapply res_rel_bind.
  - apply G. repeat split. exists (no_logs w).
    assert (L : length (no_logs w) = length w) by apply map_length. split; [exact L|]. cbn. rewrite add_logs_nil. split; [reflexivity|].
    assert (NL : no_logs w = no_logs w2).
    { clear - E. revert w2 E. induction w; intros [|b w2] E; try discriminate E; [reflexivity|]. cbn. f_equal. apply IHw. cbn in E. congruence. }
    rewrite NL, add_logs_nil. reflexivity.
  - intros a b (R1 & _ & _ & _ & _ & ls & L & Wa & Wb). cbn. split; [congruence|]. exists ls. auto.
Qed.
Lemma add_transfer o o2 a b : fresh o = fresh o2 -> add_log o a = add_log o b -> add_log o2 a = add_log o2 b.
Proof.
  destruct o, o2; try discriminate; intros E H; try reflexivity. unfold add_log in *; cbn in *. injection H as H.
  apply app_inv_head in H. subst. reflexivity.
Qed.
Lemma add_logs_transfer w : forall w2 a b, map fresh w = map fresh w2 -> add_logs w a = add_logs w b -> length a = length w -> length b = length w -> add_logs w2 a = add_logs w2 b.
Proof.
  induction w as [|o w IH]; intros [|o2 w2] [|x a] [|y b]; cbn; try discriminate; auto. intros E H La Lb.
  f_equal; [apply (add_transfer o); congruence|apply IH; try congruence; lia].
Qed.
(** every ray of a list behaves as if alone; logs are concatenated in ray order *)
Lemma run_all_log fuel rs md maxi : forall w,
  (forall rs' w', run_all fuel rs md w maxi = Ok (rs', w') -> exists lss,
     w' = fold_left add_logs lss w /\ length lss = length rs /\
     Forall2 (fun r p => run fuel r md w maxi = Ok (fst p, add_logs w (snd p)) /\ length (snd p) = length w) rs (combine rs' lss) /\
     length rs' = length rs) /\
  ((forall r, In r rs -> exists x, run fuel r md w maxi = Ok x) -> exists x, run_all fuel rs md w maxi = Ok x).
Proof.
  assert (One : forall r w r' w', run fuel r md w maxi = Ok (r', w') -> exists ls, length ls = length w /\ w' = add_logs w ls).
  { intros r w r' w' E. pose proof (run_log fuel r md w w maxi eq_refl) as G. rewrite E in G. cbn in G. destruct G as (_ & ls & L & A & _). eauto. }
  induction rs as [|r rs IH]; intros w; split.
  - cbn. intros rs' w' E; injection E as <- <-. exists []. repeat split. constructor.
  - cbn. eauto.
  - cbn [run_all]. intros rs' w' E. apply bind_ok in E. destruct E as ([r1 w1] & E1 & E). apply bind_ok in E. destruct E as ([rs2 w2] & E2 & E).
    injection E as <- <-. destruct (One _ _ _ _ E1) as (ls & L & ->). destruct (IH (add_logs w ls)) as [A _].
    destruct (A _ _ E2) as (lss & W & L1 & F & L2). exists (ls :: lss). cbn. split; [exact W|]. split; [congruence|]. split; [|congruence].
    constructor; [cbn; auto|]. clear - F. induction F as [|x [y lx] xs ys [Hx Lx] F IHF]; constructor; [|exact IHF]. cbn in *.
    pose proof (run_log fuel x md (add_logs w ls) w maxi (fresh_add_logs w ls)) as G. rewrite Hx in G. cbn in G.
    destruct (run fuel x md w maxi) as [[y' w'']|]; [|destruct G]. cbn in G. destruct G as (<- & ls' & L' & A & ->).
    rewrite add_logs_length in Lx, L'. split; [|exact Lx]. do 2 f_equal.
    apply (add_logs_transfer (add_logs w ls)); [apply fresh_add_logs|congruence| |]; rewrite add_logs_length; congruence.
  - intros H. cbn [run_all]. destruct (H r (or_introl eq_refl)) as [[r1 w1] E1]. rewrite E1. cbn [bind].
    destruct (One _ _ _ _ E1) as (ls & L & ->). destruct (IH (add_logs w ls)) as [_ B].
    destruct B as [[rs2 w2] E2].
    + intros x Hx. destruct (H x (or_intror Hx)) as [y Ey].
      pose proof (run_log fuel x md (add_logs w ls) w maxi (fresh_add_logs w ls)) as G. rewrite Ey in G.
      destruct (run fuel x md (add_logs w ls) maxi); [eauto|destruct G].
    + rewrite E2. cbn. eauto.
Qed.
End Gen.
