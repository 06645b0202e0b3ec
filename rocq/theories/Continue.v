(** Runs that differ in the recorded history or in the budget only. *)
From Coq Require Import Reals ZArith Lra Lia Psatz String List Bool.
From Verif Require Import PyErr Num Vec Shapes Csg Optics Spec XReal RVec VecProofs AngleProofs FlatProofs SphereProofs CylProofs ShapeExtra
  TreeProofs SolidProofs CsgProofs RayProofs RunGen NoFuel RunXr OpticHits StateXr OrderProofs FlatOptic Props_Ray Props_Loop Props_Run SceneProofs.
Import ListNotations.

(* ------------------------------------------------------------------ the history is only written *)
Section Hist.
Context {T : Type} {N : Num T} {TT : Trig T}.
Definition with_hist (r : ray T) (h : list (vec T)) : ray T :=
  mkRay (position r) (direction r) (wavelength r) (order r) h (blocked r) (ray_type r).
Lemma hist_self r : with_hist r (point_history r) = r. Proof. destruct r; reflexivity. Qed.
Lemma hist_shape s r h : shape_test_intersect s (with_hist r h) = shape_test_intersect s r.
Proof. destruct s; reflexivity. Qed.
Lemma hist_tree t r h : test_tree_intersect t (with_hist r h) = test_tree_intersect t r.
Proof.
  induction t as [|k l IHl rt IHr]; [reflexivity|]. cbn [test_tree_intersect]. rewrite IHl, IHr.
  destruct (test_tree_intersect l r) as [a|]; [|reflexivity]. destruct (test_tree_intersect rt r) as [b|]; [|reflexivity]. cbn [bind].
  assert (O : forall f, csg_oper k = Ok f -> forall a b, f a b (with_hist r h) = f a b r).
  { intros f E x y. unfold csg_oper in E. destruct k as [s|sh]; [|discriminate]. destruct (String.eqb s "union"); [injection E as <-; reflexivity|].
    destruct (String.eqb s "difference"); [injection E as <-; reflexivity|]. destruct (String.eqb s "intersect"); [injection E as <-; reflexivity|discriminate]. }
  assert (K : key_test_intersect k (with_hist r h) = key_test_intersect k r) by (destruct k; [reflexivity|apply hist_shape]).
  destruct a, b; try exact K; (destruct (csg_oper k) as [f|]; [specialize (O f eq_refl)|reflexivity]); cbn [bind index6]; try reflexivity; rewrite O; reflexivity.
Qed.
Lemma hist_flat own r h l : forall st, flat_loop own (with_hist r h) st l = flat_loop own r st l.
Proof.
  induction l as [|s l IH]; intros st; [reflexivity|]. cbn [flat_loop]. unfold flat_step. rewrite hist_shape. change (position (with_hist r h)) with (position r).
  match goal with |- bind ?x _ = bind ?x _ => destruct x as [st'|e]; cbn [bind]; [apply IH|reflexivity] end.
Qed.
Lemma hist_update r h st x : ball_update (with_hist r h) st x = ball_update r st x. Proof. reflexivity. Qed.
Lemma hist_mball r h l : forall st last, mirror_ball_loop (with_hist r h) st last l = mirror_ball_loop r st last l.
Proof.
  induction l as [|s l IH]; intros st last; [reflexivity|]. cbn [mirror_ball_loop].
  destruct s; try (destruct (bound last) as [x|e]; cbn [bind]; [|reflexivity]; rewrite hist_update; destruct (ball_update r st x); cbn [bind]; [apply IH|reflexivity]).
  cbn [bind bound]. rewrite hist_update. change (sphere_test_intersect s (with_hist r h)) with (sphere_test_intersect s r).
  match goal with |- bind ?x _ = _ => destruct x; cbn [bind]; [apply IH|reflexivity] end.
Qed.
Lemma hist_lball r h l : forall st, lens_ball_loop (with_hist r h) st l = lens_ball_loop r st l.
Proof.
  induction l as [|s l IH]; intros st; [reflexivity|]. cbn [lens_ball_loop]. destruct s; cbn [bind]; try apply IH.
  change (sphere_test_intersect s (with_hist r h)) with (sphere_test_intersect s r). rewrite hist_update. match goal with |- bind ?x _ = _ => destruct x; cbn [bind]; [apply IH|reflexivity] end.
Qed.
Lemma hist_test o r h : optic_test_intersect o (with_hist r h) = optic_test_intersect o r.
Proof.
  destruct o; try reflexivity; cbn [optic_test_intersect].
  - unfold compound_test_intersect. rewrite hist_tree. reflexivity.
  - unfold mirror_test_intersect. rewrite hist_flat, hist_mball. reflexivity.
  - unfold lens_test_intersect. rewrite hist_flat, hist_lball. reflexivity.
  - unfold flat_test_intersect. rewrite hist_flat. reflexivity.
  - unfold flat_test_intersect. rewrite hist_flat. reflexivity.
Qed.
Lemma hist_scan r h rem l : forall st idx, scan (with_hist r h) rem st idx l = scan r rem st idx l.
Proof.
  induction l as [|o l IH]; intros st idx; [reflexivity|]. cbn [scan]. unfold scan_step. rewrite hist_test. change (position (with_hist r h)) with (position r).
  match goal with |- bind ?x _ = bind ?x _ => destruct x; cbn [bind]; [apply IH|reflexivity] end.
Qed.
Definition hmap {A B} (f : A -> B) (x : Res A) : Res B := match x with Ok a => Ok (f a) | Err e => Err e end.
Lemma hmap_bind {A B C} (f : B -> C) (x : Res A) (k : A -> Res B) : hmap f (bind x k) = bind x (fun a => hmap f (k a)). Proof. destruct x; reflexivity. Qed.
Ltac hs := repeat (rewrite hmap_bind || match goal with
  | |- context [bind ?x] => destruct x as [?|?]; cbn [bind hmap]
  | |- context [if ?b then _ else _] => destruct b; cbn [bind hmap]
  | |- context [let '(_, _) := ?p in _] => destruct p; cbn [bind hmap] end); try reflexivity.
Lemma hist_snell r h n a b : refract_snells_law (with_hist r h) n a b = hmap (fun r' => with_hist r' h) (refract_snells_law r n a b).
Proof. unfold refract_snells_law. cbn [with_hist direction]. hs. Qed.
Lemma hist_thin r h l pt : refract_thin_lens (with_hist r h) l pt = hmap (fun r' => with_hist r' h) (refract_thin_lens r l pt).
Proof. unfold refract_thin_lens. cbn [with_hist direction position]. hs. Qed.
Lemma hist_do o r h pt n s : optic_do_intersect o (with_hist r h) pt n s = hmap (fun ro => (with_hist (fst ro) h, snd ro)) (optic_do_intersect o r pt n s).
Proof.
  assert (W : forall (x : Res (ray T)) (o : optic T), (do r' <- hmap (fun r' => with_hist r' h) x; Ok (r', o)) = hmap (fun ro => (with_hist (fst ro) h, snd ro)) (do r' <- x; Ok (r', o))) by (intros [x|e] o'; reflexivity).
  destruct o; cbn [optic_do_intersect]; try reflexivity; rewrite <- W; f_equal.
  - unfold compound_do_intersect. cbn [with_hist direction]. destruct (String.eqb _ _); [destruct n; reflexivity|]. destruct (String.eqb _ _); [|reflexivity].
    destruct (compound_index_if_inside _ _) as [oi|]; [|reflexivity]. cbn [bind]. destruct oi; (destruct n; [|reflexivity]); cbn [need bind]; apply hist_snell.
  - unfold mirror_do_intersect. destruct (String.eqb _ _); [destruct n; reflexivity|]. destruct (String.eqb _ _); reflexivity.
  - unfold lens_do_intersect. destruct (String.eqb _ _); [apply hist_thin|]. destruct (String.eqb _ _); [unfold refract_ideal_collimate; destruct (le_normal _); reflexivity|].
    destruct (String.eqb _ _); [unfold refract_ideal_focus; destruct (le_normal _); [|reflexivity]; cbn [need bind]; destruct (le_f _); reflexivity|].
    destruct n; [|reflexivity]. cbn [need bind]. destruct (sfo_truthy s); apply hist_snell.
  - unfold grating_do_intersect. destruct n; [|reflexivity]. cbn [need bind]. cbn [with_hist order]. destruct (neqb _ _); [reflexivity|]. unfold reflect_grating. cbn [with_hist direction order wavelength]. destruct (gr_G _); reflexivity.
Qed.

(** the flag that the scan leaves behind: that of the last optic tested *)
Fixpoint last_side (r : ray T) (w : list (optic T)) (acc : option sfo) : option sfo :=
  match w with
  | [] => acc
  | o :: w => if skipped o then last_side r w acc else match optic_test_intersect o r with Ok h => last_side r w (Some (h4_sfo h)) | Err _ => None end
  end.
Lemma scan_side r rem w : forall st i sc, scan r rem st i w = Ok sc -> sc_sfo sc = last_side r w (sc_sfo st).
Proof.
  induction w as [|o w IH]; intros st i sc H; cbn [scan] in H; [injection H as <-; reflexivity|]. apply bind_ok in H. destruct H as (st1 & E & H). rewrite (IH _ _ _ H). cbn [last_side].
  destruct (skipped o) eqn:So; [rewrite scan_step_skip in E by exact So; injection E as <-; reflexivity|]. destruct (scan_sfo_step _ _ _ _ _ _ E So) as (h & Eh & ->). rewrite Eh. reflexivity.
Qed.
Lemma last_side_acc r w : (exists o, In o w /\ skipped o = false) -> forall a b, last_side r w a = last_side r w b.
Proof.
  induction w as [|o w IH]; intros (o0 & I & S) a b; [destruct I|]. cbn [last_side]. destruct (skipped o) eqn:So; [|reflexivity].
  apply IH. destruct I as [<-|I]; [congruence|eauto].
Qed.
Lemma hist_side r h w : forall a, last_side (with_hist r h) w a = last_side r w a.
Proof. induction w as [|o w IH]; intros a; [reflexivity|]. cbn [last_side]. rewrite hist_test. destruct (skipped o); [apply IH|]. destruct (optic_test_intersect o r); [apply IH|reflexivity]. Qed.
Lemma scan_err_any r w e : forall rem st i, scan r rem st i w = Err e -> forall rem' st' i', scan r rem' st' i' w = Err e.
Proof.
  induction w as [|o w IH]; intros rem st i H rem' st' i'; cbn [scan] in H; [discriminate|]. apply bind_err in H. cbn [scan].
  assert (Err_step : forall rem st i, scan_step r rem st i o = Err e -> forall rem' st' i', scan_step r rem' st' i' o = Err e).
  { clear. intros rem st i. unfold scan_step. destruct (skipped o); [discriminate|]. destruct (optic_test_intersect o r) as [h|e']; cbn [bind]; [|auto].
    destruct (h4_flag h); [|discriminate]. destruct (need (h4_pt h)) as [pt|e']; cbn [bind]; [|auto]. destruct (ngt _ _); [discriminate|]. destruct (ngt _ _); [|discriminate]. destruct (nlt _ _); discriminate. }
  destruct H as [H|(st1 & E & H)].
  - rewrite (Err_step _ _ _ H). reflexivity.
  - assert (Tk : test_ok r o) by (apply (scan_step_ok r rem st i); eauto). apply (scan_step_ok r rem' st' i') in Tk. destruct Tk as (st2 & ->). cbn [bind]. eapply IH. exact H.
Qed.
End Hist.

(* ------------------------------------------------------------------ what a run does, without its bookkeeping *)
Local Open Scope R_scope.
(** what happens to the ray r (before the flight) and the optic o that is hit after distance x *)
Definition act (r : ray xr) (x : R) (pt : vec xr) (n : option (vec xr)) (o : optic xr) (w : list (optic xr)) : Res (ray xr * optic xr) :=
  if String.eqb (ray_type r) "faerie_fire" then Ok (set_blocked (fly r (Fin x)), o)
  else do f <- bound (last_side r w None); optic_do_intersect o (fly r (Fin x)) pt n f.
Inductive flows : ray xr -> list (optic xr) -> R -> Res (ray xr * list (optic xr)) -> Prop :=
| F_stop r w rm : rm <= 0 \/ blocked r = true -> flows r w rm (Ok (r, w))
| F_err r w rm e : 0 < rm -> blocked r = false -> (forall rem st i, scan r rem st i w = Err e) -> flows r w rm (Err e)
| F_free r w rm : 0 < rm -> blocked r = false -> Forall (test_ok r) w -> none_reports r rm w -> flows r w rm (Ok (fly r (Fin rm), w))
| F_hit r w rm k x pt n o r2 o' res : 0 < rm -> blocked r = false -> Forall (test_ok r) w -> chosen r rm w k x pt n -> nth_error w k = Some o ->
    act r x pt n o w = Ok (r2, o') -> flows r2 (set_nth w k o') (rm - x) res -> flows r w rm res
| F_hit_err r w rm k x pt n o e : 0 < rm -> blocked r = false -> Forall (test_ok r) w -> chosen r rm w k x pt n -> nth_error w k = Some o ->
    act r x pt n o w = Err e -> flows r w rm (Err e).
Lemma ok_no_err (r : ray xr) w e : Forall (test_ok r) w -> (forall rem st i, scan r rem st i w = Err e) -> False.
Proof. intros Tk H. destruct (proj2 (scan_ok r (Fin 0) w (mkScan false ninf None None) 0) Tk) as (sc & E). rewrite H in E. discriminate. Qed.
Lemma flows_det r w rm res : flows r w rm res -> forall res', flows r w rm res' -> res = res'.
Proof.
  induction 1 as [r w rm C|r w rm e P B E|r w rm P B Tk No|r w rm k x pt n o r2 o' res P B Tk Ch En A F IH|r w rm k x pt n o e P B Tk Ch En A]; intros res' H';
  inversion H' as [r' w' rm' C'|r' w' rm' e' P' B' E'|r' w' rm' P' B' Tk' No'|r' w' rm' k' x' pt' n' ob r2' o'' res'' P' B' Tk' Ch' En' A' F'|r' w' rm' k' x' pt' n' ob e' P' B' Tk' Ch' En' A']; subst;
  try reflexivity; try (exfalso; destruct C as [C|C]; [lra|congruence]); try (exfalso; destruct C' as [C'|C']; [lra|congruence]); try (exfalso; eauto using ok_no_err; fail).
  all: try (exfalso; destruct Ch as [(oo & EE & RR) _]; exact (No' _ _ _ _ _ EE RR)). all: try (exfalso; destruct Ch' as [(oo & EE & RR) _]; exact (No _ _ _ _ _ EE RR)).
  - specialize (E (Fin 0) (mkScan false ninf None None) 0%nat). rewrite E' in E. congruence.
  - destruct (chosen_unique _ _ _ _ _ _ _ _ _ _ _ Ch Ch') as (<- & <- & <- & <-). rewrite En in En'. injection En' as <-. rewrite A in A'. injection A' as <- <-. auto.
  - destruct (chosen_unique _ _ _ _ _ _ _ _ _ _ _ Ch Ch') as (<- & <- & <- & <-). rewrite En in En'. injection En' as <-. congruence.
  - destruct (chosen_unique _ _ _ _ _ _ _ _ _ _ _ Ch Ch') as (<- & <- & <- & <-). rewrite En in En'. injection En' as <-. congruence.
  - destruct (chosen_unique _ _ _ _ _ _ _ _ _ _ _ Ch Ch') as (<- & <- & <- & <-). rewrite En in En'. injection En' as <-. congruence.
Qed.
Lemma loop_flows fuel m : forall st rm, rs_remaining st = Fin rm -> rm <= m -> run_loop fuel (Fin m) None st <> Err OutOfFuel ->
  flows (rs_ray st) (rs_world st) rm (do st' <- run_loop fuel (Fin m) None st; Ok (rs_ray st', rs_world st')).
Proof.
  induction fuel as [|fuel IH]; intros st rm Hr L NF; cbn [run_loop] in *; (destruct (run_cond None st) eqn:C;
   [|cbn [bind]; apply F_stop; unfold run_cond in C; rewrite Hr in C; destruct (blocked (rs_ray st)); [auto|left]; cbn [negb] in C; rewrite !andb_true_r in C; change (ngt (Fin rm) (nofZ 0)) with (Rltb 0 rm) in C; destruct (Rltb_spec 0 rm); [discriminate|lra]]).
  - congruence.
  - assert (P : 0 < rm) by (eapply cond_pos; eassumption). assert (B : blocked (rs_ray st) = false) by (unfold run_cond in C; destruct (blocked (rs_ray st)); [rewrite andb_false_r in C; discriminate|reflexivity]).
    destruct (scan (rs_ray st) (Fin rm) (mkScan false ninf (rs_sel st) (rs_sfo st)) 0 (rs_world st)) as [sc|e] eqn:Sc.
    + assert (Tk : Forall (test_ok (rs_ray st)) (rs_world st)) by exact (proj1 (scan_ok _ _ _ _ _) (ex_intro _ sc Sc)). destruct (scan_nearest _ _ _ _ _ _ Sc) as [(Hh & Hs & No)|(Hh & k & x & pt & n & Hs & Ch)].
      * unfold run_body in *. rewrite Hr, Sc in *. cbn [bind] in *. rewrite Hh in *. cbn [negb bind] in *. rewrite nsub_fin in *.
        assert (E : forall st', rs_remaining st' = Fin (rm - m) -> run_loop fuel (Fin m) None st' = Ok st').
        { intros st' E. assert (run_cond None st' = false) by (apply (cond_spent None st' (rm - m) E); lra). destruct fuel; cbn [run_loop]; rewrite H; reflexivity. }
        rewrite E in * by reflexivity. cbn [bind rs_ray rs_world]. apply F_free; assumption.
      * destruct (proj1 Ch) as (o & En & (Sk & s0 & Et & D & Lx)). pose proof (scan_side _ _ _ _ _ _ Sc) as Sf. cbn [sc_sfo] in Sf.
        rewrite (last_side_acc _ _ ltac:(exists o; split; [eapply nth_error_In; exact En|exact Sk]) _ None) in Sf.
        unfold run_body in *. rewrite Hr, Sc in *. cbn [bind] in *. rewrite Hh, Hs in *. cbn [negb bind bound se_pt se_idx se_normal] in *. rewrite D, nsub_fin, En in *.
        destruct (String.eqb (ray_type (rs_ray st)) "faerie_fire") eqn:Ty.
        -- cbn [bind] in *. eapply F_hit with (o' := o); try eassumption; [unfold act; rewrite Ty; reflexivity|]. rewrite set_nth_self by exact En.
           match goal with |- flows _ _ _ (do _ <- run_loop _ _ _ ?s; _) => apply (IH s (rm - x)) end; [reflexivity|lra|exact NF].
        -- destruct (bound (sc_sfo sc)) as [f|e] eqn:Ef; cbn [bind] in *.
           ++ destruct (optic_do_intersect o (fly (rs_ray st) (Fin x)) pt n f) as [[r2 o']|e] eqn:Ed; cbn [bind] in *.
              ** eapply F_hit with (o' := o'); try eassumption; [unfold act; rewrite Ty, <- Sf, Ef; exact Ed|].
                 match goal with |- flows _ _ _ (do _ <- run_loop _ _ _ ?s; _) => apply (IH s (rm - x)) end; [reflexivity|lra|exact NF].
              ** eapply F_hit_err; try eassumption. unfold act. rewrite Ty, <- Sf, Ef. exact Ed.
           ++ eapply F_hit_err; try eassumption. unfold act. rewrite Ty, <- Sf, Ef. reflexivity.
    + unfold run_body. rewrite Hr, Sc. cbn [bind]. apply F_err; [exact P|exact B|]. intros. eapply scan_err_any. exact Sc.
Qed.
Lemma run_flows fuel r m w : run fuel r (Fin m) w None <> Err OutOfFuel -> flows r w m (run fuel r (Fin m) w None).
Proof.
  unfold run. intros NF. apply (loop_flows fuel m (run_init r (Fin m) w) m); [reflexivity|lra|]. intros E. rewrite E in NF. apply NF. reflexivity.
Qed.

(* ------------------------------------------------------------------ histories *)
Lemma hist_hist (r : ray xr) h h' : with_hist (with_hist r h) h' = with_hist r h'. Proof. reflexivity. Qed.
Lemma fly_hist (r : ray xr) h x : fly (with_hist r h) x = with_hist (fly r x) (h ++ [position (fly r x)]). Proof. reflexivity. Qed.
Lemma hist_ok r h w : Forall (test_ok r) w -> Forall (test_ok (with_hist r h)) (w : list (optic xr)).
Proof. apply Forall_impl. intros o. unfold test_ok. rewrite hist_test. auto. Qed.
Lemma hist_reports (r : ray xr) h rm o x pt n : reports (with_hist r h) rm o x pt n <-> reports r rm o x pt n.
Proof. unfold reports. rewrite hist_test. reflexivity. Qed.
Lemma hist_chosen (r : ray xr) h rm w k x pt n : chosen r rm w k x pt n -> chosen (with_hist r h) rm w k x pt n.
Proof.
  intros [(o & En & R) M]. split; [exists o; split; [exact En|apply hist_reports; exact R]|]. intros j o' d' pt' n' Ej R'. exact (M _ _ _ _ _ Ej (proj1 (hist_reports _ _ _ _ _ _ _) R')).
Qed.
Lemma hist_none (r : ray xr) h rm w : none_reports r rm w -> none_reports (with_hist r h) rm w.
Proof. intros No j o d pt n E R. exact (No _ _ _ _ _ E (proj1 (hist_reports _ _ _ _ _ _ _) R)). Qed.
(** an interaction adds the point reached to the history and nothing else to it *)
Lemma act_frame r x pt n o w r2 o' : act r x pt n o w = Ok (r2, o') -> frame (fly r (Fin x)) r2 /\ skipped o' = skipped o.
Proof.
  unfold act. destruct (String.eqb _ _); [intros E; injection E as <- <-; split; [repeat split|reflexivity]|]. destruct (bound _); cbn [bind]; [|discriminate]. apply do_frame.
Qed.
Lemma act_hist r h x pt n o w : act (with_hist r h) x pt n o w = hmap (fun ro => (with_hist (fst ro) (h ++ [position (fly r (Fin x))]), snd ro)) (act r x pt n o w).
Proof.
  unfold act. change (ray_type (with_hist r h)) with (ray_type r). destruct (String.eqb _ _); [reflexivity|]. rewrite hist_side. destruct (bound _); cbn [bind hmap]; [|reflexivity].
  rewrite fly_hist. apply hist_do.
Qed.
(** the history of the start is only carried along *)
Definition rebase (h : list (vec xr)) (n : nat) (ro : ray xr * list (optic xr)) : ray xr * list (optic xr) :=
  (with_hist (fst ro) (h ++ skipn n (point_history (fst ro))), snd ro).
Lemma flows_hist r w rm res : flows r w rm res -> forall h,
  flows (with_hist r h) w rm (hmap (rebase h (length (point_history r))) res) /\
  forall r' w', res = Ok (r', w') -> exists l, point_history r' = point_history r ++ l.
Proof.
  induction 1 as [r w rm C|r w rm e P B E|r w rm P B Tk No|r w rm k x pt n o r2 o' res P B Tk Ch En A F IH|r w rm k x pt n o e P B Tk Ch En A]; intros h.
  - split; [cbn [hmap]; unfold rebase; cbn [fst snd]; rewrite skipn_all, app_nil_r; apply F_stop; exact C|]. intros r' w' E. injection E as <- <-. exists []. rewrite app_nil_r. reflexivity.
  - split; [|discriminate]. apply F_err; [exact P|exact B|]. intros. rewrite hist_scan. apply E.
  - split; [|intros r' w' E; injection E as <- <-; eexists; reflexivity]. cbn [hmap]. unfold rebase. cbn [fst snd]. 
    replace (skipn (length (point_history r)) (point_history (fly r (Fin rm)))) with [position (fly r (Fin rm))] by (unfold fly; cbn [point_history position]; rewrite skipn_app, skipn_all, Nat.sub_diag; reflexivity).
    rewrite <- fly_hist. apply F_free; [exact P|exact B|apply hist_ok; exact Tk|apply hist_none; exact No].
  - destruct (act_frame _ _ _ _ _ _ _ _ A) as [(_ & _ & _ & Fh & _) _]. assert (Fh' : point_history r2 = point_history r ++ [position (fly r (Fin x))]) by (rewrite Fh; reflexivity). split.
    + specialize (IH (h ++ [position (fly r (Fin x))])). destruct IH as [IH Hl].
      eapply F_hit; [exact P|exact B|apply hist_ok; exact Tk|apply hist_chosen; exact Ch|exact En|rewrite act_hist, A; reflexivity|]. cbn [fst snd].
      replace (hmap (rebase h (length (point_history r))) res) with (hmap (rebase (h ++ [position (fly r (Fin x))]) (length (point_history r2))) res); [exact IH|].
      destruct res as [[r' w']|e]; [|reflexivity]. cbn [hmap]. unfold rebase. cbn [fst snd]. destruct (Hl _ _ eq_refl) as (l & ->). rewrite Fh'. f_equal. f_equal. f_equal.
      rewrite skipn_app, skipn_all, Nat.sub_diag, <- !app_assoc. rewrite skipn_app, skipn_all, Nat.sub_diag. reflexivity.
    + intros r' w' E. destruct (proj2 (IH h) _ _ E) as (l & ->). rewrite Fh', <- app_assoc. eexists. reflexivity.
  - split; [|discriminate]. eapply F_hit_err; [exact P|exact B|apply hist_ok; exact Tk|apply hist_chosen; exact Ch|exact En|rewrite act_hist, A; reflexivity].
Qed.

(* ------------------------------------------------------------------ larger budgets *)
Lemma flows_total r w m : exists res, flows r w m res.
Proof.
  assert (exists fuel, m / 1e-12 + 1 < INR fuel) as (fuel & L).
  { destruct (archimed (m / 1e-12 + 1)) as [A _]. exists (Z.to_nat (up (m / 1e-12 + 1))). rewrite INR_IZR_INZ. eapply Rlt_le_trans; [exact A|]. apply IZR_le. lia. }
  exists (run fuel r (Fin m) w None). apply run_flows, run_terminates. auto.
Qed.
Lemma chosen_more r a b w k x pt n : a <= b -> chosen r a w k x pt n -> chosen r b w k x pt n.
Proof.
  intros L [(o & En & (Sk & s & Et & D & Lx)) M]. split; [exists o; split; [exact En|]; split; [exact Sk|]; exists s; repeat split; try assumption; lra|].
  intros j o' d' pt' n' Ej (Sk' & s' & Et' & D' & Lx'). destruct (Rle_dec d' a) as [La|La].
  - apply (M j o' d' pt' n' Ej). split; [exact Sk'|]. exists s'. repeat split; try assumption; lra.
  - split; [lra|intros; lra].
Qed.
(** a run that stopped: it stopped after an interaction (or blocked), or in the middle of a free flight *)
Lemma flows_split r w a res : flows r w a res -> forall r1 w1, res = Ok (r1, w1) -> 0 <= a -> forall b, 0 <= b ->
  (forall res2, flows r1 w1 b res2 -> flows r w (a + b) res2) \/
  exists r0 a0, r1 = fly r0 (Fin a0) /\ 0 < a0 <= a /\ blocked r0 = false /\ Forall (test_ok r0) w1 /\ none_reports r0 a0 w1 /\
    (forall res2, flows r0 w1 (a0 + b) res2 -> flows r w (a + b) res2).
Proof.
  induction 1 as [r w rm C|r w rm e P B E|r w rm P B Tk No|r w rm k x pt n o r2 o' res P B Tk Ch En A F IH|r w rm k x pt n o e P B Tk Ch En A]; intros r1 w1 Eq La b Lb; try discriminate Eq.
  - injection Eq as <- <-. left. intros res2 F. destruct C as [C|C].
    + replace (rm + b) with b by lra. exact F.
    + inversion F; subst; try congruence. apply F_stop. auto.
  - injection Eq as <- <-. right. exists r, rm. repeat split; auto; lra.
  - destruct (chosen_dist _ _ _ _ _ _ _ Ch) as [Lx Lx']. destruct (IH _ _ Eq ltac:(lra) b Lb) as [I|(r0 & a0 & E1 & L0 & B0 & Tk0 & No & I)].
    + left. intros res2 F2. eapply F_hit; [lra|exact B|exact Tk|eapply chosen_more; [|exact Ch]; lra|exact En|exact A|]. replace (rm + b - x) with (rm - x + b) by lra. auto.
    + right. exists r0, a0. repeat split; auto; try lra. intros res2 F2. eapply F_hit; [lra|exact B|exact Tk|eapply chosen_more; [|exact Ch]; lra|exact En|exact A|].
      replace (rm + b - x) with (rm - x + b) by lra. auto.
Qed.

(* ------------------------------------------------------------------ flat optics and a start moved along the ray *)
Definition flat_or_skipped (o : optic xr) : Prop := skipped o = true \/ exists c u A, flat_optic o c u A.
Lemma flat_tests r p d w : ray_is r p d -> is_unit d -> Forall flat_or_skipped w -> Forall (test_ok r) w.
Proof.
  intros Hr Hd. apply Forall_impl. intros o [S|(c & u & A & V)]; [left; exact S|]. eapply flat_test_ok; eassumption.
Qed.
Lemma flat_last r1 p1 d1 r2 p2 d2 w : ray_is r1 p1 d1 -> is_unit d1 -> ray_is r2 p2 d2 -> is_unit d2 -> Forall flat_or_skipped w -> forall a, last_side r1 w a = last_side r2 w a.
Proof.
  intros H1 U1 H2 U2. induction 1 as [|o w V _ IH]; intros a; [reflexivity|]. cbn [last_side]. destruct (skipped o) eqn:So; [apply IH|].
  destruct V as [V|(c & u & A & V)]; [congruence|].
  destruct (flat_report o c u A r1 p1 d1 V H1 U1) as [t1 _ _ E1|_ E1], (flat_report o c u A r2 p2 d2 V H2 U2) as [t2 _ _ E2|_ E2]; rewrite E1, E2; apply IH.
Qed.
Lemma at_t_at p d a t : at_t (at_t p d a) d t = at_t p d (a + t).
Proof. unfold at_t. r3_ring. Qed.
Lemma flat_ahead o r p d a b x pt n : flat_or_skipped o -> ray_is r p d -> is_unit d -> 0 < a -> reports (fly r (Fin a)) b o x pt n -> reports r (a + b) o (a + x) pt n.
Proof.
  intros [S|(c & u & A & V)] Hr Hd La R; [destruct R as (S' & _); congruence|].
  destruct (flat_axis o c u A u _ _ d b x pt n V (or_introl eq_refl) (fly_ray _ _ _ a Hr) Hd R) as (E & L & C & At & -> & -> & Lx). rewrite at_t_at in *.
  apply (flat_axis_yes o c u A u r p d (a + b) (a + x) V (or_introl eq_refl) Hr Hd); try assumption; try lra.
  replace (c - at_t p d a)%r3 with ((c - p) - a * d)%r3 in E by (unfold at_t; r3_ring). rewrite dot_sub_l, dot_scale_l in E. lra.
Qed.
Lemma flat_behind o r p d a b x pt n : flat_or_skipped o -> ray_is r p d -> is_unit d -> 0 < a -> 
  (forall c u A t, flat_optic o c u A -> 1e-9 < Rabs (d ∙ u) -> 0 < t <= 1e-9 -> on_plane c u (at_t (at_t p d a) d t) -> ~ A (at_t (at_t p d a) d t)) ->
  reports r (a + b) o x pt n -> a < x -> reports (fly r (Fin a)) b o (x - a) pt n.
Proof.
  intros [S|(c & u & A & V)] Hr Hd La Gap R Lax; [destruct R as (S' & _); congruence|].
  destruct (flat_axis o c u A u r p d (a + b) x pt n V (or_introl eq_refl) Hr Hd R) as (E & L & C & At & -> & -> & Lx).
  assert (Eat : at_t p d x = at_t (at_t p d a) d (x - a)) by (rewrite at_t_at; f_equal; lra).
  assert (E' : (c - at_t p d a)%r3 ∙ u = (x - a) * (d ∙ u)) by (replace (c - at_t p d a)%r3 with ((c - p) - a * d)%r3 by (unfold at_t; r3_ring); rewrite dot_sub_l, dot_scale_l; lra).
  rewrite Eat in *. destruct (Rle_dec (x - a) 1e-9) as [G|G].
  - exfalso. apply (Gap c u A (x - a) V C); [lra| |exact At]. unfold on_plane. replace (at_t (at_t p d a) d (x - a) - c)%r3 with ((x - a) * d - (c - at_t p d a))%r3 by (unfold at_t; r3_ring).
    rewrite dot_sub_l, dot_scale_l. lra.
  - apply (flat_axis_yes o c u A u _ _ d b (x - a) V (or_introl eq_refl) (fly_ray _ _ _ a Hr) Hd); try assumption; lra.
Qed.

(** the ray before a flight, from the ray after it *)
Lemma vadd_back (v : vec xr) q P : vadd v (fv q) = fv P -> v = fv (P - q)%r3.
Proof.
  destruct v as [x y z], q as [a b c], P as [e f g]. unfold vadd, fv. cbn [vx vy vz cx cy cz]. intros E. injection E as E1 E2 E3.
  assert (B : forall (s : xr) t u, nadd s (Fin t) = Fin u -> s = Fin (u - t)) by (intros [s| | |] t u H; try discriminate H; rewrite nadd_fin in H; injection H as <-; f_equal; ring).
  rewrite (B _ _ _ E1), (B _ _ _ E2), (B _ _ _ E3). reflexivity.
Qed.
Lemma fly_back (r : ray xr) a P d : ray_is (fly r (Fin a)) P d -> exists p, ray_is r p d /\ P = at_t p d a.
Proof.
  intros [Hp Hd]. cbn [fly position direction] in *. rewrite Hd, vscale_fv in Hp. apply vadd_back in Hp. exists (P - a * d)%r3. split; [split; assumption|]. unfold at_t. r3_ring.
Qed.
Lemma fly_fly (r : ray xr) p d a x : ray_is r p d -> fly r (Fin (a + x)) = with_hist (fly (fly r (Fin a)) (Fin x)) (point_history r ++ [fv (at_t p d (a + x))]).
Proof.
  intros [Hp Hd]. unfold fly, with_hist. cbn [position direction wavelength order point_history blocked ray_type]. rewrite Hp, Hd, !vscale_fv, !vadd_fv.
  replace (p + a * d + x * d)%r3 with (p + (a + x) * d)%r3 by r3_ring. reflexivity.
Qed.
Lemma in_set_nth {A} (w : list A) k (a b : A) : In b (set_nth w k a) -> b = a \/ In b w.
Proof. revert k. induction w as [|c w IH]; intros [|k]; cbn [set_nth]; intros H; auto; destruct H as [<-|H]; cbn; auto. destruct (IH _ H); auto. Qed.

(** from the middle of a free flight: continuing and never having stopped *)
Definition gap (w : list (optic xr)) (P d : R3) : Prop :=
  forall o c u A t, In o w -> flat_optic o c u A -> 1e-9 < Rabs (d ∙ u) -> 0 < t <= 1e-9 -> on_plane c u (at_t P d t) -> ~ A (at_t P d t).
Lemma flows_continue r w a b P d res : ray_is (fly r (Fin a)) P d -> is_unit d -> Forall flat_or_skipped w -> gap w P d -> 0 < a -> 0 <= b -> blocked r = false ->
  none_reports r a w -> flows (fly r (Fin a)) w b res ->
  exists h, (h = point_history (fly r (Fin a)) \/ h = point_history r) /\ flows r w (a + b) (hmap (rebase h (length (point_history (fly r (Fin a))))) res).
Proof.
  intros Hr1 Hd Fw G La Lb B No F. destruct (fly_back _ _ _ _ Hr1) as (p & Hr & ->).
  pose proof (flat_tests r p d w Hr Hd Fw) as Tk.
  assert (Ch2 : forall k x pt n, chosen (fly r (Fin a)) b w k x pt n -> chosen r (a + b) w k (a + x) pt n).
  { intros k x pt n [(o & En & R) M]. rewrite Forall_forall in Fw. split.
    - exists o. split; [exact En|]. apply (flat_ahead o r p d); auto. apply Fw. eapply nth_error_In. exact En.
    - intros j o' d' pt' n' Ej R'. pose proof (nth_error_In _ _ Ej) as Ij. destruct (Rlt_dec a d') as [Lad|Lad].
      + pose proof (flat_behind o' r p d a b d' pt' n' (Fw _ Ij) Hr Hd La (fun c u A t => G o' c u A t Ij) R' Lad) as R2. destruct (M j o' _ _ _ Ej R2). split; [lra|intros L; specialize (H0 L); lra].
      + exfalso. apply (No j o' d' pt' n' Ej). destruct R' as (S' & s' & E' & D' & L'). split; [exact S'|]. exists s'. repeat split; try assumption; lra. }
  inversion F as [r' w' rm' C'|r' w' rm' e' P' B' E'|r' w' rm' P' B' Tk' No'|r' w' rm' k' x' pt' n' ob r2' o'' res'' P' B' Tk' Chs' En' A' F'|r' w' rm' k' x' pt' n' ob e' P' B' Tk' Chs' En' A']; subst.
  - destruct C' as [C'|C']; [|cbn [fly blocked] in C'; congruence]. exists (point_history (fly r (Fin a))). split; [auto|]. cbn [hmap]. unfold rebase. cbn [fst snd]. rewrite skipn_all, app_nil_r, hist_self.
    replace (a + b) with a by lra. apply F_free; assumption.
  - exfalso. eapply ok_no_err; [|exact E']. eapply flat_tests; eassumption.
  - exists (point_history r). split; [auto|]. cbn [hmap]. unfold rebase. cbn [fst snd].
    replace (skipn (length (point_history (fly r (Fin a)))) (point_history (fly (fly r (Fin a)) (Fin b)))) with [position (fly (fly r (Fin a)) (Fin b))]
     by (unfold fly; cbn [point_history position]; rewrite skipn_app, skipn_all, Nat.sub_diag; reflexivity).
    replace (position (fly (fly r (Fin a)) (Fin b))) with (fv (at_t p d (a + b))) by (rewrite <- at_t_at; symmetry; apply (fly_ray _ _ _ b Hr1)).
    rewrite <- (fly_fly r p d a b Hr). apply F_free; [lra|exact B|exact Tk|]. intros j o x pt n Ej R. rewrite Forall_forall in Fw. pose proof (nth_error_In _ _ Ej) as Ij.
    destruct (Rlt_dec a x) as [L|L].
    + exact (No' _ _ _ _ _ Ej (flat_behind o r p d a b x pt n (Fw _ Ij) Hr Hd La (fun c u A t => G o c u A t Ij) R L)).
    + apply (No j o x pt n Ej). destruct R as (S1 & s1 & E1 & D1 & L1). split; [exact S1|]. exists s1. repeat split; try assumption; lra.
  - exists (point_history r). split; [auto|]. 
    assert (A2 : act r (a + x') pt' n' ob w = Ok (with_hist r2' (point_history r ++ [fv (at_t p d (a + x'))]), o'')).
    { unfold act in *. cbn [ray_type fly] in A'. rewrite (fly_fly r p d a x' Hr). destruct (String.eqb _ _); [injection A' as <- <-; reflexivity|].
      rewrite (flat_last _ _ _ _ _ _ w Hr Hd Hr1 Hd Fw). destruct (bound _) as [f|]; cbn [bind] in *; [|discriminate]. rewrite hist_do. rewrite A'. reflexivity. }
    eapply F_hit; [lra|exact B|exact Tk|apply Ch2; exact Chs'|exact En'|exact A2|]. replace (a + b - (a + x')) with (b - x') by lra.
    destruct (flows_hist _ _ _ _ F' (point_history r ++ [fv (at_t p d (a + x'))])) as [F2 Hl]. destruct (act_frame _ _ _ _ _ _ _ _ A') as [(_ & _ & _ & Fh & _) _].
    assert (Fh' : point_history r2' = point_history (fly r (Fin a)) ++ [fv (at_t p d (a + x'))]) by (rewrite Fh, (fly_history _ _ _ _ Hr1), at_t_at; reflexivity).
    destruct res as [[r' w']|e]; [|exact F2]. cbn [hmap] in *. unfold rebase in *. cbn [fst snd] in *. destruct (Hl _ _ eq_refl) as (l & El). rewrite El, Fh' in *.
    rewrite skipn_app, skipn_all, Nat.sub_diag in F2. rewrite <- (app_assoc (point_history (fly r (Fin a)))), skipn_app, skipn_all, Nat.sub_diag. cbn [skipn app] in *. rewrite <- app_assoc in F2. exact F2.
  - exists (point_history r). split; [auto|]. cbn [hmap]. eapply F_hit_err; [lra|exact B|exact Tk|apply Ch2; exact Chs'|exact En'|].
    unfold act in *. cbn [ray_type fly] in A'. rewrite (fly_fly r p d a x' Hr). destruct (String.eqb _ _); [discriminate A'|].
    rewrite (flat_last _ _ _ _ _ _ w Hr Hd Hr1 Hd Fw). destruct (bound _) as [f|]; cbn [bind] in *; [|exact A']. rewrite hist_do, A'. reflexivity.
Qed.
(** an interaction leaves the optics flat *)
Lemma act_flat r x pt n o w r2 o' : flat_or_skipped o -> act r x pt n o w = Ok (r2, o') -> flat_or_skipped o'.
Proof.
  intros V A. destruct (act_frame _ _ _ _ _ _ _ _ A) as [_ Sk]. destruct V as [S|(c & u & Ap & V)]; [left; congruence|right]. unfold act in A. destruct (String.eqb _ _); [injection A as _ <-; eauto|].
  apply bind_ok in A. destruct A as (f & _ & A). exists c, u, Ap. eapply flat_after; eassumption.
Qed.
Lemma flows_flat r w a res : flows r w a res -> Forall flat_or_skipped w -> forall r1 w1, res = Ok (r1, w1) -> Forall flat_or_skipped w1.
Proof.
  induction 1 as [r w rm C|r w rm e P B E|r w rm P B Tk No|r w rm k x pt n o r2 o' res P B Tk Ch En A F IH|r w rm k x pt n o e P B Tk Ch En A]; intros V r1 w1 Eq; try discriminate Eq; try (injection Eq as <- <-; exact V).
  apply (IH ltac:(rewrite Forall_forall in *; intros y Iy; apply in_set_nth in Iy; destruct Iy as [-> |Iy]; [eapply act_flat; [|exact A]; apply V; eapply nth_error_In; exact En|auto]) _ _ Eq).
Qed.
