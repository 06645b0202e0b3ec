(** All light that is absorbed is recorded: the ledger of the detectors. *)
From Coq Require Import Reals ZArith Lra Lia String List Bool Permutation.
From Verif Require Import PyErr Num Vec Shapes Csg Optics Spec XReal RVec RunGen RunXr OrderProofs StateXr Props_Ray Props_Loop Props_Run.
Import ListNotations.

(** the wavelengths of all records of all detectors of the scene *)
Definition colours {T} (w : list (optic T)) : list T := flat_map (fun o => match o with ODetector d => map snd (de_hit_data d) | _ => [] end) w.

Section Count.
Context {T : Type} {N : Num T} {TT : Trig T}.
Lemma colours_record (w : list (optic T)) : forall k d pt l, nth_error w k = Some (ODetector d) -> Permutation (colours (set_nth w k (ODetector (record_hit d pt l)))) (l :: colours w).
Proof.
  induction w as [|o w IH]; intros [|k] d pt l H; try discriminate; cbn [nth_error] in H.
  - injection H as ->. cbn [set_nth colours flat_map record_hit de_hit_data]. rewrite map_app. cbn [map snd]. rewrite <- app_assoc. cbn [app]. symmetry. apply Permutation_middle.
  - cbn [set_nth colours flat_map]. fold (colours w). fold (colours (set_nth w k (ODetector (record_hit d pt l)))). rewrite (IH _ _ _ _ H). symmetry. apply Permutation_middle.
Qed.
(** a scan that returns has met no Block *)
Lemma scanned_no_block (r : ray T) rem st i w st' k b : scan r rem st i w = Ok st' -> nth_error w k = Some (OBlock b) -> False.
Proof.
  intros E Hn. assert (F : Forall (test_ok r) w) by (apply (scan_ok r rem w st i); eauto). rewrite Forall_forall in F. destruct (F _ (nth_error_In _ _ Hn)) as [X|(h & X & _)]; cbn in X; discriminate.
Qed.
Lemma steps_ledger md maxi n (st st' : @run_st T) : steps md maxi n st st' -> ray_type (rs_ray st) <> "faerie_fire"%string -> blocked (rs_ray st) = false ->
  (blocked (rs_ray st') = false /\ rs_world st' = rs_world st) \/ (blocked (rs_ray st') = true /\ exists pt, recorded (rs_ray st) (rs_world st) (rs_world st') pt).
Proof.
  intros S F B0. induction S as [|n st st1 st2 S IH C B]; [auto|]. specialize (IH F B0). destruct IH as [[Bl W]|[K _]]; [|unfold run_cond in C; rewrite K, !andb_false_r in C; discriminate].
  destruct (steps_history _ _ _ _ _ S) as (_ & _ & _ & _ & _ & Wl & _ & Ty).
  apply body_outcome in B. destruct B as [sc E Hh ->|sc s E Hh Es F' ->|sc s f o r2 o' E Hh Es F' Ef En Ed ->]; cbn [rs_world rs_ray]; [auto|congruence|].
  pose proof (do_turns _ _ _ _ _ _ _ Ed) as D. rewrite <- W.
  destruct o; try (destruct (scanned_no_block _ _ _ _ _ _ _ _ E En)); try (left; destruct D as [[x ->] ->]; split; [exact Bl|apply set_nth_self, En]).
  right. destruct D as [-> ->]. split; [reflexivity|]. exists (se_pt s), (se_idx s), d. cbn. rewrite <- Wl. auto.
Qed.
Lemma run_ledger fuel (r : ray T) md w maxi r' w' : blocked r = false -> run fuel r md w maxi = Ok (r', w') ->
  Permutation (colours w') ((if andb (blocked r') (negb (String.eqb (ray_type r) "faerie_fire")) then [wavelength r] else []) ++ colours w) /\ wavelength r' = wavelength r /\ ray_type r' = ray_type r.
Proof.
  intros B0 H. unfold run in H. apply bind_ok in H. destruct H as (st & L & H). injection H as <- <-. apply loop_steps in L. destruct L as (n & _ & S & _).
  destruct (steps_history _ _ _ _ _ S) as (_ & _ & _ & _ & _ & Wl & _ & Ty). cbn [run_init rs_ray] in Wl, Ty. split; [|auto].
  destruct (String.eqb_spec (ray_type r) "faerie_fire") as [F|F]; cbn [negb].
  - rewrite andb_false_r. destruct (steps_faerie _ _ _ _ _ S F) as [_ ->]. reflexivity.
  - rewrite andb_true_r. destruct (steps_ledger _ _ _ _ _ S F B0) as [[-> W]|[-> (pt & k & d & En & W)]]; rewrite W; [reflexivity|]. cbn [run_init rs_ray rs_world] in *. cbn [app]. apply colours_record, En.
Qed.
End Count.

(** rays of light that ended absorbed *)
Definition absorbed {T} (r : ray T) : bool := andb (blocked r) (negb (String.eqb (ray_type r) "faerie_fire")).
(* C117.  Any number type: after a fan of rays has run, the wavelengths recorded by all detectors of the scene are those recorded before and those of the rays that
   ended absorbed, each once; no ray is lost and none is counted twice. *)
Theorem C117_ledger : forall T (N : Num T) (TT : Trig T) fuel rs md maxi (w : list (optic T)) rs' w',
  (forall r, In r rs -> blocked r = false) -> run_all fuel rs md w maxi = Ok (rs', w') -> Permutation (colours w') (colours w ++ map wavelength (filter absorbed rs')).
Proof.
  intros T N TT fuel rs md maxi. induction rs as [|r rs IH]; intros w rs' w' Bl H; cbn [run_all] in H.
  - injection H as <- <-. cbn. rewrite app_nil_r. reflexivity.
  - apply bind_ok in H. destruct H as ((r1 & w1) & E & H). apply bind_ok in H. destruct H as ((rs1 & w2) & E2 & H). injection H as <- <-.
    destruct (run_ledger _ _ _ _ _ _ _ (Bl r (or_introl eq_refl)) E) as (P & Wl & Ty). rewrite (IH _ _ _ (fun r0 I => Bl r0 (or_intror I)) E2), P. cbn [filter]. unfold absorbed at 2. rewrite Ty.
    destruct (andb (blocked r1) _); cbn [map app]; [rewrite Wl; apply Permutation_middle|reflexivity].
Qed.
Print Assumptions C117_ledger.
(* So the number of records grows by the number of rays absorbed, and for every colour the number of records of that colour by the number of such rays. *)
Theorem C117_count : forall T (N : Num T) (TT : Trig T) fuel rs md maxi (w : list (optic T)) rs' w' (p : T -> bool),
  (forall r, In r rs -> blocked r = false) -> run_all fuel rs md w maxi = Ok (rs', w') ->
  length (filter p (colours w')) = (length (filter p (colours w)) + length (filter (fun r => absorbed r && p (wavelength r)) rs'))%nat.
Proof.
  intros T N TT fuel rs md maxi w rs' w' p Bl H. pose proof (C117_ledger T N TT fuel rs md maxi w rs' w' Bl H) as P.
  assert (G : forall a b : list T, Permutation a b -> length (filter p a) = length (filter p b)).
  { clear. induction 1 as [|x a b _ IH|x y a|a b c _ IH1 _ IH2]; cbn [filter]; [reflexivity|destruct (p x); cbn; congruence|destruct (p x), (p y); reflexivity|congruence]. }
  rewrite (G _ _ P), filter_app, app_length. f_equal. clear. induction rs' as [|r rs IH]; [reflexivity|]. cbn [filter]. destruct (absorbed r); cbn [map filter andb]; [|exact IH]. destruct (p (wavelength r)); cbn [length]; congruence.
Qed.
Print Assumptions C117_count.
(* One ray: it ends absorbed iff one more record is there. *)
Theorem C117_one : forall T (N : Num T) (TT : Trig T) fuel r md maxi (w : list (optic T)) r' w',
  blocked r = false -> ray_type r <> "faerie_fire"%string -> run fuel r md w maxi = Ok (r', w') ->
  (blocked r' = true <-> length (colours w') = Datatypes.S (length (colours w))) /\ (blocked r' = false <-> w' = w).
Proof.
  intros T N TT fuel r md maxi w r' w' Bl F H. unfold run in H. apply bind_ok in H. destruct H as (st & L & H). injection H as <- <-. apply loop_steps in L. destruct L as (n & _ & S & _).
  destruct (steps_ledger _ _ _ _ _ S F Bl) as [[-> W]|[-> (pt & k & d & En & W)]]; cbn [run_init rs_world rs_ray] in *.
  - rewrite W. split; split; intros X; try discriminate; try reflexivity. lia.
  - pose proof (Permutation_length (colours_record w k d pt (wavelength r) En)) as Le. cbn [length] in Le. rewrite W. split; split; intros X; try discriminate; try reflexivity; [exact Le|]. rewrite X in Le. lia.
Qed.
Print Assumptions C117_one.
Example C117_hyp : exists rs' w', run_all 2 [z_ray] (Fin 100) [ODetector (det_at 5)] (Some 1%Z) = Ok (rs', w') /\ length (colours w') = 1%nat /\ length (filter absorbed rs') = 1%nat.
Proof.
  destruct C38_hyp as (r' & w' & E & Ne). exists [r'], w'. cbn [run_all]. rewrite E. split; [reflexivity|].
  assert (F : ray_type z_ray <> "faerie_fire"%string) by discriminate. destruct (C117_one _ _ _ _ _ _ _ _ _ _ (eq_refl : blocked z_ray = false) F E) as [A B].
  assert (Bl : blocked r' = true) by (destruct (blocked r'); [reflexivity|destruct (Ne (proj1 B eq_refl))]). split; [exact (proj1 A Bl)|].
  destruct (run_ledger _ _ _ _ _ _ _ (eq_refl : blocked z_ray = false) E) as (_ & _ & Ty). cbn [filter]. unfold absorbed. rewrite Bl, Ty. reflexivity.
Qed.
