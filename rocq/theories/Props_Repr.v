(** Property C119: the text of rays and optics; C66, the text printed for a ray; C51, which random numbers a faerie-fire ray is made of. *)
From Coq Require Import Reals ZArith Lra Lia Sorted String List Bool.
From Verif Require Import PyErr Num Vec Shapes Csg Optics General Printing Repr Spec XReal RVec VecProofs ElemXr GenProofs PrecProofs FlatProofs RayProofs RunGen
  Props_Print.
Import ListNotations.
Local Open Scope string_scope.

(** The text: the name, then the coordinates of two vectors to five digits. *)
Definition reads {T} {N : Num T} {E : Elem T} (s name : string) (a b : vec T) : Prop := exists x y z u v w,
  to_precision (vx a) 5 = Ok x /\ to_precision (vy a) 5 = Ok y /\ to_precision (vz a) 5 = Ok z /\
  to_precision (vx b) 5 = Ok u /\ to_precision (vy b) 5 = Ok v /\ to_precision (vz b) 5 = Ok w /\
  s = name ++ " (" ++ x ++ ", " ++ y ++ ", " ++ z ++ "),  (" ++ u ++ ", " ++ v ++ ", " ++ w ++ ")".
Section Gen.
Context {T : Type} {N : Num T} {TT : Trig T} {E : Elem T}.
Lemma repr6_reads name (a b : vec T) s : repr6 name a b = Ok s <-> reads s name a b.
Proof.
  unfold repr6, reads. split.
  - destruct (to_precision (vx a) 5) as [x|]; [|discriminate]. destruct (to_precision (vy a) 5) as [y|]; [|discriminate].
    destruct (to_precision (vz a) 5) as [z|]; [|discriminate]. destruct (to_precision (vx b) 5) as [u|]; [|discriminate].
    destruct (to_precision (vy b) 5) as [v|]; [|discriminate]. destruct (to_precision (vz b) 5) as [w|]; [|discriminate].
    cbn [bind]. intros H. injection H as <-. exists x, y, z, u, v, w. repeat split.
  - intros (x & y & z & u & v & w & -> & -> & -> & -> & -> & -> & ->). reflexivity.
Qed.

(* C66.  The text of a ray: its name, position and direction. *)
Theorem C66_text : forall (r : ray T) s, ray_repr r = Ok s <-> reads s "Ray" (position r) (direction r).
Proof. intros r s. apply repr6_reads. Qed.

(* C119.  The text of the optics, any number type.  Mirrors, lenses, gratings and detectors have a text exactly when they have a normal and all
   six numbers can be formatted: their name, position and normal.  All compounds have the same text; all other optics have none. *)
Theorem C119_text : forall (o : optic T) s, optic_repr o = Ok s <->
  match o with
  | OCompound _ => s = "Compound"
  | OMirror m => exists n, mi_normal m = Some n /\ reads s "Mirror" (mi_position m) n
  | OLens l => exists n, le_normal l = Some n /\ reads s "Lens" (le_position l) n
  | OGrating g => reads s "Grating" (gr_position g) (gr_normal g)
  | ODetector d => reads s "Detector" (de_position d) (de_normal d)
  | _ => False
  end.
Proof.
  assert (Q : forall name e (p : vec T) n s, repr_normal name e p n = Ok s <-> exists n', n = Some n' /\ reads s name p n').
  { intros name e p [n|] s; unfold repr_normal.
    - rewrite repr6_reads. split; [eauto|]. intros (n' & H & R). injection H as <-. exact R.
    - split; [|intros (n' & H & _); discriminate]. destruct (to_precision (vx p) 5); [|discriminate]. destruct (to_precision (vy p) 5); [|discriminate].
      destruct (to_precision (vz p) 5); discriminate. }
  intros o s. destruct o; cbn [optic_repr]; try apply Q; try apply repr6_reads; split; try discriminate; try tauto.
  - intros H. injection H as <-. reflexivity.
  - intros ->. reflexivity.
Qed.
Theorem C119_none : forall (b : base T) o, In o [OOptic b; OAnnotation b; OFilter b; OWindow b; OBlock b] -> optic_repr o = Err AttributeError.
Proof. intros b o [<-|[<-|[<-|[<-|[<-|[]]]]]]; reflexivity. Qed.
(* What it depends on: recording light on a detector does not change its text. *)
Theorem C119_after : forall (o : optic T) r pt n f r2 o', optic_do_intersect o r pt n f = Ok (r2, o') -> optic_repr o' = optic_repr o.
Proof.
  intros o r pt n f r2 o' H. destruct o; cbn [optic_do_intersect] in H;
  repeat match type of H with
  | bind ?x _ = _ => destruct x as [[? ?]|] eqn:?; cbn [bind] in H; try discriminate
  | bind ?x _ = _ => destruct x eqn:?; cbn [bind] in H; try discriminate
  | (let (_, _) := ?x in _) = _ => destruct x eqn:?
  | match ?x with _ => _ end = _ => destruct x eqn:?; try discriminate
  end; try (injection H as <- <-; reflexivity).
Qed.
(* So a run changes the text of no optic of the scene, nor does it move one in the list. *)
Theorem C119_run : forall fuel r md (w : list (optic T)) maxi r' w', run fuel r md w maxi = Ok (r', w') -> map optic_repr w' = map optic_repr w.
Proof.
  assert (B : forall md st st', run_body md st = Ok st' -> map optic_repr (rs_world st') = map optic_repr (rs_world st)).
  { intros md st st'. unfold run_body. destruct (scan _ _ _ _ _) as [sc|]; [|discriminate]. cbn [bind]. destruct (negb (sc_hit sc)).
    - intros H. injection H as <-. reflexivity.
    - destruct (sc_sel sc) as [s|]; [|discriminate]. cbn [bound bind]. destruct (String.eqb _ _).
      + intros H. injection H as <-. reflexivity.
      + destruct (sc_sfo sc) as [f|]; [|discriminate]. cbn [bound bind]. destruct (nth_error (rs_world st) (se_idx s)) as [o|] eqn:Eo; [|discriminate].
        destruct (optic_do_intersect o _ _ _ _) as [[r2 o']|] eqn:D; [|discriminate]. cbn [bind]. intros H. injection H as <-. cbn [rs_world].
        rewrite set_nth_map, (C119_after _ _ _ _ _ _ _ D). apply set_nth_self, map_nth_error, Eo. }
  assert (L : forall fuel md maxi st st', run_loop fuel md maxi st = Ok st' -> map optic_repr (rs_world st') = map optic_repr (rs_world st)).
  { induction fuel as [|k IH]; intros md maxi st st'; cbn [run_loop]; destruct (run_cond maxi st); try discriminate; try (intros H; injection H as <-; reflexivity).
    destruct (run_body md st) as [s1|] eqn:E1; [|discriminate]. cbn [bind]. intros H. rewrite (IH _ _ _ _ H). apply (B _ _ _ E1). }
  intros fuel r md w maxi r' w'. unfold run. destruct (run_loop _ _ _ _) as [st|] eqn:El; [|discriminate]. cbn [bind]. intros H. injection H as <- <-.
  apply L in El. exact El.
Qed.
End Gen.
Print Assumptions C119_run.
Print Assumptions C66_text.
Print Assumptions C119_text.
Print Assumptions C119_none.
Print Assumptions C119_after.

(* C119, exact arithmetic: with finite numbers formatting never raises; what is left are optics whose normal is missing or which have no text. *)
Theorem C119_finite : forall p n, 
  (forall sh ty dn ss, exists s, optic_repr (OMirror (mkMirror (fv p) sh (Some (fv n)) ty dn ss)) = Ok s) /\
  (forall sh f ty i ss, exists s, optic_repr (OLens (mkLens (fv p) (Some (fv n)) sh f ty i ss)) = Ok s) /\
  (forall t sh G ss, exists s, optic_repr (OGrating (mkGrating (fv p) (fv n) t sh G ss)) = Ok s) /\
  (forall t sh ss h, exists s, optic_repr (ODetector (mkDetector (fv p) (fv n) t sh ss h)) = Ok s).
Proof. intros p n. repeat split; intros; apply repr_fin. Qed.
Print Assumptions C119_finite.
(* Printing a convex mirror raises AttributeError, a ball lens made without a normal TypeError, whatever else they are made of. *)
Theorem C119_missing :
  (forall p n D w h f t ty dn m, mk_mirror (fv p) "circular_convex_spherical" n D w h f t ty dn = Ok m -> optic_repr (OMirror m) = Err AttributeError) /\
  (forall p sh D f ty i l, mk_lens (fv p) None sh D f ty i = Ok l -> optic_repr (OLens l) = Err TypeError).
Proof.
  assert (Q : forall name e p, repr_normal name e (fv p) None = Err e).
  { intros name e p. unfold repr_normal, fv. cbn [vx vy vz]. destruct (prec_fin (cx p)) as (a & ->), (prec_fin (cy p)) as (b & ->), (prec_fin (cz p)) as (c & ->). reflexivity. }
  split.
  - intros p n D w h f t ty dn m. unfold mk_mirror. destruct (unit_vector_o dn) as [dd|]; [|discriminate]. cbn. destruct (mk_sphere (fv p) None D); [|discriminate].
    cbn. intros H. injection H as <-. apply Q.
  - intros p sh D f ty i l. unfold mk_lens. destruct (String.eqb sh "spherical_biconvex").
    + destruct (mk_circle (fv p) None None D); [|discriminate]. cbn [bind]. intros H. injection H as <-. apply Q.
    + destruct (String.eqb sh "spherical"); [|discriminate]. destruct (mk_sphere (fv p) None D); [|discriminate]. cbn [bind]. intros H. injection H as <-. apply Q.
Qed.
Print Assumptions C119_missing.
Example C119_hyp : (exists m, mk_mirror (fv r3zero) "circular_convex_spherical" None (Some (Fin 2)) None None None None "normal" (Some (fv (mk3 0 0 1))) = Ok m) /\
  (exists l, mk_lens (fv r3zero) None "spherical" (Some (Fin 2)) None "normal" (Fin 1) = Ok l) /\
  optic_repr (ODetector (mkDetector (fv r3zero) (fv r3zero) (fv r3zero) "rectangular_flat" [] [])) = Ok "Detector (0.0000, 0.0000, 0.0000),  (0.0000, 0.0000, 0.0000)".
Proof.
  split; [eexists; reflexivity|]. split; [eexists; reflexivity|]. cbn [optic_repr de_position de_normal]. apply repr6_reads.
  assert (Z : to_precision (Fin 0) 5 = Ok "0.0000"). { unfold to_precision. rewrite neqb_fin, (Reqb_true _ _ eq_refl). cbn [negb].
    change (nofZ (T := xr) 0) with (Fin 0). rewrite neqb_fin, (Reqb_true _ _ eq_refl). reflexivity. }
  do 6 eexists. repeat split; (exact Z || reflexivity).
Qed.

(* C51.  Which numbers a ray is made of: the stream is read in triples, in order and without reuse; triples shorter than 1e-6 are skipped, every
   other one gives the next ray, and reading stops when there are N. *)
Local Open Scope R_scope.
Lemma draw_steps fuel (draw : nat -> R) : forall used v w u', len v < 1e-6 -> draw_direction fuel (fun i => Fin (draw i)) used (fv v) = Ok (w, u') ->
  exists k, u' = (used + 3 * k + 3)%nat /\ w = fv (triple draw (used + 3 * k)) /\ 1e-6 <= len (triple draw (used + 3 * k)) /\
    forall i, (i < k)%nat -> len (triple draw (used + 3 * i)) < 1e-6.
Proof.
  induction fuel as [|n IH]; intros used v w u' Lv; cbn [draw_direction]; rewrite norm_fv, dec_fin, nlt_fin by lia; rewrite Rltb_true by (cbn; lra); [discriminate|].
  change (V (Fin (draw used)) (Fin (draw (used + 1)%nat)) (Fin (draw (used + 2)%nat))) with (fv (triple draw used)). intros H.
  destruct (Rlt_dec (len (triple draw used)) 1e-6) as [L|L].
  - destruct (IH _ _ _ _ L H) as (k & -> & -> & Lk & Sk). exists (Datatypes.S k). replace (used + 3 * Datatypes.S k)%nat with (used + 3 + 3 * k)%nat by lia.
    repeat split; [exact Lk|]. intros [|i] Hi; [rewrite Nat.mul_0_r, Nat.add_0_r; exact L|]. replace (used + 3 * Datatypes.S i)%nat with (used + 3 + 3 * i)%nat by lia. apply Sk. lia.
  - assert (F : draw_direction n (fun i => Fin (draw i)) (used + 3) (fv (triple draw used)) = Ok (fv (triple draw used), (used + 3)%nat)).
    { destruct n; cbn [draw_direction]; rewrite norm_fv, dec_fin, nlt_fin by lia; rewrite Rltb_false by (cbn; lra); reflexivity. }
    rewrite F in H. injection H as <- <-. exists 0%nat. rewrite Nat.mul_0_r, Nat.add_0_r. repeat split; [lra|]. lia.
Qed.
Theorem C51_draws (fuel : nat) (draw : nat -> R) (old : list (ray xr)) (rad : R) (c : R3) (n : Z) l :
  let tri j := mk3 (draw (3 * j)%nat) (draw (3 * j + 1)%nat) (draw (3 * j + 2)%nat) in
  add_faerie_fire_rays fuel (fun i => Fin (draw i)) old (Fin rad) (fv c) n = Ok l ->
  exists js new, l = (old ++ new)%list /\ StronglySorted lt js /\ List.length js = Z.to_nat n /\
    (forall j, In j js -> 1e-6 <= len (tri j)) /\
    (forall j k, In k js -> (j < k)%nat -> ~ In j js -> len (tri j) < 1e-6) /\
    Forall2 (fun j r => position r = fv (c + rad * dirn (tri j))%r3 /\ direction r = fv (- dirn (tri j))%r3) js new.
Proof.
  intros tri. unfold add_faerie_fire_rays.
  assert (L : forall n a l l', faerie_loop fuel (fun i => Fin (draw i)) (3 * a) (Fin rad) (fv c) n l = Ok l' ->
    exists js new, l' = (l ++ new)%list /\ StronglySorted lt js /\ List.length js = n /\ (forall j, In j js -> (a <= j)%nat) /\
    (forall j, In j js -> 1e-6 <= len (tri j)) /\
    (forall j k, In k js -> (a <= j < k)%nat -> ~ In j js -> len (tri j) < 1e-6) /\
    Forall2 (fun j r => position r = fv (c + rad * dirn (tri j))%r3 /\ direction r = fv (- dirn (tri j))%r3) js new).
  { clear n l. induction n as [|n IH]; intros a l l'; cbn [faerie_loop].
    - intros H. injection H as <-. exists [], []. rewrite app_nil_r. repeat split; try (intros; contradiction); constructor.
    - change (V (nofZ 0) (nofZ 0) (nofZ 0)) with (fv r3zero). destruct (draw_direction _ _ _ _) as [[v u']|] eqn:Ed; [|discriminate]. cbn [bind]. intros H.
      apply draw_steps in Ed; [|rewrite len_zero_r3; lra]. destruct Ed as (k & -> & -> & Lk & Sk).
      replace (3 * a + 3 * k + 3)%nat with (3 * (a + k + 1))%nat in H by lia. apply IH in H. destruct H as (js & new & -> & So & Le & Ge & Lj & Sh & F).
      assert (Et : forall i, triple draw (3 * a + 3 * i) = tri (a + i)%nat). { intros i. unfold triple, tri. replace (3 * a + 3 * i)%nat with (3 * (a + i))%nat by lia. reflexivity. }
      rewrite Et in *. assert (Nz : tri (a + k)%nat <> r3zero). { intros Z. rewrite Z, len_zero_r3 in Lk. lra. }
      exists ((a + k)%nat :: js), (faerie_ray (Fin rad) (fv c) (fv (tri (a + k)%nat)) :: new). rewrite <- app_assoc. split; [reflexivity|]. split; [|split; [|split; [|split; [|split]]]].
      + constructor; [exact So|]. apply Forall_forall. intros j Hj. apply Ge in Hj. lia.
      + cbn. congruence.
      + intros j [<-|Hj]; [lia|]. apply Ge in Hj. lia.
      + intros j [<-|Hj]; [exact Lk|apply Lj, Hj].
      + intros j q Hq Hj Nj. assert (Nk : j <> (a + k)%nat) by (intros ->; apply Nj; left; reflexivity).
        destruct (Nat.lt_ge_cases j (a + k)) as [Lt|G].
        * specialize (Sk (j - a)%nat ltac:(lia)). rewrite Et in Sk. replace (a + (j - a))%nat with j in Sk by lia. exact Sk.
        * destruct Hq as [<-|Hq]; [lia|]. apply (Sh j q Hq); [lia|]. intros Hj'. apply Nj. right. exact Hj'.
      + constructor; [|exact F]. unfold faerie_ray. cbv zeta. change (vdivs (fv (tri (a + k)%nat)) (norm (fv (tri (a + k)%nat)))) with (unit_vector (fv (tri (a + k)%nat))).
        rewrite unit_vector_fv by exact Nz. rewrite vopp_fv, vscale_fv, vadd_fv. unfold mk_ray. rewrite unit_vector_unit by (apply unit_opp, dirn_unit, Nz). split; reflexivity. }
  intros H. change 0%nat with (3 * 0)%nat in H. apply L in H. destruct H as (js & new & H1 & H2 & H3 & _ & H5 & H6 & H7). exists js, new.
  repeat split; auto. intros j k Hk Hj. apply (H6 j k Hk). lia.
Qed.
Print Assumptions C51_draws.
