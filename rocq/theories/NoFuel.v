(** The error OutOfFuel is not a Python exception: only the fuel of the loop model produces it. *)
From Coq Require Import ZArith String List Bool Lia.
From Verif Require Import PyErr Num Vec Shapes Csg Optics.
Import ListNotations.

Definition fine {A} (x : Res A) : Prop := x <> Err OutOfFuel.
Lemma fine_ok {A} (a : A) : fine (Ok a). Proof. discriminate. Qed.
Lemma fine_bind {A B} (x : Res A) (k : A -> Res B) : fine x -> (forall a, fine (k a)) -> fine (bind x k).
Proof. destruct x as [a|e]; cbn; intros H K; [apply K|]. intros E; injection E as ->. apply H; reflexivity. Qed.
Lemma fine_need {A} (o : option A) : fine (need o). Proof. destruct o; discriminate. Qed.
Lemma fine_bound {A} (o : option A) : fine (bound o). Proof. destruct o; discriminate. Qed.

#[global] Hint Resolve fine_ok fine_need fine_bound : fine.
Ltac fine := repeat (intros; cbn beta; match goal with
  | |- fine (Ok _) => apply fine_ok
  | |- fine (Err _) => discriminate
  | |- fine (bind _ _) => apply fine_bind
  | |- fine (if ?b then _ else _) => destruct b
  | |- fine (match ?x with _ => _ end) => destruct x
  | |- fine (let x := _ in _) => cbv zeta
  | _ => solve [auto with fine]
  end).

Section Fine.
Context {T : Type} {N : Num T}.
Lemma fine_circle (c : circle T) r : fine (circle_test_intersect c r).
Proof. unfold circle_test_intersect. fine. Qed.
Lemma fine_rect (c : rectangle T) r : fine (rectangle_test_intersect c r).
Proof. unfold rectangle_test_intersect. fine. Qed.
Lemma fine_cyl (c : infcyl T) r : fine (infcyl_test_intersect c r).
Proof. unfold infcyl_test_intersect. fine. Qed.
Lemma fine_cylp (c : infcyl T) r : fine (infcyl_test_point c r).
Proof. unfold infcyl_test_point. fine. Qed.
Hint Resolve fine_circle fine_rect fine_cyl fine_cylp : fine.
Lemma fine_shape (s : shape T) r : fine (shape_test_intersect s r).
Proof. unfold shape_test_intersect. fine. Qed.
Lemma fine_shapep (s : shape T) r : fine (shape_test_point s r).
Proof. unfold shape_test_point. fine. Qed.
Lemma fine_unpack3 (i : ires T) : fine (unpack3 i). Proof. unfold unpack3. fine. Qed.
Lemma fine_unpack6 (i : ires T) : fine (unpack6 i). Proof. unfold unpack6. fine. Qed.
Lemma fine_index6 (i : ires T) : fine (index6 i). Proof. unfold index6. fine. Qed.
Lemma fine_helper (h : hit6 T) r m : fine (helper_findIntersects h r m).
Proof. unfold helper_findIntersects. fine. Qed.
Lemma fine_olt (a b : option T) : fine (olt a b). Proof. unfold olt. fine. Qed.
Hint Resolve fine_shape fine_shapep fine_unpack3 fine_unpack6 fine_index6 fine_helper fine_olt : fine.
Lemma fine_union (a b : hit6 T) r : fine (operCsgUnion a b r). Proof. unfold operCsgUnion. fine. Qed.
Lemma fine_intersect (a b : hit6 T) r : fine (operCsgIntersect a b r). Proof. unfold operCsgIntersect. fine. Qed.
Lemma fine_difference (a b : hit6 T) r : fine (operCsgDifference a b r). Proof. unfold operCsgDifference. fine. Qed.
Hint Resolve fine_union fine_intersect fine_difference : fine.
Lemma csg_oper_fine (k : key T) : fine (csg_oper k) /\ forall f, csg_oper k = Ok f -> forall a b r, fine (f a b r).
Proof.
  unfold csg_oper. destruct k; [|split; [discriminate|discriminate]].
  destruct (String.eqb s "union"), (String.eqb s "difference"), (String.eqb s "intersect"); split; try discriminate;
    intros f E; injection E as <-; auto with fine.
Qed.
Lemma fine_tree (t : tree (key T)) r : fine (test_tree_intersect t r).
Proof.
  induction t as [|k l IHl rt IHr]; cbn [test_tree_intersect]; [fine|].
  assert (K : fine (key_test_intersect k r)) by (unfold key_test_intersect; fine).
  assert (C : fine (do f <- csg_oper k; do a <- Ok (k, l); Ok (I6 (H6 false None None None None 0) : ires T))).
  { apply fine_bind; [apply csg_oper_fine|fine]. }
  apply fine_bind; [exact IHl|intros a]. apply fine_bind; [exact IHr|intros b].
  assert (G : fine (do f <- csg_oper k; do a0 <- index6 a; do b0 <- index6 b; do h <- f a0 b0 r; Ok (I6 h))).
  { destruct (csg_oper_fine k) as [F1 F2]. destruct (csg_oper k) as [f|e]; cbn [bind]; [|intros E; injection E as ->; apply F1; reflexivity].
    specialize (F2 f eq_refl). fine. }
  destruct a, b; assumption.
Qed.
Lemma fine_treep (t : tree (key T)) p : fine (test_tree_point t p).
Proof.
  induction t as [|k l IHl rt IHr]; cbn [test_tree_point]; [fine|].
  assert (K : fine (key_test_point k p)) by (unfold key_test_point; fine).
  assert (G : fine (index_oper k)) by (unfold index_oper; fine).
  fine.
Qed.
Hint Resolve fine_tree fine_treep : fine.
Lemma fine_flat b r st l : fine (@flat_loop T N b r st l).
Proof.
  revert st. induction l as [|s l IH]; intros st; cbn [flat_loop]; [fine|]. apply fine_bind; [|intros; apply IH].
  unfold flat_step. assert (X : fine (surface_normal s)) by (unfold surface_normal; fine). fine.
Qed.
Lemma fine_ball r st h : fine (@ball_update T N r st h). Proof. unfold ball_update. fine. Qed.
Hint Resolve fine_flat fine_ball : fine.
Lemma fine_mirror_ball r st last l : fine (@mirror_ball_loop T N r st last l).
Proof.
  revert st last. induction l as [|s l IH]; intros st last; cbn [mirror_ball_loop]; [fine|].
  destruct s; cbn beta iota; (apply fine_bind; [fine|intros; apply fine_bind; [fine|intros; apply IH]]).
Qed.
Lemma fine_lens_ball r st l : fine (@lens_ball_loop T N r st l).
Proof.
  revert st. induction l as [|s l IH]; intros st; cbn [lens_ball_loop]; [fine|]. apply fine_bind; [fine|intros; apply IH].
Qed.
Hint Resolve fine_mirror_ball fine_lens_ball : fine.
Lemma fine_test (o : optic T) r : fine (optic_test_intersect o r).
Proof.
  destruct o; cbn [optic_test_intersect]; try discriminate;
   unfold compound_test_intersect, mirror_test_intersect, lens_test_intersect, flat_test_intersect; fine.
Qed.
Lemma fine_snell (r : ray T) n a b : fine (refract_snells_law r n a b). Proof. unfold refract_snells_law. fine. Qed.
Lemma fine_thin (r : ray T) l p : fine (refract_thin_lens r l p). Proof. unfold refract_thin_lens. fine. Qed.
Lemma fine_coll (r : ray T) l : fine (refract_ideal_collimate r l). Proof. unfold refract_ideal_collimate. fine. Qed.
Lemma fine_focus (r : ray T) l : fine (refract_ideal_focus r l). Proof. unfold refract_ideal_focus. fine. Qed.
Lemma fine_index (c : compound T) p : fine (compound_index_if_inside c p). Proof. unfold compound_index_if_inside. fine. Qed.
Hint Resolve fine_test fine_snell fine_thin fine_coll fine_focus fine_index : fine.
Context {TT : Trig T}.
Lemma fine_do (o : optic T) r pt n s : fine (optic_do_intersect o r pt n s).
Proof.
  assert (G : forall n g, fine (reflect_grating r n g)) by (intros; unfold reflect_grating; fine).
  destruct o; cbn [optic_do_intersect]; try discriminate;
   unfold compound_do_intersect, mirror_do_intersect, lens_do_intersect, grating_do_intersect; fine.
Qed.
Hint Resolve fine_do : fine.
Lemma fine_scan r rem st idx l : fine (@scan T N r rem st idx l).
Proof.
  revert st idx. induction l as [|o l IH]; intros st idx; cbn [scan]; [fine|]. apply fine_bind; [|intros; apply IH].
  unfold scan_step. fine.
Qed.
Hint Resolve fine_scan : fine.
Lemma fine_body md st : fine (@run_body T N TT md st).
Proof. unfold run_body. fine. Qed.
End Fine.
