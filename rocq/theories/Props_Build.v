(** C95: which arguments the constructors of optics accept, which exception the others raise, and what is kept of them (optics3d.py:56-60, 146-173, 325-345, 472-486, 540-552). *)
From Coq Require Import Reals ZArith Lra Lia Psatz String List Bool.
From Verif Require Import PyErr Num Vec Shapes Csg Optics Spec XReal RVec VecProofs FlatProofs SphereProofs CylProofs ShapeExtra Props_Shape.
Import ListNotations.
Local Open Scope R_scope.

(** an optional vector argument; where a vector is given it is not the zero vector *)
Definition fvo (o : option R3) : option (vec xr) := option_map fv o.
Definition nz (o : option R3) : Prop := forall v, o = Some v -> v <> r3zero.
Definition given {A} (o : option A) : Prop := exists a, o = Some a.
(** the arguments of a rectangle: two orthogonal vectors (to 1e-8), two non-negative sizes *)
Definition rect_args (n t : option R3) (h w : option R) : Prop :=
  exists n0 t0 h0 w0, n = Some n0 /\ t = Some t0 /\ h = Some h0 /\ w = Some w0 /\ 0 <= h0 /\ 0 <= w0 /\ Rabs (dirn n0 ∙ dirn t0) <= 1e-8.
(** what can come of a constructor call: [good] arguments give an object with the attributes [kept]; an argument that is [missing] gives a TypeError; all other calls raise ValueError *)
Definition outcome {A} (res : Res A) (good missing : Prop) (kept : A -> Prop) : Prop :=
  (good /\ ~ missing /\ exists a, res = Ok a /\ kept a) \/ (missing /\ ~ good /\ res = Err TypeError) \/ (~ good /\ ~ missing /\ res = Err ValueError).

Lemma outcome_ok A (res : Res A) good missing kept : outcome res good missing kept -> ((exists a, res = Ok a) <-> good).
Proof. intros [(G & _ & a & -> & _)|[(_ & N & ->)|(N & _ & ->)]]; split; eauto; try (intros [a' E]; discriminate); tauto. Qed.
Lemma circle_D c n D : mk_circle c n None (fo (Some D)) = Ok (mkCircle c (Fin (D / 2)) (Fin D) (option_map unit_vector n) (option_map (mk_plane c) n)).
Proof. unfold mk_circle. cbn [fo option_map check_R_and_D bind]. rewrite nofZ_fin, ndiv_fin by lra. destruct n; reflexivity. Qed.
Lemma rect_outcome c n t h w : nz n -> nz t -> outcome (mk_rectangle (fv c) (fvo n) (fvo t) (fo h) (fo w)) (rect_args n t h w) (n = None \/ t = None) (fun _ => True).
Proof.
  intros Zn Zt. destruct n as [n|]; [|right; left; split; [auto|split; [intros (? & ? & ? & ? & E & _); discriminate|reflexivity]]].
  destruct t as [t|]; [|right; left; split; [auto|split; [intros (? & ? & ? & ? & _ & E & _); discriminate|reflexivity]]].
  destruct (C50_rectangle_validation c n t h w (Zn n eq_refl) (Zt t eq_refl)) as [G B]. cbv zeta in G, B.
  destruct (Classical_Prop.classic (rect_args (Some n) (Some t) h w)) as [A|A].
  - left. split; [exact A|]. split; [intros [X|X]; discriminate|]. destruct A as (n0 & t0 & h0 & w0 & En & Et & Eh & Ew & L). injection En as <-. injection Et as <-.
    destruct G as [q Eq]; [exists h0, w0; tauto|]. exists q. auto.
  - right; right. split; [exact A|]. split; [intros [X|X]; discriminate|]. apply B. intros (h0 & w0 & Eh & Ew & L). apply A. exists n, t, h0, w0. tauto.
Qed.

(** Mirrors *)
Definition mirror_good (shp : string) (n : option R3) (D w h f : option R) (t dmd : option R3) : Prop :=
  given dmd /\
  ((shp = "circular_flat"%string /\ given n /\ given D) \/ (shp = "rectangular_flat"%string /\ rect_args n t h w) \/
   (shp = "circular_concave_spherical"%string /\ given n /\ given f /\ given D) \/ (shp = "circular_convex_spherical"%string /\ given D)).
Definition mirror_missing (shp : string) (n : option R3) (f : option R) (t dmd : option R3) : Prop :=
  dmd = None \/ (In shp ["circular_flat"; "rectangular_flat"; "circular_concave_spherical"]%string /\ n = None) \/
  (shp = "rectangular_flat"%string /\ t = None) \/ (shp = "circular_concave_spherical"%string /\ f = None).
Theorem C95_mirror : forall c shp n D w h f t ty dmd, nz n -> nz t -> nz dmd ->
  outcome (mk_mirror (fv c) shp (fvo n) (fo D) (fo w) (fo h) (fo f) (fvo t) ty (fvo dmd)) (mirror_good shp n D w h f t dmd) (mirror_missing shp n f t dmd)
    (fun m => mi_position m = fv c /\ mi_shape m = shp /\ mi_type m = ty /\ (forall a, dmd = Some a -> mi_dmd_normal m = fv (dirn a)) /\
       (shp <> "circular_convex_spherical"%string -> mi_normal m = fvo (option_map dirn n)) /\ (shp = "circular_convex_spherical"%string -> mi_normal m = None)).
Proof.
  intros c shp n D w h f t ty dmd Zn Zt Zd. unfold mk_mirror.
  destruct dmd as [a|]; [|right; left; split; [left; reflexivity|split; [intros [[? E] _]; discriminate|reflexivity]]].
  change (fvo (Some a)) with (Some (fv a)). cbn [unit_vector_o bind]. rewrite unit_vector_fv by (apply Zd; reflexivity).
  assert (Ga : given (Some a)) by (eexists; reflexivity).
  assert (Ka : forall b, Some a = Some b -> fv (dirn a) = fv (dirn b)) by (intros b E; injection E as <-; reflexivity).
  destruct (String.eqb_spec shp "circular_flat") as [->|N1].
  { destruct n as [n|].
    2: { right; left. split; [right; left; split; [left; reflexivity|reflexivity]|]. split; [|reflexivity]. intros [_ [(_ & [? E] & _)|[(E & _)|[(E & _)|(E & _)]]]]; discriminate. }
    cbn [fvo option_map unit_vector_o bind]. rewrite unit_vector_fv by (apply Zn; reflexivity).
    assert (NM : ~ mirror_missing "circular_flat" (Some n) f t (Some a)) by (intros [E|[[_ E]|[[E _]|[E _]]]]; discriminate).
    destruct D as [D|].
    - rewrite circle_D. cbn [bind]. left. split; [split; [exact Ga|left; split; [reflexivity|split; eexists; reflexivity]]|]. split; [exact NM|].
      eexists. split; [reflexivity|]. cbn. do 3 (split; [reflexivity|]). split; [exact Ka|]. split; [reflexivity|discriminate].
    - right; right. split; [intros [_ [(_ & _ & [? E])|[(E & _)|[(E & _)|(E & _)]]]]; discriminate|]. split; [exact NM|reflexivity]. }
  destruct (String.eqb_spec shp "rectangular_flat") as [->|N2].
  { destruct n as [n|].
    2: { right; left. split; [right; left; split; [right; left; reflexivity|reflexivity]|]. split; [|reflexivity]. intros [_ [(E & _)|[(_ & ? & ? & ? & ? & E & _)|[(E & _)|(E & _)]]]]; discriminate. }
    change (fvo (Some n)) with (Some (fv n)). cbn [unit_vector_o bind]. rewrite unit_vector_fv by (apply Zn; reflexivity).
    destruct (rect_outcome c (Some n) t h w Zn Zt) as [(G & M & q & Eq & _)|[(M & G & Eq)|(G & M & Eq)]]; change (fvo (Some n)) with (Some (fv n)) in Eq; rewrite Eq; cbn [bind].
    - left. split; [split; [exact Ga|right; left; auto]|]. split; [intros [E|[[_ E]|[[_ E]|[E _]]]]; try discriminate; apply M; auto|].
      eexists. split; [reflexivity|]. cbn. do 3 (split; [reflexivity|]). split; [exact Ka|]. split; [reflexivity|discriminate].
    - right; left. split; [destruct M as [E|E]; [discriminate|right; right; left; auto]|]. split; [|reflexivity]. intros [_ [(E & _)|[(_ & R)|[(E & _)|(E & _)]]]]; try discriminate. exact (G R).
    - right; right. split; [intros [_ [(E & _)|[(_ & R)|[(E & _)|(E & _)]]]]; try discriminate; exact (G R)|]. split; [intros [E|[[_ E]|[[_ E]|[E _]]]]; try discriminate; apply M; auto|reflexivity]. }
  destruct (String.eqb_spec shp "circular_concave_spherical") as [->|N3].
  { destruct n as [n|].
    2: { right; left. split; [right; left; split; [right; right; left; reflexivity|reflexivity]|]. split; [|reflexivity]. intros [_ [(E & _)|[(E & _)|[(_ & [? E] & _)|(E & _)]]]]; discriminate. }
    cbn [fvo option_map unit_vector_o bind]. rewrite unit_vector_fv by (apply Zn; reflexivity).
    destruct f as [f|].
    2: { right; left. split; [right; right; right; auto|]. split; [|reflexivity]. intros [_ [(E & _)|[(E & _)|[(_ & _ & [? E] & _)|(E & _)]]]]; discriminate. }
    assert (NM : ~ mirror_missing "circular_concave_spherical" (Some n) (Some f) t (Some a)) by (intros [E|[[_ E]|[[E _]|[_ E]]]]; discriminate).
    cbn [need bind fo option_map].
    destruct D as [D|].
    - change (Some (Fin D)) with (fo (Some D)). rewrite circle_D. cbn [bind mk_sphere check_R_and_D]. left.
      split; [split; [exact Ga|right; right; left; split; [reflexivity|split; [eexists; reflexivity|split; eexists; reflexivity]]]|]. split; [exact NM|].
      eexists. split; [reflexivity|]. cbn. do 3 (split; [reflexivity|]). split; [exact Ka|]. split; [reflexivity|discriminate].
    - right; right. split; [intros [_ [(E & _)|[(E & _)|[(_ & _ & _ & [? E])|(E & _)]]]]; discriminate|]. split; [exact NM|reflexivity]. }
  destruct (String.eqb_spec shp "circular_convex_spherical") as [->|N4].
  { assert (NM : ~ mirror_missing "circular_convex_spherical" n f t (Some a)).
    { intros [E|[[I _]|[[E _]|[E _]]]]; try discriminate. cbn in I. destruct I as [I|[I|[I|[]]]]; discriminate. }
    destruct D as [D|].
    - left. split; [split; [exact Ga|right; right; right; split; [reflexivity|eexists; reflexivity]]|]. split; [exact NM|].
      eexists. split; [reflexivity|]. cbn. do 3 (split; [reflexivity|]). split; [exact Ka|]. split; [intros X; destruct (X eq_refl)|reflexivity].
    - right; right. split; [intros [_ [(E & _)|[(E & _)|[(E & _)|(_ & [? E])]]]]; discriminate|]. split; [exact NM|reflexivity]. }
  right; right. split; [intros [_ [(E & _)|[(E & _)|[(E & _)|(E & _)]]]]; contradiction|]. split; [|reflexivity].
  intros [E|[[I _]|[[E _]|[E _]]]]; try contradiction; try discriminate. cbn in I. destruct I as [I|[I|[I|[]]]]; symmetry in I; contradiction.
Qed.
Print Assumptions C95_mirror.

(** Lenses; a flat lens without a normal is built, but every ray that is tested against it raises AttributeError *)
Theorem C95_lens : forall c n shp D f ty ix, nz n ->
  outcome (mk_lens (fv c) (fvo n) shp (fo D) (fo f) ty (Fin ix)) ((shp = "spherical_biconvex"%string \/ shp = "spherical"%string) /\ given D) False
    (fun l => le_position l = fv c /\ le_shape l = shp /\ le_type l = ty /\ le_f l = fo f /\ le_index l = Fin ix /\ le_normal l = fvo (option_map dirn n) /\
       (shp = "spherical_biconvex"%string -> n = None -> forall r, lens_test_intersect l r = Err AttributeError)).
Proof.
  intros c n shp D f ty ix Zn. unfold mk_lens.
  assert (En : match fvo n with Some v => Some (unit_vector v) | None => None end = fvo (option_map dirn n)).
  { destruct n as [n|]; [|reflexivity]. cbn [fvo option_map]. now rewrite unit_vector_fv by (apply Zn; reflexivity). }
  rewrite En. clear En.
  destruct (String.eqb_spec shp "spherical_biconvex") as [->|N1].
  { destruct D as [D|].
    - rewrite circle_D. cbn [bind]. left. split; [split; [auto|eexists; reflexivity]|]. split; [tauto|]. eexists. split; [reflexivity|]. cbn [le_position le_shape le_type le_f le_index le_normal].
      do 6 (split; [reflexivity|]). intros _ -> r. reflexivity.
    - right; right. split; [intros [_ [? E]]; discriminate|]. split; [tauto|reflexivity]. }
  destruct (String.eqb_spec shp "spherical") as [->|N2].
  { destruct D as [D|].
    - left. split; [split; [auto|eexists; reflexivity]|]. split; [tauto|]. eexists. split; [reflexivity|]. cbn [le_position le_shape le_type le_f le_index le_normal].
      do 6 (split; [reflexivity|]). discriminate.
    - right; right. split; [intros [_ [? E]]; discriminate|]. split; [tauto|reflexivity]. }
  right; right. split; [intros [[E|E] _]; contradiction|]. split; [tauto|reflexivity].
Qed.
Print Assumptions C95_lens.

(** Gratings and detectors; a new detector has recorded nothing *)
Theorem C95_grating : forall c n t shp w h G, nz n -> nz t ->
  outcome (mk_grating (fv c) (fvo n) (fvo t) shp (fo w) (fo h) (fo G)) (shp = "rectangular_flat"%string /\ rect_args n t h w) (n = None \/ t = None)
    (fun g => gr_position g = fv c /\ Some (gr_normal g) = fvo (option_map dirn n) /\ Some (gr_tangent g) = fvo (option_map dirn t) /\ gr_G g = fo G).
Proof.
  intros c n t shp w h G Zn Zt. unfold mk_grating.
  destruct n as [n|]; [|right; left; split; [auto|split; [intros [_ (? & ? & ? & ? & E & _)]; discriminate|reflexivity]]].
  destruct t as [t|]; [|right; left; split; [auto|split; [intros [_ (? & ? & ? & ? & _ & E & _)]; discriminate|reflexivity]]].
  pose proof (rect_outcome c (Some n) (Some t) h w Zn Zt) as RO.
  change (fvo (Some n)) with (Some (fv n)) in *. change (fvo (Some t)) with (Some (fv t)) in *. cbn [unit_vector_o bind]. rewrite !unit_vector_fv by auto.
  assert (NM : ~ (Some n = None \/ Some t = None)) by (intros [E|E]; discriminate).
  destruct (String.eqb_spec shp "rectangular_flat") as [->|N1]; [|right; right; split; [intros [E _]; contradiction|split; [exact NM|reflexivity]]].
  destruct RO as [(A & M & q & Eq & _)|[(M & _)|(A & M & Eq)]]; [|contradiction|]; rewrite Eq; cbn [bind].
  - left. split; [auto|]. split; [exact NM|]. eexists. split; [reflexivity|]. cbn. auto.
  - right; right. split; [intros [_ R]; exact (A R)|]. split; [exact NM|reflexivity].
Qed.
Print Assumptions C95_grating.
Theorem C95_detector : forall c n t shp w h, nz n -> nz t ->
  outcome (mk_detector (fv c) (fvo n) (fvo t) shp (fo w) (fo h)) (shp = "rectangular_flat"%string /\ rect_args n t h w) (n = None \/ t = None)
    (fun k => de_position k = fv c /\ Some (de_normal k) = fvo (option_map dirn n) /\ Some (de_tangent k) = fvo (option_map dirn t) /\ de_hit_data k = []).
Proof.
  intros c n t shp w h Zn Zt. unfold mk_detector.
  destruct n as [n|]; [|right; left; split; [auto|split; [intros [_ (? & ? & ? & ? & E & _)]; discriminate|reflexivity]]].
  destruct t as [t|]; [|right; left; split; [auto|split; [intros [_ (? & ? & ? & ? & _ & E & _)]; discriminate|reflexivity]]].
  pose proof (rect_outcome c (Some n) (Some t) h w Zn Zt) as RO.
  change (fvo (Some n)) with (Some (fv n)) in *. change (fvo (Some t)) with (Some (fv t)) in *. cbn [unit_vector_o bind]. rewrite !unit_vector_fv by auto.
  assert (NM : ~ (Some n = None \/ Some t = None)) by (intros [E|E]; discriminate).
  destruct (String.eqb_spec shp "rectangular_flat") as [->|N1]; [|right; right; split; [intros [E _]; contradiction|split; [exact NM|reflexivity]]].
  destruct RO as [(A & M & q & Eq & _)|[(M & _)|(A & M & Eq)]]; [|contradiction|]; rewrite Eq; cbn [bind].
  - left. split; [auto|]. split; [exact NM|]. eexists. split; [reflexivity|]. cbn. auto.
  - right; right. split; [intros [_ R]; exact (A R)|]. split; [exact NM|reflexivity].
Qed.
Print Assumptions C95_detector.

(** The base class, and annotations, filters, windows and blocks, which inherit its constructor *)
Theorem C95_base : forall c n, nz n -> outcome (mk_base (fv c) (fvo n)) (given n) (n = None) (fun b => ba_position b = fv c /\ Some (ba_normal b) = fvo (option_map dirn n)).
Proof.
  intros c [n|] Zn.
  - left. split; [eexists; reflexivity|]. split; [discriminate|]. unfold mk_base. cbn [fvo option_map unit_vector_o bind]. rewrite unit_vector_fv by auto. eexists. split; [reflexivity|]. auto.
  - right; left. split; [reflexivity|]. split; [intros [? E]; discriminate|reflexivity].
Qed.
Print Assumptions C95_base.

(** concrete calls: one good, one with a missing argument, one with a wrong value *)
Example C95_hyp : let z := Some (mk3 0 0 2) in let x := Some (mk3 3 0 0) in
  nz z /\ nz x /\ mirror_good "rectangular_flat" z None (Some 1) (Some 2) None x x /\ mirror_missing "circular_flat" None None None z /\
  ~ mirror_good "rectangular_flat" z None (Some 1) (Some (-2)) None x x /\ ~ mirror_missing "rectangular_flat" z None x x.
Proof.
  intros z x. assert (Zz : nz z) by (intros v E; injection E as <-; intros E; apply (f_equal cz) in E; cbn in E; lra).
  assert (Zx : nz x) by (intros v E; injection E as <-; intros E; apply (f_equal cx) in E; cbn in E; lra).
  split; [exact Zz|]. split; [exact Zx|]. split; [|split; [|split]].
  - split; [eexists; reflexivity|]. right; left. split; [reflexivity|]. exists (mk3 0 0 2), (mk3 3 0 0), 2, 1. do 4 (split; [reflexivity|]). split; [lra|]. split; [lra|].
    unfold dirn. autorewrite with dotr. replace (mk3 0 0 2 ∙ mk3 3 0 0) with 0 by (unfold r3dot; cbn; ring). rewrite !Rmult_0_r, Rabs_R0. lra.
  - right; left. split; [left; reflexivity|reflexivity].
  - intros [_ [(E & _)|[(_ & n & t & h & w & _ & _ & Eh & _ & Ph & _)|[(E & _)|(E & _)]]]]; try discriminate. injection Eh as <-. lra.
  - intros [E|[[_ E]|[[_ E]|[E _]]]]; discriminate.
Qed.
(* Cylinder (with a height) checks R and D in the same way, whatever the height, which it keeps. *)
Theorem C50_cylinder : forall c h Ro Do,
  (forall rad, radius_arg Ro Do rad -> mk_cylinder (fv c) (fo Ro) (fo Do) h = Ok (mkCylinder (fv c) (Fin rad) (Fin (match Do with Some y => y | None => 2 * rad end)) h)) /\
  ((forall rad, ~ radius_arg Ro Do rad) -> mk_cylinder (fv c) (fo Ro) (fo Do) h = Err ValueError).
Proof.
  intros c h Ro Do. destruct (C50_radius_validation c None c Ro Do) as [A B]. split.
  - intros rad Ra. destruct (A rad Ra) as (E & _). cbv zeta in E. unfold mk_sphere in E. unfold mk_cylinder. destruct (check_R_and_D (fo Ro) (fo Do)) as [[x y]|e]; [|discriminate]. cbn in E. injection E as -> ->. reflexivity.
  - intros Na. destruct (B Na) as (E & _). unfold mk_sphere in E. unfold mk_cylinder. destruct (check_R_and_D (fo Ro) (fo Do)) as [[x y]|e]; [discriminate|]. cbn in E. injection E as ->. reflexivity.
Qed.
Print Assumptions C50_cylinder.
