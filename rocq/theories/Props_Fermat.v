(** Property C69: Fermat's principle. *)
From Coq Require Import Reals ZArith Lra Lia Psatz String List Bool.
From Verif Require Import PyErr Num Vec Shapes Csg Optics Spec XReal RVec VecProofs AngleProofs FlatProofs SphereProofs CylProofs ShapeExtra
  TreeProofs SolidProofs CsgProofs RayProofs RunGen NoFuel RunXr OpticHits StateXr OrderProofs FlatOptic Props_Ray Props_Loop Props_Run Props_Rehit SceneProofs Props_Scene Props_Train Props_Images Props_Path.
Import ListNotations.
Local Open Scope R_scope.

(** the length of the path from p through the points ys to q *)
Fixpoint path_len (p : R3) (ys : list R3) (q : R3) : R := match ys with [] => dist3 q p | y :: ys => dist3 y p + path_len y ys q end.

Lemma dot_le_len a u : is_unit u -> a ∙ u <= len a.
Proof. intros U. pose proof (cauchy_schwarz_sq a u) as H. unfold is_unit in U. rewrite U, <- len_sq in H. pose proof (len_nonneg a). nra. Qed.
(** the length is reached only by multiples of the unit vector *)
Lemma dot_eq_len a u : is_unit u -> a ∙ u = len a -> a = (len a * u)%r3.
Proof.
  intros U E. assert (Z : (a - len a * u)%r3 = r3zero).
  { apply dot_self_zero. unfold is_unit in U. transitivity (a ∙ a - 2 * len a * (a ∙ u) + len a * len a * (u ∙ u)); [generalize (len a); intros; clear; r3_ring|]. rewrite E, U, <- len_sq. ring. }
  transitivity ((a - len a * u) + len a * u)%r3; [generalize (len a); intros; clear; r3_ring|]. rewrite Z. generalize (len a). intros. clear. r3_ring.
Qed.

(** C69: a ray refracted at a surface takes the way of least optical length (index times length): compared with the way over any other point x of the tangent plane, between any point
    a on the incoming and any point b on the outgoing ray.  The way over x is equally long only for x itself the point of refraction (unless the ray grazes the surface or a = x0). *)
Theorem C69_refraction : forall r i n eta1 eta2 t, direction r = fv i -> is_unit i -> is_unit n -> 0 < eta1 -> 0 < eta2 ->
  ~ total_reflection eta1 eta2 n i -> refract_snells_law r (fv n) (Fin eta1) (Fin eta2) = Ok (set_direction r (fv t)) ->
  forall x0 s1 s2 x, 0 <= s1 -> 0 <= s2 -> on_plane x0 n x ->
  let a := (x0 - s1 * i)%r3 in let b := (x0 + s2 * t)%r3 in
  eta1 * dist3 x0 a + eta2 * dist3 b x0 <= eta1 * dist3 x a + eta2 * dist3 b x /\
  (0 < s1 -> i ∙ n <> 0 -> eta1 * dist3 x0 a + eta2 * dist3 b x0 = eta1 * dist3 x a + eta2 * dist3 b x -> x = x0).
Proof.
  intros r i n eta1 eta2 t Hd Ui Un H1 H2 NT E x0 s1 s2 x Hs1 Hs2 On a b.
  destruct (snell_spec r i n eta1 eta2 Hd Ui Un H1 H2 NT) as (t' & E' & Ut & P & _). rewrite E in E'. apply ok_inj in E'. apply (f_equal direction) in E'. cbn [direction set_direction] in E'. apply fv_inj in E'. subst t'.
  assert (Da : dist3 x0 a = s1). { unfold dist3, a. replace (x0 - (x0 - s1 * i))%r3 with (s1 * i)%r3 by (clear; r3_ring). rewrite len_scale, len_unit, Rabs_right by (assumption || lra). ring. }
  assert (Db : dist3 b x0 = s2). { unfold dist3, b. replace (x0 + s2 * t - x0)%r3 with (s2 * t)%r3 by (clear; r3_ring). rewrite len_scale, len_unit, Rabs_right by (assumption || lra). ring. }
  rewrite Da, Db. unfold dist3. pose proof (dot_le_len (x - a)%r3 i Ui) as L1. pose proof (dot_le_len (b - x)%r3 t Ut) as L2.
  assert (K : eta1 * ((x - a)%r3 ∙ i) + eta2 * ((b - x)%r3 ∙ t) = eta1 * s1 + eta2 * s2).
  { unfold on_plane in On. assert (X : (x - x0)%r3 ∙ (eta1 * i - eta2 * t)%r3 = 0).
    { transitivity ((x - x0)%r3 ∙ (eta1 * perp n i - eta2 * perp n t)%r3 + (eta1 * (i ∙ n) - eta2 * (t ∙ n)) * ((x - x0)%r3 ∙ n)).
      - unfold perp. generalize (i ∙ n) (t ∙ n). intros. clear. r3_ring.
      - rewrite P, On. generalize (perp n t). intros. clear. r3_ring. }
    unfold is_unit in *. transitivity (eta1 * (s1 * (i ∙ i)) + eta2 * (s2 * (t ∙ t)) + (x - x0)%r3 ∙ (eta1 * i - eta2 * t)%r3); [unfold a, b; clear; r3_ring|]. rewrite Ui, Ut, X. ring. }
  split; [nra|]. intros Ps Ni Q. assert (Le : (x - a)%r3 ∙ i = len (x - a)%r3) by nra. apply dot_eq_len in Le; [|exact Ui]. set (k := len (x - a)%r3) in *. clearbody k.
  assert (Ex : x = (x0 + (k - s1) * i)%r3). { transitivity (a + (x - a))%r3; [clear; r3_ring|]. rewrite Le. unfold a. clear. r3_ring. }
  unfold on_plane in On. rewrite Ex in On. replace ((x0 + (k - s1) * i - x0)%r3 ∙ n) with ((k - s1) * (i ∙ n)) in On by (clear; r3_ring).
  apply Rmult_integral in On. destruct On as [Z|Z]; [|contradiction]. rewrite Ex, Z. clear. r3_ring.
Qed.
Print Assumptions C69_refraction.

(** C69: likewise for reflection: no way from a point of the incoming ray over the tangent plane of the mirror to a point of the outgoing ray is shorter. *)
Theorem C69_reflection : forall r d n, direction r = fv d -> is_unit d -> is_unit n ->
  exists o, direction (reflect_specular r (fv n)) = fv o /\ forall x0 s1 s2 x, 0 <= s1 -> 0 <= s2 -> on_plane x0 n x ->
  let a := (x0 - s1 * d)%r3 in let b := (x0 + s2 * o)%r3 in path_len a [x0] b <= path_len a [x] b /\
  (0 < s1 -> d ∙ n <> 0 -> path_len a [x0] b = path_len a [x] b -> x = x0).
Proof.
  intros r d n Hd Ud Un. exists (refl n d). rewrite (reflect_fv r d n Hd) by (apply unit_nonzero; assumption). rewrite !dirn_of_unit by assumption. split; [reflexivity|].
  intros x0 s1 s2 x H1 H2 On a b. pose proof (refl_unit n d Un Ud) as Uo. cbn [path_len].
  assert (Da : dist3 x0 a = s1). { unfold dist3, a. replace (x0 - (x0 - s1 * d))%r3 with (s1 * d)%r3 by (clear; r3_ring). rewrite len_scale, len_unit, Rabs_right by (assumption || lra). ring. }
  assert (Db : dist3 b x0 = s2). { unfold dist3, b. replace (x0 + s2 * refl n d - x0)%r3 with (s2 * refl n d)%r3 by (generalize (refl n d); clear; intros; r3_ring). rewrite len_scale, len_unit, Rabs_right by (assumption || lra). ring. }
  rewrite Da, Db. unfold dist3. pose proof (dot_le_len (x - a)%r3 d Ud) as L1. pose proof (dot_le_len (b - x)%r3 _ Uo) as L2.
  assert (K : (x - a)%r3 ∙ d + (b - x)%r3 ∙ refl n d = s1 + s2).
  { unfold on_plane in On. unfold is_unit in Ud, Uo. transitivity (s1 * (d ∙ d) + s2 * (refl n d ∙ refl n d) + (x - x0)%r3 ∙ (d - refl n d)%r3); [unfold a, b; generalize (refl n d); clear; intros; r3_ring|].
    rewrite Ud, Uo. replace ((x - x0)%r3 ∙ (d - refl n d)%r3) with ((2 * (d ∙ n)) * ((x - x0)%r3 ∙ n)) by (unfold refl; generalize (d ∙ n); clear; intros; r3_ring). rewrite On. ring. }
  split; [lra|]. intros Ps Ni Q. assert (Le : (x - a)%r3 ∙ d = len (x - a)%r3) by lra. apply dot_eq_len in Le; [|exact Ud]. set (k := len (x - a)%r3) in *. clearbody k.
  assert (Ex : x = (x0 + (k - s1) * d)%r3). { transitivity (a + (x - a))%r3; [clear; r3_ring|]. rewrite Le. unfold a. clear. r3_ring. }
  unfold on_plane in On. rewrite Ex in On. replace ((x0 + (k - s1) * d - x0)%r3 ∙ n) with ((k - s1) * (d ∙ n)) in On by (clear; r3_ring).
  apply Rmult_integral in On. destruct On as [Z|Z]; [|contradiction]. rewrite Ex, Z. clear. r3_ring.
Qed.
Print Assumptions C69_reflection.

Lemma path_len_app p ys y q : path_len p (ys ++ [y]) q = path_len p ys y + dist3 q y.
Proof. revert p. induction ys as [|z ys IH]; intros p; cbn; [reflexivity|]. rewrite IH. ring. Qed.

Lemma dist_ahead q v t : is_unit v -> 0 <= t -> dist3 (at_t q v t) q = t.
Proof. intros U H. unfold dist3, at_t. replace (q + t * v - q)%r3 with (t * v)%r3 by (clear; r3_ring). rewrite len_scale, len_unit, Rabs_right by (assumption || lra). ring. Qed.

(** the corners of an unfolded path, the length of the path, and a lower bound for all paths over the same planes *)
Definition over (cs : list (R3 * R3)) (ys : list R3) : Prop := Forall2 (fun cu y => on_plane (fst cu) (snd cu) y) cs ys.
Lemma unfolds_short w p d cs s pts : unfolds w p d cs s pts -> is_unit d ->
  exists ys, pts = map fv ys /\ over cs ys /\ (forall t, 0 <= t -> path_len p ys (images cs (at_t p d (s + t))) = s + t) /\
  (forall zs z, over cs zs -> s + (z - images cs (at_t p d s))%r3 ∙ turns cs d <= path_len p zs z).
Proof.
  intros H Ud. induction H as [|cs s pts o c u A x Un IH Io V Ls On At Cl].
  - exists []. split; [reflexivity|]. split; [constructor|]. split; [intros t Ht; cbn; rewrite Rplus_0_l; apply dist_ahead; assumption|].
    intros zs z Hz. inversion Hz; subst. cbn. rewrite at_start. unfold dist3. pose proof (dot_le_len (z - p)%r3 d Ud). lra.
  - destruct IH as (ys & -> & Fy & Py & Sh). pose proof (unfolds_unit _ _ _ _ _ _ Un Ud) as Ut. pose proof V as (m & _ & _ & Vf). pose proof (flat_unit _ _ _ _ Vf) as Uu.
    pose proof (refl_unit u _ Uu Ut) as Uo. pose proof (images_on cs p d s (x - s)) as Ey. replace (s + (x - s)) with x in Ey by ring.
    specialize (Py (x - s) ltac:(lra)). replace (s + (x - s)) with x in Py by ring.
    set (y := images cs (at_t p d x)) in *. set (v := images cs (at_t p d s)) in *. set (T := turns cs d) in *. exists (ys ++ [y]). rewrite map_app. split; [reflexivity|].
    split; [apply Forall2_app; [exact Fy|constructor; [exact On|constructor]]|]. split.
    + intros t Ht. rewrite images_app, images_on, mir_line. fold y T. rewrite mir_fix by exact On. rewrite path_len_app, Py, dist_ahead by assumption. reflexivity.
    + intros zs z Hz. apply Forall2_app_inv_l in Hz. destruct Hz as (zs' & l & Hz & Hl & ->). destruct l as [|z' l]; inversion Hl as [|? ? ? ? Oz Hl' E1 E2]. destruct l; [|inversion Hl']. cbn [fst snd] in Oz.
      rewrite path_len_app, images_app, turns_app. fold y T. rewrite mir_fix by exact On. pose proof (Sh zs' z' Hz) as B. unfold dist3. pose proof (dot_le_len (z - z')%r3 _ Uo) as L.
      clear Py Sh Fy. clearbody y v T.
      assert (K : s + (z' - v)%r3 ∙ T + (z - z')%r3 ∙ refl u T = x + (z - y)%r3 ∙ refl u T); [|lra].
      clear - Ey On Oz Ut. unfold on_plane in On, Oz. unfold is_unit in Ut.
      assert (Z : (z' - y)%r3 ∙ u = 0) by (transitivity ((z' - c)%r3 ∙ u - (y - c)%r3 ∙ u); [clear; r3_ring|rewrite On, Oz; ring]).
      assert (E : (z' - y)%r3 ∙ (T - refl u T)%r3 = 0). { transitivity (2 * (T ∙ u) * ((z' - y)%r3 ∙ u)); [unfold refl; generalize (T ∙ u); clear; intros; r3_ring|rewrite Z; ring]. }
      assert (F : (y - v)%r3 ∙ T = x - s). { rewrite Ey. transitivity ((x - s) * (T ∙ T)); [unfold at_t; clear; r3_ring|rewrite Ut; ring]. }
      transitivity (s + ((y - v)%r3 ∙ T) + (z' - y)%r3 ∙ (T - refl u T)%r3 + (z - y)%r3 ∙ refl u T); [generalize (refl u T); clear; intros; r3_ring|]. rewrite E, F. ring.
Qed.

(** C69: in a scene of flat mirrors a run takes the shortest way: the path from the start to the final position has length m, and every other path from the start over the planes of the same
    mirrors in the same order to the final position (also one over points outside the apertures) is at least as long. *)
Theorem C69_shortest : forall w r p d m, mirrors_only w -> ray_is r p d -> is_unit d -> blocked r = false -> ray_type r <> "faerie_fire"%string -> 0 <= m ->
  exists r' q cs ys, (forall fuel, m / 1e-12 + 1 < INR fuel -> run fuel r (Fin m) w None = Ok (r', w)) /\ position r' = fv q /\
    (point_history r' = point_history r ++ map fv (ys ++ [q]) \/ point_history r' = point_history r ++ map fv ys /\ exists ys', p :: ys = ys' ++ [q]) /\
    Forall (fun cu => exists o A, In o w /\ flat_mirror o (fst cu) (snd cu) A) cs /\ over cs ys /\ path_len p ys q = m /\
    forall zs, over cs zs -> m <= path_len p zs q.
Proof.
  intros w r p d m W Hr Ud Hb NF Hm. destruct (C65_images w r p d m W Hr Ud Hb NF Hm) as (r' & Go & _ & cs & s & pts & Un & Ls & [Hp _] & H1 & H2).
  destruct (unfolds_short w p d cs s pts Un Ud) as (ys & -> & Fy & Py & Sh). exists r', (images cs (at_t p d m)), cs, ys. split; [exact Go|]. split; [exact Hp|]. split.
  { destruct (Rle_lt_or_eq_dec _ _ Ls) as [L|L]; [left; rewrite map_app; apply H1, L|]. right. split; [apply H2, L|]. clear - Un L. subst m. inversion Un as [E1 E2 E3|cs' s' pts' o c u A x Un' Io V Lx On At Cl E1 E2 E3]; subst.
    - symmetry in E3. apply map_eq_nil in E3. subst ys. exists []. cbn. rewrite at_start. reflexivity.
    - destruct (@exists_last _ ys) as (ys' & y & ->). { intros ->. cbn in E3. destruct pts'; discriminate. } rewrite map_app in E3. apply app_inj_tail in E3. destruct E3 as [_ E3]. apply fv_inj in E3. subst y.
      exists (p :: ys'). rewrite images_app, mir_fix by exact On. reflexivity. }
  split. { clear - Un. induction Un; [constructor|]. apply Forall_app. split; [exact IHUn|]. constructor; [|constructor]. do 2 eexists. split; eassumption. }
  split; [exact Fy|]. pose proof (Py (m - s) ltac:(lra)) as E. replace (s + (m - s)) with m in E by ring. split; [exact E|].
  intros zs Hz. pose proof (Sh zs (images cs (at_t p d m)) Hz) as B. pose proof (images_on cs p d s (m - s)) as Eq. replace (s + (m - s)) with m in Eq by ring. rewrite Eq in B at 1.
  pose proof (unfolds_unit _ _ _ _ _ _ Un Ud) as Ut. unfold is_unit in Ut. set (T := turns cs d) in *. set (v := images cs (at_t p d s)) in *. clearbody T v.
  replace ((at_t v T (m - s) - v)%r3 ∙ T) with (m - s) in B; [lra|]. transitivity ((m - s) * (T ∙ T)); [rewrite Ut; ring|unfold at_t; clear; r3_ring].
Qed.
Print Assumptions C69_shortest.
Example C69_hyp : (exists t, refract_snells_law (a_ray r3zero i34 0 500) (fv e_z) (Fin 1.5) (Fin 1) = Ok (set_direction (a_ray r3zero i34 0 500) (fv t))) /\ ~ total_reflection 1.5 1 e_z i34 /\ i34 ∙ e_z <> 0 /\
  mirrors_only [OMirror (mirror_at 5); OMirror (mirror_at 1)] /\ ray_is z_ray (at_z 0) e_z /\ blocked z_ray = false /\ ray_type z_ray <> "faerie_fire"%string.
Proof.
  destruct C26_hyp as (t & E & _). split; [exists t; exact E|]. destruct C24_hyp as (_ & _ & N & Z). split; [exact N|]. split; [exact Z|]. destruct C65_hyp as (M & _ & H & _ & B & F & _). auto.
Qed.
