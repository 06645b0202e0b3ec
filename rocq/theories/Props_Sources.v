(** Properties C51 and C52 for every number type (binary64 included): how many rays the generators give, and of which kind. *)
From Coq Require Import ZArith Lia Sorted String List Bool.
From Verif Require Import PyErr Num Vec Shapes Csg Optics General FloatInst.
Import ListNotations.

Section Gen.
Context {T : Type} {N : Num T} {TT : Trig T}.

(* C51.  Whatever is drawn (NaN and infinities too): N rays after the old ones, all of the kind "faerie_fire", 532 nm, order 0, not blocked, with
   a history of their starting point only. *)
Theorem C51_any fuel (draw : nat -> T) old (rad : T) c n l : add_faerie_fire_rays fuel draw old rad c n = Ok l ->
  exists new, l = old ++ new /\ List.length new = Z.to_nat n /\
    forall r, In r new -> ray_type r = "faerie_fire"%string /\ wavelength r = nofZ 532 /\ order r = nofZ 0 /\ blocked r = false /\ point_history r = [position r].
Proof.
  unfold add_faerie_fire_rays. generalize 0. generalize (Z.to_nat n). intros k. revert old. induction k as [|k IH]; intros old used; cbn [faerie_loop].
  - intros H. injection H as <-. exists []. rewrite app_nil_r. repeat split; contradiction.
  - destruct (draw_direction fuel draw used _) as [[v u]|]; [|discriminate]. cbn [bind]. intros H. apply IH in H. destruct H as (new & -> & L & F).
    exists (faerie_ray rad c v :: new). rewrite <- app_assoc. split; [reflexivity|]. split; [cbn; congruence|]. intros r [<-|Hr]; [|apply F, Hr]. repeat split.
Qed.
(* Asking for none or fewer returns the list as it is, drawing nothing. *)
Theorem C51_none fuel (draw : nat -> T) old (rad : T) c n : (n <= 0)%Z -> add_faerie_fire_rays fuel draw old rad c n = Ok old.
Proof. intros H. unfold add_faerie_fire_rays. destruct n as [|p|p]; [reflexivity|lia|reflexivity]. Qed.

(** The j-th triple of the stream; one that is not rejected (a NaN is not). *)
Definition tri (draw : nat -> T) (j : nat) : vec T := V (draw (3 * j)) (draw (3 * j + 1)) (draw (3 * j + 2)).
Definition short (v : vec T) : bool := nlt (norm v) (dec 1 6).
Lemma draw_in_order fuel draw : forall a v w u, short v = true -> draw_direction fuel draw (3 * a) v = Ok (w, u) ->
  exists k, u = 3 * (a + k + 1) /\ w = tri draw (a + k) /\ short (tri draw (a + k)) = false /\ forall i, i < k -> short (tri draw (a + i)) = true.
Proof.
  induction fuel as [|f IH]; intros a v w u Sv; cbn [draw_direction]; fold (short v); rewrite Sv; [discriminate|].
  change (V (draw (3 * a)) (draw (3 * a + 1)) (draw (3 * a + 2))) with (tri draw a). replace (3 * a + 3) with (3 * (a + 1)) by lia. intros H.
  destruct (short (tri draw a)) eqn:St.
  - destruct (IH _ _ _ _ St H) as (k & -> & -> & Sk & Lk). exists (S k). replace (a + S k) with (a + 1 + k) by lia. split; [lia|]. split; [reflexivity|]. split; [exact Sk|].
    intros [|i] Hi; [rewrite Nat.add_0_r; exact St|]. replace (a + S i) with (a + 1 + i) by lia. apply Lk. lia.
  - assert (F : draw_direction f draw (3 * (a + 1)) (tri draw a) = Ok (tri draw a, 3 * (a + 1))).
    { destruct f; cbn [draw_direction]; fold (short (tri draw a)); rewrite St; reflexivity. }
    rewrite F in H. injection H as <- <-. exists 0. split; [lia|]. rewrite !Nat.add_0_r. split; [reflexivity|]. split; [exact St|]. intros i Hi. lia.
Qed.
(* C51.  Which numbers a ray is made of, when the zero vector counts as short (it does for binary64, below): the stream is read in triples, in
   order and without reuse; short triples are skipped, every other one gives the next ray, and reading stops when there are N. *)
Theorem C51_order fuel draw old (rad : T) c n l : nlt (norm (V (nofZ 0) (nofZ 0) (nofZ 0))) (dec 1 6) = true ->
  add_faerie_fire_rays fuel draw old rad c n = Ok l ->
  exists js new, l = old ++ new /\ StronglySorted lt js /\ List.length js = Z.to_nat n /\
    (forall j, In j js -> short (tri draw j) = false) /\
    (forall j k, In k js -> j < k -> ~ In j js -> short (tri draw j) = true) /\
    Forall2 (fun j r => let v := vdivs (tri draw j) (norm (tri draw j)) in position r = vadd c (vscale rad v) /\ direction r = unit_vector (vopp v)) js new.
Proof.
  intros S0. unfold add_faerie_fire_rays.
  assert (L : forall n a l l', faerie_loop fuel draw (3 * a) rad c n l = Ok l' ->
    exists js new, l' = l ++ new /\ StronglySorted lt js /\ List.length js = n /\ (forall j, In j js -> a <= j) /\
    (forall j, In j js -> short (tri draw j) = false) /\
    (forall j k, In k js -> a <= j < k -> ~ In j js -> short (tri draw j) = true) /\
    Forall2 (fun j r => let v := vdivs (tri draw j) (norm (tri draw j)) in position r = vadd c (vscale rad v) /\ direction r = unit_vector (vopp v)) js new).
  { clear n l. induction n as [|n IH]; intros a l l'; cbn [faerie_loop].
    - intros H. injection H as <-. exists [], []. rewrite app_nil_r. repeat split; try (intros; contradiction); constructor.
    - destruct (draw_direction _ _ _ _) as [[v u]|] eqn:Ed; [|discriminate]. cbn [bind]. intros H.
      apply draw_in_order in Ed; [|exact S0]. destruct Ed as (k & -> & -> & Lk & Sk).
      apply IH in H. destruct H as (js & new & -> & So & Le & Ge & Lj & Sh & F).
      exists (a + k :: js), (faerie_ray rad c (tri draw (a + k)) :: new). rewrite <- app_assoc. split; [reflexivity|]. split; [|split; [|split; [|split; [|split]]]].
      + constructor; [exact So|]. apply Forall_forall. intros j Hj. apply Ge in Hj. lia.
      + cbn. congruence.
      + intros j [<-|Hj]; [lia|]. apply Ge in Hj. lia.
      + intros j [<-|Hj]; [exact Lk|apply Lj, Hj].
      + intros j q Hq Hj Nj. assert (Nk : j <> a + k) by (intros ->; apply Nj; left; reflexivity).
        destruct (Nat.lt_ge_cases j (a + k)) as [Lt|G].
        * specialize (Sk (j - a) ltac:(lia)). replace (a + (j - a)) with j in Sk by lia. exact Sk.
        * destruct Hq as [<-|Hq]; [lia|]. apply (Sh j q Hq); [lia|]. intros Hj'. apply Nj. right. exact Hj'.
      + constructor; [|exact F]. split; reflexivity. }
  intros H. change 0 with (3 * 0) in H. apply L in H. destruct H as (js & new & H1 & H2 & H3 & _ & H5 & H6 & H7). exists js, new.
  repeat split; auto. intros j k Hk Hj. apply (H6 j k Hk). lia.
Qed.

Lemma samples_cases (lo hi : T) res : (exists l, samples lo hi res = Ok l /\ (1 <= res)%Z /\ Z.of_nat (List.length l) = res) \/ (samples lo hi res = Err ValueError /\ (res < 1)%Z).
Proof.
  unfold samples. destruct (Z.ltb_spec res 1); [right; auto|]. left. destruct (Z.eqb_spec res 1) as [->|]; eexists; (split; [reflexivity|]); split; try lia; try reflexivity.
  unfold linspace. cbv zeta. rewrite map_length, seq_length. lia.
Qed.
(** a triple loop that appends one entry each time *)
Lemma triple_length {A} (f : T -> T -> T -> list A) (xs zs ts : list T) : (forall x z t, List.length (f x z t) = 1) ->
  List.length (flat_map (fun x => flat_map (fun z => flat_map (fun t => f x z t) ts) zs) xs) = List.length xs * (List.length zs * List.length ts).
Proof.
  intros H. assert (K : forall B (g : B -> list A) l k, (forall b, List.length (g b) = k) -> List.length (flat_map g l) = List.length l * k).
  { intros B g l k G. induction l as [|b l IH]; cbn; [reflexivity|]. rewrite app_length, G, IH. reflexivity. }
  apply K. intros x. apply K. intros z. rewrite (K T (fun t => f x z t) ts 1); [lia|]. intros t. apply H.
Qed.
Lemma no_waves {A B C D} (xs : list A) (zs : list B) (ts : list C) : flat_map (fun _ => flat_map (fun _ => flat_map (fun _ => @nil D) ts) zs) xs = [].
Proof.
  assert (K : forall X (l : list X), flat_map (fun _ => @nil D) l = []) by (intros X l; induction l; auto).
  rewrite (K C ts). assert (K2 : flat_map (fun _ : B => @nil D) zs = []) by apply K. rewrite K2. apply K.
Qed.
(* C52.  Whatever the sizes and angles (NaN and infinities too): ValueError exactly when a resolution is below 1; otherwise one origin and one
   direction for every sample, all origins at the given y, all directions in the plane x = 0, and a wavelength, 680 or 450, for every sample when
   the pattern is "circle", none otherwise. *)
Theorem C52_any (y size angle : T) x_res z_res angle_res pattern d :
  (image_rays y size angle x_res z_res angle_res pattern d = Err ValueError /\ (x_res < 1 \/ z_res < 1 \/ angle_res < 1)%Z) \/
  exists origins dirs waves, image_rays y size angle x_res z_res angle_res pattern d = Ok (origins, dirs, waves) /\ (1 <= x_res /\ 1 <= z_res /\ 1 <= angle_res)%Z /\
    Z.of_nat (List.length origins) = (x_res * z_res * angle_res)%Z /\ List.length dirs = List.length origins /\
    (forall o, In o origins -> vy o = y) /\ (forall v, In v dirs -> vx v = nofZ 0 /\ exists t, vy v = ncos t /\ vz v = nsin t) /\
    (pattern = "circle"%string -> List.length waves = List.length origins /\ forall w, In w waves -> w = nofZ 680 \/ w = nofZ 450) /\
    (pattern <> "circle"%string -> waves = []).
Proof.
  unfold image_rays.
  destruct (samples_cases (ndiv (nopp size) (nofZ 2)) (ndiv size (nofZ 2)) x_res) as [(xs & -> & X1 & Lx)|(-> & X1)]; cbn [bind]; [|left; auto].
  destruct (samples_cases (ndiv (nopp size) (nofZ 2)) (ndiv size (nofZ 2)) z_res) as [(zs & -> & Z1 & Lz)|(-> & Z1)]; cbn [bind]; [|left; auto].
  destruct (samples_cases (nopp angle) angle angle_res) as [(ts & -> & T1 & Lt)|(-> & T1)]; cbn [bind]; [|left; auto].
  right. do 3 eexists. split; [reflexivity|]. split; [auto|]. split; [|split; [|split; [|split; [|split]]]].
  - rewrite triple_length by reflexivity. nia.
  - rewrite !triple_length by reflexivity. reflexivity.
  - intros o H. apply in_flat_map in H. destruct H as (x & _ & H). apply in_flat_map in H. destruct H as (z & _ & H). apply in_flat_map in H.
    destruct H as (t & _ & [<-|[]]). reflexivity.
  - intros o H. apply in_flat_map in H. destruct H as (x & _ & H). apply in_flat_map in H. destruct H as (z & _ & H). apply in_flat_map in H.
    destruct H as (t & _ & [<-|[]]). split; [reflexivity|]. exists t. split; reflexivity.
  - intros ->. change (String.eqb "circle" "circle") with true. cbv iota. split.
    + rewrite !triple_length; [reflexivity|reflexivity|]. intros x z t. destruct (nle _ _); reflexivity.
    + intros w H. apply in_flat_map in H. destruct H as (x & _ & H). apply in_flat_map in H. destruct H as (z & _ & H). apply in_flat_map in H.
      destruct H as (t & _ & H). destruct (nle _ _) in H; destruct H as [<-|[]]; auto.
  - intros P. apply String.eqb_neq in P. rewrite P. apply no_waves.
Qed.
End Gen.
Print Assumptions C51_any.
Print Assumptions C51_none.
Print Assumptions C51_order.
Print Assumptions C52_any.
Example C51_any_hyp : exists l, add_faerie_fire_rays (T := b64) 1 (fun _ => nofZ 1) [] (nofZ 5) (V (nofZ 0) (nofZ 0) (nofZ 0)) 2 = Ok l.
Proof. eexists. vm_compute. reflexivity. Qed.
Example C51_order_hyp : nlt (norm (T := b64) (V (nofZ 0) (nofZ 0) (nofZ 0))) (dec 1 6) = true.
Proof. vm_compute. reflexivity. Qed.
