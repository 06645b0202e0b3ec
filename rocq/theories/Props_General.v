(** Properties of the helpers in general.py and of the ray generators and drawing transforms (C51-C56, C58, C59). *)
From Coq Require Import Reals ZArith Lra Lia Psatz Ascii String List Bool.
From Verif Require Import PyErr Num Vec Shapes Csg Optics General Spec DecSpec XReal RVec VecProofs ElemXr GenProofs PrecProofs.
Import ListNotations.
Local Open Scope R_scope.
#[local] Transparent len.

(* C51.  add_faerie_fire_rays(L, r, c, N): whatever the (real) numbers drawn, when it returns it has appended exactly N rays to L; each starts
   at c + r*u and heads in direction -u for some unit vector u, hence at distance |r| from c and, for r > 0, straight at c. *)
Theorem C51_faerie (fuel : nat) (draw : nat -> R) (old : list (ray xr)) (rad : R) (c : R3) (n : Z) l :
  add_faerie_fire_rays fuel (fun i => Fin (draw i)) old (Fin rad) (fv c) n = Ok l ->
  exists new, l = old ++ new /\ List.length new = Z.to_nat n /\
    forall r, In r new -> exists p u, position r = fv p /\ direction r = fv u /\ is_unit u /\ p = (c - rad * u)%r3 /\ len (p - c)%r3 = Rabs rad /\
      ray_type r = "faerie_fire"%string /\ wavelength r = Fin 532 /\ point_history r = [position r] /\ blocked r = false.
Proof.
  intros H. apply faerie_loop_ok in H. destruct H as (new & -> & Ln & F). exists new. repeat split; auto. intros r Hr. rewrite Forall_forall in F. destruct (F r Hr) as (u & Hu & ->).
  exists (c + rad * u)%r3, (- u)%r3. repeat split; auto using unit_opp.
  - r3_ring.
  - replace (c + rad * u - c)%r3 with (rad * u)%r3 by r3_ring. rewrite len_scale, (len_unit u Hu). ring.
Qed.
Print Assumptions C51_faerie.
(* It does return, with enough fuel, when the stream never stays below the rejection threshold for [fuel] consecutive triples. *)
Theorem C51_terminates (fuel : nat) (draw : nat -> R) (old : list (ray xr)) (rad : R) (c : R3) (n : Z) :
  (forall i, exists k, (k < fuel)%nat /\ 1e-6 <= len (mk3 (draw (i + 3 * k)%nat) (draw (i + 3 * k + 1)%nat) (draw (i + 3 * k + 2)%nat))) ->
  exists l, add_faerie_fire_rays fuel (fun i => Fin (draw i)) old (Fin rad) (fv c) n = Ok l.
Proof. intros H. apply faerie_total. exact H. Qed.
Print Assumptions C51_terminates.
Example C51_hyp : exists l, add_faerie_fire_rays 1 (fun i => Fin 1) [] (Fin 5) (fv r3zero) 3 = Ok l.
Proof.
  apply (C51_terminates 1 (fun _ => 1)). intros i. exists 0%nat. split; [lia|]. unfold len. cbn. apply Rle_trans with (sqrt 1); [rewrite sqrt_1; lra|]. apply sqrt_le_1; unfold r3dot; cbn; lra.
Qed.

(* C52.  image_rays: ValueError exactly when a resolution is below 1; otherwise x_res*z_res*angle_res origins, as many directions, and (for the
   circle pattern) as many wavelengths, all listed in the same order (the same (x, z, t) at each index). *)
Theorem C52_error y size angle x_res z_res angle_res pattern d :
  image_rays (Fin y) (Fin size) (Fin angle) x_res z_res angle_res pattern (Fin d) = Err ValueError <-> (x_res < 1 \/ z_res < 1 \/ angle_res < 1)%Z.
Proof. apply image_rays_error. Qed.
Print Assumptions C52_error.
Lemma grid_nth {A C} (f : R -> R -> R -> A) (g : R -> R -> R -> C) xs zs ts : exists pts : list (R * R * R),
  grid f xs zs ts = map (fun q => f (fst (fst q)) (snd (fst q)) (snd q)) pts /\ grid g xs zs ts = map (fun q => g (fst (fst q)) (snd (fst q)) (snd q)) pts.
Proof.
  exists (grid (fun x z t => (x, z, t)) xs zs ts).
  assert (K : forall D (h : R -> R -> R -> D), grid h xs zs ts = map (fun q => h (fst (fst q)) (snd (fst q)) (snd q)) (grid (fun x z t => (x, z, t)) xs zs ts)).
  { intros D h. unfold grid. assert (M : forall A B C (k : B -> C) (f : A -> list B) l, map k (flat_map f l) = flat_map (fun x => map k (f x)) l).
    { intros A0 B0 C0 k f0 l. induction l as [|a l IH]; cbn; [reflexivity|]. now rewrite map_app, IH. }
    rewrite M. apply flat_map_ext. intros x. rewrite M. apply flat_map_ext. intros z. rewrite map_map. reflexivity. }
  split; apply K.
Qed.
(** the sample positions: one per axis point, evenly spaced over the range, (only 0 when the resolution is 1) *)
Theorem C52_grid y size angle x_res z_res angle_res pattern d : (1 <= x_res)%Z -> (1 <= z_res)%Z -> (1 <= angle_res)%Z ->
  exists xs zs ts origins dirs waves,
    image_rays (Fin y) (Fin size) (Fin angle) x_res z_res angle_res pattern (Fin d) = Ok (origins, dirs, waves) /\
    evenly (- size / 2) (size / 2) (Z.to_nat x_res) xs /\ evenly (- size / 2) (size / 2) (Z.to_nat z_res) zs /\ evenly (- angle) angle (Z.to_nat angle_res) ts /\
    origins = flat_map (fun x => flat_map (fun z => map (fun t => fv (mk3 x y z)) ts) zs) xs /\
    dirs = flat_map (fun x => flat_map (fun z => map (fun t => fv (mk3 0 (cos t) (sin t))) ts) zs) xs /\
    (pattern = "circle"%string -> waves = flat_map (fun x => flat_map (fun z => map (fun t => Fin (if Rle_dec (x² + z²) ((d / 2)²) then 680 else 450)) ts) zs) xs) /\
    (pattern <> "circle"%string -> waves = []).
Proof.
  intros H1 H2 H3. destruct (image_rays_ok y size angle x_res z_res angle_res pattern d H1 H2 H3) as (xs & zs & ts & Sx & Sz & St & E).
  do 6 eexists. split; [exact E|]. split; [exact Sx|]. split; [exact Sz|]. split; [exact St|]. split; [reflexivity|]. split; [reflexivity|]. split.
  - intros ->. cbn [String.eqb]. change (String.eqb "circle" "circle") with true. cbn iota. unfold grid. apply flat_map_ext. intros x. apply flat_map_ext. intros z. apply map_ext. intros t. f_equal. unfold wave_of, Rsqr.
    destruct (Rle_dec _ _), (Rle_dec _ _); try reflexivity; exfalso; lra.
  - intros N. apply String.eqb_neq in N. now rewrite N.
Qed.
Print Assumptions C52_grid.
Theorem C52_ranges y size angle x_res z_res angle_res pattern d origins dirs waves :
  image_rays (Fin y) (Fin size) (Fin angle) x_res z_res angle_res pattern (Fin d) = Ok (origins, dirs, waves) -> 0 <= size -> 0 <= angle ->
  Z.of_nat (List.length origins) = (x_res * z_res * angle_res)%Z /\ List.length dirs = List.length origins /\
  (pattern = "circle"%string -> List.length waves = List.length origins) /\
  (forall o, In o origins -> exists x z, o = fv (mk3 x y z) /\ - size / 2 <= x <= size / 2 /\ - size / 2 <= z <= size / 2) /\
  (forall v, In v dirs -> exists t, - angle <= t <= angle /\ v = fv (mk3 0 (cos t) (sin t)) /\ is_unit (mk3 0 (cos t) (sin t))).
Proof.
  intros H Hs Ha. assert (NE : ~ (x_res < 1 \/ z_res < 1 \/ angle_res < 1)%Z). { intros G. apply (proj2 (image_rays_error y size angle x_res z_res angle_res pattern d)) in G. congruence. }
  destruct (image_rays_ok y size angle x_res z_res angle_res pattern d ltac:(lia) ltac:(lia) ltac:(lia)) as (xs & zs & ts & Sx & Sz & St & E). rewrite E in H. injection H as <- <- <-.
  rewrite !grid_length. assert (Lx := proj1 Sx). assert (Lz := proj1 Sz). assert (Lt := proj1 St). split; [|split; [reflexivity|split; [|split]]].
  - rewrite Lx, Lz, Lt, !Nat2Z.inj_mul, !Z2Nat.id by lia. ring.
  - intros ->. change (String.eqb "circle" "circle") with true. cbn iota. apply grid_length.
  - intros o Ho. apply grid_in in Ho. destruct Ho as (x & z & t & Ix & Iz & It & ->). exists x, z. split; [reflexivity|]. split; [apply (evenly_bounds _ _ _ _ _ Sx Ix)|apply (evenly_bounds _ _ _ _ _ Sz Iz)]; lra.
  - intros v Hv. apply grid_in in Hv. destruct Hv as (x & z & t & Ix & Iz & It & ->). exists t. split; [apply (evenly_bounds _ _ _ _ _ St It); lra|]. split; [reflexivity|].
    unfold is_unit, r3dot. cbn. assert (T := sin2_cos2 t). unfold Rsqr in T. lra.
Qed.
Print Assumptions C52_ranges.
Example C52_hyp : exists o w v, image_rays (Fin 3) (Fin 10) (Fin (2 / 10)) 2 1 3 "circle" (Fin 5) = Ok (o, w, v) /\ List.length o = 6%nat.
Proof.
  destruct (image_rays_ok 3 10 (2 / 10) 2 1 3 "circle" 5 ltac:(lia) ltac:(lia) ltac:(lia)) as (xs & zs & ts & (Lx & _) & (Lz & _) & (Lt & _) & E).
  do 3 eexists. split; [exact E|]. rewrite grid_length, Lx, Lz, Lt. reflexivity.
Qed.

(* C53.  Three real colour components in [0, 1] for every wavelength and clamps (NaN and infinities included) and every gamma > 0. *)
Theorem C53_range (w gamma floor_wave ceiling_wave : xr) : nlt (Fin 0) gamma = true ->
  exists r g b, wavelength_to_rgb w gamma floor_wave ceiling_wave = Ok (Fin r, Fin g, Fin b) /\ 0 <= r <= 1 /\ 0 <= g <= 1 /\ 0 <= b <= 1.
Proof. apply rgb_ok. Qed.
Print Assumptions C53_range.
Theorem C53_clamped (w gamma floor_wave ceiling_wave : R) :
  (w < floor_wave -> wavelength_to_rgb (Fin w) (Fin gamma) (Fin floor_wave) (Fin ceiling_wave) = wavelength_to_rgb (Fin floor_wave) (Fin gamma) (Fin floor_wave) (Fin ceiling_wave)) /\
  (ceiling_wave < w -> floor_wave <= ceiling_wave -> wavelength_to_rgb (Fin w) (Fin gamma) (Fin floor_wave) (Fin ceiling_wave) = wavelength_to_rgb (Fin ceiling_wave) (Fin gamma) (Fin floor_wave) (Fin ceiling_wave)).
Proof. split; intros; [apply rgb_floor|apply rgb_ceiling]; assumption. Qed.
Print Assumptions C53_clamped.
(** the colours: which of the seven bands a wavelength is in, and the components there; [gpow] is the power with 0 to a positive power being 0 *)
Definition gpow (x g : R) : R := if Req_EM_T x 0 then 0 else Rpower x g.
Theorem C53_bands (w g fl ce : R) : 0 < g -> fl <= w <= ce ->
  let rgb := wavelength_to_rgb (Fin w) (Fin g) (Fin fl) (Fin ce) in
  (w < 380 -> rgb = Ok (Fin (3 / 10), Fin 0, Fin (3 / 10))) /\
  (380 <= w <= 440 -> let a := 3 / 10 + 7 / 10 * (w - 380) / 60 in rgb = Ok (Fin (gpow ((440 - w) / 60 * a) g), Fin 0, Fin (gpow a g))) /\
  (440 < w <= 490 -> rgb = Ok (Fin 0, Fin (gpow ((w - 440) / 50) g), Fin 1)) /\
  (490 < w <= 510 -> rgb = Ok (Fin 0, Fin 1, Fin (gpow ((510 - w) / 20) g))) /\
  (510 < w <= 580 -> rgb = Ok (Fin (gpow ((w - 510) / 70) g), Fin 1, Fin 0)) /\
  (580 < w <= 645 -> rgb = Ok (Fin 1, Fin (gpow ((645 - w) / 65) g), Fin 0)) /\
  (645 < w <= 750 -> rgb = Ok (Fin (gpow (3 / 10 + 7 / 10 * (750 - w) / 105) g), Fin 0, Fin 0)) /\
  (750 < w -> rgb = Ok (Fin (3 / 10), Fin 0, Fin 0)).
Proof.
  intros Hg Hw rgb. assert (P : forall x y, 0 <= x -> x = y -> npow (Fin x) (Fin g) = Ok (Fin (gpow y g))).
  { intros x y Hx <-. change (npow (Fin x) (Fin g)) with (xpow ZeroDivisionError NotModelled (Fin x) (Fin g)). unfold xpow, gpow. destruct (Req_EM_T g 0); [lra|]. destruct (Req_EM_T x 0) as [->|]; [|destruct (Rlt_dec 0 x); [reflexivity|lra]].
    destruct (Rlt_dec 0 0); [lra|]. destruct (Rlt_dec g 0); [lra|reflexivity]. }
  assert (W : (if ngt (if nlt (Fin w) (Fin fl) then Fin fl else Fin w) (Fin ce) then Fin ce else if nlt (Fin w) (Fin fl) then Fin fl else Fin w) = Fin w).
  { assert (LT0 : forall a b, nlt (Fin a) (Fin b) = if Rlt_dec a b then true else false) by reflexivity. assert (GT0 : forall a b, ngt (Fin a) (Fin b) = if Rlt_dec b a then true else false) by reflexivity.
    rewrite LT0. destruct (Rlt_dec w fl); [lra|]. rewrite GT0. destruct (Rlt_dec ce w); [lra|reflexivity]. }
  unfold rgb, wavelength_to_rgb. cbv zeta. rewrite W. clear rgb W. rewrite !dec_fin, !nofZ_fin by lia. change (10 ^ 1)%Z with 10%Z.
  assert (LE : forall a b, nle (Fin a) (Fin b) = if Rle_dec a b then true else false) by reflexivity. assert (LT : forall a b, nlt (Fin a) (Fin b) = if Rlt_dec a b then true else false) by reflexivity.
  assert (OP : forall a, nopp (Fin a) = Fin (- a)) by reflexivity.
  repeat split; intros H; rewrite LT, !LE; destruct (Rlt_dec w 380); try lra;
    repeat (cbn [andb]; match goal with |- context [Rle_dec ?a ?b] => destruct (Rle_dec a b); try lra end); cbn [andb];
    rewrite ?nsub_fin, ?nmul_fin, ?OP; rewrite ?ndiv_fin by lra; rewrite ?nadd_fin, ?nmul_fin; rewrite ?ndiv_fin by lra; rewrite ?nadd_fin, ?nmul_fin; try reflexivity.
  - set (a := 3 / 10 + 7 / 10 * (w - 380) / 60). assert (0 <= a) by (unfold a; lra). clearbody a. rewrite (P _ ((440 - w) / 60 * a)), (P _ a); [reflexivity|lra|lra|apply Rmult_le_pos; lra|f_equal; lra].
  - rewrite (P _ ((w - 440) / 50)); [reflexivity|lra|reflexivity].
  - rewrite (P _ ((510 - w) / 20)); [reflexivity|lra|lra].
  - rewrite (P _ ((w - 510) / 70)); [reflexivity|lra|reflexivity].
  - rewrite (P _ ((645 - w) / 65)); [reflexivity|lra|lra].
  - rewrite (P _ (3 / 10 + 7 / 10 * (750 - w) / 105)); [reflexivity|lra|lra].
Qed.
Print Assumptions C53_bands.
Example C53_bands_hyp : 0 < 8 / 10 /\ 380 <= 589.3 <= 750 /\ 580 < 589.3 <= 645. Proof. lra. Qed.
Example C53_hyp : nlt (Fin 0) (Fin (8 / 10)) = true. Proof. rewrite nlt_fin. apply Rltb_true. lra. Qed.

(* C54.  The two conversions undo each other on every non-zero number, are strictly decreasing on positive numbers, and raise on 0. *)
Theorem C54_inverse (x : R) : x <> 0 ->
  (exists e, wavelength_nm_to_energy_eV (Fin x) = Ok (Fin e) /\ energy_eV_to_wavelength_nm (Fin e) = Ok (Fin x)) /\
  (exists w, energy_eV_to_wavelength_nm (Fin x) = Ok (Fin w) /\ wavelength_nm_to_energy_eV (Fin w) = Ok (Fin x)).
Proof.
  intros H. assert (P := hc_pos). assert (Q : hc_over_e / x <> 0) by (unfold Rdiv; apply Rmult_integral_contrapositive_currified; [lra|apply Rinv_neq_0_compat; exact H]).
  assert (I : hc_over_e / (hc_over_e / x) = x) by (field; lra).
  split; exists (hc_over_e / x).
  - rewrite to_energy, to_wavelength, I by assumption. auto.
  - rewrite to_energy, to_wavelength, I by assumption. auto.
Qed.
Print Assumptions C54_inverse.
Theorem C54_decreasing (x y : R) : 0 < x < y -> exists a b, wavelength_nm_to_energy_eV (Fin x) = Ok (Fin a) /\ wavelength_nm_to_energy_eV (Fin y) = Ok (Fin b) /\ b < a /\
  energy_eV_to_wavelength_nm (Fin x) = Ok (Fin a) /\ energy_eV_to_wavelength_nm (Fin y) = Ok (Fin b).
Proof.
  intros H. exists (hc_over_e / x), (hc_over_e / y). rewrite ?to_energy, ?to_wavelength by lra. repeat split. assert (P := hc_pos). unfold Rdiv. apply Rmult_lt_compat_l; [exact P|]. apply Rinv_lt_contravar; nra.
Qed.
Print Assumptions C54_decreasing.
Theorem C54_zero : wavelength_nm_to_energy_eV (Fin 0) = Err ZeroDivisionError /\ energy_eV_to_wavelength_nm (Fin 0) = Err ZeroDivisionError.
Proof. unfold wavelength_nm_to_energy_eV, energy_eV_to_wavelength_nm. rewrite nofZ_fin, neqb_fin, Reqb_true by reflexivity. auto. Qed.
Print Assumptions C54_zero.
(** the constant is the photon energy-wavelength product in eV nm *)
Theorem C54_constant : exists k, 1239.8 < k < 1239.9 /\ forall x, x <> 0 -> wavelength_nm_to_energy_eV (Fin x) = Ok (Fin (k / x)).
Proof. exists hc_over_e. split; [unfold hc_over_e; lra|exact to_energy]. Qed.
Print Assumptions C54_constant.
Example C54_hyp : (532 <> 0) /\ 0 < 532 < 680. Proof. lra. Qed.

(* C55.  For p >= 1 and x <> 0 the string is a decimal numeral (DecSpec.numeral) with exactly p significant digits m and the sign of x, the
   value m * 10^e rounding x to a whole number of units 10^e (ties away from zero). *)
Theorem C55_rounds (x : R) (p : Z) : x <> 0 -> (1 <= p)%Z -> exists s m e, to_precision (Fin x) p = Ok s /\ numeral s = Some (m, e) /\
  (10 ^ (p - 1) <= Z.abs m < 10 ^ p)%Z /\ 0 < IZR m * x /\ Rabs (IZR m * powerRZ 10 e - x) <= powerRZ 10 e / 2 /\
  (Rabs (IZR m * powerRZ 10 e - x) = powerRZ 10 e / 2 -> Rabs x < Rabs (IZR m * powerRZ 10 e)).
Proof.
  intros Hx Hp. destruct (prec_spec x p Hx Hp) as (s & m & e & E & N & Rg & Sg & En). exists s, m, e. do 4 (split; [assumption|]).
  assert (P : 0 < powerRZ 10 e) by (apply powerRZ_lt; lra). assert (I := Int_part_bounds (Rabs x / powerRZ 10 e + 1 / 2)). rewrite <- En in I.
  set (t := powerRZ 10 e) in *. assert (Q : Rabs x = Rabs x / t * t) by (field; lra). set (q := Rabs x / t) in *. rewrite abs_IZR in I.
  assert (A : Rabs (IZR m * t - x) = Rabs (Rabs (IZR m) * t - Rabs x)).
  { destruct (Rlt_dec 0 x).
    - assert (0 < IZR m) by nra. rewrite (Rabs_right (IZR m)), (Rabs_right x) by lra. reflexivity.
    - assert (IZR m < 0) by nra. rewrite (Rabs_left (IZR m)), (Rabs_left x) by lra. rewrite <- Rabs_Ropp. f_equal. ring. }
  rewrite A, Rabs_mult, (Rabs_right t) by lra. rewrite Q. replace (Rabs (IZR m) * t - q * t) with ((Rabs (IZR m) - q) * t) by ring. rewrite Rabs_mult, (Rabs_right t) by lra.
  assert (Bd : - (1 / 2) < Rabs (IZR m) - q <= 1 / 2) by lra. split.
  - assert (Rabs (Rabs (IZR m) - q) <= 1 / 2) by (apply Rabs_le; lra). nra.
  - intros T. assert (T2 : Rabs (Rabs (IZR m) - q) = 1 / 2) by (apply Rmult_eq_reg_r with t; lra). unfold Rabs in T2 at 1. destruct (Rcase_abs _); nra.
Qed.
Print Assumptions C55_rounds.
Theorem C55_special (p : Z) : ((1 <= p)%Z -> exists s, to_precision (Fin 0) p = Ok s /\ numeral s = Some (0, - (p - 1))%Z) /\
  to_precision XNaN p = Ok "NaN"%string /\ to_precision PInf p = Err OverflowError /\ to_precision NInf p = Err OverflowError.
Proof. split; [apply prec_zero|apply prec_special]. Qed.
Print Assumptions C55_special.
Example C55_hyp : -1234567 <> 0 /\ (1 <= 5)%Z. Proof. split; [lra|lia]. Qed.

(* C56.  find_nearest returns the first index of an element at least distance from the value, and raises ValueError on an empty array. *)
Theorem C56_nearest (a : list R) (v : R) : a <> [] -> exists i x, find_nearest (map Fin a) (Fin v) = Ok (i, Fin x) /\ nth_error a i = Some x /\
  (forall j y, nth_error a j = Some y -> Rabs (x - v) <= Rabs (y - v)) /\ (forall j y, (j < i)%nat -> nth_error a j = Some y -> Rabs (x - v) < Rabs (y - v)).
Proof. apply find_nearest_spec. Qed.
Print Assumptions C56_nearest.
Lemma argmin_nan l : forall bi i best rest, argmin_from bi i (Fin best) (map Fin l ++ XNaN :: rest) = (i + List.length l)%nat.
Proof.
  assert (Z : forall bi i rest, argmin_from bi i XNaN rest = bi) by (intros bi i [|x rest]; reflexivity).
  induction l as [|a l IH]; intros bi i best rest; cbn [map app argmin_from List.length].
  - rewrite neqb_fin, (Reqb_true _ _ eq_refl). change (nlt XNaN (Fin best)) with false. change (neqb XNaN XNaN) with false. cbn [negb orb]. rewrite Z. lia.
  - rewrite !neqb_fin, !nlt_fin, !(Reqb_true _ _ eq_refl). cbn [negb]. destruct (Rltb a best || false)%bool; rewrite IH; lia.
Qed.
(* C56: in an array with NaN the first NaN is returned. *)
Theorem C56_nan (a : list R) rest (v : R) : find_nearest (map Fin a ++ XNaN :: rest) (Fin v) = Ok (List.length a, XNaN).
Proof.
  assert (E : argmin (map (fun x => nabs (nsub x (Fin v))) (map Fin a ++ XNaN :: rest)) = Ok (List.length a)).
  { rewrite map_app, map_map. cbn [map]. change (nabs (nsub XNaN (Fin v))) with XNaN.
    replace (map (fun x => nabs (nsub (Fin x) (Fin v))) a) with (map Fin (map (fun x => Rabs (x - v)) a)) by (rewrite map_map; reflexivity).
    replace (List.length a) with (List.length (map (fun x => Rabs (x - v)) a)) by apply map_length.
    destruct (map (fun x => Rabs (x - v)) a) as [|b l]; cbn [map app argmin List.length].
    - destruct (map _ rest); reflexivity.
    - rewrite argmin_nan. reflexivity. }
  unfold find_nearest. rewrite E. cbn [bind]. rewrite nth_error_app2 by (rewrite map_length; lia). rewrite map_length, Nat.sub_diag. reflexivity.
Qed.
Print Assumptions C56_nan.
Theorem C56_empty {T} {N : Num T} (v : T) : find_nearest [] v = Err ValueError.
Proof. reflexivity. Qed.
Print Assumptions C56_empty.
Example C56_hyp : [1; 2; 4] <> ([] : list R). Proof. discriminate. Qed.

(* C58.  Three ranges of equal length, centred on the old centres, each containing the old range (whichever way round it was given). *)
Theorem C58_axes x0 x1 y0 y1 z0 z1 : exists a b c d e f,
  set_axes_equal (Fin x0, Fin x1) (Fin y0, Fin y1) (Fin z0, Fin z1) = ((Fin a, Fin b), (Fin c, Fin d), (Fin e, Fin f)) /\
  b - a = d - c /\ d - c = f - e /\ a + b = x0 + x1 /\ c + d = y0 + y1 /\ e + f = z0 + z1 /\
  (forall x, Rmin x0 x1 <= x <= Rmax x0 x1 -> a <= x <= b) /\ (forall y, Rmin y0 y1 <= y <= Rmax y0 y1 -> c <= y <= d) /\ (forall z, Rmin z0 z1 <= z <= Rmax z0 z1 -> e <= z <= f) /\
  (b - a = Rabs (x1 - x0) \/ b - a = Rabs (y1 - y0) \/ b - a = Rabs (z1 - z0)).
Proof.
  destruct (axes_spec x0 x1 y0 y1 z0 z1) as (r & cx & cy & cz & E & -> & -> & -> & Hr). do 6 eexists. split; [exact E|].
  set (mx := Rmax (Rmax (Rabs (x1 - x0)) (Rabs (y1 - y0))) (Rabs (z1 - z0))) in *.
  assert (Mx : Rabs (x1 - x0) <= mx) by (unfold mx; eapply Rle_trans; [apply Rmax_l|apply Rmax_l]). assert (My : Rabs (y1 - y0) <= mx) by (unfold mx; eapply Rle_trans; [apply Rmax_r|apply Rmax_l]).
  assert (Mz : Rabs (z1 - z0) <= mx) by (unfold mx; apply Rmax_r).
  assert (In1 : forall a b t, Rabs (b - a) <= mx -> Rmin a b <= t <= Rmax a b -> (a + b) / 2 - r <= t <= (a + b) / 2 + r).
  { intros a b t M. unfold Rmin, Rmax. assert (M2 : b - a <= mx /\ a - b <= mx) by (split; [eapply Rle_trans; [apply Rle_abs|exact M]|eapply Rle_trans; [apply Rle_abs|rewrite Rabs_minus_sym; exact M]]). destruct (Rle_dec a b); lra. }
  repeat split; try lra; try (intros t Ht; apply In1; assumption).
  - eapply In1; eassumption. - eapply In1; eassumption. - eapply In1; eassumption. - eapply In1; eassumption. - eapply In1; eassumption. - eapply In1; eassumption.
  - assert (D : (x0 + x1) / 2 + r - ((x0 + x1) / 2 - r) = mx) by lra. rewrite D. unfold mx, Rmax. destruct (Rle_dec _ _); auto. destruct (Rle_dec _ _); auto.
Qed.
Print Assumptions C58_axes.
(* C58: a NaN among the six limits makes all six new limits NaN (np.max passes a NaN on), in whichever of the three axes it stands. *)
Theorem C58_nan : forall xl yl zl : xr * xr, fst xl = XNaN \/ snd xl = XNaN \/ fst yl = XNaN \/ snd yl = XNaN \/ fst zl = XNaN \/ snd zl = XNaN ->
  set_axes_equal xl yl zl = ((XNaN, XNaN), (XNaN, XNaN), (XNaN, XNaN)).
Proof.
  intros [a b] [c d] [e f]. cbn [fst snd]. intros H.
  assert (M1 : forall x, @General.nmax xr _ XNaN x = XNaN) by (intros x; reflexivity).
  assert (M2 : forall x, @General.nmax xr _ x XNaN = XNaN).
  { intros [r| | |]; try reflexivity. unfold General.nmax. rewrite neqb_fin, (Reqb_true _ _ eq_refl). reflexivity. }
  assert (A : forall x, nabs (nsub XNaN x) = XNaN) by (intros [ | | | ]; reflexivity). assert (B : forall x, nabs (nsub x XNaN) = XNaN) by (intros [ | | | ]; reflexivity).
  assert (K : General.nmax (General.nmax (nabs (nsub b a)) (nabs (nsub d c))) (nabs (nsub f e)) = XNaN).
  { destruct H as [->|[->|[->|[->|[->| ->]]]]]; rewrite ?A, ?B, ?M1, ?M2; reflexivity. }
  unfold set_axes_equal, set_axes_radius. cbn [fst snd]. rewrite K.
  assert (D : forall x : xr, nmul x XNaN = XNaN) by (intros [ | | | ]; reflexivity). rewrite D.
  assert (P : forall x : xr, nadd x XNaN = XNaN) by (intros [ | | | ]; reflexivity). assert (Q : forall x : xr, nsub x XNaN = XNaN) by (intros [ | | | ]; reflexivity). rewrite !P, !Q. reflexivity.
Qed.
Print Assumptions C58_nan.

(* C59.  Drawing a patch in the plane of an optic with normal n at position c: every vertex (x, y) lands in the plane through c orthogonal to n,
   and distances between vertices are preserved (so is the distance from the patch's origin to c). *)
Theorem C59_patch (n c : R3) (verts : list (R * R)) : n <> r3zero ->
  exists f : R -> R -> R3, pathpatch_vertices (fv n) (Fin 0) (fv c) (map (fun q => (Fin (fst q), Fin (snd q))) verts) = map (fun q => fv (f (fst q) (snd q))) verts /\
    (forall x y, (f x y - c)%r3 ∙ n = 0) /\ (forall x y, len (f x y - c)%r3 = sqrt (x² + y²)) /\
    (forall x y x' y', len (f x y - f x' y')%r3 = sqrt ((x - x')² + (y - y')²)).
Proof.
  intros Hn. set (e3 := mk3 0 0 1). assert (He : e3 <> r3zero) by (intros H; injection H; lra).
  assert (Ue : is_unit e3) by (unfold is_unit, e3, r3dot; cbn; ring). assert (De : dirn e3 = e3) by (apply dirn_of_unit; exact Ue).
  destruct (rotation_matrix_spec n e3 Hn He) as (f & A & Fe & Iso & _). rewrite De in Fe.
  assert (Lin : forall x y, fv (f (mk3 x y 0) + c)%r3 = pathpatch_vertex (fv n) (Fin 0) (fv c) (Fin x) (Fin y)).
  { intros x y. unfold pathpatch_vertex. cbv zeta. change (V (nofZ 0) (nofZ 0) (nofZ 1)) with (fv e3). change (V (Fin x) (Fin y) (nofZ 0)) with (fv (mk3 x y 0)). rewrite (A (mk3 x y 0)).
    change (V (nofZ 0) (nofZ 0) (Fin 0)) with (fv r3zero). rewrite !vadd_fv. f_equal. r3_ring. }
  exists (fun x y => (f (mk3 x y 0) + c)%r3). 
  assert (Sub : forall x y x' y', len (f (mk3 x y 0) - f (mk3 x' y' 0))%r3 = sqrt ((x - x')² + (y - y')²)).
  { intros x y x' y'. unfold len. f_equal. replace ((f (mk3 x y 0) - f (mk3 x' y' 0))%r3 ∙ (f (mk3 x y 0) - f (mk3 x' y' 0))%r3)
      with (f (mk3 x y 0) ∙ f (mk3 x y 0) - 2 * (f (mk3 x y 0) ∙ f (mk3 x' y' 0)) + f (mk3 x' y' 0) ∙ f (mk3 x' y' 0)) by (generalize (f (mk3 x y 0)) (f (mk3 x' y' 0)); intros [] []; unfold r3dot, r3sub; cbn; ring).
    rewrite !Iso. unfold r3dot, Rsqr; cbn. ring. }
  repeat split.
  - unfold pathpatch_vertices. rewrite map_map. apply map_ext. intros [x y]. cbn [fst snd]. symmetry. apply Lin.
  - intros x y. replace (f (mk3 x y 0) + c - c)%r3 with (f (mk3 x y 0)) by (generalize (f (mk3 x y 0)); intros; r3_ring).
    assert (Z : f (mk3 x y 0) ∙ dirn n = 0) by (rewrite <- Fe, Iso; unfold r3dot, e3; cbn; ring).
    unfold dirn in Z. rewrite dot_scale_r in Z. apply Rmult_integral in Z. destruct Z as [Z|Z]; [|exact Z]. exfalso. revert Z. apply Rinv_neq_0_compat. intros L. apply Hn. apply len_zero. exact L.
  - intros x y. replace (f (mk3 x y 0) + c - c)%r3 with (f (mk3 x y 0)) by (generalize (f (mk3 x y 0)); intros; r3_ring). unfold len. f_equal. rewrite Iso. unfold r3dot, Rsqr; cbn. ring.
  - intros x y x' y'. replace (f (mk3 x y 0) + c - (f (mk3 x' y' 0) + c))%r3 with (f (mk3 x y 0) - f (mk3 x' y' 0))%r3 by (generalize (f (mk3 x y 0)) (f (mk3 x' y' 0)); intros; r3_ring). apply Sub.
Qed.
Print Assumptions C59_patch.
Example C59_hyp : mk3 1 0 (-1) <> r3zero. Proof. intros H. injection H. lra. Qed.
