(** Proofs about General.v over reals with IEEE special values. *)
From Coq Require Import Reals ZArith Lra Lia Psatz Ascii String List Bool.
From Verif Require Import PyErr Num Vec Shapes Csg Optics General Spec XReal RVec VecProofs ElemXr.
Import ListNotations.
Local Open Scope R_scope.

(* ---- powers ---- *)
Lemma pow_unit (a : R) (g : xr) z f : 0 <= a <= 1 -> nlt (Fin 0) g = true -> exists y, xpow z f (Fin a) g = Ok (Fin y) /\ 0 <= y <= 1.
Proof.
  intros Ha Hg. destruct g as [g| | |]; try discriminate.
  - rewrite nlt_fin in Hg. unfold Rltb in Hg. destruct (Rlt_dec 0 g) as [Hg0|]; [|discriminate Hg]. cbn [xpow]. destruct (Req_EM_T g 0); [lra|].
    destruct (Rlt_dec 0 a).
    + exists (Rpower a g). split; [reflexivity|]. unfold Rpower. split; [left; apply exp_pos|]. rewrite <- exp_0. destruct (Req_dec a 1) as [->|]; [rewrite ln_1, Rmult_0_r; lra|].
      left. apply exp_increasing. assert (HL : ln a < ln 1) by (apply ln_increasing; lra). rewrite ln_1 in HL. nra.
    + destruct (Req_EM_T a 0); [|lra]. destruct (Rlt_dec g 0); [lra|]. exists 0. split; [reflexivity|lra].
  - cbn [xpow]. destruct (Req_EM_T (Rabs a) 1); [exists 1; split; [reflexivity|lra]|]. rewrite Rabs_right in * by lra.
    destruct (Rlt_dec a 1); [exists 0; split; [reflexivity|lra]|lra].
Qed.
Definition colour_ok (c : Res (xr * xr * xr)) : Prop := exists r g b, c = Ok (Fin r, Fin g, Fin b) /\ 0 <= r <= 1 /\ 0 <= g <= 1 /\ 0 <= b <= 1.
Lemma rgb_ok (w g fl ce : xr) : nlt (Fin 0) g = true -> colour_ok (wavelength_to_rgb w g fl ce).
Proof.
  intros Hg. unfold wavelength_to_rgb. cbv zeta. generalize (if ngt (if nlt w fl then fl else w) ce then ce else if nlt w fl then fl else w). clear w fl ce. intros w.
  assert (Const : forall a b c, 0 <= a <= 1 -> 0 <= b <= 1 -> 0 <= c <= 1 -> colour_ok (Ok (Fin a, Fin b, Fin c))) by (intros; exists a, b, c; auto).
  assert (P : forall a (k : xr -> Res (xr * xr * xr)), 0 <= a <= 1 -> (forall y, 0 <= y <= 1 -> colour_ok (k (Fin y))) -> colour_ok (do r <- npow (Fin a) g; k r)).
  { intros a k Ha Hk. destruct (pow_unit a g ZeroDivisionError NotModelled Ha Hg) as (y & E & Hy). change (npow (Fin a) g) with (xpow ZeroDivisionError NotModelled (Fin a) g). rewrite E. apply Hk, Hy. }
  rewrite !dec_fin, !nofZ_fin by lia.
  destruct w as [w| | |]; try (cbn; apply Const; lra).
  assert (LE : forall a b, nle (Fin a) (Fin b) = if Rle_dec a b then true else false) by reflexivity.
  assert (LT : forall a b, nlt (Fin a) (Fin b) = if Rlt_dec a b then true else false) by reflexivity.
  rewrite LT. destruct (Rlt_dec w 380); [apply Const; lra|].
  rewrite !LE. destruct (Rle_dec 380 w); [|lra].
  repeat (cbn [andb]; match goal with |- context [Rle_dec ?a ?b] => destruct (Rle_dec a b); try lra end); cbn [andb];
  rewrite ?nsub_fin, ?nmul_fin; change (nopp (Fin (w - 440))) with (Fin (- (w - 440))); change (nopp (Fin (w - 510))) with (Fin (- (w - 510))); change (nopp (Fin (w - 645))) with (Fin (- (w - 645)));
  rewrite ?ndiv_fin by lra; rewrite ?nadd_fin, ?nmul_fin; rewrite ?ndiv_fin by lra;
  repeat (apply P; [|intros ? ?; cbv beta]); try (apply Const; lra); try nra.
Qed.
Lemma rgb_floor (w g fl ce : R) : w < fl -> wavelength_to_rgb (Fin w) (Fin g) (Fin fl) (Fin ce) = wavelength_to_rgb (Fin fl) (Fin g) (Fin fl) (Fin ce).
Proof. intros H. unfold wavelength_to_rgb. rewrite !nlt_fin, Rltb_true, (Rltb_false fl fl) by lra. reflexivity. Qed.
Lemma rgb_ceiling (w g fl ce : R) : ce < w -> fl <= ce -> wavelength_to_rgb (Fin w) (Fin g) (Fin fl) (Fin ce) = wavelength_to_rgb (Fin ce) (Fin g) (Fin fl) (Fin ce).
Proof.
  intros H H2. unfold wavelength_to_rgb. rewrite !nlt_fin, (Rltb_false w fl), (Rltb_false ce fl) by lra. rewrite !ngt_fin, (Rltb_true ce w), (Rltb_false ce ce) by lra. reflexivity.
Qed.

(* ---- energies ---- *)
Definition hc_over_e : R := 1000000000 * (662606957 / 10 ^ 42) * 299792458 / (160217657 / 10 ^ 27).
Lemma hc_pos : 0 < hc_over_e. Proof. unfold hc_over_e. apply Rdiv_lt_0_compat; [|apply Rdiv_lt_0_compat; [lra|apply pow_lt; lra]]. repeat apply Rmult_lt_0_compat; lra. Qed.
Lemma IZR_pow10 k : (0 <= k)%Z -> IZR (10 ^ k) = 10 ^ Z.to_nat k.
Proof. intros H. rewrite <- (Z2Nat.id k) at 1 by lia. rewrite <- pow_IZR. reflexivity. Qed.
Lemma hc_model : ndiv (nmul (nmul (nofZ 1000000000) planck_h) light_c) electron_e = Fin hc_over_e.
Proof.
  unfold planck_h, electron_e, light_c. rewrite !dec_fin by lia. rewrite !nofZ_fin, !nmul_fin. rewrite ndiv_fin.
  - unfold hc_over_e. rewrite !IZR_pow10 by lia. reflexivity.
  - apply Rgt_not_eq. apply Rdiv_lt_0_compat; [lra|]. apply IZR_lt. reflexivity.
Qed.
Lemma to_energy x : x <> 0 -> wavelength_nm_to_energy_eV (Fin x) = Ok (Fin (hc_over_e / x)).
Proof. intros H. unfold wavelength_nm_to_energy_eV. rewrite hc_model, (nofZ_fin 0), neqb_fin, Reqb_false by lra. rewrite ndiv_fin by assumption. reflexivity. Qed.
Lemma to_wavelength x : x <> 0 -> energy_eV_to_wavelength_nm (Fin x) = Ok (Fin (hc_over_e / x)).
Proof. intros H. unfold energy_eV_to_wavelength_nm. rewrite hc_model, (nofZ_fin 0), neqb_fin, Reqb_false by lra. rewrite ndiv_fin by assumption. reflexivity. Qed.

(* ---- find_nearest ---- *)
Lemma argmin_from_spec l : forall bi i best, (bi < i)%nat -> exists k, argmin_from bi i (Fin best) (map Fin l) = k /\
  ((k = bi /\ forall j y, nth_error l j = Some y -> best <= y) \/
   (exists j x, k = (i + j)%nat /\ nth_error l j = Some x /\ x < best /\ (forall j' y, nth_error l j' = Some y -> x <= y) /\ forall j' y, (j' < j)%nat -> nth_error l j' = Some y -> x < y)).
Proof.
  induction l as [|a l IH]; intros bi i best L; cbn [map argmin_from].
  - exists bi. split; [reflexivity|]. left. split; [reflexivity|]. intros [|j] y; discriminate.
  - rewrite !neqb_fin, !nlt_fin, !(Reqb_true _ _ eq_refl). cbn [negb]. rewrite orb_false_r. destruct (Rltb_spec a best).
    + destruct (IH i (Datatypes.S i) a ltac:(lia)) as (k & E & [(-> & H)|(j & x & -> & Ej & Lx & H & F)]).
      * exists i. split; [exact E|]. right. exists O, a. repeat split; auto; try lia. intros [|j'] y Hy; cbn in Hy; [injection Hy as ->; lra|eauto].
      * exists (Datatypes.S i + j)%nat. split; [exact E|]. right. exists (Datatypes.S j), x. repeat split; auto; try lia; try lra.
        -- intros [|j'] y Hy; cbn in Hy; [injection Hy as ->; lra|eauto].
        -- intros [|j'] y Lj Hy; cbn in Hy; [injection Hy as ->; lra|apply (F j'); auto; lia].
    + destruct (IH bi (Datatypes.S i) best ltac:(lia)) as (k & E & [(-> & H)|(j & x & -> & Ej & Lx & H & F)]).
      * exists bi. split; [exact E|]. left. split; [reflexivity|]. intros [|j'] y Hy; cbn in Hy; [injection Hy as ->; lra|eauto].
      * exists (Datatypes.S i + j)%nat. split; [exact E|]. right. exists (Datatypes.S j), x. repeat split; auto; try lia.
        -- intros [|j'] y Hy; cbn in Hy; [injection Hy as ->; lra|eauto].
        -- intros [|j'] y Lj Hy; cbn in Hy; [injection Hy as ->; lra|apply (F j'); auto; lia].
Qed.
Lemma find_nearest_spec (a : list R) (v : R) : a <> [] -> exists i x, find_nearest (map Fin a) (Fin v) = Ok (i, Fin x) /\ nth_error a i = Some x /\
  (forall j y, nth_error a j = Some y -> Rabs (x - v) <= Rabs (y - v)) /\ (forall j y, (j < i)%nat -> nth_error a j = Some y -> Rabs (x - v) < Rabs (y - v)).
Proof.
  intros Ha. set (d := map (fun x => Rabs (x - v)) a).
  assert (M : map (fun x => nabs (nsub x (Fin v))) (map Fin a) = map Fin d) by (unfold d; rewrite !map_map; reflexivity).
  assert (D : forall j y, nth_error a j = Some y -> nth_error d j = Some (Rabs (y - v))) by (intros j y H; unfold d; rewrite nth_error_map, H; reflexivity).
  assert (Inv : forall j z, nth_error d j = Some z -> exists y, nth_error a j = Some y /\ z = Rabs (y - v)).
  { intros j z H. unfold d in H. rewrite nth_error_map in H. destruct (nth_error a j) as [y|]; [|discriminate]. injection H as <-. eauto. }
  assert (K : exists i z, argmin (map Fin d) = Ok i /\ nth_error d i = Some z /\ (forall j y, nth_error d j = Some y -> z <= y) /\ (forall j y, (j < i)%nat -> nth_error d j = Some y -> z < y)).
  { clearbody d. assert (Hd : d <> []) by (destruct d; [destruct a as [|a0 a]; [contradiction|discriminate (D O a0 eq_refl)]|discriminate]). clear M D Inv. destruct d as [|d0 d]; [contradiction|]. cbn [map argmin]. destruct (argmin_from_spec d 0 1 d0 ltac:(lia)) as (k & E & [(-> & H)|(j & x & -> & Ej & Lx & H & F)]); rewrite E.
    - exists O, d0. repeat split; [|intros; lia]. intros [|j] y Hy; cbn in Hy; [injection Hy as ->; lra|eauto].
    - exists (1 + j)%nat, x. repeat split; auto.
      + intros [|j'] y Hy; cbn in Hy; [injection Hy as ->; lra|eauto].
      + intros [|j'] y Lj Hy; cbn in Hy; [injection Hy as ->; lra|apply (F j'); auto; lia]. }
  destruct K as (i & z & E & Ez & H1 & H2). destruct (Inv _ _ Ez) as (x & Ex & ->). exists i, x. unfold find_nearest. rewrite M, E. cbn [bind]. rewrite nth_error_map, Ex. cbn [option_map].
  repeat split; auto; intros; [eapply H1|eapply H2]; eauto.
Qed.

(* ---- set_axes_equal ---- *)
Lemma nmax_fin a b : nmax (Fin a) (Fin b) = Fin (Rmax a b).
Proof.
  unfold nmax. rewrite !neqb_fin, !(Reqb_true _ _ eq_refl), ngt_fin. cbn [negb]. unfold Rmax. destruct (Rltb_spec a b), (Rle_dec a b); try lra; try reflexivity. f_equal; lra.
Qed.
Lemma axes_spec x0 x1 y0 y1 z0 z1 : exists r cx cy cz, set_axes_equal (Fin x0, Fin x1) (Fin y0, Fin y1) (Fin z0, Fin z1)
    = ((Fin (cx - r), Fin (cx + r)), (Fin (cy - r), Fin (cy + r)), (Fin (cz - r), Fin (cz + r))) /\
  cx = (x0 + x1) / 2 /\ cy = (y0 + y1) / 2 /\ cz = (z0 + z1) / 2 /\ 2 * r = Rmax (Rmax (Rabs (x1 - x0)) (Rabs (y1 - y0))) (Rabs (z1 - z0)).
Proof.
  exists (5 / 10 * Rmax (Rmax (Rabs (x1 - x0)) (Rabs (y1 - y0))) (Rabs (z1 - z0))), ((x0 + x1) / 2), ((y0 + y1) / 2), ((z0 + z1) / 2).
  repeat split; [|lra]. unfold set_axes_equal, set_axes_radius. cbn [fst snd]. rewrite !nsub_fin, !nabs_fin, !nmax_fin, !nadd_fin, dec_fin by lia. rewrite nofZ_fin, !ndiv_fin by lra. reflexivity.
Qed.

(* ---- image_rays ---- *)
(** n evenly spaced numbers from lo to hi (n >= 2), or just 0 (n = 1) *)
Definition evenly (lo hi : R) (n : nat) (l : list R) : Prop :=
  List.length l = n /\ (n = 1%nat -> l = [0]) /\ (n <> 1%nat -> forall i x, nth_error l i = Some x -> x = lo + INR i * (hi - lo) / INR (n - 1)).
Lemma linspace_fin lo hi n : (2 <= n)%nat -> exists l, linspace (Fin lo) (Fin hi) n = map Fin l /\ evenly lo hi n l.
Proof.
  intros Hn. set (f i := lo + INR i * (hi - lo) / INR (n - 1)). exists (map f (seq 0 n)).
  assert (Hp : 0 < INR (n - 1)) by (apply lt_0_INR; lia).
  assert (Hd : IZR (Z.of_nat n - 1) = INR (n - 1)) by (rewrite INR_IZR_INZ; f_equal; lia). split.
  - unfold linspace. cbv zeta. rewrite map_map. apply map_ext_in. intros i Hi. apply in_seq in Hi. rewrite (proj2 (Z.ltb_lt _ _)) by lia. cbn [andb].
    rewrite !nofZ_fin, Hd, nsub_fin, ndiv_fin, neqb_fin by lra.
    rewrite <- INR_IZR_INZ. destruct (Nat.eqb_spec i (n - 1)).
    + unfold f. subst i. f_equal. field. lra.
    + destruct (Reqb _ _).
      * rewrite ndiv_fin by lra. rewrite nmul_fin, nadd_fin. unfold f. f_equal. field. lra.
      * rewrite nmul_fin, nadd_fin. unfold f. f_equal. field. lra.
  - split; [now rewrite map_length, seq_length|]. split; [lia|]. intros _ i x H. rewrite nth_error_map in H. destruct (nth_error (seq 0 n) i) eqn:Es; [|discriminate]. injection H as <-.
    assert (Hi : (i < n)%nat) by (rewrite <- (seq_length n 0); apply nth_error_Some; congruence). apply nth_error_nth with (d := 0%nat) in Es. rewrite seq_nth in Es by lia. now subst.
Qed.
Lemma samples_fin lo hi res : (1 <= res)%Z -> exists l, samples (Fin lo) (Fin hi) res = Ok (map Fin l) /\ evenly lo hi (Z.to_nat res) l.
Proof.
  intros H. unfold samples. rewrite (proj2 (Z.ltb_ge _ _)) by lia. destruct (Z.eqb_spec res 1) as [->|].
  - exists [0]. split; [reflexivity|]. repeat split; intros; try reflexivity. lia.
  - destruct (linspace_fin lo hi (Z.to_nat res)) as (l & E & S); [lia|]. exists l. rewrite E. auto.
Qed.
Lemma evenly_bounds lo hi n l x : evenly lo hi n l -> In x l -> lo <= 0 <= hi -> lo <= x <= hi.
Proof.
  intros (L & S1 & S2) Hx B. destruct (Nat.eq_dec n 1) as [->|N].
  - rewrite (S1 eq_refl) in Hx. destruct Hx as [<-|[]]. lra.
  - destruct (In_nth_error _ _ Hx) as (i & Ei). assert (Hi : (i < n)%nat) by (rewrite <- L; apply nth_error_Some; congruence). rewrite (S2 N i x Ei).
    assert (Hp : 0 < INR (n - 1)) by (apply lt_0_INR; lia). assert (Hq : 0 <= INR i <= INR (n - 1)) by (split; [apply pos_INR|apply le_INR; lia]).
    assert (Hf : 0 <= INR i / INR (n - 1) <= 1). { split; [apply Rmult_le_pos; [lra|left; apply Rinv_0_lt_compat; lra]|]. apply Rmult_le_reg_r with (INR (n - 1)); [lra|]. unfold Rdiv. rewrite Rmult_assoc, Rinv_l by lra. lra. }
    replace (INR i * (hi - lo) / INR (n - 1)) with (INR i / INR (n - 1) * (hi - lo)) by (field; lra). nra.
Qed.
Definition grid {A} (f : R -> R -> R -> A) (xs zs ts : list R) : list A := flat_map (fun x => flat_map (fun z => map (fun t => f x z t) ts) zs) xs.
Lemma flat_map_const_len {A B} (f : A -> list B) n l : (forall x, List.length (f x) = n) -> List.length (flat_map f l) = (List.length l * n)%nat.
Proof. intros H. induction l as [|a l IH]; [reflexivity|]. cbn. rewrite app_length, H, IH. reflexivity. Qed.
Lemma grid_length {A} (f : R -> R -> R -> A) xs zs ts : List.length (grid f xs zs ts) = (List.length xs * (List.length zs * List.length ts))%nat.
Proof. unfold grid. apply flat_map_const_len. intros x. apply flat_map_const_len. intros z. apply map_length. Qed.
Lemma grid_in {A} (f : R -> R -> R -> A) xs zs ts a : In a (grid f xs zs ts) -> exists x z t, In x xs /\ In z zs /\ In t ts /\ a = f x z t.
Proof.
  unfold grid. intros H. apply in_flat_map in H. destruct H as (x & Hx & H). apply in_flat_map in H. destruct H as (z & Hz & H). apply in_map_iff in H. destruct H as (t & <- & Ht). eauto 10.
Qed.
Lemma flat_map_map' {A B C} (g : A -> B) (f : B -> list C) l : flat_map f (map g l) = flat_map (fun x => f (g x)) l.
Proof. induction l; cbn; [reflexivity|]. now f_equal. Qed.
Lemma flat_map_single {A B} (f : A -> B) l : flat_map (fun x => [f x]) l = map f l.
Proof. induction l; cbn; [reflexivity|]. now f_equal. Qed.
Lemma grid_nested {A} (g : xr -> xr -> xr -> A) xs zs ts :
  flat_map (fun x => flat_map (fun z => flat_map (fun t => [g x z t]) (map Fin ts)) (map Fin zs)) (map Fin xs) = grid (fun x z t => g (Fin x) (Fin z) (Fin t)) xs zs ts.
Proof.
  rewrite flat_map_map'. unfold grid. apply flat_map_ext. intros x. rewrite flat_map_map'. apply flat_map_ext. intros z. rewrite flat_map_map'. apply flat_map_single.
Qed.
Lemma flat_map_nil {A B} (f : A -> list B) l : (forall x, f x = []) -> flat_map f l = [].
Proof. intros H. induction l; cbn; [reflexivity|]. now rewrite H, IHl. Qed.
Definition wave_of (d x z : R) : R := if Rle_dec (x * x + z * z) (d * d / 4) then 680 else 450.
Lemma image_rays_ok y size angle xr_ zr ar pat d : (1 <= xr_)%Z -> (1 <= zr)%Z -> (1 <= ar)%Z -> exists xs zs ts,
  evenly (- size / 2) (size / 2) (Z.to_nat xr_) xs /\ evenly (- size / 2) (size / 2) (Z.to_nat zr) zs /\ evenly (- angle) angle (Z.to_nat ar) ts /\
  image_rays (Fin y) (Fin size) (Fin angle) xr_ zr ar pat (Fin d)
  = Ok (grid (fun x z t => fv (mk3 x y z)) xs zs ts, grid (fun x z t => fv (mk3 0 (cos t) (sin t))) xs zs ts,
        if String.eqb pat "circle" then grid (fun x z t => Fin (wave_of d x z)) xs zs ts else []).
Proof.
  intros H1 H2 H3. destruct (samples_fin (- size / 2) (size / 2) xr_ H1) as (xs & Ex & Sx). destruct (samples_fin (- size / 2) (size / 2) zr H2) as (zs & Ez & Sz). destruct (samples_fin (- angle) angle ar H3) as (ts & Et & St).
  exists xs, zs, ts. repeat (split; [assumption|]). unfold image_rays. rewrite (nofZ_fin 2), !nopp_fin, !ndiv_fin by lra. rewrite Ex, Ez, Et. cbn [bind]. rewrite !grid_nested. do 2 f_equal.
  destruct (String.eqb pat "circle").
  - rewrite <- (grid_nested (fun x z t => match x, z with Fin x, Fin z => Fin (wave_of d x z) | _, _ => XNaN end)). rewrite !flat_map_map'. apply flat_map_ext. intros x. rewrite !flat_map_map'. apply flat_map_ext. intros z. apply flat_map_ext. intros t.
    rewrite !nofZ_fin, !nmul_fin, nadd_fin, ndiv_fin, nle_fin by lra. unfold wave_of, Rleb. destruct (Rle_dec _ _); reflexivity.
  - apply flat_map_nil. intros x. apply flat_map_nil. intros z. apply flat_map_nil. reflexivity.
Qed.
Lemma image_rays_error y size angle xr_ zr ar pat d : image_rays (Fin y) (Fin size) (Fin angle) xr_ zr ar pat (Fin d) = Err ValueError <-> (xr_ < 1 \/ zr < 1 \/ ar < 1)%Z.
Proof.
  split.
  - intros H. destruct (Z_lt_le_dec xr_ 1) as [|Hx]; [auto|]. destruct (Z_lt_le_dec zr 1) as [|Hz]; [auto|]. destruct (Z_lt_le_dec ar 1) as [|Ha]; [auto|].
    destruct (image_rays_ok y size angle xr_ zr ar pat d Hx Hz Ha) as (xs & zs & ts & _ & _ & _ & E). congruence.
  - assert (B : forall lo hi res, (res < 1)%Z -> samples (Fin lo) (Fin hi) res = Err ValueError) by (intros; unfold samples; rewrite (proj2 (Z.ltb_lt _ _)) by lia; reflexivity).
    intros H. unfold image_rays. rewrite (nofZ_fin 2), !nopp_fin, !ndiv_fin by lra.
    destruct (Z_lt_le_dec xr_ 1) as [L|L]; [rewrite B by assumption; reflexivity|]. destruct (samples_fin (- size / 2) (size / 2) xr_ L) as (xs & -> & _). cbn [bind].
    destruct (Z_lt_le_dec zr 1) as [L2|L2]; [rewrite B by assumption; reflexivity|]. destruct (samples_fin (- size / 2) (size / 2) zr L2) as (zs & -> & _). cbn [bind].
    rewrite B by lia. reflexivity.
Qed.

(* ---- add_faerie_fire_rays ---- *)
Definition aims_at (c : R3) (rad : R) (r : ray xr) : Prop := exists u, is_unit u /\
  r = mkRay (fv (c + rad * u)%r3) (fv (- u)%r3) (Fin 532) (Fin 0) [fv (c + rad * u)%r3] false "faerie_fire".
Lemma faerie_ray_ok c rad v : v <> r3zero -> aims_at c rad (faerie_ray (Fin rad) (fv c) (fv v)).
Proof.
  intros Hv. exists (dirn v). split; [apply dirn_unit, Hv|]. unfold faerie_ray. cbv zeta. change (vdivs (fv v) (norm (fv v))) with (unit_vector (fv v)). rewrite unit_vector_fv by assumption.
  rewrite vopp_fv, vscale_fv, vadd_fv. unfold mk_ray. rewrite unit_vector_unit by (apply unit_opp, dirn_unit, Hv). reflexivity.
Qed.
Lemma draw_ok fuel (draw : nat -> R) : forall used v w u', draw_direction fuel (fun i => Fin (draw i)) used (fv v) = Ok (w, u') -> exists x, w = fv x /\ 1e-6 <= len x.
Proof.
  induction fuel as [|n IH]; intros used v w u'; cbn [draw_direction]; rewrite norm_fv, dec_fin, nlt_fin by lia.
  - destruct (Rltb_spec (len v) (1 / IZR (10 ^ 6))) as [|L]; [discriminate|]. intros H. injection H as <- <-. exists v. split; [reflexivity|]. cbn in L. lra.
  - destruct (Rltb_spec (len v) (1 / IZR (10 ^ 6))) as [|L].
    + change (V (Fin (draw used)) (Fin (draw (used + 1)%nat)) (Fin (draw (used + 2)%nat))) with (fv (mk3 (draw used) (draw (used + 1)%nat) (draw (used + 2)%nat))). apply IH.
    + intros H. injection H as <- <-. exists v. split; [reflexivity|]. cbn in L. lra.
Qed.
Lemma faerie_loop_ok fuel (draw : nat -> R) c rad n : forall used l l', faerie_loop fuel (fun i => Fin (draw i)) used (Fin rad) (fv c) n l = Ok l' ->
  exists new, l' = l ++ new /\ List.length new = n /\ Forall (aims_at c rad) new.
Proof.
  induction n as [|n IH]; intros used l l'; cbn [faerie_loop].
  - intros H. injection H as <-. exists []. rewrite app_nil_r. auto.
  - change (V (nofZ 0) (nofZ 0) (nofZ 0)) with (fv r3zero). destruct (draw_direction _ _ _ _) as [[v u']|] eqn:E; [|discriminate]. cbn [bind]. intros H. apply draw_ok in E. destruct E as (x & -> & Lx).
    apply IH in H. destruct H as (new & -> & Ln & F). exists (faerie_ray (Fin rad) (fv c) (fv x) :: new). rewrite <- app_assoc. repeat split; [cbn; congruence|].
    constructor; [|exact F]. apply faerie_ray_ok. intros ->. rewrite len_zero_r3 in Lx. lra.
Qed.
(** enough fuel: if every run of [fuel] consecutive triples contains one of norm at least 1e-6, the generator terminates *)
Definition triple (draw : nat -> R) (i : nat) : R3 := mk3 (draw i) (draw (i + 1)%nat) (draw (i + 2)%nat).
Lemma draw_total fuel (draw : nat -> R) : forall used v, (1e-6 <= len v \/ exists k, (k < fuel)%nat /\ 1e-6 <= len (triple draw (used + 3 * k))) ->
  exists w, draw_direction fuel (fun i => Fin (draw i)) used (fv v) = Ok w.
Proof.
  induction fuel as [|n IH]; intros used v H; cbn [draw_direction]; rewrite norm_fv, dec_fin, nlt_fin by lia.
  - destruct H as [H|(k & K & _)]; [|lia]. rewrite Rltb_false; [eauto|]. cbn; lra.
  - destruct (Rltb_spec (len v) (1 / IZR (10 ^ 6))) as [L|L]; [|eauto]. cbn in L. destruct H as [H|(k & K & H)]; [lra|].
    change (V (Fin (draw used)) (Fin (draw (used + 1)%nat)) (Fin (draw (used + 2)%nat))) with (fv (triple draw used)). apply IH. destruct k as [|k]; [left; rewrite Nat.mul_0_r, Nat.add_0_r in H; exact H|].
    right. exists k. split; [lia|]. replace (used + 3 + 3 * k)%nat with (used + 3 * Datatypes.S k)%nat by lia. exact H.
Qed.
Lemma faerie_total fuel (draw : nat -> R) c rad n : (forall i, exists k, (k < fuel)%nat /\ 1e-6 <= len (triple draw (i + 3 * k))) ->
  forall used l, exists l', faerie_loop fuel (fun i => Fin (draw i)) used (Fin rad) (fv c) n l = Ok l'.
Proof.
  intros H. induction n as [|n IH]; intros used l; cbn [faerie_loop]; [eauto|]. change (V (nofZ 0) (nofZ 0) (nofZ 0)) with (fv r3zero).
  destruct (draw_total fuel draw used r3zero) as ([v u'] & E); [right; apply H|]. rewrite E. cbn [bind]. apply IH.
Qed.
