(** C75 to C77: Fermi-Dirac integrals, quantum concentration and Sackur-Tetrode entropy. *)
From Coq Require Import Reals ZArith String List Bool Lia Lra Psatz Arith.
From Verif Require Import PyErr Num Vec Shapes Csg Optics General XReal ElemXr GenProofs Signal Props_Signal Fermi.
Import ListNotations.
Local Open Scope R_scope.

(** np.exp, np.log and numpy powers over reals with IEEE special values *)
#[global] Instance Special_xr : Special xr := {
  npi := Fin PI;
  nnan := XNaN;
  nexp a := match a with Fin x => Fin (exp x) | PInf => PInf | NInf => Fin 0 | XNaN => XNaN end;
  nlog a := match a with Fin x => if Rlt_dec 0 x then Fin (ln x) else if Req_EM_T x 0 then NInf else XNaN | PInf => PInf | NInf | XNaN => XNaN end;
  nppow a b := match xpow ZeroDivisionError ValueError a b with Ok v => v | Err ZeroDivisionError => PInf | Err _ => XNaN end
}.

(* ---- specification ---- *)
(** the integrand of the Fermi-Dirac integral of order j *)
Definition fermi (eta j x : R) : R := Rpower x j / (1 + exp (x - eta)).
(** the substitution *)
Definition subst_x (t : R) : R := exp (t - exp (- t)).
(** the integrand after the substitution *)
Definition integrand (eta j t : R) : R := fermi eta j (subst_x t) * (subst_x t * (1 + exp (- t))).
(** the trapezoidal rule for g on [a, b] with n intervals *)
Definition trapezoidal (g : R -> R) (a b : R) (n : nat) : R :=
  let x i := a + INR i * (b - a) / INR n in
  total n (fun i => (x (S i) - x i) * (g (x i) + g (x (S i))) / 2).
(** what the code computes up to normalisation: the trapezoidal rule on [-4.5, 5] minus a term from the ends *)
Definition computed (eta j : R) (n : nat) : R :=
  trapezoidal (integrand eta j) (-4.5) 5 n - (5 * integrand eta j 5 + 4.5 * integrand eta j (-4.5)).

(* ---- proofs ---- *)
Lemma xpow_pos z f a b : 0 < a -> xpow z f (Fin a) (Fin b) = Ok (Fin (Rpower a b)).
Proof.
  intros H. unfold xpow. destruct (Req_EM_T b 0) as [->|]. rewrite Rpower_O by assumption. reflexivity.
  destruct (Rlt_dec 0 a); [reflexivity|lra].
Qed.
Lemma nexp_fin x : nexp (Fin x) = Fin (exp x). Proof. reflexivity. Qed.
Lemma nppow_pos a b : 0 < a -> nppow (Fin a) (Fin b) = Fin (Rpower a b).
Proof. intros H. cbn [nppow Special_xr]. rewrite xpow_pos by assumption. reflexivity. Qed.
Lemma fd_f_fin eta j t : fd_f (Fin eta) (Fin j) (Fin t) = Fin (integrand eta j t).
Proof.
  unfold fd_f. cbv zeta. rewrite !nopp_fin, !nexp_fin, !nsub_fin, !nexp_fin, nppow_pos by apply exp_pos.
  rewrite !nsub_fin, !nexp_fin, nofZ_fin, !nadd_fin, !nmul_fin.
  pose proof (exp_pos (exp (t - exp (- t)) - eta)). rewrite ndiv_fin by lra. f_equal. unfold integrand, fermi, subst_x. field. lra.
Qed.
Lemma trapz_fin (y x : nat -> R) n s :
  trapz (map Fin (map y (seq s (n + 1)))) (map Fin (map x (seq s (n + 1)))) = Fin (total n (fun i => (x (s + S i)%nat - x (s + i)%nat) * (y (s + S i)%nat + y (s + i)%nat) / 2)).
Proof.
  unfold trapz. change (nofZ 0) with (Fin 0). rewrite <- (Rplus_0_l (total n _)). generalize 0 as a.
  revert s. induction n; intros s a.
  - cbn. f_equal. lra.
  - rewrite total_S. cbn [Nat.add seq map]. replace (n + 1)%nat with (S n) by lia. cbn [seq map].
    change (trapz_terms (Fin (y s) :: Fin (y (S s)) :: ?l) (Fin (x s) :: Fin (x (S s)) :: ?l')) with
      (ndiv (nmul (nsub (Fin (x (S s))) (Fin (x s))) (nadd (Fin (y (S s))) (Fin (y s)))) (nofZ 2) :: trapz_terms (Fin (y (S s)) :: l) (Fin (x (S s)) :: l')).
    rewrite nsub_fin, nadd_fin, nmul_fin, nofZ_fin, ndiv_fin by lra. cbn [fold_left]. rewrite nadd_fin.
    specialize (IHn (S s)). replace (n + 1)%nat with (S n) in IHn by lia. cbn [seq map] in IHn. rewrite IHn. f_equal.
    replace (s + 1)%nat with (S s) by lia. rewrite Nat.add_0_r.
    rewrite (total_ext n (fun k => (x (s + S (S k))%nat - _) * _ / 2) (fun i => (x (S s + S i)%nat - x (S s + i)%nat) * (y (S s + S i)%nat + y (S s + i)%nat) / 2)).
    lra. intros k _. replace (s + S (S k))%nat with (S s + S k)%nat by lia. replace (s + S k)%nat with (S s + k)%nat by lia. reflexivity.
Qed.
Lemma by_parts (t f : nat -> R) n :
  total n (fun i => (f (S i) - f i) * (t (S i) + t i) / 2) = t n * f n - t O * f O - total n (fun i => (t (S i) - t i) * (f i + f (S i)) / 2).
Proof. induction n; cbn [total]; [lra|]. rewrite IHn. lra. Qed.
Lemma linspace_map lo hi n : (2 <= n)%nat -> linspace (Fin lo) (Fin hi) n = map Fin (map (fun i => lo + INR i * (hi - lo) / INR (n - 1)) (seq 0 n)).
Proof.
  intros H. destruct (linspace_fin lo hi n H) as (l & -> & L & _ & V). f_equal. apply (nth_ext _ _ 0 0). rewrite map_length, seq_length; assumption.
  intros i Hi. rewrite nth_seq_map by lia. apply V; [lia|]. apply nth_error_nth'. assumption.
Qed.
Lemma fd_y_fin eta j n : (1 <= n)%nat -> fd_y (Fin eta) (Fin j) n = Fin (- computed eta j n).
Proof.
  intros Hn. unfold fd_y. cbv zeta. rewrite dec_fin by lia. rewrite nofZ_fin, linspace_map by lia.
  set (t := fun i => _). rewrite (map_ext (fd_f (Fin eta) (Fin j)) (fun v => fd_f (Fin eta) (Fin j) v)) by reflexivity.
  replace (map (fun v => fd_f (Fin eta) (Fin j) v) (map Fin (map t (seq 0 (n + 1))))) with (map Fin (map (fun i => integrand eta j (t i)) (seq 0 (n + 1)))).
  2:{ rewrite !map_map. apply map_ext. intros i. symmetry. apply fd_f_fin. }
  rewrite trapz_fin. f_equal. cbn [Nat.add]. rewrite (by_parts t (fun i => integrand eta j (t i)) n). unfold computed, trapezoidal. cbv zeta.
  assert (P : 0 < INR n) by (apply lt_0_INR; lia).
  assert (E : forall i, t i = -4.5 + INR i * (5 - -4.5) / INR n).
  { intros i. unfold t. replace (n + 1 - 1)%nat with n by lia. lra. }
  rewrite !(E n), !(E O).
  rewrite (total_ext n (fun i => (-4.5 + _ - _) * _ / 2) (fun i => (t (S i) - t i) * (integrand eta j (t i) + integrand eta j (t (S i))) / 2)) by (intros; rewrite !E; reflexivity).
  replace (-4.5 + INR n * (5 - -4.5) / INR n) with 5 by (field; lra).
  replace (-4.5 + INR 0 * (5 - -4.5) / INR n) with (-4.5) by (cbn; field; lra). lra.
Qed.
Lemma fd_loop_fin eta j tol todo n N0 e0 : (2 <= n)%nat ->
  exists k, (n <= k <= n + todo)%nat /\ (k = (n + todo)%nat \/ Rabs (computed eta j k - computed eta j (k - 1)) < tol) /\
    (forall m, (n <= m < k)%nat -> tol <= Rabs (computed eta j m - computed eta j (m - 1))) /\
    fd_loop (Fin eta) (Fin j) (Fin tol) (S todo) n (Some (Fin (- computed eta j (n - 1)))) N0 e0
    = Ok (Some (Fin (- computed eta j k)), Some (Fin (INR k)), Some (Fin (Rabs (computed eta j k - computed eta j (k - 1))))).
Proof.
  revert n N0 e0. induction todo as [|todo IH]; intros n N0 e0 Hn.
  - exists n. split; [lia|]. split; [left; lia|]. split; [intros; lia|].
    change (fd_loop ?a ?b ?c 1 n ?y ?z ?w) with (if Nat.ltb 1 n then (do y_old <- bound y;
        let err' := nabs (nsub (fd_y a b n) y_old) in
        if nlt err' c then Ok (Some (fd_y a b n), Some (nofZ (Z.of_nat n)), Some err')
        else Ok (Some (fd_y a b n), Some (nofZ (Z.of_nat n)), Some err')) else Ok (Some (fd_y a b n), Some (nofZ (Z.of_nat n)), w)).
    destruct (Nat.ltb_spec 1 n); [|lia]. rewrite fd_y_fin by lia. cbn [bound bind]. rewrite nsub_fin, nabs_fin, nofZ_fin, <- INR_IZR_INZ.
    replace (Rabs (- computed eta j n - - computed eta j (n - 1))) with (Rabs (computed eta j n - computed eta j (n - 1))) by (rewrite Rabs_minus_sym; f_equal; lra).
    cbv zeta. destruct (nlt _ _); reflexivity.
  - assert (E : fd_loop (Fin eta) (Fin j) (Fin tol) (S (S todo)) n (Some (Fin (- computed eta j (n - 1)))) N0 e0 =
      if Rltb (Rabs (computed eta j n - computed eta j (n - 1))) tol then Ok (Some (Fin (- computed eta j n)), Some (Fin (INR n)), Some (Fin (Rabs (computed eta j n - computed eta j (n - 1)))))
      else fd_loop (Fin eta) (Fin j) (Fin tol) (S todo) (S n) (Some (Fin (- computed eta j (S n - 1)))) (Some (Fin (INR n))) (Some (Fin (Rabs (computed eta j n - computed eta j (n - 1)))))).
    { remember (S todo) as td. cbn [fd_loop].
      destruct (Nat.ltb_spec 1 n); [|lia]. rewrite fd_y_fin by lia. cbn [bound bind]. rewrite nsub_fin, nabs_fin, nofZ_fin, <- INR_IZR_INZ.
      replace (Rabs (- computed eta j n - - computed eta j (n - 1))) with (Rabs (computed eta j n - computed eta j (n - 1))) by (rewrite Rabs_minus_sym; f_equal; lra).
      replace (S n - 1)%nat with n by lia. reflexivity. }
    destruct (Rltb_spec (Rabs (computed eta j n - computed eta j (n - 1))) tol) as [L|L].
    + exists n. split; [lia|]. split; [right; assumption|]. split; [intros; lia|]. exact E.
    + destruct (IH (S n) (Some (Fin (INR n))) (Some (Fin (Rabs (computed eta j n - computed eta j (n - 1))))) ltac:(lia)) as (k & K1 & K2 & K3 & K4).
      exists k. split; [lia|]. split; [destruct K2; [left; lia|right; assumption]|]. split; [|rewrite E; exact K4].
      intros m Hm. destruct (Nat.eq_dec m n) as [->|]; [lra|]. apply K3. lia.
Qed.

Lemma exp_opp_deriv t : derivable_pt_lim (fun t => exp (- t)) t (- exp (- t)).
Proof.
  replace (- exp (- t)) with (exp (- t) * -1) by ring.
  apply (derivable_pt_lim_comp (fun t => - t) exp t (-1) (exp (- t))); [|apply derivable_pt_lim_exp].
  apply (derivable_pt_lim_opp id t 1). apply derivable_pt_lim_id.
Qed.
Lemma subst_deriv t : derivable_pt_lim subst_x t (subst_x t * (1 + exp (- t))).
Proof.
  apply (derivable_pt_lim_comp (fun t => t - exp (- t)) exp t (1 + exp (- t)) (subst_x t)); [|apply derivable_pt_lim_exp].
  replace (1 + exp (- t)) with (1 - - exp (- t)) by ring.
  apply (derivable_pt_lim_minus id (fun t => exp (- t))). apply derivable_pt_lim_id. apply exp_opp_deriv.
Qed.
Lemma cont_ext f g t : (forall x, f x = g x) -> continuity_pt f t -> continuity_pt g t.
Proof. intros E H e He. destruct (H e He) as (d & D1 & D2). exists d. split; [assumption|]. intros x Hx. rewrite <- !E. apply D2, Hx. Qed.
Lemma integrand_cont eta j t : continuity_pt (integrand eta j) t.
Proof.
  apply (cont_ext (fun t => exp (j * (t - exp (- t))) / (1 + exp (subst_x t - eta)) * (subst_x t * (1 + exp (- t))))).
  intros x. unfold integrand, fermi, subst_x, Rpower. rewrite ln_exp. reflexivity.
  assert (C : continuity_pt (fun t => exp (- t)) t) by (apply derivable_continuous_pt; exists (- exp (- t)); apply exp_opp_deriv).
  assert (X : continuity_pt subst_x t) by (apply derivable_continuous_pt; eexists; apply subst_deriv).
  assert (EC : forall x, continuity_pt exp x) by (intros; apply derivable_continuous_pt, derivable_pt_exp).
  assert (K : forall c, continuity_pt (fun _ : R => c) t) by (intros; apply continuity_pt_const; intros ? ?; reflexivity).
  assert (I : continuity_pt (fun x : R => x) t) by (apply derivable_continuous_pt, derivable_pt_id).
  apply (continuity_pt_mult (fun t => exp (j * (t - exp (- t))) / (1 + exp (subst_x t - eta))) (fun t => subst_x t * (1 + exp (- t)))).
  - apply (continuity_pt_div (fun t => exp (j * (t - exp (- t)))) (fun t => 1 + exp (subst_x t - eta))).
    + apply (continuity_pt_comp (fun t => j * (t - exp (- t))) exp); [|apply EC].
      apply (continuity_pt_mult (fun _ => j) (fun t => t - exp (- t))); [apply K|].
      apply (continuity_pt_minus (fun t => t) (fun t => exp (- t))); assumption.
    + apply (continuity_pt_plus (fun _ => 1) (fun t => exp (subst_x t - eta))); [apply K|].
      apply (continuity_pt_comp (fun t => subst_x t - eta) exp); [|apply EC].
      apply (continuity_pt_minus subst_x (fun t => eta)); [assumption|apply K].
    + pose proof (exp_pos (subst_x t - eta)). lra.
  - apply (continuity_pt_mult subst_x (fun t => 1 + exp (- t))); [assumption|].
    apply (continuity_pt_plus (fun _ => 1) (fun t => exp (- t))); [apply K|assumption].
Qed.
Lemma total_bound n (f : nat -> R) (c : R) : (forall i, (i < n)%nat -> Rabs (f i) <= c) -> Rabs (total n f) <= INR n * c.
Proof.
  intros H. induction n. cbn. rewrite Rabs_R0. lra.
  cbn [total]. rewrite S_INR. eapply Rle_trans; [apply Rabs_triang|]. specialize (IHn ltac:(intros; apply H; lia)). specialize (H n ltac:(lia)). lra.
Qed.
Lemma total_telescope (f : nat -> R) n : total n (fun i => f (S i) - f i) = f n - f O.
Proof. induction n; cbn [total]; [lra|]. rewrite IHn. lra. Qed.
Lemma trapezoidal_limit g F a b : a < b -> (forall t, a <= t <= b -> derivable_pt_lim F t (g t)) -> (forall t, a <= t <= b -> continuity_pt g t) ->
  forall eps, 0 < eps -> exists n0, forall n, (n0 <= n)%nat -> Rabs (trapezoidal g a b n - (F b - F a)) < eps.
Proof.
  intros Hab D C eps He.
  assert (He' : 0 < eps / (2 * (b - a))) by (apply Rdiv_lt_0_compat; lra).
  destruct (@Heine_cor2 g a b C (mkposreal _ He')) as [[d Hd] U]. cbn in U.
  destruct (archimed ((b - a) / d)) as [A _].
  assert (P : 0 < (b - a) / d) by (apply Rdiv_lt_0_compat; lra).
  assert (UP : (0 <= up ((b - a) / d))%Z) by (apply le_IZR; lra).
  exists (Z.to_nat (up ((b - a) / d))). intros n Hn.
  assert (N : (b - a) / d < INR n).
  { eapply Rlt_le_trans; [exact A|]. rewrite INR_IZR_INZ. apply IZR_le. lia. }
  assert (Nz : 0 < INR n) by lra.
  set (x := fun i => a + INR i * (b - a) / INR n).
  assert (X0 : x O = a) by (unfold x; cbn; field; lra). assert (Xn : x n = b) by (unfold x; field; lra).
  set (h := (b - a) / INR n). assert (Hh : 0 < h) by (apply Rdiv_lt_0_compat; lra).
  assert (Hd' : h < d). { unfold h. apply (Rmult_lt_reg_r (INR n)); [lra|]. unfold Rdiv. rewrite Rmult_assoc, Rinv_l by lra. apply (Rmult_lt_compat_r d) in N; [|lra]. unfold Rdiv in N. rewrite Rmult_assoc, Rinv_l in N by lra. lra. }
  assert (XS : forall i, x (S i) = x i + h) by (intros i; unfold x, h; rewrite S_INR; field; lra).
  assert (Xr : forall i, (i <= n)%nat -> a <= x i <= b).
  { intros i Hi. apply le_INR in Hi. pose proof (pos_INR i). unfold x. fold h.
    replace (INR i * (b - a) / INR n) with (INR i * h) by (unfold h; field; lra). assert (B : a + INR n * h = b) by (unfold h; field; lra). assert (0 <= INR i * h) by (apply Rmult_le_pos; lra). assert (INR i * h <= INR n * h) by (apply Rmult_le_compat_r; lra). lra. }
  rewrite <- Xn, <- X0, <- (total_telescope (fun i => F (x i))).
  unfold trapezoidal. cbv zeta. fold x. 
  assert (E : total n (fun i => (a + INR (S i) * (b - a) / INR n - (a + INR i * (b - a) / INR n)) * (g (a + INR i * (b - a) / INR n) + g (a + INR (S i) * (b - a) / INR n)) / 2) - total n (fun i => F (x (S i)) - F (x i))
    = total n (fun i => (x (S i) - x i) * (g (x i) + g (x (S i))) / 2 - (F (x (S i)) - F (x i)))).
  { rewrite (total_ext n (fun i => _ / 2 - _) (fun i => (x (S i) - x i) * (g (x i) + g (x (S i))) / 2 + -1 * (F (x (S i)) - F (x i)))) by (intros; lra).
    rewrite total_plus, total_scal. unfold x. lra. }
  rewrite Xn, X0, E. eapply Rle_lt_trans; [apply (total_bound n _ (h * (eps / (2 * (b - a)))))|].
  - intros i Hi. rewrite (XS i). pose proof (Xr i ltac:(lia)) as R1. pose proof (Xr (S i) ltac:(lia)) as R2. rewrite XS in R2.
    destruct (MVT_cor2 F g (x i) (x i + h)) as (c & -> & Hc); [lra| intros t Ht; apply D; lra |].
    pose proof (U c (x i) ltac:(lra) ltac:(lra) ltac:(rewrite Rabs_pos_eq; lra)) as B1.
    pose proof (U c (x i + h) ltac:(lra) ltac:(lra) ltac:(rewrite Rabs_minus_sym, Rabs_pos_eq; lra)) as B2.
    replace (_ - _) with (h * - ((g c - g (x i)) / 2 + (g c - g (x i + h)) / 2)) by field.
    rewrite Rabs_mult, Rabs_Ropp, (Rabs_pos_eq h) by lra. apply Rmult_le_compat_l; [lra|].
    eapply Rle_trans; [apply Rabs_triang|]. unfold Rdiv at 1 2. rewrite !Rabs_mult, (Rabs_pos_eq (/ 2)) by lra. lra.
  - unfold h. replace (INR n * ((b - a) / INR n * (eps / (2 * (b - a))))) with (eps / 2) by (field; lra). lra.
Qed.

Definition scale (fType : string) (y : R) : R := if String.eqb fType "roman" then y * sqrt PI / 2 else y.

(** C75 (general.py:30-102), -20 <= eta <= 20 and Nmax >= 2: FD_int_num returns the trapezoidal rule with n intervals on [-4.5, 5] minus the end terms
    5 g(5) + 4.5 g(-4.5), divided by the gamma function at j + 1, and for 'roman' multiplied by sqrt(pi)/2; n is the first of 2, 3, ... where two consecutive
    results differ by less than tol, and Nmax if there is none.  It also returns n and that difference. *)
Theorem C75_loop (gamma : xr -> xr) eta j tol Nmax fType G :
  -20 <= eta <= 20 -> (2 <= Nmax)%Z -> gamma (Fin (j + 1)) = Fin G -> G <> 0 ->
  exists n, (2 <= n <= Z.to_nat Nmax)%nat
    /\ (n = Z.to_nat Nmax \/ Rabs (computed eta j n - computed eta j (n - 1)) < tol)
    /\ (forall m, (2 <= m < n)%nat -> tol <= Rabs (computed eta j m - computed eta j (m - 1)))
    /\ FD_int_num gamma (Fin eta) (Fin j) (Fin tol) Nmax fType
       = Ok (Fin (scale fType (computed eta j n / G)), Fin (INR n), Fin (Rabs (computed eta j n - computed eta j (n - 1)))).
Proof.
  intros He HN HG G0.
  destruct (fd_loop_fin eta j tol (Z.to_nat Nmax - 2) 2 (Some (Fin 1)) None (le_n 2)) as (n & K1 & K2 & K3 & K4).
  exists n. split; [lia|]. split; [destruct K2; [left; lia|right; assumption]|]. split; [assumption|].
  unfold FD_int_num. cbv zeta. rewrite !nofZ_fin. unfold ngt. rewrite !nlt_fin.
  destruct (Rltb_spec eta (-20)); [lra|]. destruct (Rltb_spec 20 eta); [lra|]. destruct (Z.ltb_spec Nmax 0); [lia|].
  replace (Z.to_nat Nmax) with (S (S (Z.to_nat Nmax - 2))) by lia.
  remember (S (Z.to_nat Nmax - 2)) as td. cbn [fd_loop Nat.ltb Nat.leb]. rewrite fd_y_fin by lia. change (2 - 1)%nat with 1%nat in K4.
  change (nofZ (Z.of_nat 1)) with (Fin 1). rewrite K4. cbn [bind bound]. rewrite nadd_fin, HG, nopp_fin, ndiv_fin by assumption. cbn [bind bound].
  do 2 f_equal. f_equal. unfold scale. destruct (String.eqb fType "roman").
  - cbn [npi Special_xr]. pose proof PI_RGT_0. rewrite nsqrt_fin by lra. rewrite nmul_fin, ndiv_fin by lra. f_equal. f_equal. f_equal. f_equal. lra.
  - f_equal. lra.
Qed.
Print Assumptions C75_loop.
Example C75_hyp : -20 <= 0 <= 20 /\ (2 <= 600)%Z /\ sqrt PI / 2 <> 0.
Proof. repeat split; try lra; try lia. pose proof PI_RGT_0. pose proof (sqrt_lt_R0 PI ltac:(lra)). lra. Qed.

(** C75: x(t) = exp(t - exp(-t)) and the factor x (1 + exp(-t)) of the code is its derivative; so with any antiderivative F of the Fermi-Dirac integrand,
    what the code computes tends for n to infinity to F(x(5)) - F(x(-4.5)), the integral from x(-4.5) to x(5), minus the end terms.  These are positive: the
    swapped arguments of np.trapz always make the result too small. *)
Theorem C75_limit eta j F : (forall x, 0 < x -> derivable_pt_lim F x (fermi eta j x)) ->
  forall eps, 0 < eps -> exists n0, forall n, (n0 <= n)%nat ->
    Rabs (computed eta j n - (F (subst_x 5) - F (subst_x (-4.5)) - (5 * integrand eta j 5 + 4.5 * integrand eta j (-4.5)))) < eps.
Proof.
  intros D eps He. destruct (trapezoidal_limit (integrand eta j) (fun t => F (subst_x t)) (-4.5) 5) with (eps := eps) as [n0 H]; try assumption; try lra.
  - intros t _. apply (derivable_pt_lim_comp subst_x F). apply subst_deriv. apply D, exp_pos.
  - intros. apply integrand_cont.
  - exists n0. intros n Hn. specialize (H n Hn). unfold computed. replace (_ - _) with (trapezoidal (integrand eta j) (-4.5) 5 n - (F (subst_x 5) - F (subst_x (-4.5)))) by lra. assumption.
Qed.
Print Assumptions C75_limit.
Theorem C75_too_small eta j n : computed eta j n < trapezoidal (integrand eta j) (-4.5) 5 n.
Proof.
  assert (P : forall t, 0 < integrand eta j t).
  { intros t. unfold integrand, fermi. pose proof (exp_pos (subst_x t - eta)). pose proof (exp_pos (- t)). pose proof (exp_pos (t - exp (- t))) as X. fold (subst_x t) in X.
    apply Rmult_lt_0_compat. apply Rdiv_lt_0_compat. apply exp_pos. lra. apply Rmult_lt_0_compat; lra. }
  unfold computed. pose proof (P 5). pose proof (P (-4.5)). lra.
Qed.
Print Assumptions C75_too_small.
Example C75_limit_hyp : exists F, forall x, 0 < x -> derivable_pt_lim F x (fermi 0 0 x).
Proof.
  exists (fun x => - ln (1 + exp (- x))). intros x Hx.
  replace (fermi 0 0 x) with (- (/ (1 + exp (- x)) * (0 + - exp (- x)))).
  - apply (derivable_pt_lim_opp (fun x => ln (1 + exp (- x)))). pose proof (exp_pos (- x)).
    apply (derivable_pt_lim_comp (fun x => 1 + exp (- x)) ln). apply (derivable_pt_lim_plus (fun _ => 1) (fun x => exp (- x))). apply derivable_pt_lim_const. apply exp_opp_deriv. apply derivable_pt_lim_ln. lra.
  - unfold fermi. rewrite Rpower_O by assumption. rewrite Rminus_0_r, exp_Ropp. pose proof (exp_pos x). field. lra.
Qed.

Lemma sqrt_npi : nsqrt npi = Fin (sqrt PI).
Proof. pose proof PI_RGT_0. cbn [npi Special_xr]. apply nsqrt_fin. lra. Qed.
(** C75: below -20 the value is exp(eta); above 20 it is the leading term of the Sommerfeld expansion for j = -1/2, 1/2, 3/2; number of iterations and error are NaN *)
Theorem C75_tails gamma eta j tol Nmax fType :
  (eta < -20 -> FD_int_num gamma (Fin eta) (Fin j) tol Nmax fType = Ok (Fin (scale fType (exp eta)), XNaN, XNaN))
  /\ (20 < eta -> j = -1/2 -> FD_int_num gamma (Fin eta) (Fin j) tol Nmax fType = Ok (Fin (scale fType (2 * Rpower eta (1/2) / sqrt PI)), XNaN, XNaN))
  /\ (20 < eta -> j = 1/2 -> FD_int_num gamma (Fin eta) (Fin j) tol Nmax fType = Ok (Fin (scale fType (4 * Rpower eta (3/2) / 3 / sqrt PI)), XNaN, XNaN))
  /\ (20 < eta -> j = 3/2 -> FD_int_num gamma (Fin eta) (Fin j) tol Nmax fType = Ok (Fin (scale fType (8 * Rpower eta (5/2) / 15 / sqrt PI)), XNaN, XNaN)).
Proof.
  pose proof PI_RGT_0 as HP. pose proof (sqrt_lt_R0 PI ltac:(lra)) as HS.
  assert (Sc : forall y, (if String.eqb fType "roman" then ndiv (nmul (Fin y) (Fin (sqrt PI))) (Fin 2) else Fin y) = Fin (scale fType y)).
  { intros y. unfold scale. rewrite nmul_fin, ndiv_fin by lra. destruct (String.eqb fType "roman"); reflexivity. }
  split; [|split; [|split]]; intros H; [|intros Hj..]; unfold FD_int_num; cbv zeta; rewrite !sqrt_npi, !nofZ_fin; unfold ngt; rewrite ?dec_fin by lia; rewrite !ndiv_fin, !neqb_fin, !nlt_fin by lra.
  - destruct (Rltb_spec eta (-20)); [|lra]. rewrite nexp_fin. cbn [bind bound nnan Special_xr]. rewrite Sc. reflexivity.
  - destruct (Rltb_spec eta (-20)); [lra|]. destruct (Rltb_spec 20 eta); [|lra]. destruct (Reqb_spec j (-1 / 2)); [|lra].
    cbn [npow Elem_xr]. rewrite xpow_pos by lra. cbn [bind bound nnan Special_xr]. rewrite nmul_fin, ndiv_fin by lra. rewrite Sc. change (10 ^ 1)%Z with 10%Z. replace (5 / 10) with (1 / 2) by lra. reflexivity.
  - destruct (Rltb_spec eta (-20)); [lra|]. destruct (Rltb_spec 20 eta); [|lra]. destruct (Reqb_spec j (-1 / 2)); [lra|]. destruct (Reqb_spec j (1 / 2)); [|lra].
    cbn [npow Elem_xr]. rewrite xpow_pos by lra. cbn [bind bound nnan Special_xr]. rewrite nmul_fin, !ndiv_fin by lra. rewrite Sc. reflexivity.
  - destruct (Rltb_spec eta (-20)); [lra|]. destruct (Rltb_spec 20 eta); [|lra]. destruct (Reqb_spec j (-1 / 2)); [lra|]. destruct (Reqb_spec j (1 / 2)); [lra|]. destruct (Reqb_spec j (3 / 2)); [|lra].
    cbn [npow Elem_xr]. rewrite xpow_pos by lra. cbn [bind bound nnan Special_xr]. rewrite nmul_fin, !ndiv_fin by lra. rewrite Sc. reflexivity.
Qed.
Print Assumptions C75_tails.

(** C75: for other j above 20, and for Nmax 0 or 1 in between, a local variable is unbound; a negative Nmax is refused *)
Theorem C75_errors gamma eta j tol Nmax fType :
  (20 < eta -> j <> -1/2 -> j <> 1/2 -> j <> 3/2 -> FD_int_num gamma (Fin eta) (Fin j) tol Nmax fType = Err UnboundLocalError)
  /\ (-20 <= eta <= 20 -> (0 <= Nmax <= 1)%Z -> FD_int_num gamma (Fin eta) (Fin j) tol Nmax fType = Err UnboundLocalError)
  /\ (-20 <= eta <= 20 -> (Nmax < 0)%Z -> FD_int_num gamma (Fin eta) (Fin j) tol Nmax fType = Err ValueError).
Proof.
  split; [|split].
  - intros H H1 H2 H3. unfold FD_int_num. cbv zeta. rewrite !nofZ_fin. unfold ngt. rewrite !ndiv_fin, !neqb_fin, !nlt_fin by lra.
    destruct (Rltb_spec eta (-20)); [lra|]. destruct (Rltb_spec 20 eta); [|lra]. destruct (Reqb_spec j (-1 / 2)); [lra|]. destruct (Reqb_spec j (1 / 2)); [lra|]. destruct (Reqb_spec j (3 / 2)); [lra|]. reflexivity.
  - intros H HN. unfold FD_int_num. cbv zeta. rewrite !nofZ_fin. unfold ngt. rewrite !nlt_fin.
    destruct (Rltb_spec eta (-20)); [lra|]. destruct (Rltb_spec 20 eta); [lra|].
    assert (C : Nmax = 0%Z \/ Nmax = 1%Z) by lia. destruct C as [-> | ->]; reflexivity.
  - intros H HN. unfold FD_int_num. cbv zeta. rewrite !nofZ_fin. unfold ngt. rewrite !nlt_fin.
    destruct (Rltb_spec eta (-20)); [lra|]. destruct (Rltb_spec 20 eta); [lra|]. destruct (Z.ltb_spec Nmax 0); [reflexivity|lia].
Qed.
Print Assumptions C75_errors.

(** C75: the roman integral is Gamma(j + 1) times the script one; for j = -1/2, where Gamma(1/2) = sqrt(pi), the code returns half of that *)
Theorem C75_roman_refuted gamma tol Nmax : gamma (Fin (-1/2 + 1)) = Fin (sqrt PI) ->
  exists script roman,
    FD_int_num gamma (Fin 25) (Fin (-1/2)) tol Nmax "script" = Ok (Fin script, XNaN, XNaN)
    /\ FD_int_num gamma (Fin 25) (Fin (-1/2)) tol Nmax "roman" = Ok (Fin roman, XNaN, XNaN)
    /\ roman = script * sqrt PI / 2 /\ roman <> script * sqrt PI.
Proof.
  intros HG. destruct (C75_tails gamma 25 (-1/2) tol Nmax "script") as (_ & A & _). destruct (C75_tails gamma 25 (-1/2) tol Nmax "roman") as (_ & B & _).
  do 2 eexists. split; [apply A; lra|]. split; [apply B; lra|]. unfold scale. cbn [String.eqb Ascii.eqb Bool.eqb]. split; [reflexivity|].
  pose proof PI_RGT_0. pose proof (sqrt_lt_R0 PI ltac:(lra)). assert (0 < Rpower 25 (1/2)) by apply exp_pos.
  assert (E : 2 * Rpower 25 (1 / 2) / sqrt PI * sqrt PI = 2 * Rpower 25 (1/2)) by (field; lra). rewrite E. lra.
Qed.
Print Assumptions C75_roman_refuted.

(* ---- FD_int_approx ---- *)
Lemma poly5_inc c0 c1 c2 c3 c4 c5 lo hi :
  (forall x, lo <= x <= hi -> 0 < c1 + 2 * c2 * x + 3 * c3 * x^2 + 4 * c4 * x^3 + 5 * c5 * x^4) ->
  forall a b, lo <= a -> a < b -> b <= hi -> c0 + c1 * a + c2 * a^2 + c3 * a^3 + c4 * a^4 + c5 * a^5 < c0 + c1 * b + c2 * b^2 + c3 * b^3 + c4 * b^4 + c5 * b^5.
Proof.
  intros P a b Ha Hab Hb.
  destruct (MVT_cor2 (fun x => c0 + c1 * x^1 + c2 * x^2 + c3 * x^3 + c4 * x^4 + c5 * x^5) (fun x => c1 + 2 * c2 * x + 3 * c3 * x^2 + 4 * c4 * x^3 + 5 * c5 * x^4) a b Hab) as (c & E & Hc).
  - intros c _.
    assert (M : forall k n, derivable_pt_lim (fun x => k * x ^ n) c (k * (INR n * c ^ pred n))) by (intros k n; apply (derivable_pt_lim_scal (fun x => x ^ n)), derivable_pt_lim_pow).
    replace (c1 + 2 * c2 * c + 3 * c3 * c^2 + 4 * c4 * c^3 + 5 * c5 * c^4) with (0 + c1 * (INR 1 * c ^ 0) + c2 * (INR 2 * c ^ 1) + c3 * (INR 3 * c ^ 2) + c4 * (INR 4 * c ^ 3) + c5 * (INR 5 * c ^ 4)) by (cbn; ring).
    apply (derivable_pt_lim_plus (fun x => c0 + c1 * x^1 + c2 * x^2 + c3 * x^3 + c4 * x^4) (fun x => c5 * x^5)); [|apply M].
    apply (derivable_pt_lim_plus (fun x => c0 + c1 * x^1 + c2 * x^2 + c3 * x^3) (fun x => c4 * x^4)); [|apply M].
    apply (derivable_pt_lim_plus (fun x => c0 + c1 * x^1 + c2 * x^2) (fun x => c3 * x^3)); [|apply M].
    apply (derivable_pt_lim_plus (fun x => c0 + c1 * x^1) (fun x => c2 * x^2)); [|apply M].
    apply (derivable_pt_lim_plus (fun x => c0) (fun x => c1 * x^1)); [|apply M]. apply derivable_pt_lim_const.
  - cbv beta in E. specialize (P c ltac:(lra)). assert (0 < (c1 + 2 * c2 * c + 3 * c3 * c^2 + 4 * c4 * c^3 + 5 * c5 * c^4) * (b - a)) by (apply Rmult_lt_0_compat; lra).
    rewrite !pow_1 in E. lra.
Qed.
Definition p1 x := 0.678091 + 0.53619667 * x + 0.16909748 * x^2 + 0.018780823 * x^3 + -0.0023575446 * x^4 + -0.000639610797 * x^5.
Definition p2 x := 0.678091 + 0.53638 * x + 0.1668235 * x^2 + 0.0206067 * x^3 + -0.00601491 * x^4 + 0.000490398 * x^5.
Definition p3 x := 0.7570647 + 0.3922888 * x + 0.2705525 * x^2 + -0.0168293 * x^3 + 0.0008258364 * x^4 + -0.00001819771 * x^5.
Lemma p1_inc a b : -2 <= a -> a < b -> b <= 0 -> p1 a < p1 b.
Proof.
  apply poly5_inc. intros x Hx.
  assert (0 <= - x^3 * (2 + x)) by (assert (0 <= - x^3) by (replace (- x^3) with ((-x)*(-x)*(-x)) by ring; repeat apply Rmult_le_pos; lra); apply Rmult_le_pos; lra).
  assert (0 <= - x^3) by (replace (- x^3) with ((-x)*(-x)*(-x)) by ring; repeat apply Rmult_le_pos; lra).
  assert (0 <= (x + 3)^2) by apply pow2_ge_0. nra.
Qed.
Lemma p2_inc a b : 0 <= a -> a < b -> b <= 3 -> p2 a < p2 b.
Proof.
  apply poly5_inc. intros x Hx.
  assert (0 <= x^2 * (x - 4.9)^2) by (apply Rmult_le_pos; apply pow2_ge_0). assert (0 <= x^2) by apply pow2_ge_0. nra.
Qed.
Lemma p3_inc a b : 3 <= a -> a < b -> b <= 10 -> p3 a < p3 b.
Proof.
  apply poly5_inc. intros x Hx.
  assert (0 <= x^3 * (10 - x)) by (apply Rmult_le_pos; [apply pow_le; lra|lra]).
  assert (0 <= x * (x - 10)^2) by (apply Rmult_le_pos; [lra|apply pow2_ge_0]). assert (0 <= x^2) by apply pow2_ge_0. nra.
Qed.
Ltac pow10 := repeat match goal with |- context [(10 ^ ?k)%Z] => let v := eval vm_compute in (10 ^ k)%Z in change (10 ^ k)%Z with v end.
Lemma approx_p1 x : -2 < x <= 0 -> FD_int_approx (Fin x) (Fin (1/2)) = Ok (Fin (p1 x)).
Proof.
  intros H. unfold FD_int_approx. cbv zeta. cbn [nipow]. rewrite !dec_fin by lia. rewrite !nofZ_fin, ndiv_fin, neqb_fin, !nle_fin by lra.
  destruct (Reqb_spec (1/2) (1/2)); [|lra]. destruct (Rleb_spec x (-2)); [lra|]. destruct (Rleb_spec x 0); [|lra].
  rewrite !nmul_fin, !nadd_fin, !nsub_fin. do 2 f_equal. unfold p1. pow10. lra.
Qed.
Lemma approx_p2 x : 0 < x <= 3 -> FD_int_approx (Fin x) (Fin (1/2)) = Ok (Fin (p2 x)).
Proof.
  intros H. unfold FD_int_approx. cbv zeta. cbn [nipow]. rewrite !dec_fin by lia. rewrite !nofZ_fin, ndiv_fin, neqb_fin, !nle_fin by lra.
  destruct (Reqb_spec (1/2) (1/2)); [|lra]. destruct (Rleb_spec x (-2)); [lra|]. destruct (Rleb_spec x 0); [lra|]. destruct (Rleb_spec x 3); [|lra].
  rewrite !nmul_fin, !nadd_fin, !nsub_fin, !nadd_fin. do 2 f_equal. unfold p2. pow10. lra.
Qed.
Lemma approx_p3 x : 3 < x <= 10 -> FD_int_approx (Fin x) (Fin (1/2)) = Ok (Fin (p3 x)).
Proof.
  intros H. unfold FD_int_approx. cbv zeta. cbn [nipow]. rewrite !dec_fin by lia. rewrite !nofZ_fin, ndiv_fin, neqb_fin, !nle_fin by lra.
  destruct (Reqb_spec (1/2) (1/2)); [|lra]. destruct (Rleb_spec x (-2)); [lra|]. destruct (Rleb_spec x 0); [lra|]. destruct (Rleb_spec x 3); [lra|]. destruct (Rleb_spec x 10); [|lra].
  rewrite !nmul_fin, !nadd_fin, !nsub_fin, !nadd_fin, !nsub_fin. do 2 f_equal. unfold p3. pow10. lra.
Qed.
Definition p13 x := if Rle_dec x 0 then p1 x else if Rle_dec x 3 then p2 x else p3 x.
Lemma approx_p13 x : -2 < x <= 10 -> FD_int_approx (Fin x) (Fin (1/2)) = Ok (Fin (p13 x)).
Proof. intros H. unfold p13. destruct (Rle_dec x 0); [apply approx_p1; lra|]. destruct (Rle_dec x 3); [apply approx_p2|apply approx_p3]; lra. Qed.
Lemma p13_inc a b : -2 <= a -> a < b -> b <= 10 -> p13 a < p13 b.
Proof.
  intros H1 H2 H3. assert (J0 : p1 0 = p2 0) by (unfold p1, p2; lra). assert (J3 : p2 3 < p3 3) by (unfold p2, p3; lra).
  unfold p13. destruct (Rle_dec a 0), (Rle_dec b 0); try lra.
  - apply p1_inc; lra.
  - assert (A : p1 a <= p1 0) by (destruct (Req_dec a 0) as [-> |]; [lra|left; apply p1_inc; lra]).
    destruct (Rle_dec b 3). assert (p2 0 < p2 b) by (apply p2_inc; lra). lra.
    assert (p2 0 < p2 3) by (apply p2_inc; lra). assert (p3 3 < p3 b) by (apply p3_inc; lra). lra.
  - destruct (Rle_dec a 3), (Rle_dec b 3); try lra. apply p2_inc; lra.
    assert (A : p2 a <= p2 3) by (destruct (Req_dec a 3) as [-> |]; [lra|left; apply p2_inc; lra]). assert (p3 3 < p3 b) by (apply p3_inc; lra). lra.
    apply p3_inc; lra.
Qed.
(** the difference of two powers *)
Lemma pow_diff u v n : 0 <= v <= u -> u ^ S n - v ^ S n <= INR (S n) * u ^ n * (u - v).
Proof.
  intros H. induction n. cbn. lra.
  assert (A : v ^ S n <= u ^ S n) by (apply pow_incr; lra). assert (B : 0 <= u ^ n) by (apply pow_le; lra).
  change (u ^ S (S n)) with (u * u ^ S n). change (v ^ S (S n)) with (v * v ^ S n). rewrite (S_INR (S n)).
  assert (C : v * (u ^ S n - v ^ S n) <= u * (INR (S n) * u ^ n * (u - v))).
  { eapply Rle_trans; [apply Rmult_le_compat_l; [lra|exact IHn]|]. apply Rmult_le_compat_r; [|lra]. apply Rmult_le_pos; [apply Rmult_le_pos; [apply pos_INR|exact B]|lra]. }
  replace (u * u ^ S n - v * v ^ S n) with ((u - v) * u ^ S n + v * (u ^ S n - v ^ S n)) by ring.
  replace ((INR (S n) + 1) * u ^ S n * (u - v)) with ((u - v) * u ^ S n + u * (INR (S n) * u ^ n * (u - v))) by (cbn [pow]; ring). lra.
Qed.

(** the five correction terms of the large-eta piece, as a function of the square root *)
Definition p4 s := 2 / 3 * (s^3 + 12337005 / 10000000 * (/ s)^1 + 10654119 / 10000000 * (/ s)^5 + 97015185 / 10000000 * (/ s)^9 + 24271502 / 100000 * (/ s)^13 + 12313691 / 1000 * (/ s)^17).
Lemma Rpower_32 x : 0 < x -> Rpower x (3/2) = sqrt x ^ 3.
Proof.
  intros H. replace (3/2) with (1 + /2) by lra. rewrite Rpower_plus, Rpower_1, Rpower_sqrt by assumption.
  rewrite <- (sqrt_sqrt x) at 1 by lra. ring.
Qed.
Lemma approx_p4 x : 10 < x <= 100000 -> FD_int_approx (Fin x) (Fin (1/2)) = Ok (Fin (p4 (sqrt x))).
Proof.
  intros H. assert (Hs : 0 < sqrt x) by (apply sqrt_lt_R0; lra). assert (E : x = sqrt x * sqrt x) by (rewrite sqrt_sqrt; lra).
  unfold FD_int_approx. cbv zeta. cbn [nipow]. rewrite !dec_fin by lia. rewrite !nofZ_fin, !(ndiv_fin _ 2), neqb_fin, !nle_fin by lra.
  destruct (Reqb_spec (1/2) (1/2)); [|lra]. destruct (Rleb_spec x (-2)); [lra|]. destruct (Rleb_spec x 0); [lra|]. destruct (Rleb_spec x 3); [lra|]. destruct (Rleb_spec x 10); [lra|]. destruct (Rleb_spec x 100000); [|lra].
  cbn [npow Elem_xr]. rewrite xpow_pos by lra. cbn [bind]. rewrite Rpower_32 by lra. rewrite !nmul_fin.
  rewrite !ndiv_fin by (repeat apply Rmult_integral_contrapositive_currified; lra). rewrite !nadd_fin, !nmul_fin. do 2 f_equal. pow10.
  unfold p4. set (s := sqrt x) in *. rewrite E. field. lra.
Qed.
Lemma approx_p5 x : 100000 < x -> FD_int_approx (Fin x) (Fin (1/2)) = Ok (Fin (2 / 3 * sqrt x ^ 3)).
Proof.
  intros H. 
  unfold FD_int_approx. cbv zeta. rewrite !nofZ_fin, !(ndiv_fin _ 2), neqb_fin, !nle_fin by lra.
  destruct (Reqb_spec (1/2) (1/2)); [|lra]. destruct (Rleb_spec x (-2)); [lra|]. destruct (Rleb_spec x 0); [lra|]. destruct (Rleb_spec x 3); [lra|]. destruct (Rleb_spec x 10); [lra|]. destruct (Rleb_spec x 100000); [lra|].
  cbn [npow Elem_xr]. rewrite xpow_pos by lra. cbn [bind]. rewrite Rpower_32 by lra. rewrite ndiv_fin, nmul_fin by lra. reflexivity.
Qed.
Lemma cube_inc a b : 0 <= a -> a < b -> a^3 + 3 * a^2 * (b - a) <= b^3.
Proof. intros. assert (0 <= (b - a)^2 * (b + 2 * a)) by (apply Rmult_le_pos; [apply pow2_ge_0|lra]). lra. Qed.
Lemma p4_inc a b : 3 <= a -> a < b -> p4 a < p4 b.
Proof.
  intros Ha Hab. set (u := / a). set (v := / b). set (d := b - a).
  assert (Hu : 0 < u <= 1/3) by (unfold u; split; [apply Rinv_0_lt_compat; lra|]; replace (1/3) with (/3) by lra; apply Rinv_le_contravar; lra).
  assert (Hv : 0 < v <= u) by (unfold u, v; split; [apply Rinv_0_lt_compat; lra|apply Rinv_le_contravar; lra]).
  assert (Hd : 0 < d) by (unfold d; lra).
  assert (D : u - v <= u^2 * d).
  { assert (E : u - v = u * v * d) by (unfold u, v, d; field; lra). rewrite E. replace (u^2 * d) with (u * u * d) by ring. apply Rmult_le_compat_r; [lra|]. apply Rmult_le_compat_l; lra. }
  assert (K : forall n, u ^ S n - v ^ S n <= INR (S n) * (1/3) ^ (n + 2) * d).
  { intros n. eapply Rle_trans; [apply pow_diff; lra|]. apply Rle_trans with (INR (S n) * u ^ n * (u^2 * d)).
    - apply Rmult_le_compat_l; [|exact D]. apply Rmult_le_pos; [apply pos_INR|apply pow_le; lra].
    - replace (INR (S n) * u ^ n * (u^2 * d)) with (INR (S n) * u ^ (n + 2) * d) by (rewrite pow_add; ring). apply Rmult_le_compat_r; [lra|]. apply Rmult_le_compat_l; [apply pos_INR|]. apply pow_incr; lra. }
  pose proof (K 0%nat) as K0. pose proof (K 4%nat) as K4. pose proof (K 8%nat) as K8. pose proof (K 12%nat) as K12. pose proof (K 16%nat) as K16.
  cbn [Nat.add] in *. rewrite !INR_IZR_INZ in *. cbn [Z.of_nat Pos.of_succ_nat Pos.succ] in *.
  pose proof (cube_inc a b ltac:(lra) Hab) as C. fold d in C. assert (27 * d <= 3 * a^2 * d) by (apply Rmult_le_compat_r; nra).
  unfold p4. fold u v. apply Rmult_lt_compat_l; [lra|].
  assert (T : forall k z, (1/3)^k = z -> (1/3)^k = z) by auto.
  assert (T2 : (1/3)^2 = 1/9) by lra. assert (T6 : (1/3)^6 = 1/729) by lra. assert (T10 : (1/3)^10 = 1/59049) by lra.
  assert (T14 : (1/3)^14 = 1/4782969) by lra. assert (T18 : (1/3)^18 = 1/387420489) by lra. rewrite T2, T6, T10, T14, T18 in *. lra.
Qed.

Definition dk (k : Z) : R := / Rpower (IZR k) (3/2).
Lemma dk_bounds k : (1 <= k)%Z -> 0 < dk k /\ dk k * IZR k <= 1.
Proof.
  intros H. apply IZR_le in H. unfold dk. pose proof (exp_pos (3/2 * ln (IZR k))) as P. fold (Rpower (IZR k) (3/2)) in P. split; [apply Rinv_0_lt_compat, P|].
  apply (Rmult_le_reg_l (Rpower (IZR k) (3/2))); [exact P|]. rewrite <- Rmult_assoc, Rinv_r, Rmult_1_l, Rmult_1_r by lra.
  rewrite <- (Rpower_1 (IZR k)) at 1 by lra. apply Rle_Rpower; lra.
Qed.
Definition p0 z := sqrt PI / 2 * (z - dk 2 * z^2 + dk 3 * z^3 - dk 4 * z^4 + dk 5 * z^5 - dk 6 * z^6 + dk 7 * z^7).
Lemma exp_mul n x : exp (INR n * x) = exp x ^ n.
Proof. induction n. cbn. rewrite Rmult_0_l, exp_0. reflexivity. rewrite S_INR. replace ((INR n + 1) * x) with (x + INR n * x) by ring. rewrite exp_plus, IHn. reflexivity. Qed.
Lemma approx_p0 x : x <= -2 -> FD_int_approx (Fin x) (Fin (1/2)) = Ok (Fin (p0 (exp x))).
Proof.
  intros H. unfold FD_int_approx. cbv zeta. rewrite !sqrt_npi, !dec_fin by lia. rewrite !nofZ_fin, !(ndiv_fin _ 2), neqb_fin, !nle_fin by lra.
  destruct (Reqb_spec (1/2) (1/2)); [|lra]. destruct (Rleb_spec x (-2)); [|lra]. pow10. replace (15 / 10) with (3 / 2) by lra.
  cbn [npow Elem_xr]. rewrite !xpow_pos by lra. cbn [bind]. rewrite !nmul_fin, !nexp_fin.
  assert (P : forall k, Rpower k (3/2) <> 0) by (intros k; pose proof (exp_pos (3/2 * ln k)); unfold Rpower; lra).
  rewrite !ndiv_fin by apply P. rewrite !nsub_fin, !nadd_fin, !nsub_fin, !nadd_fin, !nsub_fin, !nadd_fin, !nmul_fin. do 2 f_equal.
  pose proof (exp_mul 2 x) as E2. pose proof (exp_mul 3 x) as E3. pose proof (exp_mul 4 x) as E4. pose proof (exp_mul 5 x) as E5. pose proof (exp_mul 6 x) as E6.
  rewrite !INR_IZR_INZ in *. cbn [Z.of_nat Pos.of_succ_nat Pos.succ] in *. rewrite E2, E3, E4, E5, E6. unfold p0, dk. field. repeat split; apply P.
Qed.
Lemma p0_inc w z : 0 <= w -> w < z -> z <= 1/2 -> p0 w < p0 z.
Proof.
  intros Hw Hz Z2. unfold p0. pose proof PI_RGT_0. apply Rmult_lt_compat_l. pose proof (sqrt_lt_R0 PI ltac:(lra)). lra.
  assert (K : forall n d, 0 < d -> d * INR (S n) <= 1 -> d * (z ^ S n - w ^ S n) <= (1/2) ^ n * (z - w)).
  { intros n d Hd1 Hd2. eapply Rle_trans; [apply Rmult_le_compat_l; [lra|apply pow_diff; lra]|].
    replace (d * (INR (S n) * z ^ n * (z - w))) with (d * INR (S n) * (z ^ n * (z - w))) by ring.
    rewrite <- (Rmult_1_l ((1/2) ^ n * (z - w))). apply Rmult_le_compat; try lra. apply Rmult_le_pos; [lra|apply pos_INR]. apply Rmult_le_pos; [apply pow_le|]; lra.
    apply Rmult_le_compat_r; [lra|]. apply pow_incr. lra. }
  assert (U : forall n, w ^ n <= z ^ n) by (intros; apply pow_incr; lra).
  assert (M : forall n d, 0 < d -> 0 <= d * (z ^ n - w ^ n)) by (intros n d Hd; apply Rmult_le_pos; [lra|]; specialize (U n); lra).
  destruct (dk_bounds 2 ltac:(lia)), (dk_bounds 3 ltac:(lia)), (dk_bounds 4 ltac:(lia)), (dk_bounds 5 ltac:(lia)), (dk_bounds 6 ltac:(lia)), (dk_bounds 7 ltac:(lia)).
  pose proof (K 1%nat (dk 2)) as K2. pose proof (K 3%nat (dk 4)) as K4. pose proof (K 5%nat (dk 6)) as K6.
  rewrite !INR_IZR_INZ in *. cbn [Z.of_nat Pos.of_succ_nat Pos.succ] in *.
  specialize (K2 ltac:(lra) ltac:(lra)). specialize (K4 ltac:(lra) ltac:(lra)). specialize (K6 ltac:(lra) ltac:(lra)).
  pose proof (M 3%nat (dk 3) ltac:(lra)). pose proof (M 5%nat (dk 5) ltac:(lra)). pose proof (M 7%nat (dk 7) ltac:(lra)). lra.
Qed.

(** C76 (general.py:106-126): for j = 1/2 the approximation is positive and strictly increasing on each of (-inf, -2], (-2, 10], (10, 1e5] and (1e5, inf) *)
Theorem C76_increasing a b : a < b ->
  b <= -2 \/ (-2 < a /\ b <= 10) \/ (10 < a /\ b <= 100000) \/ 100000 < a ->
  exists u v, FD_int_approx (Fin a) (Fin (1/2)) = Ok (Fin u) /\ FD_int_approx (Fin b) (Fin (1/2)) = Ok (Fin v) /\ 0 < u < v.
Proof.
  intros Hab [H | [H | [H | H]]].
  - exists (p0 (exp a)), (p0 (exp b)). split; [apply approx_p0; lra|]. split; [apply approx_p0; lra|].
    assert (E2 : exp (-2) <= 1/2). { replace (-2) with (- (2)) by lra. rewrite exp_Ropp. pose proof (exp_ineq1 2 ltac:(lra)). replace (1/2) with (/2) by lra. apply Rinv_le_contravar; lra. }
    assert (M : forall x, x <= -2 -> exp x <= 1/2). { intros x [Hx| ->]; [|assumption]. apply exp_increasing in Hx. lra. }
    pose proof (exp_pos a). pose proof (exp_increasing _ _ Hab). split; [|apply p0_inc; try lra; apply M; lra].
    replace 0 with (p0 0) by (unfold p0; ring). apply p0_inc; try lra. apply M. lra.
  - exists (p13 a), (p13 b). split; [apply approx_p13; lra|]. split; [apply approx_p13; lra|]. split; [|apply p13_inc; lra].
    assert (p13 (-2) < p13 a) by (apply p13_inc; lra). assert (0 < p13 (-2)) by (unfold p13, p1; destruct (Rle_dec (-2) 0); lra). lra.
  - exists (p4 (sqrt a)), (p4 (sqrt b)). split; [apply approx_p4; lra|]. split; [apply approx_p4; lra|].
    assert (S3 : 3 <= sqrt a) by (replace 3 with (sqrt (3 * 3)) by (apply sqrt_square; lra); apply sqrt_le_1; lra).
    split; [|apply p4_inc; [assumption|apply sqrt_lt_1; lra]].
    assert (P : 0 < / sqrt a) by (apply Rinv_0_lt_compat; lra). unfold p4. assert (Q : forall n, 0 < (/ sqrt a) ^ n) by (intros; apply pow_lt, P). assert (0 < sqrt a ^ 3) by (apply pow_lt; lra).
    pose proof (Q 1%nat). pose proof (Q 5%nat). pose proof (Q 9%nat). pose proof (Q 13%nat). pose proof (Q 17%nat). apply Rmult_lt_0_compat; [lra|].
    generalize dependent ((/ sqrt a)^17). generalize dependent ((/ sqrt a)^13). generalize dependent ((/ sqrt a)^9). generalize dependent ((/ sqrt a)^5). generalize dependent ((/ sqrt a)^1). intros. lra.
  - exists (2 / 3 * sqrt a ^ 3), (2 / 3 * sqrt b ^ 3). split; [apply approx_p5; lra|]. split; [apply approx_p5; lra|].
    assert (S0 : 0 < sqrt a) by (apply sqrt_lt_R0; lra). assert (S1 : sqrt a < sqrt b) by (apply sqrt_lt_1; lra).
    pose proof (cube_inc (sqrt a) (sqrt b) ltac:(lra) S1) as C. assert (0 < sqrt a ^ 3) by (apply pow_lt; lra). assert (0 < 3 * sqrt a ^ 2 * (sqrt b - sqrt a)) by (apply Rmult_lt_0_compat; [|lra]; assert (0 < sqrt a ^ 2) by (apply pow_lt; lra); lra). lra.
Qed.
Print Assumptions C76_increasing.
Example C76_hyp : -3 < -2 /\ -2 <= -2 /\ (-2 < 0 /\ 4 <= 10).
Proof. lra. Qed.

(** C76: it is not increasing throughout, as the Fermi-Dirac integral is: it drops right after 10 and right after 1e5 *)
Theorem C76_increasing_refuted :
  (exists u v, FD_int_approx (Fin 10) (Fin (1/2)) = Ok (Fin u) /\ FD_int_approx (Fin 10.000001) (Fin (1/2)) = Ok (Fin v) /\ v < u)
  /\ (exists u v, FD_int_approx (Fin 100000) (Fin (1/2)) = Ok (Fin u) /\ FD_int_approx (Fin 100000.000001) (Fin (1/2)) = Ok (Fin v) /\ v < u).
Proof.
  split.
  - exists (p13 10), (p4 (sqrt 10.000001)). split; [apply approx_p13; lra|]. split; [apply approx_p4; lra|].
    unfold p13, p3. destruct (Rle_dec 10 0); [lra|]. destruct (Rle_dec 10 3); [lra|].
    set (s := sqrt 10.000001). assert (L : 3.1622776 <= s) by (unfold s; replace 3.1622776 with (sqrt (3.1622776 * 3.1622776)) by (apply sqrt_square; lra); apply sqrt_le_1; lra).
    assert (U : s <= 3.162278) by (unfold s; replace 3.162278 with (sqrt (3.162278 * 3.162278)) by (apply sqrt_square; lra); apply sqrt_le_1; lra).
    set (u := / s). assert (P : 0 < u) by (apply Rinv_0_lt_compat; lra).
    assert (Hu : u <= 0.31622779). { unfold u. apply (Rmult_le_reg_l s); [lra|]. rewrite Rinv_r by lra. lra. }
    assert (B : forall k, 0 <= u ^ k <= 0.31622779 ^ k) by (intros k; split; [apply pow_le; lra|apply pow_incr; lra]).
    assert (C : s^3 <= 3.162278^3) by (apply pow_incr; lra).
    unfold p4. fold u. pose proof (B 1%nat). pose proof (B 5%nat). pose proof (B 9%nat). pose proof (B 13%nat). pose proof (B 17%nat).
    generalize dependent (u^17). generalize dependent (u^13). generalize dependent (u^9). generalize dependent (u^5). generalize dependent (u^1). generalize dependent (s^3). intros. lra.
  - exists (p4 (sqrt 100000)), (2 / 3 * sqrt 100000.000001 ^ 3). split; [apply approx_p4; lra|]. split; [apply approx_p5; lra|].
    set (s := sqrt 100000). set (t := sqrt 100000.000001). assert (E1 : s * s = 100000) by (apply sqrt_sqrt; lra). assert (E2 : t * t = 100000.000001) by (apply sqrt_sqrt; lra).
    assert (S0 : 0 < s) by (apply sqrt_lt_R0; lra). assert (L : s < t) by (apply sqrt_lt_1; lra). assert (U : t <= 317) by nra.
    assert (D : t^3 - s^3 <= 0.000001 * 1.5 * t). { replace (0.000001) with ((t - s) * (t + s)) by lra. assert (0 <= (t - s)^2 * (t + 2 * s)) by (apply Rmult_le_pos; [apply pow2_ge_0|lra]). lra. }
    assert (I : / 317 <= / s) by (apply Rinv_le_contravar; lra).
    unfold p4. set (u := / s) in *. assert (Q : forall n, 0 <= u ^ n) by (intros; apply pow_le; lra). pose proof (Q 5%nat). pose proof (Q 9%nat). pose proof (Q 13%nat). pose proof (Q 17%nat).
    rewrite pow_1. generalize dependent (u^17). generalize dependent (u^13). generalize dependent (u^9). generalize dependent (u^5). intros. lra.
Qed.
Print Assumptions C76_increasing_refuted.

(** C76: every other order gives NaN *)
Theorem C76_other eta j : j <> 1/2 -> FD_int_approx eta (Fin j) = Ok XNaN.
Proof. intros H. unfold FD_int_approx. rewrite !nofZ_fin, ndiv_fin, neqb_fin by lra. destruct (Reqb_spec j (1/2)); [contradiction|reflexivity]. Qed.
Print Assumptions C76_other.

Ltac mpos := repeat first [assumption | lra | apply Rmult_lt_0_compat].
(* ---- get_nQ and sackurTetrode ---- *)
(** Planck's constant in erg s, one electronvolt in erg, Boltzmann's constant in erg / K, as in the code *)
Definition planck : R := IZR 662607004 / IZR (10 ^ 35).
Definition ev : R := IZR 16021766208 / IZR (10 ^ 22).
Definition boltzmann : R := IZR 138064852 / IZR (10 ^ 24).
(** the thermal de Broglie wavelength *)
Definition wavelength (m T : R) : R := planck / sqrt (2 * PI * m * ev * T).
(** the entropy of an ideal gas: n particles per unit volume, each of mass m, in volume V at temperature T *)
Definition entropy (n m V T : R) : R := n * V * boltzmann * (5/2 - ln (n * wavelength m T ^ 3)).

Lemma planck_pos : 0 < planck. Proof. unfold planck. pow10. lra. Qed.
Lemma boltzmann_pos : 0 < boltzmann. Proof. unfold boltzmann. pow10. lra. Qed.
Lemma ev_pos : 0 < ev. Proof. unfold ev. pow10. lra. Qed.
Lemma wavelength_pos m T : 0 < m -> 0 < T -> 0 < wavelength m T.
Proof.
  intros. pose proof ev_pos. pose proof PI_RGT_0. apply Rdiv_lt_0_compat; [apply planck_pos|]. apply sqrt_lt_R0. mpos.
Qed.

(** C77 (general.py:12-18): the quantum concentration is one particle per cube of the thermal wavelength *)
Theorem C77_concentration m T : 0 < m -> 0 < T -> get_nQ (Fin T) (Fin m) = Ok (Fin (1 / wavelength m T ^ 3)).
Proof.
  intros Hm HT. pose proof planck_pos as Hh. pose proof ev_pos as He. pose proof PI_RGT_0 as HP.
  unfold get_nQ. cbv zeta. rewrite !dec_fin by lia. rewrite !nofZ_fin. cbn [npi Special_xr]. fold planck.
  rewrite (ndiv_fin planck 2) by lra. rewrite (ndiv_fin _ PI) by lra. rewrite !nmul_fin. rewrite (ndiv_fin 3 2) by lra.
  replace (IZR 16021766208 / IZR (10 ^ 29) * 10000000) with ev by (unfold ev; pow10; lra).
  assert (D : 0 < 2 * PI * (planck / 2 / PI * (planck / 2 / PI))).
  { assert (0 < planck / 2 / PI) by (apply Rdiv_lt_0_compat; lra). mpos. }
  rewrite ndiv_fin by lra. set (x := m * ev * T / _).
  set (q := 2 * PI * m * ev * T). assert (Q : 0 < q) by (unfold q; mpos).
  assert (E : x = q / planck ^ 2) by (unfold x, q; field; lra).
  assert (X : 0 < x) by (rewrite E; apply Rdiv_lt_0_compat; [assumption|apply pow_lt; assumption]).
  cbn [npow Elem_xr]. rewrite xpow_pos by assumption. do 2 f_equal. rewrite Rpower_32 by assumption. unfold wavelength. fold q.
  rewrite E, sqrt_div_alt by (apply pow_lt; assumption). replace (planck ^ 2) with (planck * planck) by ring. rewrite sqrt_square by lra.
  pose proof (sqrt_lt_R0 q Q). field. lra.
Qed.
Print Assumptions C77_concentration.
Example C77_hyp : 0 < 1 / IZR (10 ^ 27) /\ 0 < 25 / 1000. Proof. pow10. lra. Qed.

(** C77 (general.py:22-27): the entropy is that of Sackur and Tetrode *)
Theorem C77_entropy n m V T : 0 < n -> 0 < m -> 0 < T -> sackurTetrode (Fin n) (Fin m) (Fin V) (Fin T) = Ok (Fin (entropy n m V T)).
Proof.
  intros Hn Hm HT. pose proof (wavelength_pos m T Hm HT) as W. unfold sackurTetrode. cbv zeta. rewrite C77_concentration by assumption. cbn [bind].
  rewrite !dec_fin by lia. rewrite !nofZ_fin, neqb_fin. destruct (Reqb_spec n 0); [lra|]. rewrite !nmul_fin, !ndiv_fin by lra.
  assert (W3 : 0 < wavelength m T ^ 3) by (apply pow_lt; assumption).
  assert (P : 0 < 1 / wavelength m T ^ 3 / n) by (repeat apply Rdiv_lt_0_compat; lra).
  cbn [nlog Special_xr]. destruct (Rlt_dec 0 _); [|lra]. rewrite nadd_fin, nmul_fin. do 2 f_equal. unfold entropy, boltzmann. f_equal.
  replace (1 / wavelength m T ^ 3 / n) with (/ (n * wavelength m T ^ 3)) by (field; lra). rewrite ln_Rinv by (apply Rmult_lt_0_compat; lra). lra.
Qed.
Print Assumptions C77_entropy.

Lemma wavelength_scale m T c : 0 < m -> 0 < T -> 0 < c -> wavelength m (T / c ^ 2) = c * wavelength m T.
Proof.
  intros Hm HT Hc. pose proof ev_pos. pose proof PI_RGT_0. unfold wavelength.
  assert (C2 : 0 < c ^ 2) by (apply pow_lt; assumption).
  assert (Q : 0 < 2 * PI * m * ev * T) by (mpos).
  replace (2 * PI * m * ev * (T / c ^ 2)) with (2 * PI * m * ev * T / c ^ 2) by (field; lra).
  rewrite sqrt_div_alt by assumption. replace (sqrt (c ^ 2)) with c by (replace (c ^ 2) with (c * c) by ring; symmetry; apply sqrt_square; lra).
  pose proof (sqrt_lt_R0 _ Q). field. lra.
Qed.
(** C77: entropy is proportional to the volume at constant density; expanding the gas into c times the volume at constant temperature adds N k ln c;
    expanding it to c^3 times the volume while the temperature falls by c^2 leaves it unchanged (the adiabats of a monatomic gas); and it grows with temperature *)
Theorem C77_laws n m V T c : 0 < n -> 0 < m -> 0 < V -> 0 < T -> 0 < c ->
  exists s, sackurTetrode (Fin n) (Fin m) (Fin V) (Fin T) = Ok (Fin s)
    /\ sackurTetrode (Fin n) (Fin m) (Fin (c * V)) (Fin T) = Ok (Fin (c * s))
    /\ sackurTetrode (Fin (n / c)) (Fin m) (Fin (c * V)) (Fin T) = Ok (Fin (s + n * V * boltzmann * ln c))
    /\ sackurTetrode (Fin (n / c ^ 3)) (Fin m) (Fin (c ^ 3 * V)) (Fin (T / c ^ 2)) = Ok (Fin s)
    /\ (forall T', T < T' -> exists s', sackurTetrode (Fin n) (Fin m) (Fin V) (Fin T') = Ok (Fin s') /\ s < s').
Proof.
  intros Hn Hm HV HT Hc. pose proof (wavelength_pos m T Hm HT) as W.
  assert (C3 : 0 < c ^ 3) by (apply pow_lt; assumption). assert (C2 : 0 < c ^ 2) by (apply pow_lt; assumption). assert (W3 : 0 < wavelength m T ^ 3) by (apply pow_lt; assumption).
  exists (entropy n m V T). split; [apply C77_entropy; assumption|]. split; [|split; [|split]].
  - rewrite C77_entropy by assumption. do 2 f_equal. unfold entropy. ring.
  - rewrite C77_entropy by (try assumption; apply Rdiv_lt_0_compat; assumption). do 2 f_equal. unfold entropy.
    replace (n / c * wavelength m T ^ 3) with (n * wavelength m T ^ 3 * / c) by (field; lra).
    rewrite ln_mult, ln_Rinv; [field; lra | assumption | apply Rmult_lt_0_compat; lra | apply Rinv_0_lt_compat; assumption].
  - rewrite C77_entropy by (try assumption; apply Rdiv_lt_0_compat; assumption). do 2 f_equal. unfold entropy. rewrite wavelength_scale by assumption.
    replace (n / c ^ 3 * (c * wavelength m T) ^ 3) with (n * wavelength m T ^ 3) by (field; lra). field. lra.
  - intros T' HT'. exists (entropy n m V T'). split; [apply C77_entropy; lra|]. unfold entropy.
    pose proof boltzmann_pos. apply Rmult_lt_compat_l. mpos.
    assert (W' : 0 < wavelength m T') by (apply wavelength_pos; lra).
    assert (L : wavelength m T' < wavelength m T).
    { unfold wavelength. apply Rmult_lt_compat_l; [apply planck_pos|]. pose proof ev_pos. pose proof PI_RGT_0.
      assert (Q : 0 < 2 * PI * m * ev) by (mpos).
      assert (Q1 : 2 * PI * m * ev * T < 2 * PI * m * ev * T') by (apply Rmult_lt_compat_l; assumption).
      assert (Q2 : 0 < 2 * PI * m * ev * T) by (apply Rmult_lt_0_compat; assumption).
      pose proof (sqrt_lt_R0 _ Q2). assert (sqrt (2 * PI * m * ev * T) < sqrt (2 * PI * m * ev * T')) by (apply sqrt_lt_1; lra). apply Rinv_lt_contravar; [apply Rmult_lt_0_compat; lra|assumption]. }
    assert (P3 : wavelength m T' ^ 3 < wavelength m T ^ 3) by (pose proof (cube_inc (wavelength m T') (wavelength m T) ltac:(lra) L); assert (0 < wavelength m T' ^ 2 * (wavelength m T - wavelength m T')) by (apply Rmult_lt_0_compat; [apply pow_lt|]; lra); lra).
    assert (ln (n * wavelength m T' ^ 3) < ln (n * wavelength m T ^ 3)). { apply ln_increasing. apply Rmult_lt_0_compat; [|apply pow_lt]; assumption. apply Rmult_lt_compat_l; assumption. } lra.
Qed.
Print Assumptions C77_laws.

(** C77: without particles the division fails; at temperature 0 the entropy is minus infinity; a negative density gives NaN *)
Theorem C77_errors n m V T : 0 < m -> 0 < T ->
  sackurTetrode (Fin 0) (Fin m) (Fin V) (Fin T) = Err ZeroDivisionError
  /\ (0 < n -> 0 < V -> sackurTetrode (Fin n) (Fin m) (Fin V) (Fin 0) = Ok NInf)
  /\ (n < 0 -> sackurTetrode (Fin n) (Fin m) (Fin V) (Fin T) = Ok XNaN).
Proof.
  intros Hm HT. split; [|split].
  - unfold sackurTetrode. cbv zeta. rewrite C77_concentration by assumption. cbn [bind]. rewrite !nofZ_fin, neqb_fin. destruct (Reqb_spec 0 0); [reflexivity|lra].
  - intros Hn HV.
    assert (Z : get_nQ (Fin 0) (Fin m) = Ok (Fin 0)).
    { pose proof planck_pos as Hh. pose proof PI_RGT_0 as HP. unfold get_nQ. cbv zeta. rewrite !dec_fin by lia. rewrite !nofZ_fin. cbn [npi Special_xr]. fold planck.
      rewrite (ndiv_fin planck 2) by lra. rewrite (ndiv_fin _ PI) by lra. rewrite !nmul_fin. rewrite (ndiv_fin 3 2) by lra.
      assert (D : 0 < 2 * PI * (planck / 2 / PI * (planck / 2 / PI))).
      { assert (0 < planck / 2 / PI) by (apply Rdiv_lt_0_compat; lra). mpos. }
      rewrite ndiv_fin by lra. replace (m * _ * 0 / _) with 0 by (field; lra). cbn [npow Elem_xr]. unfold xpow.
      destruct (Req_EM_T (3/2) 0); [lra|]. destruct (Rlt_dec 0 0); [lra|]. destruct (Req_EM_T 0 0); [|lra]. destruct (Rlt_dec (3/2) 0); [lra|reflexivity]. }
    unfold sackurTetrode. cbv zeta. rewrite Z. cbn [bind]. rewrite !dec_fin by lia. rewrite !nofZ_fin, neqb_fin. destruct (Reqb_spec n 0); [lra|]. rewrite !nmul_fin, !ndiv_fin by lra.
    replace (0 / n) with 0 by (field; lra). cbn [nlog Special_xr]. destruct (Rlt_dec 0 0); [lra|]. destruct (Req_EM_T 0 0); [|lra].
    assert (P : 0 < n * V * (138064852 / IZR (10 ^ 24))) by (pose proof boltzmann_pos; fold boltzmann; mpos).
    generalize dependent (n * V * (138064852 / IZR (10 ^ 24))). intros c Hc. unfold nmul, nadd; cbn [Num_xr xmul xadd]. unfold inf_times; destruct (Rlt_dec 0 c); [reflexivity|contradiction].
  - intros Hn. pose proof (wavelength_pos m T Hm HT) as W. assert (W3 : 0 < wavelength m T ^ 3) by (apply pow_lt; assumption).
    unfold sackurTetrode. cbv zeta. rewrite C77_concentration by assumption. cbn [bind]. rewrite !dec_fin by lia. rewrite !nofZ_fin, neqb_fin. destruct (Reqb_spec n 0); [lra|]. rewrite !nmul_fin, !ndiv_fin by lra.
    assert (P : 1 / wavelength m T ^ 3 / n < 0). { assert (0 < 1 / wavelength m T ^ 3) by (apply Rdiv_lt_0_compat; lra). assert (/ n < 0) by (apply Rinv_lt_0_compat; assumption). unfold Rdiv at 1. nra. }
    cbn [nlog Special_xr]. destruct (Rlt_dec 0 _); [lra|]. destruct (Req_EM_T _ 0); [lra|]. reflexivity.
Qed.
Print Assumptions C77_errors.
