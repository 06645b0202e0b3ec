(** C73 and C74: moving average and Savitzky-Golay filter. *)
From Coq Require Import Reals ZArith List Bool Lia Lra Psatz Arith Factorial.
From Verif Require Import PyErr Num XReal Signal.
Import ListNotations.
Local Open Scope R_scope.

(* ---- specification ---- *)
(** the sum f 0 + ... + f (n-1) *)
Fixpoint total (n : nat) (f : nat -> R) : R := match n with O => 0 | S n => total n f + f n end.
(** a signal continued by zeros *)
Definition zero_padded (x : list R) (k : Z) : R :=
  if (0 <=? k)%Z && (k <? Z.of_nat (length x))%Z then nth (Z.to_nat k) x 0 else 0.
(** value at x of the polynomial with coefficients c, lowest first *)
Definition poly (c : list R) (x : R) : R := total (length c) (fun j => nth j c 0 * x ^ j).
(** value at x of its d-th derivative (see [derivative_step] below) *)
Definition derivative (c : list R) (d : nat) (x : R) : R :=
  total (length c) (fun j => if Nat.leb d j then nth j c 0 * (INR (fact j) / INR (fact (j - d))) * x ^ (j - d) else 0).
(** entry of a matrix given by its rows *)
Definition entry (M : list (list R)) (i j : nat) : R := nth j (nth i M []) 0.
(** P is the Moore-Penrose inverse of the m x n matrix A *)
Record moore_penrose (m n : nat) (A P : nat -> nat -> R) : Prop := {
  mp_apa : forall i j, (i < m)%nat -> (j < n)%nat -> total n (fun k => total m (fun l => A i k * P k l * A l j)) = A i j;
  mp_pap : forall i j, (i < n)%nat -> (j < m)%nat -> total m (fun k => total n (fun l => P i k * A k l * P l j)) = P i j;
  mp_ap : forall i j, (i < m)%nat -> (j < m)%nat -> total n (fun k => A i k * P k j) = total n (fun k => A j k * P k i);
  mp_pa : forall i j, (i < n)%nat -> (j < n)%nat -> total m (fun k => P i k * A k j) = total m (fun k => P j k * A k i) }.
(** the matrix of the powers 0..order of -h, ..., h *)
Definition powers (h : nat) (i j : nat) : R := (INR i - INR h) ^ j.
(** np.linalg.pinv returns the Moore-Penrose inverse P of the (2h+1) x (order+1) matrix of powers *)
Definition inverts (pinv : list (list xr) -> list (list xr)) (h order : nat) : Prop :=
  exists A P, (length A = 2 * h + 1)%nat /\ (forall r, In r A -> length r = S order) /\
    (forall i j, (i < 2 * h + 1)%nat -> (j < S order)%nat -> entry A i j = powers h i j) /\
    pinv (map (map Fin) A) = map (map Fin) P /\ length P = S order /\ (forall r, In r P -> (length r = 2 * h + 1)%nat) /\
    moore_penrose (2 * h + 1) (S order) (powers h) (entry P).
(** the signal y (not empty) continued beyond its ends: at the front by y[0] - |y[-k] - y[0]|, at the back by y[-1] + |y[2(n-1)-k] - y[-1]| *)
Definition continued (y : list R) (k : Z) : R :=
  let n := Z.of_nat (length y) in
  let at_ (z : Z) := nth (Z.to_nat z) y 0 in
  if (k <? 0)%Z then at_ 0%Z - Rabs (at_ (- k)%Z - at_ 0%Z)
  else if (k <? n)%Z then at_ k
  else at_ (n - 1)%Z + Rabs (at_ (2 * (n - 1) - k)%Z - at_ (n - 1)%Z).
(** the sum of the squared differences between the 2h+1 samples around i and the polynomial c of the distance from i *)
Definition misfit (h : nat) (y : list R) (i : nat) (c : list R) : R :=
  total (2 * h + 1) (fun k => Rsqr (continued y (Z.of_nat i + Z.of_nat k - Z.of_nat h) - poly c (INR k - INR h))).

(* ---- sums ---- *)
Lemma total_ext n f g : (forall k, (k < n)%nat -> f k = g k) -> total n f = total n g.
Proof. induction n; intros H; cbn; [reflexivity|]. rewrite IHn, H; auto. Qed.
Lemma total_plus n f g : total n (fun k => f k + g k) = total n f + total n g.
Proof. induction n; cbn; [lra|]. rewrite IHn. lra. Qed.
Lemma total_scal n a f : total n (fun k => a * f k) = a * total n f.
Proof. induction n; cbn; [lra|]. rewrite IHn. lra. Qed.
Lemma total_0 n f : (forall k, (k < n)%nat -> f k = 0) -> total n f = 0.
Proof. induction n; intros H; cbn; [reflexivity|]. rewrite IHn, H; auto. lra. Qed.
Lemma total_swap n m f : total n (fun i => total m (fun j => f i j)) = total m (fun j => total n (fun i => f i j)).
Proof.
  induction n; cbn.
  - symmetry. apply total_0. reflexivity.
  - rewrite IHn, <- total_plus. apply total_ext. reflexivity.
Qed.
Lemma total_S n f : total (S n) f = f O + total n (fun k => f (S k)).
Proof. induction n; cbn in *; [lra|]. rewrite IHn. lra. Qed.
Lemma total_last n f : total (S n) f = total n f + f n. Proof. reflexivity. Qed.
Lemma total_one n f i : (i < n)%nat -> (forall k, (k < n)%nat -> k <> i -> f k = 0) -> total n f = f i.
Proof.
  induction n; intros Hi H; [lia|]. cbn. destruct (Nat.eq_dec i n) as [->|].
  - rewrite (total_0 n). lra. intros; apply H; lia.
  - rewrite IHn; [|lia|intros; apply H; lia]. rewrite (H n); lia || lra.
Qed.
Lemma total_app n m f : total (n + m) f = total n f + total m (fun k => f (n + k)%nat).
Proof. induction m. rewrite Nat.add_0_r; cbn; lra. rewrite Nat.add_succ_r; cbn. rewrite IHm. lra. Qed.

Lemma total_sqr n g : 0 <= total n (fun k => Rsqr (g k)).
Proof. induction n; cbn [total]; [lra|]. pose proof (Rle_0_sqr (g n)). lra. Qed.
Lemma fold_fin l a : fold_left nadd (map Fin l) (Fin a) = Fin (a + fold_right Rplus 0 l).
Proof.
  revert a; induction l; intros x; cbn [map fold_left fold_right]; [f_equal; lra|].
  rewrite nadd_fin, IHl. f_equal. lra.
Qed.
Lemma nth_fin l j : nth j (map Fin l) (Fin 0) = Fin (nth j l 0).
Proof. apply (map_nth Fin). Qed.
Lemma sum_filter (p : nat -> bool) (f : nat -> R) s n :
  fold_right Rplus 0 (map f (filter p (seq s n))) = total n (fun j => if p (s + j)%nat then f (s + j)%nat else 0).
Proof.
  revert s; induction n; intros s; [reflexivity|]. rewrite total_S. cbn [seq filter].
  rewrite Nat.add_0_r. assert (E : total n (fun k => if p (s + S k)%nat then f (s + S k)%nat else 0) = total n (fun k => if p (S s + k)%nat then f (S s + k)%nat else 0)).
  { apply total_ext; intros; rewrite Nat.add_succ_r; reflexivity. }
  rewrite E. destruct (p s); cbn [map fold_right]; rewrite IHn; lra.
Qed.
(** a sum over the j in a window of integers *)
Lemma window (L n : nat) (a : Z) (f : nat -> R) :
  total L (fun j => if (a <=? Z.of_nat j)%Z && (Z.of_nat j <? a + Z.of_nat n)%Z then f j else 0)
  = total n (fun d => let z := (a + Z.of_nat d)%Z in if (0 <=? z)%Z && (z <? Z.of_nat L)%Z then f (Z.to_nat z) else 0).
Proof.
  induction n.
  - cbn [total]. apply total_0. intros k _. destruct (Z.leb_spec a (Z.of_nat k)); cbn [andb]; [|reflexivity].
    destruct (Z.ltb_spec (Z.of_nat k) (a + Z.of_nat 0)); [lia|reflexivity].
  - rewrite (total_last n). rewrite <- IHn.
    rewrite (total_ext L _ (fun j => (if (a <=? Z.of_nat j)%Z && (Z.of_nat j <? a + Z.of_nat n)%Z then f j else 0)
                                     + (if (Z.of_nat j =? a + Z.of_nat n)%Z then f j else 0))).
    2:{ intros k _. destruct (Z.leb_spec a (Z.of_nat k)), (Z.ltb_spec (Z.of_nat k) (a + Z.of_nat (S n))), (Z.ltb_spec (Z.of_nat k) (a + Z.of_nat n)),
          (Z.eqb_spec (Z.of_nat k) (a + Z.of_nat n)); cbn [andb]; lia || lra. }
    rewrite total_plus. f_equal. cbv zeta.
    destruct (Z.leb_spec 0 (a + Z.of_nat n)), (Z.ltb_spec (a + Z.of_nat n) (Z.of_nat L)); cbn [andb].
    + rewrite (total_one L _ (Z.to_nat (a + Z.of_nat n))); [|lia|].
      * rewrite Z2Nat.id by lia. rewrite Z.eqb_refl. reflexivity.
      * intros k _ Hk. destruct (Z.eqb_spec (Z.of_nat k) (a + Z.of_nat n)); [lia|reflexivity].
    + apply total_0. intros k Hk. destruct (Z.eqb_spec (Z.of_nat k) (a + Z.of_nat n)); [lia|reflexivity].
    + apply total_0. intros k Hk. destruct (Z.eqb_spec (Z.of_nat k) (a + Z.of_nat n)); [lia|reflexivity].
    + apply total_0. intros k Hk. destruct (Z.eqb_spec (Z.of_nat k) (a + Z.of_nat n)); [lia|reflexivity].
Qed.

(* ---- convolution ---- *)
Lemma conv_fin (a v : list R) k :
  conv_at (map Fin a) (map Fin v) k
  = Fin (total (length v) (fun d => let z := (Z.of_nat k - Z.of_nat (length v) + 1 + Z.of_nat d)%Z in
           zero_padded a z * nth (length v - 1 - d) v 0)).
Proof.
  unfold conv_at. rewrite !map_length. change (nofZ 0) with (Fin 0).
  rewrite (map_ext _ (fun j => Fin (nth j a 0 * nth (k - j) v 0))).
  2:{ intros j. rewrite !nth_fin, nmul_fin. reflexivity. }
  rewrite <- (map_map (fun j => nth j a 0 * nth (k - j) v 0) Fin), fold_fin, sum_filter, Rplus_0_l. f_equal.
  rewrite (total_ext (length a) _ (fun j => if ((Z.of_nat k - Z.of_nat (length v) + 1) <=? Z.of_nat j)%Z
     && (Z.of_nat j <? (Z.of_nat k - Z.of_nat (length v) + 1) + Z.of_nat (length v))%Z then nth j a 0 * nth (k - j) v 0 else 0)).
  2:{ intros j Hj. cbn [Nat.add]. destruct (Nat.leb_spec j k), (Nat.ltb_spec (k - j) (length v)),
        (Z.leb_spec (Z.of_nat k - Z.of_nat (length v) + 1) (Z.of_nat j)), (Z.ltb_spec (Z.of_nat j) (Z.of_nat k - Z.of_nat (length v) + 1 + Z.of_nat (length v)));
        cbn [andb]; reflexivity || lia. }
  rewrite window. apply total_ext. intros d Hd. cbv zeta. unfold zero_padded.
  destruct (Z.leb_spec 0 (Z.of_nat k - Z.of_nat (length v) + 1 + Z.of_nat d)), (Z.ltb_spec (Z.of_nat k - Z.of_nat (length v) + 1 + Z.of_nat d) (Z.of_nat (length a))); cbn [andb]; try lra.
  f_equal. f_equal. lia.
Qed.
Lemma convolve_fin m a v : (length v <= length a)%nat -> v <> [] ->
  convolve m (map Fin a) (map Fin v)
  = Ok (map (conv_at (map Fin a) (map Fin v))
            (match m with same => seq (Nat.div (length v - 1) 2) (length a) | valid => seq (length v - 1) (length a - length v + 1) end)).
Proof.
  intros Hl Hv. unfold convolve. rewrite !map_length. destruct (Nat.ltb_spec (length a) (length v)); [lia|].
  destruct v as [|v0 v]; [congruence|]. cbn [map]. rewrite map_length. change (Fin v0 :: map Fin v) with (map Fin (v0 :: v)).
  rewrite map_length. destruct m; reflexivity.
Qed.
Lemma convolve_fin_swap m a v : (length a < length v)%nat -> a <> [] ->
  convolve m (map Fin a) (map Fin v) = convolve m (map Fin v) (map Fin a).
Proof.
  intros Hl Ha. unfold convolve. rewrite !map_length.
  destruct (Nat.ltb_spec (length a) (length v)), (Nat.ltb_spec (length v) (length a)); try lia. reflexivity.
Qed.

(* ---- C73 ---- *)
Lemma ones n : (0 < n)%Z -> map (fun one : xr => ndiv one (nofZ n)) (repeat (nofZ 1) (Z.to_nat n)) = map Fin (repeat (1 / IZR n) (Z.to_nat n)).
Proof.
  intros H. assert (IZR n <> 0) by (apply not_0_IZR; lia). induction (Z.to_nat n) as [|k IH]; [reflexivity|]. cbn [repeat map].
  f_equal; [|exact IH]. apply ndiv_fin. assumption.
Qed.
Lemma nth_repeat_lt (x : R) n k : (k < n)%nat -> nth k (repeat x n) 0 = x.
Proof. revert k; induction n; intros [|k] H; cbn; try lia; [reflexivity|apply IHn; lia]. Qed.

(** C73 (general.py:410-412): for a window of n points, 1 <= n <= len(x), movingAverageFast returns as many numbers as x has, and number i is
    one n-th of the sum of the n consecutive samples x[i - n//2], ..., x[i - n//2 + n - 1], samples outside the signal counting as 0. *)
Theorem C73_mean (x : list R) (n : Z) : (1 <= n <= Z.of_nat (length x))%Z ->
  exists out, movingAverageFast (map Fin x) n = Ok (map Fin out) /\ length out = length x /\
    forall i, (i < length x)%nat ->
      nth i out 0 = total (Z.to_nat n) (fun d => zero_padded x (Z.of_nat i - n / 2 + Z.of_nat d)) / IZR n.
Proof.
  intros Hn. unfold movingAverageFast. destruct (Z.ltb_spec n 0); [lia|].
  rewrite ones by lia. set (v := repeat (1 / IZR n) (Z.to_nat n)).
  assert (Lv : length v = Z.to_nat n) by apply repeat_length.
  rewrite convolve_fin; [|lia|intros E; rewrite E in Lv; cbn in Lv; lia].
  exists (map (fun k => total (length v) (fun d => let z := (Z.of_nat k - Z.of_nat (length v) + 1 + Z.of_nat d)%Z in
           zero_padded x z * nth (length v - 1 - d) v 0)) (seq (Nat.div (length v - 1) 2) (length x))).
  split; [|split].
  - f_equal. rewrite map_map. apply map_ext. intros k. apply conv_fin.
  - rewrite map_length, seq_length. reflexivity.
  - intros i Hi. set (F := fun k => _). rewrite (nth_indep _ 0 (F O)) by (rewrite map_length, seq_length; assumption).
    rewrite map_nth, seq_nth by assumption. unfold F. clear F.
    assert (E : (Z.of_nat ((length v - 1) / 2 + i) - Z.of_nat (length v) + 1 = Z.of_nat i - n / 2)%Z).
    { rewrite Lv, Nat2Z.inj_add. rewrite Nat2Z.inj_div, Nat2Z.inj_sub, Z2Nat.id by lia. change (Z.of_nat 1) with 1%Z. change (Z.of_nat 2) with 2%Z.
      pose proof (Z.div_mod n 2). pose proof (Z.div_mod (n - 1) 2). pose proof (Z.mod_pos_bound n 2). pose proof (Z.mod_pos_bound (n - 1) 2). lia. }
    rewrite Lv in *. unfold Rdiv. rewrite Rmult_comm, <- total_scal. apply total_ext. intros d Hd. cbv zeta.
    rewrite E. unfold v. rewrite nth_repeat_lt by lia. unfold Rdiv. lra.
Qed.
Print Assumptions C73_mean.

(** In the interior, i - n//2 >= 0 and i - n//2 + n <= len(x), the average lies between any bounds of the samples in the window. *)
Theorem C73_interior (x : list R) (n : Z) lo hi i : (1 <= n)%Z -> (n / 2 <= Z.of_nat i)%Z -> (Z.of_nat i - n / 2 + n <= Z.of_nat (length x))%Z ->
  (forall k, (Z.of_nat i - n / 2 <= Z.of_nat k < Z.of_nat i - n / 2 + n)%Z -> lo <= nth k x 0 <= hi) ->
  exists out, movingAverageFast (map Fin x) n = Ok (map Fin out) /\ length out = length x /\ lo <= nth i out 0 <= hi.
Proof.
  intros Hn H1 H2 Hb.
  pose proof (Z.div_mod n 2). pose proof (Z.mod_pos_bound n 2).
  destruct (C73_mean x n) as (out & E & L & F); [lia|]. exists out. split; [exact E|]. split; [exact L|].
  rewrite F by lia. assert (P : 0 < IZR n) by (apply IZR_lt; lia).
  assert (G : forall m, (m <= Z.to_nat n)%nat -> INR m * lo <= total m (fun d => zero_padded x (Z.of_nat i - n / 2 + Z.of_nat d)) <= INR m * hi).
  { induction m; intros Hm; [cbn; lra|]. rewrite total_last, S_INR. specialize (IHm ltac:(lia)).
    assert (lo <= zero_padded x (Z.of_nat i - n / 2 + Z.of_nat m) <= hi); [|lra].
    unfold zero_padded. destruct (Z.leb_spec 0 (Z.of_nat i - n / 2 + Z.of_nat m)); [|lia].
    destruct (Z.ltb_spec (Z.of_nat i - n / 2 + Z.of_nat m) (Z.of_nat (length x))); [|lia]. cbn [andb]. apply Hb. lia. }
  specialize (G (Z.to_nat n) (le_n _)). rewrite INR_IZR_INZ, Z2Nat.id in G by lia.
  split; apply (Rmult_le_reg_r (IZR n)); try assumption; unfold Rdiv; rewrite Rmult_assoc, Rinv_l, Rmult_1_r by lra; lra.
Qed.
Print Assumptions C73_interior.

(** A window longer than the signal is accepted and yields more numbers than samples; n <= 0 and an empty signal raise ValueError. *)
Theorem C73_long (x : list R) (n : Z) : x <> [] -> (Z.of_nat (length x) < n)%Z ->
  exists out, movingAverageFast (map Fin x) n = Ok out /\ Z.of_nat (length out) = n.
Proof.
  intros Hx Hn. unfold movingAverageFast. destruct (Z.ltb_spec n 0); [lia|]. rewrite ones by lia.
  set (v := repeat (1 / IZR n) (Z.to_nat n)). assert (Lv : length v = Z.to_nat n) by apply repeat_length.
  rewrite convolve_fin_swap by (assumption || lia). rewrite convolve_fin by (assumption || lia).
  eexists. split; [reflexivity|]. rewrite map_length, seq_length. lia.
Qed.
Print Assumptions C73_long.
Theorem C73_errors (x : list xr) (n : Z) : (n <= 0)%Z \/ x = [] -> movingAverageFast x n = Err ValueError.
Proof.
  intros H. unfold movingAverageFast. destruct (Z.ltb_spec n 0); [reflexivity|]. unfold convolve. rewrite map_length, repeat_length.
  destruct H as [H| ->].
  - replace (Z.to_nat n) with O by lia. cbn. destruct (Nat.ltb_spec (length x) 0); [lia|]. reflexivity.
  - cbn [length]. destruct (Nat.ltb_spec 0 (Z.to_nat n)); [reflexivity|]. replace (Z.to_nat n) with O by lia. reflexivity.
Qed.
Print Assumptions C73_errors.
(** The natural claim that a constant signal is left unchanged is false: at the ends it is attenuated. *)
Theorem C73_constant_refuted :
  exists out, movingAverageFast (map Fin [1; 1; 1; 1]) 3 = Ok (map Fin out) /\ nth 0 out 0 = 2 / 3 /\ nth 1 out 0 = 1.
Proof.
  destruct (C73_mean [1; 1; 1; 1] 3) as (out & E & _ & F); [cbn; lia|]. exists out. split; [exact E|].
  split; (rewrite F; [change (Z.to_nat 3) with 3%nat; cbn [total]; unfold zero_padded; cbn; try change (Pos.to_nat 1) with 1%nat; try change (Pos.to_nat 2) with 2%nat; lra|cbn; lia]).
Qed.
Print Assumptions C73_constant_refuted.
Example C73_hyp : (1 <= 2 <= Z.of_nat (length [1; 4; 2]))%Z.
Proof. cbn. lia. Qed.

(* ---- polynomials ---- *)
Lemma poly_cons a c x : poly (a :: c) x = a + x * poly c x.
Proof.
  unfold poly. cbn [length]. rewrite total_S. cbn [nth pow]. rewrite Rmult_1_r, <- total_scal. f_equal.
  apply total_ext. intros. cbn [nth pow]. ring.
Qed.
Fixpoint quo (r : R) (c : list R) : list R :=
  match c with [] => [] | a :: c' => match c' with [] => [] | _ => poly c' r :: quo r c' end end.
Lemma quo_length r c : length (quo r c) = (length c - 1)%nat.
Proof. induction c as [|a [|b c] IH]; [reflexivity|reflexivity|]. cbn [quo length] in *. rewrite IH. lia. Qed.
Lemma quo_spec r c x : poly c x - poly c r = (x - r) * poly (quo r c) x.
Proof.
  induction c as [|a [|b c] IH]; [unfold poly; cbn; ring|unfold poly; cbn; ring|].
  change (quo r (a :: b :: c)) with (poly (b :: c) r :: quo r (b :: c)).
  rewrite !(poly_cons a), (poly_cons (poly (b :: c) r)).
  generalize dependent (poly (b :: c) r). generalize (poly (b :: c) x) (poly (quo r (b :: c)) x). intros p q s IH.
  assert (p = s + (x - r) * q) by lra. subst. ring.
Qed.
Lemma poly_zero c x : (forall z, In z c -> z = 0) -> poly c x = 0.
Proof. intros T. apply total_0. intros k Hk. rewrite (T (nth k c 0)) by (apply nth_In; assumption). ring. Qed.
Lemma quo_zero r c : (forall z, In z (quo r c) -> z = 0) -> forall z, In z (tl c) -> z = 0.
Proof.
  induction c as [|a [|b c] IH]; intros H z Hz; [destruct Hz|destruct Hz|].
  change (quo r (a :: b :: c)) with (poly (b :: c) r :: quo r (b :: c)) in H. cbn [tl] in *. assert (T : forall z, In z c -> z = 0) by (apply IH; intros; apply H; right; assumption).
  destruct Hz as [<-|Hz]; [|apply T; assumption].
  assert (E : poly (b :: c) r = 0) by (apply H; left; reflexivity). rewrite poly_cons in E.
  assert (poly c r = 0) by (apply poly_zero; assumption). rewrite H0 in E. lra.
Qed.
Lemma roots n : forall (c : list R) (x : nat -> R), length c = n -> (forall i j, (i < n)%nat -> (j < n)%nat -> x i = x j -> i = j) ->
  (forall i, (i < n)%nat -> poly c (x i) = 0) -> forall z, In z c -> z = 0.
Proof.
  induction n as [|n IH]; intros c x L I Z z Hz. { destruct c; [destruct Hz|discriminate]. }
  assert (Q : forall z, In z (quo (x n) c) -> z = 0).
  { apply (IH _ x). rewrite quo_length; lia. intros; apply I; lia || assumption.
    intros i Hi. pose proof (quo_spec (x n) c (x i)) as E. rewrite !Z in E by lia.
    assert (x i - x n <> 0). { intros F. assert (i = n) by (apply I; lia || lra). lia. }
    symmetry in E. rewrite Rminus_0_r in E. apply Rmult_integral in E. destruct E; [contradiction|assumption]. }
  pose proof (quo_zero _ _ Q) as T. destruct c as [|a c]; [destruct Hz|]. cbn [tl] in T.
  destruct Hz as [<-|Hz]; [|apply T; assumption]. specialize (Z O ltac:(lia)). rewrite poly_cons in Z.
  assert (poly c (x O) = 0) by (apply poly_zero; assumption). rewrite H in Z. lra.
Qed.
Lemma derivative_0 c x : derivative c 0 x = poly c x.
Proof.
  apply total_ext. intros j _. cbn [Nat.leb]. rewrite Nat.sub_0_r. unfold Rdiv. rewrite Rinv_r; [ring|apply INR_fact_neq_0].
Qed.
Lemma derivable_total n (f : nat -> R -> R) (f' : nat -> R) x : (forall k, (k < n)%nat -> derivable_pt_lim (f k) x (f' k)) ->
  derivable_pt_lim (fun x => total n (fun k => f k x)) x (total n f').
Proof.
  induction n; intros H; cbn [total]. apply derivable_pt_lim_const.
  apply (derivable_pt_lim_plus (fun x => total n (fun k => f k x))); [apply IHn; auto|apply H; lia].
Qed.
(** [derivative c (S d)] is the derivative of [derivative c d], and [derivative c 0] the polynomial *)
Lemma derivative_step c d x : derivable_pt_lim (derivative c d) x (derivative c (S d) x).
Proof.
  unfold derivative. apply derivable_total. intros j Hj. destruct (Nat.leb_spec d j); [|].
  2:{ destruct (Nat.leb_spec (S d) j); [lia|]. apply derivable_pt_lim_const. }
  assert (E : (if (S d <=? j)%nat then nth j c 0 * (INR (fact j) / INR (fact (j - S d))) * x ^ (j - S d) else 0)
     = nth j c 0 * (INR (fact j) / INR (fact (j - d))) * (INR (j - d) * x ^ pred (j - d))).
  { destruct (Nat.leb_spec (S d) j).
    - replace (j - d)%nat with (S (j - S d)) by lia. cbn [pred]. rewrite fact_simpl, mult_INR.
      assert (A := INR_fact_neq_0 (j - S d)). assert (B : INR (S (j - S d)) <> 0) by (apply not_0_INR; lia). field. auto.
    - replace (j - d)%nat with O by lia. cbn. ring. }
  rewrite E. apply (derivable_pt_lim_scal (fun x => x ^ (j - d))). apply derivable_pt_lim_pow.
Qed.
Lemma sum_total n f : sum_f_R0 f n = total (S n) f.
Proof. induction n; cbn in *; [lra|]. rewrite IHn. reflexivity. Qed.
(** Taylor expansion *)
Lemma taylor c t x : poly c (t + x) = total (length c) (fun d => derivative c d t / INR (fact d) * x ^ d).
Proof.
  unfold poly, derivative.
  rewrite (total_ext _ (fun d => _ / _ * _) (fun d => total (length c) (fun j => if Nat.leb d j then nth j c 0 * (INR (fact j) / INR (fact (j - d))) * t ^ (j - d) / INR (fact d) * x ^ d else 0))).
  2:{ intros d _. unfold Rdiv at 1. rewrite Rmult_assoc, Rmult_comm, <- total_scal. apply total_ext. intros j _. destruct (Nat.leb d j); unfold Rdiv; ring. }
  rewrite total_swap. apply total_ext. intros j Hj.
  rewrite Rplus_comm, binomial, sum_total.
  replace (length c) with (S j + (length c - S j))%nat by lia. rewrite total_app.
  rewrite (total_0 (length c - S j)). 2:{ intros k _. destruct (Nat.leb_spec (S j + k) j); [lia|reflexivity]. }
  rewrite Rplus_0_r, <- total_scal. apply total_ext. intros d Hd. destruct (Nat.leb_spec d j); [|lia].
  unfold C. assert (A := INR_fact_neq_0 d). assert (B := INR_fact_neq_0 (j - d)). field. auto.
Qed.

Lemma derivative_at_0 c d : (d < length c)%nat -> derivative c d 0 = INR (fact d) * nth d c 0.
Proof.
  intros H. unfold derivative. rewrite (total_one _ _ d H).
  - rewrite Nat.leb_refl, Nat.sub_diag. cbn [fact pow]. change (INR 1) with 1. field.
  - intros k _ Hk. destruct (Nat.leb_spec d k); [|reflexivity]. rewrite pow_i by lia. ring.
Qed.

(* ---- the filter ---- *)
Lemma seq_nth_map {A} (f : nat -> A) d s n i : (i < n)%nat -> nth i (map f (seq s n)) d = f (s + i)%nat.
Proof. intros H. rewrite (nth_indep _ d (f O)) by (rewrite map_length, seq_length; assumption). rewrite map_nth, seq_nth by assumption. reflexivity. Qed.
Lemma list_ext (l l' : list R) : length l = length l' -> (forall i, (i < length l)%nat -> nth i l 0 = nth i l' 0) -> l = l'.
Proof. intros. apply (nth_ext _ _ 0 0); assumption. Qed.
Lemma pow_IZR z n : IZR (z ^ Z.of_nat n) = IZR z ^ n.
Proof. symmetry. apply pow_IZR. Qed.
Lemma vander_fin h order A : length A = (2 * h + 1)%nat -> (forall r, In r A -> length r = S order) ->
  (forall i j, (i < 2 * h + 1)%nat -> (j < S order)%nat -> entry A i j = powers h i j) ->
  @vander xr _ h order = map (map Fin) A.
Proof.
  intros L1 L2 E. unfold vander, centred. rewrite map_map.
  assert (EA : A = map (fun k => map (fun i => powers h k i) (seq 0 (S order))) (seq 0 (2 * h + 1))).
  { apply (nth_ext _ _ [] []). rewrite map_length, seq_length; assumption.
    intros i Hi. rewrite (seq_nth_map (fun k => map (fun i => powers h k i) (seq 0 (S order)))) by lia.
    assert (Li : length (nth i A []) = S order) by (apply L2, nth_In; assumption).
    apply list_ext. rewrite map_length, seq_length; assumption.
    intros j Hj. rewrite seq_nth_map by lia. apply (E i j); lia. }
  rewrite EA, map_map. apply map_ext. intros k. rewrite map_map. apply map_ext. intros i.
  rewrite nofZ_fin. f_equal. unfold powers. rewrite pow_IZR. f_equal. rewrite minus_IZR, <- !INR_IZR_INZ. reflexivity.
Qed.
Lemma npown_fin r n : npown (Fin r) n = Fin (r ^ n).
Proof. induction n; [reflexivity|]. cbn [npown pow]. rewrite IHn. reflexivity. Qed.
Lemma factorial_fact n : IZR (factorial n) = INR (fact n).
Proof.
  induction n; [reflexivity|]. rewrite fact_simpl, mult_INR, <- IHn. change (factorial (S n)) with (Z.of_nat (S n) * factorial n)%Z.
  rewrite mult_IZR, <- INR_IZR_INZ. reflexivity.
Qed.
Definition ends (h : nat) (y : list R) : list R := map (fun k => continued y (Z.of_nat k - Z.of_nat h)) (seq 0 (length y + 2 * h)).
Lemma firstn_skipn_seq s n (y : list R) : (s + n <= length y)%nat -> firstn n (skipn s y) = map (fun k => nth k y 0) (seq s n).
Proof.
  intros H. apply list_ext. { rewrite map_length, seq_length, firstn_length, skipn_length. lia. }
  intros i Hi. rewrite firstn_length, skipn_length in Hi. rewrite seq_nth_map by lia.
  transitivity (nth i (skipn s y) 0).
  - rewrite <- (firstn_skipn n (skipn s y)) at 2. rewrite app_nth1; [reflexivity|]. rewrite firstn_length, skipn_length. lia.
  - revert s H Hi. clear. induction y; intros s H Hi; [destruct s; destruct i; reflexivity|]. destruct s; [reflexivity|]. cbn. apply IHy; cbn in *; lia.
Qed.
Lemma pad_fin h y : (h < length y)%nat -> pad h (map Fin y) (Fin (nth 0 y 0)) (Fin (nth (length y - 1) y 0)) = map Fin (ends h y).
Proof.
  intros H. unfold pad, ends. rewrite !map_length.
  replace (length y - 1 - (length y - h - 1))%nat with h by lia.
  rewrite !skipn_map, !firstn_map, <- !map_rev.
  assert (M1 : forall l, map (fun v => nsub (Fin (nth 0 y 0)) (nabs (nsub v (Fin (nth 0 y 0))))) (map Fin l) = map Fin (map (fun v => nth 0 y 0 - Rabs (v - nth 0 y 0)) l))
    by (intros l; rewrite !map_map; reflexivity).
  assert (M2 : forall l, map (fun v => nadd (Fin (nth (length y - 1) y 0)) (nabs (nsub v (Fin (nth (length y - 1) y 0))))) (map Fin l)
     = map Fin (map (fun v => nth (length y - 1) y 0 + Rabs (v - nth (length y - 1) y 0)) l)) by (intros l; rewrite !map_map; reflexivity).
  rewrite M1, M2, !firstn_skipn_seq by lia. clear M1 M2.
  replace (length y + 2 * h)%nat with (h + (length y + h))%nat by lia. rewrite !seq_app, !map_app. rewrite <- map_app, <- map_app. rewrite <- map_app, <- map_app. f_equal.
  f_equal; [|f_equal].
  - apply list_ext. { rewrite !map_length, rev_length, map_length, !seq_length. reflexivity. }
    rewrite map_length, rev_length, map_length, seq_length. intros i Hi.
    rewrite (nth_indep _ 0 (nth 0 y 0 - Rabs (0 - nth 0 y 0))) by (rewrite map_length, rev_length, map_length, seq_length; lia).
    rewrite (map_nth (fun v => nth 0 y 0 - Rabs (v - nth 0 y 0))), rev_nth by (rewrite map_length, seq_length; lia).
    rewrite map_length, seq_length, !seq_nth_map by lia.
    unfold continued. destruct (Z.ltb_spec (Z.of_nat (0 + i) - Z.of_nat h) 0); [|lia].
    replace (Z.to_nat (- (Z.of_nat (0 + i) - Z.of_nat h))) with (1 + (h - S i))%nat by lia. reflexivity.
  - apply list_ext. { rewrite !map_length, seq_length. reflexivity. }
    intros i Hi. rewrite seq_nth_map by lia. unfold continued.
    destruct (Z.ltb_spec (Z.of_nat (0 + h + i) - Z.of_nat h) 0); [lia|].
    destruct (Z.ltb_spec (Z.of_nat (0 + h + i) - Z.of_nat h) (Z.of_nat (length y))); [|lia]. f_equal. lia.
  - apply list_ext. { rewrite !map_length, rev_length, map_length, !seq_length. reflexivity. }
    rewrite map_length, rev_length, map_length, seq_length. intros i Hi.
    set (l := nth (length y - 1) y 0).
    rewrite (nth_indep _ 0 (l + Rabs (0 - l))) by (rewrite map_length, rev_length, map_length, seq_length; lia).
    rewrite (map_nth (fun v => l + Rabs (v - l))), rev_nth by (rewrite map_length, seq_length; lia).
    rewrite map_length, seq_length, !seq_nth_map by lia.
    unfold continued.
    destruct (Z.ltb_spec (Z.of_nat (0 + h + length y + i) - Z.of_nat h) 0); [lia|].
    destruct (Z.ltb_spec (Z.of_nat (0 + h + length y + i) - Z.of_nat h) (Z.of_nat (length y))); [lia|].
    replace (Z.to_nat (Z.of_nat (length y) - 1)) with (length y - 1)%nat by lia.
    replace (Z.to_nat (2 * (Z.of_nat (length y) - 1) - (Z.of_nat (0 + h + length y + i) - Z.of_nat h))) with (length y - h - 1 + (h - S i))%nat by lia. reflexivity.
Qed.
(** row d of the pseudo-inverse applied to the window around i *)
Definition fitted (h : nat) (P : list (list R)) (y : list R) (i d : nat) : R :=
  total (2 * h + 1) (fun k => entry P d k * continued y (Z.of_nat i + Z.of_nat k - Z.of_nat h)).
Lemma last_nth (y : list xr) d : last y d = nth (length y - 1) y d.
Proof. induction y as [|a [|b y] IH]; [reflexivity|reflexivity|]. change (last (a :: b :: y) d) with (last (b :: y) d). rewrite IH. cbn [length nth]. rewrite !Nat.sub_succ, !Nat.sub_0_r. cbn [nth]. destruct (length y); reflexivity. Qed.
Lemma filter_fin pinv h order A P y deriv rate :
  length A = (2 * h + 1)%nat -> (forall r, In r A -> length r = S order) ->
  (forall i j, (i < 2 * h + 1)%nat -> (j < S order)%nat -> entry A i j = powers h i j) ->
  pinv (map (map Fin) A) = map (map Fin) P -> length P = S order -> (forall r, In r P -> (length r = 2 * h + 1)%nat) ->
  (S order < 2 * h + 1)%nat -> (deriv <= order)%nat -> (h < length y)%nat ->
  exists out, savitzky_golay pinv (map Fin y) (2 * Z.of_nat h + 1) (Z.of_nat order) (Z.of_nat deriv) (Fin rate) = Ok (map Fin out) /\
    length out = length y /\ forall i, (i < length y)%nat -> nth i out 0 = fitted h P y i deriv * rate ^ deriv * INR (fact deriv).
Proof.
  intros LA LA' EA EP LP LP' Ho Hd Hy. unfold savitzky_golay.
  rewrite !Z.abs_eq by lia.
  replace ((2 * Z.of_nat h + 1) mod 2)%Z with 1%Z by (rewrite Z.add_comm, Z.mul_comm, Z_mod_plus_full; reflexivity).
  destruct (Z.ltb_spec (2 * Z.of_nat h + 1) 1); [lia|]. cbn [Z.eqb Pos.eqb negb orb].
  destruct (Z.ltb_spec (2 * Z.of_nat h + 1) (Z.of_nat order + 2)); [lia|].
  replace (Z.to_nat ((2 * Z.of_nat h + 1 - 1) / 2)) with h
    by (replace (2 * Z.of_nat h + 1 - 1)%Z with (Z.of_nat h * 2)%Z by lia; rewrite Z_div_mult_full, Nat2Z.id by lia; reflexivity).
  rewrite Nat2Z.id, (vander_fin h order A LA LA' EA), EP, map_length, LP.
  destruct (Z.leb_spec (Z.of_nat (S order)) (Z.of_nat deriv)); [lia|].
  destruct (Z.ltb_spec (Z.of_nat deriv) (- Z.of_nat (S order))); [lia|]. cbn [orb].
  destruct (Z.ltb_spec (Z.of_nat deriv) 0); [lia|]. rewrite Nat2Z.id.
  destruct y as [|y0 y']; [cbn in Hy; lia|]. set (y := y0 :: y') in *. change (map Fin (y0 :: y')) with (map Fin y). 
  change (match map Fin y with [] => Err IndexError | y1 :: _ => _ end) with
    (convolve valid (rev (map (fun c => nmul (nmul c (npown (Fin rate) deriv)) (nofZ (factorial deriv))) (nth deriv (map (map Fin) P) [])))
              (pad h (map Fin y) (Fin (nth 0 y 0)) (last (map Fin y) (Fin y0)))).
  replace (last (map Fin y) (Fin y0)) with (Fin (nth (length y - 1) y 0)).
  2:{ rewrite last_nth, map_length. rewrite (nth_indep _ (Fin y0) (Fin 0)) by (rewrite map_length; unfold y; cbn [length]; lia). rewrite nth_fin. reflexivity. }
  rewrite pad_fin by assumption.
  replace (map _ (nth deriv (map (map Fin) P) [])) with (map Fin (map (fun c => c * rate ^ deriv * INR (fact deriv)) (nth deriv P []))).
  2:{ change (@nil xr) with (map Fin []). rewrite (map_nth (map Fin)), !map_map. apply map_ext. intros c.
      rewrite npown_fin, nofZ_fin, factorial_fact, !nmul_fin. reflexivity. }
  set (m := map _ (nth deriv P [])).
  assert (Lr : length (nth deriv P []) = (2 * h + 1)%nat) by (apply LP', nth_In; lia).
  assert (Lm : length m = (2 * h + 1)%nat) by (unfold m; rewrite map_length; assumption).
  assert (Le : length (ends h y) = (length y + 2 * h)%nat) by (unfold ends; rewrite map_length, seq_length; reflexivity).
  rewrite <- map_rev.
  assert (C : convolve valid (map Fin (rev m)) (map Fin (ends h y)) = convolve valid (map Fin (ends h y)) (map Fin (rev m))).
  { destruct (Nat.eq_dec (length (rev m)) (length (ends h y))) as [E|].
    - rewrite rev_length, Lm, Le in E. (* a signal of one sample *)
      assert (length y = 1)%nat by lia. lia.
    - apply convolve_fin_swap. rewrite rev_length in *. lia. intros E. apply (f_equal (@length R)) in E. rewrite rev_length in E. cbn in E. lia. }
  rewrite C, convolve_fin. 2:{ rewrite rev_length. lia. } 2:{ intros E. apply (f_equal (@length R)) in E. rewrite rev_length in E. cbn in E. lia. }
  rewrite rev_length, Lm, Le.
  set (F := fun k => total (length (rev m)) (fun d => let z := (Z.of_nat k - Z.of_nat (length (rev m)) + 1 + Z.of_nat d)%Z in
           zero_padded (ends h y) z * nth (length (rev m) - 1 - d) (rev m) 0)).
  exists (map F (seq (2 * h + 1 - 1) (length y + 2 * h - (2 * h + 1) + 1))). split; [|split].
  - f_equal. rewrite map_map. apply map_ext. intros k. apply conv_fin.
  - rewrite map_length, seq_length. lia.
  - intros i Hi. rewrite seq_nth_map by lia. unfold F, fitted. rewrite rev_length, Lm.
    rewrite Rmult_assoc, Rmult_comm, <- total_scal. apply total_ext. intros k Hk. cbv zeta.
    replace (Z.of_nat (2 * h + 1 - 1 + i) - Z.of_nat (2 * h + 1) + 1 + Z.of_nat k)%Z with (Z.of_nat (i + k)) by lia.
    rewrite rev_nth by lia. rewrite Lm. replace (2 * h + 1 - S (2 * h + 1 - 1 - k))%nat with k by lia.
    unfold m. rewrite (nth_indep _ 0 (0 * rate ^ deriv * INR (fact deriv))) by (rewrite map_length; lia).
    rewrite (map_nth (fun c => c * rate ^ deriv * INR (fact deriv))). fold (entry P deriv k).
    unfold zero_padded. rewrite Le, Nat2Z.id. destruct (Z.leb_spec 0 (Z.of_nat (i + k))); [|lia].
    destruct (Z.ltb_spec (Z.of_nat (i + k)) (Z.of_nat (length y + 2 * h))); [|lia]. cbn [andb].
    unfold ends. rewrite seq_nth_map by lia. replace (Z.of_nat (0 + (i + k)) - Z.of_nat h)%Z with (Z.of_nat i + Z.of_nat k - Z.of_nat h)%Z by lia. ring.
Qed.

Section LeastSquares.
Variables (h n : nat) (P : nat -> nat -> R) (Y : nat -> R).
Hypothesis MP : moore_penrose (2 * h + 1) n (powers h) P.
Let m := (2 * h + 1)%nat.
Let A := powers h.
Let f j := total m (fun l => P j l * Y l).
Let res k := Y k - total n (fun j => A k j * f j).
Lemma residual_orthogonal s : (s < n)%nat -> total m (fun k => A k s * res k) = 0.
Proof.
  intros Hs. unfold res, f.
  rewrite (total_ext m _ (fun k => A k s * Y k + (-1) * total m (fun l => Y l * (A k s * total n (fun j => A k j * P j l))))).
  2:{ intros k Hk. rewrite (total_ext n _ (fun j => total m (fun l => A k j * (P j l * Y l)))) by (intros; symmetry; apply total_scal).
      rewrite total_swap. rewrite (total_ext m (fun l => Y l * _) (fun l => A k s * total n (fun j => A k j * (P j l * Y l)))).
      - rewrite total_scal. ring.
      - intros l _. rewrite <- !total_scal. apply total_ext. intros; ring. }
  rewrite total_plus, total_scal, total_swap.
  rewrite (total_ext m (fun l => total m _) (fun l => Y l * A l s)).
  2:{ intros l Hl. rewrite total_scal. f_equal.
      rewrite (total_ext m _ (fun k => A k s * total n (fun j => A l j * P j k))) by (intros k Hk; f_equal; apply (mp_ap _ _ _ _ MP); assumption).
      change (A l s) with (powers h l s). rewrite <- (mp_apa _ _ _ _ MP l s Hl Hs).
      rewrite (total_swap n). apply total_ext. intros k Hk. rewrite <- total_scal. apply total_ext. intros; fold A; ring. }
  rewrite (total_ext m (fun l => Y l * A l s) (fun k => A k s * Y k)) by (intros; ring). ring.
Qed.
Lemma least q : total m (fun k => Rsqr (Y k - total n (fun j => A k j * f j))) <= total m (fun k => Rsqr (Y k - total n (fun j => A k j * q j))).
Proof.
  assert (E : total m (fun k => Rsqr (Y k - total n (fun j => A k j * q j)))
    = total m (fun k => Rsqr (res k)) + 2 * total m (fun k => res k * total n (fun j => A k j * (f j - q j)))
      + total m (fun k => Rsqr (total n (fun j => A k j * (f j - q j))))).
  { rewrite <- total_scal, <- !total_plus. apply total_ext. intros k Hk.
    rewrite (total_ext n (fun j => A k j * (f j - q j)) (fun j => A k j * f j + (-1) * (A k j * q j))) by (intros; ring).
    rewrite total_plus, total_scal. unfold res, Rsqr. ring. }
  rewrite E. clear E.
  assert (Z : total m (fun k => res k * total n (fun j => A k j * (f j - q j))) = 0).
  { rewrite (total_ext m _ (fun k => total n (fun j => (f j - q j) * (A k j * res k)))).
    2:{ intros k _. rewrite <- total_scal. apply total_ext. intros; ring. }
    rewrite total_swap. apply total_0. intros j Hj. rewrite total_scal, residual_orthogonal by assumption. ring. }
  rewrite Z. assert (G := total_sqr m (fun k => total n (fun j => A k j * (f j - q j)))).
  fold m A f. unfold res in *. lra.
Qed.
End LeastSquares.

Lemma poly_powers h c n k : length c = n -> poly c (INR k - INR h) = total n (fun j => powers h k j * nth j c 0).
Proof. intros <-. apply total_ext. intros. unfold powers. ring. Qed.
Lemma nth_seq_map (f : nat -> R) n j : (j < n)%nat -> nth j (map f (seq 0 n)) 0 = f j.
Proof. intros. rewrite seq_nth_map by assumption. reflexivity. Qed.

(** C74 (general.py:131-201): let order + 2 <= 2h + 1, deriv <= order, and let the signal have more than h samples.  savitzky_golay with window 2h + 1 then
    returns one number per sample; number i is rate^deriv times the deriv-th derivative at the window centre of the polynomial of degree <= order
    that fits the 2h + 1 samples around i (of the signal continued at both ends) best in the sense of least squares. *)
Theorem C74_least_squares pinv h order deriv (y : list R) rate :
  inverts pinv h order -> (order + 2 <= 2 * h + 1)%nat -> (deriv <= order)%nat -> (h < length y)%nat ->
  exists out, savitzky_golay pinv (map Fin y) (2 * Z.of_nat h + 1) (Z.of_nat order) (Z.of_nat deriv) (Fin rate) = Ok (map Fin out) /\
    length out = length y /\
    forall i, (i < length y)%nat ->
      exists c, length c = S order /\ (forall q, length q = S order -> misfit h y i c <= misfit h y i q) /\
        nth i out 0 = rate ^ deriv * derivative c deriv 0.
Proof.
  intros (A & P & LA & LA' & EA & EP & LP & LP' & MP) Ho Hd Hy.
  destruct (filter_fin pinv h order A P y deriv rate LA LA' EA EP LP LP') as (out & E & L & F); try lia; try assumption.
  exists out. split; [exact E|]. split; [exact L|]. intros i Hi.
  exists (map (fitted h P y i) (seq 0 (S order))). split; [rewrite map_length, seq_length; reflexivity|]. split.
  - intros q Lq. unfold misfit.
    eapply Rle_trans; [|eapply Rle_trans; [exact (least h (S order) (entry P) (fun k => continued y (Z.of_nat i + Z.of_nat k - Z.of_nat h)) MP (fun j => nth j q 0))|]].
    + right. apply total_ext. intros k Hk. do 2 f_equal.
      rewrite (poly_powers h _ (S order)) by (rewrite map_length, seq_length; reflexivity). apply total_ext. intros j Hj. rewrite nth_seq_map by assumption. reflexivity.
    + right. apply total_ext. intros k Hk. do 2 f_equal. symmetry. apply poly_powers. assumption.
  - rewrite F by assumption. rewrite derivative_at_0 by (rewrite map_length, seq_length; lia). rewrite nth_seq_map by lia. ring.
Qed.
Print Assumptions C74_least_squares.

Lemma best_exact h order y i c c0 : (order + 2 <= 2 * h + 1)%nat -> length c = S order -> length c0 = S order ->
  misfit h y i c <= misfit h y i c0 ->
  (forall k, (k < 2 * h + 1)%nat -> continued y (Z.of_nat i + Z.of_nat k - Z.of_nat h) = poly c0 (INR k - INR h)) -> c = c0.
Proof.
  intros Ho L L0 Hm He.
  assert (Z : misfit h y i c0 = 0). { apply total_0. intros k Hk. rewrite He, Rminus_diag_eq by (assumption || reflexivity). apply Rsqr_0. }
  assert (G : forall k, (k < 2 * h + 1)%nat -> continued y (Z.of_nat i + Z.of_nat k - Z.of_nat h) = poly c (INR k - INR h)).
  { rewrite Z in Hm. unfold misfit in Hm. clear - Hm. revert Hm. generalize (2 * h + 1)%nat as n. induction n; intros Hm k Hk; [lia|].
    rewrite total_last in Hm.
    assert (0 <= total n (fun k => Rsqr (continued y (Z.of_nat i + Z.of_nat k - Z.of_nat h) - poly c (INR k - INR h)))).
    { apply (total_sqr n (fun k => continued y (Z.of_nat i + Z.of_nat k - Z.of_nat h) - poly c (INR k - INR h))). }
    pose proof (Rle_0_sqr (continued y (Z.of_nat i + Z.of_nat n - Z.of_nat h) - poly c (INR n - INR h))).
    destruct (Nat.eq_dec k n) as [->|].
    - apply Rminus_diag_uniq. apply Rsqr_0_uniq. lra.
    - apply IHn; [lra|lia]. }
  assert (D : forall z, In z (map (fun j => nth j c 0 - nth j c0 0) (seq 0 (S order))) -> z = 0).
  { apply (roots (S order) _ (fun k => INR k - INR h)).
    - rewrite map_length, seq_length. reflexivity.
    - intros a b _ _ E. apply INR_eq. lra.
    - intros k Hk. rewrite (poly_powers h _ (S order)) by (rewrite map_length, seq_length; reflexivity).
      rewrite (total_ext _ _ (fun j => powers h k j * nth j c 0 + (-1) * (powers h k j * nth j c0 0))).
      2:{ intros j Hj. rewrite (nth_seq_map (fun j => nth j c 0 - nth j c0 0)) by assumption. ring. }
      rewrite total_plus, total_scal, <- !poly_powers by assumption. rewrite <- G, <- He by lia. ring. }
  apply list_ext; [congruence|]. intros j Hj.
  specialize (D (nth j c 0 - nth j c0 0)). assert (nth j c 0 - nth j c0 0 = 0); [|lra]. apply D.
  apply in_map_iff. exists j. split; [reflexivity|]. apply in_seq. lia.
Qed.
Lemma derivative_high a d x : (length a <= d)%nat -> derivative a d x = 0.
Proof. intros H. apply total_0. intros j Hj. destruct (Nat.leb_spec d j); [lia|reflexivity]. Qed.

(** If the samples are the values of a polynomial of degree <= order at equidistant points t0, t0 + dt, ... and rate = 1/dt, then at every sample at
    least h away from both ends the result is exactly the deriv-th derivative of that polynomial there (for deriv = 0: the sample itself). *)
Theorem C74_polynomial pinv h order deriv (a : list R) n t0 dt rate :
  inverts pinv h order -> (order + 2 <= 2 * h + 1)%nat -> (deriv <= order)%nat -> (h < n)%nat -> (length a <= S order)%nat -> rate * dt = 1 ->
  exists out, savitzky_golay pinv (map Fin (map (fun i => poly a (t0 + INR i * dt)) (seq 0 n))) (2 * Z.of_nat h + 1) (Z.of_nat order) (Z.of_nat deriv) (Fin rate)
      = Ok (map Fin out) /\ length out = n /\
    forall i, (h <= i)%nat -> (i + h < n)%nat -> nth i out 0 = derivative a deriv (t0 + INR i * dt).
Proof.
  intros HP Ho Hd Hn La Hr. set (y := map _ (seq 0 n)). assert (Ly : length y = n) by (unfold y; rewrite map_length, seq_length; reflexivity).
  destruct (C74_least_squares pinv h order deriv y rate HP Ho Hd) as (out & E & L & F); [lia|].
  exists out. split; [exact E|]. split; [congruence|]. intros i H1 H2.
  destruct (F i) as (c & Lc & B & ->); [lia|].
  set (t := t0 + INR i * dt).
  set (c0 := map (fun d => derivative a d t / INR (fact d) * dt ^ d) (seq 0 (S order))).
  assert (L0 : length c0 = S order) by (unfold c0; rewrite map_length, seq_length; reflexivity).
  assert (Ec : c = c0).
  { apply (best_exact h order y i); try assumption. apply B; assumption.
    intros k Hk. unfold continued. destruct (Z.ltb_spec (Z.of_nat i + Z.of_nat k - Z.of_nat h) 0); [lia|].
    destruct (Z.ltb_spec (Z.of_nat i + Z.of_nat k - Z.of_nat h) (Z.of_nat (length y))); [|lia].
    unfold y at 1. rewrite nth_seq_map by lia.
    replace (t0 + INR (Z.to_nat (Z.of_nat i + Z.of_nat k - Z.of_nat h)) * dt) with (t + (INR k - INR h) * dt).
    2:{ unfold t. rewrite (INR_IZR_INZ (Z.to_nat _)), Z2Nat.id by lia. rewrite minus_IZR, plus_IZR, <- !INR_IZR_INZ. ring. }
    rewrite taylor. unfold poly. rewrite L0. replace (S order) with (length a + (S order - length a))%nat by lia.
    rewrite total_app. rewrite (total_0 (S order - length a)).
    2:{ intros j Hj. unfold c0. rewrite (nth_seq_map (fun d => derivative a d t / INR (fact d) * dt ^ d)) by lia. rewrite derivative_high by lia. unfold Rdiv. ring. }
    rewrite Rplus_0_r. apply total_ext. intros j Hj. unfold c0. rewrite (nth_seq_map (fun d => derivative a d t / INR (fact d) * dt ^ d)) by lia.
    rewrite Rpow_mult_distr. ring. }
  rewrite Ec, derivative_at_0 by lia. unfold c0. rewrite (nth_seq_map (fun d => derivative a d t / INR (fact d) * dt ^ d)) by lia.
  assert (E1 : rate ^ deriv * dt ^ deriv = 1) by (rewrite <- Rpow_mult_distr, Hr; apply pow1).
  transitivity ((rate ^ deriv * dt ^ deriv) * (INR (fact deriv) / INR (fact deriv) * derivative a deriv t)); [unfold Rdiv; ring|].
  rewrite E1. unfold Rdiv. rewrite Rinv_r by apply INR_fact_neq_0. ring.
Qed.
Print Assumptions C74_polynomial.

(** Smoothing leaves every sample of a non-decreasing straight line alone, also at the ends. *)
Theorem C74_line pinv h order n s t rate :
  inverts pinv h order -> (order + 2 <= 2 * h + 1)%nat -> (1 <= order)%nat -> (h < n)%nat -> 0 <= t ->
  exists out, savitzky_golay pinv (map Fin (map (fun i => s + t * INR i) (seq 0 n))) (2 * Z.of_nat h + 1) (Z.of_nat order) 0 (Fin rate)
      = Ok (map Fin out) /\ length out = n /\ forall i, (i < n)%nat -> nth i out 0 = s + t * INR i.
Proof.
  intros HP Ho H1 Hn Ht. set (y := map _ (seq 0 n)). assert (Ly : length y = n) by (unfold y; rewrite map_length, seq_length; reflexivity).
  destruct (C74_least_squares pinv h order 0 y rate HP Ho) as (out & E & L & F); [lia|lia|].
  exists out. split; [exact E|]. split; [congruence|]. intros i Hi.
  destruct (F i) as (c & Lc & B & ->); [lia|].
  set (c0 := (s + t * INR i) :: t :: repeat 0 (order - 1)).
  assert (L0 : length c0 = S order) by (unfold c0; cbn [length]; rewrite repeat_length; lia).
  assert (Ec : c = c0).
  { apply (best_exact h order y i); try assumption. apply B; assumption.
    intros k Hk.
    assert (Pc : poly c0 (INR k - INR h) = s + t * IZR (Z.of_nat i + Z.of_nat k - Z.of_nat h)).
    { unfold c0. rewrite !poly_cons, poly_zero by (intros z Hz; exact (repeat_spec _ _ _ Hz)).
      rewrite minus_IZR, plus_IZR, <- !INR_IZR_INZ. ring. }
    rewrite Pc. assert (V : forall z, (0 <= z < Z.of_nat n)%Z -> nth (Z.to_nat z) y 0 = s + t * IZR z).
    { intros z Hz. unfold y. rewrite (nth_seq_map (fun i => s + t * INR i)) by lia. rewrite INR_IZR_INZ, Z2Nat.id by lia. reflexivity. }
    unfold continued. rewrite Ly.
    destruct (Z.ltb_spec (Z.of_nat i + Z.of_nat k - Z.of_nat h) 0).
    - rewrite !V by lia. rewrite opp_IZR, Rabs_pos_eq. ring.
      assert (IZR (Z.of_nat i + Z.of_nat k - Z.of_nat h) <= 0) by (apply IZR_le; lia). nra.
    - destruct (Z.ltb_spec (Z.of_nat i + Z.of_nat k - Z.of_nat h) (Z.of_nat n)). apply V; lia.
      rewrite !V by lia. rewrite !minus_IZR, mult_IZR, minus_IZR. rewrite Rabs_left1. ring.
      assert (IZR (Z.of_nat n - 1) <= IZR (Z.of_nat i + Z.of_nat k - Z.of_nat h)) by (apply IZR_le; lia). rewrite !minus_IZR in *. nra. }
  rewrite Ec. cbn [pow]. rewrite derivative_0. unfold c0. rewrite poly_cons. ring.
Qed.
Print Assumptions C74_line.

(** The same is false for a decreasing line: the first number is then wrong. *)
Definition pinv3 (_ : list (list xr)) : list (list xr) := map (map Fin) [[1/3; 1/3; 1/3]; [-1/2; 0; 1/2]].
Lemma pinv3_ok : inverts pinv3 1 1.
Proof.
  exists [[1; -1]; [1; 0]; [1; 1]], [[1/3; 1/3; 1/3]; [-1/2; 0; 1/2]]. repeat split; try reflexivity.
  - intros r [<-|[<-|[<-|[]]]]; reflexivity.
  - intros [|[|[|i]]] [|[|j]] Hi Hj; try lia; unfold powers; cbn; lra.
  - intros r [<-|[<-|[]]]; reflexivity.
  - intros [|[|[|i]]] [|[|j]] Hi Hj; try lia; unfold powers; cbn; lra.
  - intros [|[|i]] [|[|[|j]]] Hi Hj; try lia; unfold powers; cbn; lra.
  - intros [|[|[|i]]] [|[|[|j]]] Hi Hj; try lia; unfold powers; cbn; lra.
  - intros [|[|i]] [|[|j]] Hi Hj; try lia; unfold powers; cbn; lra.
Qed.
Theorem C74_decreasing_refuted :
  inverts pinv3 1 1 /\
  exists out, savitzky_golay pinv3 (map Fin [2; 1; 0]) 3 1 0 (Fin 1) = Ok (map Fin out) /\ nth 0 out 0 = 4 / 3.
Proof.
  split; [exact pinv3_ok|].
  destruct (filter_fin pinv3 1 1 [[1; -1]; [1; 0]; [1; 1]] [[1/3; 1/3; 1/3]; [-1/2; 0; 1/2]] [2; 1; 0] 0 1) as (out & E & _ & F);
    try reflexivity; try (cbn; lia).
  - intros r [<-|[<-|[<-|[]]]]; reflexivity.
  - intros [|[|[|i]]] [|[|j]] Hi Hj; try lia; unfold powers; cbn; lra.
  - intros r [<-|[<-|[]]]; reflexivity.
  - exists out. split; [exact E|]. rewrite F by (cbn; lia). unfold fitted, continued, entry. cbn. 
    change (Pos.to_nat 1) with 1%nat. cbn. rewrite Rabs_left by lra. lra.
Qed.
Print Assumptions C74_decreasing_refuted.

(** Wrong arguments raise: an even window or one smaller than order + 2 TypeError, a derivative of too high an order or an empty signal IndexError,
    a derivative of negative order ZeroDivisionError (rate 0), ValueError (down to - order - 1) or IndexError. *)
Theorem C74_errors pinv (y : list xr) w order deriv rate :
  (Z.even w = true \/ Z.abs w < Z.abs order + 2 -> savitzky_golay pinv y w order deriv rate = Err TypeError)%Z /\
  (forall h, w = 2 * Z.of_nat h + 1 -> 0 <= order -> order + 2 <= w -> inverts pinv h (Z.to_nat order) ->
     (order < deriv \/ (0 <= deriv /\ y = [])) -> savitzky_golay pinv y w order deriv rate = Err IndexError)%Z /\
  (forall h, w = 2 * Z.of_nat h + 1 -> 0 <= order -> order + 2 <= w -> inverts pinv h (Z.to_nat order) -> deriv < 0 ->
     savitzky_golay pinv y w order deriv rate = Err (if (deriv <? - order - 1)%Z then IndexError else if neqb rate (Fin 0) then ZeroDivisionError else ValueError))%Z.
Proof.
  split; [|split].
  - intros H. unfold savitzky_golay.
    destruct (Z.eqb_spec (Z.abs w mod 2) 1) as [E|E]; cbn [negb orb]; [|reflexivity].
    destruct (Z.ltb_spec (Z.abs w) 1); [reflexivity|]. destruct H as [H|H].
    + rewrite Zmod_even in E. assert (Z.even (Z.abs w) = true) by (destruct (Z.abs_eq_or_opp w) as [-> | -> ]; rewrite ?Z.even_opp; assumption).
      rewrite H1 in E. discriminate.
    + destruct (Z.ltb_spec (Z.abs w) (Z.abs order + 2)); [reflexivity|lia].
  - intros h -> Ho Hw (A & P & LA & LA' & EA & EP & LP & LP' & MP) H. unfold savitzky_golay.
    rewrite !Z.abs_eq by lia.
    replace ((2 * Z.of_nat h + 1) mod 2)%Z with 1%Z by (rewrite Z.add_comm, Z.mul_comm, Z_mod_plus_full; reflexivity).
    destruct (Z.ltb_spec (2 * Z.of_nat h + 1) 1); [lia|]. cbn [Z.eqb Pos.eqb negb orb].
    destruct (Z.ltb_spec (2 * Z.of_nat h + 1) (order + 2)); [lia|].
    replace (Z.to_nat ((2 * Z.of_nat h + 1 - 1) / 2)) with h
      by (replace (2 * Z.of_nat h + 1 - 1)%Z with (Z.of_nat h * 2)%Z by lia; rewrite Z_div_mult_full, Nat2Z.id by lia; reflexivity).
    rewrite (vander_fin h (Z.to_nat order) A LA LA' EA), EP, map_length, LP.
    destruct (Z.leb_spec (Z.of_nat (S (Z.to_nat order))) deriv); [reflexivity|]. destruct H as [H|[H ->]]; [lia|].
    destruct (Z.ltb_spec deriv (- Z.of_nat (S (Z.to_nat order)))); [reflexivity|]. cbn [orb].
    destruct (Z.ltb_spec deriv 0); [lia|reflexivity].
  - intros h -> Ho Hw (A & P & LA & LA' & EA & EP & LP & LP' & MP) H. unfold savitzky_golay.
    rewrite !Z.abs_eq by lia.
    replace ((2 * Z.of_nat h + 1) mod 2)%Z with 1%Z by (rewrite Z.add_comm, Z.mul_comm, Z_mod_plus_full; reflexivity).
    destruct (Z.ltb_spec (2 * Z.of_nat h + 1) 1); [lia|]. cbn [Z.eqb Pos.eqb negb orb].
    destruct (Z.ltb_spec (2 * Z.of_nat h + 1) (order + 2)); [lia|].
    replace (Z.to_nat ((2 * Z.of_nat h + 1 - 1) / 2)) with h
      by (replace (2 * Z.of_nat h + 1 - 1)%Z with (Z.of_nat h * 2)%Z by lia; rewrite Z_div_mult_full, Nat2Z.id by lia; reflexivity).
    rewrite (vander_fin h (Z.to_nat order) A LA LA' EA), EP, map_length, LP.
    destruct (Z.leb_spec (Z.of_nat (S (Z.to_nat order))) deriv); [lia|].
    replace (- Z.of_nat (S (Z.to_nat order)))%Z with (- order - 1)%Z by lia. cbn [orb].
    destruct (Z.ltb_spec deriv (- order - 1)); [reflexivity|]. destruct (Z.ltb_spec deriv 0); [|lia]. rewrite nofZ_fin. destruct (neqb rate (Fin 0)); reflexivity.
Qed.
Print Assumptions C74_errors.

(** the classical five-point quadratic filter meets the hypotheses *)
Definition pinv5 (_ : list (list xr)) : list (list xr) :=
  map (map Fin) [[-3/35; 12/35; 17/35; 12/35; -3/35]; [-2/10; -1/10; 0; 1/10; 2/10]; [2/14; -1/14; -2/14; -1/14; 2/14]].
Example C74_hyp : inverts pinv5 2 2 /\ (2 + 2 <= 2 * 2 + 1)%nat /\ (1 <= 2)%nat /\ (2 < length [1; 4; 2; 8; 5; 7])%nat.
Proof.
  split; [|cbn; lia].
  exists [[1; -2; 4]; [1; -1; 1]; [1; 0; 0]; [1; 1; 1]; [1; 2; 4]],
         [[-3/35; 12/35; 17/35; 12/35; -3/35]; [-2/10; -1/10; 0; 1/10; 2/10]; [2/14; -1/14; -2/14; -1/14; 2/14]].
  repeat split; try reflexivity.
  - intros r [<-|[<-|[<-|[<-|[<-|[]]]]]]; reflexivity.
  - intros [|[|[|[|[|i]]]]] [|[|[|j]]] Hi Hj; try lia; unfold powers; cbn; lra.
  - intros r [<-|[<-|[<-|[]]]]; reflexivity.
  - intros [|[|[|[|[|i]]]]] [|[|[|j]]] Hi Hj; try lia; unfold powers; cbn; lra.
  - intros [|[|[|i]]] [|[|[|[|[|j]]]]] Hi Hj; try lia; unfold powers; cbn; lra.
  - intros [|[|[|[|[|i]]]]] [|[|[|[|[|j]]]]] Hi Hj; try lia; unfold powers; cbn; lra.
  - intros [|[|[|i]]] [|[|[|j]]] Hi Hj; try lia; unfold powers; cbn; lra.
Qed.
