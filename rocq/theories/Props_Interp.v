(** C80: interpolation on a double logarithmic scale. *)
From Coq Require Import Reals ZArith List Bool Arith Lia Lra Psatz.
From Verif Require Import PyErr Num Vec XReal General ElemXr Helpers Props_Fermi.
Import ListNotations.
Local Open Scope R_scope.

(* ---- specification ---- *)
Definition strictly_increasing (l : list R) : Prop := forall i, (S i < length l)%nat -> nth i l 0 < nth (S i) l 0.
Definition all_positive (l : list R) : Prop := forall x, In x l -> 0 < x.
(** z belongs to the i-th piece of the curve; the first and the last piece extend to 0 and to infinity *)
Definition piece (xs : list R) (i : nat) (z : R) : Prop :=
  (S i < length xs)%nat /\ (i = 0%nat \/ nth i xs 0 <= z) /\ (S (S i) = length xs \/ z <= nth (S i) xs 0).
(** the point (z, v) is on the straight line through two points of the double logarithmic plot *)
Definition on_chord (x0 y0 x1 y1 z v : R) : Prop := ln v = ln y0 + (ln y1 - ln y0) * ((ln z - ln x0) / (ln x1 - ln x0)).

(* ---- lemmas ---- *)
Definition lg (x : R) : R := ln x / ln 10.
Lemma ln10_pos : 0 < ln 10. Proof. rewrite <- ln_1. apply ln_increasing; lra. Qed.
Lemma lg_lt x y : 0 < x -> x < y -> lg x < lg y.
Proof. intros. unfold lg. apply Rmult_lt_compat_r; [apply Rinv_0_lt_compat, ln10_pos|]. apply ln_increasing; lra. Qed.
Lemma lg_le x y : 0 < x -> x <= y -> lg x <= lg y.
Proof. intros H [K|K]; [left; apply lg_lt; assumption|right; congruence]. Qed.
Lemma ln_lg x : ln x = ln 10 * lg x. Proof. unfold lg. field. apply Rgt_not_eq, ln10_pos. Qed.
Lemma np_log10_pos x : 0 < x -> np_log10 (Fin x) = Ok (Fin (lg x)).
Proof.
  intros H. unfold np_log10. rewrite (nofZ_fin 0), nlt_fin, (Rltb_false x 0), neqb_fin, (Reqb_false x 0) by lra. unfold nlog10. cbn [Elem_xr].
  destruct (Rlt_dec 0 x); [reflexivity|contradiction].
Qed.
Lemma mapM_log l : all_positive l -> mapM np_log10 (map Fin l) = Ok (map Fin (map lg l)).
Proof.
  intros H. induction l as [|x l IH]; [reflexivity|]. cbn [map mapM]. rewrite np_log10_pos by (apply H; left; reflexivity). cbn [bind]. rewrite IH by (intros y K; apply H; right; assumption). reflexivity.
Qed.
Lemma increasing_lg l : all_positive l -> (increasing (map Fin (map lg l)) = true <-> strictly_increasing l).
Proof.
  induction l as [|x l IH]; intros H; [split; [intros _ i K; cbn in K; lia|reflexivity]|].
  assert (P : all_positive l) by (intros y K; apply H; right; assumption). specialize (IH P). destruct l as [|y l]; [split; [intros _ i K; cbn in K; lia|reflexivity]|].
  cbn [map] in *. change (increasing (Fin (lg x) :: Fin (lg y) :: map Fin (map lg l))) with (ngt (nsub (Fin (lg y)) (Fin (lg x))) (nofZ 0) && increasing (Fin (lg y) :: map Fin (map lg l))).
  rewrite nsub_fin, (nofZ_fin 0), ngt_fin, andb_true_iff, IH. assert (Hx : 0 < x) by (apply H; left; reflexivity). assert (Hy : 0 < y) by (apply H; right; left; reflexivity).
  assert (E : Rltb 0 (lg y - lg x) = true <-> x < y).
  { split; [|intros K; apply Rltb_true; pose proof (lg_lt x y Hx K); lra]. intros K. apply Rnot_le_lt. intros L. pose proof (lg_le y x Hy L). destruct (Rltb_spec 0 (lg y - lg x)); [lra|discriminate]. }
  rewrite E. split.
  - intros [A B] [|i] K; cbn in *; [assumption|]. apply (B i). cbn [length]. lia.
  - intros A. split; [apply (A 0%nat); cbn; lia|]. intros i K. apply (A (S i)). cbn in *. lia.
Qed.
Lemma finite_fin l : forallb (@finite xr _) (map Fin l) = true.
Proof. induction l; [reflexivity|]. cbn [map forallb]. rewrite IHl. unfold finite. rewrite nsub_fin, (nofZ_fin 0), neqb_fin, Reqb_true by lra. reflexivity. Qed.

Definition lgp (p : R * R) : xr * xr := (Fin (lg (fst p)), Fin (lg (snd p))).
Definition d0 : R * R := (0, 0).
Definition rising (l : list (R * R)) : Prop := (forall p, In p l -> 0 < fst p) /\ forall i, (S i < length l)%nat -> fst (nth i l d0) < fst (nth (S i) l d0).
Lemma rising_tl p l : rising (p :: l) -> rising l.
Proof. intros [A B]. split; [intros q K; apply A; right; assumption|]. intros i K. apply (B (S i)). cbn. lia. Qed.
Lemma rising_le l : rising l -> forall i j, (i <= j)%nat -> (j < length l)%nat -> fst (nth i l d0) <= fst (nth j l d0).
Proof. intros [_ B] i j H. induction H as [|j H IH]; intros K; [lra|]. specialize (B j K). specialize (IH ltac:(lia)). lra. Qed.
Definition lin (p q : R * R) (z : R) : R := lg (snd p) + (lg (snd q) - lg (snd p)) * ((lg z - lg (fst p)) / (lg (fst q) - lg (fst p))).
Lemma chord_lin p q z : lg (fst p) < lg (fst q) -> chord (lgp p) (lgp q) (Fin (lg z)) = Fin (lin p q z).
Proof.
  intros H. unfold chord, lgp. cbn [fst snd]. rewrite nsub_fin, (nofZ_fin 1), ndiv_fin by lra. rewrite !nsub_fin, !nmul_fin, nadd_fin. f_equal. unfold lin. field. lra.
Qed.
Lemma spline_pieces pts : forall p q z, rising (p :: q :: pts) -> 0 < z -> exists s, spline1 (lgp p) (map lgp (q :: pts)) (Fin (lg z)) = Fin s /\
  forall i, (S i < length (p :: q :: pts))%nat -> (i = 0%nat \/ fst (nth i (p :: q :: pts) d0) <= z) -> (S (S i) = length (p :: q :: pts) \/ z <= fst (nth (S i) (p :: q :: pts) d0)) ->
    s = lin (nth i (p :: q :: pts) d0) (nth (S i) (p :: q :: pts) d0) z.
Proof.
  induction pts as [|r pts IH]; intros p q z HR Hz.
  - assert (L : lg (fst p) < lg (fst q)) by (apply lg_lt; [apply HR; left; reflexivity|apply (proj2 HR 0%nat); cbn; lia]).
    exists (lin p q z). cbn [map spline1]. rewrite chord_lin by assumption. split; [reflexivity|]. intros [|i] K _ _; [reflexivity|cbn in K; lia].
  - assert (Pp : 0 < fst p) by (apply HR; left; reflexivity). assert (Pq : 0 < fst q) by (apply HR; right; left; reflexivity).
    assert (Lpq : fst p < fst q) by (apply (proj2 HR 0%nat); cbn; lia). assert (Lqr : fst q < fst r) by (apply (proj2 HR 1%nat); cbn; lia).
    assert (L : lg (fst p) < lg (fst q)) by (apply lg_lt; assumption). assert (L' : lg (fst q) < lg (fst r)) by (apply lg_lt; assumption).
    cbn [map]. change (spline1 (lgp p) (lgp q :: lgp r :: map lgp pts) (Fin (lg z))) with (if nle (fst (lgp q)) (Fin (lg z)) then spline1 (lgp q) (map lgp (r :: pts)) (Fin (lg z)) else chord (lgp p) (lgp q) (Fin (lg z))).
    unfold lgp at 1. cbn [fst]. rewrite nle_fin. destruct (Rleb_spec (lg (fst q)) (lg z)) as [C|C].
    + assert (Cz : fst q <= z). { apply Rnot_lt_le. intros K. pose proof (lg_lt z (fst q) Hz K). lra. }
      destruct (IH q r z (rising_tl _ _ HR) Hz) as (s & E & V). exists s. split; [exact E|]. intros [|i] K1 K2 K3.
      * cbn [nth] in *. destruct K3 as [K3|K3]; [cbn in K3; lia|]. assert (z = fst q) by lra. subst z.
        rewrite (V 0%nat); [|cbn; lia|left; reflexivity|right; cbn; lra]. cbn [nth]. unfold lin. field. split; lra.
      * apply (V i); [cbn in *; lia| |cbn [length] in *; destruct K3 as [K3|K3]; [left; lia|right; exact K3]]. destruct K2 as [K2|K2]; [lia|]. destruct i; [left; reflexivity|right; exact K2].
    + assert (Cz : z < fst q). { apply Rnot_le_lt. intros K. pose proof (lg_le (fst q) z Pq K). lra. }
      exists (lin p q z). rewrite chord_lin by assumption. split; [reflexivity|]. intros [|i] K1 K2 K3; [reflexivity|]. exfalso. destruct K2 as [K2|K2]; [lia|].
      pose proof (rising_le _ HR 1 (S i) ltac:(lia) ltac:(lia)) as K. cbn [nth] in K, K2. lra.
Qed.
Lemma combine_fin xs : forall ys, combine (map Fin (map lg xs)) (map Fin (map lg ys)) = map lgp (combine xs ys).
Proof. induction xs; intros [|y ys]; cbn; try reflexivity. rewrite IHxs. reflexivity. Qed.
Lemma ln_lin p q z s : lg (fst p) < lg (fst q) -> s = lin p q z -> ln (Rpower 10 s) = ln (snd p) + (ln (snd q) - ln (snd p)) * ((ln z - ln (fst p)) / (ln (fst q) - ln (fst p))).
Proof.
  intros H ->. rewrite ln_Rpower || (unfold Rpower; rewrite ln_exp). rewrite !(ln_lg z), !(ln_lg (fst p)), !(ln_lg (fst q)), !(ln_lg (snd p)), !(ln_lg (snd q)). unfold lin. pose proof ln10_pos. field. split; nra || lra.
Qed.

(** C80: the interpolating function is defined for every positive z, positive there, and straight between neighbouring points of the double logarithmic plot; the
    end pieces are continued. *)
Theorem C80_value : forall xs ys, length xs = length ys -> (2 <= length xs)%nat -> strictly_increasing xs -> all_positive xs -> all_positive ys ->
  exists f, log_interp1d (map Fin xs) (map Fin ys) = Ok f /\ forall z, 0 < z -> exists v, f (Fin z) = Ok (Fin v) /\ 0 < v /\
    forall i, piece xs i z -> on_chord (nth i xs 0) (nth i ys 0) (nth (S i) xs 0) (nth (S i) ys 0) z v.
Proof.
  intros xs ys HL H2 HI Px Py. unfold log_interp1d. rewrite !mapM_log by assumption. cbn [bind]. rewrite (proj2 (increasing_lg xs Px) HI), !map_length, HL, Nat.eqb_refl, !finite_fin. cbn [negb andb].
  rewrite combine_fin. assert (R : rising (combine xs ys)).
  { split; [intros (x, y) K; apply in_combine_l in K; apply Px; exact K|]. intros i K. rewrite combine_length, <- HL, Nat.min_id in K. unfold d0. rewrite !combine_nth by assumption. apply HI. exact K. }
  assert (LC : length (combine xs ys) = length xs) by (rewrite combine_length, <- HL; apply Nat.min_id).
  assert (CN : forall i, nth i (combine xs ys) d0 = (nth i xs 0, nth i ys 0)) by (intros i; apply combine_nth; assumption).
  destruct (combine xs ys) as [|p [|q pts]]; cbn [length] in LC; try lia. cbn [map]. eexists. split; [reflexivity|]. intros z Hz. cbn beta. rewrite np_log10_pos by assumption. cbn [bind].
  destruct (spline_pieces pts p q z R Hz) as (s & E & V). change (map lgp (q :: pts)) with (lgp q :: map lgp pts) in E. rewrite E. rewrite (nofZ_fin 10). unfold npow. cbn [Elem_xr]. rewrite xpow_pos by lra.
  exists (Rpower 10 s). split; [reflexivity|]. split; [apply exp_pos|]. intros i (K1 & K2 & K3). unfold on_chord.
  specialize (V i). cbn [length] in V. rewrite LC, !CN in V. specialize (V K1 K2 K3). cbn [fst] in *.
  apply (ln_lin (nth i xs 0, nth i ys 0) (nth (S i) xs 0, nth (S i) ys 0)); [|exact V]. cbn [fst]. apply lg_lt; [apply Px, nth_In; lia|apply HI; exact K1].
Qed.
Print Assumptions C80_value.

Lemma piece_exists xs z : (2 <= length xs)%nat -> exists i, piece xs i z.
Proof.
  intros H. assert (G : forall k, (S k < length xs)%nat -> (exists i, piece xs i z) \/ (k = 0%nat \/ nth k xs 0 <= z)).
  { induction k as [|k IH]; intros K; [right; left; reflexivity|]. destruct (IH ltac:(lia)) as [E|E]; [left; exact E|].
    destruct (Rle_dec (nth (S k) xs 0) z) as [L|L]; [right; right; exact L|]. left. exists k. split; [lia|]. split; [exact E|]. right. lra. }
  destruct (G (length xs - 2)%nat ltac:(lia)) as [E|E]; [exact E|]. exists (length xs - 2)%nat. split; [lia|]. split; [exact E|]. left. lia.
Qed.
Lemma incr_lt xs : strictly_increasing xs -> forall i j, (i < j)%nat -> (j < length xs)%nat -> nth i xs 0 < nth j xs 0.
Proof. intros H i j L. induction L as [|j L IH]; intros K; [apply H; exact K|]. specialize (H j K). specialize (IH ltac:(lia)). lra. Qed.

(** C80: the curve passes through the points, stays between neighbouring points, reproduces power laws everywhere, and rises if the points do. *)
Theorem C80_curve : forall xs ys, length xs = length ys -> (2 <= length xs)%nat -> strictly_increasing xs -> all_positive xs -> all_positive ys ->
  exists f, log_interp1d (map Fin xs) (map Fin ys) = Ok f /\
  (forall i, (i < length xs)%nat -> f (Fin (nth i xs 0)) = Ok (Fin (nth i ys 0))) /\
  (forall i z, (S i < length xs)%nat -> nth i xs 0 <= z <= nth (S i) xs 0 -> exists v, f (Fin z) = Ok (Fin v) /\ Rmin (nth i ys 0) (nth (S i) ys 0) <= v <= Rmax (nth i ys 0) (nth (S i) ys 0)) /\
  (forall A e, 0 < A -> (forall i, (i < length xs)%nat -> nth i ys 0 = A * Rpower (nth i xs 0) e) -> forall z, 0 < z -> f (Fin z) = Ok (Fin (A * Rpower z e))) /\
  (strictly_increasing ys -> forall z z', 0 < z < z' -> exists v v', f (Fin z) = Ok (Fin v) /\ f (Fin z') = Ok (Fin v') /\ v < v').
Proof.
  intros xs ys HL H2 HI Px Py. destruct (C80_value xs ys HL H2 HI Px Py) as (f & E & V). exists f. split; [exact E|].
  assert (PX : forall i, (i < length xs)%nat -> 0 < nth i xs 0) by (intros; apply Px, nth_In; assumption).
  assert (PY : forall i, (i < length xs)%nat -> 0 < nth i ys 0) by (intros; apply Py, nth_In; lia).
  assert (LX : forall i, (S i < length xs)%nat -> ln (nth i xs 0) < ln (nth (S i) xs 0)) by (intros; apply ln_increasing; [apply PX; lia|apply HI; assumption]).
  assert (N : forall i, (i < length xs)%nat -> f (Fin (nth i xs 0)) = Ok (Fin (nth i ys 0))).
  { intros i Hi. destruct (V (nth i xs 0) (PX i Hi)) as (v & Ev & Pv & Q). rewrite Ev. do 2 f_equal. apply ln_inv; [assumption|apply PY; assumption|].
    destruct (le_lt_dec (length xs) (S i)) as [L|L].
    - destruct i as [|i]; [lia|]. rewrite (Q i). 2:{ split; [lia|]. split; [right; left; apply HI; lia|left; lia]. } specialize (LX i ltac:(lia)). field. lra.
    - rewrite (Q i). 2:{ split; [lia|]. split; [right; lra|]. right. left. apply HI. lia. } specialize (LX i ltac:(lia)). field. lra. }
  split; [exact N|]. split; [|split].
  - intros i z Hi Hz. assert (Pz : 0 < z) by (specialize (PX i ltac:(lia)); lra). destruct (V z Pz) as (v & Ev & Pv & Q). exists v. split; [exact Ev|].
    assert (QQ : piece xs i z) by (split; [lia|]; split; right; lra). specialize (Q i QQ). unfold on_chord in Q.
    specialize (LX i Hi). set (w := (ln z - ln (nth i xs 0)) / (ln (nth (S i) xs 0) - ln (nth i xs 0))) in *.
    assert (W : 0 <= w <= 1).
    { assert (A1 : ln (nth i xs 0) <= ln z) by (destruct (proj1 Hz) as [K|K]; [left; apply ln_increasing; [apply PX; lia|exact K]|rewrite K; lra]).
      assert (A2 : ln z <= ln (nth (S i) xs 0)) by (destruct (proj2 Hz) as [K|K]; [left; apply ln_increasing; [exact Pz|exact K]|rewrite K; lra]).
      unfold w. split; [apply Rmult_le_pos; [lra|left; apply Rinv_0_lt_compat; lra]|]. apply Rmult_le_reg_r with (ln (nth (S i) xs 0) - ln (nth i xs 0)); [lra|]. unfold Rdiv. rewrite Rmult_assoc, Rinv_l by lra. lra. }
    pose proof (PY i ltac:(lia)) as Y0. pose proof (PY (S i) ltac:(lia)) as Y1.
    assert (LE : forall a b, 0 < a -> 0 < b -> ln a <= ln b -> a <= b).
    { intros a b Ha Hb K. apply Rnot_lt_le. intros K'. apply ln_increasing in K'; [lra|assumption]. }
    unfold Rmin, Rmax. destruct (Rle_dec (nth i ys 0) (nth (S i) ys 0)) as [K|K].
    + assert (LY : ln (nth i ys 0) <= ln (nth (S i) ys 0)) by (destruct K as [K|K]; [left; apply ln_increasing; assumption|rewrite K; lra]). split; apply LE; try assumption; nra.
    + assert (LY : ln (nth (S i) ys 0) < ln (nth i ys 0)) by (apply ln_increasing; lra). split; apply LE; try assumption; nra.
  - intros A e HA HP z Hz. destruct (V z Hz) as (v & Ev & Pv & Q). rewrite Ev. do 2 f_equal. apply ln_inv; [assumption|apply Rmult_lt_0_compat; [assumption|apply exp_pos]|].
    destruct (piece_exists xs z H2) as (i & Hi). rewrite (Q i Hi). destruct Hi as (Hi & _). rewrite !HP by lia. rewrite !ln_mult by (assumption || apply exp_pos). unfold Rpower. rewrite !ln_exp. specialize (LX i Hi). field. lra.
  - intros IY z z' (Hz & Hzz). destruct (V z Hz) as (v & Ev & Pv & Q). destruct (V z' ltac:(lra)) as (v' & Ev' & Pv' & Q'). exists v, v'. split; [exact Ev|]. split; [exact Ev'|].
    destruct (piece_exists xs z H2) as (i & Hi). destruct (piece_exists xs z' H2) as (j & Hj). specialize (Q i Hi). specialize (Q' j Hj). unfold on_chord in Q, Q'.
    destruct Hi as (I1 & I2 & I3). destruct Hj as (J1 & J2 & J3).
    assert (SL : forall i, (S i < length xs)%nat -> exists m, 0 < m /\ forall t, ln (nth i ys 0) + (ln (nth (S i) ys 0) - ln (nth i ys 0)) * ((t - ln (nth i xs 0)) / (ln (nth (S i) xs 0) - ln (nth i xs 0))) = ln (nth i ys 0) + m * (t - ln (nth i xs 0)) /\
       ln (nth i ys 0) + m * (t - ln (nth i xs 0)) = ln (nth (S i) ys 0) + m * (t - ln (nth (S i) xs 0))).
    { intros k Hk. specialize (LX k Hk). assert (LY : ln (nth k ys 0) < ln (nth (S k) ys 0)) by (apply ln_increasing; [apply PY; lia|apply IY; lia]).
      exists ((ln (nth (S k) ys 0) - ln (nth k ys 0)) / (ln (nth (S k) xs 0) - ln (nth k xs 0))). split; [apply Rmult_lt_0_compat; [lra|apply Rinv_0_lt_compat; lra]|]. intros t. split; field; lra. }
    assert (LZ : ln z < ln z') by (apply ln_increasing; assumption).
    apply ln_lt_inv; try assumption. rewrite Q, Q'. destruct (SL i I1) as (m & Hm & S1). destruct (SL j J1) as (m' & Hm' & S2). destruct (S1 (ln z)) as [A1 A2]. destruct (S2 (ln z')) as [B1 B2]. rewrite A1, B1.
    destruct (lt_eq_lt_dec i j) as [[L|L]|L].
    + destruct I3 as [I3|I3]; [lia|]. destruct J2 as [J2|J2]; [lia|]. rewrite A2.
      assert (X : nth (S i) xs 0 <= nth j xs 0) by (destruct (Nat.eq_dec (S i) j) as [<-|]; [lra|left; apply incr_lt; [assumption|lia|lia]]).
      assert (Y : ln (nth (S i) ys 0) <= ln (nth j ys 0)) by (destruct (Nat.eq_dec (S i) j) as [<-|]; [lra|left; apply ln_increasing; [apply PY; lia|apply incr_lt; [assumption|lia|lia]]]).
      assert (C1 : ln z <= ln (nth (S i) xs 0)) by (destruct I3 as [K|K]; [left; apply ln_increasing; assumption|rewrite K; lra]).
      assert (C2 : ln (nth j xs 0) <= ln z') by (destruct J2 as [K|K]; [left; apply ln_increasing; [apply PX; lia|assumption]|rewrite K; lra]).
      destruct (Req_dec (ln z) (ln (nth (S i) xs 0))) as [EQ|NE].
      * assert (C3 : ln (nth (S i) xs 0) < ln z') by lra.
        destruct (Nat.eq_dec (S i) j) as [<-|NJ]; [nra|]. assert (Y' : ln (nth (S i) ys 0) < ln (nth j ys 0)) by (apply ln_increasing; [apply PY; lia|apply incr_lt; [assumption|lia|lia]]). nra.
      * nra.
    + subst j. destruct (S1 (ln z')) as [B1' _]. rewrite B1 in B1'. nra.
    + exfalso. destruct I2 as [I2|I2]; [lia|]. destruct J3 as [J3|J3]; [lia|].
      assert (X : nth (S j) xs 0 <= nth i xs 0) by (destruct (Nat.eq_dec (S j) i) as [<-|]; [lra|left; apply incr_lt; [assumption|lia|lia]]). lra.
Qed.
Print Assumptions C80_curve.

(** C80: unless the xs are strictly increasing and not negative, ValueError is raised. *)
Theorem C80_error : forall xs ys i, (S i < length xs)%nat -> (nth (S i) xs 0 <= nth i xs 0 \/ nth i xs 0 < 0 \/ nth (S i) xs 0 < 0) ->
  log_interp1d (map Fin xs) (map Fin ys) = Err ValueError.
Proof.
  intros xs ys i Hi H. set (g := fun x => if Rlt_dec x 0 then XNaN else if Req_EM_T x 0 then NInf else Fin (lg x)).
  assert (G : forall x, np_log10 (Fin x) = Ok (g x)).
  { intros x. unfold g. destruct (Rlt_dec x 0) as [L|L].
    - unfold np_log10. rewrite (nofZ_fin 0), nlt_fin, (Rltb_true x 0) by lra. do 2 f_equal. unfold ndiv. cbn. destruct (Req_EM_T 0 0); [|lra]. destruct (Rlt_dec 0 0); [lra|]. reflexivity.
    - destruct (Req_EM_T x 0) as [->|N]; [|apply np_log10_pos; lra]. unfold np_log10. rewrite (nofZ_fin 0), nlt_fin, (Rltb_false 0 0), neqb_fin, (Reqb_true 0 0) by lra. do 2 f_equal. unfold ndiv, nopp, nofZ. cbn. destruct (Req_EM_T 0 0); [|lra]. destruct (Rlt_dec 0 1); [|lra]. reflexivity. }
  assert (M : forall l, mapM np_log10 (map Fin l) = Ok (map g l)) by (induction l as [|x l IH]; [reflexivity|]; cbn [map mapM]; rewrite G; cbn [bind]; rewrite IH; reflexivity).
  unfold log_interp1d. rewrite !M. cbn [bind]. assert (F : increasing (map g xs) = false); [|rewrite F; reflexivity]. clear M.
  revert i Hi H. induction xs as [|x xs IH]; intros i Hi H; [cbn in Hi; lia|]. destruct xs as [|y xs]; [cbn in Hi; lia|].
  change (increasing (map g (x :: y :: xs))) with (ngt (nsub (g y) (g x)) (nofZ 0) && increasing (map g (y :: xs))). destruct i as [|i].
  - cbn [nth] in H. assert (B : ngt (nsub (g y) (g x)) (nofZ 0) = false); [|rewrite B; reflexivity]. unfold g.
    destruct (Rlt_dec y 0); [reflexivity|]. destruct (Rlt_dec x 0); [destruct (Req_EM_T y 0); reflexivity|]. destruct (Req_EM_T y 0).
    + destruct (Req_EM_T x 0); reflexivity.
    + destruct (Req_EM_T x 0); [exfalso; lra|]. rewrite nsub_fin, (nofZ_fin 0), ngt_fin. apply Rltb_false. assert (lg y <= lg x) by (apply lg_le; lra). lra.
  - rewrite (IH i); [apply andb_false_r|cbn [length] in *; lia|exact H].
Qed.
Print Assumptions C80_error.

Example C80_hyp : strictly_increasing [1; 2; 5] /\ all_positive [1; 2; 5] /\ all_positive [3; 1; 4].
Proof.
  split; [|split; intros x H; cbn in H; destruct H as [<-|[<-|[<-|[]]]]; lra].
  intros [|[|i]] H; cbn in *; lra || lia.
Qed.
