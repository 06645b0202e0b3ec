(** Rounding errors of the vector operations in binary64. *)
From Coq Require Import ZArith Reals Floats.SpecFloat Lia Lra Bool.
From Flocq Require Import Core IEEE754.BinarySingleNaN Relative.
From Verif Require Import PyErr Num Vec Spec RVec FloatInst FloatReal.
Local Open Scope R_scope.

(** half an ulp of 1, and half the least positive number *)
Definition eps64 : R := 1 / 9007199254740992.
Definition eta64 : R := bpow radix2 (-1075).
Lemma eps64_bpow : eps64 = bpow radix2 (-53).
Proof. unfold eps64. change (bpow radix2 (-53)) with (/ IZR (2 ^ 53)). change (2 ^ 53)%Z with 9007199254740992%Z. lra. Qed.
Lemma eta64_pos : 0 < eta64. Proof. apply bpow_gt_0. Qed.
Lemma eta64_tiny k : (-1000 <= k)%Z -> eta64 <= bpow radix2 k * eps64 / 1000000.
Proof.
  intros H. unfold eta64. rewrite eps64_bpow. apply Rle_trans with (bpow radix2 k * bpow radix2 (-53) * bpow radix2 (-20)).
  - rewrite <- !bpow_plus. apply bpow_le. lia.
  - unfold Rdiv. apply Rmult_le_compat_l; [apply Rmult_le_pos; apply bpow_ge_0|]. change (bpow radix2 (-20)) with (/ 1048576). lra.
Qed.
(** the error of one operation *)
Lemma RN_err a : Rabs (RN a - a) <= eps64 * Rabs a + eta64.
Proof.
  destruct (Rle_or_lt (bpow radix2 (-1022)) (Rabs a)) as [H|H].
  - destruct (RN_rel a H) as (e & B & E). rewrite E. replace (a * (1 + e) - a) with (e * a) by ring. rewrite Rabs_mult, eps64_bpow.
    pose proof eta64_pos. assert (Rabs e * Rabs a <= bpow radix2 (-53) * Rabs a) by (apply Rmult_le_compat_r; [apply Rabs_pos|exact B]). lra.
  - assert (K := RN_error a (-1021) ltac:(lia)). pose proof (bpow_lt radix2 (-1022) (-1021) ltac:(lia)). specialize (K ltac:(lra)).
    change (-1021 - 54)%Z with (-1075)%Z in K. unfold eta64. assert (0 <= eps64 * Rabs a) by (apply Rmult_le_pos; [unfold eps64; lra|apply Rabs_pos]). lra.
Qed.
Lemma RN_errp a : 0 <= a -> Rabs (RN a - a) <= eps64 * a + eta64.
Proof. intros H. rewrite <- (Rabs_pos_eq a H) at 3. apply RN_err. Qed.
Lemma RN_pos a : 0 <= a -> 0 <= RN a. Proof. intros H. rewrite <- RN_0. apply RN_le. exact H. Qed.
Lemma RN_upper a k : (-1074 <= k)%Z -> a <= bpow radix2 k -> RN a <= bpow radix2 k.
Proof. intros K H. rewrite <- (RN_bpow k K). apply RN_le. exact H. Qed.
Lemma RN_abs_le a k : (-1074 <= k)%Z -> Rabs a <= bpow radix2 k -> Rabs (RN a) <= bpow radix2 k.
Proof.
  intros K H. apply Rabs_le_inv in H. apply Rabs_le. split; [|apply RN_upper; [exact K|lra]].
  rewrite <- (RN_fix (- bpow radix2 k)) by (apply generic_format_opp, generic_format_bpow; unfold fexp64, FLT_exp; lia). apply RN_le. lra.
Qed.
Lemma below_huge a k : (k < 1024)%Z -> Rabs a <= bpow radix2 k -> Rabs a < huge.
Proof. intros K H. eapply Rle_lt_trans; [exact H|]. apply bpow_lt. exact K. Qed.
Lemma RN_huge a k : (-1074 <= k < 1024)%Z -> Rabs a <= bpow radix2 k -> Rabs (RN a) < huge.
Proof. intros K H. apply (below_huge _ k); [lia|]. apply RN_abs_le; [lia|exact H]. Qed.
Lemma sq_bpow a k : Rabs a <= bpow radix2 k -> a * a <= bpow radix2 (k + k).
Proof. intros H. rewrite bpow_plus. rewrite <- (Rabs_pos_eq (a * a)) by nra. rewrite Rabs_mult. apply Rmult_le_compat; try apply Rabs_pos; exact H. Qed.

(** the square of the norm *)
Lemma dot_self64 x y z a b c : isr x a -> isr y b -> isr z c -> Rabs a <= bpow radix2 500 -> Rabs b <= bpow radix2 500 -> Rabs c <= bpow radix2 500 ->
  bpow radix2 (-1000) <= a * a + b * b + c * c ->
  exists s, isr (dot (V x y z) (V x y z)) s /\ Rabs (s - (a * a + b * b + c * c)) <= 3.01 * eps64 * (a * a + b * b + c * c).
Proof.
  intros Ha Hb Hc La Lb Lc LS. apply sq_bpow in La, Lb, Lc. change (500 + 500)%Z with 1000%Z in *.
  pose proof (eta64_tiny (-1000) ltac:(lia)) as T. pose proof eta64_pos as T0.
  set (A := a * a) in *. set (B := b * b) in *. set (C := c * c) in *. assert (PA : 0 <= A) by (unfold A; nra). assert (PB : 0 <= B) by (unfold B; nra). assert (PC : 0 <= C) by (unfold C; nra).
  pose proof (RN_errp A PA) as EA. pose proof (RN_errp B PB) as EB. pose proof (RN_errp C PC) as EC.
  pose proof (RN_pos A PA) as QA. pose proof (RN_pos B PB) as QB. pose proof (RN_pos C PC) as QC.
  pose proof (RN_upper A 1000 ltac:(lia) La) as UA. pose proof (RN_upper B 1000 ltac:(lia) Lb) as UB. pose proof (RN_upper C 1000 ltac:(lia) Lc) as UC.
  assert (D1 : bpow radix2 1001 = 2 * bpow radix2 1000) by exact (bpow_plus radix2 1 1000).
  assert (D2 : bpow radix2 1002 = 2 * bpow radix2 1001) by exact (bpow_plus radix2 1 1001).
  pose proof (bpow_gt_0 radix2 1000) as P0.
  set (S1 := RN (RN A + RN B)). pose proof (RN_errp (RN A + RN B) ltac:(lra)) as E1. pose proof (RN_pos (RN A + RN B) ltac:(lra)) as Q1.
  pose proof (RN_upper (RN A + RN B) 1001 ltac:(lia) ltac:(lra)) as U1. fold S1 in E1, Q1, U1.
  set (S2 := RN (S1 + RN C)). pose proof (RN_errp (S1 + RN C) ltac:(lra)) as E2. pose proof (RN_upper (S1 + RN C) 1002 ltac:(lia) ltac:(lra)) as U2. fold S2 in E2, U2.
  exists S2. split.
  - unfold dot. cbn [vx vy vz]. apply isr_add; [apply isr_add|..].
    + apply isr_mul; [exact Ha|exact Ha|]. apply (RN_huge _ 1000); [lia|]. fold A. rewrite Rabs_pos_eq; lra.
    + apply isr_mul; [exact Hb|exact Hb|]. apply (RN_huge _ 1000); [lia|]. fold B. rewrite Rabs_pos_eq; lra.
    + apply (RN_huge _ 1001); [lia|]. fold A B. rewrite Rabs_pos_eq; lra.
    + apply isr_mul; [exact Hc|exact Hc|]. apply (RN_huge _ 1000); [lia|]. fold C. rewrite Rabs_pos_eq; lra.
    + apply (RN_huge _ 1002); [lia|]. fold A B C S1. rewrite Rabs_pos_eq; lra.
  - clearbody S1 S2 A B C. clear - EA EB EC E1 E2 T T0 LS PA PB PC QA QB QC Q1. unfold eps64 in *.
    apply Rabs_le_inv in EA, EB, EC, E1, E2. apply Rabs_le. lra.
Qed.
(** the norm *)
Lemma norm64 x y z a b c : isr x a -> isr y b -> isr z c -> Rabs a <= bpow radix2 500 -> Rabs b <= bpow radix2 500 -> Rabs c <= bpow radix2 500 ->
  bpow radix2 (-500) <= sqrt (a * a + b * b + c * c) ->
  exists n, isr (norm (V x y z)) n /\ Rabs (n - sqrt (a * a + b * b + c * c)) <= 2.52 * eps64 * sqrt (a * a + b * b + c * c).
Proof.
  intros Ha Hb Hc La Lb Lc LL. set (L := sqrt _) in *. assert (PS : 0 <= a * a + b * b + c * c) by nra. assert (LS : L * L = a * a + b * b + c * c) by (apply sqrt_sqrt; exact PS).
  pose proof (bpow_gt_0 radix2 (-500)) as P0.
  assert (K : bpow radix2 (-1000) <= a * a + b * b + c * c). { change (-1000)%Z with (-500 + -500)%Z. rewrite bpow_plus, <- LS. apply Rmult_le_compat; lra. }
  destruct (dot_self64 x y z a b c Ha Hb Hc La Lb Lc K) as (s & Hs & Es). rewrite <- LS in Es. apply Rabs_le_inv in Es.
  assert (PL : 0 <= L * L) by nra. assert (Ps : 0 <= s) by (unfold eps64 in Es; lra).
  assert (B1 : (1 - 1.51 * eps64) * L <= sqrt s).
  { rewrite <- (sqrt_square ((1 - 1.51 * eps64) * L)) by (apply Rmult_le_pos; unfold eps64; lra). apply sqrt_le_1_alt.
    replace ((1 - 1.51 * eps64) * L * ((1 - 1.51 * eps64) * L)) with ((1 - 1.51 * eps64) * (1 - 1.51 * eps64) * (L * L)) by ring. unfold eps64 in *. lra. }
  assert (B2 : sqrt s <= (1 + 1.51 * eps64) * L).
  { rewrite <- (sqrt_square ((1 + 1.51 * eps64) * L)) by (apply Rmult_le_pos; unfold eps64; lra). apply sqrt_le_1_alt.
    replace ((1 + 1.51 * eps64) * L * ((1 + 1.51 * eps64) * L)) with ((1 + 1.51 * eps64) * (1 + 1.51 * eps64) * (L * L)) by ring. unfold eps64 in *. lra. }
  exists (RN (sqrt s)). split; [unfold norm; apply isr_sqrt; [exact Hs|exact Ps]|].
  pose proof (RN_errp (sqrt s) (sqrt_pos s)) as E. pose proof (eta64_tiny (-500) ltac:(lia)) as T. apply Rabs_le_inv in E. apply Rabs_le. unfold eps64 in *. lra.
Qed.
(** one component divided by the norm *)
Lemma div64 x n a m L : isr x a -> isr n m -> bpow radix2 (-500) <= L -> Rabs (m - L) <= 2.52 * eps64 * L -> Rabs a <= L ->
  exists q, isr (ndiv x n) q /\ Rabs (q - a / L) <= 3.53 * eps64 * (Rabs a / L) + eta64.
Proof.
  intros Hx Hn LL Em La. pose proof (bpow_gt_0 radix2 (-500)) as P0. apply Rabs_le_inv in Em. assert (Pm : (1 - 2.52 * eps64) * L <= m) by lra.
  assert (P1 : 0 < (1 - 2.52 * eps64) * L) by (apply Rmult_lt_0_compat; unfold eps64; lra).
  set (t := Rabs a / L). assert (Bt : 0 <= t <= 1). { unfold t. split; [apply Rmult_le_pos; [apply Rabs_pos|left; apply Rinv_0_lt_compat; lra]|]. apply Rmult_le_reg_r with L; [lra|]. unfold Rdiv. rewrite Rmult_assoc, Rinv_l by lra. lra. }
  assert (D : Rabs (a / m - a / L) <= 2.521 * eps64 * t).
  { replace (a / m - a / L) with (a / L * ((L - m) / m)) by (field; lra). rewrite Rabs_mult. replace (Rabs (a / L)) with t.
    2: { unfold t, Rdiv. rewrite Rabs_mult, Rabs_inv, (Rabs_pos_eq L) by lra. reflexivity. }
    rewrite Rmult_comm. apply Rmult_le_compat_r; [lra|]. apply Rabs_le. split; apply Rmult_le_reg_r with m; try lra; unfold Rdiv; rewrite Rmult_assoc, Rinv_l, Rmult_1_r by lra; unfold eps64 in *; lra. }
  assert (Ea : Rabs (a / L) = t) by (unfold t, Rdiv; rewrite Rabs_mult, Rabs_inv, (Rabs_pos_eq L) by lra; reflexivity).
  assert (M : Rabs (a / m) <= (1 + 2.521 * eps64) * t).
  { replace (a / m) with (a / L + (a / m - a / L)) by ring. eapply Rle_trans; [apply Rabs_triang|]. lra. }
  exists (RN (a / m)). split.
  - apply isr_div; [exact Hx|exact Hn|lra|]. apply (RN_huge _ 1); [lia|]. change (bpow radix2 1) with 2. unfold eps64 in M. lra.
  - replace (RN (a / m) - a / L) with ((RN (a / m) - a / m) + (a / m - a / L)) by ring. eapply Rle_trans; [apply Rabs_triang|]. pose proof (RN_err (a / m)) as E.
    assert (eps64 * Rabs (a / m) <= eps64 * ((1 + 2.521 * eps64) * t)) by (apply Rmult_le_compat_l; [unfold eps64; lra|exact M]). unfold eps64 in *. lra.
Qed.

(* ---- vectors ---- *)
Transparent len.
(** [v] is a vector of binary64 numbers with real values [a] *)
Definition isv (v : vec b64) (a : R3) : Prop := isr (vx v) (cx a) /\ isr (vy v) (cy a) /\ isr (vz v) (cz a).
(** far from overflow and underflow of the squares *)
Definition moderate (a : R3) : Prop := bpow radix2 (-500) <= len a <= bpow radix2 500.
Lemma comp_le (a : R3) : Rabs (cx a) <= len a /\ Rabs (cy a) <= len a /\ Rabs (cz a) <= len a.
Proof.
  assert (K : forall t, t * t <= a ∙ a -> Rabs t <= len a).
  { intros t H. rewrite <- (sqrt_Rsqr_abs t). unfold len. apply sqrt_le_1_alt. exact H. }
  repeat split; apply K; destruct a; r3_unf; cbn; nra.
Qed.
Lemma len_le_of a r : 0 <= r -> a ∙ a <= r * r -> len a <= r.
Proof. intros P H. rewrite <- (sqrt_square r P). unfold len. apply sqrt_le_1_alt. exact H. Qed.
Lemma len_ge_of a r : 0 <= r -> r * r <= a ∙ a -> r <= len a.
Proof. intros P H. rewrite <- (sqrt_square r P). unfold len. apply sqrt_le_1_alt. exact H. Qed.
Lemma cauchy a b : Rabs (a ∙ b) <= len a * len b.
Proof.
  apply Rsqr_incr_0_var; [|apply Rmult_le_pos; apply len_nonneg]. rewrite <- Rsqr_abs. unfold Rsqr. pose proof (cauchy_schwarz_sq a b) as H. rewrite <- !len_sq in H. 
  replace (len a * len b * (len a * len b)) with (len a * len a * (len b * len b)) by ring. exact H.
Qed.
Lemma len_add a b : len (a + b)%r3 <= len a + len b.
Proof.
  pose proof (len_nonneg a). pose proof (len_nonneg b). apply len_le_of; [lra|]. autorewrite with dotr. rewrite (dot_comm b a). pose proof (cauchy a b) as C. pose proof (Rle_abs (a ∙ b)).
  rewrite <- !len_sq. lra.
Qed.
Lemma len_close a b : Rabs (len a - len b) <= len (a - b)%r3.
Proof.
  assert (A : len a <= len (a - b)%r3 + len b). { replace a with ((a - b) + b)%r3 at 1 by r3_ring. apply len_add. }
  assert (B : len b <= len (a - b)%r3 + len a). { replace b with ((- (a - b)) + a)%r3 at 1 by r3_ring. eapply Rle_trans; [apply len_add|]. rewrite len_opp. lra. }
  apply Rabs_le. lra.
Qed.
Lemma nonzero_of_len a r : 0 < r -> r <= len a -> a <> r3zero.
Proof. intros P H E. rewrite E, len_zero_r3 in H. lra. Qed.
(** a vector whose components are small relative to those of [a] *)
Lemma small_vec (d a : R3) k h : 0 <= k -> 0 <= h -> Rabs (cx d) <= k * Rabs (cx a) + h -> Rabs (cy d) <= k * Rabs (cy a) + h -> Rabs (cz d) <= k * Rabs (cz a) + h ->
  len d <= k * len a + 2 * h.
Proof.
  intros Hk Hh Dx Dy Dz.
  set (e := mk3 (k * Rabs (cx a) + h) (k * Rabs (cy a) + h) (k * Rabs (cz a) + h)).
  assert (L1 : len d <= len e).
  { unfold len. apply sqrt_le_1_alt. unfold e. destruct d as [dx dy dz]. r3_unf. cbn in *.
    assert (K : forall t m, Rabs t <= m -> t * t <= m * m). { intros t m H. rewrite <- (Rabs_pos_eq (t * t)) by nra. rewrite Rabs_mult. apply Rmult_le_compat; try apply Rabs_pos; exact H. }
    apply K in Dx, Dy, Dz. lra. }
  assert (E : e = (k * mk3 (Rabs (cx a)) (Rabs (cy a)) (Rabs (cz a)) + mk3 h h h)%r3) by reflexivity.
  assert (L2 : len (mk3 (Rabs (cx a)) (Rabs (cy a)) (Rabs (cz a))) = len a).
  { unfold len. f_equal. destruct a as [x y z]. r3_unf. cbn. rewrite <- !Rabs_mult, !Rabs_pos_eq by nra. reflexivity. }
  assert (L3 : len (mk3 h h h) <= 2 * h). { apply len_le_of; [lra|]. r3_unf. cbn. nra. }
  pose proof (len_add (k * mk3 (Rabs (cx a)) (Rabs (cy a)) (Rabs (cz a)))%r3 (mk3 h h h)) as T. rewrite <- E, len_scale, L2, Rabs_pos_eq in T by exact Hk. lra.
Qed.

(** normalisation *)
Lemma unit64 v a : isv v a -> moderate a -> exists u, isv (unit_vector v) u /\ len (u - dirn a)%r3 <= 3.6 * eps64.
Proof.
  intros (Hx & Hy & Hz) (L1 & L2). destruct (comp_le a) as (Cx & Cy & Cz). pose proof (bpow_gt_0 radix2 (-500)) as P0. pose proof (nonzero_of_len a _ P0 L1) as NZ.
  destruct v as [x y z], a as [a b c]. cbn [vx vy vz cx cy cz] in *.
  destruct (norm64 x y z a b c Hx Hy Hz ltac:(lra) ltac:(lra) ltac:(lra) L1) as (n & Hn & En). change (sqrt (a * a + b * b + c * c)) with (len (mk3 a b c)) in En.
  destruct (div64 x _ a n _ Hx Hn L1 En Cx) as (ux & Ux & Ex). destruct (div64 y _ b n _ Hy Hn L1 En Cy) as (uy & Uy & Ey). destruct (div64 z _ c n _ Hz Hn L1 En Cz) as (uz & Uz & Ez).
  exists (mk3 ux uy uz). split; [split; [exact Ux|split; [exact Uy|exact Uz]]|].
  assert (A : forall t, Rabs t / len (mk3 a b c) = Rabs (/ len (mk3 a b c) * t)).
  { intros t. rewrite Rabs_mult, Rabs_inv, (Rabs_pos_eq (len _)) by lra. unfold Rdiv. ring. }
  assert (A' : forall t, t / len (mk3 a b c) = / len (mk3 a b c) * t) by (intros; unfold Rdiv; ring). rewrite A, A' in Ex, Ey, Ez. pose proof (small_vec (mk3 ux uy uz - dirn (mk3 a b c))%r3 (dirn (mk3 a b c)) (3.53 * eps64) eta64) as K.
  rewrite (len_unit _ (dirn_unit _ NZ)) in K. pose proof eta64_pos. pose proof (eta64_tiny 0 ltac:(lia)) as T. change (bpow radix2 0) with 1 in T.
  eapply Rle_trans; [apply K|]; try (unfold eps64 in *; lra); unfold dirn; r3_unf; cbn [cx cy cz] in *; [exact Ex|exact Ey|exact Ez].
Qed.

Lemma unit64_len u e k : is_unit e -> len (u - e)%r3 <= k -> Rabs (len u - 1) <= k.
Proof. intros Ue H. rewrite <- (len_unit e Ue). eapply Rle_trans; [apply len_close|exact H]. Qed.

(** distance *)
Lemma sub64 x y a b : isr x a -> isr y b -> Rabs (a - b) <= bpow radix2 1000 -> exists d, isr (nsub x y) d /\ Rabs (d - (a - b)) <= eps64 * Rabs (a - b) + eta64.
Proof. intros Hx Hy B. exists (RN (a - b)). split; [apply isr_sub; [exact Hx|exact Hy|apply (RN_huge _ 1000); [lia|exact B]]|apply RN_err]. Qed.
Lemma vsub64 p q a b : isv p a -> isv q b -> len (a - b)%r3 <= bpow radix2 1000 ->
  exists d, isv (vsub p q) d /\ len (d - (a - b))%r3 <= eps64 * len (a - b)%r3 + 2 * eta64.
Proof.
  intros (Px & Py & Pz) (Qx & Qy & Qz) M. destruct (comp_le (a - b)%r3) as (Cx & Cy & Cz). cbn [cx cy cz r3sub] in *.
  destruct (sub64 _ _ _ _ Px Qx ltac:(lra)) as (dx & Dx & Ex). destruct (sub64 _ _ _ _ Py Qy ltac:(lra)) as (dy & Dy & Ey). destruct (sub64 _ _ _ _ Pz Qz ltac:(lra)) as (dz & Dz & Ez).
  exists (mk3 dx dy dz). split; [split; [exact Dx|split; [exact Dy|exact Dz]]|]. apply small_vec; [unfold eps64; lra|pose proof eta64_pos; lra|exact Ex|exact Ey|exact Ez].
Qed.
Lemma distance64 p q a b : isv p a -> isv q b -> bpow radix2 (-490) <= len (a - b)%r3 <= bpow radix2 490 ->
  exists d, isr (distance_between p q) d /\ Rabs (d - len (a - b)%r3) <= 3.6 * eps64 * len (a - b)%r3.
Proof.
  intros Hp Hq (L1 & L2). destruct (vsub64 p q a b Hp Hq) as (d & (Dx & Dy & Dz) & Ed). { pose proof (bpow_le radix2 490 1000 ltac:(lia)). lra. }
  pose proof (bpow_gt_0 radix2 (-490)) as P0. pose proof (eta64_tiny (-490) ltac:(lia)) as T. pose proof eta64_pos as T0.
  pose proof (len_close d (a - b)%r3) as C. apply Rabs_le_inv in C. 
  assert (B1 : bpow radix2 (-500) <= len d). { assert (K : bpow radix2 (-490) = 1024 * bpow radix2 (-500)) by exact (bpow_plus radix2 10 (-500)). unfold eps64 in *. lra. }
  assert (B2 : len d <= bpow radix2 500). { assert (K : bpow radix2 500 = 1024 * bpow radix2 490) by exact (bpow_plus radix2 10 490). unfold eps64 in *. lra. }
  destruct (comp_le d) as (Cx & Cy & Cz). destruct d as [x y z]. cbn [cx cy cz] in *.
  destruct (norm64 _ _ _ x y z Dx Dy Dz ltac:(lra) ltac:(lra) ltac:(lra) B1) as (n & Hn & En). change (sqrt (x * x + y * y + z * z)) with (len (mk3 x y z)) in En.
  exists n. split; [exact Hn|]. apply Rabs_le_inv in En. apply Rabs_le. unfold eps64 in *. lra.
Qed.

(** dot product *)
Definition absv (a : R3) : R3 := mk3 (Rabs (cx a)) (Rabs (cy a)) (Rabs (cz a)).
Lemma len_absv a : len (absv a) = len a.
Proof. unfold len. f_equal. destruct a as [x y z]. unfold absv. r3_unf. cbn. rewrite <- !Rabs_mult, !Rabs_pos_eq by nra. reflexivity. Qed.
Lemma dot_absv a b : absv a ∙ absv b <= len a * len b.
Proof. rewrite <- (len_absv a), <- (len_absv b). eapply Rle_trans; [apply Rle_abs|apply cauchy]. Qed.
Lemma dot64 v w a b : isv v a -> isv w b -> len a * len b <= bpow radix2 1000 ->
  exists p, isr (dot v w) p /\ Rabs (p - a ∙ b) <= 3.01 * eps64 * (len a * len b) + 6 * eta64.
Proof.
  intros (Ax & Ay & Az) (Bx & By & Bz) M. pose proof (dot_absv a b) as D. destruct a as [a1 a2 a3], b as [b1 b2 b3]. unfold absv in D. r3_unf. cbn [cx cy cz vx vy vz] in *. rewrite <- !Rabs_mult in D.
  set (LL := len _ * len _) in *. pose proof eta64_pos as T0. pose proof (eta64_tiny 0 ltac:(lia)) as T. change (bpow radix2 0) with 1 in T.
  pose proof (Rabs_pos (a1 * b1)) as P1. pose proof (Rabs_pos (a2 * b2)) as P2. pose proof (Rabs_pos (a3 * b3)) as P3.
  pose proof (RN_err (a1 * b1)) as E1. pose proof (RN_err (a2 * b2)) as E2. pose proof (RN_err (a3 * b3)) as E3.
  pose proof (RN_abs_le (a1 * b1) 1000 ltac:(lia) ltac:(lra)) as U1. pose proof (RN_abs_le (a2 * b2) 1000 ltac:(lia) ltac:(lra)) as U2. pose proof (RN_abs_le (a3 * b3) 1000 ltac:(lia) ltac:(lra)) as U3.
  assert (D1 : bpow radix2 1001 = 2 * bpow radix2 1000) by exact (bpow_plus radix2 1 1000). assert (D2 : bpow radix2 1002 = 2 * bpow radix2 1001) by exact (bpow_plus radix2 1 1001).
  pose proof (bpow_gt_0 radix2 1000) as P0.
  set (q1 := RN (a1 * b1)) in *. set (q2 := RN (a2 * b2)) in *. set (q3 := RN (a3 * b3)) in *.
  assert (S1 : Rabs (q1 + q2) <= bpow radix2 1001) by (eapply Rle_trans; [apply Rabs_triang|lra]). pose proof (RN_abs_le _ 1001 ltac:(lia) S1) as U4. pose proof (RN_err (q1 + q2)) as E4. set (s1 := RN (q1 + q2)) in *.
  assert (S2 : Rabs (s1 + q3) <= bpow radix2 1002) by (eapply Rle_trans; [apply Rabs_triang|lra]). pose proof (RN_err (s1 + q3)) as E5.
  exists (RN (s1 + q3)). split.
  - unfold dot. apply isr_add; [apply isr_add|..]; [apply isr_mul; auto|apply isr_mul; auto|..|apply isr_mul; auto|].
    + apply (RN_huge _ 1000); [lia|lra].
    + apply (RN_huge _ 1000); [lia|lra].
    + apply (RN_huge _ 1001); [lia|exact S1].
    + apply (RN_huge _ 1000); [lia|lra].
    + apply (RN_huge _ 1002); [lia|exact S2].
  - set (s2 := RN (s1 + q3)) in *. clearbody q1 q2 q3 s1 s2. clear U1 U2 U3 U4 S1 S2 D1 D2 M Ax Ay Az Bx By Bz.
    assert (A1 : Rabs q1 <= (1 + eps64) * Rabs (a1 * b1) + eta64) by (replace q1 with ((q1 - a1 * b1) + a1 * b1) by ring; eapply Rle_trans; [apply Rabs_triang|lra]).
    assert (A2 : Rabs q2 <= (1 + eps64) * Rabs (a2 * b2) + eta64) by (replace q2 with ((q2 - a2 * b2) + a2 * b2) by ring; eapply Rle_trans; [apply Rabs_triang|lra]).
    assert (A3 : Rabs q3 <= (1 + eps64) * Rabs (a3 * b3) + eta64) by (replace q3 with ((q3 - a3 * b3) + a3 * b3) by ring; eapply Rle_trans; [apply Rabs_triang|lra]).
    pose proof (Rabs_triang q1 q2) as A4. assert (A5 : Rabs s1 <= (1 + eps64) * Rabs (q1 + q2) + eta64) by (replace s1 with ((s1 - (q1 + q2)) + (q1 + q2)) by ring; eapply Rle_trans; [apply Rabs_triang|lra]).
    pose proof (Rabs_triang s1 q3) as A6. set (m1 := a1 * b1) in *. set (m2 := a2 * b2) in *. set (m3 := a3 * b3) in *. clearbody m1 m2 m3 LL. generalize dependent (bpow radix2 1000). intros _ _.
    apply Rabs_le_inv in E1, E2, E3, E4, E5. apply Rabs_le. unfold eps64 in *. lra.
Qed.
(** scaling *)
Lemma vscale64 s v sg a : isr s sg -> isv v a -> Rabs sg * len a <= bpow radix2 1000 ->
  exists w, isv (vscale s v) w /\ len (w - sg * a)%r3 <= eps64 * (Rabs sg * len a) + 2 * eta64.
Proof.
  intros Hs (Ax & Ay & Az) M. destruct (comp_le a) as (Cx & Cy & Cz). pose proof (Rabs_pos sg) as P. pose proof (Rmult_le_compat_l _ _ _ P Cx) as Mx. pose proof (Rmult_le_compat_l _ _ _ P Cy) as My. pose proof (Rmult_le_compat_l _ _ _ P Cz) as Mz.
  rewrite <- Rabs_mult in Mx, My, Mz.
  exists (mk3 (RN (sg * cx a)) (RN (sg * cy a)) (RN (sg * cz a))). split.
  - unfold isv, vscale. cbn [vx vy vz cx cy cz]. split; [|split]; (apply isr_mul; [exact Hs|assumption|apply (RN_huge _ 1000); [lia|lra]]).
  - rewrite <- len_scale. apply small_vec; [unfold eps64; lra|pose proof eta64_pos; lra|..]; destruct a; cbn; apply RN_err.
Qed.
Lemma two64 : isr (nofZ 2) 2.
Proof. replace 2 with (SF2R radix2 (nofZ 2 : b64)); [repeat split|]. vm_compute. lra. Qed.

(** the exact mirror image of a direction [d] in a plane with unit normal [n] *)
Definition mirrored (n d : R3) : R3 := (d - (2 * (d ∙ n)) * n)%r3.
Lemma mirrored_unit n d : is_unit n -> is_unit d -> is_unit (mirrored n d).
Proof.
  unfold is_unit, mirrored. intros Hn Hd. autorewrite with dotr. rewrite (dot_comm n d), Hn, Hd. ring.
Qed.
Lemma mirrored_sub n a b : is_unit n -> len (mirrored n a - mirrored n b)%r3 = len (a - b)%r3.
Proof.
  intros Hn. replace (mirrored n a - mirrored n b)%r3 with (mirrored n (a - b))%r3 by (unfold mirrored; r3_ring).
  unfold len. f_equal. unfold mirrored. set (d := (a - b)%r3). autorewrite with dotr. rewrite (dot_comm n d), Hn. ring.
Qed.
Lemma dirn_close a : a <> r3zero -> len (dirn a - a)%r3 = Rabs (len a - 1).
Proof.
  intros Na. pose proof (len_pos a Na) as P. replace (dirn a - a)%r3 with ((1 - len a) * dirn a)%r3.
  2: { assert (E := dirn_scale a Na). revert E. generalize (dirn a) (len a). intros u l ->. r3_ring. }
  rewrite len_scale, (len_unit _ (dirn_unit a Na)), Rmult_1_r, <- Rabs_Ropp. f_equal. ring.
Qed.

Lemma mid_moderate a : 1 / 2 <= len a <= 2 -> moderate a.
Proof.
  intros [A B]. split.
  - apply Rle_trans with (bpow radix2 (-1)); [apply bpow_le; lia|]. change (bpow radix2 (-1)) with (/ 2). lra.
  - apply Rle_trans with (bpow radix2 1); [|apply bpow_le; lia]. change (bpow radix2 1) with 2. lra.
Qed.
Lemma reflect64 (d n : vec b64) a m : isv d a -> isv n m -> moderate a -> moderate m ->
  exists w, isv (unit_vector (vsub (unit_vector d) (vscale (nmul (nofZ 2) (dot (unit_vector d) (unit_vector n))) (unit_vector n)))) w /\
    Rabs (len w - 1) <= 3.6 * eps64 /\ len (w - mirrored (dirn m) (dirn a))%r3 <= 77 * eps64.
Proof.
  intros Hd Hn Ma Mm. pose proof (bpow_gt_0 radix2 (-500)) as P0. pose proof (nonzero_of_len a _ P0 (proj1 Ma)) as Na. pose proof (nonzero_of_len m _ P0 (proj1 Mm)) as Nm.
  destruct (unit64 d a Hd Ma) as (i & Hi & Ei). destruct (unit64 n m Hn Mm) as (k & Hk & Ek). pose proof (dirn_unit a Na) as Ua. pose proof (dirn_unit m Nm) as Um.
  set (a' := dirn a) in *. set (m' := dirn m) in *. pose proof (len_unit _ Ua) as La. pose proof (len_unit _ Um) as Lm.
  pose proof (unit64_len _ _ _ Ua Ei) as Li. pose proof (unit64_len _ _ _ Um Ek) as Lk. apply Rabs_le_inv in Li, Lk. clearbody a' m'. set (E := eps64) in *. assert (EE : 1.11e-16 < E < 1.111e-16) by (unfold E, eps64; lra).
  pose proof eta64_pos as T0. pose proof (eta64_tiny 0 ltac:(lia)) as T. change (bpow radix2 0) with 1 in T. fold E in T.
  assert (Big : 1024 <= bpow radix2 1000) by (change 1024 with (bpow radix2 10); apply bpow_le; lia).
  assert (Lik : 0 <= len i * len k <= 1 + 8 * E) by (split; [apply Rmult_le_pos; apply len_nonneg|]; apply Rle_trans with ((1 + 3.6 * E) * (1 + 3.6 * E)); [apply Rmult_le_compat; try apply len_nonneg; lra|nra]).
  destruct (dot64 _ _ i k Hi Hk ltac:(lra)) as (p & Hp & Ep). fold E in Ep.
  (* the scalar *)
  assert (Dp : Rabs (i ∙ k - a' ∙ m') <= 7.21 * E).
  { replace (i ∙ k - a' ∙ m') with ((i - a')%r3 ∙ k + a' ∙ (k - m')%r3) by (rewrite dot_sub_l, dot_sub_r; ring). eapply Rle_trans; [apply Rabs_triang|].
    pose proof (cauchy (i - a')%r3 k) as C1. pose proof (cauchy a' (k - m')%r3) as C2. rewrite La in C2.
    assert (len (i - a')%r3 * len k <= 3.6 * E * (1 + 3.6 * E)) by (apply Rmult_le_compat; try apply len_nonneg; lra). nra. }
  assert (Bd := unit_dot_bound _ _ Ua Um). apply Rabs_le_inv in Ep, Dp.
  assert (Ep' : -10.3 * E <= p - a' ∙ m' <= 10.3 * E). { assert (3.01 * E * (len i * len k) <= 3.01 * E * (1 + 8 * E)) by (apply Rmult_le_compat_l; lra). assert (E * E <= E * 1e-10) by (apply Rmult_le_compat_l; lra). lra. }
  pose proof (RN_err (2 * p)) as Es. fold E in Es. assert (Ap : Rabs (2 * p) <= 2 + 21 * E) by (apply Rabs_le; lra).
  assert (Hs : isr (nmul (nofZ 2) (dot (unit_vector d) (unit_vector n))) (RN (2 * p))).
  { apply isr_mul; [exact two64|exact Hp|]. apply (RN_huge _ 1000); [lia|]. lra. }
  set (s := RN (2 * p)) in *. assert (Es' : -22.7 * E <= s - 2 * (a' ∙ m') <= 22.7 * E).
  { assert (E * Rabs (2 * p) <= E * (2 + 21 * E)) by (apply Rmult_le_compat_l; lra). assert (E * E <= E * 1e-10) by (apply Rmult_le_compat_l; lra). apply Rabs_le_inv in Es. lra. }
  assert (As : Rabs s <= 2 + 23 * E) by (apply Rabs_le; lra).
  assert (Lsk : 0 <= Rabs s * len k <= 2 + 31 * E) by (split; [apply Rmult_le_pos; [apply Rabs_pos|apply len_nonneg]|]; apply Rle_trans with ((2 + 23 * E) * (1 + 3.6 * E)); [apply Rmult_le_compat; try apply len_nonneg; try apply Rabs_pos; lra|nra]).
  destruct (vscale64 _ _ s k Hs Hk ltac:(lra)) as (w & Hw & Ew). fold E in Ew.
  (* the difference *)
  pose proof (len_add (w - s * k)%r3 (s * k)%r3) as Lw. replace ((w - s * k) + s * k)%r3 with w in Lw by r3_ring. rewrite len_scale in Lw.
  assert (Ew' : E * (Rabs s * len k) <= E * (2 + 31 * E)) by (apply Rmult_le_compat_l; lra). assert (EE2 : E * E <= E * 1e-10) by (apply Rmult_le_compat_l; lra).
  assert (Liw : len (i - w)%r3 <= 4). { replace (i - w)%r3 with (i + (- w))%r3 by r3_ring. eapply Rle_trans; [apply len_add|]. rewrite len_opp. lra. }
  destruct (vsub64 _ _ i w Hi Hw ltac:(lra)) as (r & Hr & Er). fold E in Er.
  set (e := mirrored m' a'). assert (Ue : is_unit e) by (apply mirrored_unit; assumption). pose proof (len_unit _ Ue) as Le.
  assert (Dw : len ((i - w) - e)%r3 <= 35.6 * E).
  { replace ((i - w) - e)%r3 with ((i - a') + ((- (w - s * k)) + ((2 * (a' ∙ m') - s) * k + (2 * (a' ∙ m')) * (m' - k))))%r3 by (unfold e, mirrored; r3_ring).
    eapply Rle_trans; [apply len_add|]. pose proof (len_add (- (w - s * k))%r3 ((2 * (a' ∙ m') - s) * k + (2 * (a' ∙ m')) * (m' - k))%r3) as A1. rewrite len_opp in A1.
    pose proof (len_add ((2 * (a' ∙ m') - s) * k)%r3 ((2 * (a' ∙ m')) * (m' - k))%r3) as A2. rewrite !len_scale in A2.
    assert (B1 : Rabs (2 * (a' ∙ m') - s) * len k <= 22.7 * E * (1 + 3.6 * E)) by (apply Rmult_le_compat; [apply Rabs_pos|apply len_nonneg|apply Rabs_le; lra|lra]).
    assert (B2 : Rabs (2 * (a' ∙ m')) * len (m' - k)%r3 <= 2 * (3.6 * E)).
    { apply Rmult_le_compat; [apply Rabs_pos|apply len_nonneg|apply Rabs_le; lra|]. replace (m' - k)%r3 with (- (k - m'))%r3 by r3_ring. rewrite len_opp. lra. }
    lra. }
  assert (Dr : len (r - e)%r3 <= 36.7 * E).
  { replace (r - e)%r3 with ((r - (i - w)) + ((i - w) - e))%r3 by r3_ring. eapply Rle_trans; [apply len_add|].
    assert (len (i - w)%r3 <= 1 + 35.6 * E). { pose proof (len_close (i - w)%r3 e) as C. apply Rabs_le_inv in C. lra. }
    assert (E * len (i - w)%r3 <= E * (1 + 35.6 * E)) by (apply Rmult_le_compat_l; lra). lra. }
  pose proof (len_close r e) as C. apply Rabs_le_inv in C. assert (Mr : moderate r) by (apply mid_moderate; lra). assert (Nr : r <> r3zero) by (apply (nonzero_of_len r (1/2)); lra).
  destruct (unit64 _ r Hr Mr) as (o & Ho & Eo). fold E in Eo. exists o. split; [exact Ho|]. split; [exact (unit64_len _ _ _ (dirn_unit r Nr) Eo)|].
  replace (o - e)%r3 with ((o - dirn r) + ((dirn r - r) + (r - e)))%r3 by r3_ring. eapply Rle_trans; [apply len_add|]. pose proof (len_add (dirn r - r)%r3 (r - e)%r3) as A. rewrite (dirn_close r Nr) in A.
  assert (Rabs (len r - 1) <= 36.7 * E) by (apply Rabs_le; lra). lra.
Qed.
