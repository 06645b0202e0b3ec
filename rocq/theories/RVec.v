(** Bridge between the model's vectors over [xr] and the specification's real 3-vectors, and R3 algebra. *)
From Coq Require Import Reals ZArith Lra Psatz Bool.
From Verif Require Import PyErr Num Vec Spec XReal.
Local Open Scope R_scope.

(** The model vector with finite components. *)
Definition fv (a : R3) : vec xr := V (Fin (cx a)) (Fin (cy a)) (Fin (cz a)).

Lemma fv_inj a b : fv a = fv b -> a = b.
Proof. destruct a, b; unfold fv; cbn; intros H; injection H; intros; subst; reflexivity. Qed.

Lemma r3_eta a : mk3 (cx a) (cy a) (cz a) = a. Proof. destruct a; reflexivity. Qed.
Lemma r3_ext a b : cx a = cx b -> cy a = cy b -> cz a = cz b -> a = b.
Proof. destruct a, b; cbn; intros; subst; reflexivity. Qed.

Ltac r3_unf := unfold at_t, perp, r3add, r3sub, r3opp, r3scale, r3dot, r3cross, r3zero in *.
(** prove an equation of vectors / scalars componentwise by ring or field *)
Ltac r3_ring := repeat match goal with x : R3 |- _ => destruct x end; r3_unf; cbn;
  try (apply r3_ext; cbn); ring.
Ltac r3_field := repeat match goal with x : R3 |- _ => destruct x end; r3_unf; cbn in *;
  try (apply r3_ext; cbn); field.

(* ---- R3 algebra ---- *)
Lemma dot_comm a b : a ∙ b = b ∙ a. Proof. r3_ring. Qed.
Lemma dot_add_l a b c : (a + b)%r3 ∙ c = a ∙ c + b ∙ c. Proof. r3_ring. Qed.
Lemma dot_add_r a b c : c ∙ (a + b)%r3 = c ∙ a + c ∙ b. Proof. r3_ring. Qed.
Lemma dot_sub_l a b c : (a - b)%r3 ∙ c = a ∙ c - b ∙ c. Proof. r3_ring. Qed.
Lemma dot_sub_r a b c : c ∙ (a - b)%r3 = c ∙ a - c ∙ b. Proof. r3_ring. Qed.
Lemma dot_scale_l s a b : (s * a)%r3 ∙ b = s * (a ∙ b). Proof. r3_ring. Qed.
Lemma dot_scale_r s a b : a ∙ (s * b)%r3 = s * (a ∙ b). Proof. r3_ring. Qed.
Lemma dot_opp_l a b : (- a)%r3 ∙ b = - (a ∙ b). Proof. r3_ring. Qed.
Lemma dot_opp_r a b : a ∙ (- b)%r3 = - (a ∙ b). Proof. r3_ring. Qed.
Lemma dot_cross_l a b : (a × b)%r3 ∙ a = 0. Proof. r3_ring. Qed.
Lemma dot_cross_r a b : (a × b)%r3 ∙ b = 0. Proof. r3_ring. Qed.
Lemma dot_zero_l a : r3zero ∙ a = 0. Proof. r3_ring. Qed.
Lemma dot_zero_r a : a ∙ r3zero = 0. Proof. r3_ring. Qed.
#[global] Hint Rewrite dot_add_l dot_add_r dot_sub_l dot_sub_r dot_scale_l dot_scale_r dot_opp_l dot_opp_r
  dot_cross_l dot_cross_r dot_zero_l dot_zero_r : dotr.
Lemma lagrange a b : (a × b)%r3 ∙ (a × b)%r3 = (a ∙ a) * (b ∙ b) - (a ∙ b) * (a ∙ b). Proof. r3_ring. Qed.

Lemma dot_self_nonneg a : 0 <= a ∙ a.
Proof. destruct a; r3_unf; cbn. nra. Qed.
Lemma dot_self_zero a : a ∙ a = 0 -> a = r3zero.
Proof.
  destruct a as [x y z]; r3_unf; cbn; intros H.
  pose proof (Rle_0_sqr x) as Hx; pose proof (Rle_0_sqr y) as Hy; pose proof (Rle_0_sqr z) as Hz.
  unfold Rsqr in *.
  assert (x * x = 0) by lra. assert (y * y = 0) by lra. assert (z * z = 0) by lra.
  f_equal; apply Rsqr_eq_0; unfold Rsqr; assumption.
Qed.
Lemma dot_self_pos a : a <> r3zero -> 0 < a ∙ a.
Proof.
  intros H. destruct (Rle_lt_or_eq_dec _ _ (dot_self_nonneg a)) as [L|E]; [exact L|].
  exfalso; apply H; apply dot_self_zero; symmetry; exact E.
Qed.
Lemma unit_nonzero a : is_unit a -> a <> r3zero.
Proof. unfold is_unit; intros H E; subst; r3_unf; cbn in H; lra. Qed.
Lemma unit_opp a : is_unit a -> is_unit (- a)%r3.
Proof. unfold is_unit; intros <-. r3_ring. Qed.

Lemma len_nonneg a : 0 <= len a. Proof. apply sqrt_pos. Qed.
Lemma len_sq a : len a * len a = a ∙ a. Proof. apply sqrt_sqrt, dot_self_nonneg. Qed.
Lemma len_pos a : a <> r3zero -> 0 < len a.
Proof. intros H; apply sqrt_lt_R0, dot_self_pos, H. Qed.
Lemma len_zero a : len a = 0 -> a = r3zero.
Proof. intros H; apply dot_self_zero. rewrite <- len_sq, H; ring. Qed.
Lemma len_zero_r3 : len r3zero = 0.
Proof. unfold len. rewrite dot_zero_l. apply sqrt_0. Qed.
Lemma len_unit a : is_unit a -> len a = 1.
Proof. unfold is_unit, len; intros ->; apply sqrt_1. Qed.
Lemma unit_of_len a : len a = 1 -> is_unit a.
Proof. unfold is_unit; intros H; rewrite <- len_sq, H; ring. Qed.
Lemma len_eq_of_sq a r : 0 <= r -> a ∙ a = r * r -> len a = r.
Proof. intros Hr H; unfold len; rewrite H; apply sqrt_square, Hr. Qed.
Lemma len_opp a : len (- a)%r3 = len a.
Proof. unfold len; f_equal; r3_ring. Qed.
Lemma len_scale s a : len (s * a)%r3 = Rabs s * len a.
Proof.
  unfold len. rewrite dot_scale_l, dot_scale_r, <- Rmult_assoc, sqrt_mult;
  [|apply Rle_0_sqr|apply dot_self_nonneg]. f_equal. apply sqrt_Rsqr_abs.
Qed.
Lemma dist3_sym a b : dist3 a b = dist3 b a.
Proof. unfold dist3, len; f_equal; r3_ring. Qed.
Lemma len_lt a b : a ∙ a < b ∙ b -> len a < len b.
Proof. intros H; apply sqrt_lt_1; auto using dot_self_nonneg. Qed.

Lemma cauchy_schwarz_sq a b : (a ∙ b) * (a ∙ b) <= (a ∙ a) * (b ∙ b).
Proof. pose proof (dot_self_nonneg (a × b)%r3) as H. rewrite lagrange in H. lra. Qed.
Lemma unit_dot_bound a b : is_unit a -> is_unit b -> -1 <= a ∙ b <= 1.
Proof.
  unfold is_unit; intros Ha Hb. pose proof (cauchy_schwarz_sq a b) as H. rewrite Ha, Hb in H. nra.
Qed.
Lemma unit_dot_1 a b : is_unit a -> is_unit b -> a ∙ b = 1 -> a = b.
Proof.
  unfold is_unit; intros Ha Hb H.
  assert (E : (a - b)%r3 ∙ (a - b)%r3 = 0) by (autorewrite with dotr; rewrite (dot_comm b a); lra).
  apply dot_self_zero in E. destruct a, b; unfold r3sub, r3zero in E; cbn in E; injection E; intros.
  f_equal; lra.
Qed.
Lemma unit_dot_m1 a b : is_unit a -> is_unit b -> a ∙ b = -1 -> a = (- b)%r3.
Proof.
  intros Ha Hb H. apply unit_dot_1; [exact Ha | apply unit_opp, Hb |]. rewrite dot_opp_r; lra.
Qed.

(** The direction of a non-zero vector. *)
Definition dirn (a : R3) : R3 := ((/ len a) * a)%r3.
Lemma dirn_unit a : a <> r3zero -> is_unit (dirn a).
Proof.
  intros H. unfold is_unit, dirn. rewrite dot_scale_l, dot_scale_r, <- len_sq.
  pose proof (len_pos a H). field. lra.
Qed.
Lemma dirn_scale a : a <> r3zero -> a = (len a * dirn a)%r3.
Proof. intros H. pose proof (len_pos a H). unfold dirn. destruct a; r3_unf; cbn. apply r3_ext; cbn; field; lra. Qed.
Lemma dirn_of_unit a : is_unit a -> dirn a = a.
Proof. intros H. unfold dirn. rewrite len_unit by exact H. rewrite Rinv_1. r3_ring. Qed.
Lemma dirn_pos_scale s a : 0 < s -> a <> r3zero -> dirn (s * a)%r3 = dirn a.
Proof.
  intros Hs H. unfold dirn. rewrite len_scale, Rabs_right by lra.
  pose proof (len_pos a H). destruct a; r3_unf; cbn. apply r3_ext; cbn; field; lra.
Qed.
Lemma dirn_opp a : dirn (- a)%r3 = (- dirn a)%r3.
Proof. unfold dirn. rewrite len_opp. r3_ring. Qed.
(** A unit vector that is a positive multiple of v is the direction of v. *)
Lemma dirn_unique v u s : 0 < s -> v = (s * u)%r3 -> is_unit u -> dirn v = u.
Proof.
  intros Hs -> Hu. rewrite dirn_pos_scale; [apply dirn_of_unit, Hu | exact Hs | apply unit_nonzero, Hu].
Qed.
Lemma scale_nonzero s a : s <> 0 -> a <> r3zero -> (s * a)%r3 <> r3zero.
Proof.
  intros Hs Ha E. apply Ha. apply dot_self_zero.
  assert (H : (s * a)%r3 ∙ (s * a)%r3 = 0) by (rewrite E; apply dot_zero_l).
  rewrite dot_scale_l, dot_scale_r in H.
  apply Rmult_integral in H; destruct H as [H|H]; [lra|].
  apply Rmult_integral in H; destruct H; [lra|assumption].
Qed.
Lemma opp_nonzero a : a <> r3zero -> (- a)%r3 <> r3zero.
Proof.
  intros Ha E; apply Ha. destruct a; unfold r3opp, r3zero in *; cbn in *. injection E; intros.
  f_equal; lra.
Qed.

(* ---- bridge ---- *)
Lemma vadd_fv a b : vadd (fv a) (fv b) = fv (a + b)%r3. Proof. reflexivity. Qed.
Lemma vsub_fv a b : vsub (fv a) (fv b) = fv (a - b)%r3. Proof. reflexivity. Qed.
Lemma vopp_fv a : vopp (fv a) = fv (- a)%r3. Proof. reflexivity. Qed.
Lemma vscale_fv s a : vscale (Fin s) (fv a) = fv (s * a)%r3. Proof. reflexivity. Qed.
Lemma dot_fv a b : dot (fv a) (fv b) = Fin (a ∙ b). Proof. reflexivity. Qed.
Lemma cross_fv a b : cross (fv a) (fv b) = fv (a × b)%r3. Proof. reflexivity. Qed.
Lemma norm_fv a : norm (fv a) = Fin (len a).
Proof. unfold norm. rewrite dot_fv. apply nsqrt_fin, dot_self_nonneg. Qed.
Lemma distance_fv a b : distance_between (fv a) (fv b) = Fin (dist3 a b).
Proof. unfold distance_between. rewrite vsub_fv. apply norm_fv. Qed.
Lemma vdivs_fv a s : s <> 0 -> vdivs (fv a) (Fin s) = fv (/ s * a)%r3.
Proof.
  intros H. unfold vdivs, fv; cbn. rewrite !ndiv_fin by exact H. f_equal; f_equal; unfold Rdiv; ring.
Qed.
Lemma unit_vector_fv a : a <> r3zero -> unit_vector (fv a) = fv (dirn a).
Proof.
  intros H. unfold unit_vector. rewrite norm_fv. apply vdivs_fv.
  pose proof (len_pos a H); lra.
Qed.
Lemma unit_vector_unit a : is_unit a -> unit_vector (fv a) = fv a.
Proof. intros H. rewrite unit_vector_fv by (apply unit_nonzero, H). now rewrite dirn_of_unit. Qed.
Lemma unit_vector_zero : unit_vector (fv r3zero) = V XNaN XNaN XNaN.
Proof.
  unfold unit_vector. rewrite norm_fv, len_zero_r3. unfold vdivs, fv; cbn. now rewrite !ndiv_0_0.
Qed.
#[global] Hint Rewrite vadd_fv vsub_fv vopp_fv vscale_fv dot_fv cross_fv norm_fv distance_fv : xr.
Lemma vx_fv a : vx (fv a) = Fin (cx a). Proof. reflexivity. Qed.
Lemma vy_fv a : vy (fv a) = Fin (cy a). Proof. reflexivity. Qed.
Lemma vz_fv a : vz (fv a) = Fin (cz a). Proof. reflexivity. Qed.
Lemma fv_V x y z : V (Fin x) (Fin y) (Fin z) = fv (mk3 x y z). Proof. reflexivity. Qed.

(** 3x3 matrices with finite entries *)
Definition fm (a b c : R3) : mat3 xr := M3 (fv a) (fv b) (fv c).
Definition mrow (u d e g : R3) : R3 :=
  mk3 (u ∙ mk3 (cx d) (cx e) (cx g)) (u ∙ mk3 (cy d) (cy e) (cy g)) (u ∙ mk3 (cz d) (cz e) (cz g)).
Lemma mv_fm a b c x : mv (fm a b c) (fv x) = fv (mk3 (a ∙ x) (b ∙ x) (c ∙ x)). Proof. reflexivity. Qed.
Lemma madd_fm a b c d e g : madd (fm a b c) (fm d e g) = fm (a + d) (b + e) (c + g). Proof. reflexivity. Qed.
Lemma msub_fm a b c d e g : msub (fm a b c) (fm d e g) = fm (a - d) (b - e) (c - g). Proof. reflexivity. Qed.
Lemma mscale_fm s a b c : mscale (Fin s) (fm a b c) = fm (s * a) (s * b) (s * c). Proof. reflexivity. Qed.
Lemma mdivs_fm s a b c : s <> 0 -> mdivs (fm a b c) (Fin s) = fm (/ s * a) (/ s * b) (/ s * c).
Proof. intros H. unfold mdivs, fm; cbn [row0 row1 row2]. now rewrite !vdivs_fv. Qed.
Lemma outer_fv a b : outer (fv a) (fv b) = fm (cx a * b) (cy a * b) (cz a * b). Proof. reflexivity. Qed.
Lemma mm_fm a b c d e g : mm (fm a b c) (fm d e g) = fm (mrow a d e g) (mrow b d e g) (mrow c d e g).
Proof. reflexivity. Qed.
Lemma eye_fm : eye3 = fm (mk3 1 0 0) (mk3 0 1 0) (mk3 0 0 1). Proof. reflexivity. Qed.
Lemma M3_fm a b c : M3 (fv a) (fv b) (fv c) = fm a b c. Proof. reflexivity. Qed.

Global Opaque len.
