(** C81: rounding errors of the vector operations in binary64, the arithmetic of the code. *)
From Coq Require Import ZArith Reals Floats.SpecFloat String List Bool Lia Lra.
From Flocq Require Import Core IEEE754.BinarySingleNaN.
From Verif Require Import PyErr Num Vec Shapes Csg Optics Spec RVec FloatInst FloatReal FloatVec.
Import ListNotations.
Local Open Scope R_scope.

(** [isv v a]: [v] is a vector of finite binary64 numbers whose real values are [a]; [moderate a]: 2^-500 <= |a| <= 2^500. *)
(** C81: unit_vector is within 4e-16 of the exact direction, and of length 1 within 4e-16. *)
Theorem C81_unit : forall v a, isv v a -> moderate a ->
  exists u, isv (unit_vector v) u /\ len (u - dirn a)%r3 <= 4e-16 /\ Rabs (len u - 1) <= 4e-16.
Proof.
  intros v a Hv Ma. destruct (unit64 v a Hv Ma) as (u & Hu & Eu). exists u. split; [exact Hu|].
  assert (N : a <> r3zero) by (apply (nonzero_of_len a (bpow radix2 (-500))); [apply bpow_gt_0|apply Ma]). pose proof (unit64_len _ _ _ (dirn_unit a N) Eu). unfold eps64 in *. lra.
Qed.
Print Assumptions C81_unit.
(** the restriction is needed: beyond it the squares overflow or vanish *)
Theorem C81_overflow : exists v a, isv v a /\ len a = bpow radix2 512 /\ unit_vector v = V (nofZ 0) (nofZ 0) (nofZ 0).
Proof.
  exists (V (nofZ (2 ^ 512)) (nofZ 0) (nofZ 0)), (mk3 (bpow radix2 512) 0 0). split; [|split].
  - assert (Z0 : isr (nofZ 0) 0) by (repeat split). split; [|split; exact Z0]. cbn [vx cx].
    assert (K : bpow radix2 512 = IZR (2 ^ 512)) by (symmetry; exact (IZR_Zpower radix2 512 ltac:(lia))).
    assert (F : RN (IZR (2 ^ 512)) = bpow radix2 512) by (rewrite <- K; apply RN_bpow; lia). rewrite <- F. apply isr_nofZ. rewrite F, Rabs_pos_eq by apply bpow_ge_0. apply bpow_lt. lia.
  - apply len_eq_of_sq; [apply bpow_ge_0|]. r3_unf. cbn [cx cy cz]. ring.
  - vm_compute. reflexivity.
Qed.
Print Assumptions C81_overflow.
Theorem C81_underflow : exists v a, isv v a /\ len a = bpow radix2 (-540) /\ exists u, unit_vector v = V (S754_infinity false) u u.
Proof.
  exists (V (S754_finite false 4503599627370496 (-592)) (nofZ 0) (nofZ 0)), (mk3 (bpow radix2 (-540)) 0 0). split; [|split].
  - assert (Z0 : isr (nofZ 0) 0) by (repeat split). split; [|split; exact Z0]. cbn [vx cx]. split; [reflexivity|]. split; [reflexivity|].
    unfold SF2R, F2R. cbn [Fnum Fexp cond_Zopp]. change (IZR (Z.pos 4503599627370496)) with (bpow radix2 52). rewrite <- bpow_plus. reflexivity.
  - apply len_eq_of_sq; [apply bpow_ge_0|]. r3_unf. cbn [cx cy cz]. ring.
  - eexists. vm_compute. reflexivity.
Qed.
Print Assumptions C81_underflow.

(** C81: distance_between has relative error at most 4e-16. *)
Theorem C81_distance : forall p q a b, isv p a -> isv q b -> bpow radix2 (-490) <= len (a - b)%r3 <= bpow radix2 490 ->
  exists d, isr (distance_between p q) d /\ Rabs (d - len (a - b)%r3) <= 4e-16 * len (a - b)%r3.
Proof.
  intros p q a b Hp Hq M. destruct (distance64 p q a b Hp Hq M) as (d & Hd & Ed). exists d. split; [exact Hd|]. pose proof (len_nonneg (a - b)%r3).
  assert (3.6 * eps64 * len (a - b)%r3 <= 4e-16 * len (a - b)%r3) by (apply Rmult_le_compat_r; [assumption|unfold eps64; lra]). lra.
Qed.
Print Assumptions C81_distance.

(** C81: a specular reflection is within 9e-15 of the mirror image of the incoming direction, and the new direction is of length 1 within 4e-16. *)
Theorem C81_reflect : forall (r : ray b64) n a m, isv (direction r) a -> isv n m -> moderate a -> moderate m ->
  exists w, isv (direction (reflect_specular r n)) w /\ Rabs (len w - 1) <= 4e-16 /\
    len (w - (dirn a - (2 * (dirn a ∙ dirn m)) * dirn m))%r3 <= 9e-15.
Proof.
  intros r n a m Ha Hm Ma Mm. destruct (reflect64 (direction r) n a m Ha Hm Ma Mm) as (w & Hw & Lw & Ew). exists w. split; [exact Hw|].
  change (dirn a - (2 * (dirn a ∙ dirn m)) * dirn m)%r3 with (mirrored (dirn m) (dirn a)). unfold eps64 in *. lra.
Qed.
Print Assumptions C81_reflect.

(** C81: rounding errors do not build up faster than linearly: after any number k of reflections the direction is within k*1e-14 of the exact one. *)
Theorem C81_reflections : forall ns ms (r : ray b64) a, Forall2 isv ns ms -> Forall moderate ms -> isv (direction r) a -> moderate a ->
  exists w, isv (direction (fold_left reflect_specular ns r)) w /\ moderate w /\
    len (dirn w - fold_left (fun d m => d - (2 * (d ∙ dirn m)) * dirn m) ms (dirn a))%r3 <= INR (length ns) * 1e-14.
Proof.
  intros ns ms r a F M Ha Ma.
  assert (G : forall e, is_unit e -> exists w, isv (direction (fold_left reflect_specular ns r)) w /\ moderate w /\
    len (dirn w - fold_left (fun d m => mirrored (dirn m) d) ms e)%r3 <= INR (length ns) * 1e-14 + len (dirn a - e)%r3).
  { revert r a Ha Ma M. induction F as [|n m ns ms Hn F IH]; intros r a Ha Ma M e Ue.
    - cbn [fold_left length INR]. exists a. split; [exact Ha|]. split; [exact Ma|]. lra.
    - inversion M as [|m0 ms0 Mm Mms]; subst. destruct (reflect64 (direction r) n a m Ha Hn Ma Mm) as (w & Hw & Lw & Ew). cbn [fold_left length]. rewrite S_INR.
      pose proof (bpow_gt_0 radix2 (-500)) as P0. pose proof (nonzero_of_len a _ P0 (proj1 Ma)) as Na. pose proof (nonzero_of_len m _ P0 (proj1 Mm)) as Nm. pose proof (dirn_unit m Nm) as Um.
      assert (Lw' := Lw). apply Rabs_le_inv in Lw'. assert (Mw : moderate w) by (apply mid_moderate; unfold eps64 in *; lra). assert (Nw : w <> r3zero) by (apply (nonzero_of_len w (1/2)); unfold eps64 in *; lra).
      destruct (IH (reflect_specular r n) w Hw Mw Mms (mirrored (dirn m) e) (mirrored_unit _ _ Um Ue)) as (v & Hv & Mv & Ev). exists v. split; [exact Hv|]. split; [exact Mv|].
      assert (K : len (dirn w - mirrored (dirn m) e)%r3 <= 1e-14 + len (dirn a - e)%r3).
      { replace (dirn w - mirrored (dirn m) e)%r3 with ((dirn w - w) + ((w - mirrored (dirn m) (dirn a)) + (mirrored (dirn m) (dirn a) - mirrored (dirn m) e)))%r3 by r3_ring.
        eapply Rle_trans; [apply len_add|]. rewrite (dirn_close w Nw). pose proof (len_add (w - mirrored (dirn m) (dirn a))%r3 (mirrored (dirn m) (dirn a) - mirrored (dirn m) e)%r3) as T. rewrite (mirrored_sub _ _ _ Um) in T. unfold eps64 in *. lra. }
      lra. }
  assert (Na : a <> r3zero) by (apply (nonzero_of_len a (bpow radix2 (-500))); [apply bpow_gt_0|apply Ma]).
  destruct (G (dirn a) (dirn_unit a Na)) as (w & Hw & Mw & Ew). exists w. split; [exact Hw|]. split; [exact Mw|].
  replace (dirn a - dirn a)%r3 with r3zero in Ew by r3_ring. rewrite len_zero_r3 in Ew. unfold mirrored in Ew. lra.
Qed.
Print Assumptions C81_reflections.
Example C81_hyp : isv (V (nofZ 1) (nofZ 2) (nofZ 2)) (mk3 1 2 2) /\ moderate (mk3 1 2 2).
Proof.
  split.
  - assert (K : forall z, (0 < z < 3)%Z -> isr (nofZ z) (IZR z)). { intros z Hz. assert (z = 1 \/ z = 2)%Z as [-> | ->] by lia; (split; [reflexivity|split; [reflexivity|vm_compute; lra]]). }
    split; [|split]; cbn [vx vy vz cx cy cz]; apply K; lia.
  - assert (L : len (mk3 1 2 2) = 3) by (apply len_eq_of_sq; [lra|r3_unf; cbn; ring]). unfold moderate. rewrite L. split.
    + apply Rle_trans with (bpow radix2 0); [apply bpow_le; lia|]. change (bpow radix2 0) with 1. lra.
    + apply Rle_trans with (bpow radix2 2); [|apply bpow_le; lia]. change (bpow radix2 2) with 4. lra.
Qed.
