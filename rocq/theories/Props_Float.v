(** Ray.run in binary64 arithmetic: witnesses that live in rounding. *)
From Coq Require Import ZArith Floats.SpecFloat String List Bool.
From Verif Require Import PyErr Num Vec Shapes Csg Optics FloatInst.
Import ListNotations.
Local Open Scope string_scope.

(** two parallel plane mirrors 1.5e-9 apart, a ray bouncing between them, a range of 2^24 + 1: 16777217 - 1.5e-9 rounds to 16777217 *)
Definition gap : b64 := f 15 10.
Definition far : b64 := nofZ 16777217.
Definition o3 : vec b64 := V (nofZ 0) (nofZ 0) (nofZ 0).
Definition ex : vec b64 := V (nofZ 1) (nofZ 0) (nofZ 0).
Definition flat_at (x : b64) : Res (mirror b64) :=
  mk_mirror (V x (nofZ 0) (nofZ 0)) "circular_flat" (Some ex) (Some (nofZ 50)) None None None None "normal" (Some ex).
Definition bouncer : ray b64 := mk_ray o3 ex (nofZ 532) (nofZ 0) "normal".

Section Bounce.
Context {TT : Trig b64}.
Definition scene : Res (list (optic b64)) := do a <- flat_at (nofZ 0); do b <- flat_at gap; Ok [OMirror a; OMirror b].
Definition m0 := match flat_at (nofZ 0) with Ok m => m | Err _ => mkMirror o3 "" None "" o3 [] end.
Definition m1 := match flat_at gap with Ok m => m | Err _ => mkMirror o3 "" None "" o3 [] end.
Definition world := [OMirror m0; OMirror m1].
Lemma scene_is : scene = Ok world. Proof. vm_compute. reflexivity. Qed.

(** replace history and count *)
Definition with_hn (st : @run_st b64) (h : list (vec b64)) (n : Z) : run_st :=
  let r := rs_ray st in
  mkRun (mkRay (position r) (direction r) (wavelength r) (order r) h (blocked r) (ray_type r)) (rs_world st) n (rs_remaining st) (rs_sel st) (rs_sfo st).
Definition next (st : @run_st b64) : run_st := match run_body far st with Ok st' => st' | Err _ => st end.
Definition s1 : run_st := next (run_init bouncer far world).
Definition s2 : run_st := next s1.
Lemma to_s1 : run_body far (run_init bouncer far world) = Ok s1. Proof. vm_compute. reflexivity. Qed.
(** two iterations later everything but the history and the counter is as before *)
Lemma s1_s2 h n : exists h' n', run_body far (with_hn s1 h n) = Ok (with_hn s2 h' n').
Proof. exists (h ++ [o3])%list, (n + 1)%Z. vm_compute. reflexivity. Qed.
Lemma s2_s1 h n : exists h' n', run_body far (with_hn s2 h n) = Ok (with_hn s1 h' n').
Proof. exists (h ++ [V gap (nofZ 0) (nofZ 0)])%list, (n + 1)%Z. vm_compute. reflexivity. Qed.
Lemma goes_on h n : run_cond None (with_hn s1 h n) = true /\ run_cond None (with_hn s2 h n) = true.
Proof. split; vm_compute; reflexivity. Qed.
Lemma bounces fuel : forall h n, run_loop fuel far None (with_hn s1 h n) = Err OutOfFuel /\ run_loop fuel far None (with_hn s2 h n) = Err OutOfFuel.
Proof.
  induction fuel as [|fuel IH]; intros h n; destruct (goes_on h n) as [G1 G2]; cbn [run_loop]; rewrite G1, G2; [split; reflexivity|].
  destruct (s1_s2 h n) as (h1 & n1 & E1), (s2_s1 h n) as (h2 & n2 & E2). rewrite E1, E2. cbn [bind]. split; apply IH.
Qed.
End Bounce.

(** C33, binary64: the bound max_distance/1e-12 + 1 of the property holds for exact arithmetic (C33_terminates); in binary64 arithmetic the remaining
    distance can stay constant and run never returns: whatever the fuel, the loop has not ended.  The range is 16777217; up to 16384
    there is no such scene (C33_binary64).  The scene is built by the constructors. *)
Theorem C33_binary64_refuted : forall TT : Trig b64,
  exists a b r, flat_at (nofZ 0) = Ok a /\ flat_at gap = Ok b /\ r = mk_ray o3 ex (nofZ 532) (nofZ 0) "normal" /\
  forall fuel, run fuel r far [OMirror a; OMirror b] None = Err OutOfFuel.
Proof.
  intros TT. exists m0, m1, bouncer. split; [vm_compute; reflexivity|]. split; [vm_compute; reflexivity|]. split; [reflexivity|].
  intros fuel. unfold run. change [OMirror m0; OMirror m1] with world. destruct fuel as [|fuel].
  - replace (run_loop 0 far None (run_init bouncer far world)) with (@Err (@run_st b64) OutOfFuel) by (vm_compute; reflexivity). reflexivity.
  - cbn [run_loop]. replace (run_cond None (run_init bouncer far world)) with true by (vm_compute; reflexivity). rewrite to_s1. cbn [bind].
    change s1 with (with_hn s1 (point_history (rs_ray s1)) (rs_count s1)). rewrite (proj1 (bounces fuel _ _)). reflexivity.
Qed.
Print Assumptions C33_binary64_refuted.
