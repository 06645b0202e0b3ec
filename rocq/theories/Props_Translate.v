(** Properties of whole scenes under translation. *)
From Coq Require Import Reals ZArith Lra String List Bool.
From Verif Require Import PyErr Num Vec Shapes Csg Optics Spec XReal RVec Translate.
Import ListNotations.
Local Open Scope R_scope.

(* C57.  Moving the ray and every optic by the same vector moves the whole trajectory and every detector record by that vector and changes
   nothing else: same exceptions, same directions, flags, distances, number of iterations.  [tr_ray] and [tr_optic] (Translate.v) add the vector
   to positions only.  All values, NaN and infinities included; any scene, also ones no constructor builds. *)
Theorem C57_translate (v : R3) fuel (r : ray xr) (max_distance : xr) (world : list (optic xr)) (max_interactions : option Z) :
  run fuel (tr_ray v r) max_distance (map (tr_optic v) world) max_interactions
  = match run fuel r max_distance world max_interactions with
    | Ok (r', world') => Ok (tr_ray v r', map (tr_optic v) world')
    | Err e => Err e
    end.
Proof. rewrite run_tr. destruct (run fuel r max_distance world max_interactions) as [[r' w']|]; reflexivity. Qed.
Print Assumptions C57_translate.

(* The same for the loop over several rays sharing the optics. *)
Theorem C57_translate_all (v : R3) fuel (rays : list (ray xr)) (max_distance : xr) (world : list (optic xr)) (max_interactions : option Z) :
  run_all fuel (map (tr_ray v) rays) max_distance (map (tr_optic v) world) max_interactions
  = match run_all fuel rays max_distance world max_interactions with
    | Ok (rays', world') => Ok (map (tr_ray v) rays', map (tr_optic v) world')
    | Err e => Err e
    end.
Proof. rewrite run_all_tr. destruct (run_all fuel rays max_distance world max_interactions) as [[r' w']|]; reflexivity. Qed.
Print Assumptions C57_translate_all.

(* Building an optic at a translated position gives the translated optic, so the translated scenes above are the ones a user would write. *)
Theorem C57_constructors (v : R3) (p : vec xr) :
  (forall d wl o ty, mk_ray (tv v p) d wl o ty = tr_ray v (mk_ray p d wl o ty)) /\
  (forall shp n D w h f tg ty dmd, mk_mirror (tv v p) shp n D w h f tg ty dmd = match mk_mirror p shp n D w h f tg ty dmd with Ok m => Ok (tr_mirror v m) | Err e => Err e end) /\
  (forall n shp D f ty ix, mk_lens (tv v p) n shp D f ty ix = match mk_lens p n shp D f ty ix with Ok l => Ok (tr_lens v l) | Err e => Err e end) /\
  (forall n t shp w h G, mk_grating (tv v p) n t shp w h G = match mk_grating p n t shp w h G with Ok g => Ok (tr_grating v g) | Err e => Err e end) /\
  (forall n t shp w h, mk_detector (tv v p) n t shp w h = match mk_detector p n t shp w h with Ok d => Ok (tr_detector v d) | Err e => Err e end).
Proof.
  repeat split; intros; [rewrite mk_mirror_tr|rewrite mk_lens_tr|rewrite mk_grating_tr|rewrite mk_detector_tr];
  match goal with |- rmap _ ?x = _ => destruct x; reflexivity end.
Qed.
Print Assumptions C57_constructors.
Theorem C57_shapes (v : R3) (p : vec xr) :
  (forall n R D, mk_circle (tv v p) n R D = match mk_circle p n R D with Ok m => Ok (tr_circle v m) | Err e => Err e end) /\
  (forall R D, mk_sphere (tv v p) R D = match mk_sphere p R D with Ok m => Ok (tr_sphere v m) | Err e => Err e end) /\
  (forall d R D, mk_infcyl (tv v p) d R D = match mk_infcyl p d R D with Ok m => Ok (tr_infcyl v m) | Err e => Err e end) /\
  (forall n t h w, mk_rectangle (tv v p) n t h w = match mk_rectangle p n t h w with Ok m => Ok (tr_rectangle v m) | Err e => Err e end).
Proof.
  repeat split; intros; [rewrite mk_circle_tr|rewrite mk_sphere_tr|rewrite mk_infcyl_tr|rewrite mk_rectangle_tr];
  match goal with |- rmap _ ?x = _ => destruct x; reflexivity end.
Qed.
Print Assumptions C57_shapes.

(* What translating does to a concrete ball lens and ray: the centre and the start move, the radius and direction stay. *)
Example C57_hyp : tr_ray (mk3 1 2 3) (mk_ray (fv (mk3 0 0 0)) (fv (mk3 0 0 1)) (Fin 532) (Fin 0) "default")
    = mk_ray (fv (mk3 1 2 3)) (fv (mk3 0 0 1)) (Fin 532) (Fin 0) "default" /\
  tr_shape (mk3 1 2 3) (SSphere (mkSphere (fv (mk3 0 0 5)) (Fin 2) (Fin 4))) = SSphere (mkSphere (fv (mk3 1 2 8)) (Fin 2) (Fin 4)).
Proof.
  assert (E : forall a b c x y z, tv (mk3 a b c) (fv (mk3 x y z)) = fv (mk3 (x + a) (y + b) (z + c))) by reflexivity.
  split.
  - rewrite <- (mk_ray_tr (mk3 1 2 3)), E. do 2 f_equal. f_equal; ring.
  - cbn [tr_shape]. unfold tr_sphere. cbn [sp_center sp_R sp_D]. rewrite E. do 2 f_equal. do 2 f_equal; ring.
Qed.
