# Formal model of samurai688/Optics3D in Coq 8.16.1

## 1. Approach

The Python code is modelled function by function as total Gallina functions; each definition cites file and lines.

* **Numbers.** The model is written once, over operations-only type classes (`theories/Num.v`; no laws):
  `Num` (`+ - * / sqrt abs < <= ==`, integer and decimal literals), `Trig` (`cos sin arcsin arccos arctan2`)
  and `Elem` (`theories/General.v`: power, floor, logarithm for the helpers of general.py). Two instances:
  * `xr` (`theories/XReal.v`): exact real numbers extended with NaN and the two infinities, with the
    IEEE rules for the special values (NaN propagates, comparisons with NaN are false, `0/0 = NaN`,
    `sqrt(-1) = NaN`, `arcsin 2 = NaN` ...). The geometric theorems are about this instance:
    **rounding is not modelled there**, special values are. Signed zero is not modelled (`a/0` for `a <> 0`
    is an infinity with the sign of `a`).
  * `b64` (`theories/FloatInst.v`): IEEE 754 binary64, the code's own arithmetic, from the standard library's
    executable specification `Coq.Floats.SpecFloat` (plain Gallina: no primitive floats, no axioms).
    Used to run the repository's unit tests on the model (`RepoTests.v`) and for witnesses that live in
    rounding (`Props_Float.v`, `C60_binary64_refuted`). `Trig` is not provided for it: theorems that need it
    quantify over every `Trig b64`. `FloatReal.v`, `FloatVec.v`, `FloatHit.v` and `FloatRun.v` relate it to the reals by rounding
    to nearest even (C33, C81, C82, C85); sums are taken from left to right. numpy may use fused multiply-add or other
    orders in `np.dot`: that is not modelled.

  Theorems that do not depend on arithmetic laws (control flow, bookkeeping, trees, histories) are proved
  for **every** `Num` instance, hence for binary64 with rounding as well.
* **Exceptions** are values: `Res A := Ok a | Err exn` (`theories/PyErr.v`).
* **Objects** that are mutated in place become functions returning the new value. The loop of `Ray.run` is
  recursion on explicit fuel; running out of fuel is the separate error `OutOfFuel`, and termination
  theorems give a bound that is never exhausted.
* **`None`** is `option`; Python truthiness is written out. Unassigned locals are `None` of an outer option and
  reading them is `UnboundLocalError`.
* Specifications (`theories/Spec.v` and definitions beside the theorems) are in terms of ordinary real 3-vectors and say nothing about the model.
* The theorems named in MANIFEST.json are in `theories/Props_*.v`, each with a comment, `Print Assumptions`, and an
  `Example ..._hyp` showing that a concrete non-trivial case meets the hypotheses.

## 2. What is modelled

| code | model |
|---|---|
| `general_optics.py` 12-183, 187-239: vectors, matrices, `image_rays`, patch vertices | `Vec.v`, `General.v` |
| `general_optics.py` 247-624: `BinaryTree`, CSG evaluation, `postOrderEval` | `Csg.v` |
| `Shapes/shapes.py`: all classes (constructors, `test_intersect`, `test_point`, `normal`) | `Shapes.v` |
| `optics3d.py`: `Ray` (all reflect / refract types, `fly`, `run`), `Mirror`, `Lens`, `Grating`, `Detector`, `Compound`, `Block`, `Annotation`, `Filter`, `Window`, `get_index_at_point`, `add_faerie_fire_rays` | `Optics.v`, `General.v` |
| `optics3d.py`: `print_trajectory` and `Ray.__repr__` (627-649, 775, 817, 822-873) | `Printing.v` |
| `optics3d.py`: `__repr__` of the optics (62-69, 90-91, 176-182, 348-354, 488-494, 554-560) | `Repr.v` |
| `optics3d.py`: the `draw` methods (257-321, 443-468, 523-535, 582-594), up to the calls of matplotlib | `Drawing.v` |
| `general.py`: conversions, `wavelength_to_rgb`, `to_precision`, `find_nearest`, `set_axes_equal` | `General.v` |
| `general.py`: `movingAverageFast`, `savitzky_golay` | `Signal.v` |
| `general.py`: `prism10widetextarray`, `delete_files_with_extension`, `log_interp1d` | `Helpers.v` |
| `general.py`: `get_nQ`, `sackurTetrode`, `FD_int_num`, `FD_int_approx` | `Fermi.v` |
| `script_sketchconcavegratings.py` 17-54: the catalogue of gratings and the layout | `Gratings.v` |
| `test_*.py`, scenes of some scripts | `RepoTests.v`, `Props_Scene.v`, `Props_Train.v` |
| `script_*.py`, up to the loop that runs the rays | `Scripts.v`, `ScriptScenes.v`, `MoreScripts.v`, `CompoundScript.v`, `LensScripts.v` |

**Not modelled**: matplotlib itself; str() of
floats in one printed line; numpy broadcasting and dtypes (vectors are triples of one number type); numpy's warnings;
aliasing of arrays (the code shares `position` arrays between ray and history but only rebinds attributes, it never
mutates them in place, except the in-place normalisations noted at `rotation_matrix2`); the interactive / plotting parts of the scripts; `nparray2spacedstring` (a wrapper of numpy.array2string) and the window helpers `show_plot`, `raise_window` of `general.py`.

## 3. Where the model simplifies

* `np.dot` and `np.linalg.norm` of 3-vectors sum from left to right. This matters only for the binary64 instance (BLAS could fuse or reorder).
* `rotation_matrix`, `rotation_matrix2` normalise their arguments in place in Python; the model returns the matrix only.
* `shape.__repr__` is an arbitrary function in `postOrderEval`.
* `%g` formatting is modelled for the whole numbers that reach it in `to_precision`.
* `np.random.normal` is an arbitrary stream.
* `np.linalg.pinv` is an arbitrary function; the theorems that need it assume that it returns the Moore-Penrose inverse. `np.convolve` adds from left to right.
* `scipy.special.gamma` is an arbitrary function (C75 assumes a non-zero value at j + 1). `np.trapz` adds from left to right. `np.linspace` with a float number of points truncates it, as in numpy before 1.18. Literals like 6.62607004e-27 are exact quotients in the real instance, the only one used for `Fermi.v`.
* `str.format` is an arbitrary function in `prism10widetextarray`. The scipy spline of degree 1 in `log_interp1d` is the piecewise linear interpolant with continued end pieces. The file system of `delete_files_with_extension` is a tree of named entries (files, links to directories, directories); the listing of os.walk is computed before the removals.
* `float(str)` is an arbitrary function in `Gratings.v`; the file is the list of its lines.
* Python integers used as counters are `Z`; `max_interactions=np.inf` is `None`.

## 4. Properties

For partial claims, what is missing or false is said in the `note` of MANIFEST.json and in the comment above the theorem; `_partial` marks a restricted theorem, `_refuted` a proof that the statement is false in general (usually a witness).

| id | title | status | theorems | what is modelled, how it is proved |
|---|---|---|---|---|
| C01 | Normalisation is exact or NaN | proved | `C01_normalisation` | `unit_vector` (Vec.v). Rewriting of the model on finite vectors to real vectors; uniqueness of the positive multiple of length 1; the zero vector gives NaN components. |
| C02 | Projection onto a plane | proved | `C02_projection` | `project_onto_plane`. Real-vector algebra; minimality by Pythagoras. |
| C03 | Axis-angle rotation is a proper counterclockwise rotation | proved | `C03_axis_angle` | `rotation_matrix_axis_angle`. Real trigonometry, matrix identities by `ring` with cos^2+sin^2=1. |
| C04 | rotation_matrix2 carries a onto b rigidly | partial | `C04_rotation_matrix2_partial`, `C04_proper_rotation_refuted` | `rotation_matrix2`, `rotation_matrix4`. Rodrigues form, case split parallel / antiparallel / generic; the antiparallel case returns -I. |
| C05 | rotation_matrix changes v1 into v2 | partial | `C05_rotation_matrix_partial`, `C05_docstring_refuted` | `rotation_matrix`. Same algebra; the matrix is the inverse of what the docstring says (witness). |
| C06 | Angles between vectors | proved | `C06_angle_between` | `angle_between`. Properties of acos/atan2 at `xr`. |
| C07 | Plane intersection is sound and complete | proved | `C07_plane` | `Plane.test_intersect`. Exact solution of the linear equation with the code's two tolerances. |
| C08 | Circle aperture | proved | `C08_circle` | `Circle.test_intersect`, via C07. |
| C09 | Rectangle aperture | partial | `C09_rectangle_partial`, `C09_zero_width_refuted`, `C09_exact` | `Rectangle.__init__/test_intersect`. The four-bound dot-product test is shown equivalent to the two half-extent inequalities. |
| C10 | Sphere intersection points lie on the sphere ahead of the ray | partial | `C10_sphere_sound_partial`, `C10_tangent_behind_refuted` | `Sphere.test_intersect`. Discriminant case analysis; every reported point substituted into the sphere equation. |
| C11 | Sphere intersection is complete | proved | `C11_sphere_complete` | `Sphere.test_intersect`. Roots of the quadratic are the only meeting points. |
| C12 | Sphere hit count tells inside from outside | proved | `C12_parity` | `Sphere.test_intersect/test_point`. Sign of the quadratic at 0 against the number of roots > 1e-12. |
| C13 | Infinite cylinder intersection | partial | `C13_cylinder_sound_partial`, `C13_cylinder_complete_partial`, `C13_parallel_refuted`, `C13_tangent_refuted` | `InfiniteCylinder.test_intersect` with the code's homogeneous 4x4 transformation to object space and back. |
| C14 | Infinite cylinder membership | proved | `C14_cylinder_membership` | `InfiniteCylinder.test_point`. |
| C15 | CSG membership is Boolean set algebra | proved | `C15_membership`, `C15_membership_any_numbers` | `test_tree_point`. Structural induction on the tree, for every `Num` instance and at `xr` against set algebra in R^3. |
| C16 | Union hit is the first point of the union | partial | `C16_union_partial`, `C16_single_leaf_refuted`, `C16_tangent_refuted` | `operCsgUnion`, `helper_findIntersects`, `test_tree_intersect`. Induction on the tree with an invariant relating the two reported points to the set of all crossings. |
| C17 | Intersection hit is the first boundary point of the intersection | partial | `C17_intersect_partial`, `C17_tie_refuted`, `C17_tangent_refuted` | `operCsgIntersect`. Case analysis on the crossing intervals of both members. |
| C18 | Difference hit is the first boundary point of A minus B | partial | `C18_difference_partial`, `C18_raises_refuted`, `C18_in_front_refuted` | `operCsgDifference`. As C17; three defects shown by witness. |
| C19 | Malformed CSG trees fail loudly | partial | `C19_malformed_partial`, `C19_flat_leaf`, `C19_cylinder_leaf`, `C19_compound_leaf`, `C19_one_child_refuted` | `test_tree_intersect/test_tree_point` on arbitrary trees. Induction, every `Num`. |
| C20 | BinaryTree insertion pushes down and never loses data | proved | `C20_insertions`, `C20_getters` | `BinaryTree`. Induction over addresses and over sequences of calls; multiset of keys. |
| C21 | postOrderEval renders the tree faithfully | proved | `C21_render`, `C21_missing` | `postOrderEval`. Induction; injectivity by unique parsing of the parenthesised string. |
| C22 | Index of refraction lookup | partial | `C22_index_lookup_partial`, `C22_ball_lens_refuted` | `get_index_at_point`, `get_index_at_point_if_inside`. Induction on the list. |
| C23 | Law of reflection | proved | `C23_reflection` | `Ray.reflect(specular_flat)`. Real-vector algebra. |
| C24 | Snell's law | partial | `C24_snell_partial`, `C24_grazing_refuted` | `Ray.refract(snells_law)`. Real-vector algebra, both orientations of the normal. |
| C25 | Total internal reflection exactly past the critical angle | proved | `C25_total_internal_reflection` | Same function: the discriminant is negative exactly past the critical angle. |
| C26 | Refraction is reversible | partial | `C26_reversible_partial`, `C26_critical_refuted` | Same function, applied twice. |
| C27 | Ideal lens obeys the imaging equation | proved | `C27_imaging` | `Ray.refract(thin_lens)`. All outgoing lines pass through the image point; s = f separately. |
| C28 | Ideal lens parallel and central rays | partial | `C28_parallel_partial`, `C28_central_partial`, `C28_far_side_partial`, `C28_diverging_refuted`, `C28_tolerance_refuted` | Same function: parallel and central rays, sign of the axial component. |
| C29 | Ideal collimator and ideal focuser | proved | `C29_collimate`, `C29_focus` | `Ray.refract(ideal_collimate / ideal_focus)`. |
| C30 | Grating equation | partial | `C30_grating_partial`, `C30_other_side_refuted` | `Ray.reflect(grating)`, `Grating.do_intersect`. Trigonometry with asin/acos/atan2 at `xr`. |
| C31 | Gratings conserve the groove component and unit length | proved | `C31_groove`, `C31_order0` | Same functions, conical incidence; NaN when the order does not exist. |
| C32 | Ray directions stay unit vectors | proved | `C32_unit_directions`, `C32_constructed` | Invariant of the `run` loop by induction on the number of iterations, for constructor-built scenes. |
| C33 | run terminates | partial | `C33_terminates`, `C33_binary64`, `C33_binary64_count`, `C33_binary64_refuted` | Measure: each iteration with a hit uses more than 1e-12 of the remaining distance, at `xr`. In binary64: the same measure with the rounding error of one subtraction (at most 2^-40 up to 2^14, `FloatReal.v`) taken off, hence termination up to 16384; beyond, an explicit periodic state. |
| C34 | Path length budget | partial | `C34_path_length_partial`, `C34_order_refuted` | Invariant of the loop: length of the polyline + remaining = max_distance. Once a grating yields a NaN direction, NaN stays in the position. |
| C35 | The nearest optic is hit | proved | `C35_nearest` | Characterisation of the scan over the optics list by induction on it. |
| C36 | The outcome does not depend on the order of the optics list | partial | `C36_order_partial`, `C36_same_last_partial`, `C36_order_refuted` | Bisimulation of the runs of a list and a permutation of it; with lenses of glass (`Props_Leave.v`) the relation also keeps the last tested optic last. |
| C37 | A lens refracts according to the side of that lens the ray is on | partial | `C37_side_partial`, `C37_side_refuted` | Value of the local `shooting_from_outside` after the scan. |
| C38 | Detector bookkeeping | proved | `C38_detector`, `C38_point` | Invariant of the loop, every `Num` instance. |
| C39 | Rays do not influence each other | proved | `C39_independent` | Induction over the list of rays with a relation that ignores detector logs, every `Num` instance. |
| C40 | Faerie-fire rays stop at the first surface | proved | `C40_faerie`, `C40_one_point` | `run` of faerie-fire rays, every `Num` instance. |
| C41 | Blocked rays and non-positive budgets are inert | proved | `C41_inert` | `run_cond`, every ordered case, every `Num` instance. |
| C42 | Point history is append-only and chained | proved | `C42_history`, `C42_bound`, `C42_plot` | Invariant of the loop, every `Num` instance. |
| C43 | Rays stop on the surface they hit | partial | `C43_on_surface_partial`, `C43_touching_refuted` | One iteration at `xr`: the flown distance times the direction is the reported point; the point is on the surface by C07-C13, C46, C47. |
| C44 | Annotations, filters and windows are transparent | proved | `C44_transparent` | Bisimulation of the runs with and without the skipped optics, every `Num` instance. |
| C45 | Block stops rays | partial | `C45_block_refuted`, `C45_error_refuted` | `Block` has no `test_intersect`; every `Num` instance. |
| C46 | Concave mirror | proved | `C46_concave`, `C46_complete` | `Mirror` with shape `circular_concave_spherical`. |
| C47 | Convex mirror and ball lens report the nearest surface point | proved | `C47_ball_lens`, `C47_convex_mirror` | `Mirror` convex, `Lens` spherical; nearest of the reported sphere points. |
| C48 | Compound refraction picks the media correctly | partial | `C48_media_partial`, `C48_leaving_partial`, `C48_entering_refuted` | `Compound.do_intersect` for a one-sphere tree. |
| C49 | Mirrors can be built without DMD parameters | partial | `C49_default_refuted`, `C49_with_dmd_partial` | `Mirror.__init__`. |
| C50 | Radius/diameter arguments are validated | proved | `C50_radius_validation`, `C50_rectangle_validation`, `C50_cylinder` | `check_R_and_D`, `check_h_and_w`, constructors. |
| C51 | Faerie-fire generator | proved | `C51_faerie`, `C51_draws`, `C51_any`, `C51_none`, `C51_order`, `C51_terminates` | `add_faerie_fire_rays`. Induction on N with an arbitrary stream for `np.random.normal`. Counts, kind of ray and order of the draws for every number type in `Props_Sources.v`. |
| C52 | Object grid generator | proved | `C52_error`, `C52_grid`, `C52_ranges`, `C52_any` | `image_rays`. Induction over the nested loops. |
| C53 | Colour conversion stays in range | proved | `C53_range`, `C53_clamped`, `C53_bands` | `wavelength_to_rgb`. Case analysis over the branches, real powers. |
| C54 | Wavelength/energy conversions are mutually inverse | proved | `C54_inverse`, `C54_decreasing`, `C54_zero`, `C54_constant` | `wavelength_nm_to_energy_eV`, `energy_eV_to_wavelength_nm`. |
| C55 | to_precision prints correctly rounded numbers | proved | `C55_rounds`, `C55_special` | `to_precision`. Digit-level model of the string; decimal value of the string defined independently in `DecSpec.v`. |
| C56 | find_nearest | proved | `C56_nearest`, `C56_nan`, `C56_empty` | `find_nearest`. Induction over the array. |
| C57 | Scenes are translation invariant | proved | `C57_translate`, `C57_translate_all`, `C57_constructors`, `C57_shapes` | Bisimulation of the run of a scene and of its translate at `xr`; constructors commute with translation. |
| C58 | Equal axes | proved | `C58_axes`, `C58_nan` | `set_axes_equal`, `set_axes_radius`. |
| C59 | Patches are drawn in the plane of the optic | proved | `C59_patch` | `pathpatch_2d_to_3d`, `pathpatch_translate` (vertex arithmetic). |
| C60 | A ray does not hit again the optic it is leaving | partial | `C60_flat`, `C60_convex`, `C60_run`, `C60_binary64_refuted` | Loop body at `xr` after an interaction with a flat optic / convex mirror; binary64 witness. |
| C61 | Collimator and focusing lens relay a beam | proved | `C61_relay` | Three iterations of the loop computed symbolically (SceneProofs.v). |
| C62 | Trains of ideal lenses follow the ray-transfer law step by step | proved | `C62_train` | Induction on the train of lenses; invariant: every lens already passed or missed stays silent. |
| C63 | Imaging by a train of ideal lenses | proved | `C63_transfer`, `C63_single` | Linear algebra on the specification of C62. |
| C64 | A ray through a ball lens of real glass | proved | `C64_ball` | Two iterations of run through `scan`, with the sphere hit lemma, Snell law and the isosceles chord; nothing bounded. |
| C65 | Method of images for flat mirrors | proved | `C65_images`, `C65_two`, `C65_corner`, `C65_parallel` | `unfolds` (an inductive specification in terms of mirror images and first-met mirrors) is an invariant of the loop; total correctness with C33. Corollaries by vector algebra. |
| C66 | Printing the trajectory does not disturb the run | proved | `C66_print`, `C66_text`, `C66_who`, `C66_finite`, `C66_construct`, `C66_turn`, `C66_infinite_refuted` | `Printing.v` repeats run with its print statements in a writer over `Res`; induction on the fuel against the silent loop; `transcript` is an inductive specification over the recorded points. Finite scenes use the C32 invariant and totality of to_precision on finite numbers. |
| C67 | The picture of an optic shows where it can be hit | proved | `C67_disc`, `C67_detector`, `C67_sphere`, `C67_views`, `C67_names`, `C67_rectangle`, `C67_curved`, `C67_rectangle_refuted` | `Drawing.v` models the draw methods up to the calls of matplotlib; `shows` (the points covered by a picture) and `hittable` (the points some ray is reported to hit) are independent specifications; proved through the orthonormal frame of rotation_matrix and the hit lemmas of C08 and C09. |
| C68 | Turning a scene turns the result | proved | `C68_rotate`, `C68_rotate_all`, `C68_history`, `C68_rotations`, `C68_constructors`, `C68_thin_lens_refuted` | `Rotate.v`: a relation between a scene and the turned scene, shown to be kept by every function of the model, from the vector operations up to run_all (a logical-relation argument, induction on the fuel for the loop); the only property used of the rotation is that it is linear and keeps dot and cross products. |
| C69 | Fermat's principle | proved | `C69_refraction`, `C69_reflection`, `C69_shortest` | Support inequality (a.u <= |a| for unit u) on both legs, Snell's law in vector form; for whole runs by induction on `unfolds` (C65). |
| C70 | Runs between flat mirrors can be reversed | proved | `C70_reversible`, `C70_tolerance_refuted` | `light` is an inductive, purely geometric specification of a path; it is symmetric (induction), and the loop follows it (induction, one iteration per leg, by the iteration lemma of C65). |
| C71 | A ray through a singlet lens | proved | `C71_singlet`, `C71_way_out` | Chords of both solids along each segment (a quadratic whose slope is the inward component of the direction) give the report of operCsgIntersect; the path in the glass is an inductive, purely geometric specification and the loop follows it (induction, one iteration per segment). |
| C72 | The side from which a compound is hit | proved | `C72_parity`, `C72_right`, `C72_intersect`, `C72_union_refuted`, `C72_one_solid_refuted` | Induction on the tree: the counts add up, and the count of a leaf is odd exactly when it contains the start. |
| C73 | Moving average | proved | `C73_mean`, `C73_interior`, `C73_long`, `C73_errors`, `C73_constant_refuted` | `Signal.v` models np.convolve entry by entry; the convolution sum is re-indexed to the window (induction on the window length). |
| C74 | Savitzky-Golay filter | proved | `C74_least_squares`, `C74_polynomial`, `C74_line`, `C74_decreasing_refuted`, `C74_errors` | np.linalg.pinv is a parameter; from the Penrose equations the residual is orthogonal to all polynomials, hence least squares. Exactness needs uniqueness (a polynomial with more roots than its degree is zero, induction) and the Taylor expansion of polynomials (binomial theorem). |
| C75 | Numerical Fermi-Dirac integral | proved | `C75_loop`, `C75_limit`, `C75_too_small`, `C75_tails`, `C75_errors`, `C75_roman_refuted` | `Fermi.v`; np.trapz with swapped arguments is turned into the trapezoidal rule by summation by parts (induction); the loop by induction on the remaining iterations; convergence of the trapezoidal rule from uniform continuity and the mean value theorem. |
| C76 | Approximate Fermi-Dirac integral | proved | `C76_increasing`, `C76_increasing_refuted`, `C76_other` | Mean value theorem with positive derivative on the polynomial pieces; bounds on differences of powers on the others. |
| C77 | Quantum concentration and Sackur-Tetrode entropy | proved | `C77_concentration`, `C77_entropy`, `C77_laws`, `C77_errors` | `wavelength` and `entropy` are the textbook formulas; logarithm and square-root laws. |
| C78 | Text layout in rows of ten | proved | `C78_layout`, `C78_rows`, `C78_empty`, `C78_error`, `C78_words`, `C78_aligned` | `Helpers.v`; the loop is turned into a recursive text by induction, cut into lines by induction over the rows; every `Num` instance. |
| C79 | Deleting files by extension | proved | `C79_recursive`, `C79_flat`, `C79_directory`, `C79_missing`, `C79_everything` | `Helpers.v`; a directory is a list of named entries. Removing one file changes `kind_at` at one path only (induction on the path); the list of paths of os.walk has no repetitions and contains exactly the files (induction on the tree). |
| C80 | Interpolation on a double logarithmic scale | proved | `C80_value`, `C80_curve`, `C80_error` | `Helpers.v`; induction over the pieces; the corollaries from the chord equation in logarithms. |
| C81 | Rounding errors of vector operations | proved | `C81_unit`, `C81_overflow`, `C81_underflow`, `C81_distance`, `C81_reflect`, `C81_reflections` | `FloatVec.v`, on `FloatReal.v`: the standard model of rounding (relative error 2^-53, absolute error 2^-1075) for each operation, added up; the mirror image is linear and length preserving, so k reflections add k errors (induction). |
| C82 | Flat intersections under rounding | proved | `C82_plane`, `C82_circle`, `C82_no_rehit` | `FloatHit.v`, on `FloatVec.v`: numerator and denominator of the plane equation with their errors, the quotient by its condition number; the reflected ray starts within the error of the plane, far below the threshold 1e-9. |
| C83 | Stopping a run and continuing it | proved | `C83_prefix`, `C83_continue`, `C83_refuted` | `Continue.v`: run as an inductive relation without its bookkeeping (`flows`), its determinism, independence of the recorded history, monotonicity in the budget; reports of flat optics are translated along the ray. |
| C84 | Runs with an infinite maximum distance | proved | `C84_nowhere`, `C84_bounded`, `C84_never` | `Props_Infinite.v`; invariant of the loop: the remaining distance is inf, or it is nan and the position is not finite; in flat scenes a scan with inf agrees with the scan with any large enough distance, and the run is compared with `flows` of `Continue.v` (induction on fuel). |
| C85 | Runs between flat mirrors in binary64 follow the exact path | proved | `C85_run`, `C85_built`, `C85_exact` | `FloatRun.v`, on `FloatHit.v` and `FloatVec.v`: the error of the position is split into the part along the ray and the part across it; a reflection preserves the part across, so it grows linearly with the number of legs times the error of the direction, which grows linearly; the remaining distance is compared with the exact one through a telescoping sum. Induction on the exact path. |
| C86 | Focus of a concave mirror | proved | `C86_focus` | `Props_Focus.v`: the sphere point nearest to the crossing of the aperture disc is the one at the bottom (concave_complete of `OrderProofs.v`), explicit reflected direction, algebra; the reflected ray moves away from the plane of the aperture, so the mirror stays silent; run through `flows` of `Continue.v`. |
| C87 | Focus of a ball lens | proved | `C87_focus` | `Props_BallFocus.v`, on C64: the incoming and the outgoing line lie in a plane through the centre; directions and exit point are explicit in a = sqrt(1 - h^2/R^2) and b = sqrt(1 - h^2/(ix R)^2), the power is 2 g (b - a/ix)/R with g the axial cosine in the glass; bounds by elementary inequalities. The example is the scene of script_testBallLens.py. |
| C88 | Lensmaker's equation for a singlet built from two spheres | proved | `C88_lensmaker` | `Props_Lensmaker.v`, on C71: the path is explicit in the height h (square roots only); each of its quantities has a limit for h -> 0 (small calculus of one-sided limits), so the side conditions of C71 hold for small h and the crossing converges. The example is the lens of script_testBestformLens.py, whose back focal distance the script gives as 97.3. |
| C89 | Ray.run is the geometrical ray trace of a scene of flat optics | proved | `C89_trace`, `C89_unique`, `C89_complete` | `Props_Trace.v`: `traced` is an inductive specification over real vectors, with one constructor of `piece` per kind of constructor call and one of `leaves` per law; refinement by induction on traces, on top of `flows` (`Continue.v`), and completeness by induction on `flows`. The example is a ray focused by an ideal lens on a detector. |
| C90 | Diffraction out of the plane orthogonal to the grooves | proved | `C90_conical` | `Props_Spectro.v`: components in the orthonormal frame n, s, T; the code's direction comes from `grating_conical` (`Props_Trace.v`), for all rays and not only those orthogonal to T. |
| C91 | A grating spectrometer images wavelengths onto ordered points | proved | `C91_line`, `C91_order` | `Props_Spectro.v`: three steps of the ray trace of C89; ordering by an identity in the plane orthogonal to T. The example is a scene with two rays of one beam that are recorded in the same point. |
| C92 | Nested intersections: exactly when the ray query is right | proved | `C92_inside`, `C92_solid`, `C92_compounds`, `C92_three` | `Props_Nested.v`: an operator reports one point, so the operator above it counts one crossing and takes the start to be inside. The line meets an intersection in an interval; each configuration of two intervals is compared with the first crossing. |
| C93 | Runs in scenes of flat and curved optics as ray traces | proved | `C93_path`, `C93_reach`, `C93_unique`, `C93_complete`, `C93_ball_last`, `C93_ball_misled` | `Scenes.v`, `Props_Scenes.v`, `CsgStart.v`: specification of what is seen of each kind of optic (`sight`), what light does there (`turn`) and the way of a ray (`reach`, `path`). Every constructor is related to it once (`built_views`, `turn_do`); the run is then the way by induction over the legs. `CsgStart.v` redoes the compound queries for rays that start on a surface, which is where every leg but the first starts. |
| C94 | Unions and differences: exactly when the ray query is right | proved | `C94_nearest`, `C94_union`, `C94_difference`, `C94_from_B` | `CsgExact.v`, `Props_UnionDiff.v`: an invariant of the union operator (nearest surface point so far), and the fact that away from all surfaces membership does not change, so a crossing of the union is on a surface; for differences, each arrangement of two intervals on the line is compared with the first crossing. |
| C95 | Constructors of optics: which calls succeed, which raise, and what is kept | proved | `C95_mirror`, `C95_lens`, `C95_grating`, `C95_detector`, `C95_base` | `Props_Build.v`: case analysis over shapes and missing arguments; the rectangle cases rest on C50. |
| C96 | The catalogue of concave gratings and its layout | proved | `C96_load`, `C96_layout`, `C96_failures` | `Gratings.v`, `Props_Gratings.v`: the loop over fields is an update of an ordered dictionary; induction over columns and rows; law of cosines for the detector. |
| C97 | Rays along the axis of a cylinder, alone, in compounds and in scenes | proved | `C97_alone`, `C97_union`, `C97_difference`, `C97_intersect`, `C97_phantom`, `C97_through` | `Props_Along.v`: the report of the cylinder is one NaN vector; every comparison with its distance is false; case analysis of the three operators; induction over the scene with none_reports. |
| C98 | Rays that touch a ball, ahead or behind, in a run | proved | `C98_lens`, `C98_lens_end`, `C98_glance` | `Props_Touch.v`: tangent case of the sphere query; one iteration of the run as a lemma about scenes of one optic; the stops behind by induction, each step doubling the distance to the contact. |
| C99 | The DMD script images the object sharply on its tilted detector | proved | `C99_scene`, `C99_no_image`, `C99_sharp`, `C99_script` | `Scripts.v` (the scene of script_testDMD.py) and `Props_Dmd.v`: constructors by C95, trace by C89; each ideal lens maps the pencil from a point to a pencil through its image, the point where this meets the next plane is unique. |
| C100 | The imaging and relay scripts record the image of the object grid | proved | `C100_imaging`, `C100_relay`, `C100_scripts`, `C100_imaging_script` | `Scripts.v` (scenes, ray lists and loops of the two scripts) and `Props_Object.v`: constructors by C95, the object grid by C52, each ray by the train theorems C62/C63, all rays by induction over the list with the log of the detector as state. |
| C101 | Which exception the misuse of optics and CSG trees raises | proved | `C101_compound`, `C101_flat`, `C101_names`, `C101_run`, `C101_do`, `C101_far` | `Props_Kind.v`: by computation on the kind of answer (three values, six values, None) of each shape, for every `Num` instance. |
| C102 | Compounds made of one solid: light trapped, let out, and cylinders done right | proved | `C102_trapped`, `C102_exit`, `C102_cylinder`, `C102_rod` | `Props_Single.v`: ball and cylinder are treated together through the part of a vector that counts for the distance from centre or axis; the order of the two reported points from the case analyses of C10 and C13; one stop by single_step; the zigzag by induction on the number of corners, with the chord length as invariant. |
| C103 | Spheres and convex mirrors under rounding | proved | `C103_sphere`, `C103_miss`, `C103_normal`, `C103_mirror`, `C103_no_rehit` | `FloatSphere.v`, `Props_Sphere64.v`: error of each operation of the quadratic formula (disc64, roots64, point64), decisions settled by margins; after the reflection the exact crossings of the computed ray are compared with the threshold. |
| C104 | What faerie fire shows of a compound | proved | `C104_intersect`, `C104_difference`, `C104_union`, `C104_aimed`, `C104_picture`, `C104_lens`, `C104_bite`, `C104_scripts`, `C104_scenes` | `ScriptScenes.v` (the scenes and the loop of the scripts), `Props_Faerie.v`: along the line through c each solid is an interval (chord); the two-solid queries of C07/C94 evaluated from the start of the ray; then one turn of the loop of run. |
| C105 | Homogeneous coordinates and the two rotation matrices | proved | `C105_homogeneous`, `C105_transpose`, `C105_script` | `Props_Matrix.v`: the script as a function of its five vectors; matrix entries compared after replacing 1/(1+c) by (1-c)/l^2. |
| C106 | Littrow angle and the grating script | proved | `C106_run`, `C106_littrow`, `C106_script` | `Props_Littrow.v`: the trace of C89 with one grating; the diffracted direction written in the frame (normal, n x T, T). |
| C107 | What the example scripts with lenses and cylinders compute, and which scripts stop at once | proved | `C107_stop`, `C107_keywords`, `C107_thinlens`, `C107_ideal`, `C107_ideal_script`, `C107_fire_cylinder`, `C107_cylinder` | `MoreScripts.v`, `Props_MoreScripts.v`, `Props_CylScript.v`: the scripts as functions of their parameters; scenes of layers traced by C89, a cylinder compound by C102 and the faerie fire of C104. |
| C108 | What accompanies a reported hit | proved | `C108_sphere`, `C108_cylinder`, `C108_tree`, `C108_compound` | `Props_Reports.v`: cases of the two solids, then induction on the tree with the invariant that a reported hit has its fields. |
| C109 | Light between the solids of a union, and script_testCompound.py | proved | `C109_bounces`, `C109_row`, `C109_compound`, `C109_script`, `C109_binarytree` | `CompoundScript.v`, `Props_Unions.v`: the exact answer of a union (C94) at every leg, induction on the path; for the row of balls the path is computed and shown to leave the row. |
| C110 | Parallel light through a lens of two balls, script_testSingletLens.py and script_testBestformLens.py | proved | `C110_parallel`, `C110_script`, `C110_lenses` | `LensScripts.v`, `Props_Fan.v`, `Props_LensScripts.v`, on C71/C88: the explicit path of C88 with its side conditions derived for every height from the geometry instead of for small heights; the bounds on the focus by interval estimates of each quantity of the path; faerie fire from C104. |
| C111 | Light retraces its path through a lens and between the solids of a union | proved | `C111_lens`, `C111_union` | `Props_Retrace.v`, `Props_RetraceUnion.v`: Snell's law and specular reflection read backwards; the reversed path in the glass (induction, with the last vertex as accumulator) meets the hypotheses of C71, that of the union those of C109. |
| C112 | The mirror image of a scene has the mirror image of its light | proved | `C112_mirror`, `C112_mirror_all`, `C112_history`, `C112_reflections`, `C112_constructors`, `C112_grating_refuted`, `C112_thin_lens_refuted` | `MirrorImage.v`, `Props_Mirror.v`: a relation between a scene and its image kept by every function up to the run, as in C68; the four corners of a rectangle change places, the tangent of a grating is an axial vector. The refutation compares the two outgoing angles. |
| C113 | Light in a plane of symmetry stays there | proved | `C113_plane`, `C113_plane_all`, `C113_axis`, `C113_optics` | `Props_Symmetric.v`: C112 applied to a scene that is its own image; a vector equal to its image lies in the plane. |
| C114 | Between optics round about an axis, light keeps its moment about the axis | proved | `C114_moment`, `C114_centre`, `C114_refract`, `C114_optics` | `Normals.v`, `Props_Skew.v`: which normals each optic reports, carried through trees and the optics loops; an interaction adds a multiple of a normal without moment, or the ray is orthogonal to the normal; induction over the iterations. |
| C115 | What a run depends on: the colour of a ray matters only at gratings | proved | `C115_depends`, `C115_overlap`, `C115_all` | `Props_Depends.v`: every query reads only position and direction (induction over surfaces and trees); a relation between the states of two runs, kept by each iteration. |
| C116 | Optics out of the way of a ray can be left out of the scene | proved | `C116_leave_out`, `C116_far`, `C116_all`, `C116_last_refuted` | `Props_Leave.v`: a relation between the states of the two runs (same ray, the world with the optic inserted) kept by each iteration: the inserted optic is never the one chosen, and the flag handed to the chosen one is that of the last tested optic.  `C116_far` by the triangle inequality along the path. |
| C117 | All light that is absorbed is recorded, once | proved | `C117_ledger`, `C117_count`, `C117_one` | `Props_Count.v`: only a detector blocks light in a run that returns (a Block raises already when it is tested); multisets of wavelengths, by induction over the loop and over the fan. |
| C118 | max_interactions only cuts a run short | proved | `C118_prefix`, `C118_raises`, `C118_enough`, `C118_resume` | `Props_Limit.v`: the loop with a limit is an initial part of the loop without; for resuming, the big-step semantics `flows` of C83, in which count, selection, flag and max_distance do not occur, and its determinism. |
| C119 | The text of an optic | proved | `C119_text`, `C119_none`, `C119_after`, `C119_run`, `C119_finite`, `C119_missing` | `Repr.v` (the `__repr__` of every optic), `Props_Repr.v`: case analysis on the optic; what `to_precision` returns is C55. |

## 5. Trusted base

* Coq's kernel (8.16.1), including its bytecode evaluator (`vm_compute`) for the binary64 witnesses and `RepoTests.v`.
* The standard library axioms below, as listed by `Print Assumptions` for each theorem of MANIFEST.json. There are no others: no axiom,
  parameter, `Admitted` or unfinished obligation of our own, and no axiom of any other library. Flocq is used in `FloatReal.v`, `FloatVec.v`, `FloatHit.v` and the files of C33, C81 and C82 only, to read binary64 operations as rounded real operations.
* `ClassicalDedekindReals.sig_forall_dec`, `ClassicalDedekindReals.sig_not_dec`, `FunctionalExtensionality.functional_extensionality_dep`: C01_normalisation, C02_projection, C04_rotation_matrix2_partial, C04_proper_rotation_refuted, C05_rotation_matrix_partial, C05_docstring_refuted, C07_plane, C08_circle, C09_rectangle_partial, C09_zero_width_refuted, C09_exact, C10_sphere_sound_partial, C10_tangent_behind_refuted, C104_aimed, C104_scenes, C105_homogeneous, C105_transpose, C105_script, C11_sphere_complete, C112_constructors, C112_thin_lens_refuted, C113_optics, C114_refract, C114_optics, C12_parity, C13_cylinder_sound_partial, C13_cylinder_complete_partial, C13_parallel_refuted, C13_tangent_refuted, C14_cylinder_membership, C15_membership, C16_union_partial, C16_single_leaf_refuted, C16_tangent_refuted, C17_intersect_partial, C17_tie_refuted, C17_tangent_refuted, C18_difference_partial, C18_raises_refuted, C18_in_front_refuted, C19_one_child_refuted, C22_index_lookup_partial, C22_ball_lens_refuted, C23_reflection, C24_snell_partial, C24_grazing_refuted, C25_total_internal_reflection, C26_reversible_partial, C26_critical_refuted, C27_imaging, C28_parallel_partial, C28_central_partial, C28_far_side_partial, C28_diverging_refuted, C28_tolerance_refuted, C29_collimate, C29_focus, C32_constructed, C46_concave, C46_complete, C47_ball_lens, C47_convex_mirror, C49_with_dmd_partial, C50_radius_validation, C50_rectangle_validation, C50_cylinder, C51_faerie, C51_draws, C51_terminates, C54_inverse, C54_decreasing, C54_zero, C54_constant, C56_nearest, C56_nan, C57_constructors, C57_shapes, C58_axes, C58_nan, C59_patch, C60_convex, C63_transfer, C63_single, C68_constructors, C68_thin_lens_refuted, C69_refraction, C69_reflection, C71_way_out, C72_parity, C72_right, C72_intersect, C72_union_refuted, C72_one_solid_refuted, C73_mean, C73_interior, C73_long, C73_errors, C73_constant_refuted, C74_least_squares, C74_polynomial, C74_line, C74_decreasing_refuted, C74_errors, C81_underflow, C91_order, C92_inside, C92_solid, C92_compounds, C92_three, C94_nearest, C94_difference, C94_from_B, C95_lens, C95_base, C97_alone, C97_union, C97_difference, C97_intersect, C97_phantom, C99_script
* `ClassicalDedekindReals.sig_forall_dec`, `ClassicalDedekindReals.sig_not_dec`, `Classical_Prop.classic`, `FunctionalExtensionality.functional_extensionality_dep`: C03_axis_angle, C06_angle_between, C100_imaging, C100_relay, C100_scripts, C100_imaging_script, C102_trapped, C102_exit, C102_cylinder, C102_rod, C103_sphere, C103_miss, C103_normal, C103_mirror, C103_no_rehit, C104_intersect, C104_difference, C104_union, C104_picture, C104_lens, C104_bite, C104_scripts, C106_run, C106_littrow, C106_script, C107_thinlens, C107_ideal, C107_ideal_script, C107_fire_cylinder, C107_cylinder, C109_bounces, C109_row, C109_compound, C110_parallel, C110_script, C110_lenses, C111_lens, C111_union, C112_mirror, C112_mirror_all, C112_history, C112_grating_refuted, C113_plane, C113_plane_all, C113_axis, C114_moment, C114_centre, C115_overlap, C116_leave_out, C116_far, C116_all, C116_last_refuted, C118_resume, C119_finite, C119_missing, C30_grating_partial, C30_other_side_refuted, C31_groove, C31_order0, C32_unit_directions, C33_terminates, C33_binary64, C33_binary64_count, C34_path_length_partial, C34_order_refuted, C35_nearest, C36_order_partial, C36_same_last_partial, C36_order_refuted, C37_side_partial, C37_side_refuted, C38_point, C40_one_point, C42_bound, C43_on_surface_partial, C43_touching_refuted, C48_media_partial, C48_leaving_partial, C48_entering_refuted, C52_error, C52_grid, C52_ranges, C53_range, C53_clamped, C53_bands, C55_rounds, C55_special, C57_translate, C57_translate_all, C60_flat, C60_run, C61_relay, C62_train, C64_ball, C65_images, C65_two, C65_parallel, C66_finite, C66_construct, C66_turn, C66_infinite_refuted, C67_disc, C67_detector, C67_sphere, C67_rectangle, C67_curved, C67_rectangle_refuted, C68_rotate, C68_rotate_all, C68_history, C68_rotations, C69_shortest, C70_reversible, C70_tolerance_refuted, C71_singlet, C75_loop, C75_limit, C75_too_small, C75_tails, C75_errors, C75_roman_refuted, C76_increasing, C76_increasing_refuted, C76_other, C77_concentration, C77_entropy, C77_laws, C77_errors, C80_value, C80_curve, C80_error, C81_unit, C81_overflow, C81_distance, C81_reflect, C81_reflections, C82_plane, C82_circle, C82_no_rehit, C83_prefix, C83_continue, C83_refuted, C84_nowhere, C84_bounded, C84_never, C85_run, C85_built, C85_exact, C86_focus, C87_focus, C88_lensmaker, C89_trace, C89_unique, C89_complete, C90_conical, C91_line, C93_path, C93_reach, C93_unique, C93_complete, C93_ball_last, C93_ball_misled, C94_union, C95_mirror, C95_grating, C95_detector, C96_layout, C97_through, C98_lens, C98_lens_end, C98_glance, C99_scene, C99_no_image, C99_sharp
* no axioms (closed under the global context): C101_compound, C101_flat, C101_names, C101_run, C101_do, C101_far, C107_stop, C107_keywords, C108_sphere, C108_cylinder, C108_tree, C108_compound, C109_binarytree, C115_depends, C115_all, C117_ledger, C117_count, C117_one, C118_prefix, C118_raises, C118_enough, C119_text, C119_none, C119_after, C119_run, C15_membership_any_numbers, C19_malformed_partial, C19_flat_leaf, C19_cylinder_leaf, C19_compound_leaf, C20_insertions, C20_getters, C21_render, C21_missing, C33_binary64_refuted, C38_detector, C39_independent, C40_faerie, C41_inert, C42_history, C42_plot, C44_transparent, C45_block_refuted, C45_error_refuted, C49_default_refuted, C51_any, C51_none, C51_order, C52_any, C56_empty, C60_binary64_refuted, C66_print, C66_text, C66_who, C67_views, C67_names, C78_layout, C78_rows, C78_empty, C78_error, C78_words, C78_aligned, C79_recursive, C79_flat, C79_directory, C79_missing, C79_everything, C96_load, C96_failures
* `ClassicalDedekindReals.sig_forall_dec`, `FunctionalExtensionality.functional_extensionality_dep`: C109_script, C112_reflections, C65_corner

* The reading of the Python source (section 2 and 3), which `RepoTests.v` cross-checks against the repository's own unit tests.
* Mutation tests of the theorems are logged in `seeded/LOG.jsonl`: hand-made edits (every theorem that failed is listed) and systematically generated ones (ids y, z, s: operators, constants, arguments and branches swapped one at a time; the build of these stops at the first failure, the other theorems listed are those depending on it).

## 6. Findings about the code

* `Mirror(...)` without `dmd_normal` raises TypeError (C49); this breaks several scripts.
* A diverging ideal lens (f < 0) sends rays backwards (C28).
* The grating equation has the wrong sign for rays from the other side of the normal (C30).
* Rays that are not orthogonal to the grooves of a grating are turned too little: the path difference is multiplied by the sine of the angle to the grooves instead of being used as it is (C90).
* `rotation_matrix2` of antiparallel vectors is -I, not a rotation (C04); `rotation_matrix` is the inverse of what its docstring says (C05).
* A line touching a sphere or a cylinder behind the start is reported as a hit (C10, C13), also by unions and intersections (C16, C17); a ray parallel to a cylinder axis is reported as a hit at a NaN point (C13).
* `Rectangle` with zero width or height is unlimited in that direction (C09).
* A one-leaf CSG tree reports the far point (C16), so refracting one-sphere compounds never refract at entry (C48); intersect loses coincident
  crossings (C17); difference raises when only A is met and reports the far side of B when B is in front of A (C18).
* A compound inside an intersection is always taken to contain the start of the ray, because operators report one point only: an intersection of three overlapping solids is missed or reported at a wrong point by every ray that comes from outside (C92).
* `shooting_from_outside` is taken from the last optic tested, not from the one hit (C36, C37): a ball lens that is followed in the list by a flat mirror, grating or detector refracts every ray as leaving, followed by a flat lens as entering (C93).
* A ball lens does not take part in the index lookup (C22). `Block` has no `test_intersect` (C45).
* `run` need not terminate in binary64 once max_distance exceeds 16384 by enough (C33; the witness has 16777217), and large curved mirrors are hit twice through rounding (C60).
* With `print_trajectory=True` and an infinite budget the run raises OverflowError where the silent run returns (C66).
* Rectangular mirrors and gratings are drawn without regard to their tangent (C67).
* The near-parallel test of the ideal thin lens is taken component by component, so the lens depends on the choice of the axes (C68).
* Compounds misreport the side in the overlap of a union and for starts in exactly one member of an intersection (C72).
* `movingAverageFast` attenuates the ends (C73); `savitzky_golay` continues a decreasing signal the wrong way at its ends (C74).
* `FD_int_num` integrates with swapped arguments and is always too small by the end terms; its `roman` normalisation is right for j = 1/2 only (C75). `FD_int_approx` is discontinuous and drops at 10 and 1e5 (C76).
* `unit_vector` of a vector with components of 2^512 and more is the zero vector, of 2^-540 and less infinite (C81).
* `delete_files_with_extension` with the empty extension removes every file; without recursion it stops with OSError at a directory of matching name, after part of the files are gone (C79).
* A biconvex `Lens` without a normal is accepted by the constructor and raises AttributeError at the first ray (C95).
* A ray that `run` left within 1e-9 in front of an optic passes through it on the next `run` (C83).
* A solid from which a cylinder is subtracted, and a union whose second member is a cylinder, are invisible to rays along that cylinder; the flat end of a rod is reported as hit beside the rod (C97).
* A ray whose line touches a ball lens is bent although it misses the lens; if the contact is behind the start the ray is bent in empty space, after flying the distance to the contact (C98).
* A reflecting ball compound lets light in through its front and keeps it for ever, because a single sphere reports the far point; a single cylinder reports the near point and reflects correctly (C102).
