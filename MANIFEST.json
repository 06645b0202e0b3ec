{
 "claims": [
  {
   "property": "C01",
   "status": "proved",
   "theorems": [
    "C01_normalisation"
   ],
   "note": ""
  },
  {
   "property": "C02",
   "status": "proved",
   "theorems": [
    "C02_projection"
   ],
   "note": ""
  },
  {
   "property": "C03",
   "status": "proved",
   "theorems": [
    "C03_axis_angle"
   ],
   "note": ""
  },
  {
   "property": "C04",
   "status": "partial",
   "theorems": [
    "C04_rotation_matrix2_partial",
    "C04_proper_rotation_refuted"
   ],
   "note": "True except for antiparallel vectors, where the code returns -I (determinant -1); refuted by witness."
  },
  {
   "property": "C05",
   "status": "partial",
   "theorems": [
    "C05_rotation_matrix_partial",
    "C05_docstring_refuted"
   ],
   "note": "The matrix carries v2 to v1, not v1 to v2 (docstring refuted by witness); isometry and orientation proved."
  },
  {
   "property": "C06",
   "status": "proved",
   "theorems": [
    "C06_angle_between"
   ],
   "note": ""
  },
  {
   "property": "C07",
   "status": "proved",
   "theorems": [
    "C07_plane"
   ],
   "note": ""
  },
  {
   "property": "C08",
   "status": "proved",
   "theorems": [
    "C08_circle"
   ],
   "note": ""
  },
  {
   "property": "C09",
   "status": "partial",
   "theorems": [
    "C09_rectangle_partial",
    "C09_zero_width_refuted",
    "C09_exact"
   ],
   "note": "The property holds for positive extents and exactly perpendicular axes; with w = 0 (or h = 0) the aperture is unlimited in that direction, refuted by witness. C09_exact describes every rectangle the constructor accepts, nearly perpendicular axes and zero extents included."
  },
  {
   "property": "C10",
   "status": "partial",
   "theorems": [
    "C10_sphere_sound_partial",
    "C10_tangent_behind_refuted"
   ],
   "note": "Proved except for lines touching the sphere behind the start, which are reported as hits there (refuted by witness)."
  },
  {
   "property": "C100",
   "status": "proved",
   "theorems": [
    "C100_imaging",
    "C100_relay",
    "C100_scripts",
    "C100_imaging_script"
   ],
   "note": "Exact arithmetic."
  },
  {
   "property": "C101",
   "status": "proved",
   "theorems": [
    "C101_compound",
    "C101_flat",
    "C101_names",
    "C101_run",
    "C101_do",
    "C101_far"
   ],
   "note": "For every number type."
  },
  {
   "property": "C102",
   "status": "proved",
   "theorems": [
    "C102_trapped",
    "C102_exit",
    "C102_cylinder",
    "C102_rod"
   ],
   "note": "Exact arithmetic; exactly tangent and axis-parallel lines are in C97/C98, the exact critical angle is left out."
  },
  {
   "property": "C103",
   "status": "proved",
   "theorems": [
    "C103_sphere",
    "C103_miss",
    "C103_normal",
    "C103_mirror",
    "C103_no_rehit"
   ],
   "note": "Binary64 (spec_float) with the errors bounded through Flocq; lines closer to touching than the stated bound are left out."
  },
  {
   "property": "C104",
   "status": "proved",
   "theorems": [
    "C104_intersect",
    "C104_difference",
    "C104_union",
    "C104_aimed",
    "C104_picture",
    "C104_lens",
    "C104_bite",
    "C104_scripts",
    "C104_scenes"
   ],
   "note": "Exact reals; cylinders are met by lines that are not along their axis. The singlet and best-form scripts run a fan of ordinary rays first; only their faerie-fire rays are in this claim."
  },
  {
   "property": "C105",
   "status": "proved",
   "theorems": [
    "C105_homogeneous",
    "C105_transpose",
    "C105_script"
   ],
   "note": "Exact reals."
  },
  {
   "property": "C106",
   "status": "proved",
   "theorems": [
    "C106_run",
    "C106_littrow",
    "C106_script"
   ],
   "note": "Exact reals; the side of C30 where the code follows the grating equation. In the script cos(theta) is bounded away from 0 by G lambda0 <= 1.98e6."
  },
  {
   "property": "C107",
   "status": "proved",
   "theorems": [
    "C107_stop",
    "C107_keywords",
    "C107_thinlens",
    "C107_ideal",
    "C107_ideal_script",
    "C107_fire_cylinder",
    "C107_cylinder"
   ],
   "note": "C107_stop holds for every number type; the others for exact reals."
  },
  {
   "property": "C108",
   "status": "proved",
   "theorems": [
    "C108_sphere",
    "C108_cylinder",
    "C108_tree",
    "C108_compound"
   ],
   "note": "For every number type."
  },
  {
   "property": "C109",
   "status": "proved",
   "theorems": [
    "C109_bounces",
    "C109_row",
    "C109_compound",
    "C109_script",
    "C109_binarytree"
   ],
   "note": "Touching lines and further hits within 1e-12 of a turning point are excluded; the bounce path is a premise in (a) and derived in (b)-(c)."
  },
  {
   "property": "C11",
   "status": "proved",
   "theorems": [
    "C11_sphere_complete"
   ],
   "note": ""
  },
  {
   "property": "C110",
   "status": "proved",
   "theorems": [
    "C110_parallel",
    "C110_script",
    "C110_lenses"
   ],
   "note": "Exact arithmetic; biconvex lenses whose centres lie beyond the opposite faces, heights with h (1/RA + 1/RB) index < 1."
  },
  {
   "property": "C111",
   "status": "proved",
   "theorems": [
    "C111_lens",
    "C111_union"
   ],
   "note": "Exact arithmetic; the provisos are part of the statement."
  },
  {
   "property": "C112",
   "status": "proved",
   "theorems": [
    "C112_mirror",
    "C112_mirror_all",
    "C112_history",
    "C112_reflections",
    "C112_constructors",
    "C112_grating_refuted",
    "C112_thin_lens_refuted"
   ],
   "note": "The exceptions for gratings and the ideal thin lens are part of the statement."
  },
  {
   "property": "C113",
   "status": "proved",
   "theorems": [
    "C113_plane",
    "C113_plane_all",
    "C113_axis",
    "C113_optics"
   ],
   "note": ""
  },
  {
   "property": "C114",
   "status": "proved",
   "theorems": [
    "C114_moment",
    "C114_centre",
    "C114_refract",
    "C114_optics"
   ],
   "note": "Runs are covered for reflecting optics, refraction per interaction."
  },
  {
   "property": "C115",
   "status": "proved",
   "theorems": [
    "C115_depends",
    "C115_overlap",
    "C115_all"
   ],
   "note": "C115_overlap is in exact arithmetic, for gratings with a finite or missing groove density."
  },
  {
   "property": "C116",
   "status": "proved",
   "theorems": [
    "C116_leave_out",
    "C116_far",
    "C116_all",
    "C116_last_refuted"
   ],
   "note": "The far optic of C116_far is flat, or its queries are assumed to return without an exception (a ray touching a ball exactly raises)."
  },
  {
   "property": "C117",
   "status": "proved",
   "theorems": [
    "C117_ledger",
    "C117_count",
    "C117_one"
   ],
   "note": ""
  },
  {
   "property": "C118",
   "status": "proved",
   "theorems": [
    "C118_prefix",
    "C118_raises",
    "C118_enough",
    "C118_resume"
   ],
   "note": ""
  },
  {
   "property": "C119",
   "status": "proved",
   "theorems": [
    "C119_text",
    "C119_none",
    "C119_after",
    "C119_run",
    "C119_finite",
    "C119_missing"
   ],
   "note": ""
  },
  {
   "property": "C12",
   "status": "proved",
   "theorems": [
    "C12_parity"
   ],
   "note": ""
  },
  {
   "property": "C13",
   "status": "partial",
   "theorems": [
    "C13_cylinder_sound_partial",
    "C13_cylinder_complete_partial",
    "C13_parallel_refuted",
    "C13_tangent_refuted"
   ],
   "note": "Proved for rays neither parallel to the axis nor (soundness) tangent. The exclusions are needed: a parallel ray is always reported as a hit at a NaN point, a line touching behind the start as a hit there (refuted)."
  },
  {
   "property": "C14",
   "status": "proved",
   "theorems": [
    "C14_cylinder_membership"
   ],
   "note": ""
  },
  {
   "property": "C15",
   "status": "proved",
   "theorems": [
    "C15_membership",
    "C15_membership_any_numbers"
   ],
   "note": ""
  },
  {
   "property": "C16",
   "status": "partial",
   "theorems": [
    "C16_union_partial",
    "C16_single_leaf_refuted",
    "C16_tangent_refuted"
   ],
   "note": "Proved for union trees of spheres and infinite cylinders of every depth >= 1. Excluded: lines tangent to a member (refuted: a point behind the start is reported) or parallel to a cylinder axis, crossings within 1e-12 of the start (not reported by design). A one-leaf tree reports the far point (refuted)."
  },
  {
   "property": "C17",
   "status": "partial",
   "theorems": [
    "C17_intersect_partial",
    "C17_tie_refuted",
    "C17_tangent_refuted"
   ],
   "note": "Proved for two spheres or infinite cylinders, start anywhere. Excluded: tangent lines (refuted: a hit is reported where there is no common point) and lines parallel to a cylinder axis, crossings within 1e-12 of the start, rays through a point common to both surfaces (refuted: the overlap is missed)."
  },
  {
   "property": "C18",
   "status": "partial",
   "theorems": [
    "C18_difference_partial",
    "C18_raises_refuted",
    "C18_in_front_refuted"
   ],
   "note": "False as stated: ValueError whenever only A is met, far side of B reported when B lies in front of A. Proved in the remaining configurations."
  },
  {
   "property": "C19",
   "status": "partial",
   "theorems": [
    "C19_malformed_partial",
    "C19_flat_leaf",
    "C19_cylinder_leaf",
    "C19_compound_leaf",
    "C19_one_child_refuted"
   ],
   "note": "One-child nodes holding a shape are silently accepted (refuted); everything else raises."
  },
  {
   "property": "C20",
   "status": "proved",
   "theorems": [
    "C20_insertions",
    "C20_getters"
   ],
   "note": ""
  },
  {
   "property": "C21",
   "status": "proved",
   "theorems": [
    "C21_render",
    "C21_missing"
   ],
   "note": ""
  },
  {
   "property": "C22",
   "status": "partial",
   "theorems": [
    "C22_index_lookup_partial",
    "C22_ball_lens_refuted"
   ],
   "note": "Proved for every list when only Compounds count as solids. A ball lens (Lens, shape spherical) does not override the lookup, so its own interior reports the world index (refuted by witness)."
  },
  {
   "property": "C23",
   "status": "proved",
   "theorems": [
    "C23_reflection"
   ],
   "note": ""
  },
  {
   "property": "C24",
   "status": "partial",
   "theorems": [
    "C24_snell_partial",
    "C24_grazing_refuted"
   ],
   "note": "Everything proved except independence of the normal's orientation at exactly grazing incidence (i.n = 0), which is false (refuted)."
  },
  {
   "property": "C25",
   "status": "proved",
   "theorems": [
    "C25_total_internal_reflection"
   ],
   "note": ""
  },
  {
   "property": "C26",
   "status": "partial",
   "theorems": [
    "C26_reversible_partial",
    "C26_critical_refuted"
   ],
   "note": "Proved except at exactly the critical angle with i.n > 0, where it is false (refuted by witness)."
  },
  {
   "property": "C27",
   "status": "proved",
   "theorems": [
    "C27_imaging"
   ],
   "note": ""
  },
  {
   "property": "C28",
   "status": "partial",
   "theorems": [
    "C28_parallel_partial",
    "C28_central_partial",
    "C28_far_side_partial",
    "C28_diverging_refuted",
    "C28_tolerance_refuted"
   ],
   "note": "Converging lenses proved. Central rays only outside the near-parallel tolerance of the code: within it they are turned into the axis (refuted). A diverging lens sends every non-grazing ray backwards (refuted for all f < 0)."
  },
  {
   "property": "C29",
   "status": "proved",
   "theorems": [
    "C29_collimate",
    "C29_focus"
   ],
   "note": ""
  },
  {
   "property": "C30",
   "status": "partial",
   "theorems": [
    "C30_grating_partial",
    "C30_other_side_refuted"
   ],
   "note": "Proved for rays on one side of the normal (d.(n x T) <= 0); from the other side every diffracted order with G*m*lambda <> 0 violates the grating equation (refuted for all such rays)."
  },
  {
   "property": "C31",
   "status": "proved",
   "theorems": [
    "C31_groove",
    "C31_order0"
   ],
   "note": ""
  },
  {
   "property": "C32",
   "status": "proved",
   "theorems": [
    "C32_unit_directions",
    "C32_constructed"
   ],
   "note": ""
  },
  {
   "property": "C33",
   "status": "partial",
   "theorems": [
    "C33_terminates",
    "C33_binary64",
    "C33_binary64_count",
    "C33_binary64_refuted"
   ],
   "note": "Proved in full for exact arithmetic (reals with NaN and infinities). For binary64, the arithmetic the code runs in: C33_binary64 proves termination for every max_distance from 0 to 16384, with at most max_distance/9e-14 + 1 iterations (rounding can eat up to 9.1e-13 of the 1e-12 each iteration uses); C33_binary64_count proves the bound N for every binary64 max_distance when max_interactions = N. For larger ranges without max_interactions the statement is false: C33_binary64_refuted gives two plane mirrors 1.5e-9 apart and a ray with max_distance 16777217 whose remaining distance stops decreasing because the decrement is below half an ulp, and shows the loop never ends for any amount of fuel."
  },
  {
   "property": "C34",
   "status": "partial",
   "theorems": [
    "C34_path_length_partial",
    "C34_order_refuted"
   ],
   "note": "Proved for every scene of constructor-built optics (gratings included) and every finite max_distance >= 0, unless a grating is hit that lacks the diffraction order of the ray: then the direction, and the next recorded position, contain NaN and the claim is false (refuted by witness). Exact arithmetic."
  },
  {
   "property": "C35",
   "status": "proved",
   "theorems": [
    "C35_nearest"
   ],
   "note": ""
  },
  {
   "property": "C36",
   "status": "partial",
   "theorems": [
    "C36_order_partial",
    "C36_same_last_partial",
    "C36_order_refuted"
   ],
   "note": "Proved for scenes without lenses of real glass and, for all scenes, for every rearrangement that leaves the last optic run tests the last one. Otherwise the order matters (refuted by witness), because the flag handed to a lens of glass is taken from the last optic tested."
  },
  {
   "property": "C37",
   "status": "partial",
   "theorems": [
    "C37_side_partial",
    "C37_side_refuted"
   ],
   "note": "Proved when the lens is the last non-skipped optic of the list and the ray's line is not tangent; false otherwise (refuted by witness)."
  },
  {
   "property": "C38",
   "status": "proved",
   "theorems": [
    "C38_detector",
    "C38_point"
   ],
   "note": ""
  },
  {
   "property": "C39",
   "status": "proved",
   "theorems": [
    "C39_independent"
   ],
   "note": ""
  },
  {
   "property": "C40",
   "status": "proved",
   "theorems": [
    "C40_faerie",
    "C40_one_point"
   ],
   "note": ""
  },
  {
   "property": "C41",
   "status": "proved",
   "theorems": [
    "C41_inert"
   ],
   "note": ""
  },
  {
   "property": "C42",
   "status": "proved",
   "theorems": [
    "C42_history",
    "C42_bound",
    "C42_plot"
   ],
   "note": ""
  },
  {
   "property": "C43",
   "status": "partial",
   "theorems": [
    "C43_on_surface_partial",
    "C43_touching_refuted"
   ],
   "note": "Proved except for lines that touch a curved surface without crossing it, for which the code reports points behind the ray and the claim is false (refuted by witness)."
  },
  {
   "property": "C44",
   "status": "proved",
   "theorems": [
    "C44_transparent"
   ],
   "note": ""
  },
  {
   "property": "C45",
   "status": "partial",
   "theorems": [
    "C45_block_refuted",
    "C45_error_refuted"
   ],
   "note": "False: Block inherits Optic, which has no test_intersect, so any scene with a Block raises AttributeError as soon as the loop reaches it (proved for every number type)."
  },
  {
   "property": "C46",
   "status": "proved",
   "theorems": [
    "C46_concave",
    "C46_complete"
   ],
   "note": ""
  },
  {
   "property": "C47",
   "status": "proved",
   "theorems": [
    "C47_ball_lens",
    "C47_convex_mirror"
   ],
   "note": ""
  },
  {
   "property": "C48",
   "status": "partial",
   "theorems": [
    "C48_media_partial",
    "C48_leaving_partial",
    "C48_entering_refuted"
   ],
   "note": "Compound.do_intersect picks the media correctly at every point of the sphere, and rays from inside leave correctly; but test_intersect reports the exit point for rays that enter, so they are never refracted at entry (refuted for all such rays)."
  },
  {
   "property": "C49",
   "status": "partial",
   "theorems": [
    "C49_default_refuted",
    "C49_with_dmd_partial"
   ],
   "note": "False: dmd_normal defaults to None and is normalised unconditionally (TypeError for every call without it); with a dmd_normal the constructor succeeds."
  },
  {
   "property": "C50",
   "status": "proved",
   "theorems": [
    "C50_radius_validation",
    "C50_rectangle_validation",
    "C50_cylinder"
   ],
   "note": ""
  },
  {
   "property": "C51",
   "status": "proved",
   "theorems": [
    "C51_faerie",
    "C51_draws",
    "C51_any",
    "C51_none",
    "C51_order",
    "C51_terminates"
   ],
   "note": "Random numbers are an arbitrary stream; C51_any, C51_none and C51_order hold for every number type (C51_order where the zero vector is shorter than 1e-6, as for binary64), the others for reals; termination under the stated condition on the stream."
  },
  {
   "property": "C52",
   "status": "proved",
   "theorems": [
    "C52_error",
    "C52_grid",
    "C52_ranges",
    "C52_any"
   ],
   "note": "C52_any holds for every number type."
  },
  {
   "property": "C53",
   "status": "proved",
   "theorems": [
    "C53_range",
    "C53_clamped",
    "C53_bands"
   ],
   "note": ""
  },
  {
   "property": "C54",
   "status": "proved",
   "theorems": [
    "C54_inverse",
    "C54_decreasing",
    "C54_zero",
    "C54_constant"
   ],
   "note": ""
  },
  {
   "property": "C55",
   "status": "proved",
   "theorems": [
    "C55_rounds",
    "C55_special"
   ],
   "note": "Exact arithmetic; %g is modelled for the whole numbers of at most p digits that reach it."
  },
  {
   "property": "C56",
   "status": "proved",
   "theorems": [
    "C56_nearest",
    "C56_nan",
    "C56_empty"
   ],
   "note": ""
  },
  {
   "property": "C57",
   "status": "proved",
   "theorems": [
    "C57_translate",
    "C57_translate_all",
    "C57_constructors",
    "C57_shapes"
   ],
   "note": "Exact arithmetic (reals with NaN and infinities)."
  },
  {
   "property": "C58",
   "status": "proved",
   "theorems": [
    "C58_axes",
    "C58_nan"
   ],
   "note": ""
  },
  {
   "property": "C59",
   "status": "proved",
   "theorems": [
    "C59_patch"
   ],
   "note": ""
  },
  {
   "property": "C60",
   "status": "partial",
   "theorems": [
    "C60_flat",
    "C60_convex",
    "C60_run",
    "C60_binary64_refuted"
   ],
   "note": "Proved in exact arithmetic for every run over constructor-built optics, gratings included (a convex mirror not met tangentially). False in binary64: a mirror of radius 5000 is hit again at a distance below 3e-12."
  },
  {
   "property": "C61",
   "status": "proved",
   "theorems": [
    "C61_relay"
   ],
   "note": "Exact arithmetic."
  },
  {
   "property": "C62",
   "status": "proved",
   "theorems": [
    "C62_train"
   ],
   "note": "Exact arithmetic; slopes of 1e8 and more (|d.N| <= 1e-8) excluded."
  },
  {
   "property": "C63",
   "status": "proved",
   "theorems": [
    "C63_transfer",
    "C63_single"
   ],
   "note": "Exact arithmetic."
  },
  {
   "property": "C64",
   "status": "proved",
   "theorems": [
    "C64_ball"
   ],
   "note": "Exact arithmetic; the lens alone in the scene; chords up to the clipping distance 1e-12 excluded."
  },
  {
   "property": "C65",
   "status": "proved",
   "theorems": [
    "C65_images",
    "C65_two",
    "C65_corner",
    "C65_parallel"
   ],
   "note": "Exact arithmetic; termination included (any fuel above m/1e-12 + 1)."
  },
  {
   "property": "C66",
   "status": "proved",
   "theorems": [
    "C66_print",
    "C66_text",
    "C66_who",
    "C66_finite",
    "C66_construct",
    "C66_turn",
    "C66_infinite_refuted"
   ],
   "note": "C66_print holds for every number type. str() of the two floats in the grating line is not modelled (the line keeps the numbers). C66_finite: scenes without gratings."
  },
  {
   "property": "C67",
   "status": "proved",
   "theorems": [
    "C67_disc",
    "C67_detector",
    "C67_sphere",
    "C67_views",
    "C67_names",
    "C67_rectangle",
    "C67_curved",
    "C67_rectangle_refuted"
   ],
   "note": "matplotlib itself is not modelled: a circle patch is the disc of its radius, a rectangle patch its rectangle, a polygon the convex combinations of its corners. Rectangular mirrors: the property includes the refutation."
  },
  {
   "property": "C68",
   "status": "proved",
   "theorems": [
    "C68_rotate",
    "C68_rotate_all",
    "C68_history",
    "C68_rotations",
    "C68_constructors",
    "C68_thin_lens_refuted"
   ],
   "note": "Exact arithmetic. Ideal thin lenses: the property includes the refutation."
  },
  {
   "property": "C69",
   "status": "proved",
   "theorems": [
    "C69_refraction",
    "C69_reflection",
    "C69_shortest"
   ],
   "note": "Exact arithmetic."
  },
  {
   "property": "C70",
   "status": "proved",
   "theorems": [
    "C70_reversible",
    "C70_tolerance_refuted"
   ],
   "note": "Exact arithmetic. The property includes the refutation below the tolerance."
  },
  {
   "property": "C71",
   "status": "proved",
   "theorems": [
    "C71_singlet",
    "C71_way_out"
   ],
   "note": "Exact arithmetic."
  },
  {
   "property": "C72",
   "status": "proved",
   "theorems": [
    "C72_parity",
    "C72_right",
    "C72_intersect",
    "C72_union_refuted",
    "C72_one_solid_refuted"
   ],
   "note": "Exact arithmetic. The property includes the refutations."
  },
  {
   "property": "C73",
   "status": "proved",
   "theorems": [
    "C73_mean",
    "C73_interior",
    "C73_long",
    "C73_errors",
    "C73_constant_refuted"
   ],
   "note": "Exact arithmetic. The property includes the refutation for the ends."
  },
  {
   "property": "C74",
   "status": "proved",
   "theorems": [
    "C74_least_squares",
    "C74_polynomial",
    "C74_line",
    "C74_decreasing_refuted",
    "C74_errors"
   ],
   "note": "Exact arithmetic; np.linalg.pinv is a parameter satisfying the Penrose equations. The property includes the refutation."
  },
  {
   "property": "C75",
   "status": "proved",
   "theorems": [
    "C75_loop",
    "C75_limit",
    "C75_too_small",
    "C75_tails",
    "C75_errors",
    "C75_roman_refuted"
   ],
   "note": "Exact arithmetic; scipy.special.gamma is a parameter. The property includes the refutation."
  },
  {
   "property": "C76",
   "status": "proved",
   "theorems": [
    "C76_increasing",
    "C76_increasing_refuted",
    "C76_other"
   ],
   "note": "Exact arithmetic. The property includes the refutation."
  },
  {
   "property": "C77",
   "status": "proved",
   "theorems": [
    "C77_concentration",
    "C77_entropy",
    "C77_laws",
    "C77_errors"
   ],
   "note": "Exact arithmetic."
  },
  {
   "property": "C78",
   "status": "proved",
   "theorems": [
    "C78_layout",
    "C78_rows",
    "C78_empty",
    "C78_error",
    "C78_words",
    "C78_aligned"
   ],
   "note": "Every number type; str.format is a parameter."
  },
  {
   "property": "C79",
   "status": "proved",
   "theorems": [
    "C79_recursive",
    "C79_flat",
    "C79_directory",
    "C79_missing",
    "C79_everything"
   ],
   "note": "The file system is a tree of named entries; permissions and other processes are not modelled."
  },
  {
   "property": "C80",
   "status": "proved",
   "theorems": [
    "C80_value",
    "C80_curve",
    "C80_error"
   ],
   "note": "Exact arithmetic. The scipy spline of degree 1 is modelled as the piecewise linear interpolant it computes."
  },
  {
   "property": "C81",
   "status": "proved",
   "theorems": [
    "C81_unit",
    "C81_overflow",
    "C81_underflow",
    "C81_distance",
    "C81_reflect",
    "C81_reflections"
   ],
   "note": "binary64, round to nearest even, sums from left to right without fused multiply-add."
  },
  {
   "property": "C82",
   "status": "proved",
   "theorems": [
    "C82_plane",
    "C82_circle",
    "C82_no_rehit"
   ],
   "note": "binary64, round to nearest even, sums from left to right without fused multiply-add."
  },
  {
   "property": "C83",
   "status": "proved",
   "theorems": [
    "C83_prefix",
    "C83_continue",
    "C83_refuted"
   ],
   "note": "Exact arithmetic. The property includes the refutation."
  },
  {
   "property": "C84",
   "status": "proved",
   "theorems": [
    "C84_nowhere",
    "C84_bounded",
    "C84_never"
   ],
   "note": "Exact arithmetic extended with inf and nan. A loop that does not end is Err OutOfFuel for every fuel."
  },
  {
   "property": "C85",
   "status": "proved",
   "theorems": [
    "C85_run",
    "C85_built",
    "C85_exact"
   ],
   "note": "binary64, round to nearest even, sums from left to right without fused multiply-add. Circular flat mirrors of type normal and skipped optics."
  },
  {
   "property": "C86",
   "status": "proved",
   "theorems": [
    "C86_focus"
   ],
   "note": "Exact arithmetic."
  },
  {
   "property": "C87",
   "status": "proved",
   "theorems": [
    "C87_focus"
   ],
   "note": "Exact arithmetic. The lens is alone in the scene."
  },
  {
   "property": "C88",
   "status": "proved",
   "theorems": [
    "C88_lensmaker"
   ],
   "note": "Exact arithmetic. The lens is alone in the scene."
  },
  {
   "property": "C89",
   "status": "proved",
   "theorems": [
    "C89_trace",
    "C89_unique",
    "C89_complete"
   ],
   "note": "Exact arithmetic. Gratings in orders other than 0 are covered from the front with d.(n x T) <= 0, where the code follows the grating equation (see C30); concave mirrors and other curved optics are not covered."
  },
  {
   "property": "C90",
   "status": "proved",
   "theorems": [
    "C90_conical"
   ],
   "note": "Exact arithmetic."
  },
  {
   "property": "C91",
   "status": "proved",
   "theorems": [
    "C91_line",
    "C91_order"
   ],
   "note": "Exact arithmetic. Beams whose diffracted direction agrees with the lens axis up to the tolerance 1e-8 of the code are excluded in C91_line (the code sends them to the focal point)."
  },
  {
   "property": "C92",
   "status": "proved",
   "theorems": [
    "C92_inside",
    "C92_solid",
    "C92_compounds",
    "C92_three"
   ],
   "note": "Exact arithmetic; the regularity conditions are part of the statement."
  },
  {
   "property": "C93",
   "status": "proved",
   "theorems": [
    "C93_path",
    "C93_reach",
    "C93_unique",
    "C93_complete",
    "C93_ball_last",
    "C93_ball_misled"
   ],
   "note": "Exact arithmetic; clean lines of sight, gratings in order 0 for completeness, and no ball of glass when the last optic tested is a compound are part of the statement."
  },
  {
   "property": "C94",
   "status": "proved",
   "theorems": [
    "C94_nearest",
    "C94_union",
    "C94_difference",
    "C94_from_B"
   ],
   "note": "Exact arithmetic; the regularity conditions are part of the statement."
  },
  {
   "property": "C95",
   "status": "proved",
   "theorems": [
    "C95_mirror",
    "C95_lens",
    "C95_grating",
    "C95_detector",
    "C95_base"
   ],
   "note": "Exact arithmetic."
  },
  {
   "property": "C96",
   "status": "proved",
   "theorems": [
    "C96_load",
    "C96_layout",
    "C96_failures"
   ],
   "note": "float() is an arbitrary function from texts to numbers or ValueError; the layout formulas are in exact arithmetic."
  },
  {
   "property": "C97",
   "status": "proved",
   "theorems": [
    "C97_alone",
    "C97_union",
    "C97_difference",
    "C97_intersect",
    "C97_phantom",
    "C97_through"
   ],
   "note": "Exact arithmetic with NaN; the solid beside the cylinder is a ball or another cylinder."
  },
  {
   "property": "C98",
   "status": "proved",
   "theorems": [
    "C98_lens",
    "C98_lens_end",
    "C98_glance"
   ],
   "note": "Exact arithmetic."
  },
  {
   "property": "C99",
   "status": "proved",
   "theorems": [
    "C99_scene",
    "C99_no_image",
    "C99_sharp",
    "C99_script"
   ],
   "note": "Exact arithmetic."
  }
 ]
}