{"id": "C01", "title": "Normalisation is exact or NaN", "statement": "unit_vector(v) of a non-zero vector is the unique vector of length 1 that is a positive multiple of v; of the zero vector it is all-NaN, no exception is raised. Consequently unit_vector is idempotent on non-zero vectors and invariant under positive scaling.", "quantifier": "every vector with real components", "why_tests_cant": "The claim ranges over an uncountable set of real inputs; a test samples finitely many of them.", "anchors": ["general_optics.py:unit_vector"]}
{"id": "C02", "title": "Projection onto a plane", "statement": "project_onto_plane(x, n) for n != 0 is orthogonal to n, differs from x by a multiple of n, is a fixed point of the same projection, depends only on the line spanned by n, and is the point of the plane through 0 orthogonal to n that is closest to x.", "quantifier": "every vector x and every non-zero n", "why_tests_cant": "The claim ranges over an uncountable set of real inputs; a test samples finitely many of them.", "anchors": ["general_optics.py:project_onto_plane"]}
{"id": "C03", "title": "Axis-angle rotation is a proper counterclockwise rotation", "statement": "rotation_matrix_axis_angle(k, t) for k != 0 preserves dot products and the cross product (determinant +1), fixes k, turns every vector orthogonal to k by the angle t counterclockwise seen from the tip of k, and satisfies R(k,s)R(k,t)=R(k,s+t), R(k,0)=I, R(k,-t)=R(k,t)^-1.", "quantifier": "every non-zero axis, every pair of angles, every vector", "why_tests_cant": "The claim ranges over an uncountable set of real inputs; a test samples finitely many of them.", "anchors": ["general_optics.py:rotation_matrix_axis_angle"]}
{"id": "C04", "title": "rotation_matrix2 carries a onto b rigidly", "statement": "rotation_matrix2(a, b) for non-zero a, b maps the direction of a to the direction of b and preserves lengths and dot products; it is always a proper rotation (determinant +1).", "quantifier": "every pair of non-zero vectors a, b, including parallel and antiparallel ones", "why_tests_cant": "The claim ranges over an uncountable set of real inputs; a test samples finitely many of them.", "anchors": ["general_optics.py:rotation_matrix2", "general_optics.py:rotation_matrix4"]}
{"id": "C05", "title": "rotation_matrix changes v1 into v2", "statement": "rotation_matrix(v1, v2) applied to the direction of v1 gives the direction of v2, and preserves lengths (docstring: 'rotation matrix that changes v1 into v2').", "quantifier": "every pair of non-zero vectors", "why_tests_cant": "The claim ranges over an uncountable set of real inputs; a test samples finitely many of them.", "anchors": ["general_optics.py:rotation_matrix", "general_optics.py:pathpatch_2d_to_3d"]}
{"id": "C06", "title": "Angles between vectors", "statement": "angle_between(v1, v2) of non-zero vectors lies in [0, pi], is symmetric, invariant under positive scaling, 0 exactly for parallel and pi exactly for antiparallel vectors, and its cosine is the normalised dot product. With v_normal = a unit vector orthogonal to both it lies in (-pi, pi], has the same absolute value, and is the angle of the rotation about v_normal that carries the direction of v2 to the direction of v1.", "quantifier": "every pair of non-zero vectors and every unit normal orthogonal to both", "why_tests_cant": "The claim ranges over an uncountable set of real inputs; a test samples finitely many of them.", "anchors": ["general_optics.py:angle_between"]}
{"id": "C07", "title": "Plane intersection is sound and complete", "statement": "For a ray with unit direction, Plane.test_intersect reports a hit exactly when |n.d| > 1e-9 and the line parameter t of the intersection with the plane is > 1e-9; the reported point is pos + t d, lies on the plane, is unique with these properties, and the reported normal is the unit plane normal.", "quantifier": "every plane (any non-zero normal) and every ray", "why_tests_cant": "The claim ranges over an uncountable set of real inputs; a test samples finitely many of them.", "anchors": ["Shapes/shapes.py:Plane.test_intersect"]}
{"id": "C08", "title": "Circle aperture", "statement": "Circle.test_intersect reports a hit exactly when the carrier plane is hit at a point strictly closer to the centre than R, and then reports that point and the unit normal.", "quantifier": "every circle and ray", "why_tests_cant": "The claim ranges over an uncountable set of real inputs; a test samples finitely many of them.", "anchors": ["Shapes/shapes.py:Circle"]}
{"id": "C09", "title": "Rectangle aperture", "statement": "Rectangle(center, normal, tangent, h, w).test_intersect reports a hit exactly when the carrier plane is hit at a point whose offset from the centre is at most h/2 along the tangent and at most w/2 along normal x tangent.", "quantifier": "every rectangle with perpendicular axes and every h, w >= 0, every ray", "why_tests_cant": "The claim ranges over an uncountable set of real inputs; a test samples finitely many of them.", "anchors": ["Shapes/shapes.py:Rectangle"]}
{"id": "C10", "title": "Sphere intersection points lie on the sphere ahead of the ray", "statement": "Every point reported by Sphere.test_intersect for a ray with unit direction is pos + t d with t > 1e-12 and lies at distance exactly |R| from the centre; normals reported with it are unit vectors pointing from the point to the centre.", "quantifier": "every sphere and ray", "why_tests_cant": "The claim ranges over an uncountable set of real inputs; a test samples finitely many of them.", "anchors": ["Shapes/shapes.py:Sphere.test_intersect", "Shapes/shapes.py:Sphere.normal"]}
{"id": "C11", "title": "Sphere intersection is complete", "statement": "If the forward ray meets the sphere at any parameter t > 1e-12 then Sphere.test_intersect reports a hit and every such meeting point is among the reported ones; otherwise, for non-tangent lines, it reports a miss.", "quantifier": "every sphere and ray", "why_tests_cant": "The claim ranges over an uncountable set of real inputs; a test samples finitely many of them.", "anchors": ["Shapes/shapes.py:Sphere.test_intersect"]}
{"id": "C12", "title": "Sphere hit count tells inside from outside", "statement": "For non-tangent lines and surface crossings farther than 1e-12 from the start, the intersection count is odd exactly when the start is strictly inside the sphere (as reported by test_point).", "quantifier": "every sphere with R > 0 and every ray", "why_tests_cant": "The claim ranges over an uncountable set of real inputs; a test samples finitely many of them.", "anchors": ["Shapes/shapes.py:Sphere.test_intersect", "Shapes/shapes.py:Sphere.test_point"]}
{"id": "C13", "title": "Infinite cylinder intersection", "statement": "Every point reported by InfiniteCylinder.test_intersect is pos + t d with t > 1e-12 and lies at distance exactly R from the axis line; every crossing with t > 1e-12 of a non-tangent ray is reported, nearer one first; the reported normals are unit, orthogonal to the axis and point to the axis.", "quantifier": "every cylinder (any centre, axis direction and R > 0) and every ray", "why_tests_cant": "The claim ranges over an uncountable set of real inputs; a test samples finitely many of them.", "anchors": ["Shapes/shapes.py:InfiniteCylinder.test_intersect", "Shapes/shapes.py:InfiniteCylinder.normal"]}
{"id": "C14", "title": "Infinite cylinder membership", "statement": "InfiniteCylinder.test_point(p) is True exactly when the distance of p from the axis line is < R.", "quantifier": "every cylinder with R > 0 and every point", "why_tests_cant": "The claim ranges over an uncountable set of real inputs; a test samples finitely many of them.", "anchors": ["Shapes/shapes.py:InfiniteCylinder.test_point"]}
{"id": "C15", "title": "CSG membership is Boolean set algebra", "statement": "For a well-formed tree (inner nodes union/difference/intersect with two children, leaves solids) test_tree_point(tree, p) is True exactly when p is in the set denoted by the tree under union, intersection and set difference of the leaf solids, for trees of every shape and depth; it never raises.", "quantifier": "every well-formed CSG tree and every point", "why_tests_cant": "Trees are unboundedly deep; tests enumerate a few shapes.", "anchors": ["general_optics.py:test_tree_point", "general_optics.py:operCsgIndexUnion", "general_optics.py:operCsgIndexIntersect", "general_optics.py:operCsgIndexDifference"]}
{"id": "C16", "title": "Union hit is the first point of the union", "statement": "For a compound union of solids and a ray starting outside all of them, the reported intersection is the first point of the ray on the union: nothing before it belongs to any member.", "quantifier": "every union tree of spheres of any depth, every ray", "why_tests_cant": "Trees are unboundedly deep and rays uncountable.", "anchors": ["general_optics.py:operCsgUnion", "general_optics.py:helper_findIntersects", "general_optics.py:test_tree_intersect"]}
{"id": "C17", "title": "Intersection hit is the first boundary point of the intersection", "statement": "For an intersect of two spheres, the reported intersection is the first point where the ray crosses the boundary of A n B (entering if the ray starts outside, leaving if it starts inside), and a miss is reported exactly when the ray never crosses it.", "quantifier": "every pair of spheres and every ray", "why_tests_cant": "The claim ranges over an uncountable set of real inputs; a test samples finitely many of them.", "anchors": ["general_optics.py:operCsgIntersect"]}
{"id": "C18", "title": "Difference hit is the first boundary point of A minus B", "statement": "For a difference of two solids, the reported intersection is the first point where the ray crosses the boundary of A \\ B, a miss is reported exactly when there is none, and the query never raises.", "quantifier": "every pair of spheres and every ray", "why_tests_cant": "The claim ranges over an uncountable set of real inputs; a test samples finitely many of them.", "anchors": ["general_optics.py:operCsgDifference"]}
{"id": "C19", "title": "Malformed CSG trees fail loudly", "statement": "Intersecting or point-testing a tree that has a one-child node, an unknown operator on a two-child node, an operator string at a leaf, (intersection) a flat shape as an operand, or an unfinished Cylinder as an operand raises an exception and never returns a hit/inside verdict; so does the intersection query of a Compound made of a single flat shape or Cylinder.", "quantifier": "every tree of any shape and any keys", "why_tests_cant": "Trees are unboundedly deep.", "anchors": ["general_optics.py:test_tree_intersect", "general_optics.py:test_tree_point"]}
{"id": "C20", "title": "BinaryTree insertion pushes down and never loses data", "statement": "insertLeft(x) makes a new left child with key x whose left child is the former left subtree, leaves key and right subtree unchanged, and symmetrically for insertRight; no stored key is ever lost or duplicated by any sequence of insertions at any addresses. A chain of getLeftChild / getRightChild calls reaches exactly the subtree at that address, and getRootVal its key.", "quantifier": "every tree and every sequence of insertLeft / insertRight / setRootVal calls at any reachable node", "why_tests_cant": "Sequences are unbounded.", "anchors": ["general_optics.py:BinaryTree"]}
{"id": "C21", "title": "postOrderEval renders the tree faithfully", "statement": "For a well-formed tree postOrderEval returns the fully parenthesised expression of the tree, and two well-formed trees with the same rendering are the same tree (when leaf names contain no blanks or parentheses and are non-empty). A node with only one operand renders as its own key alone, and a node with two operands and an unknown operator raises KeyError.", "quantifier": "every pair of well-formed trees", "why_tests_cant": "Trees are unboundedly deep.", "anchors": ["general_optics.py:postOrderEval", "general_optics.py:printCsgUnion", "general_optics.py:printCsgIntersect", "general_optics.py:printCsgDifference"]}
{"id": "C22", "title": "Index of refraction lookup", "statement": "get_index_at_point(optics, p) is the index of the first optic of the list whose solid contains p, and INDEX_OF_THE_WORLD when no optic contains it.", "quantifier": "every optic list and point", "why_tests_cant": "Lists are unbounded.", "anchors": ["optics3d.py:get_index_at_point", "optics3d.py:Compound.get_index_at_point_if_inside", "optics3d.py:Optic.get_index_at_point_if_inside"]}
{"id": "C23", "title": "Law of reflection", "statement": "Ray.reflect('specular_flat', n) leaves a unit direction, keeps the tangential component, reverses the normal component, does not depend on the sign or length of n, leaves position, history, wavelength and blocked flag alone, and applied twice restores the (normalised) direction.", "quantifier": "every ray with non-zero direction and every non-zero normal", "why_tests_cant": "The claim ranges over an uncountable set of real inputs; a test samples finitely many of them.", "anchors": ["optics3d.py:Ray.reflect"]}
{"id": "C24", "title": "Snell's law", "statement": "Ray.refract('snells_law') between indices eta1, eta2 > 0 at a unit normal, when no total internal reflection occurs, yields a unit direction in the plane of incidence, on the other side of the surface, with eta1 sin(theta1) = eta2 sin(theta2), independently of the orientation of the supplied normal.", "quantifier": "every unit direction, unit normal and pair of positive indices", "why_tests_cant": "The claim ranges over an uncountable set of real inputs; a test samples finitely many of them.", "anchors": ["optics3d.py:Ray.refract"]}
{"id": "C25", "title": "Total internal reflection exactly past the critical angle", "statement": "In Ray.refract('snells_law') the ray is mirror-reflected exactly when eta1 > eta2 and eta1 sin(theta1) > eta2; otherwise the square root taken is of a non-negative number, so the result is never NaN.", "quantifier": "every unit direction, unit normal and pair of positive indices", "why_tests_cant": "The claim ranges over an uncountable set of real inputs; a test samples finitely many of them.", "anchors": ["optics3d.py:Ray.refract"]}
{"id": "C26", "title": "Refraction is reversible", "statement": "If a ray refracts from direction i (medium 1) to t (medium 2), then a ray with direction -t refracting from medium 2 to medium 1 at the same surface leaves with direction -i.", "quantifier": "every transmitted refraction", "why_tests_cant": "The claim ranges over an uncountable set of real inputs; a test samples finitely many of them.", "anchors": ["optics3d.py:Ray.refract"]}
{"id": "C27", "title": "Ideal lens obeys the imaging equation", "statement": "With an ideal lens of focal length f, all rays from an object point at axial distance s > 0, s != f (outside the near-parallel/near-grazing tolerance) leave the lens along lines through one image point, at axial distance s' with 1/s + 1/s' = 1/f and transverse magnification -s'/s; for s = f they all leave parallel to the line from the object point to the lens centre.", "quantifier": "every lens pose, focal length, object point and every ray from it through the lens plane", "why_tests_cant": "The claim ranges over an uncountable set of real inputs; a test samples finitely many of them.", "anchors": ["optics3d.py:Ray.refract", "optics3d.py:Lens.do_intersect"]}
{"id": "C28", "title": "Ideal lens parallel and central rays", "statement": "A ray parallel to the axis leaves an ideal lens toward the focal point on the far side, a ray through the lens centre is undeviated, and the transmitted ray continues to the far side of the lens (same sign of axial component).", "quantifier": "every lens pose and focal length f != 0, every ray", "why_tests_cant": "The claim ranges over an uncountable set of real inputs; a test samples finitely many of them.", "anchors": ["optics3d.py:Ray.refract"]}
{"id": "C29", "title": "Ideal collimator and ideal focuser", "statement": "'ideal_collimate' makes the ray leave exactly along the lens axis in the travelling sense; 'ideal_focus' makes it leave toward the point at distance f from the centre along the axis in the travelling sense; both give unit directions.", "quantifier": "every lens pose, f != 0 and ray meeting the lens plane", "why_tests_cant": "The claim ranges over an uncountable set of real inputs; a test samples finitely many of them.", "anchors": ["optics3d.py:Ray.refract"]}
{"id": "C30", "title": "Grating equation", "statement": "For a ray incident in the dispersion plane at angle alpha to the grating normal, the outgoing ray lies in the dispersion plane at angle beta with G m lambda = sin(alpha) + sin(beta), positive orders being deviated back towards the incident ray, whichever side of the normal the ray comes from.", "quantifier": "every grating pose, groove density, order, wavelength and in-plane ray for which the order exists", "why_tests_cant": "The claim ranges over an uncountable set of real inputs; a test samples finitely many of them.", "anchors": ["optics3d.py:Ray.reflect", "optics3d.py:Grating.do_intersect"]}
{"id": "C31", "title": "Gratings conserve the groove component and unit length", "statement": "For any incident direction not parallel to the grooves and any existing order, the diffracted direction is a unit vector whose component along the groove direction equals that of the incident direction; order 0 via Grating.do_intersect is specular reflection; orders that do not exist yield a NaN direction and never a finite wrong one.", "quantifier": "every grating, ray and order, including conical incidence", "why_tests_cant": "The claim ranges over an uncountable set of real inputs; a test samples finitely many of them.", "anchors": ["optics3d.py:Ray.reflect", "optics3d.py:Grating.do_intersect"]}
{"id": "C32", "title": "Ray directions stay unit vectors", "statement": "After constructing a ray with a non-zero direction, every sequence of interactions performed by run with a finite max_distance and with reflecting, refracting and ideal-lens optics of valid parameters leaves the direction a unit vector.", "quantifier": "every ray, scene and number of interactions", "why_tests_cant": "Interaction sequences are unbounded.", "anchors": ["optics3d.py:Ray.run", "optics3d.py:Ray.__init__", "optics3d.py:Ray.reflect", "optics3d.py:Ray.refract"]}
{"id": "C33", "title": "run terminates", "statement": "Ray.run with a finite max_distance returns (or raises) after finitely many loop iterations, at most max_distance/1e-12 + 1, whatever the optics do; with finite max_interactions N, after at most N + 1 iterations.", "quantifier": "every ray, every list of optics, every max_distance / max_interactions", "why_tests_cant": "Non-termination cannot be observed by a test.", "anchors": ["optics3d.py:Ray.run"]}
{"id": "C34", "title": "Path length budget", "statement": "The length of the polyline of points added by run never exceeds max_distance, and equals max_distance whenever the ray did not end blocked and the interaction limit was not reached.", "quantifier": "every ray, scene and distance", "why_tests_cant": "Interaction sequences are unbounded.", "anchors": ["optics3d.py:Ray.run", "optics3d.py:Ray.fly"]}
{"id": "C35", "title": "The nearest optic is hit", "statement": "In each step of run the optic interacted with is one whose reported intersection distance is least among all optics reporting a distance in (1e-12, remaining]; on ties the earliest in the list; if there is none the ray flies the whole remaining distance.", "quantifier": "every optic list and every ray state", "why_tests_cant": "Lists are unbounded.", "anchors": ["optics3d.py:Ray.run"]}
{"id": "C36", "title": "The outcome does not depend on the order of the optics list", "statement": "Permuting the optic list does not change the trajectory of a ray when no two optics are hit at equal distance.", "quantifier": "every permutation of every scene", "why_tests_cant": "Factorially many permutations of unboundedly long lists.", "anchors": ["optics3d.py:Ray.run", "optics3d.py:Lens.do_intersect"]}
{"id": "C37", "title": "A lens refracts according to the side of that lens the ray is on", "statement": "When run makes a ray interact with a real spherical lens, the indices used are (1, index) if the ray arrives from outside this lens and (index, 1) from inside.", "quantifier": "every scene containing a spherical lens", "why_tests_cant": "Depends on the rest of an arbitrary scene.", "anchors": ["optics3d.py:Ray.run", "optics3d.py:Lens.test_intersect", "optics3d.py:Lens.do_intersect"]}
{"id": "C38", "title": "Detector bookkeeping", "statement": "A run records at most one detector hit in total; when it does, the ray ends blocked, the record is the hit point with the ray's wavelength appended at the end of that detector's hit_data, and all other optics are unchanged; a run that leaves the ray unblocked records nothing.", "quantifier": "every ray, scene and history of earlier runs", "why_tests_cant": "Histories are unbounded.", "anchors": ["optics3d.py:Detector.do_intersect", "optics3d.py:Ray.run"]}
{"id": "C39", "title": "Rays do not influence each other", "statement": "Running a list of rays through a scene gives each ray exactly the trajectory it has alone in the fresh scene; the detector logs are the concatenation, in ray order, of the individual logs.", "quantifier": "every list of rays and every scene", "why_tests_cant": "Lists are unbounded.", "anchors": ["optics3d.py:Ray.run", "optics3d.py:Detector.do_intersect"]}
{"id": "C40", "title": "Faerie-fire rays stop at the first surface", "statement": "A 'faerie_fire' ray never changes direction and never triggers optics: run adds exactly one point (its first hit, ending blocked, or its free-flight end), and records nothing on detectors.", "quantifier": "every faerie-fire ray and scene", "why_tests_cant": "The claim ranges over an uncountable set of real inputs; a test samples finitely many of them.", "anchors": ["optics3d.py:Ray.run"]}
{"id": "C41", "title": "Blocked rays and non-positive budgets are inert", "statement": "run on a blocked ray, with max_distance <= 0 or with max_interactions <= 0 changes nothing.", "quantifier": "every ray and scene", "why_tests_cant": "The claim ranges over an uncountable set of real inputs; a test samples finitely many of them.", "anchors": ["optics3d.py:Ray.run"]}
{"id": "C42", "title": "Point history is append-only and chained", "statement": "run only appends to point_history; the first entry is the construction position, the last entry is the current position, and at most max_interactions entries are added; each added entry is the previous position plus a distance times the direction flown. get_plot_repr returns this history; fly(d) appends exactly the new position and changes nothing else but the position, and fly(None) raises ValueError.", "quantifier": "every ray, scene and sequence of runs", "why_tests_cant": "Sequences of runs are unbounded.", "anchors": ["optics3d.py:Ray.run", "optics3d.py:Ray.fly", "optics3d.py:Ray.get_plot_repr"]}
{"id": "C43", "title": "Rays stop on the surface they hit", "statement": "After an interaction in run the ray's position is exactly the intersection point reported by the optic, and lies on that optic's surface.", "quantifier": "every ray and scene of mirrors, lenses, gratings, detectors and compounds", "why_tests_cant": "The claim ranges over an uncountable set of real inputs; a test samples finitely many of them.", "anchors": ["optics3d.py:Ray.run"]}
{"id": "C44", "title": "Annotations, filters and windows are transparent", "statement": "Adding or removing Annotation, Filter or Window objects anywhere in the optic list does not change any trajectory.", "quantifier": "every scene and ray", "why_tests_cant": "Lists are unbounded.", "anchors": ["optics3d.py:Ray.run", "optics3d.py:Annotation", "optics3d.py:Filter", "optics3d.py:Window"]}
{"id": "C45", "title": "Block stops rays", "statement": "A Block in the scene blocks a ray that reaches it.", "quantifier": "every scene containing a Block", "why_tests_cant": "The claim ranges over an uncountable set of real inputs; a test samples finitely many of them.", "anchors": ["optics3d.py:Block", "optics3d.py:Ray.run"]}
{"id": "C46", "title": "Concave mirror", "statement": "A concave spherical mirror of focal length f reports only points on the sphere of radius 2|f| about position + 2 f normal, and only for rays that cross the aperture disc of diameter D; a ray through the centre of curvature is sent back along itself.", "quantifier": "every concave mirror pose and ray", "why_tests_cant": "The claim ranges over an uncountable set of real inputs; a test samples finitely many of them.", "anchors": ["optics3d.py:Mirror.test_intersect", "optics3d.py:Mirror.do_intersect", "optics3d.py:Mirror.__init__"]}
{"id": "C47", "title": "Convex mirror and ball lens report the nearest surface point", "statement": "For a convex spherical mirror or a spherical lens hit by a non-tangent ray, the reported point is the first point of the forward ray (beyond 1e-12) on the sphere, and the reported normal is the outward unit normal there.", "quantifier": "every sphere and ray", "why_tests_cant": "The claim ranges over an uncountable set of real inputs; a test samples finitely many of them.", "anchors": ["optics3d.py:Mirror.test_intersect", "optics3d.py:Lens.test_intersect"]}
{"id": "C48", "title": "Compound refraction picks the media correctly", "statement": "For a refracting compound made of one sphere, a ray that enters (chord longer than 1e-8) refracts from the world index to the compound index and a ray that leaves refracts from the compound index to the world index.", "quantifier": "every sphere, ray and index", "why_tests_cant": "The claim ranges over an uncountable set of real inputs; a test samples finitely many of them.", "anchors": ["optics3d.py:Compound.do_intersect", "optics3d.py:Compound.get_index_at_point_if_inside"]}
{"id": "C49", "title": "Mirrors can be built without DMD parameters", "statement": "Mirror(position, normal=n, D=d) with the default type constructs a mirror.", "quantifier": "every position, normal and diameter", "why_tests_cant": "The claim ranges over an uncountable set of real inputs; a test samples finitely many of them.", "anchors": ["optics3d.py:Mirror.__init__"]}
{"id": "C50", "title": "Radius/diameter arguments are validated", "statement": "Circle, Sphere and InfiniteCylinder accept exactly the calls that give R, or D, or both with D = 2R up to 1e-8 tolerance, and then R and D agree (exactly when only one is given); otherwise they raise ValueError; Cylinder does the same whatever its height, which it keeps. Rectangle raises ValueError exactly when h or w is missing or negative or the axes are not perpendicular (up to 1e-8).", "quantifier": "every combination of arguments", "why_tests_cant": "The claim ranges over an uncountable set of real inputs; a test samples finitely many of them.", "anchors": ["Shapes/shapes.py:check_R_and_D", "Shapes/shapes.py:check_h_and_w", "Shapes/shapes.py:Rectangle.__init__"]}
{"id": "C51", "title": "Faerie-fire generator", "statement": "add_faerie_fire_rays(L, r, c, N) appends exactly N faerie-fire rays to L, keeping the existing ones; each starts at distance |r| from c and (r > 0) points straight at c with a unit direction, whatever the random numbers drawn; the numbers are read in triples, in order and without reuse: triples shorter than 1e-6 are skipped and every other one gives the next ray.", "quantifier": "every random stream, list, radius, centre and N", "why_tests_cant": "All random streams cannot be sampled.", "anchors": ["optics3d.py:add_faerie_fire_rays"]}
{"id": "C52", "title": "Object grid generator", "statement": "image_rays returns x_res*z_res*angle_res origins and as many unit directions in the y-z plane, origins inside the size x size square at y_center, angles inside [-angle, angle], and (circle pattern) one wavelength per ray: 680 inside the closed disc of diameter pattern_d and 450 outside; it raises ValueError exactly when a resolution is < 1.", "quantifier": "every argument combination", "why_tests_cant": "Resolutions are unbounded.", "anchors": ["general_optics.py:image_rays"]}
{"id": "C53", "title": "Colour conversion stays in range", "statement": "wavelength_to_rgb returns three real components in [0, 1] for every wavelength and every gamma > 0, with any floor/ceiling clamps; equal colours outside the clamp range. Inside the range the colour is the one of the wavelength's band: constant below 380 and above 750 nm, and in between the gamma-th powers of the seven linear ramps.", "quantifier": "every wavelength, gamma > 0, floor and ceiling", "why_tests_cant": "The claim ranges over an uncountable set of real inputs; a test samples finitely many of them.", "anchors": ["general.py:wavelength_to_rgb"]}
{"id": "C54", "title": "Wavelength/energy conversions are mutually inverse", "statement": "energy_eV_to_wavelength_nm(wavelength_nm_to_energy_eV(w)) = w and conversely for non-zero arguments, and both are strictly decreasing on positive arguments; a zero argument raises ZeroDivisionError.", "quantifier": "every non-zero real", "why_tests_cant": "The claim ranges over an uncountable set of real inputs; a test samples finitely many of them.", "anchors": ["general.py:wavelength_nm_to_energy_eV", "general.py:energy_eV_to_wavelength_nm"]}
{"id": "C55", "title": "to_precision prints correctly rounded numbers", "statement": "The string returned by to_precision(x, p) (p >= 1) denotes a decimal number with p significant digits that differs from x by at most half a unit of the last printed digit, with the sign of x; NaN prints as NaN; infinities raise.", "quantifier": "every real x and every p >= 1", "why_tests_cant": "The claim ranges over an uncountable set of real inputs; a test samples finitely many of them.", "anchors": ["general.py:to_precision"]}
{"id": "C56", "title": "find_nearest", "statement": "find_nearest(a, v) returns the first index whose element is at least distance from v, and that element; if the array contains NaN it returns the first NaN; it raises on an empty array.", "quantifier": "every array and value", "why_tests_cant": "Arrays are unbounded.", "anchors": ["general.py:find_nearest"]}
{"id": "C57", "title": "Scenes are translation invariant", "statement": "Translating the ray and all optics by the same vector translates the whole trajectory and all detector records by that vector and changes nothing else (directions, flags, errors).", "quantifier": "every scene, ray, run parameters and translation vector", "why_tests_cant": "Scenes are unbounded.", "anchors": ["optics3d.py:Ray.run", "Shapes/shapes.py:Plane", "Shapes/shapes.py:Sphere", "Shapes/shapes.py:InfiniteCylinder", "Shapes/shapes.py:Rectangle", "Shapes/shapes.py:Circle"]}
{"id": "C58", "title": "Equal axes", "statement": "set_axes_equal sets three axis ranges of equal length, centred on the old centres and each containing the old range. If one of the old limits is NaN, all new limits are NaN.", "quantifier": "every triple of axis limits", "why_tests_cant": "The claim ranges over an uncountable set of real inputs; a test samples finitely many of them.", "anchors": ["general.py:set_axes_equal", "general.py:set_axes_radius"]}
{"id": "C59", "title": "Patches are drawn in the plane of the optic", "statement": "pathpatch_2d_to_3d followed by pathpatch_translate maps every vertex (x, y) of a patch to a point of the plane through the optic's position orthogonal to its normal, preserving all distances between vertices.", "quantifier": "every normal, position and vertex list", "why_tests_cant": "The claim ranges over an uncountable set of real inputs; a test samples finitely many of them.", "anchors": ["general_optics.py:pathpatch_2d_to_3d", "general_optics.py:pathpatch_translate", "optics3d.py:Mirror.draw"]}
{"id": "C60", "title": "A ray does not hit again the optic it is leaving", "statement": "After interacting with a flat optic (mirror, ideal lens, detector, grating) or being reflected from outside by a convex spherical mirror, the ray does not interact with that same optic in the next iteration of run.", "quantifier": "every scene, ray, optic and number of iterations", "why_tests_cant": "The claim ranges over an uncountable set of real inputs; a test samples finitely many of them.", "anchors": ["optics3d.py:Ray.run", "Shapes/shapes.py:Plane", "Shapes/shapes.py:Sphere"]}
{"id": "C61", "title": "Collimator and focusing lens relay a beam", "statement": "In the scene of script_testIdealLenses (ideal collimator, ideal focusing lens at distance L, detector at distance s behind it, common axis) every ray that passes through both lenses is recorded exactly once, at offset (1 - s/f) times its offset on the first lens (the detector centre if s = f), and ends there blocked after three interactions.", "quantifier": "every axis, positions, normals along the axis, diameters, f > 0, L, s, ray and distance budget", "why_tests_cant": "The claim ranges over an uncountable set of real inputs; a test samples finitely many of them.", "anchors": ["optics3d.py:Ray.run", "optics3d.py:Lens.do_intersect", "optics3d.py:Detector", "script_testIdealLenses.py"]}
{"id": "C62", "title": "Trains of ideal lenses follow the ray-transfer law step by step", "statement": "In a scene of any number of ideal lenses on a common axis followed by a detector, a forward ray meets the lenses in axial order, each at most once; inside the aperture its slope changes by -offset/f, outside nothing happens; rays parallel to the axis up to the code's tolerance are aimed at the focal point; then the detector records it exactly when it arrives inside its bounds, and otherwise the ray flies on to the full distance.", "quantifier": "every axis, number of lenses, positions, focal lengths f > 0, diameters, ray of slope below 1e8 and distance budget", "why_tests_cant": "The number of lenses is unbounded.", "anchors": ["optics3d.py:Ray.run", "optics3d.py:Ray.refract", "optics3d.py:Lens"]}
{"id": "C63", "title": "Imaging by a train of ideal lenses", "statement": "Offset and slope behind a train of ideal lenses are linear in offset and slope before it, with a matrix of determinant 1 depending only on positions and focal lengths; on a screen where the slope coefficient vanishes all rays from one object point arrive at one point. For one lens this is 1/a + 1/a' = 1/f with magnification -a'/a, and rays in the near-parallel tolerance miss the image point by at most 2e-8 a'.", "quantifier": "every train, object point and ray through all lenses", "why_tests_cant": "The claim ranges over an uncountable set of real inputs; a test samples finitely many of them.", "anchors": ["optics3d.py:Ray.refract"]}
{"id": "C64", "title": "A ray through a ball lens of real glass", "statement": "A ray that meets a real spherical lens alone in the scene from outside (below the critical angle if the index is below 1) is refracted in by Snell's law, crosses it along a chord, is never totally reflected at the exit, leaves by Snell's law with the same angle to the normal as at the entry, in the direction 2 (d.o) o - d (o the direction inside), and flies on to the full distance; exactly these three points are appended to its history.", "quantifier": "every centre, diameter, index > 0, ray and distance budget that suffices to leave the ball", "why_tests_cant": "The claim ranges over an uncountable set of real inputs; a test samples finitely many of them.", "anchors": ["optics3d.py:Ray.run", "optics3d.py:Lens", "optics3d.py:Ray.refract"]}
{"id": "C65", "title": "Method of images for flat mirrors", "statement": "In a scene of flat mirrors the whole run of a ray unfolds to a straight line: the final position is the image of the point p + m d under the reflections in the planes of the mirrors met (each the first to be met, inside its aperture), the final direction the image of d; the recorded points are the corners of the path and its end. Two reflections act like the code's rotation matrix about the intersection line by twice the angle of the normals, three reflections at right angles reverse the direction, and between parallel mirrors the direction depends only on the parity of the number of reflections.", "quantifier": "every scene of flat mirrors of type normal, ray and distance budget m >= 0", "why_tests_cant": "Scenes and numbers of reflections are unbounded.", "anchors": ["optics3d.py:Ray.run", "optics3d.py:Ray.reflect", "optics3d.py:Mirror", "general_optics.py:rotation_matrix_axis_angle"]}
{"id": "C66", "title": "Printing the trajectory does not disturb the run", "statement": "run with print_trajectory=False prints nothing. With print_trajectory=True the run has the same result as without, unless formatting the ray at some state raises; and when it returns, the printed lines are '--- run begin ---', then one group per recorded point (the message, the ray as it arrives at that point, and possibly one line for the interaction), then '--- run complete ---'. A ray is printed as its name, position and direction, each coordinate to five digits. The interaction prints the turned ray at lenses and refracting compounds, one line with an angle at gratings when the order is not 0, and nothing at any other optic. In scenes of valid mirrors, lenses, detectors and compounds with finite max_distance formatting never raises, so the results are always equal; with max_distance=inf in empty space the printing run always raises OverflowError where the silent one returns. The angle printed at a grating is the one between the reversed incoming and the outgoing ray: for in-plane light from the side where the grating equation holds, the outgoing direction is the reversed incoming one turned by minus that angle about the grooves.", "quantifier": "all rays, scenes, budgets, interaction limits and number types for the general part; all finite valid scenes for the equality", "why_tests_cant": "Tests capture the output of one run; that a diagnostic option can never change a result needs all runs, and the raising case needs infinite coordinates.", "anchors": ["optics3d.py:Ray.run", "optics3d.py:Ray.fly", "optics3d.py:Ray.__repr__", "optics3d.py:Ray.refract", "optics3d.py:Ray.reflect", "general.py:to_precision"]}
{"id": "C67", "title": "The picture of an optic shows where it can be hit", "statement": "In the 3-d view a circular flat mirror or biconvex lens, however oriented, is drawn as exactly the plane disc of diameter D about its position: the points where rays can hit it are the points shown, except the edge. A detector is drawn as exactly the closed rectangle where rays can hit it. Convex mirrors and ball lenses are drawn through points of their sphere, poles included; concave mirrors as the flat disc of diameter D. A rectangular mirror or grating is drawn as a w by h rectangle in its plane, centred on its position (w along x and h along y when the normal is z). For rectangular mirrors the claim is false: the picture ignores the tangent, so of the two rectangles with tangents t and n x t (h different from w) at least one is drawn wrongly. In the flat views only circular flat mirrors can be drawn; other mirrors raise ValueError and other optics draw nothing. In the 3-d view mirrors and lenses of any other shape raise ValueError, gratings and detectors that are not rectangular draw nothing.", "quantifier": "all positions, normals, tangents, sizes and points of space; all number types for the flat views", "why_tests_cant": "Pictures are checked by eye on a few scenes, mostly with optics along the axes, where the forgotten tangent does not show.", "anchors": ["optics3d.py:Mirror.draw", "optics3d.py:Lens.draw", "optics3d.py:Detector.draw", "optics3d.py:Grating.draw", "general_optics.py:pathpatch_2d_to_3d", "general_optics.py:pathpatch_translate"]}
{"id": "C68", "title": "Turning a scene turns the result", "statement": "If the ray and every optic are turned by the same rotation about the origin, the run raises the same exception or returns with every recorded point, direction, detector record turned by the same rotation and every flag, number and string unchanged; building optics from turned arguments gives the turned optics. The maps of rotation_matrix_axis_angle are such rotations. For the ideal thin lens the claim is false: its near-parallel test is taken component by component, so a lens and ray turned about the lens axis can leave in a different direction.", "quantifier": "all rotations, scenes (without ideal lenses; no infinite radii, focal lengths or indices), rays, lists of rays, fuel, finite budgets and interaction limits", "why_tests_cant": "The claim ranges over an uncountable set of real inputs; a test samples finitely many of them. Tests use scenes along the axes; frame dependence only shows in tilted ones.", "anchors": ["optics3d.py:Ray.run", "optics3d.py:Ray.refract", "general_optics.py:rotation_matrix_axis_angle", "Shapes/shapes.py:InfiniteCylinder", "Shapes/shapes.py:Rectangle"]}
{"id": "C69", "title": "Fermat's principle", "statement": "Between a point of the incoming and a point of the outgoing ray, a refraction by Snell's law takes the path of least optical length (index times length) over all points of the tangent plane, and only the point of refraction attains it (except at grazing incidence); a specular reflection takes the shortest path over the tangent plane. In a scene of flat mirrors the whole run takes a path of length max_distance that is a shortest one among all paths from start to end over the planes of the same mirrors in the same order.", "quantifier": "all indices > 0, normals, rays (below the critical angle) and comparison points; all scenes of flat mirrors, rays and budgets", "why_tests_cant": "The claim ranges over an uncountable set of real inputs; a test samples finitely many of them. A minimum over all comparison paths cannot be sampled.", "anchors": ["optics3d.py:Ray.refract", "optics3d.py:Ray.reflect", "optics3d.py:Ray.run"]}
{"id": "C70", "title": "Runs between flat mirrors can be reversed", "statement": "Along every path of light between flat mirrors (straight legs touching no mirror except at the corners, where the first mirror of the list covering the corner reflects; legs longer than 1e-9 and angles above 1e-9, the tolerances of the plane test; ends not on a mirror), the run started at one end with the length of the path as max_distance follows the path and ends at the other end, in one iteration per leg, and the run of a ray sent back from there passes the same corners in opposite order and ends at the start with the opposite direction. Below the tolerance the claim is false: from 1e-10 in front of a mirror a ray passes through it, and the ray sent back is reflected.", "quantifier": "all scenes of flat mirrors, paths with any number of corners, rays", "why_tests_cant": "The number of legs is unbounded; the tolerance failure needs a start point within 1e-9 of a mirror.", "anchors": ["optics3d.py:Ray.run", "optics3d.py:Ray.reflect", "Shapes/shapes.py:Plane"]}
{"id": "C71", "title": "A ray through a singlet lens", "statement": "A refracting compound that is the intersection of two spheres (or infinite cylinders), alone in the scene: a ray that enters it through one face obeys Snell's law from the world index to the index of the compound there (if totally reflected it flies on to the full distance), then follows the path in the glass given by straight segments, total reflections at the faces (any number) and the first exit below the critical angle, leaves by Snell's law and flies on without further interaction for the rest of max_distance. From every point of a face there is exactly one way out ahead: one of the faces or the edge.", "quantifier": "all centres, axes, radii > 0, indices > 0, rays, budgets, numbers of internal reflections; excluding simultaneous crossings, grazing exits, segments up to 1e-12, lenses thinner than 1e-8 along the ray and cylinders parallel to it", "why_tests_cant": "The claim ranges over an uncountable set of real inputs; a test samples finitely many of them. The number of internal reflections is unbounded.", "anchors": ["optics3d.py:Compound.do_intersect", "optics3d.py:Compound.test_intersect", "general_optics.py:operCsgIntersect", "optics3d.py:Ray.run", "optics3d.py:Ray.refract"]}
{"id": "C72", "title": "The side from which a compound is hit", "statement": "A compound built of unions and differences, of any depth, reports shooting_from_outside exactly when the start of the ray lies in an even number of its leaves; an intersection of two solids exactly when it lies in neither. So the report is right for a single solid, for unions of which at most one member contains the start, and for a difference A - B unless the start is in B only; it is wrong in the overlap of a union (a ray inside is said to come from outside), and for starts in exactly one of the solids of an intersection, or in B only (a ray outside is said to come from inside).", "quantifier": "all trees, solids (spheres, infinite cylinders), rays that are not tangent or parallel and start more than 1e-12 from every crossing", "why_tests_cant": "The claim ranges over an uncountable set of real inputs; a test samples finitely many of them. Wrong reports need start points in overlaps that the scripts do not use.", "anchors": ["optics3d.py:Compound.test_intersect", "general_optics.py:operCsgUnion", "general_optics.py:operCsgIntersect", "general_optics.py:operCsgDifference"]}
{"id": "C73", "title": "Moving average", "statement": "For a window of n samples, 1 <= n <= len(x), movingAverageFast returns len(x) numbers, number i being one n-th of the sum of the n consecutive samples from x[i - n//2] on, samples beyond the ends counting as 0; in the interior it lies between the bounds of the samples in the window. The claim that a constant signal is left alone is false: its ends are attenuated. A window longer than the signal returns n numbers, more than there are samples; n <= 0 and an empty signal raise ValueError.", "quantifier": "all signals of any length and all window sizes", "why_tests_cant": "Tests would use a few signals; lengths and windows are unbounded.", "anchors": ["general.py:movingAverageFast"]}
{"id": "C74", "title": "Savitzky-Golay filter", "statement": "For window 2h+1 >= order+2, deriv <= order and a signal of more than h samples, savitzky_golay returns one number per sample: rate^deriv times the deriv-th derivative, at the window centre, of a polynomial of degree <= order that fits the 2h+1 surrounding samples of the (continued) signal best in the sense of least squares. Samples of a polynomial of degree <= order are reproduced with all derivatives exactly in the interior, and a non-decreasing straight line also at the ends. For a decreasing line the ends are wrong (refuted). An even window or one below order+2 raises TypeError, a derivative of order above the polynomial's or an empty signal IndexError; a derivative of negative order raises ZeroDivisionError when the rate is 0, ValueError otherwise, and IndexError below -(order + 1).", "quantifier": "all signals, polynomials, window sizes, orders, derivatives and rates; np.linalg.pinv is any function returning the Moore-Penrose inverse", "why_tests_cant": "Orders, windows and signals are unbounded; optimality is a statement about all competing polynomials.", "anchors": ["general.py:savitzky_golay"]}
{"id": "C75", "title": "Numerical Fermi-Dirac integral", "statement": "For -20 <= eta <= 20 and Nmax >= 2 FD_int_num returns, up to normalisation, the trapezoidal rule with n intervals for the substituted integrand g on [-4.5, 5] minus the end terms 5 g(5) + 4.5 g(-4.5) (the arguments of np.trapz are swapped), n being the first of 2, 3, ... at which two successive results differ by less than tol, or Nmax; it also returns n and that difference. For n to infinity this tends to the Fermi-Dirac integral from x(-4.5) to x(5) minus the end terms, and the end terms are positive: every result is too small. Outside the range it returns exp(eta) or the leading Sommerfeld term for j = -1/2, 1/2, 3/2; other orders, and Nmax 0 or 1, raise UnboundLocalError, negative Nmax ValueError. That 'roman' means the gamma function at j + 1 times 'script' is false for j = -1/2.", "quantifier": "all eta, j, tolerances and Nmax; scipy.special.gamma is any function with a non-zero value at j + 1", "why_tests_cant": "Convergence is a statement about all n; tests compare a few values with tables, to the accuracy of the end terms.", "anchors": ["general.py:FD_int_num"]}
{"id": "C76", "title": "Approximate Fermi-Dirac integral", "statement": "For j = 1/2 FD_int_approx is positive and strictly increasing on each of (-inf, -2], (-2, 10], (10, 1e5] and (1e5, inf). It is not increasing throughout, as the integral is: it drops right after eta = 10 and right after 1e5 (refuted). Other orders give NaN.", "quantifier": "all eta", "why_tests_cant": "Monotonicity is about all pairs of reals; the drops are at two points of the line.", "anchors": ["general.py:FD_int_approx"]}
{"id": "C77", "title": "Quantum concentration and Sackur-Tetrode entropy", "statement": "get_nQ is one particle per cube of the thermal de Broglie wavelength h / sqrt(2 pi m T). sackurTetrode is N k (5/2 - ln(n wavelength^3)); it is proportional to the volume at constant density, free expansion by c adds N k ln c, an adiabatic expansion (volume times c^3, temperature divided by c^2) leaves it unchanged, and it increases with temperature. n = 0 raises ZeroDivisionError, T = 0 gives minus infinity, negative n NaN.", "quantifier": "all positive densities, masses, volumes, temperatures and factors", "why_tests_cant": "The claim ranges over an uncountable set of real inputs; a test samples finitely many of them.", "anchors": ["general.py:get_nQ", "general.py:sackurTetrode"]}
{"id": "C78", "title": "Text layout in rows of ten", "statement": "prism10widetextarray writes the values in rows of ten, one line per row: the indent, the cells (left pad, one blank less for negative numbers, then the formatted value) with the right pad between them, and after the last cell the right pad unless the line is full. An empty array gives the indent alone. If formatted values contain no blanks and at least one blank separates neighbours, splitting the text at blanks gives back the formatted values in order. If negative values are formatted one character wider, values in the same column end at the same place. The first formatting error is raised.", "quantifier": "all arrays of any length, pads, indents, formats and number types", "why_tests_cant": "Array lengths are unbounded, and the format is arbitrary.", "anchors": ["general.py:prism10widetextarray"]}
{"id": "C79", "title": "Deleting files by extension", "statement": "With deleteInSubDirectories, delete_files_with_extension removes exactly the files whose names end with the extension, at any depth, prints each removed path once, and leaves directories, links to directories and all other files. Without it, it removes exactly the matching files and links in the folder itself; a subdirectory with a matching name makes it raise OSError after the matching entries listed before it are gone. The empty extension removes every file. A missing folder raises OSError only without deleteInSubDirectories.", "quantifier": "all directory trees and extensions", "why_tests_cant": "Directory trees are of unbounded depth and width.", "anchors": ["general.py:delete_files_with_extension"]}
{"id": "C80", "title": "Interpolation on a double logarithmic scale", "statement": "For positive, strictly increasing x and positive y (at least two points) log_interp1d returns a function that is defined and positive for every positive argument, is straight between neighbouring points of the double logarithmic plot and continues its end pieces. It passes through the points, stays between neighbouring points, reproduces power laws everywhere, and is strictly increasing if y is. If x is not strictly increasing or contains a negative number, ValueError is raised.", "quantifier": "all lists of points of any length and all positive arguments", "why_tests_cant": "The claim ranges over an uncountable set of real inputs; a test samples finitely many of them.", "anchors": ["general.py:log_interp1d"]}
{"id": "C81", "title": "Rounding errors of vector operations", "statement": "In binary64 unit_vector of a vector of length between 2^-500 and 2^500 is within 4e-16 of the exact direction and of length 1 within 4e-16; beyond that range it can be the zero vector (components of 2^512) or infinite (2^-540). distance_between has relative error at most 4e-16 for distances between 2^-490 and 2^490. A specular reflection gives a direction within 9e-15 of the mirror image and again of length 1 within 4e-16, and after k reflections at any planes the direction is within k * 1e-14 of the exact one: errors add up, they do not multiply.", "quantifier": "all finite binary64 vectors in the stated ranges, and any number of reflections", "why_tests_cant": "There are 2^192 vectors, and the number of reflections is unbounded.", "anchors": ["general_optics.py:unit_vector", "general_optics.py:distance_between", "optics3d.py:Ray.reflect"]}
{"id": "C82", "title": "Flat intersections under rounding", "statement": "Let a plane and a ray have finite binary64 data, normal and direction of length 1 within 4e-16, angle of incidence with cosine at least del >= 1e-6, positions up to 2^100; let t be the exact distance to the plane and K = |center - position| / del^2. Then Plane.test_intersect reports a hit if t > 1.0001e-9 + 2.2e-15 K and none if t < 0.9999e-9 - 2.2e-15 K, and the reported point is within err = 2.7e-15 K + 1.2e-16 |P| + 1e-30 of the exact point P. Circle.test_intersect in addition accepts points that are inside the rim by more than 3 err (and 1e-15 relative) and rejects points outside by more than that. If del >= 1e-3 and the distances are at most 1e5 del^3, the ray that flies to the hit and is reflected there does not meet the same plane again.", "quantifier": "all finite binary64 planes, discs and rays in the stated ranges", "why_tests_cant": "There are 2^768 pairs; the dangerous ones are those where rounding errors decide.", "anchors": ["Shapes/shapes.py:Plane.test_intersect", "Shapes/shapes.py:Circle.test_intersect", "optics3d.py:Ray.fly", "optics3d.py:Ray.reflect"]}
{"id": "C83", "title": "Stopping a run and continuing it", "statement": "For every scene, what run(a) has recorded in the history, up to the point where it stopped, is the beginning of what run(a + b) records. If every optic is flat (or skipped), the ray that run(a) returns is finite with a direction of length 1, and no optic lies within 1e-9 ahead of the stopping point, then run(a) followed by run(b) gives the same exception, or the same optics with the same detector records and the same ray, as run(a + b); the histories differ at most by the stopping point. The condition is needed: with a mirror at 1 + 5e-10, run(2) reflects the ray, run(1) twice lets it pass through the mirror.", "quantifier": "all scenes (all flat scenes for the second part), rays and distances a, b >= 0", "why_tests_cant": "Scenes, numbers of interactions and the two distances are unbounded.", "anchors": ["optics3d.py:Ray.run"]}
{"id": "C84", "title": "Runs with an infinite maximum distance", "statement": "If run(max_distance=np.inf) returns and the ray was not blocked, then no coordinate of its position is a finite number (each is inf, -inf or nan), whatever the scene and the ray. In a scene of flat mirrors it can only return if there is a bound on the number of points that runs with finite distances record. Between two parallel mirrors facing each other, hit perpendicularly at their centres, it never returns.", "quantifier": "all scenes and rays; all scenes of flat mirrors and rays of length 1; all pairs of parallel mirrors more than 1e-9 apart", "why_tests_cant": "A test cannot wait for a loop that does not end, and no number of scenes shows that a finite position never comes out.", "anchors": ["optics3d.py:Ray.run", "optics3d.py:Ray.fly"]}
{"id": "C85", "title": "Runs between flat mirrors in binary64 follow the exact path", "statement": "Take circular flat mirrors of type normal (and optics that run skips), a ray that is not blocked and whose type is not faerie_fire, and the exact path from its start: the mirrors met, the corners, the end. Let every decision on that path (which mirror is met first, inside or outside the rim, before or behind, farther than the remaining distance) have a margin mu between 2e-9 and 1e-6, all points be within S0 of the origin and all cosines of incidence be at least del, with S0 at most 1e4 del^3. For k legs let err = 1e-14 k^2 S0/del^3. If 40 err <= mu, the run in IEEE binary64 arithmetic returns normally, records exactly one point per leg, each within 8 err of the exact corner, ends with a direction within 1.1e-14 k of the exact one and leaves the optics unchanged. A mirror built by the constructor from finite numbers shows its centre and diameter exactly and its normal within 1e-15. The same path is the one the run takes in exact arithmetic.", "quantifier": "all scenes of flat circular mirrors, all starts, all numbers of reflections, all binary64 rounding errors", "why_tests_cant": "A test compares one run with one tolerance; it cannot exclude that rounding makes some run miss a mirror, hit the mirror it has just left again, or let errors grow exponentially with the number of reflections.", "anchors": ["optics3d.py:Ray.run", "optics3d.py:Mirror", "Shapes/shapes.py:Circle.test_intersect", "Shapes/shapes.py:Plane.test_intersect", "optics3d.py:Ray.reflect"]}
{"id": "C86", "title": "Focus of a concave mirror", "statement": "Let a concave mirror (type normal, focal length f > 0, unit axis n from the vertex c towards the centre of curvature) be hit by a ray antiparallel to the axis at the distance h from it, inside the aperture and with h^2 < 2 f^2, in a scene whose other optics are skipped by run or flat and not in the way. With k = sqrt(1 - h^2/(4 f^2)) the run reflects the ray once, at the point of the sphere of radius 2f with the same offset from the axis; the reflected ray crosses the axis at the distance f/k from that point, at 2f - f/k from the vertex, which is between f - h^2/(4f) and f; it does not meet the mirror again and uses up the rest of max_distance.", "quantifier": "all positions, axes, focal lengths, apertures, ray heights, distances", "why_tests_cant": "The focal length is only approximate for a spherical mirror; a test with one height and one tolerance says nothing about the error as a function of the height.", "anchors": ["optics3d.py:Mirror.__init__", "optics3d.py:Mirror.test_intersect", "optics3d.py:Ray.reflect", "optics3d.py:Ray.run"]}
{"id": "C87", "title": "Focus of a ball lens", "statement": "Let a ray pass a spherical lens of index ix > 1 and radius R = |D|/2, alone in the scene, at the distance h from the centre, 0 < h < R. It enters at the distance t1 = (c-p).d - sqrt(R^2 - h^2) from its start p and leaves after another t2 = 2 sqrt(R^2 - h^2/ix^2), if t1 and t2 exceed 1e-12 and t1 + t2 is below max_distance; the history gains the entry point, the exit point on the sphere and the end point. The line on which it leaves crosses the parallel to the incoming ray through the centre at a distance X > 0 behind the centre, and 1/X differs from 2 (ix-1)/(ix R) by at most 6 h^2/R^3. The crossing lies ahead of the exit point at least when ix + 2 h^2/R^2 < 2.", "quantifier": "all centres, diameters, indices above 1, ray directions, ray heights inside the ball, distances", "why_tests_cant": "The focal length of a ball is the limit for small heights; a test at one height cannot tell a wrong index ratio from spherical aberration, the bound in h can.", "anchors": ["optics3d.py:Lens.test_intersect", "optics3d.py:Lens.do_intersect", "optics3d.py:Ray.refract", "optics3d.py:Ray.run", "Shapes/shapes.py:Sphere.test_intersect"]}
{"id": "C88", "title": "Lensmaker's equation for a singlet built from two spheres", "statement": "Let a refracting Compound of index ix > 1 be the intersection (in either order) of two spheres with centres at zA and zB on an axis (point O, unit direction d) and radii RA, RB, such that the front vertex zA-RA lies on the first, the back vertex zB+RB on the second, and the thickness T = zB+RB-(zA-RA) exceeds 1e-8; the lens is alone in the scene and max_distance reaches past it. Then P = (ix-1)(1/RA + 1/RB - (ix-1)T/(ix RA RB)) is positive and, for every eps > 0, all rays parallel to the axis at a small enough non-zero height are refracted exactly twice, fly on with the rest of max_distance on a line that crosses the axis, and the crossing is within eps of the point at the back focal distance BFD = (1 - (ix-1)T/(ix RA))/P behind the back vertex; entry distance, path in the glass and distance from the exit to the crossing are within eps of zA-RA-zp, T and BFD.", "quantifier": "all positions, axes, radii, thicknesses, indices above 1, starting planes, ray azimuths; limit for small heights", "why_tests_cant": "The paraxial focus is a limit; a run at a finite height mixes it with aberration, and no finite set of runs fixes the dependence on four lens parameters.", "anchors": ["optics3d.py:Compound.test_intersect", "optics3d.py:Compound.do_intersect", "optics3d.py:get_index_at_point", "general_optics.py:BinaryTree", "optics3d.py:Ray.refract", "optics3d.py:Ray.run"]}
{"id": "C89", "title": "Ray.run is the geometrical ray trace of a scene of flat optics", "statement": "Take any scene whose optics are Annotations, Filters or Windows, or are built by flat constructor calls: circular and rectangular mirrors of type normal or dmd, biconvex lenses of type ideal, ideal_collimate or ideal_focus (focal length positive), rectangular gratings (grooves orthogonal to the normal), detectors (with any records). Define its ray trace independently of the code: of the apertures met by the half-line (planes met at more than 1e-9, at an angle whose sine exceeds 1e-9) take the nearest, of equally near ones the first listed; turn by the law of that optic (mirror: reflection in its normal; dmd: reflection in its own facet normal; ideal lens: through the point c + (f/(N.d)) d of the focal plane, rays parallel to the axis up to the tolerance through the focal point, rays at grazing angle below 1e-8 unchanged; collimator: along N; focusing lens: to the focal point; grating: order 0 reflection, other orders, from the front and with d.(n x T) <= 0, the component along the grooves kept and the one across them changed by G m lambda times the sine of the angle to the grooves); end on a detector, which records point and wavelength, or when the length L is used up. Then a ray has at most one trace, exactly one if no grating is involved or its order is 0; and Ray.run with max_distance L returns exactly this trace: history, final position, direction, blocked flag and records, wavelength, order and type unchanged.", "quantifier": "all scenes of flat optics of any size, all rays, all lengths, any number of interactions", "why_tests_cant": "The claim is an equality of two recursively defined processes on all scenes.", "anchors": ["optics3d.py:Ray.run", "optics3d.py:Ray.reflect", "optics3d.py:Ray.refract", "optics3d.py:Mirror.do_intersect", "optics3d.py:Lens.do_intersect", "optics3d.py:Grating.do_intersect", "optics3d.py:Detector.do_intersect", "Shapes/shapes.py:Plane.test_intersect", "Shapes/shapes.py:Circle.test_intersect", "Shapes/shapes.py:Rectangle.test_intersect"]}
{"id": "C90", "title": "Diffraction out of the plane orthogonal to the grooves", "statement": "Let a unit ray d meet a grating (unit normal n, grooves T orthogonal to n, s = n x T) from the front with d.s <= 0 in an order m <> 0, K = G m lambda / 10^6, P = sqrt(1 - (d.T)^2), and let |d.s + K P| <= P. Then the code's direction o is a unit vector on the front side with o.T = d.T and o.s = d.s + K P. The conical grating equation o.s = d.s + K therefore holds (for K <> 0) exactly for the rays orthogonal to the grooves: the code turns every other ray too little, by |K|(1-P) <= |K| (d.T)^2.", "quantifier": "all gratings, directions, wavelengths and orders of the stated side", "why_tests_cant": "The error vanishes for rays in the dispersion plane, which are what the tests and most scripts use.", "anchors": ["optics3d.py:Ray.reflect", "optics3d.py:Grating.do_intersect"]}
{"id": "C91", "title": "A grating spectrometer images wavelengths onto ordered points", "statement": "In any scene of flat optics with a grating, an ideal lens of focal length f (centre c, axis u) and a detector in the focal plane c + f u behind it: all rays of a parallel beam (direction d, wavelength lambda, order m <> 0, from the front side where C30 holds) that go from the grating to the lens to the detector, with nothing else in the way, are recorded in one and the same point X = c + (f/(u.e)) e, with e the diffracted direction, whatever their position; the run is blocked there, its history is grating point, lens point, X, and nothing else of the scene changes. If u is orthogonal to the grooves T, the points of two wavelengths with G m lambda1 < G m lambda2 are strictly ordered along u x T; along the grooves a point is displaced by f (d.T)/(u.e) (the curvature of the spectral lines).", "quantifier": "all scenes, instruments, beams, wavelengths, orders, rays of a beam", "why_tests_cant": "The independence of the ray's position and the ordering quantify over beams and wavelengths in a composed scene.", "anchors": ["optics3d.py:Ray.reflect", "optics3d.py:Ray.refract", "optics3d.py:Ray.run", "optics3d.py:Grating.do_intersect", "optics3d.py:Lens.do_intersect", "optics3d.py:Detector.do_intersect"]}
{"id": "C92", "title": "Nested intersections: exactly when the ray query is right", "statement": "Intersections of spheres and infinite cylinders, nested to any depth, lines not tangent to a member, not parallel to a cylinder axis, crossings farther than 1e-12 from the start and none common to two surfaces of the two parts. (a) A ray that starts inside all solids gets the point where it leaves the intersection, with the inward normal of the solid whose surface it is. (b) Let X be an intersection of at least two solids whose own query is right, s a solid. The query of 'X intersect s' (either order) reports the first crossing, or correctly a miss, if and only if: the start is in X; or X is not met; or s is not met; or the start is in s and X and s are met in a common point; or the start is outside s and the ray has left X before it comes to s. (c) For two such compounds: if and only if one is not met, or the start is in one of them and a common point is met. (d) In particular a ray that starts outside s1 n s2 and outside s3 and meets the three in a common point always gets a wrong answer (a miss, or a point that is not on the intersection).", "quantifier": "all nested intersections, solids, rays satisfying the regularity conditions", "why_tests_cant": "Three-solid intersections are only built, never queried, in the repository.", "anchors": ["general_optics.py:test_tree_intersect", "general_optics.py:operCsgIntersect", "general_optics.py:helper_findIntersects"]}
{"id": "C93", "title": "Runs in scenes of flat and curved optics as ray traces", "statement": "A scene is a list of mirrors (flat, concave, convex, plain or tilted micromirrors), lenses (ideal, collimating, focusing, balls of glass), gratings, detectors, compounds (two solids intersected, one less another, or any number united; reflecting or refracting) and invisible helpers, in any order. The specification says, for an optic made by a given constructor call, at which distance and with which normal it is seen along a line, what the light does there (mirror law, thin lens, conical diffraction, Snell's law or total reflection, absorption), and inductively the way of a ray: nearest optic seen, turn, next leg. Ray.run carries out exactly this way: same points, final direction, absorption and detector record, for every fuel above L/1e-12 + 1; while a leg is not covered, the rest of the run is a run from the point reached. There is at most one way; and every ray has one, complete or up to a point from which it does not look cleanly at the scene (tangentially, at an edge common to two solids of a compound, closer than 1e-12 to a surface it is not on, or at a union or a difference in one of the ways for which C94 shows the query to be wrong). A ball lens takes the ray to enter iff the flag of the last optic tested in the list says so: right if the ball is that optic; if it is a flat lens every ray is refracted as entering, if it is any other flat optic as leaving.", "quantifier": "all such scenes (any number and order of optics), rays, lengths", "why_tests_cant": "Every order of optics and every number of bounces; the tests have single optics and never compare the path.", "anchors": ["general_optics.py:Ray.run", "optics3d.py:Mirror", "optics3d.py:Lens", "optics3d.py:Grating", "optics3d.py:Detector", "general_optics.py:Compound", "general_optics.py:test_tree_intersect"]}
{"id": "C94", "title": "Unions and differences: exactly when the ray query is right", "statement": "Spheres and infinite cylinders, lines not tangent to a member, not parallel to a cylinder axis, every crossing at the start itself or farther than 1e-12 from it. (a) The query of a union of any number of solids, nested in any way, gives the nearest surface point of any member, wherever the ray starts, with that member's inward normal; it says miss exactly if no surface is met. (b) So it gives the first crossing of the union, or correctly a miss, if and only if the start is outside the union (or on its surface going out), or no surface of a member is met before the ray leaves the union. (c) The query of a difference A minus B with no common crossing is right if and only if: A is not met; or B is met and: both are ahead and B is not wholly in front of A; or the start is in A only and A is left before B is met; or the start is in both and B is left first. (d) It raises ValueError if and only if A is met and B is not, and raises nothing else. (e) From inside B in front of A it is never right.", "quantifier": "all unions, pairs of solids and rays satisfying the regularity conditions", "why_tests_cant": "No test of the repository queries a union or a difference from inside.", "anchors": ["general_optics.py:test_tree_intersect", "general_optics.py:operCsgUnion", "general_optics.py:operCsgDifference", "general_optics.py:helper_findIntersects"]}
{"id": "C95", "title": "Constructors of optics: which calls succeed, which raise, and what is kept", "statement": "For every combination of given and missing arguments (vectors not zero): Mirror(...) succeeds exactly if dmd_normal is given and the shape is circular_flat with a normal and D, rectangular_flat with orthogonal normal and tangent (to 1e-8) and non-negative w and h, circular_concave_spherical with normal, f and D, or circular_convex_spherical with D. A missing vector that the shape needs, or a missing f of a concave mirror, gives TypeError; every other failure is a ValueError. Grating, Detector and the base class likewise. Lens succeeds exactly for the shapes spherical_biconvex and spherical with D; a spherical_biconvex lens without a normal is built, but every ray tested against it raises AttributeError. The objects keep position, shape and type, and directions are kept as unit vectors; a convex mirror has no normal.", "quantifier": "all argument combinations, with real components and non-zero vectors", "why_tests_cant": "There are 2^k combinations of missing arguments for each shape, and the values are real numbers; the unit tests build a few.", "anchors": ["optics3d.py:Mirror.__init__", "optics3d.py:Lens.__init__", "optics3d.py:Grating.__init__", "optics3d.py:Detector.__init__", "optics3d.py:Optic.__init__"]}
{"id": "C96", "title": "The catalogue of concave gratings and its layout", "statement": "script_sketchconcavegratings.py, the part before plotting. (a) For every table of fields without tabs, line ends and the letter E-circumflex, written as lines (with or without line end, with that letter scattered anywhere): if some row is longer than the header the loading raises IndexError; otherwise it succeeds, the names are the first fields in order of first occurrence, each entry is the last row of its name, each label gets the last column of that label, and a field is stored as float(field), else as float of the trimmed part before the first x, else as text. (b) The layout places input and outputs at the given distances and angles, and L_detector is the third side of the triangle of r'1, r'2 and the angle beta2 - beta1; other entries are unchanged. (c) For every number type the layout of a grating succeeds exactly if the six columns are present and numeric; otherwise it raises KeyError or TypeError, and no KeyError if all six are present.", "quantifier": "all tables, all functions float(), all catalogues", "why_tests_cant": "The script is run on one text file; nothing tests other tables.", "anchors": ["script_sketchconcavegratings.py:17-54"]}
{"id": "C97", "title": "Rays along the axis of a cylinder, alone, in compounds and in scenes", "statement": "For a ray parallel to the axis of an infinite cylinder C, and a solid S that the ray meets regularly and on whose surface it does not start (exact arithmetic): (a) C alone is reported as hit at a point whose coordinates are NaN, wherever the ray runs. (b) The union (S, C) is reported at a NaN point, whether or not the ray meets S; the union (C, S) at the first point of S if there is one, else at a NaN point. (c) S minus C is always reported as missed, so a drilled solid is invisible to rays along the hole, beside the hole too; C minus S is missed if the ray meets S ahead, and raises ValueError otherwise. (d) The intersection of C and S, seen from outside S, is reported at the first point of S, whether or not that point is in C; there are rays beside the rod that are so reported. From inside S, (C, S) gives the point of S and (S, C) a NaN point. (e) A run in a scene of such compounds (C alone, C second in a union, C subtracted) flies straight to the end, whatever is in the way.", "quantifier": "all cylinders, solids, starting points, directions along the axis, lengths and scenes of any number of such compounds", "why_tests_cant": "NaN comparisons decide silently; the tests have no ray along a cylinder.", "anchors": ["Shapes/shapes.py:InfiniteCylinder.test_intersect", "general_optics.py:operCsgUnion", "general_optics.py:operCsgDifference", "general_optics.py:operCsgIntersect", "general_optics.py:helper_findIntersects", "optics3d.py:Ray.run"]}
{"id": "C98", "title": "Rays that touch a ball, ahead or behind, in a run", "statement": "A ray from p along the unit vector d touches a ball if at some t0 (of any sign) the point p + t0 d is on the sphere and d is at a right angle to the radius there (exact arithmetic, one optic in the scene, 1e-12 < |t0| <= L). (a) A ball lens of index n > 1 and real type acts when the ray has flown |t0|, also if the contact is behind the start: the ray then goes on from p + |t0| d in the direction d/n + sqrt(1 - 1/n^2) o, where o is the radial direction at the contact. This is a unit vector other than d, so a ray that misses the lens is bent, and for t0 < 0 it is bent in empty space. (b) If the contact is ahead the ray flies from there to the end of its way without meeting the lens again. (c) At a convex mirror, and at a compound of one ball (reflecting, or of glass with n >= 1), the ray keeps its direction and ends at p + L d; its history has one extra point at a contact ahead, and for a contact that lies a behind the start the extra points a, 3a, 7a, ..., (2^k - 1) a, as far as they lie before L.", "quantifier": "all balls, rays, contacts ahead and behind, lengths and indices", "why_tests_cant": "Exact contact has measure zero, and the effect of contact behind the start needs a run longer than the distance to it.", "anchors": ["Shapes/shapes.py:Sphere.test_intersect", "optics3d.py:Lens.test_intersect", "optics3d.py:Mirror.test_intersect", "optics3d.py:Ray.run", "optics3d.py:Ray.refract"]}
{"id": "C99", "title": "The DMD script images the object sharply on its tilted detector", "statement": "The scene of script_testDMD.py for any numbers with 0 < f1 < s0 (s0 the distance of the object plane from lens 1), f2 > 0, sizes >= 0, a micromirror tilt th below 45 degrees, the lens angle -2 th, the detector angle -4 th and cos 4 th <> 0 (exact arithmetic). (a) The construction succeeds; the mirror lies in the image plane of lens 1, lens 2 stands at distance 2 f2 on the axis reflected by the micromirrors, the detector at 4 f2 on the same axis. (b) The script raises ZeroDivisionError exactly if f1 = 0, s0 = 0 or s0 = f1. (c) Every ray from the object point (x, y0, z), whatever its direction, that meets lens 1, mirror, lens 2 and detector in this order, and is not grazing at a lens nor oblique by less than the tolerance of the lens code, is recorded by the detector exactly once. It passes the mirror at (u, v) = -f1/(s0 - f1) (x, z) and hits the detector at the centre minus f2/(f2 - u sin 2th) times (u along the detector, v along z): a point that does not depend on the direction of the ray. (d) The numbers in the script are of this kind.", "quantifier": "all object points, ray directions, focal lengths, distances, apertures and tilts", "why_tests_cant": "The script only plots rays; that the chosen detector tilt makes the image sharp everywhere (and trapezoidal) is a statement about all rays and all object points.", "anchors": ["script_testDMD.py:1-83", "optics3d.py:Lens.do_intersect", "optics3d.py:Mirror.do_intersect", "optics3d.py:Detector.do_intersect", "optics3d.py:Ray.run"]}
{"id": "C100", "title": "The imaging and relay scripts record the image of the object grid", "statement": "script_testImaging.py and script_testIdealRelay.py from their first line to the last ray.run, for any focal lengths, positions, apertures, detector sizes, maximum distance, object size, cone angle below 90 degrees and resolutions, provided that the object lies in front of the (first) focal plane, the intermediate image in front of that of the second lens, the bundle fits into the apertures, the image onto the detector and the path into the maximum distance (exact arithmetic; the smallest sampled angle above the tolerance 1e-8). (a) Imaging: no exception; every ray ends on the detector; the detector's list holds one record per ray, in the order of generation, at (-M x, image plane, -M z) with M = f/(y1 - f), whatever the angle, with the colour of the object point; the history of each ray has the three points origin, lens, image. (b) Relay: the same with one record per ray at a point within 2e-8 of the image distance of the upright image M1 M2 (x, z), and exactly there unless the ray is nearly but not exactly parallel to the axis between the lenses. (c) With the numbers in the scripts: the records are the object grid turned upside down, and upright, in natural size at y = 100.", "quantifier": "all focal lengths, positions, apertures, sizes, angles and resolutions", "why_tests_cant": "A run of the script checks one set of numbers and shows a picture.", "anchors": ["script_testImaging.py:1-70", "script_testIdealRelay.py:1-82", "general_optics.py:image_rays", "optics3d.py:Lens.do_intersect", "optics3d.py:Detector.do_intersect", "optics3d.py:Ray.run"]}
{"id": "C101", "title": "Which exception the misuse of optics and CSG trees raises", "statement": "For every number type and every ray. (a) The query of a Compound raises ValueError if its tree is one flat shape, TypeError if it is one unfinished Cylinder or empty, AttributeError for an operator without operands or with a Cylinder as operand, IndexError for a known operator with a flat operand, KeyError for an unknown operator or a shape in place of the operator (provided the operands themselves answer). (b) Flat mirrors, ideal lenses, gratings and detectors whose first surface is a solid raise ValueError, with a Cylinder TypeError. (c) Unknown shape names raise ValueError in mirrors and lenses and UnboundLocalError in gratings and detectors, as does an empty list of surfaces; bare optics and blocks raise AttributeError. (d) Ray.run passes the exception on, if the ray is not blocked, the maximum distance positive, and the optics before the faulty one answer with a miss. (e) The interaction of a Compound with an unknown surface_behavior raises ValueError; the interaction of a Compound, of a normal mirror, of a refracting lens or of a grating without a normal raises TypeError; a mirror of unknown type leaves the ray unchanged; fly(None) raises ValueError. (f) A convex mirror or ball lens that is hit at a point whose distance is not below infinity (its square overflows) answers 'hit' without a point, and Ray.run raises TypeError.", "quantifier": "all number types, rays, shapes, optics and scenes of this kind", "why_tests_cant": "Tests rarely call code with wrong arguments, and never with all of them.", "anchors": ["optics3d.py:Compound.test_intersect", "general_optics.py:test_tree_intersect", "optics3d.py:Mirror.test_intersect", "optics3d.py:Lens.test_intersect", "optics3d.py:Grating.test_intersect", "optics3d.py:Detector.test_intersect", "optics3d.py:Ray.run"]}
{"id": "C102", "title": "Compounds made of one solid: light trapped, let out, and cylinders done right", "statement": "A Compound whose tree is one ball or one endless cylinder, alone in a scene; t0 < t1 are the places where the ray's line crosses the surface (exact arithmetic, chord longer than 1e-12). (a) If the ray starts inside, or the solid is a ball and the ray starts anywhere before t1, then the near side does not act and the ray flies straight to t1. (b) If the compound reflects, or is of glass and the ray meets the far side beyond the critical angle, the ray never leaves: for every maximum distance its history is the zigzag of mirror reflections along chords of the constant length t1 - t0, all corners lie on the surface and the end lies in the closed solid; so a reflecting ball lets light in through its front and keeps it for ever. (c) Glass below the critical angle bends the ray at t1 by Snell's law from the glass into the air and it flies on undisturbed: light from outside is not bent where it enters a ball. (d) A reflecting cylinder met from outside (script_testCylinder.py) reflects at the near side, once, keeps the component along the axis, and the ray stays outside. (e) A glass cylinder met from outside with the chord longer than 1e-8 bends the light by Snell's law at both sides and lets it out under the angle with the normal at which it came in.", "quantifier": "all positions, directions, radii, indices, axes and maximum distances; any number of reflections", "why_tests_cant": "The number of reflections grows without bound with the maximum distance, and a picture of the rays inside a ball looks plausible.", "anchors": ["optics3d.py:Compound.test_intersect", "optics3d.py:Compound.do_intersect", "optics3d.py:Ray.run", "Shapes/shapes.py:Sphere.test_intersect", "Shapes/shapes.py:InfiniteCylinder.test_intersect", "script_testCylinder.py:17-46"]}
{"id": "C103", "title": "Spheres and convex mirrors under rounding", "statement": "In IEEE binary64 arithmetic, for every finite sphere (centre c, radius R) and ray (start p, direction of length 1 up to rounding), with S >= |c - p|, |R| and exact crossing parameters t0 < t1, half chord h = (t1 - t0)/2, er = 5.5e-15 S^2/h + 1.2e-16 (|p| + 2 S): (a) if h^2 >= 3e-15 S^2, Sphere.test_intersect reports both points (count 2), the far point only (count 1) or a miss as exact geometry does, unless a crossing lies within 1.1e-13 + 4.2e-15 S^2/h of the threshold 1e-12; the points are within er of the exact ones. If the whole line stays outside the sphere by more than 3e-15 S^2 in the squared distance it reports a miss. (b) The normal is within 2.01 er/|R| + 8e-16 of the exact one. (c) A convex spherical mirror met from outside (1000 er <= h) reports the near crossing; after flight and reflection the position is within 2.5 er of the exact point and the direction within 8.1 er/|R| + 2e-14 of the exact reflection. (d) It is not hit again at once if 1000 er |R| <= h^2 and 7 er |R|/h <= 9.8e-13.", "quantifier": "all finite binary64 spheres and rays with 2^-100 <= S <= 2^100, |p| <= 2^100", "why_tests_cant": "Rounding errors depend on every bit of the input; tests see only the inputs they use.", "anchors": ["Shapes/shapes.py:Sphere.test_intersect", "Shapes/shapes.py:Sphere.normal", "optics3d.py:Mirror.test_intersect", "optics3d.py:Mirror.do_intersect", "optics3d.py:Ray.reflect_specular"]}
{"id": "C104", "title": "What faerie fire shows of a compound", "statement": "A faerie-fire ray aimed at a point c inside both members of a two-solid compound leaves exactly one dot. (a) Intersection: the dot is where the intersection ends in the direction of the start, and the ray is blocked there; if both solids end at the same point (the edge), the ray passes unblocked and its dot is where the flight ends. (b) Difference A - B: where A ends if A reaches beyond B on the near side; otherwise where B ends on the far side if A reaches beyond B there; otherwise the line misses A - B and the ray passes. (c) Any nested union: the point where the union ends in the direction of the start. (d) Every ray made by add_faerie_fire_rays is aimed at the centre, whatever the random numbers. (e) For two balls under 'intersect' a point is shown exactly if it is on one sphere and inside the other ball. (f) script_testCompoundIntersect, script_testCompoundDifference and the faerie-fire parts of script_testSingletLens and script_testBestformLens return with one dot per ray, as in (a) and (b). (g) For any positions and diameters the scenes of the first two scripts are one reflecting compound, the intersection or difference of the two balls as given.", "quantifier": "all spheres and infinite cylinders, centres, directions, radii of the faerie-fire sphere beyond the solids, any number of rays and random numbers", "why_tests_cant": "The pictures are random samples looked at by eye; the edge case has probability zero in a sample.", "anchors": ["optics3d.py:add_faerie_fire_rays", "optics3d.py:Compound.test_intersect", "optics3d.py:Ray.run", "general_optics.py:operCsgIntersect", "general_optics.py:operCsgDifference", "general_optics.py:operCsgUnion", "script_testCompoundIntersect.py", "script_testCompoundDifference.py", "script_testSingletLens.py", "script_testBestformLens.py"]}
{"id": "C105", "title": "Homogeneous coordinates and the two rotation matrices", "statement": "For all real points and directions (x, w): translation_matrix4(t) takes (x, w) to (x + w t, w), so it moves points (w = 1) and not directions (w = 0); scaling_matrix4(s) multiplies each coordinate by its own factor; rotation_matrix4(a, b) acts as rotation_matrix2(a, b) and keeps w. rotation_matrix(a, b) is the transpose of rotation_matrix2(a, b) for all non-zero a and b, so np.dot(v, rotation_matrix(a, b)) = np.dot(rotation_matrix2(a, b), v), antiparallel vectors included. script_testMatrixTransforms.py therefore prints the translated point, the world direction three times, and the scaled point.", "quantifier": "all real vectors, translations, scalings and non-zero pairs of vectors", "why_tests_cant": "The script compares the two methods on one pair of vectors, and says 'seems like both methods are roughly equivalent'.", "anchors": ["general_optics.py:rotation_matrix", "general_optics.py:rotation_matrix2", "general_optics.py:rotation_matrix4", "general_optics.py:scaling_matrix4", "general_optics.py:translation_matrix4", "script_testMatrixTransforms.py"]}
{"id": "C106", "title": "Littrow angle and the grating script", "statement": "A ray that meets a grating alone in a scene goes straight to it, leaves by the law of C89/C90, and flies the rest of max_distance. From the front side where the grating equation holds, a ray orthogonal to the grooves leaves with direction -d exactly if G m lambda / 10^6 = -2 d.s = 2 sin alpha, and then goes back on its own path. script_testRectangleGrating.py, for every groove density G and Littrow wavelength lambda0 with 0 <= G lambda0 <= 1.98e6 and every list of light whose orders exist: the scene is built, every ray goes to (0, 100, 0) and leaves at the angle beta to the normal with sin beta = G m lambda / 10^6 - sin theta, where theta is the angle by which the grating was turned; no ray is blocked.", "quantifier": "all gratings, rays, wavelengths and orders of the stated side; all parameters of the script", "why_tests_cant": "The script plots fifteen rays for one angle; nothing checks where they go.", "anchors": ["optics3d.py:Ray.reflect", "optics3d.py:Grating.do_intersect", "optics3d.py:Ray.run", "general_optics.py:rotation_matrix_axis_angle", "script_testRectangleGrating.py:17-71"]}
{"id": "C107", "title": "What the example scripts with lenses and cylinders compute, and which scripts stop at once", "statement": "script_czerny1.py, script_test.py, script_testConcaveMirror.py, script_testConvexSphereMirror.py, script_testRectangleMirror.py and script_testShortRun.py stop with TypeError at their first Mirror call (no dmd_normal), script_testBallLens.py at its Lens call (unknown keyword thinlens), whatever follows in the script. script_testThinlens.py, for all lists of starting coordinates within the aperture in front of the lens: every ray goes straight to the lens and from there through the focus (0, y1 + f, 0), in total max_distance. script_testIdealLenses.py, for all sizes that fit (including the script's): the detector records for each object point (x, 0, z) and angle t the point (-x, y2 + 2 f2, -(z + y1 tan t)), in order, and every ray is blocked there. script_testCylinder.py, for every radius, height of the cylinder, distance and list of z within the cylinder's outline: each ray meets the near side of the cylinder once and leaves in the direction given in closed form; the faerie-fire rays end in dots on the cylinder, or never meet it before max_distance and end inside it.", "quantifier": "all parameters of the scripts (positions, sizes, focal lengths, resolutions, random draws) in the stated ranges; TypeErrors for every number type and every continuation", "why_tests_cant": "The scripts are run by hand and looked at; seven of them no longer run.", "anchors": ["script_czerny1.py:17-22", "script_test.py:16-28", "script_testConcaveMirror.py:15-25", "script_testConvexSphereMirror.py:15-27", "script_testRectangleMirror.py:15-19", "script_testShortRun.py:16-27", "script_testBallLens.py:16-18", "script_testThinlens.py:16-41", "script_testIdealLenses.py:23-80", "script_testCylinder.py:19-51", "optics3d.py:Mirror.__init__", "optics3d.py:Lens.__init__", "optics3d.py:Ray.run"]}
{"id": "C108", "title": "What accompanies a reported hit", "statement": "For every number type (binary64 included), every ray, solid and CSG tree. (a) A sphere is hit exactly if its discriminant is positive and one of the roots b -+ sqrt(disc) exceeds the clipping floor, or the discriminant is 0; the points reported lie at these roots on the line of the ray, two points mean count 2, and each point comes with the normal at it. (b) An infinite cylinder raises ZeroDivisionError exactly if its radius is 0, and otherwise answers with points on the line of the ray, each with the normal at it. (c) Whatever the tree, if the query answers with six values, a hit has a first point and a first normal, and a second normal exactly if it has a second point; a miss has none; an operator node answers with one point at most. (d) A Compound never reports a hit without point and normal, nor a miss with one, and its shooting_from_outside is a bool.", "quantifier": "all number types, rays, shapes and trees", "why_tests_cant": "A missing point shows up only as a TypeError much later, in Ray.run; the combinations of missing fields in nested trees are too many to try.", "anchors": ["Shapes/shapes.py:Sphere.test_intersect", "Shapes/shapes.py:InfiniteCylinder.test_intersect", "general_optics.py:test_tree_intersect", "general_optics.py:helper_findIntersects", "general_optics.py:operCsgUnion", "general_optics.py:operCsgIntersect", "general_optics.py:operCsgDifference", "optics3d.py:Compound.test_intersect"]}
{"id": "C109", "title": "Light between the solids of a union, and script_testCompound.py", "statement": "(a) A reflecting Compound that is a union of any number of spheres and infinite cylinders in any nesting, alone in the scene (exact arithmetic): if light from p in direction d, reflected specularly wherever it meets one of the surfaces first, at the points pts, is at q after the length L, then Ray.run with max_distance L records exactly pts and q and leaves the ray there with that direction (the lines touch no surface and meet none within 1e-12 of a turning point, other than at it). (b) Equal balls in a row, any number: light at right angles to the row passes straight or is reflected exactly once, by the ball it meets first, at a point and in a direction given in closed form. (c) script_testCompound.py from its first line to the last ray.run does this for every ray of its grid, for any parameters; with the numbers of the script rays 0-7 and 63-75 pass, 8-27 meet the first ball, 28-42 the second, 43-62 the third. (d) script_testBinaryTree.py prints ( ( ( c n d ) \\\\ b ) u a ), for every number type.", "quantifier": "all unions of solids, all paths of any number of reflections, all rows of balls, all script parameters", "why_tests_cant": "Tests see a few rays on one union; a path can bounce any number of times between any number of solids.", "anchors": ["script_testCompound.py:21-55", "script_testBinaryTree.py:13-28", "general_optics.py:test_tree_intersect", "general_optics.py:operCsgUnion", "general_optics.py:BinaryTree.postOrderEval", "optics3d.py:Compound.test_intersect", "optics3d.py:Compound.do_reflect", "optics3d.py:Ray.run"]}
{"id": "C110", "title": "Parallel light through a lens of two balls, script_testSingletLens.py and script_testBestformLens.py", "statement": "(a) A refracting Compound that is the intersection of two balls on an axis (any radii, any index > 1, centres beyond the opposite faces), in exact arithmetic: light parallel to the axis at ANY height h inside the aperture (the lens thicker than 1e-8 there, h (1/RA + 1/RB) index < 1) is refracted exactly twice with Snell's law at both faces, never totally reflected, leaves the lens nearer to the axis, and crosses the axis behind it at the point given by C88's closed form; on the axis it goes straight. (b) script_testSingletLens.py / script_testBestformLens.py from the first line to the last ray.run, for any such lens, any list of heights, any number of faerie-fire rays and any random numbers: the two look-ups give 1 and the index, the fan behaves as in (a), every faerie-fire ray makes one dot as in C104. (c) With the scripts' own numbers all off-axis rays of the fan of 21 cross the axis between 499.4 and 500.6, within their flight of 550.", "quantifier": "all lenses of two balls and heights in the stated range, all lists of rays, all sequences of random numbers", "why_tests_cant": "Tests follow a few rays through one lens; the aberration of every ray is bounded here, and total reflection is excluded for every height.", "anchors": ["script_testSingletLens.py:18-64", "script_testBestformLens.py:19-72", "general_optics.py:test_tree_intersect", "general_optics.py:operCsgIntersect", "optics3d.py:Compound.test_intersect", "optics3d.py:Ray.refract", "optics3d.py:get_index_at_point", "optics3d.py:add_faerie_fire_rays", "optics3d.py:Ray.run"]}
{"id": "C111", "title": "Light retraces its path through a lens and between the solids of a union", "statement": "(a) A refracting Compound that is the intersection of two balls or infinite cylinders, alone in the scene (exact arithmetic): if a ray from p in direction d goes through it (Snell's law at entry and exit, any number of total reflections inside) and its flight of length m ends at q in direction e, then Ray.run started at q in direction -e with the same max_distance m records the same points in the opposite order and ends at p in direction -d. (b) The same for any path of specular reflections between the balls and cylinders of a reflecting union. Provided: the ends of the flight are off the surfaces, the lens is thicker than the offset 1e-8 at which the code looks up the index, at both ends of the path in the glass, and (b) no line touches a surface or meets one within 1e-12 of a turning point.", "quantifier": "all two-solid lenses, all unions, all paths with any number of reflections", "why_tests_cant": "The reverse run starts where the first one ended, so no fixed list of test rays covers it; paths have any number of vertices.", "anchors": ["general_optics.py:test_tree_intersect", "general_optics.py:operCsgIntersect", "general_optics.py:operCsgUnion", "optics3d.py:Compound.test_intersect", "optics3d.py:Compound.do_intersect", "optics3d.py:get_index_at_point", "optics3d.py:Ray.refract", "optics3d.py:Ray.reflect", "optics3d.py:Ray.run"]}
{"id": "C112", "title": "The mirror image of a scene has the mirror image of its light", "statement": "If the ray and every optic are reflected by the same linear map that keeps scalar products and reverses orientation (for instance the reflection in any plane through the origin), the run raises the same exception or returns with every recorded point, direction and detector record reflected and every flag, number and string unchanged; building optics from reflected arguments gives the reflected optics. The tangent of a rectangular mirror or detector may be reflected with either sign; that of a grating has to be reflected and reversed. With a grating tangent that is only reflected, for in-plane incidence on the side where the code follows the grating equation and G m wavelength not 0, the light of the image scene is not the image of the light, neither with the same order nor with the opposite one. For the ideal thin lens the claim is false as it is for rotations.", "quantifier": "all reflections, all scenes of any length without ideal thin lenses, all rays, any number of interactions", "why_tests_cant": "A symmetry of whole runs relates two executions for every scene and every reflection; tests compare single runs with expected numbers.", "anchors": ["optics3d.py:Ray.run", "optics3d.py:Ray.reflect", "optics3d.py:Ray.refract", "optics3d.py:Grating.do_intersect", "Shapes/shapes.py:Rectangle.test_intersect", "Shapes/shapes.py:Rectangle.__init__", "Shapes/shapes.py:InfiniteCylinder.test_intersect", "general_optics.py:test_tree_intersect"]}
{"id": "C113", "title": "Light in a plane of symmetry stays there", "statement": "If every optic of the scene is its own image in a plane through the origin (centre and normal in the plane; rectangles with a side in the plane or across it; grooves of a grating across the plane; balls centred in the plane; cylinders with their axis in it; any compound of such solids) and the ray starts and heads in the plane, then every recorded point, the final position and direction, and every detector record without NaN lie in the plane, and the scene is still symmetric for the next ray. If the scene has two such planes, light that starts along the line where they meet stays on that line.", "quantifier": "all planes, all symmetric scenes of any length without ideal thin lenses, all rays in the plane, any number of interactions, bundles of rays of any size", "why_tests_cant": "A statement about every run in every symmetric scene cannot be sampled; a test sees one scene and one ray.", "anchors": ["optics3d.py:Ray.run", "optics3d.py:Ray.reflect", "optics3d.py:Ray.refract", "optics3d.py:Grating.do_intersect", "Shapes/shapes.py:Rectangle.__init__", "general_optics.py:test_tree_intersect"]}
{"id": "C114", "title": "Between optics round about an axis, light keeps its moment about the axis", "statement": "If every optic is a flat mirror orthogonal to an axis, a concave or convex mirror with its centre of curvature on the axis, a reflecting compound of balls centred on the axis and cylinders about it, a detector, or an optic that run skips, then ((p - c) x d) . a is the same after any run as before, and on every leg between recorded points the area swept about the axis is that moment times the length. If all mirrors and reflecting balls are centred at one point c, the whole vector (p - c) x d is kept: all recorded points lie in the plane through c in which the light starts, and every leg has the same distance from c. This includes hits where the ray touches a curved surface, ahead or behind. At a refraction the moment times the index is kept, at total reflection the moment.", "quantifier": "all axes, all such scenes of any length, all rays, any number of interactions", "why_tests_cant": "A constant of the motion over every path; a test checks one path up to rounding.", "anchors": ["optics3d.py:Ray.run", "optics3d.py:Ray.reflect", "optics3d.py:Ray.refract", "optics3d.py:Mirror.test_intersect", "optics3d.py:Compound.do_intersect", "Shapes/shapes.py:Sphere.get_normal", "Shapes/shapes.py:InfiniteCylinder.get_normal", "general_optics.py:test_tree_intersect"]}
{"id": "C115", "title": "What a run depends on: the colour of a ray matters only at gratings", "statement": "Any number type: two rays with the same position, direction and blocked flag, both or neither of type faerie_fire, take the same path through a scene if it has no grating, or if they have the same order and wavelength, or if both have order 0. The points added to their histories, the final direction and blocked flag agree, detectors record the same points (each with the wavelength of its own ray), or both runs raise the same exception. What stood in the history before is irrelevant. The same holds ray by ray for whole fans. Exact arithmetic: with gratings, rays of non-zero orders agree as soon as order times wavelength agree, so the orders of a spectrum overlap.", "quantifier": "all number types, all scenes of any length and kind, all pairs of rays, any number of interactions", "why_tests_cant": "Noninterference speaks of pairs of runs; a test compares a few pairs in a few scenes.", "anchors": ["optics3d.py:Ray.run", "optics3d.py:Ray.reflect", "optics3d.py:Ray.refract", "optics3d.py:Grating.do_intersect", "optics3d.py:Detector.do_intersect", "general_optics.py:test_tree_intersect"]}
{"id": "C116", "title": "Optics out of the way of a ray can be left out of the scene", "statement": "An optic that is, at every iteration of a run, missed, out of reach of the remaining distance, or behind a nearer hit of another optic, can be inserted at any place of the scene: the final ray and the final state of all other optics are unchanged, and it is unchanged itself. Required: no lens of real glass in the scene, or an optic that run tests stands after it in the list. In particular an optic whose surface is everywhere farther from the start of the ray than max_distance can be inserted, also for a whole fan of rays. Without that requirement it is false: a detector that the ray never meets, listed last after a glass ball, turns refraction into total reflection.", "quantifier": "exact arithmetic; all scenes of any length, all places, all rays, any number of interactions", "why_tests_cant": "Adding irrelevant optics to all scenes relates pairs of runs; tests have one scene each.", "anchors": ["optics3d.py:Ray.run", "optics3d.py:Lens.do_intersect", "optics3d.py:Detector.test_intersect", "general.py:distance_between"]}
{"id": "C117", "title": "All light that is absorbed is recorded, once", "statement": "Any number type: after a fan of rays, none blocked at the start, has run through a scene, the wavelengths in the records of all detectors together are those recorded before and those of the rays of light (not faerie fire) that ended blocked, each exactly once. Hence the number of new records, in total and of each colour, is the number of such rays. A single ray ends blocked iff there is one more record, and unblocked iff the scene is exactly as before.", "quantifier": "all number types (binary64 included), all scenes of any length and kind, all lists of rays, any number of interactions", "why_tests_cant": "Conservation is a statement about all fans in all scenes; tests count the records of a few.", "anchors": ["optics3d.py:Ray.run", "optics3d.py:Detector.do_intersect", "optics3d.py:Block.do_intersect"]}
{"id": "C118", "title": "max_interactions only cuts a run short", "statement": "Any number type: if the run limited to N interactions returns, a run with a larger limit, or none, records the same points first, then possibly more; if the light was absorbed, both runs return the same. What the limited run raises, the run with the larger limit raises too. A limited run that recorded fewer than N points is already the whole run, whatever larger limit is chosen. Exact arithmetic, optics from the constructors except gratings: a run stopped by its limit can be taken up again with max_distance less the length of the path so far (and no limit); ray, history and detector records are those of the whole run.", "quantifier": "all number types, scenes of any length and kind, all rays, distances and limits", "why_tests_cant": "The claim compares runs under all limits with each other.", "anchors": ["optics3d.py:Ray.run", "optics3d.py:Ray.fly", "optics3d.py:Detector.do_intersect"]}
{"id": "C119", "title": "The text of an optic", "statement": "Any number type: str() of a mirror, lens, grating or detector is its class name, its position and its normal, each coordinate to five digits, exactly when it has a normal and the six numbers can be formatted; str() of a compound is 'Compound', so all compounds read the same; str() of a plain Optic, Annotation, Filter, Window or Block always raises AttributeError (nothing sets optic_type). Meeting light does not change the text of an optic, so a run changes the text of none of the optics in its list. With finite position and normal formatting never raises. str() of a convex mirror always raises AttributeError (it has no normal), of a lens made without a normal TypeError.", "quantifier": "all number types, all optics; all constructor arguments for the raising cases", "why_tests_cant": "Tests print a few optics; which of them have no text at all, whatever they are made of, is a statement about all arguments.", "anchors": ["optics3d.py:Optic.__repr__", "optics3d.py:Mirror.__repr__", "optics3d.py:Lens.__repr__", "optics3d.py:Grating.__repr__", "optics3d.py:Detector.__repr__", "optics3d.py:Compound.__repr__"]}
