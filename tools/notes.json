{
"C01":["proved", "All parameters, all knot vectors with non-decreasing knots and n+p+1 entries."],
"C02":["proved", "All degrees the stack evaluator accepts (<= 24), every parameter of the domain, end included."],
"C03":["proved", "For the values basis_funcs returns, at any parameter of the line (C03_any_parameter), and for all n recursive basis functions. Degrees up to 24 for basis_funcs (its stack arrays)."],
"C04":["proved", "Values in [0,1] (C04_range_computed, C04_range); recursive basis functions vanish outside [k_i, k_{i+p+1}), the right end of the domain excepted."],
"C05":["partial", "The full statement is refuted by C05_close_knots_refuted (knots closer than knot_eps); proved by C05_basis_function for knots equal or further apart than knot_eps and repeated at the end, and by C05_derivative and C05_above for the derivatives."],
"C06":["proved", "Degrees <= 24 for every valid knot vector; higher degrees on knots separated by more than knot_eps."],
"C07":["proved", ""],
"C08":["partial", "proved for curves and surfaces, polynomial or with positive weights: C08_transform and its instances for translation, rotation and scaling; C08_derivatives for the derivatives of every order of polynomial objects; C08_rational_derivatives_partial for rational ones up to order 20 (above it the factorials of the code wrap). For rational objects with a zero weight the full statement is refuted by C08_zero_weight_refuted. The overloads taking a Matrix4 do not compile and are not modelled; an affine matrix function on points is a case of trf in C08_transform."],
"C09":["proved", "Positions and end tangents."],
"C10":["proved", "Every order, two-sided inside spans, right derivative at knots, left derivative at the end of the domain."],
"C11":["proved", "Curves, free function and member; surfaces are under C29, rational curves under C12 and C13."],
"C12":["partial", "Value, hull, equal weights, and derivatives up to order 20 proved; full statement refuted at order 21 by C12_order21_refuted (21! wraps in size_t)."],
"C13":["partial", "add_weights_coord/separate_weights proved; rejection of a size mismatch by merge_weights refuted by C13_merge_short_refuted and C13_merge_long_refuted."],
"C14":["partial", "Both directions proved for value, derivatives and the rational value (order 0) of every curve whose first and last spans are non-empty; 'never otherwise for a validly constructed curve' refuted by C14_total_refuted."],
"C15":["partial", "Constructor accepts exactly the admissible data up to 2 eps in the knot order (exact refuted by C15_constructor_refuted). C15_history: class invariant over every finite history of insertKnot(s), removeKnot, reverse, trim, changeBounds, increaseDegree, copyPoles with meaningful arguments from a clamped curve; false for meaningless arguments (C15_*_refuted)."],
"C16":["proved", "Any knot of the half-open domain, any number of copies, all derivatives. C16_below_undefined records the undefined behaviour below the first knot."],
"C17":["partial", "Saturation proved by C17_multiplicity and C17_saturated; the clause about zero insertions is refuted by C17_zero_insertions_refuted."],
"C18":["partial", "Exact inverse of insertion and exactness for every removable knot (interior, at most its multiplicity, multiplicity <= degree), untouched on 0, count reported: proved. 'Removes only copies of u' is refuted by C18_only_copies_refuted when more copies are requested than exist; end knots of clamped vectors are undefined behaviour (C18_first/last_knot_undefined)."],
"C19":["proved", "Both argument orders, all derivatives on [u1,u2), value at u2; a bound within knot_eps of the old end is left in place."],
"C20":["partial", "Proved for every curve whose bounds are its end knots, all parameters and orders; full statement (any bounds) refuted by C20_soft_trim_refuted."],
"C21":["proved", "Knots, bounds, values and all derivatives; zero-length domain gives a division by zero (C21_zero_length)."],
"C22":["partial", "Proved for segments, curves and surfaces up to degree 12 (all derivative orders, clamped knots with inner multiplicity at most the degree); the full statement is refuted by C22_overflow_refuted: from degree 13 on the binomials overflow int"],
"C23":["proved", "For clamped knot vectors with distinct knots more than knot_eps apart and inner multiplicity at most the degree"],
"C24":["partial", "flat_knots and the round trip proved for all inputs; agreement of the two unflat variants refuted at knots exactly eps apart by C24_variants_agree_refuted."],
"C25":["partial", "Multiplicities, length, clamping and knot values of every builder proved; uniform spacing of build_simple_mult_flat_knots(u1,u2,n,p) refuted by C25_uniform_refuted (last span is twice as long)."],
"C26":["partial", "insert_ordered proved; insert_unique_ordered proved sorted and containing the value; uniqueness refuted by C26_unique_refuted (the predecessor is not compared)."],
"C27":["partial", "Full statement refuted by C27_close_knots_refuted (knots closer than the tolerance) and C27_degree_zero_refuted. Proved by C27_unify_knots and C27_unify_curves_knots for any number of clamped curves of one degree whose knots, moved to the first interval, are equal or more than the tolerance apart; C27_unify_degree for the degree step (degrees up to 12)."],
"C28":["partial", "Full statement refuted by C28_trimmed_refuted (bounds other than the end knots) and C28_overflow_refuted (degree 13). Proved by C28_join (polynomial) and C28_join_rational (either or both rational) for clamped curves of degree up to 12 with natural bounds; the position holds on both closed intervals, derivatives of the first curve on its half-open interval; for a polynomial operand of a rational join, derivative orders up to 20."],
"C29":["partial", "Value = tensor sum, both nested evaluation orders at every order, partial derivatives, derivatives() table, guards and the rational quotient proved; rational derivatives proved up to order 20 (_partial); C29_constructor_refuted: the constructor accepts wrapped pole counts."],
"C30":["partial", "Proved for every grid and block size >= 1; C30_block_zero_refuted (block size 0 never ends) and C30_blocked_empty_refuted (no rows)."],
"C31":["partial", "polesU/polesV proved inside the grid; pole(i,j) has its indices exchanged: full statement refuted by C31_pole_refuted, C31_reject_refuted, C31_accept_refuted; C31_pole_partial gives what it returns; the overflow promise of polesU is refuted."],
"C32":["partial", "isoU/isoV proved on the whole domain for degree >= 1 (the end needs end-clamped knots); C32_band_refuted: undefined in the tolerance band below the start."],
"C33":["partial", "insertKnotU/V, reverseU/V, trimU/V, changeU/VBounds proved; increaseDegreeU/V are under C22; C33_trim_order_refuted for decreasing trim bounds."],
"C34":["proved", "band_lu factorise/solve over R: never undefined on a full band storage; success iff an LU factorisation without row exchanges with pivots above 16 machine-eps * scale and multipliers <= 1e4 exists; solve(b) then satisfies A x = b"],
"C35":["proved", "interpolate, Hermite, constraint lists, end points + constraints, batches; Eigen's sparse/dense LU is an argument assumed to return only solutions (exact_solver); band LU path is proved; domain: evaluable (p<=24, or clamped separated knots)"],
"C36":["proved", "approx_bound_fixed, free approx, approx(u) : ends exact, least squares optimal per coordinate over all competitors; Eigen's LDLT is an argument assumed to return only solutions; needs at least two poles (p = 0 with one pole is undefined in the code)"],
"C37":["partial", "build_batch: proved in full (C37_batch, _values, _first_error, _slots, _progress) for every complete interleaving. transform_threshold: proved when the function does not throw (C37_transform_partial); refuted otherwise by C37_transform_refuted (std::terminate above the gate)."],
"C38":["proved", "All make_range overloads, for every size; size_t wrap and int overflow of the integer overload are outside the model."],
"C39":["partial", "C39_segment_point_refuted: the unnormalised segment between coincident points evaluates to 0/0; proved in full for ellipses, circles, normalised segments and distinct points."],
"C40":["partial", "Refuted for curves that jump at an inner knot (C40_break_refuted) and for degree 0 (C40_degree_zero_refuted); proved for every other degree, knots and order."],
"C41":["partial", "trimmed, reversed, extended, reparametrized (orders 0-2), composite: proved. Full statement refuted: clamped extension returns the end derivative outside (C41_clamped_derivative_refuted), reparametrized orders above 2 throw (C41_reparametrized_order_refuted)."],
"C42":["partial", "value and first derivative proved (C42_first_partial); second derivative refuted by C42_second_refuted, proved when both parameter functions have equal second derivatives (C42_second_partial)."],
"C43":["partial", "rotations in the plane and in space, frame to world, distances: proved (C43_rotation_plane, _centre, _space, C43_frame, C43_frame_distance). Full statement refuted for build_trf_matrix(from,to) by C43_from_to_refuted (the matrix of from is not inverted); proved when from has the world axes by C43_from_to_partial. Null axis divides by zero (C43_null_axis_refuted)."],
"C44":["proved", "whenever the mesher returns, for every number of curves, blend order and section sizes: the rows and columns at the hard parameters are points of the curves at non-decreasing parameters through the hard ones; exact linear solver and arc length law as arguments; order + slope control at most 12 (the degree up to which the evaluator has no tolerance issue). A section of one point is undefined (C44_short_section_refuted); the section size computation is not modelled"],
"C45":["proved", "make_face, faces from points, walking around a face"],
"C46":["proved", "all histories of nine editing operations, on every heap"],
"C47":["proved", "flip, flipping twice, faces that share no edge"],
"C48":["proved", "any closed chain of half-edges of removed faces, any number of them"],
"C49":["proved", "exact reals; delaunay geometry in Spec_Tess/Spec_Geom"],
"C50":["proved", "remove_faces, eraseFace and repairVertexEdges on every mesh"],
"C51":["proved", "any list of half-edges; boundaries of face sets give closed loops"],
"C52":["proved", "every mesh and every set of its faces"],
"C53":["proved", "Over the reals: sign of in_circle against any circle through the three points, both orientations; circle_center equidistant, refused exactly when the doubled area is below the tolerance. Rounding is out of this model."],
"C54":["proved", "for every precision p >= 10 with unbounded exponents (C54_exact_sign), and with gradual underflow when coordinates are multiples of 2^s with 2s >= emin+4p (C54_exact_sign_gradual, instances for double and float); C54_underflow_refuted shows the sign is lost when a product underflows. Overflow is not modelled."],
"C55":["proved", "is_inside: for every polygon that is the boundary of a set of triangles of a mesh without overlap, every point on the boundary or further from it than the tolerance. Degenerate triangles: C55_flat_refuted says what in_triangle answers."],
"C56":["proved", "Sound for any tolerance >= 0, symmetric for any arguments, complete with margins; on_segment sound and complete up to its tolerance."],
"C57":["partial", "connectedness proved for every sequence of addEdge calls on distinct edges whose tolerance is at least the wire's and whose projection is not worse than the distance to their end vertices (C57_connected_partial, C57_add_edge_partial); closedness, acceptance and refusal proved in full (C57_closed, _closed_accepts_none, _accepts, _refused); full statement refuted by C57_tolerance_refuted, C57_shared_edge_refuted and (for coincident points) C57_end_points_refuted"],
"C58":["proved", "C58_curve, C58_surface and C58_revolution cover B-spline curves and surfaces (rational or not), curves on them and surfaces of revolution, for every constructor-valid object with separated knots, non-zero weights and degree below 2^32, on the in-memory JSON tree; the decimal text form (rapidjson Writer and Parse) is not modelled. Custom bounds, knots within the tolerance, trimmed curves and curves on a surface of revolution are not restored (refuted theorems)."],
"C59":["partial", "proved for ASCII lines that contain the separator (C59_split_partial, _wrong_number, _accepted, _read_partial); full statement refuted by C59_lone_field_refuted (a line without separator yields no field) and C59_non_ascii_refuted (isspace on a negative char)"],
"C60":["partial", "full statement refuted by C60_split_refuted: two half-edges stay unlinked and the new vertex refers to a half-edge that ends elsewhere"],
"C61":["partial", "full statement refuted by C61_is_boundary_refuted; the answer is inverted in every mesh (C61_is_boundary_inverted_partial)"],
"C62":["partial", "scale_weights proved; scaled_weights refuted by C62_scaled_weights_refuted (mean_value ignored)."],
"C63":["partial", "Exact results characterised for all n; claim for every result that fits refuted by C63_binomial_size_refuted and C63_binomial_int_refuted."],
"C64":["partial", "full statement refuted by C64_off_axis_refuted (axis not through the origin of coordinates) and C64_derivative_refuted (frame not at the origin, order >= 1 in u); proved for a frame at the origin (C64_origin_partial) and, for values and v-derivatives, for axes through the origin (C64_axis_partial)."],
"C65":["proved", "Continuity of every order up to p - m and differentiability below, at every interior parameter."],
"C66":["proved", "Under full support, which C66_support_needed shows necessary."],
"C67":["partial", "Parametrisation proved for the three modes; adimension mapping onto [0,1] refuted by C67_adimension_refuted when the list does not start at 0."],
"C68":["partial", "full statement refuted by C68_recovery_refuted (the convexity test is inverted); C68_mesh_unchanged shows what it does instead"],
"C69":["proved", "Exact arithmetic; by_address is the order of the vertex addresses."],
"C70":["partial", "circles in the plane and from an orthogonal frame, line evaluation: proved. Line bounds exclude the first point (C70_line_bounds_refuted); circle from an axis is degenerate in general (C70_circle_axis_refuted), proved when the smallest axis coordinate is 0 (C70_circle_axis_partial)."],
"C71":["partial", "full statement refuted by C71_covers_hull_refuted (triangles of the hull whose circle reaches a corner of the enclosing box are lost); proved for triangles whose circle also excludes the frame corners by C71_which_triangles_partial"],
"C72":["proved", "Exact arithmetic; the dense LU of Eigen is any solver that only returns solutions (C72_grid), and one that returns for every nonsingular matrix (C72_grid_returns)."],
"C73":["proved", "Exact arithmetic; the dense LU of Eigen is any solver that only returns solutions; existence when the constraints determine the poles."],
"C74":["proved", "Exact arithmetic; sections of degree at most 12 whose rescaled knots are equal or more than the tolerance apart; the loft along a spine is not part of it."],
"C75":["proved", "Exact arithmetic; degree at most 24 (below the tolerance-dependent recursion), the fallback solver of Eigen returns for every nonsingular matrix."],
"C76":["partial", "The carried sections and the crossing direction are proved for any number of sections by C76_spine and C76_spine_rational whenever the loft returns. That it always returns is refuted by C76_uneven_refuted (three unevenly spaced sections) and proved for two sections by C76_two_returns_partial."],
"C77":["proved", "Exact arithmetic; LDLT is any solver that only returns solutions, the pivoted QR any least squares solver."],
"C78":["partial", "full statement refuted by C78_overhang_refuted (curves that end beyond the outer curves of the other family); proved by C78_gordon and C78_gordon_returns for networks whose crossings go from bound to bound. extrema_curve_curve is an argument."],
"C79":["partial", "Full statement refuted by C79_constraints_refuted (list version) and C79_two_poles_refuted (two poles, fixed ends). Proved: C79_delta (any window and constraints), C79_point, C79_returns, C79_free, C79_in_place."],
"C80":["partial", "Derivative constraints refuted by C80_derivative_refuted. Proved for positions: C80_positions, C80_point, C80_returns, C80_free, C80_in_place."],
"C81":["partial", "least squares optimality, existence and reproduction of the sections proved (C81_least_squares, C81_returns, C81_carries, C81_default); that stations in order suffice is refuted by C81_rows_refuted, and that v is brought to [0, 1] by C81_domain_refuted"],
"C82":["partial", "connections by c2_connect (plain and with factors), c3_connect and cn_connect (degree above the order), and extensions to a point or by a length at either end of polynomial clamped curves proved as stated; the expected parameter length is refuted by C82_extended_speed_refuted; the elliptic connections are not proved and rational curves are not covered."],
"C83":["partial", "C83_join, C83_split_u, C83_split_v, C83_extention, C83_extended_to_curve, C83_extended_length and C83_extended_sides prove the statement for clamped non-rational surfaces whose edge curve has the knots of the edge; for the extension by a length the least squares curve is assumed to be returned by the solver, and at the start sides the old points are found at shifted parameters. C83_join_refuses: other knots in v are refused. C83_short_curve_refuted: a curve with fewer poles is read out of bounds."],
"C84":["partial", "Proved: C84_sampling, C84_points, C84_bspline, C84_surface_u/v, C84_grid. That n_max_pts bounds the count, that the deviation holds away from the middle of a step, that closed curves are refined and that the sampling of surfaces ends are refuted by C84_max_refuted, C84_middle_refuted, C84_closed_refuted and C84_surface_refuted."],
"C85":["partial", "Each direction proved; that the plane and space overloads agree is refuted by C85_agree_refuted, which gives the exact relation."],
"C86":["partial", "Proved for exact quadratures and additive lengths; the insertion of further parameters is refuted by C86_adaptive_refuted (undefined behaviour)."],
"C87":["partial", "Plane offsets, points in space and offset surfaces proved for all inputs. The derivative in space is refuted by C87_derivative_refuted and C87_straight_refuted."],
"C88":["partial", "Searches proved for every minimiser meeting the stated hypotheses, with the squared distance as what is returned. Refuted: distance (squared), bracketed surface and curve (C88_surf_curve_refuted), two gradients, extreme coordinates in general (C88_min_refuted, C88_max_refuted; C88_min_partial and C88_max_partial prove the nonnegative case), curvature (C88_curvature_refuted), newton_solve."],
"C89":["partial", "Elliptic smoothing: window, passes, fixed grids, range and translation proved (C89_window, C89_passes, C89_fixed, C89_in_range, C89_translation); the box refuted by C89_hull_refuted; the Python function by C89_binding_refuted (C89_binding_one_pass says what it does); neighbours and Laplacian smoothing by C89_neighbours_refuted, C89_laplacian_refuted, C89_laplacian_corner_refuted (C89_neighbours_self, C89_laplacian_still say what they do on every mesh)."],
"C90":["partial", "The clause on stopping is refuted by C90_stop_refuted: one point is inserted even if every face meets the limit; C90_no_faces_refuted: undefined with no faces. Everything else is proved: C90_refined for every measure, C90_rounds for every measure that an insertion leaves unchanged on kept faces, and C90_max_edge_size and C90_distance show that the library's measures are such."],
"C91":["partial", "Iteration and area are proved in full, for every schedule of the reduction. That the iterators obey the rules of standard algorithms is refuted by C91_iterators_refuted and C91_max_element_refuted."],
"C92":["partial", "MaxEdgeSize and DistanceMeshSurface2 are proved as stated except that the point is (0, 0) where nothing exceeds 0. That the point lies in the triangulation is refuted by C92_flat_refuted, and the claim on TriangleShapeEdgeSplit by C92_split_point_refuted."],
"C93":["partial", "Number of points, ends, even spreading, sizes and growths proved; the order along the curve is refuted by C93_order_refuted and C93_leaves_refuted, and the calls on two or three points or before set_n_points fail (C93_three_refuted, C93_no_points_refuted)."],
"C94":["partial", "Curves and surfaces: C94_curve and C94_surface for the data, C94_space_curve, C94_space_surface, C94_rational_curve and C94_rational_surface for the points of objects in space. Full statement refuted by C94_plane_refuted (plane curves), C94_off_axis_refuted and C94_trim_refuted (surfaces of revolution); C94_revolution gives the surface exported, C94_revolution_value_partial its agreement with value() for an axis through the origin and an untrimmed profile."],
"C95":["partial", "Full statement refuted by C95_derivative_refuted; order 0 proved by C95_device, orders above the degree by C95_above, the first derivative of the last function by C95_derivative_partial."],
"C96":["partial", "Size, distance, ratio and turn proved (C96_max_edge_size_surface, C96_distance, C96_shape, C96_shape_least, C96_local, C96_deviation2). DeviationMeshSurface is 2 on a plane (C96_deviation_refuted; what it returns is in C96_deviation), and TriangleShape2 depends on size (C96_shape2_refuted)."],
"C97":["proved", "C97_curve is the statement for curves, C97_surface_u and C97_surface_v for surfaces; C97_unit and C97_lists complete it. The one-pass derivatives of B-splines are taken as the calls of value (C12)."],
"C98":["partial", "perimeter, incenter, surface_triangle_deviation and computeUV proved; the throw of computeUV is refuted by C98_small_refuted, sphere_center by C98_sphere_nan_refuted and C98_sphere_refuted."],
"C99":["partial", "refuted by C99_face_ccw_refuted: are_face_ccw accepts flat faces (C99_face_ccw says exactly what it accepts); the rest of the statement is proved (C99_internal, C99_external, C99_edges_ccw)"]
}
