{"id": "C01", "title": "Span search finds the span", "statement": "For a knot vector k of n+p+1 non-decreasing values, find_span(n,p,u,k) terminates, never reads outside k, and returns the position of an index i with p<=i<=n-1; for u in [k[p],k[n]) it is the index with k[i]<=u<k[i+1], and for u>=k[n] it is n-1.", "quantifier": "every degree p, every number of poles n>p, every non-decreasing knot vector (repeated knots included), every parameter u", "why_tests_cant": "The loop's termination and its boundary behaviour depend on the position of u with respect to arbitrarily many, possibly repeated knots; sampling cannot exclude a non-terminating or off-by-one case.", "anchors": ["gbs/basisfunctions.ixx:find_span (275-307)"]}
{"id": "C02", "title": "Triangular basis evaluation equals the Cox-de Boor definition", "statement": "basis_funcs(i,p,u,k) called on a non-empty span i containing u returns exactly the p+1 values N_{i-p,p}(u)..N_{i,p}(u) of the Cox-de Boor recursion, in that order, with no division by zero and no access outside k.", "quantifier": "every degree p, knot vector, non-empty span i and parameter u of that span", "why_tests_cant": "The algorithm overwrites one row in place with p(p+1)/2 divisions; only an induction on the degree covers every p and every knot spacing.", "anchors": ["gbs/basisfunctions.ixx:basis_funcs (117-166)"]}
{"id": "C03", "title": "Partition of unity", "statement": "The p+1 values returned by basis_funcs on a non-empty span sum to exactly 1.", "quantifier": "every degree, knot vector, non-empty span, parameter (also outside the span)", "why_tests_cant": "The identity has to hold for all real parameters and all knot spacings.", "anchors": ["gbs/basisfunctions.ixx:basis_funcs (117-166)"]}
{"id": "C04", "title": "Basis values are non-negative and vanish outside their support", "statement": "For u in [k[p],k[n]] every basis function value is in [0,1]; basis function i of degree p is 0 for u<k[i] and for u>=k[i+p+1] (except at the right end of the domain).", "quantifier": "every degree, index, non-decreasing knot vector and parameter", "why_tests_cant": "Sign and support are universally quantified over the reals.", "anchors": ["gbs/basisfunctions.ixx:basis_funcs (117-166)", "gbs/basisfunctions.ixx:basis_function (41-71)"]}
{"id": "C05", "title": "The tolerance-based recursive basis agrees with the exact definition", "statement": "basis_function(u,i,p,k) equals the Cox-de Boor value whenever any two knots of k are either equal or more than knot_eps apart; when knots are closer than knot_eps but distinct it may differ. basis_function(u,i,p,d,k) is, between two knots, its derivative of order d.", "quantifier": "every degree, index, parameter and every knot vector in which different knots differ by more than knot_eps", "why_tests_cant": "The recursion has 2^p branches, each with its own tolerance test.", "anchors": ["gbs/basisfunctions.ixx:basis_function (41-71, 332)"]}
{"id": "C06", "title": "Curve evaluation is the B-spline sum", "statement": "value(u) of a non-rational curve is, coordinate by coordinate, sum over all poles i of N_{i,p}(u)*pole_i, for every u of the curve's domain, although only p+1 poles are visited.", "quantifier": "every degree, pole list, clamped knot vector and parameter in the bounds", "why_tests_cant": "Correctness of the reduced loop is about every span and every u, including the right end and repeated knots.", "anchors": ["gbs/basisfunctions.ixx:eval_value_decasteljau (351-392)", "gbs/bscurve.h:BSCurve::value (590-606)"]}
{"id": "C07", "title": "Convex hull", "statement": "Each coordinate (more generally each affine function) of value(u) lies between the minimum and the maximum of that coordinate over the p+1 poles active at u.", "quantifier": "every curve with non-decreasing knots, every u in the domain", "why_tests_cant": "A bound over a continuum of parameters.", "anchors": ["gbs/basisfunctions.ixx:eval_value_decasteljau (351-392)"]}
{"id": "C08", "title": "Affine invariance", "statement": "Transforming all poles by an affine map (translate, rotate, scale, matrix) and evaluating gives the image of the evaluated point.", "quantifier": "every affine map, curve and parameter", "why_tests_cant": "Universally quantified over maps and parameters.", "anchors": ["gbs/transform.h:transform, translate, scale, rotate", "gbs/transformpoints.h"]}
{"id": "C09", "title": "Clamped end interpolation", "statement": "If the first (last) knot has multiplicity p+1, value at the start (end) of the bounds is exactly the first (last) pole.", "quantifier": "every degree, every clamped knot vector, every pole list", "why_tests_cant": "The end parameter is treated by special branches (last span, u>=k[n]).", "anchors": ["gbs/basisfunctions.ixx:find_span (275-307)", "gbs/basisfunctions.ixx:eval_value_decasteljau (351-392)"]}
{"id": "C10", "title": "Derivative evaluation is the derivative", "statement": "value(u,d) is the d-th derivative with respect to u of value(u) inside every non-empty span (one-sided at its left knot), and value(u,d)=0 for d greater than the degree.", "quantifier": "every degree, derivative order, clamped knot vector, pole list and interior parameter", "why_tests_cant": "A test compares with finite differences at sampled points; the statement is a limit.", "anchors": ["gbs/basisfunctions.ixx:ders_basis_funs (178-251)", "gbs/basisfunctions.ixx:basis_ders (261-272)", "gbs/basisfunctions.ixx:eval_value_decasteljau (351-392)"]}
{"id": "C11", "title": "derivatives() agrees with value()", "statement": "Entry k of derivatives(u,d) equals value(u,k) for every k<=d, for curves and surfaces.", "quantifier": "every order d, including d greater than the degree, every curve and parameter", "why_tests_cant": "Two different code paths (batch table and single order) must agree for all orders.", "anchors": ["gbs/basisfunctions.ixx:eval_ders_decasteljau (405-440)", "gbs/basisfunctions.ixx:eval_value_decasteljau (351-392)", "gbs/bscurve.h:BSCurve::derivatives (590-606)"]}
{"id": "C12", "title": "Rational evaluation", "statement": "A rational curve's value is the weighted average of the projected poles (sum N_i w_i P_i / sum N_i w_i); its derivatives satisfy the quotient rule, i.e. the Leibniz identity w*C = A order by order; equal weights give the non-rational curve; positive weights keep the convex hull.", "quantifier": "every degree, weights with non-vanishing denominator, order and parameter", "why_tests_cant": "Recursive binomial formula, universally quantified in the order.", "anchors": ["gbs/basisfunctions.ixx:eval_rational_ders (460-488)", "gbs/basisfunctions.ixx:eval_rational_value_simple (1088-1110)", "gbs/basisfunctions.ixx:weight_projection (874-888)"]}
{"id": "C13", "title": "Weights round-trip", "statement": "Building homogeneous poles from poles and non-zero weights and separating them again returns the same poles and weights; mismatched sizes are rejected.", "quantifier": "every list of points and every list of non-zero weights", "why_tests_cant": "Round trip over unbounded lists.", "anchors": ["gbs/basisfunctions.ixx:add_weights_coord (1000-1020)", "gbs/basisfunctions.ixx:merge_weights (850-864)", "gbs/basisfunctions.ixx:separate_weights (923-941)"]}
{"id": "C14", "title": "Out-of-range parameters are rejected", "statement": "value(u) and derivatives(u) throw OutOfBoundsEval exactly when u is more than knot_eps outside bounds(), and never otherwise for a validly constructed curve.", "quantifier": "every curve, parameter and order", "why_tests_cant": "Both directions quantify over all reals.", "anchors": ["gbs/bscurve.h:BSCurve::value (590-606)", "gbs/bscurve.h:BSCurveRational::value (620-668)", "gbs/exceptions.h"]}
{"id": "C15", "title": "Constructor contract and class invariant", "statement": "A curve object can be constructed only if degree+1+#poles=#knots, #poles>degree and the knots are non-decreasing; after any sequence of insertKnot, removeKnot, reverse, trim, changeBounds and increaseDegree the same relations still hold.", "quantifier": "every constructor input and every finite sequence of member calls", "why_tests_cant": "Unbounded operation histories.", "anchors": ["gbs/bscurve.h:check_curve (201-233)", "gbs/bscurve.h:BSCurveGeneral"]}
{"id": "C16", "title": "Knot insertion does not change the curve", "statement": "insert_knots(u,p,r,k,P) with k[0]<u<k.back and r at least 1 adds exactly min(r,p-s) copies of u and as many poles, keeps the knots sorted, and the curve evaluates to the same point at every parameter.", "quantifier": "every degree, multiplicity r, knot vector, pole list and parameter", "why_tests_cant": "Equality of two piecewise polynomials for all parameters and degrees.", "anchors": ["gbs/knotsfunctions.ixx:insert_knots (367-423)", "gbs/bscurve.h:insertKnot (396)"]}
{"id": "C17", "title": "Knot insertion saturates at the degree", "statement": "If u already has multiplicity at least p, insert_knots leaves knots and poles unchanged; otherwise the resulting multiplicity of u is min(p, s+r); a request of zero insertions changes nothing.", "quantifier": "every degree, r, knot vector and u", "why_tests_cant": "Boundary between saturated and non-saturated for all p.", "anchors": ["gbs/knotsfunctions.ixx:insert_knots (367-423)"]}
{"id": "C18", "title": "Knot removal is the exact inverse of insertion and is refused otherwise", "statement": "remove_knot with tolerance removes only as many copies as it reports, and when it reports success on a curve obtained by inserting the knot the original curve is recovered; when it reports 0 the curve is untouched.", "quantifier": "every curve, knot, count and tolerance", "why_tests_cant": "In-place two-sided recurrences with overlapping index ranges.", "anchors": ["gbs/knotsfunctions.ixx:remove_knot (457-777)"]}
{"id": "C19", "title": "Trimming keeps the geometry", "statement": "trim(u1,u2) with the bounds strictly inside returns a clamped curve on [u1,u2] whose values equal those of the original curve on [u1,u2].", "quantifier": "every curve and every u1<u2 in its domain", "why_tests_cant": "Equality at every parameter of a sub-interval.", "anchors": ["gbs/knotsfunctions.ixx:trim_begin, trim_end, trim (1013-1066)", "gbs/bscurve.h:trim (540-547)"]}
{"id": "C20", "title": "Reversal", "statement": "reverse() produces a curve on the same bounds with C_rev(u)=C(u1+u2-u); reversing twice is the identity.", "quantifier": "every curve and parameter", "why_tests_cant": "Universally quantified in curve and parameter.", "anchors": ["gbs/bscurve.h:reverse (509-520)", "gbs/curveReversed.h"]}
{"id": "C21", "title": "Changing bounds is an affine reparametrisation", "statement": "changeBounds(a,b) maps the knots affinely onto [a,b] (first knot a, last knot b, order kept) and the new curve at a+(u-k0)(b-a)/(kn-k0) equals the old curve at u; zero-length domains are not protected.", "quantifier": "every curve with k0<kn, every a<b, every parameter", "why_tests_cant": "Invariance of the recursive basis under all affine maps.", "anchors": ["gbs/knotsfunctions.ixx:change_bounds (785-793)", "gbs/bscurve.h:changeBounds (554-568)"]}
{"id": "C22", "title": "Degree elevation does not change the curve", "statement": "increase_bezier_degree applied to the poles of a Bezier segment of degree p and increaseDegree of a curve give a curve of degree p+1 with the same values.", "quantifier": "every degree, pole list and parameter", "why_tests_cant": "Polynomial identity for all degrees.", "anchors": ["gbs/knotsfunctions.ixx:increase_bezier_degree (807-821)", "gbs/knotsfunctions.ixx:increase_degree (956-1000)"]}
{"id": "C23", "title": "Bezier decomposition", "statement": "bezier_segments returns one Bezier pole list of length p+1 per non-empty knot span, in order, each reproducing the curve on its span; consecutive segments share their end pole.", "quantifier": "every degree, clamped knot vector and parameter", "why_tests_cant": "Depends on all interior multiplicities.", "anchors": ["gbs/knotsfunctions.ixx:bezier_segments (833-876)"]}
{"id": "C24", "title": "Flat knots and multiplicities round-trip", "statement": "flat_knots(knots,mults) repeats each knot mult times and unflat_knots inverts it when consecutive distinct knots are more than knot_eps apart; mismatched lengths throw.", "quantifier": "every list of distinct increasing knots and positive multiplicities", "why_tests_cant": "Round trip over unbounded lists; the three unflat variants use different comparisons.", "anchors": ["gbs/knotsfunctions.ixx:flat_knots (216-237)", "gbs/knotsfunctions.ixx:unflat_knots (107-196)"]}
{"id": "C25", "title": "Knot-vector builders produce valid clamped vectors", "statement": "build_simple_mult_flat_knots and build_mult_flat_knots return a non-decreasing vector with end multiplicity p+1, the documented number of entries, and interior knots inside the interval; the (u1,u2,n,p) builder spaces interior knots uniformly.", "quantifier": "every degree, number of poles and strictly increasing parameter list", "why_tests_cant": "Quantified over sizes and degrees.", "anchors": ["gbs/knotsfunctions.ixx:build_simple_mult_flat_knots (36-96)", "gbs/knotsfunctions.ixx:build_mult_flat_knots (261-278)"]}
{"id": "C26", "title": "Ordered insertion", "statement": "insert_ordered keeps a sorted vector sorted and adds exactly one element; insert_unique_ordered additionally adds nothing when a value within knot_eps is already present.", "quantifier": "every sorted list and every value", "why_tests_cant": "All lists and tolerances.", "anchors": ["gbs/knotsfunctions.ixx:insert_unique_ordered, insert_ordered (1079-1099)"]}
{"id": "C27", "title": "Knot unification gives one common knot vector without changing any curve", "statement": "After unify_knots all curves have identical knot vectors, the multiplicity of each knot is the maximum over the inputs, and every curve evaluates as before (after rescaling to the first curve's bounds).", "quantifier": "every number of curves of a common degree, all knot vectors, all parameters", "why_tests_cant": "Unbounded family of curves and knots.", "anchors": ["gbs/bsctools.h:unify_knots (183-374)"]}
{"id": "C28", "title": "Joining", "statement": "join(c1,c2) evaluates to c1 on the first parameter interval and to c2 (shifted) on the second, when the end of c1 is the start of c2.", "quantifier": "every pair of curves meeting at a point", "why_tests_cant": "Equality at every parameter on both sides of the junction.", "anchors": ["gbs/bsctools.h:join (407-456)"]}
{"id": "C29", "title": "Surface evaluation is the tensor product sum", "statement": "value(u,v,du,dv) equals sum_ij N_i^(du)(u) N_j^(dv)(v) P_ij with poles stored U-first (index i+nU*j), and equals evaluating the column curves first and then the resulting curve, in either order.", "quantifier": "every pair of degrees, knot vectors, pole grids, parameters and orders", "why_tests_cant": "Index arithmetic and two reduced loops for all sizes.", "anchors": ["gbs/basisfunctions.ixx:eval_value_decasteljau surface (785-838)", "gbs/bssurf.h:BSSurface::value (1053)"]}
{"id": "C30", "title": "Pole grid transposition", "statement": "invertUV swaps the roles of u and v: value'(v,u)=value(u,v); applying it twice restores the poles; transpose_poles is an involution and the cache-blocked variant returns the same grid.", "quantifier": "every grid size (also not a multiple of the block size) and every surface", "why_tests_cant": "Index permutations of arbitrary size.", "anchors": ["gbs/bssurf.h:inverted_uv_poles (27-39), invertUV (909-915)", "gbs/polestools.h:transpose_poles"]}
{"id": "C31", "title": "Pole accessors", "statement": "pole(i,j) returns the pole of U index i and V index j and rejects indices outside the grid; polesU(j)/polesV(i) return the corresponding row/column.", "quantifier": "every grid size and index pair", "why_tests_cant": "Index arithmetic for all sizes; out-of-range pairs that alias a valid flat index.", "anchors": ["gbs/bssurf.h:pole, polesU, polesV (672-744)"]}
{"id": "C32", "title": "Iso-parametric curves lie on the surface", "statement": "isoU(u0)(v)=value(u0,v) and isoV(v0)(u)=value(u,v0) for all parameters.", "quantifier": "every surface, u0, v0 and parameter", "why_tests_cant": "Equality for all parameters.", "anchors": ["gbs/bssurf.h:isoU, isoV (1012-1044)"]}
{"id": "C33", "title": "Surface editing in one direction does not change the surface", "statement": "insertKnotU/V, increaseDegreeU/V, reverseU/V, trimU/V act on every row/column like the curve operation and preserve (or reflect/restrict) all values.", "quantifier": "every surface, direction, knot and parameter", "why_tests_cant": "Whole grids and all parameters.", "anchors": ["gbs/bssurf.h:insertKnotU/V (596-652), reverseU/V, trimU/V (922-1002)"]}
{"id": "C34", "title": "Banded LU solves the system", "statement": "If band_lu's factorisation reports success, solve(b) returns x with A x = b exactly (in exact arithmetic) where A is the assembled banded matrix; it reports failure when a pivot is too small.", "quantifier": "every size n, lower and upper bandwidth, matrix and right-hand side", "why_tests_cant": "In-place elimination on band storage for every n, kl, ku.", "anchors": ["gbs/bscinterp.h:band_lu (181-335)"]}
{"id": "C35", "title": "Interpolation passes through its points", "statement": "When the linear solve succeeds, interpolate(Q,u,p) returns a curve with value(u_i)=Q_i for every i (and prescribed derivatives match).", "quantifier": "every number of points, degree, parameters and constraints", "why_tests_cant": "For all point counts and data.", "anchors": ["gbs/bscinterp.h:build_poles (373-518), interpolate (535-653)"]}
{"id": "C36", "title": "Bound-fixed approximation keeps end points and is least-squares optimal", "statement": "approx_bound_fixed returns poles whose first and last equal the first and last points, and the interior poles satisfy the normal equations, hence minimise the sum of squared residuals among all choices.", "quantifier": "every point set, degree, pole count and competing pole choice", "why_tests_cant": "Optimality quantifies over all competitors.", "anchors": ["gbs/bscapprox.h:approx_bound_fixed (79-120)"]}
{"id": "C37", "title": "Parallel batches behave like sequential code", "statement": "build_batch and transform_threshold give the same output slots for every execution order of the tasks and every thread count; if several tasks throw, the error of the lowest index is the one reported.", "quantifier": "every number of tasks, every permutation/interleaving of their execution, every set of failing tasks", "why_tests_cant": "Schedules are unbounded and not controllable by tests.", "anchors": ["gbs/execution.h:transform_threshold (69-83), build_batch (117-144)"]}
{"id": "C38", "title": "make_range", "statement": "make_range(a,b,n) throws for n<2 and otherwise returns n values, first exactly a, last exactly b, equally spaced, increasing if a<b; the 2D/3D versions enumerate the grid U-first.", "quantifier": "every a, b and n", "why_tests_cant": "All sizes.", "anchors": ["gbs/math.ixx:make_range (74-177)"]}
{"id": "C39", "title": "Exact conics and segments", "statement": "build_ellipse/build_circle evaluate to points exactly on the ellipse/circle for every parameter; build_segment evaluates to the affine interpolation of its two end points at unit speed.", "quantifier": "every radii, centre and parameter", "why_tests_cant": "Continuum of parameters.", "anchors": ["gbs/bscbuild.h:build_ellipse, build_circle, build_segment (22-106)"]}
{"id": "C40", "title": "Derived and integrated curves", "statement": "build_derivate(c) evaluates to the derivative of c; build_integrate(c,P0) starts at P0 and build_derivate(build_integrate(c,P0)) = c.", "quantifier": "every degree, clamped knot vector, poles and parameter", "why_tests_cant": "Identity for all parameters.", "anchors": ["gbs/bscbuild.h:build_derivate, build_integrate (107-168)"]}
{"id": "C41", "title": "Curve wrappers", "statement": "CurveTrimmed, CurveReversed, CurveExtended, CurveReparametrized and CurveComposite evaluate to the documented function of the wrapped curves, including derivative signs/chain rule, on their whole domain.", "quantifier": "every wrapped curve, order and parameter in the wrapper's bounds", "why_tests_cant": "Universally quantified over wrapped curves.", "anchors": ["gbs/curvetrimmed.h", "gbs/curveReversed.h", "gbs/curveextended.h", "gbs/curvereparametrized.h", "gbs/curvecomposite.h"]}
{"id": "C42", "title": "Curve on surface chain rule", "statement": "CurveOnSurface::value(u,d) for d=0,1,2 is S(c(u)) and its first and second derivatives by the chain rule.", "quantifier": "every smooth surface, parameter curve and parameter", "why_tests_cant": "Identity over all functions.", "anchors": ["gbs/curveonsurface.h:value"]}
{"id": "C43", "title": "Rigid motions", "statement": "2D and 3D rotations preserve distances, rotation by a then -a is the identity, the axis is fixed; build_trf_matrix(R) maps local to global coordinates and build_trf_matrix(from,to) maps the frame from onto the frame to.", "quantifier": "every point, angle, axis and frame", "why_tests_cant": "Trigonometric identities over the reals.", "anchors": ["gbs/transformpoints.h:rotate, build_trf_matrix"]}
{"id": "C44", "title": "Transfinite interpolation reproduces its boundary curves", "statement": "Mesh nodes produced by tfi_mesh_2d at the hard parameters coincide with the corresponding points of the input iso curves.", "quantifier": "every number of curves, blend functions with the Kronecker property, and node", "why_tests_cant": "For all lattice sizes.", "anchors": ["gbs-mesh/tfi.h:tfi_mesh_2d"]}
{"id": "C45", "title": "New faces are closed, consistently linked loops", "statement": "make_shared_h_face and make_loop produce a face whose half-edges form one cycle of exactly the given length, next and previous are mutually inverse, and every half-edge refers to the face.", "quantifier": "every vertex/edge list of length at least 2 and every heap", "why_tests_cant": "Pointer structures of any size.", "anchors": ["inc/topology/halfEdgeMeshData.h:make_HalfEdges, make_loop, make_shared_h_face (172-253)"]}
{"id": "C46", "title": "Mesh editing preserves the half-edge invariants", "statement": "Starting from an empty mesh, after any sequence of face creation, add_face, link, flip, add_vertex and face removal: next/previous inverse, opposite is an involution between different half-edges, opposite half-edges have reversed end points, each face is a single closed loop.", "quantifier": "every finite sequence of operations and every argument", "why_tests_cant": "Unbounded histories over pointer graphs.", "anchors": ["inc/topology/halfEdgeMeshEditors.h"]}
{"id": "C47", "title": "Edge flip", "statement": "flip of two triangles sharing an edge replaces the shared diagonal by the other one, keeps the four outer edges and their opposites, keeps the set of vertices, and leaves both faces triangles; flipping twice restores the pair of triangles.", "quantifier": "every mesh and every pair of adjacent triangles", "why_tests_cant": "All heaps and aliasing patterns.", "anchors": ["inc/topology/halfEdgeMeshEditors.h:flip (124-158)"]}
{"id": "C48", "title": "Vertex insertion into a cavity", "statement": "add_vertex on a closed boundary of n half-edges creates exactly n triangles (a_i,b_i,v), all linked to their neighbours, keeps the outer opposites, and no others are altered.", "quantifier": "every boundary length and heap", "why_tests_cant": "Loops of any length.", "anchors": ["inc/topology/halfEdgeMeshEditors.h:add_vertex (236-300)"]}
{"id": "C49", "title": "Cavity triangulation is valid", "statement": "Inserting a point in a valid mesh of counter-clockwise triangles (boyerWatson) always succeeds and yields such a mesh: every created triangle is counter-clockwise and has the point as corner, the other triangles keep their corners, the covered part of the plane and its total area are unchanged, no two triangles overlap if none did before, and a point in a triangle that is no corner and is not on the outer boundary does become a corner.", "quantifier": "every mesh, cavity and position of the new point", "why_tests_cant": "Geometric statement over all polygons.", "anchors": ["inc/topology/tessellations.h:is_star_shaped (87-100), boyerWatson (128-249)"]}
{"id": "C50", "title": "Face removal", "statement": "remove_faces/eraseFace leave exactly the other faces, clear dangling opposites, and repair vertex references.", "quantifier": "every mesh and every set of faces", "why_tests_cant": "Histories and aliasing.", "anchors": ["inc/topology/halfEdgeMeshEditors.h:remove_faces, eraseFace, repairVertexEdges (325-443)"]}
{"id": "C51", "title": "Extraction of closed loops", "statement": "takeClosedLoops terminates and distributes the given half-edges over loops without losing or duplicating any; in each closed loop consecutive edges share a vertex.", "quantifier": "every list of half-edges", "why_tests_cant": "Termination and permutation for arbitrary lists.", "anchors": ["inc/topology/halfEdgeMeshEditors.h:takeClosedLoops (381-416)"]}
{"id": "C52", "title": "Mesh boundary extraction", "statement": "getFacesBoundary returns exactly the half-edges of the given faces whose opposite is missing or belongs to none of the faces.", "quantifier": "every mesh and face list", "why_tests_cant": "All meshes.", "anchors": ["inc/topology/halfEdgeMeshGetters.h:getFacesBoundary (462-485)"]}
{"id": "C53", "title": "In-circle test", "statement": "For a counter-clockwise triangle abc, in_circle(a,b,c,d) is positive iff d is strictly inside the circumscribed circle, zero iff on it; for clockwise triangles the sign is reversed; circle_center returns the point equidistant from the three vertices.", "quantifier": "every four points of the plane", "why_tests_cant": "Polynomial identity over the reals.", "anchors": ["inc/topology/baseIntersection.h:in_circle (126-141)", "inc/topology/baseGeom.h:circle_center"]}
{"id": "C54", "title": "Orientation predicate has the exact sign", "statement": "robust::orient2d(a,b,c) has the sign of the exact determinant (ax-cx)(by-cy)-(ay-cy)(bx-cx) for all double inputs (barring overflow/underflow).", "quantifier": "every triple of points with double coordinates", "why_tests_cant": "2^384 inputs, failures only in nearly degenerate cases.", "anchors": ["inc/topology/robustPredicates.h"]}
{"id": "C55", "title": "Point in triangle / polygon", "statement": "in_triangle returns true exactly for points of the closed triangle when it is not degenerate; is_inside decides membership in the polygon and returns true on its boundary.", "quantifier": "every triangle and point", "why_tests_cant": "All points of the plane.", "anchors": ["inc/topology/baseIntersection.h:in_triangle, in_triangle_barycentric (22-110)", "inc/topology/halfEdgeMeshGeomTests.h:is_inside (77-117)"]}
{"id": "C56", "title": "Segment intersection", "statement": "seg_seg_strict_intersection returns true only if the two segments cross at interior points of both, and symmetric arguments give the same answer.", "quantifier": "every four points", "why_tests_cant": "All configurations including collinear ones.", "anchors": ["inc/topology/baseIntersection.h:seg_seg_strict_intersection (179-206)"]}
{"id": "C57", "title": "Wires stay connected", "statement": "Every sequence of successful addEdge calls leaves a wire whose consecutive edges share a vertex; isClosed is true iff the end vertices coincide; a closed wire accepts no more edges.", "quantifier": "every sequence of addEdge calls", "why_tests_cant": "Histories.", "anchors": ["inc/topology/wire.h"]}
{"id": "C58", "title": "JSON round-trip", "statement": "make_curve/make_surface applied to the JSON produced by make_json for a B-spline curve or surface (rational or not) gives an object with the same degree, knots and poles.", "quantifier": "every curve and surface with separated knots and non-zero weights", "why_tests_cant": "Round trip over unbounded data.", "anchors": ["gbs-io/tojson.h", "gbs-io/fromjson.h"]}
{"id": "C59", "title": "Text point files", "statement": "split returns the non-blank fields of a line in order; lines with a wrong number of fields are rejected.", "quantifier": "every line and separator", "why_tests_cant": "All strings.", "anchors": ["gbs-io/fromtext.h:split"]}
{"id": "C60", "title": "Splitting an edge keeps the mesh watertight", "statement": "splitHalfEdge inserts a vertex on an edge so that the two triangles on each side are replaced by two each, all interior edges linked with their opposites.", "quantifier": "every mesh and interior edge", "why_tests_cant": "Pointer structure.", "anchors": ["inc/topology/halfEdgeMeshEditors.h:splitHalfEdge (547-603)"]}
{"id": "C61", "title": "Boundary vertices are recognised", "statement": "is_boundary(v) is true iff some edge around v has no neighbouring face.", "quantifier": "every mesh and vertex", "why_tests_cant": "All meshes.", "anchors": ["inc/topology/halfEdgeMeshGeomTests.h:is_boundary (269-283)"]}
{"id": "C62", "title": "Weight rescaling", "statement": "scaled_weights(poles,mean) returns poles whose weights have the requested mean and represent the same points.", "quantifier": "every weighted pole list and mean value", "why_tests_cant": "All lists.", "anchors": ["gbs/basisfunctions.ixx:scale_weights, scaled_weights (1042-1074)"]}
{"id": "C63", "title": "Binomial coefficients and factorials", "statement": "factorial(n) and binomial_law(n,k) return n! and C(n,k) for every argument for which the result fits, and the computation is exact.", "quantifier": "all n,k", "why_tests_cant": "All arguments; wrap-around.", "anchors": ["gbs/math.ixx:factorial, binomial_law (48-71)"]}
{"id": "C64", "title": "Surface of revolution", "statement": "SurfaceOfRevolution::value(u,v) is the profile point rotated by angle v about the given axis, and its partial derivatives are the derivatives of that map.", "quantifier": "every axis, profile and parameters", "why_tests_cant": "All axes, in particular axes not through the origin.", "anchors": ["gbs/surfaceofrevolution.h:value"]}
{"id": "C65", "title": "Continuity at knots", "statement": "At a knot of multiplicity m, value(u,d) is continuous in u for every order d <= p-m: the curve is of class C^(p-m) there.", "quantifier": "every degree, knot vector, pole list, knot and order", "why_tests_cant": "A limit at every knot of every knot vector.", "anchors": ["gbs/basisfunctions.ixx:eval_value_decasteljau", "gbs/bscurve.h:value"]}
{"id": "C66", "title": "The curve determines its poles", "statement": "Two curves with the same degree and knot vector that have the same value at every parameter have the same poles, provided no basis function vanishes identically on the domain.", "quantifier": "every degree, knot vector and pair of pole lists", "why_tests_cant": "Quantifies over all parameters and all pole lists.", "anchors": ["gbs/basisfunctions.ixx:eval_value_decasteljau", "gbs/bscurve.h:poles"]}
{"id": "C67", "title": "Parametrisation of point lists", "statement": "curve_parametrization returns one parameter per point, starting at 0, with successive differences equal to a constant, to the chord length or to its square root according to the mode; with adimensionnal set the last value is 1. adimension maps a parameter list onto [0,1].", "quantifier": "every point list of at least two points, every mode, every parameter list", "why_tests_cant": "All lists.", "anchors": ["gbs/knotsfunctions.ixx:curve_parametrization, adimension (285-341)"]}
{"id": "C68", "title": "Constrained edge recovery", "statement": "recoverEdge makes the edge between the two vertices present when the segment only crosses edges whose quadrilaterals can be flipped, and returns the half-edge joining them.", "quantifier": "every valid mesh and pair of vertices", "why_tests_cant": "Depends on the whole connectivity and on exact orientations.", "anchors": ["inc/topology/edgeRecovery.h:recoverEdge (33-184)"]}
{"id": "C69", "title": "Triangulation of a point set", "statement": "For points that are neither all on one vertical nor all on one horizontal line, delaunay2DBoyerWatson returns a valid mesh of counter-clockwise non-overlapping triangles whose corners are points given, and no given point is strictly inside the circle through the corners of a triangle.", "quantifier": "every finite list of points, every order of the vertex addresses", "why_tests_cant": "All point configurations, including cocircular and repeated points.", "anchors": ["inc/topology/tessellations.h:delaunay2DBoyerWatson (258-277), boyerWatson (127-249)", "inc/topology/halfEdgeMeshGetters.h:getEncompassingMesh (625-650)"]}
{"id": "C70", "title": "Analytic lines and circles", "statement": "A Line through two points is parametrised by arc length from the first point and both points belong to its domain; Circle2d and Circle3d evaluate to the circle of the given centre, radius and axis, counterclockwise, and every derivative order is the derivative of that map.", "quantifier": "every pair of points, radius, centre, axis or frame, parameter and derivative order", "why_tests_cant": "Ranges over all axes and all derivative orders; the start direction depends on the axis.", "anchors": ["gbs/curveline.h:Line", "gbs/curvecircle.h:Circle, Circle2d, Circle3d"]}
{"id": "C71", "title": "Completeness of the triangulation", "statement": "The triangles returned by delaunay2DBoyerWatson cover the convex hull of the given points; in particular a triangle of given points whose circle strictly excludes all the other given points is one of them.", "quantifier": "every finite list of points not all on one vertical or horizontal line, every order of the vertex addresses", "why_tests_cant": "All point configurations; what is lost near the hull depends on how the points lie with respect to the enclosing box.", "anchors": ["inc/topology/tessellations.h:delaunay2DBoyerWatson (258-277), boyerWatson (127-249)", "inc/topology/halfEdgeMeshGetters.h:getEncompassingMesh (625-650)", "inc/topology/halfEdgeMeshEditors.h:remove_faces"]}
{"id": "C72", "title": "Surface through a grid of points", "statement": "interpolate on a grid of nu x nv points returns a surface of the degrees asked for that passes through every point of the grid, at parameters averaged over the rows and over the columns; it returns a surface for every grid in which consecutive rows and columns differ.", "quantifier": "every grid of points, all degrees 1 <= p < nu, 1 <= q < nv, both chord modes, every exact linear solver", "why_tests_cant": "All grids, including those with partly degenerate rows: which index of the flat array belongs to which parameter pair, and whether the system is solvable, depends on every size and point.", "anchors": ["gbs/bssinterp.h:interpolate (182-229), build_poles (130-180), extract_U, extract_V"]}
{"id": "C73", "title": "Surface from constraints", "statement": "A surface built from nu x nv constraints (parameters, derivation orders, value) meets every one of them on the rectangle asked for; constraints outside the rectangle and incompatible sizes are rejected; when the constraints determine the poles a surface is returned.", "quantifier": "every list of constraints, all degrees, multiplicities and rectangles, every exact linear solver", "why_tests_cant": "All mixtures of derivation orders and positions; the indices of the tensor product and the derivative rows cannot be enumerated.", "anchors": ["gbs/bssinterp.h:interpolate (323-351), build_poles (246-309), get_constraints_bounds"]}
{"id": "C74", "title": "Lofts carry their sections", "statement": "A surface lofted through curves carries every section, with all its derivatives, as the isoparametric curve at its parameter, after moving the section's parameters to the interval of the first section; rational sections likewise; with automatic parameters these increase from 0 to 1; lofting never fails on compatible sections.", "quantifier": "every list of at least two clamped sections of degree at most 12 whose knots are equal or separated, all section parameters, all parameters of the section, all derivation orders", "why_tests_cant": "Equality of two curves at a continuum of parameters, for sections of any degrees and knots.", "anchors": ["gbs/loft/loftBase.h:build_loft_surface_poles_core, build_loft_surface_poles, loft, loft_averaged_params", "gbs/loft/loftGeneric.h:loft_generic", "gbs/bssbuild.h:loft"]}
{"id": "C75", "title": "Interpolation always succeeds and is unique", "statement": "Interpolating points at strictly increasing parameters always returns a curve, whatever the points, parameters and degree below the number of points (with a linear solver that solves every nonsingular system), and the poles are the only ones whose curve takes these values.", "quantifier": "all points, all strictly increasing parameters, all degrees 1..24 below the number of points", "why_tests_cant": "Nonsingularity of the collocation matrix (Schoenberg-Whitney) is a statement about every parameter sequence; near-degenerate spacings are exactly those tests do not sample.", "anchors": ["gbs/bscinterp.h:interpolate, build_poles", "gbs/knotsfunctions.h:build_simple_mult_flat_knots"]}
{"id": "C77", "title": "Least squares on surfaces", "statement": "approx on a grid of points, and approx on surface constraints, return poles that minimise the sum of squared gaps to the given points (or derivative values) among all poles on the same knots; a solution is returned whenever the data determine the poles; fewer data than poles are rejected.", "quantifier": "every grid, every list of constraints, all knot vectors and degrees, every exact solver of the normal equations / least squares solver", "why_tests_cant": "Minimality quantifies over all other pole grids.", "anchors": ["gbs/bssapprox.h:approx (35-93), approx (95-168), check_approx_sizes_surf"]}
{"id": "C78", "title": "Gordon surfaces carry their network", "statement": "Unifying the knots of surfaces gives surfaces on one pair of knot vectors that evaluate as before. The Gordon surface of a network of U and V curves takes the mean of the two curves at each crossing, and carries, with its derivatives, every curve that meets all those of the other family; such a network whose curves are within tolerance at their crossings has a Gordon surface.", "quantifier": "all lists of clamped surfaces, all networks of curves of any degrees and knots, all parameters and derivation orders, every exact (for existence: complete) linear solver, every curve-curve distance routine", "why_tests_cant": "The construction composes intersections, two lofts, one grid interpolation, degree elevation and knot unification; that the three surfaces share knots and that the sum interpolates holds or fails for every network, not for the few sampled.", "anchors": ["gbs/bsstools.h:unify_knots (surfaces)", "gbs/bssbuild.h:gordon, build_intersections"]}
{"id": "C76", "title": "Lofts along a spine", "statement": "A loft guided by a spine carries every section (values and derivatives along it; values for rational sections) at the averaged chord parameter of the sections, and crosses each section along the tangent of the spine at the foot of that section, with a nonnegative factor. Any two different sections with distinct feet, and any number of sections in general, have such a surface.", "quantifier": "all lists of clamped sections of any degrees and knots, all spines, all parameters along the sections, every routine giving the feet, every exact (for existence: complete) linear solver", "why_tests_cant": "The Hermite system mixes degree elevation, knot unification, averaged parameters and tangents scaled pole by pole; that the result matches all sections and is tangent to the spine is a statement about every parameter of every section, and whether the system is solvable depends on the spacing of the sections.", "anchors": ["gbs/bssbuild.h:loft (spine), get_tg_from_spine, get_v_aligned_poles, spine_tangent_to_pole", "gbs/loft/loftBase.h:build_loft_surface_poles_core"]}
{"id": "C79", "title": "Moving a curve to a point or to constraints", "statement": "A curve moved to a point passes through that point at the given parameter; poles that do not act there, and the end poles when the bounds are fixed, do not move; and among all curves with the same degree and knots (and end poles, if fixed) none reaches the point with a smaller displacement of the poles. Moved to several constraints with a window of poles, it meets them with the least displacement if the window is large enough, and misses them by the least sum of squares otherwise. The in-place version gives the same curve, and the list version reaches its constraints.", "quantifier": "all clamped curves, parameters, points, constraint lists of any derivation orders, windows, with or without fixed ends, every exact (for existence: complete) linear solver", "why_tests_cant": "Minimality compares with every other curve; reaching the constraint must hold for every curve, parameter and window, and the tests only compare one point to a tolerance.", "anchors": ["gbs/bscshaping.h:move_to_constraints_delta, moved_to_constraints_delta, moved_to_constraints, moved_to_point, move_to_point"]}
{"id": "C80", "title": "Moving a surface to points or to constraints", "statement": "A surface moved to points passes through them at the given parameters when enough poles may move, with the least displacement of the poles; poles that act on no point, and the border poles when the bounds are fixed, do not move; degrees, knots and bounds are kept. The in-place version gives the same surface. Constraints on derivatives are met too.", "quantifier": "all clamped surfaces, parameters, points, constraint lists, with or without fixed borders, every exact (for existence: complete) linear solver", "why_tests_cant": "Minimality compares with every other surface; the window of moved poles depends on the knots and on every constraint of the list.", "anchors": ["gbs/bssshaping.h:move_to_constraints_delta, moved_to_constraints_delta, find_span_range, moved_to_constraints, moved_to_point, move_to_point"]}
{"id": "C81", "title": "Lofts approximated along a spine", "statement": "loft_approx returns the surface, on the knots asked for, that minimises in every coordinate the sum of squared gaps to the points of the sections at evenly spread parameters, each section at the station of its foot on the spine. When the sections are splines on those knots, the samples determine such splines and the stations determine the rows, the surface is found and carries every section, with its derivatives, at its station. The v parameter is said to be brought to [0, 1].", "quantifier": "all lists of at least two clamped sections of degrees up to 12, all spines and foot functions with ordered feet, all knots, degrees, pole and sample counts, every exact (complete) linear solver", "why_tests_cant": "Optimality compares the result with every other surface on the knots, and the sections must be reproduced at every parameter.", "anchors": ["gbs/bssbuild.h:loft_approx", "gbs/bssapprox.h:approx", "gbs/knotsfunctions.ixx:adimension, build_simple_mult_flat_knots"]}
{"id": "C82", "title": "Connections and extensions of curves", "statement": "c2_connect, c3_connect and cn_connect return a curve that takes the value and the derivatives up to the announced order of the first curve at its end and of the second at its start. A curve extended to a point, or by a length along its tangent, at either end, keeps its points and parameters on its own interval, ends at that point, is differentiable where the extension begins up to the degree minus one (or the order asked for), and has a zero second derivative at the new end when a natural end is asked for.", "quantifier": "all pairs of curves with derivatives, all orders up to 11, degrees above the order, parameter lengths; all clamped curves of degree 1 to 12 with a nonzero end derivative, all target points and lengths, both ends, every complete linear solver", "why_tests_cant": "Solvability of the system depends on the averaged knots for every degree and order; smoothness is a limit statement and must hold for every curve and target.", "anchors": ["gbs/bsctools.h:c2_connect, c3_connect, cn_connect, extention_to_point, extended_to_point, extended", "gbs/bscinterp.h:interpolate"]}
{"id": "C83", "title": "Surfaces joined, split and extended", "statement": "Two surfaces that share an edge and its knots join into one surface that has the points and derivatives of both; a surface split at u or v gives two surfaces with its points, derivatives and parameters. A surface extended to a curve given on the knots of its edge keeps its own part, is as smooth across the old edge as asked, and ends on the curve; extended by a length at any of its four sides, the ends of the new edge lie at that length along the tangents of the surface.", "quantifier": "all clamped surfaces of degrees up to 12, all cuts inside, all curves on the knots of the edge, all lengths, the four sides, every natural-end flag and continuity order, every complete linear solver", "why_tests_cant": "The statements are about every point and derivative of the result, for every pair of surfaces and every extension.", "anchors": ["gbs/bsstools.h:join, split_u, split_v, extention_to_curve, extended_to_curve, extended", "gbs/bssurf.h:trimU, trimV, reverseU, invertUV"]}
{"id": "C84", "title": "Sampling by deviation", "statement": "Sampling a curve by deviation ends for every curve that can be evaluated. The parameters run from the start to the end without going back, contain the evenly spread starting ones and the knots inside, and between two consecutive ones the point in the middle is within the relative deviation of the chord, or the step is below the knot tolerance. A straight curve gets no further parameter. The points returned are those of the curve at these parameters, and a surface sampled on a grid gives the points of the grid, u first.", "quantifier": "all curves, dimensions 2 and 3, intervals, knot lists, starting counts of at least two, deviations and maximal counts; all surfaces", "why_tests_cant": "Termination of the recursive bisection and the ordering must hold for every curve, however wild; a test sees the depth reached on one.", "anchors": ["gbs/bscanalysis.h: deviation_based_params, deviation_based_u_params, deviation_based_v_params, discretize, make_points", "gbs/bssanalysis.h: discretize"]}
{"id": "C85", "title": "Tangential and normal directions", "statement": "The tangential direction of a curve is the unit vector along its derivative. The normal direction of a plane curve is the unit vector orthogonal to it on its left; that of a space curve is a unit vector orthogonal to the derivative, in the plane of the first two derivatives. The same plane curve has the same normal in the plane and in space.", "quantifier": "all curves and parameters with a nonzero derivative (and nonzero curvature for space curves)", "why_tests_cant": "Orthogonality, unit length and the side hold for all derivatives or fail on the sign cases a test does not visit.", "anchors": ["gbs/bscanalysis.h: tangential_direction, normal_direction, tangential_line, normal_line"]}
{"id": "C86", "title": "Length and curvilinear abscissa", "statement": "The length of a curve from a to x, and the values returned for its first and second derivative, are derivatives of each other, the first being the speed; other orders are refused. The curvilinear abscissa is a function over [0, total length] that takes the value of each of the evenly spread parameters at the length of the curve up to there. The adaptive table gives evenly spread parameters with the lengths up to them, and adds parameters where the lengths of two halves do not add up.", "quantifier": "all curves with two derivatives and nonzero speed, every exact quadrature of the speed, every additive positive length, every complete linear solver, all counts and degrees up to 24", "why_tests_cant": "Derivative relations are statements about limits at every point; the table must be right for every length function and count.", "anchors": ["gbs/bscanalysis.h: length, abs_curv, abs_curv_adaptive_discretization"]}
{"id": "C87", "title": "Offset curves and surfaces", "statement": "The offset of a plane curve by a law lies at the distance given by the law along the normal, on the left for positive values, and the values returned at the first two orders are its derivatives; higher orders are refused. In space the offset lies along the unit vector of direction x tangent, and its first order value is its derivative. Offset points of a surface lie along its unit normal, and the offset surface is the least squares surface through them on the same knots.", "quantifier": "all curves three times differentiable with nonzero speed, all twice differentiable laws, all surfaces with nonzero normals, every exact solver, all grids", "why_tests_cant": "Derivative relations and optimality among all pole grids are statements about every point and every competitor.", "anchors": ["gbs/curveoffset.h: CurveOffset2D, CurveOffset3D", "gbs/offsets.h: offset_points, offset_approx"]}
{"id": "C88", "title": "Closest points, extreme coordinates and the rolling ball", "statement": "The search for the closest point of a curve or surface to a point, or of two curves, or of a surface and a curve, returns parameters within the bounds and the distance there; no point is closer when the minimiser finds global minima, no sampled point is closer when it never gets worse than its start, and the gradient it is given is that of its objective. Two lines that are not parallel meet at the returned parameters. The smallest and largest coordinate and the place of largest curvature are found. The centre of the rolling ball is on both normals and as nearly as possible at the same distance from both curves.", "quantifier": "all curves, surfaces, points, tolerances and bracket sizes; all minimisers that report the objective where they end", "why_tests_cant": "Optimality is over every parameter, and the claim must hold for every minimiser and every start, not the one a test happens to link.", "anchors": ["gbs/extrema.h: extrema_curve_point, extrema_surf_pnt, extrema_curve_curve, extrema_surf_curve, solve_coordinate, max_coordinate, min_coordinate", "gbs/solvers.h: solve_D_nlop, solve_N_nlop", "gbs/bscanalysis.h: max_curvature_pos, compute_rolling_ball", "gbs/math.ixx: newton_solve"]}
{"id": "C89", "title": "Smoothing of grids and meshes", "statement": "Elliptic smoothing of a window of a structured grid moves only the nodes strictly inside the window, runs at least one pass and at most the number asked for, puts at each pass every such node where the discrete elliptic equations put it, stops at the first pass whose largest move is within the tolerance and returns that move; grids that satisfy the equations are left as they are; moving the grid moves the result; nothing outside the grid is accessed; nodes stay in the box of the grid; the Python function does the same. The neighbours of a mesh vertex are the vertices joined to it, and Laplacian smoothing puts a vertex at their mean.", "quantifier": "all grids, windows, iteration limits and tolerances; all half-edge meshes and vertices", "why_tests_cant": "The loop runs until convergence on arbitrary grids; a test of one grid says nothing of the nodes touched, the stopping rule or the out-of-range accesses for other windows, and a smoothing that never moves anything passes any test that only checks validity.", "anchors": ["gbs-mesh/smoothing.h: elliptic_structured_smoothing", "python/gbsbindmesh.cpp: elliptic_structured_smoothing", "inc/topology/halfEdgeMeshSmoothing.h: laplacian_smoothing", "inc/topology/halfEdgeMeshGetters.h: getNeighboringVertices"]}
{"id": "C90", "title": "Refinement of triangulations", "statement": "Refining a valid triangulation with any quality measure, limit and number of points returns a valid triangulation of the same region, whose corners are those there were and at most the allowed number of others. Each round inserts the point of a face that is the worst of all the faces there are at that time, and refinement goes on until the worst face meets the limit or the allowed number is reached; if every face meets it from the start nothing is inserted.", "quantifier": "all valid triangulations, quality measures that are defined on valid triangulations, limits and numbers of points", "why_tests_cant": "The measures of faces are cached across insertions that delete and create faces; a stale entry shows only on some histories, and validity of the final mesh has to hold after any number of insertions of computed points.", "anchors": ["inc/topology/tessellations.h: delaunay2DBoyerWatsonSurfaceMeshRefine", "inc/topology/halfEdgeMeshQuality.h: MaxEdgeSize, DistanceMeshSurface2"]}
{"id": "C91", "title": "Iteration over a face and area of a mesh", "statement": "Iterating over a face meets its half-edges, each exactly once, in order, and the iterators obey the rules standard algorithms rely on. The area of a triangulation is the sum of the areas of its triangles, computed in parallel or not.", "quantifier": "all half-edge meshes and faces; all orders and groupings in which the reduction combines its terms", "why_tests_cant": "std::reduce is free to combine terms in any order and grouping, including face with face; a test sees one schedule. Iteration must end for every valid face.", "anchors": ["inc/topology/halfEdgeMeshData.h: HalfEdgeFaceIterator, begin, end", "inc/topology/halfEdgeMeshQuality.h: sum_area, getTriangle2dMeshArea, getTriangle2dMeshAreaPar"]}
{"id": "C92", "title": "Quality measures of faces", "statement": "MaxEdgeSize returns the largest squared length of the edges of the face that are shared with another face, and the middle of such an edge. DistanceMeshSurface2 returns the largest relative excess, over those edges, of the way through the image of the middle over the distance of the images of the ends, and the middle of an edge for which it is largest. TriangleShapeEdgeSplit returns the middle of the longest of those edges. The point to insert lies in the triangulation.", "quantifier": "all valid triangulations and faces; all surfaces and all distances with the triangle inequality", "why_tests_cant": "Which edge wins depends on all the lengths and on which edges are on the border; a test fixes one triangle.", "anchors": ["inc/topology/halfEdgeMeshQuality.h: MaxEdgeSize, DistanceMeshSurface2, TriangleShapeEdgeSplit"]}
{"id": "C93", "title": "Points along an edge", "statement": "msh_edge distributes as many points as asked for last (at least two) along a piece of a curve. Its first and last points are the ends of the piece. When no sizes are given the points are evenly spread in arc length. After update_law(h1, h2) the first step has length h1 and the last h2; after update_law(h1, h2, a1, a2) the second step is a1 times the first and the last but one a2 times the last. The points come in order along the curve whenever h1 + h2 is below the length.", "quantifier": "all curves with a known arc length, all pieces, all sequences of calls, all numbers of points and all sizes", "why_tests_cant": "The law is a spline interpolating four or six values; whether it stays increasing and inside the curve depends on the sizes and the number of points, and calls come in any order.", "anchors": ["gbs-mesh/mshedge.h: msh_edge, set_n_points, update_law, compute_pnts, points", "gbs/curvereparametrized.h: CurveReparametrized", "gbs/bscanalysis.h: abs_curv"]}
{"id": "C94", "title": "Export to IGES", "statement": "The data handed to the IGES library for a curve or a surface are its number of poles, its order, its knots, its bounds and the numbers of its poles in their order (weight last); read as a NURBS entity they have, at every parameter, the point of value(). A surface of revolution is exported as its profile carried into space, its axis and its two angles; that entity has at every parameter the point of the surface's value().", "quantifier": "all curves and surfaces with valid knots and poles, polynomial or rational, in any dimension; all profiles, frames and angles", "why_tests_cant": "A written file is looked at on a few shapes; that no pole is misplaced and that the frame and the bounds are carried over must hold for every shape and frame.", "anchors": ["gbs-io/iges.h: add_geom (four overloads)", "gbs/surfaces: SurfaceOfRevolution"]}
{"id": "C95", "title": "Basis functions on the device", "statement": "The device function basis_function(p, u, first, last) returns the Cox-de Boor value of the basis function that starts at first whenever any two knots are either equal or further apart than the tolerance; basis_function(p, u, d, first, last) returns its derivative of order d with respect to u.", "quantifier": "every degree, order, index, parameter of the domain and every knot vector in which different knots differ by more than the tolerance", "why_tests_cant": "The recursion has 2^p branches, each with its own tolerance test; the only test compares the first function of one knot vector, at order 0, with the host.", "anchors": ["gbs-cuda/basisfunctions.cuh: basis_function (two overloads)"]}
{"id": "C96", "title": "Measures of a face against a surface, and of its shape", "statement": "For a face of a triangulation of the parameter plane: MaxEdgeSizeSurface returns the largest squared length on the surface of an inner edge, and its middle; DistanceMeshSurface3 returns the largest gap between the flat triangle and the surface, over the middles of the inner edges and the centre, and the point where it is attained; TriangleShape returns the ratio of the longest side to the shortest, least for equilateral triangles, and the centre, or the lowest mark under the limit of size; DeviationMeshSurface returns the distance of the unit normals of the flat triangle and of the surface at its centre, so 0 on a plane; DeviationMeshSurface2 returns the largest sine of the angle between the tangents at the ends of an inner edge, along it; TriangleShape2 marks triangles of one shape alike. Each depends only on the face, so that refinement may keep the marks of the faces a new point leaves alone.", "quantifier": "every valid triangulation, face, surface, dimension and limit", "why_tests_cant": "The library tests only look at a few refined meshes; the marks drive the choice of every later point, for every surface.", "anchors": ["inc/topology/halfEdgeMeshQuality.h: MaxEdgeSizeSurface, DistanceMeshSurface3, DeviationMeshSurface, DeviationMeshSurface2, TriangleShape, TriangleShape2", "inc/topology/halfEdgeMeshGetters.h: getTriangleCoords"]}
{"id": "C97", "title": "Derivatives with respect to the curvilinear abscissa", "statement": "Curve::d_dm and d_dm2 are the first and second derivatives of the curve with respect to its arc length: a unit vector and a vector normal to it; d_dms and d_dm2s give them at each parameter of a list, in its order; Surface::d_dmu, d_dmu2, d_dmv and d_dmv2 do the same along the parameter lines.", "quantifier": "every curve and surface with two derivatives whose first one does not vanish, dimension, parameter and list", "why_tests_cant": "The tests compare with finite differences at a few parameters of a few curves, within a tolerance.", "anchors": ["gbs/bscurve.h: Curve::d_dm, d_dm2, d_dms, d_dm2s", "gbs/bssurf.h: Surface::d_dmu, d_dmv, d_dmu2, d_dmv2"]}
{"id": "C98", "title": "Helpers on one triangle", "statement": "perimeter is the sum of the sides; incenter is the point inside the triangle at one distance from its three sides; surface_triangle_deviation is the distance of the unit normals of the triangle and of the surface at its centre, 0 on a plane; computeUV gives the coordinates in the triangle of the foot of a point and throws only if the corners are collinear; sphere_center is at one distance from the three points and NaN only if they are collinear.", "quantifier": "every triangle, point, dimension, surface and machine epsilon", "why_tests_cant": "None of them is tested; the identities must hold for every triangle.", "anchors": ["inc/topology/baseGeom.h: perimeter, incenter, surface_triangle_deviation, computeUV, sphere_center"]}
{"id": "C99", "title": "Faces taken on one side of a boundary", "statement": "Given the boundary of a set of triangles of a mesh without overlap, takeInternalFaces removes from the list exactly the triangles of that set and returns them, takeExternalFaces exactly the others; both terminate, the faces left form a valid mesh with the same corners, vertices and links, and their half-edges keep exactly the opposites that belong to faces left. are_edges_2d_ccw answers whether the signed area enclosed by a closed line of half-edges is positive, and are_face_ccw whether all the triangles are counter-clockwise.", "quantifier": "all valid triangulations of the plane without overlap, all subsets of their faces, all tolerances for which no centre of a triangle is within the tolerance of the boundary; all closed lines of half-edges; all lists of triangles", "why_tests_cant": "the list is searched again from its start while faces are erased from it, and which faces are found depends on every mesh and every boundary", "anchors": ["inc/topology/halfEdgeMeshEditors.h: takeExternalFaces, takeInternalFaces, eraseFace", "inc/topology/halfEdgeMeshGeomTests.h: is_centroid_inside_boundary, are_edges_2d_ccw, are_face_ccw, is_ccw"]}
