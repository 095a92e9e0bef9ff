# Formal model of ssg-aero/gbs in Coq 8.16.1

## What is modelled and how

The source is read as text from `/repo`; nothing is compiled or run.  Every
definition of the model cites file and lines.  The model is executable Gallina.

* **Scalars.** The C++ code is templated on `T`.  The model is polymorphic over a
  class `Num T` of operations (`0,1,+,-,*,/,<,<=`, `knot_eps`).  It is instantiated
  at `R` (the theorems; `knot_eps` is an arbitrary non-negative real, so `float`
  and `double` tolerances are both covered) and at `Q` (executable tests).
  *Rounding is not modelled*: theorems over `R` are about exact arithmetic.  The
  only rounded-arithmetic part is the robust-predicate file, which uses Flocq.
* **Failures.** Every function that can read outside a vector, divide by zero,
  throw, or fail to terminate returns `result`: `Ok v | Throw e | Undef w | Fuel`.
  `Throw` is a C++ exception, `Undef` is undefined behaviour or a NaN/Inf producing
  division by zero, `Fuel` is a loop that did not finish within the given fuel.
  Theorems state `= Ok v`, hence exclude the other three.
* **Vectors and points.** `std::vector` is `list`; `std::array<T,dim>` holding a
  point is a coordinate function `nat -> T` (only coordinates below `dim` are
  meaningful); in-place updates return the new list.
* **Pointers.** Half-edge meshes are heaps: finite maps from identifiers to
  records; a null `shared_ptr` is `None`, following a null pointer is `Undef`.

## Trusted base

* Coq 8.16.1's kernel, including `vm_compute` (used in examples and refutations).
* `Print Assumptions` is printed under every property theorem.  The axioms listed are
  all the standard library's:
  - theorems over `R`: `ClassicalDedekindReals.sig_forall_dec`,
    `FunctionalExtensionality.functional_extensionality_dep` and, for some,
    `ClassicalDedekindReals.sig_not_dec`;
  - C54 (which uses Flocq's theorems) and those theorems of C72 to C75 that rest on the
    counting of zeros (derivatives): `Classical_Prop.classic` in addition;
  - mesh topology, batches, text, and the refutations computed on rationals or literal
    heaps: closed under the global context.
  The table at the end of this file gives the list for each theorem.
  Flocq and Coquelicot contribute proved theorems only.  No axiom is added.
* The reading of the C++ source: the correspondence model/code is by inspection.
* Exact arithmetic instead of IEEE arithmetic, except in C54.  C54 uses Flocq's
  round-to-nearest-even on formats of any precision p >= 10, with unbounded exponents and
  with gradual underflow; overflow, infinities and NaN are outside.

### What stands as an argument of the model instead of being modelled

A theorem that quantifies over such an argument holds for every function that meets the
hypothesis written in its statement.

| in the code | in the model | hypothesis where used |
|---|---|---|
| Eigen SparseLU, PartialPivLU, HouseholderQR, LDLT | `solver` argument | `exact_solver`: what is returned solves the system; `complete_solver`: and it returns for every nonsingular matrix |
| std::sqrt, cos, sin, pi | function arguments, instantiated with `sqrt`, `cos`, `sin`, `PI` | none |
| std::fmod | argument | `is_fmod` |
| std::stod | `parse` argument | none |
| std::sort on constraints | `sort` argument | result is a permutation |
| NLopt (C88) | `opt` argument | `honest`, `global`, `descending`, `strict`, `willing`, stated per theorem |
| newton_raphson_iterate, brent_find_minima | arguments | `finds_root`, `best_scalar` |
| extrema_curve_point (numerical minimisation) | `project` argument | stated per theorem |
| extrema_curve_curve (numerical minimisation) | `extrema` argument | `found`: its parameters are the crossings |
| abs_curv (arc length law) | `abs_curv` argument | its values are in the interval where needed |
| std::for_each with a parallel policy | list of scheduling choices | complete execution |
| std::upper_bound, lower_bound | linear scan | same answer on sorted ranges |
| rapidjson text form | the in-memory tree | - |

### Modelled code

basisfunctions.ixx (evaluators of curves and surfaces, derivative tables, weights),
knotsfunctions.ixx (all but the unused third remove_knot overload), math.ixx (ranges,
factorials, binomials), vecop.ixx (norms, products used by others), bscurve.h, bssurf.h,
polestools.h, bscinterp.h, bssinterp.h (but the unused fill_poles_matrix and its
build_poles), bscapprox.h (fixed and free least squares), bssapprox.h, bscshaping.h, bssshaping.h, bssbuild.h (gordon and its parts, lofts along a spine),
bsstools.h (knot unification), loft/loftBase.h,
loft/loftGeneric.h, bscbuild.h (segments, conics,
derived and integrated curves), bsctools.h (unification, joining, connections, extensions to points), bscanalysis.h
(uniform_distrib_params), curvescheck.h, execution.h, transformpoints.h, transform.h (but the Matrix4 overloads), the wrappers
curvetrimmed/Reversed/extended/reparametrized/composite/onsurface, curveline.h,
curvecircle.h, surfaceofrevolution.h, bscanalysis.h and bssanalysis.h (C84-C86), curveoffset.h, offsets.h, extrema.h and solvers.h (C88, the minimisers being arguments), gbs-mesh/tfi.h, gbs-io/tojson.h, fromjson.h,
fromtext.h, inc/topology: halfEdgeMeshData.h, halfEdgeMeshEditors.h, halfEdgeMeshGetters.h,
halfEdgeMeshGeomTests.h, edgeRecovery.h, tessellations.h, baseGeom.h, baseIntersection.h,
robustPredicates.h, halfEdgeMeshSmoothing.h, gbs-mesh/smoothing.h, halfEdgeMeshQuality.h (areas, MaxEdgeSize, DistanceMeshSurface2, the split point of TriangleShapeEdgeSplit), the face iterator of halfEdgeMeshData.h, gbs-mesh/mshedge.h (Model_MshEdge), gbs-io/iges.h (Model_Iges; the four add_geom overloads, without labels and without the approximation of a profile that is no polynomial B-spline curve), gbs-cuda/basisfunctions.cuh (Model_Cuda), inc/topology/halfEdgeMeshQuality.h l.271-381, 460-538, 576-637 (Model_Quality), gbs/bscurve.h l.129-188, gbs/bssurf.h l.257-303 (Model_Abscissa), inc/topology/baseGeom.h l.156-267 (Model_Triangle), inc/topology/halfEdgeMeshEditors.h (takeExternalFaces, takeInternalFaces), inc/topology/halfEdgeMeshGeomTests.h (is_centroid_inside_boundary, is_ccw, are_face_ccw, are_edges_2d_ccw): Model_Take, vertex.h, edge.h, wire.h.

### Not modelled

Rounding (outside C54); the inside of numerical optimisation and quadrature (NLopt and boost; curvature integrals, refine_approx; the quadrature of lengths is an
argument of the model); DistanceMeshSurface of halfEdgeMeshQuality.h, which cannot be instantiated; rendering, OpenCascade and Python
bindings; the writing of IGES and JSON text.

## Layout

* `theories/Model_*.v`: the model, no proofs.
* `theories/Spec_*.v`: small independent specifications.
* `theories/Proof_*.v`: lemmas.
* `theories/Prop_*.v`: property theorems only, closed by `exact`, with
  `Print Assumptions`, plus non-vacuity examples.

## Plan per property

| id | property | what is modelled / how it is proved |
|---|---|---|
| C01 | Span search finds the span | Model find_span with explicit bounds-checked reads and fuel; prove termination, range and bracketing by a loop invariant. |
| C02 | Triangular basis evaluation equals the Cox-de Boor definition | Model the in-place triangular loop in the error monad; induction on the degree against an independent Cox-de Boor recursion. |
| C03 | Partition of unity | Corollary of the row invariant of the triangular loop (no containment hypothesis needed). |
| C04 | Basis values are non-negative and vanish outside their support | Induction on the degree in the specification, transferred through C02/C05. |
| C05 | The tolerance-based recursive basis agrees with the exact definition | Model the recursion with its tolerance tests; induction on p under the separation hypothesis; counterexample when knots are closer than knot_eps. |
| C06 | Curve evaluation is the B-spline sum | Model the span-reduced loop; sum over all poles equals sum over the window by local support. |
| C07 | Convex hull | From C03/C04/C06. |
| C08 | Affine invariance | `C08_affine` from linearity of the evaluation and C03. `Model_Transform.v` models gbs/transform.h on curves and surfaces, polynomial and rational; the value is a sum of poles with weights that add up to 1, so an affine map commutes with it, and for rational objects the homogeneous poles move linearly. Needs nonzero weights (`C08_zero_weight_refuted`). |
| C09 | Clamped end interpolation | Evaluate the basis at a clamped end. |
| C10 | Derivative evaluation is the derivative | Derivative recursion against the standard library's derivable_pt_lim; A2.3 table against the recursion. |
| C11 | derivatives() agrees with value() | Both loops against the same derivative specification. |
| C12 | Rational evaluation | Model A4.2; the Leibniz identity by induction on the order. |
| C13 | Weights round-trip | List induction. |
| C14 | Out-of-range parameters are rejected | Case analysis on the modelled guard. |
| C15 | Constructor contract and class invariant | Invariant over operation sequences (fold_left). |
| C16 | Knot insertion does not change the curve | Model A5.1 loop by loop; blossom (polar form) of each segment proves equality at every parameter. |
| C17 | Knot insertion saturates at the degree | Case analysis on the same model. |
| C18 | Knot removal is the exact inverse of insertion and is refused otherwise | Model the tolerance version; insertion followed by removal. |
| C19 | Trimming keeps the geometry | Trim modelled as insertion plus slicing; from C16. |
| C20 | Reversal | Symmetry of the Cox-de Boor recursion under reflection. |
| C21 | Changing bounds is an affine reparametrisation | Affine invariance of the recursion. |
| C22 | Degree elevation does not change the curve | Bernstein binomial identity for one segment, then insertion to full multiplicity, elevation and exact removal on the model (Model_Elevate.v); overflow of the int binomials refutes degrees from 13 on. |
| C23 | Bezier decomposition | Insertion model of C16 at every inner knot; the loop on iterators is proved to cut the poles at multiples of p. |
| C24 | Flat knots and multiplicities round-trip | List induction. |
| C25 | Knot-vector builders produce valid clamped vectors | List induction and arithmetic. |
| C26 | Ordered insertion | List induction on sorted lists. |
| C27 | Knot unification gives one common knot vector without changing any curve | Invariant over the list of curves, using C16; the map of knots and multiplicities is related to the flat vector. Close knots and degree 0 refuted. |
| C28 | Joining | Both curves elevated (C22), local support on both sides of the junction; rational case through homogeneous coordinates. |
| C29 | Surface evaluation is the tensor product sum | Double reduced loop; sums exchanged. |
| C30 | Pole grid transposition | Index arithmetic (div/mod). |
| C31 | Pole accessors | Index arithmetic of both accessors; aliasing counterexample. |
| C32 | Iso-parametric curves lie on the surface | From C29 and C16. |
| C33 | Surface editing in one direction does not change the surface | Row-wise lifting of the curve theorems. |
| C34 | Banded LU solves the system | Model band storage and elimination (Model_Interp.v); loop invariant L*U = A on the eliminated part; success is equivalent to the existence of an unpivoted LU factorisation within the pivot and growth limits. |
| C35 | Interpolation passes through its points | Collocation rows proved equal to the basis derivatives; band solver proved (C34), Eigen's solvers are arguments assumed exact (`exact_solver`). |
| C36 | Bound-fixed approximation keeps end points and is least-squares optimal | Normal equations as hypothesis of the external solver; orthogonality gives optimality. |
| C37 | Parallel batches behave like sequential code | Executions are lists of scheduling choices over two-step elements; invariant per slot for every interleaving; transform_threshold with a throwing function refuted. |
| C38 | make_range | List induction. |
| C39 | Exact conics and segments | Four-span case analysis of the rational quadratic; coincident points refuted. |
| C40 | Derived and integrated curves | From C10 and the telescoping of the integrated poles; jumps at inner knots and degree 0 refuted. |
| C41 | Curve wrappers | Wrappers as functions over an abstract curve (bounds, value); derivatives by derivable_pt_lim; two clauses refuted. |
| C42 | Curve on surface chain rule | Chain rule with derivable_pt_lim for order 1; the second-order formula of the code is refuted. |
| C43 | Rigid motions | Trigonometric identities over R; build_trf_matrix(from,to) refuted. |
| C44 | Transfinite interpolation reproduces its boundary curves | Finite sums with Kronecker blending functions obtained from the interpolation theorems (C35); abs_curv is an argument. |
| C45 | New faces are closed, consistently linked loops | Heap of records indexed by naturals; functional correctness of the construction loops. |
| C46 | Mesh editing preserves the half-edge invariants | Invariant over sequences of modelled editors. |
| C47 | Edge flip | Heap-level post-condition of flip. |
| C48 | Vertex insertion into a cavity | Heap-level post-condition of the fan loop. |
| C49 | Inserting a point keeps a valid triangulation | Whole of boyerWatson (seed, cavity, visibility, fan). Sums of antisymmetric weights over half-edges (area, crossing numbers) show area and covered region are kept; generic points near a given one transfer strict statements. |
| C50 | Face removal | Heap-level post-condition. |
| C51 | Extraction of closed loops | Fuel-free termination measure and Permutation. |
| C52 | Mesh boundary extraction | Filter characterisation. |
| C53 | In-circle test | Polynomial identities (ring/nra). |
| C54 | Orientation predicate has the exact sign | Error-free transformations over Flocq rounding; expansion sums through a weaker invariant than the non-overlap claimed in the literature (which is not preserved); filters by forward error analysis; underflow refuted. |
| C55 | Point in triangle / polygon | Sign analysis over R; the ray test is the parity of crossing numbers of the triangles bounded by the edges. Flat triangles and the documented barycentric formula are refuted. |
| C56 | Segment intersection | Sign analysis over R; Cramer's rule. |
| C57 | Wires stay connected | Invariant over addEdge sequences on a heap of vertices and edges; extrema_curve_point is an argument. |
| C58 | JSON round-trip | JSON values as an inductive type; encode/decode round-trip by induction on the object. |
| C59 | Text point files | Strings as lists of characters; split against an independent specification; lone fields and non-ASCII bytes refuted. |
| C60 | Splitting an edge keeps the mesh watertight | Heap-level counterexample. |
| C61 | Boundary vertices are recognised | Heap-level counterexample. |
| C62 | Weight rescaling | List induction; counterexample for mean<>1. |
| C63 | Binomial coefficients and factorials | Model with machine-width wrap; exactness range. |
| C64 | Surface of revolution | Rotation algebra; refuted for axes off the origin and for u-derivatives. |
| C65 | Continuity at knots | From the agreement of the derivatives of neighbouring polynomial pieces (blossoms). |
| C66 | The curve determines its poles | Uniqueness of blossoms on non-empty spans. |
| C67 | Parametrisation of point lists | List induction on the chord lengths. |
| C68 | Recovery of constrained edges | Full model of recoverEdge; refuted: the convexity test never lets it flip, so it changes nothing. |
| C69 | Triangulation of a point set | Full model of delaunay2DBoyerWatson; validity, no overlap, corners are input points, empty circles. Invariant: a mesh of the box with empty circles; the cavity is exactly the set of triangles whose circle contains the new point (a set of faces whose boundary has the point on its left goes around it: winding numbers), its boundary is one chain, and the fan and the kept triangles have empty circles (pencils of circles); no corner inside the box is lost. |
| C71 | Completeness of the triangulation | On the same invariant: a triangle whose circle strictly excludes the other points and the frame is there (the difference of two powers is affine). Covering the convex hull is refuted on four points. |
| C72 | Surface through a grid of points | Model_Skin: the two families of solves, the averaged parameters. Proved by composing the row and column collocations; existence by C75 in both directions. |
| C73 | Surface from constraints | Tensor product rows with derivation orders; every constraint is one equation of the solved system. Existence when the constraints determine the poles. |
| C74 | Lofts carry their sections | Degree and knot unification (C22, C27) then one collocation per pole row; equality of the isoparametric curve with each section for all parameters and orders. |
| C75 | Interpolation always succeeds and is unique | Schoenberg-Whitney theorem, by counting zeros through Rolle on the derivative B-splines (Proof_Zeros, Proof_SW); averaged knots satisfy the interlacing condition; Gaussian elimination is a complete solver. |
| C76 | Lofts along a spine | Model_Spine: unification of curve objects, v_aligned_poles, tg_from_spine, loft with a spine (polynomial and rational); the foot of a section (extrema_curve_curve) and the distance are arguments. The Hermite rows of build_poles_matrix make the V iso curves take the poles and the scaled tangents; the factor is a spline of the stretches, nonnegative by the convex hull property. Existence: by hand for two sections (C09 at both ends); refuted for three uneven ones. |
| C77 | Least squares on surfaces | The separable normal equations of the code are the normal equations of the tensor product problem, hence minimality; full column rank of each direction (C75 on a subset of the parameters) gives existence. |
| C78 | Gordon surfaces carry their network | Model_Gordon: knot unification of surfaces (row by row through C27), build_intersections, gordon with its two lofts and the grid surface. The three surfaces share knots and degrees, so their pole sum evaluates to L_u + L_v - T; on an iso line the V loft and the grid surface agree because both are the unique spline with the same values at the crossings (C75). Curves that overhang the network are refuted. |
| C79 | Moving a curve to a point or to constraints | Model_Shape: the basis matrix of the window, the three solver branches (more poles, as many, less), the shifted poles. Normal equations give the least displacement and the least squares; partition of unity gives a pole that acts. The list version, which passes the constraints instead of their differences with the curve, is refuted. |
| C80 | Moving a surface to points or to constraints | Same on the flattened grid of poles; the window is the box of the spans of all the points. Derivative constraints are refuted: the matrix ignores the orders. |
| C81 | Lofts approximated along a spine | Model_Spine (loft_approx, three overloads). The sections are unified (C27), so their samples are values of one spline space; the fit is C77's least squares. When the collocation matrix in v is square and regular some grid has no gap at all, so the minimum has none, and samples that determine the splines in u make the rows equal. The foot function (extrema_curve_curve) is an argument. |
| C82 | Connections and extensions of curves | Model_Connect: two-point Hermite data through the interpolation of Model_Interp. The averaged knots of two repeated parameters are clamped, the end derivatives of the basis functions have a triangular sign pattern, so the system is nonsingular and a complete solver returns. Extensions join (C28 on the coordinates that agree) and, at the start, reverse and shift. The elliptic connections (c2_connect with a factor e) are modelled in part and not proved. |
| C83 | Surfaces joined, split and extended | Model_Stools: join row by row after raising the degrees in u; an extension is one curve extension (C82) per row of poles, on common knots. A statement about rows of poles passes to the surface because the point of a surface is the spline, in v, of the points of its rows; the splines in v of two rows agree exactly when their poles do. The other sides go through reverseU and invertUV. Rational surfaces are not modelled here. |
| C84 | Sampling by deviation | Model_Analysis: the recursive bisection with a bound on the depth as fuel. It halves the interval and stops below knot_eps, so it ends for every curve; order, kept parameters and the middle test are invariants of the recursion. The test on the cross product is the distance to the line through the ends. |
| C85 | Tangential and normal directions | Model_Analysis: direct algebra on the derivatives, the square root being an argument. |
| C86 | Length and curvilinear abscissa | Model_Analysis: the quadrature is an argument, assumed exact on the speed. The derivative of the square root of a sum of squares by the standard library's rules; the curvilinear abscissa is an interpolation (C35, C75) of strictly increasing cumulated lengths. |
| C87 | Offset curves and surfaces | Model_Offset: the curve, the law and the surface are functions of a parameter and an order. The derivatives of the unit normal by the standard library's rules; points by algebra; the offset surface by C79's optimality of grid approximations. |
| C88 | Closest points, extreme coordinates and the rolling ball | Model_Extrema: NLopt, Newton and Brent are arguments. Each search is the call of the minimiser with its objective, gradient, start and box. Hypotheses on the minimiser (it reports the objective at the reported place, it does not get worse than its start, it finds global minima of nonnegative objectives) give the claims; scans over samples by induction on the list; gradients by the standard library's rules. |
| C89 | Smoothing of grids and meshes | Model_Ellip: the two arrays and their swap, bounds-checked accesses, passes bounded by n_it. Loop invariants over the nodes already moved against the equations written with central differences (Spec_Ellip); induction on the passes. The walks around a vertex on the half-edge heap, by induction on the steps from the mesh invariants. |
| C90 | Refinement of triangulations | Model_Refine: the cache, the worst face and the loop, over the insertion of Model_Tess; the quality measure is an argument. Induction on the number of rounds with C49's theorem on one insertion; invariant that the cache holds the measure of every current face. The part on stopping is refuted by computation at Q on a triangulation made by the library. |
| C91 | Iteration over a face and area of a mesh | Model_Refine: iterators as the record the code has, loops bounded by the number of half-edges plus one; schedules of std::reduce as binary trees whose leaves are a permutation of the initial value and the faces. Induction on the position in the loop, and on the tree. |
| C92 | Quality measures of faces | Model_Refine: the measures on the heap model, with the face iterator as it is. Lemma on std::max_element over a list of pairs. The clause on TriangleShapeEdgeSplit and that on the point are refuted on a unit square. |
| C93 | Points along an edge | Model_MshEdge: the class as a record, its methods as functions on it. Invariant over all sequences of calls; the laws by the interpolation results of C35 and C75. The order along the curve is refuted on the unit interval. |
| C94 | Export to IGES | Model_Iges: the arguments passed to SetNURBSData, SetLineStart, SetLineEnd and SetAngles as records; Spec_Iges says which points such entities have. Layout by induction on the poles; points by C06 and C29, the frame by the lemmas of C64. Plane curves, axes off the origin and trimmed profiles are refuted. That the library reads three numbers per control point is a reading of its contract, not modelled code; the writing of the file is not modelled. |
| C95 | Basis functions on the device | Model_Cuda: both device functions, iterators as indices. Order 0 by induction on the degree against the host recursion of C05; the derivative is refuted on a segment and proved for the last function. |
| C96 | Measures of a face against a surface, and of its shape | Model_Quality: the four measures over the mesh model, the surface and the square root as arguments. The edge loop of a face reduces each to a function of its three corners and of which edges are inner; TriangleShape2 is refuted by two similar triangles. The first DistanceMeshSurface is left out: it indexes a std::list and calls functions that do not exist, so no program can use it. |
| C97 | Derivatives with respect to the curvilinear abscissa | Model_Abscissa: the six functions over the curves and surfaces of Model_Wrap. The specification is the derivative of the curve composed with any parameter change that runs at one over the speed; chain rule and derivative of the length of C'. |
| C98 | Helpers on one triangle | Model_Triangle: the five functions, hypot, sqrt and the machine epsilon as arguments. Algebra over the reals; sphere_center and the throw of computeUV are refuted. |
| C99 | Faces taken on one side of a boundary | | C99 | Model_Take: is_centroid_inside_boundary, takeExternalFaces, takeInternalFaces, is_ccw, are_face_ccw, are_edges_2d_ccw, on the half-edge heap. The loop keeps the invariant of the mesh and does not change the answers of the test; a centre is inside its own triangle only, and C55 gives the answer of the test; the sum of the trapezia of a closed line is minus twice its signed area. | |
| C70 | Lines and circles | Rotation algebra; line bounds and the circle from a general axis are refuted. |

## Findings in the code

Each is a property a user would expect and the code does not have.  Those marked with a
theorem are proved on the model; the others were seen while reading and are not claims.

Proved:
* `C05_close_knots_refuted`: ... and not otherwise: knots closer than the tolerance give a basis function that does not vanish outside its support.
* `C12_order21_refuted`: Order 21 is wrong: 21! does not fit size_t. The curve with knots 0,0,1,1, weights 1,2 and poles 0,1 is x(u) = 2u/(1+u), with x^(21)(0) = 2 * 21!.
* `C14_total_refuted`: "Never otherwise for a validly constructed curve" is false: the constructor accepts knots whose last span is empty; the end value is then a division by zero.
* `C15_changeBounds_refuted`: The restriction to meaningful arguments is needed.
* `C15_constructor_refuted`: Without that hypothesis non-monotone knots are accepted.
* `C15_trim_bounds_refuted`: Trimming with the bounds in decreasing order stores them in that order; afterwards no parameter is accepted.
* `C17_zero_insertions_refuted`: The clause "a request of zero insertions changes nothing" is false: poles are overwritten.
* `C18_only_copies_refuted`: "Removes only copies of u" is false when more copies are requested than exist: asked for 2 copies of the simple knot 2, the code also deletes the knot 1.
* `C20_soft_trim_refuted`: Without natural bounds (after a non-permanent trim to [1,2]) it is false: C(2)=2 but the reversed curve has the value 1 at 1+2-2.
* `C22_overflow_refuted`: Without the bound on the degree the claim is false: from degree 13 on the binomial coefficients overflow int.
* `C24_variants_agree_refuted`: At a distance of exactly eps the variants disagree.
* `C25_uniform_refuted`: Its knots are not uniform: the last span is twice as long as the others.
* `C26_unique_refuted`: An element below x within the tolerance does not prevent the insertion.
* `C27_close_knots_refuted`: Without the distance between knots the claim is false: knots closer than the tolerance are taken for one another but keep their values, so the knot vectors differ.
* `C27_degree_zero_refuted`: It is false for piecewise constant curves, whose knots are never inserted.
* `C28_overflow_refuted`: So is the bound on the degree.
* `C28_trimmed_refuted`: The restriction to curves whose bounds are their end knots is needed: a curve trimmed without rebuilding it is joined untrimmed.
* `C29_constructor_refuted`: The constructor accepts degree 5 in both directions with 3 knots and 9 poles: both pole counts wrap around. Evaluation then reads out of range.
* `C30_block_zero_refuted`: Block size 0: the loop never advances.
* `C30_blocked_empty_refuted`: No rows: the plain variant returns no rows, the blocked one reads row 0.
* `C31_pole_refuted`: pole(0,1) is not the pole of U index 0 and V index 1.
* `C31_polesU_past_refuted`: "Last PolesU vector is sent if overflow": the origin n times at j = nV, undefined beyond.
* `C31_reject_refuted`: A pair of indices of the grid is rejected, a pair outside it is accepted.
* `C32_band_refuted`: In the tolerance band below the start, where value() still answers, isoU indexes the poles at -1.
* `C33_trim_order_refuted`: Trimming with the bounds in decreasing order sorts the knots but stores the bounds as given, after which no parameter is accepted.
* `C37_transform_refuted`: ... and not when it throws: below the gate the caller receives the exception, above it the program is terminated.
* `C39_segment_point_refuted`: Between coincident points the curve parametrised by length is built, and its value is a division of zero by zero.
* `C40_break_refuted`: The hypotheses on the knots and on the degree are needed: a clamped curve that jumps at an inner knot, and a constant curve of degree 0, have no derived curve.
* `C41_clamped_derivative_refuted`: ... for the derivatives too: outside, this curve is constant and its first derivative comes out as 1.
* `C41_reparametrized_order_refuted`: Orders above two are refused whatever the curves.
* `C42_second_refuted`: A curve and a surface whose composition has first derivative 2t; the second derivative comes out as 0.
* `C43_from_to_refuted`: From the frame F at the origin, with Z = (0,0,1) and X = (0,1,0), to F itself: the point (0,1,0) goes to (0,-1,0).
* `C43_null_axis_refuted`: A null axis: division of zero by zero.
* `C44_short_section_refuted`: Asked for a section of one point the mesher has no defined result.
* `C54_underflow_refuted`: Without that condition the sign can be lost: the points (2^-600, 0), (0, 2^-600) and the origin are doubles in counter-clockwise order, the product underflows and the predicate answers zero.
* `C55_barycentric_doc_refuted`: They are not the ones documented, which would weight the first and the second corner.
* `C55_flat_refuted`: For a flat one in_triangle also accepts points outside it.
* `C57_end_points_refuted`: Coincident end points are not enough: a wire that comes back to its first point through shared vertices stays open.
* `C57_shared_edge_refuted`: An edge that belongs to two wires: adding it to the second one disconnects the first.
* `C57_tolerance_refuted`: When the wire's tolerance is larger than the edge's, addEdge adds an edge that does not share a vertex with its neighbour (the result of setVertex1 is ignored).
* `C58_bounds_refuted`: Bounds other than the first and the last knot
* `C58_close_knots_refuted`: Knots closer than the tolerance are merged.
* `C58_on_revolution_refuted`: A curve on a surface of revolution is written without its surface; reading it back accesses a member of a null value.
* `C58_trimmed_refuted`: A trimmed curve is written and cannot be read.
* `C59_lone_field_refuted`: The only field of a line without separator is lost.
* `C59_non_ascii_refuted`: Characters from 128 on reach isspace as negative numbers.
* `C60_split_refuted`: C60 is false: after splitting the common edge of two triangles, two half-edges run in opposite directions between the same vertices without being opposites, and the new vertex refers to a half-edge that does not end at it.
* `C61_is_boundary_refuted`: C61 is false: the answer is the opposite one.
* `C63_binomial_size_refuted`: C(21,1) = 21 and C(13,1) = 13 fit, their computation does not.
* `C64_derivative_refuted`: Frame at (0,0,1) on the vertical axis: the height is 1 + u, its derivative in u comes out as 2.
* `C64_off_axis_refuted`: Vertical axis through (1,0,0): half a turn takes (2,0,u) to (-2,0,u) instead of (0,0,u).
* `C67_adimension_refuted`: adimension alone ("set the values ranging from 0 to 1") is false of knots that do not start at 0: it divides by the length and does not shift.
* `C68_recovery_refuted`: So the edge between two opposite corners of a convex quadrilateral is not recovered, although the segment crosses only its diagonal and one flip would do.
* `C70_circle_axis_refuted`: With the axis (-1,0,0) the circle is one point.
* `C70_line_bounds_refuted`: The lower bound of its domain is the smallest positive number of the type: the first defining point is outside the domain.
* `C71_covers_hull_refuted`: The enclosing box is only ten percent larger than the points, so triangles along the hull whose circle reaches a corner of the box are lost: (0,0), (1,0), (1/2,1/10), (1/2,1) lose the triangle of the first three.
* `C76_uneven_refuted`: loft(sections, spine) puts the V knots at (b-a) j / (n-q+1), whatever the parameters of the sections. Three sections at the abscissae 0, 1, 10 of a straight spine put four conditions on one quadratic piece: the matrix is singular and no surface meets them. The solver of the code (partialPivLu) does not report it.
* `C79_constraints_refuted`: moved_to_constraints (gbs/bscshaping.h l.146) computes the differences between the constraints and the curve, then passes the constraints themselves: the curve ends at c(u) + x instead of x, for every curve.
* `C79_two_poles_refuted`: with fixed bounds a curve of two poles has no pole to move: moved_to_point returns it unchanged, without an error.
* `C80_derivative_refuted`: the surface version (gbs/bssshaping.h l.41-53) reads the derivation orders of a constraint and always uses values of the basis functions. The unit square asked for S_u(0,0) = (2,0) comes back with (0,0). The matching assertions of tests/tests_surfaces_shapping.cpp are commented out.
* `C82_extended_speed_refuted`: extention_to_point (gbs/bsctools.h l.810-818) computes du = dl / |t| and then u + dl * du: the parameter length of an extension of length l is l^2 / |t| instead of l / |t|. It changes with the unit of length: short extensions are run through too fast and long ones too slowly.
* `C81_rows_refuted`: the default loft_approx (gbs/bssbuild.h l.418-443) takes one row of poles per section but places the knots in v uniformly, not by the stations; when the sections crowd at one end of the spine the rows are not determined (the normal equations are singular, although the code says the fit is well-posed) and no answer carries them.
* `C81_domain_refuted`: the comment at gbs/bssbuild.h l.350-354 says the stations are normalised to [0, 1]; adimension only divides by their range, so feet from 1 to 3 give a surface on [1/2, 3/2].
* `C83_short_curve_refuted`: extention_to_curve (gbs/bsstools.h l.119-172) reads one pole of the target curve for each row of the surface without comparing the counts: a curve with fewer poles is read out of bounds, and one with other knots in v is taken as if it had those of the surface.
* `C83_extended_sides`: at the start sides `extended` (gbs/bsstools.h l.367-408) reverses, extends and reverses back without resetting the parameters, so the old point (u, v) of the surface is found at u + L (or v + L); the extension of a curve at its start (C82) keeps the parameters.
* `C83_join_refuses`: join throws for two surfaces with other knots in v although both curves and surfaces have a unification of knots; it compares the knots up to eps but not the degrees in v.
* `C84_max_refuted`: n_max_pts of deviation_based_params (gbs/bscanalysis.h) is not a maximum. It is compared once with the starting count, before the recursion; the recursion itself is bounded only by the width of the step.
* `C84_middle_refuted`: the deviation is looked at in the middle of each step only. An S-shaped arc whose middle is on the chord is kept as two points, however far the rest is from the chord.
* `C84_closed_refuted`: a step whose ends coincide is not refined (the chord has no length), so a closed curve sampled from two points stays two equal points.
* `C84_surface_refuted`: the recursion along the isoparametric curves of a surface has no lower bound on the step. On a sheet folded along a line the recursion does not end in exact arithmetic; with floating point numbers it ends when the middle is no longer between the ends.
* `C85_agree_refuted`: the two overloads of normal_direction disagree. In the plane the normal is on the left of the curve; in space it points away from the centre of curvature. A plane curve that turns left has opposite normals in the plane and in space.
* `C85_tangent_zero`: tangential_direction divides by the length of the derivative without a test.
* `C86_adaptive_refuted`: abs_curv_adaptive_discretization inserts into the vector it iterates over and goes on with an iterator the insertion invalidated. As soon as an interval needs a further parameter the behaviour is undefined.
* `C87_derivative_refuted`: the first derivative of a curve offset in space adds a unit vector along the cross product of tangent and curvature. For a circle at any nonzero constant offset it is not the derivative of the offset curve.
* `C87_straight_refuted`: the same derivative normalises a zero vector wherever the curve is straight or the offset is zero.
* (read, not proved) SurfaceOffset and the rational branch of offset_approx cannot be instantiated: they call members that do not exist.
* C88_curve_point, C88_surf_point, C88_curve_curve, C88_surf_curve: the distance the searches return is the squared distance. The residual is already squared, the minimised sum squares it again and the code takes one square root. topology/edge.h and gbs-mesh/tfi.h compare it with lengths.
* `C88_surf_curve_refuted`: extrema_surf_curve without a start passes the sampled (u, v, w) as (w, u, v). The start can be outside the bounds and NLopt then refuses it.
* `C88_gradient_refuted`, `C88_gradient_surf_curve_refuted`: the gradient of the distance of two curves has the wrong sign in the second entry. For a surface and a curve two entries are not derivatives at all: srf(x[1],1,0) evaluates a point. The default algorithm uses no gradient.
* `C88_min_refuted`, `C88_max_refuted`: min_coordinate minimises x^2 and max_coordinate 1/x^2. On coordinates from -2 to 1 they return 0 and -2.
* `C88_curvature_refuted`: max_curvature_pos looks for the largest second derivative, and returns its square. On a straight segment with a cubic parameter the answer is 36.
* `C88_newton_refuted`: in newton_solve an inner d0 hides the one of the condition and steps are compared with their sign, so a negative step ends the iteration. x^2 = 4 from 3/2 gives 27/11.
* `C88_parallel_refuted`: parallel lines divide by zero.
* (read, not proved) closest_curve and closest_p_curve call a member midPoint that no curve has.
* `C78_overhang_refuted`: a network whose curves overhang it gets a Gordon surface that leaves them: unify_knots stretches the loft of the shorter parameter interval.

Seen while reading (not claims):

* add_dimension on a rational curve or surface appends the new coordinate after the weight
  (bsctools.h l.746-760, bsstools.h l.93-110): the default 0 becomes the weight.
* adimension divides but does not shift; unflat variants treat knots exactly eps apart
  differently.
* approx(u1,u2) ignores its bounds; deviation_based_params ignores n_max; abs_curv_adaptive
  uses invalidated iterators; refine_params need not terminate.
* eval_value_par with p = 0; eval_value_deboor_cox hard-codes three coordinates.
* the third remove_knot overload is wrong and unused; newton_solve shadows its variable.
* build_3pt_tg_vec and build_3pt_tg_dir end tangents.
* BSSurface info() of a rational surface and Wire::close do not compile when instantiated.
* `translated(dim+1)` overload has the wrong return type.
* copyKnots accepts unsorted knots; trim to a single point gives no poles.
* Wire::addEdge ignores a failing setVertex; an edge shared by two wires is changed in both.
* TFI: a section size round(l/dm)+1 can be 1, which is undefined; for P > 1 the set of curves
  blends derivatives along the curves with functions of the other direction; an exception
  in the parallel loop ends the program.
* splitHalfEdge, is_boundary, `!is_locally_delaunay`, recoverEdge: see C60, C61, C68.
* boyerWatson leaves stale vertex->edge fields and never inserts points on the outer edges.
* getEncompassingMesh is degenerate when an extent is 0; HalfEdgeFaceEdgeIterator begin == end
  holds for non-empty faces; DistanceMeshSurface2 keeps prefilled entries.
* on_segment is false for a = b = p; in_triangle is true for collinear points outside a flat
  triangle (C55_flat_refuted).
* getNeighboringVertices returns copies of the vertex itself: the half-edges it walks over (opposite->previous, next->opposite) all END at the vertex, so their `vertex` is the vertex. Proved for every valid mesh (C89_neighbours_self, C89_neighbours_refuted). laplacian_smoothing therefore never moves anything (C89_laplacian_still) and divides by zero at a vertex of a single triangle (C89_laplacian_corner_refuted).
* The Python function elliptic_structured_smoothing passes its tolerance where the C++ function takes the number of iterations: one pass is run for any n_it when tol < 1 (C89_binding_one_pass, C89_binding_refuted).
* Elliptic smoothing can put a node outside the bounding box of the grid (C89_hull_refuted).
* (read, not proved) delaunay2DBoyerWatsonMeshRefine restores the Delaunay condition by flipping when `!is_locally_delaunay(ed)`, where is_locally_delaunay returns a number: only edges whose four points are exactly on a circle are flipped. It also dereferences the vertex returned by boyerWatson, which is null when nothing was inserted.
* delaunay2DBoyerWatsonSurfaceMeshRefine tests the criterion measured before the insertion, starting from the largest number, so one point is inserted even if every face meets the criterion; on a thin diamond the mesh then no longer meets it (C90_stop_refuted). With an empty face list the end iterator is dereferenced (C90_no_faces_refuted).
* The iterators of a face compare both == and != at its two ends (C91_iterators_refuted), so std::max_element on a face returns its first half-edge whatever the comparison (C91_max_element_refuted).
* DistanceMeshSurface2 fills its result vector with one (0, (0, 0)) per half-edge before appending the measures, so for a face on a flat part of the surface the point to insert is the origin of the parameter plane, which need not be in the mesh (C92_flat_refuted).
* TriangleShapeEdgeSplit inserts the middle of the first edge of the face, which may be on the border, instead of the middle of the longest inner edge (C92_split_point_refuted).
* DistanceMeshSurface cannot be instantiated: it indexes a std::list and calls functions that do not exist (read only).
* msh_edge::compute_pnts before set_n_points writes to front() of an empty vector, although the constructor sets the number of points to two (C93_no_points_refuted).
* msh_edge::update_law with two or three points interpolates at repeated or unsorted parameters, so its system is singular (C93_three_refuted).
* The quadratic laws of msh_edge are not monotone: with 11 points on a unit edge, sizes 0.3 and 0.3 give points at 0, 0.3, 0.5, 0.6, 0.6, 0.5, 0.4, 0.4, 0.5, 0.7, 1, and sizes 0.8 and 0.1 throw because the law leaves the curve (C93_order_refuted, C93_leaves_refuted).
* set_n_points after update_law keeps the law of the former number of points, so the sizes asked for are lost (C93_stale_refuted).
* `transform` of a rational curve or surface (gbs/transform.h l.24-40, 55-71) divides each pole by its weight first, and `separate_weights` gives the origin for a pole of weight 0. A pole at infinity is lost: translating the half circle with poles (1,0;1), (0,1;0), (-1,0;1) by the null vector flattens it to its diameter (`C08_zero_weight_refuted`).
* The overloads `transform(BSCurveGeneral&, Matrix4)` and `transform(BSSurfaceGeneral&, Matrix4)` (gbs/transform.h l.73-84) cannot be instantiated: their lambda passes a const point to a function that takes a reference and returns void, and the call inside them has no overload for the general classes (read from the text, not compiled).
* add_geom for plane curves hands two numbers per pole (three if rational) to an IGES entity whose control points have three, so the last ones are read beyond the end of the array (C94_plane_refuted; it rests on the contract of SetNURBSData, whose code is not in the repository).
* The IGES export of a surface of revolution whose axis misses the origin of coordinates is not the surface that value() describes: value() turns the carried profile about a parallel line through the origin (C94_off_axis_refuted).
* The IGES export of a surface of revolution rebuilds its profile without bounds, so the trimmed part of a trimmed profile reappears (C94_trim_refuted).
* The device overload of basis_function with an order of derivation calls itself with (p, it) instead of (p - 1, it + 1) in its second term, so the derivatives of the basis functions are in general wrong, the first derivative of the last one excepted (C95_derivative_refuted: -1/2 instead of -1 on a segment).
* TriangleShape2 compares dot products of sides, which scale with the triangle, with sin 60: of two triangles of the same shape the larger one is marked worse (C96_shape2_refuted).
* getTriangleCoords returns the corners of a face clockwise when the face is counter-clockwise, so DeviationMeshSurface compares the surface normal with the opposite of the normal of the triangle: its result is 2, the largest possible, where the surface is flat (C96_deviation_refuted), and gets smaller as the fit gets worse.
* sphere_center is NaN for every triangle parallel to the plane of the first two coordinates, and where it returns a point it is not at one distance from the three: of (0,0,0), (1,0,1), (0,1,1) it returns the first (C98_sphere_nan_refuted, C98_sphere_refuted).
* computeUV refuses a triangle as collinear when four times its squared area is under the machine epsilon, so small triangles are refused whatever their shape (C98_small_refuted; for double, a right triangle with legs of 1e-4).
* C99_face_ccw_refuted: are_face_ccw is documented to return true when all faces are counter-clockwise; is_ccw returns the boolean of are_ccw (which is true for a zero area), so flat faces are accepted.

## Print Assumptions, theorem by theorem

Generated by tools/assumptions.py.

* **closed under the global context**: C08_zero_weight_refuted, C12_order21_refuted, C13_merge_long_refuted, C14_total_refuted, C15_changeBounds_refuted, C15_constructor_refuted, C15_copyKnots_refuted, C15_trim_bounds_refuted, C15_trim_refuted, C18_only_copies_refuted, C20_soft_trim_refuted, C24_flat, C24_variants_agree_refuted, C25_uniform_refuted, C26_unique_refuted, C27_close_knots_refuted, C27_degree_zero_refuted, C28_overflow_refuted, C28_trimmed_refuted, C29_constructor_refuted, C30_block_zero_refuted, C30_blocked, C30_blocked_empty_refuted, C30_flat_involution, C30_flat_transpose, C30_transpose, C30_transpose_involution, C33_trim_order_refuted, C35_batch, C37_batch, C37_batch_first_error, C37_batch_values, C37_progress, C37_slots, C37_transform_partial, C37_transform_refuted, C38_make_range_int, C39_segment_point_refuted, C40_break_refuted, C40_degree_zero_refuted, C45_from_points, C45_make_face, C45_too_short, C45_walk, C46_history, C46_step, C47_apart, C47_flip, C47_twice, C48_add_vertex, C50_erase_face, C50_remove_faces, C50_repair, C51_closed, C51_loops, C52_boundary, C57_closed, C58_close_knots_refuted, C58_not_a_real, C59_accepted, C59_lone_field_refuted, C59_non_ascii_refuted, C59_pieces, C59_read_partial, C59_split_partial, C59_wrong_number, C60_split_refuted, C61_interior_partial, C61_is_boundary_inverted_partial, C61_is_boundary_refuted, C62_scaled_weights_refuted, C63_binomial_int_refuted, C63_binomial_size_refuted, C63_factorial_int, C63_factorial_size, C67_adimension_refuted, C76_uneven_refuted, C78_overhang_refuted, C89_binding_one_pass, C89_binding_refuted, C89_hull_refuted, C89_neighbours_self, C90_no_faces_refuted, C90_stop_refuted, C91_iteration, C91_iterators_refuted, C91_max_element_refuted, C93_leaves_refuted, C93_order_refuted, C93_stale_refuted
* **`sig_forall_dec`**: C31_polesV, C94_curve, C94_plane_refuted, C94_surface
* **`functional_extensionality_dep`, `sig_forall_dec`**: C01_find_span, C02_basis_funcs, C03_any_parameter, C03_partition_all, C03_partition_computed, C04_local_support, C04_nonneg_computed, C04_range, C04_range_computed, C05_above, C05_basis_function, C05_close_knots_refuted, C05_derivative, C06_eval_value, C06_value, C07_convex_hull, C08_affine, C08_derivatives, C08_rational_derivatives_partial, C08_scale, C08_scale_coord, C08_transform, C08_translate, C09_end, C09_start, C09_tangent_end, C09_tangent_start, C10_above_degree, C10_derivative_inside, C10_derivative_left_end, C10_derivative_right, C10_total, C11_derivatives, C11_eval_ders, C12_convex_hull, C12_derivative_inside_partial, C12_derivative_left_end_partial, C12_derivative_right_partial, C12_derivatives_agree_partial, C12_equal_weights, C12_total_partial, C12_value, C13_add_separate, C13_add_weights, C13_merge_partial, C13_merge_short_refuted, C13_separate_add, C14_derivatives, C14_rational_value, C14_value, C15_constructor_accepts, C15_constructor_rejects, C15_history, C16_below_undefined, C16_insert_knots, C17_multiplicity, C17_saturated, C17_zero_insertions_refuted, C18_first_knot_undefined, C18_inverts_insertion, C18_last_knot_undefined, C18_removes_removable, C18_removes_what_it_reports, C18_zero_untouched, C19_trim, C20_reverse, C21_changeBounds, C21_zero_length, C22_bezier, C22_increaseDegree, C22_increaseDegreeU, C22_increaseDegreeV, C22_increase_degree, C22_overflow_refuted, C23_segments, C24_round_trip, C25_mult, C25_mult_range, C25_simple, C25_simple_range, C26_insert_ordered, C26_insert_unique, C27_unify_curves_knots, C27_unify_degree, C27_unify_knots, C28_join, C28_join_rational, C29_cols_first, C29_outside, C29_partial_u, C29_partial_v, C29_rational_u_partial, C29_rational_v_partial, C29_rational_value, C29_rows_first, C29_table, C29_value, C30_invertUV, C31_accept_refuted, C31_pole_partial, C31_pole_refuted, C31_polesU, C31_polesU_beyond_refuted, C31_polesU_past_refuted, C31_reject_refuted, C32_band_refuted, C32_isoU, C32_isoV, C33_changeUBounds, C33_changeVBounds, C33_insertKnotU, C33_insertKnotV, C33_reverseU, C33_reverseV, C33_trimU, C33_trimV, C34_band_lu, C35_constraints, C35_defined, C35_end_constraints, C35_hermite, C35_interpolate, C35_polyline, C36_approx, C36_bound_fixed, C36_free, C36_sizes, C38_make_range, C38_make_range2, C38_make_range3, C40_derivate, C40_integrate, C41_clamped_derivative_refuted, C41_composite, C41_extended, C41_extended_clamped, C41_reparametrized, C41_reparametrized_order_refuted, C41_reversed, C41_trimmed, C42_first_partial, C42_second_partial, C42_second_refuted, C44_hard_nodes, C44_short_section_refuted, C49_inserted, C49_insertion, C53_circle_center, C53_in_circle, C55_barycentric, C55_barycentric_doc_refuted, C55_flat_refuted, C55_in_triangle, C55_is_inside, C56_complete, C56_crossing, C56_on_segment, C56_symmetric, C58_bounds_refuted, C58_curve, C58_on_revolution_refuted, C58_revolution, C58_surface, C58_trimmed_refuted, C58_unsupported, C58_wrong_dim, C62_scale_weights, C63_binomial_int_partial, C63_binomial_size_partial, C65_smooth, C66_poles, C66_support_needed, C68_mesh_unchanged, C68_recovery_refuted, C69_triangulation, C71_covers_hull_refuted, C71_which_triangles_partial, C73_constraints, C73_constraints_returns, C73_rejects, C74_loft, C74_loft_knots, C74_loft_knots_rational, C74_loft_rational, C75_averages, C75_solver, C77_constraints, C77_constraints_returns, C77_grid, C77_grid_returns, C77_rejects, C78_unify_surfaces, C79_constraints_refuted, C79_delta, C79_free, C79_in_place, C79_point, C79_returns, C79_two_poles_refuted, C80_derivative_refuted, C80_free, C80_in_place, C80_point, C80_positions, C80_returns, C81_carries, C81_default, C81_least_squares, C81_returns, C81_rows_refuted, C82_connect, C82_connect_n, C82_connect_scaled, C82_extension, C83_extended_length, C83_extended_sides, C83_extended_to_curve, C83_extention, C83_join, C83_join_refuses, C83_short_curve_refuted, C83_split_u, C83_split_v, C84_grid, C84_grid_returns, C86_adaptive, C86_adaptive_refuted, C88_coordinate, C88_coordinate_refuses, C88_gradient_curve, C88_gradient_refuted, C88_gradient_surf, C88_gradient_surf_curve_refuted, C88_lines, C88_max_partial, C88_max_refuted, C88_min_partial, C88_min_refuted, C88_newton_refuted, C88_parallel_refuted, C89_fixed, C89_in_range, C89_laplacian_corner_refuted, C89_laplacian_refuted, C89_laplacian_still, C89_neighbours_refuted, C89_passes, C89_translation, C89_window, C90_distance, C90_max_edge_size, C90_refined, C90_rounds, C91_area, C92_distance, C92_flat_refuted, C92_max_edge_size, C92_split_point_refuted, C94_rational_curve, C94_rational_surface, C94_space_curve, C94_space_surface, C95_above, C95_derivative_partial, C95_derivative_refuted, C95_device, C96_max_edge_size_surface, C98_coordinates, C98_small_refuted, C98_sphere_nan_refuted, C98_sphere_refuted, C99_edges_ccw, C99_external, C99_face_ccw, C99_face_ccw_refuted, C99_internal
* **`functional_extensionality_dep`, `sig_forall_dec`, `sig_not_dec`**: C08_rotate_plane, C08_rotate_space, C39_circle, C39_ellipse, C39_segment, C39_segment_normalized, C43_frame, C43_frame_distance, C43_from_to_partial, C43_from_to_refuted, C43_null_axis_refuted, C43_rotation_centre, C43_rotation_plane, C43_rotation_space, C57_accepts, C57_add_edge_partial, C57_closed_accepts_none, C57_connected_partial, C57_end_points_refuted, C57_refused, C57_shared_edge_refuted, C57_tolerance_refuted, C64_axis_partial, C64_derivative_refuted, C64_off_axis_refuted, C64_origin_partial, C67_parametrization, C70_circle_axis_partial, C70_circle_axis_refuted, C70_circle_frame, C70_circle_plane, C70_line, C70_line_bounds_refuted, C72_grid, C74_loft_auto, C74_loft_auto_rational, C76_spine, C76_spine_rational, C76_two_returns_partial, C82_extended, C82_extended_end, C82_extended_speed_refuted, C82_extended_start, C84_bspline, C84_closed_refuted, C84_max_refuted, C84_middle_refuted, C84_points, C84_sampling, C84_surface_refuted, C84_surface_u, C84_surface_v, C85_agree_refuted, C85_normal2, C85_normal3, C85_tangent, C85_tangent_zero, C86_length, C86_length_refuses, C87_derivative_refuted, C87_plane, C87_plane_refuses, C87_points, C87_points_returns, C87_space, C87_straight_refuted, C87_surface, C88_curvature_refuted, C88_curve_curve, C88_curve_curve_returns, C88_curve_point, C88_curve_point_from, C88_curve_point_returns, C88_rolling_ball, C88_second_derivative, C88_surf_curve, C88_surf_curve_refuted, C88_surf_point, C88_surf_point_returns, C94_off_axis_refuted, C94_revolution, C94_revolution_value_partial, C94_trim_refuted, C96_deviation, C96_deviation2, C96_deviation2_plane, C96_deviation_refuted, C96_distance, C96_local, C96_shape, C96_shape2_refuted, C96_shape_least, C97_curve, C97_lists, C97_surface_u, C97_surface_v, C97_unit, C98_deviation, C98_deviation_plane, C98_incenter, C98_perimeter
* **`classic`, `functional_extensionality_dep`, `sig_forall_dec`, `sig_not_dec`**: C54_exact_sign, C54_exact_sign_double, C54_exact_sign_float, C54_exact_sign_gradual, C54_underflow_refuted, C72_grid_returns, C74_loft_auto_returns, C74_loft_returns, C75_interpolate_returns, C75_unique, C77_resolve, C78_gordon, C78_gordon_returns, C81_domain_refuted, C86_law, C93_ends, C93_even, C93_four, C93_growth, C93_new, C93_no_points_refuted, C93_sizes, C93_three_refuted
