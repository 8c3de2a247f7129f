{"id": "C01", "title": "Interval union covers exactly its inputs", "statement": "For every list of well-formed intervals (no NaN endpoint, start <= end; infinities allowed), the set of real points covered by Interval::unions equals the set of points covered by the input list: nothing is lost and nothing is added.", "quantifier": "every finite list of intervals with binary64 endpoints, every real point, every order in which std::sort may leave intervals with equal starts", "why_tests_cant": "tests sample a handful of lists; exactness must hold for all lengths, overlaps, ties and orders", "anchors": ["src/datastructure/Interval.cpp: Interval::unions"]}
{"id": "C02", "title": "Interval union is in normal form", "statement": "Interval::unions returns intervals in increasing order, pairwise separated by a non-empty gap (previous end < next start), each with start <= end, never more of them than the input, and every endpoint is (equal to) an endpoint of an input interval; the answer depends only on the set of points covered, so it does not depend on the order of the input.", "quantifier": "every finite list of well-formed intervals, every permutation of it, every conforming sort", "why_tests_cant": "order-independence and separation are universally quantified over lists and permutations", "anchors": ["src/datastructure/Interval.cpp: Interval::unions"]}
{"id": "C03", "title": "Interval intersection is exact", "statement": "Interval::intersects of a non-empty list returns no interval when the inputs have no common point, and otherwise exactly one interval whose points are exactly the common points; for the empty list it returns no interval (not the whole line).", "quantifier": "every finite list of intervals with non-NaN endpoints, every real point", "why_tests_cant": "universally quantified over lists", "anchors": ["src/datastructure/Interval.cpp: Interval::intersects"]}
{"id": "C04", "title": "Complement is exact when the inner intervals are disjoint", "statement": "If the inner intervals do not overlap (in any input order), Interval::complements([o], inner) covers exactly the points of o (within the range of finite doubles) that are not strictly inside an inner interval, in increasing order.", "quantifier": "every outer interval, every non-overlapping list of inner intervals, every real point, every conforming sort", "why_tests_cant": "exactness of a set operation over all lists", "anchors": ["src/datastructure/Interval.cpp: Interval::complements"]}
{"id": "C05", "title": "Complement needs disjoint inner intervals", "statement": "The disjointness requirement of C04 is necessary: with overlapping (nested) inner intervals Interval::complements returns points that lie strictly inside an inner interval. Conversely for every inner list (overlapping or not) no point outside all inner intervals and inside the outer one is lost.", "quantifier": "existential witness for the failure; every list and point for the completeness half", "why_tests_cant": "a caller-side precondition that is undocumented; tests only use disjoint input", "anchors": ["src/datastructure/Interval.cpp: Interval::complements"]}
{"id": "C06", "title": "Complement looks only at the first outer interval", "statement": "With a non-empty inner list Interval::complements depends only on the first outer interval (all others are silently dropped), whereas with an empty inner list all outer intervals are returned unchanged.", "quantifier": "every outer list and inner list", "why_tests_cant": "a statement about all continuations of a list", "anchors": ["src/datastructure/Interval.cpp: Interval::complements"]}
{"id": "C07", "title": "Sweep-line free segments are exactly the free part of the line", "statement": "For each sweep line, the free segments cover exactly the points lying in every (non-NaN) arena interval and not in the topological interior of the union of the (non-NaN) obstacle intervals recorded for this line (so never strictly inside a single obstacle interval; the common end of two touching obstacles is not free either, while outer obstacle ends are free); NaN-marked pairs are ignored; a line with no arena interval has no free segment. Segments are increasing and pairwise do not overlap. This holds whatever the tables contained from earlier slices.", "quantifier": "every table of intersection intervals (any number of arenas, obstacles, NaN patterns), every real point", "why_tests_cant": "soundness and completeness of collision checking over all obstacle configurations", "anchors": ["include/hrm/datastructure/FreeSpace-inl.h: computeSweepLineFreeSegment"]}
{"id": "C08", "title": "Segment midpoints are inside their segment", "statement": "Each vertex abscissa produced for a free segment lies within that segment, in binary64 with rounding, whenever the sum of its ends does not overflow; the overflow guard is necessary.", "quantifier": "every pair of finite doubles", "why_tests_cant": "rounding behaviour must hold for all 2^128 pairs", "anchors": ["include/hrm/datastructure/FreeSpace-inl.h: computeFreeSegment"]}
{"id": "C09", "title": "Segment enhancement keeps vertices in free space", "statement": "The extra vertices added by the enhancement step lie within free segments of their own line; after enhancement every (low, mid, high) triple is ordered and lies inside one original free segment of the line, every original midpoint is still present, and the number of lows, mids and highs of a line agree.", "quantifier": "every table of free segments (any number of lines and segments)", "why_tests_cant": "nested loops over all adjacent lines; sorting three arrays independently must keep triples consistent for every input", "anchors": ["include/hrm/datastructure/FreeSpace-inl.h: enhanceFreeSegment"]}
{"id": "C10", "title": "Sweep lines are required", "statement": "Computing free segments for an empty list of sweep lines is undefined behaviour (size_t underflow), so a 2D request with zero sweep lines is never well defined; with at least one line the enhancement never reads out of bounds.", "quantifier": "every free space state; every non-empty table", "why_tests_cant": "memory safety for all sizes", "anchors": ["include/hrm/datastructure/FreeSpace-inl.h: enhanceFreeSegment, computeFreeSegment"]}
{"id": "C11", "title": "Arena intervals never shrink the workspace", "statement": "The interval recorded for an arena on a sweep line always contains the whole configured bound [low, upp], whatever the arena boundary is: the arena boundary is never used to exclude points, so free segments can leave the arena.", "quantifier": "every bound pair, every arena polygon, every sweep line", "why_tests_cant": "safety property over all arenas", "anchors": ["src/datastructure/FreeSpace2D.cpp: computeIntersectionInterval", "src/datastructure/FreeSpace3D.cpp: computeIntersectionInterval"]}
{"id": "C12", "title": "A sweep line that meets a boundary exactly once is undefined behaviour", "statement": "computeIntersectionInterval reads two intersection points whenever there is at least one; it is well defined iff no boundary on the line has exactly one recorded intersection.", "quantifier": "every polygon/mesh and sweep line", "why_tests_cant": "undefined behaviour cannot be observed by a passing test", "anchors": ["src/datastructure/FreeSpace2D.cpp: computeIntersectionInterval", "src/datastructure/FreeSpace3D.cpp: computeIntersectionInterval"]}
{"id": "C13", "title": "Horizontal line / polygon intersections lie on the polygon", "statement": "In exact arithmetic every abscissa returned by intersectHorizontalLinePolygon2D is a point of a (closed) polygon edge at the queried height, and every non-horizontal edge meeting the height contributes its point; heights outside the polygon's range give nothing.", "quantifier": "every polygon (any number of vertices), every height", "why_tests_cant": "geometric soundness/completeness over all polygons", "anchors": ["src/geometry/LineIntersection.cpp: intersectHorizontalLinePolygon2D"]}
{"id": "C14", "title": "Obstacle interval of a convex polygon", "statement": "If a sweep line crosses exactly two edges of an obstacle polygon, the recorded obstacle interval is exactly the chord between the two crossings; but when the line goes through a vertex the same point may be counted twice and the recorded interval can collapse to a point, so the interior of the obstacle is reported free. For a convex polygon with an interior and a sweep line between vertices (exact arithmetic), the recorded interval is exactly the polygon's cross-section.", "quantifier": "every convex polygon and every height between vertices; every pair of crossings; existential witness for the vertex case", "why_tests_cant": "degenerate alignments are measure-zero for random tests but occur for grid-aligned scenes", "anchors": ["src/datastructure/FreeSpace2D.cpp: computeIntersectionInterval", "src/geometry/LineIntersection.cpp: intersectHorizontalLinePolygon2D"]}
{"id": "C15", "title": "Segment/polygon crossing test", "statement": "isIntersectSegPolygon2D is true exactly when the open segment properly crosses the open interior of some polygon edge (in exact arithmetic, for non-parallel pairs); in particular true implies a common point; but a segment lying strictly inside the polygon, or meeting it only at polygon vertices, is reported as not intersecting.", "quantifier": "every segment and polygon", "why_tests_cant": "geometric exactness over all inputs; the misses are degenerate configurations", "anchors": ["src/geometry/LineIntersection.cpp: isIntersectSegPolygon2D"]}
{"id": "C16", "title": "Line/triangle intersection is sound", "statement": "When intersectLineTriangle3D reports a hit, the reported point is on the line and in the plane of the triangle, with barycentric coordinates in the triangle up to the 1e-12 tolerance; it rejects degenerate triangles and parallel lines.", "quantifier": "every line and triangle (exact arithmetic)", "why_tests_cant": "geometric soundness over all inputs", "anchors": ["src/geometry/LineIntersection.cpp: intersectLineTriangle3D"]}
{"id": "C17", "title": "Mesh intersection returns at most two hits, in face order", "statement": "intersectLineMesh3D and intersectVerticalLineMesh3D return the hits of the first (at most two) faces in face order that the line meets; each hit is sound; a line hitting three or more faces loses the later ones. The general test returns no hit exactly when, in some coordinate, the direction is below 1e-6 and the mesh lies strictly on one side of the line's origin; if every coordinate of the direction is zero or at least 1e-6 this never loses an exact hit.", "quantifier": "every mesh and line", "why_tests_cant": "list-prefix semantics for every mesh size", "anchors": ["src/geometry/LineIntersection.cpp: intersectLineMesh3D, intersectVerticalLineMesh3D"]}
{"id": "C18", "title": "Roadmap graph is well formed", "statement": "After building a roadmap (any number of slices, lines, obstacles) every edge has a weight, every edge endpoint is an index of an existing vertex, and the weight of an edge is the Euclidean distance of its endpoint vertices as computed by the library.", "quantifier": "every planner state reachable by constructing slices, connecting slices and refining, every outcome of the collision tests", "why_tests_cant": "invariant over all histories of roadmap construction", "anchors": ["include/hrm/planners/HighwayRoadMap-inl.h: connectOneSlice2D, bridgeVertex, buildRoadmap", "src/planners/HRM2D.cpp: connectMultiSlice, connectExistSlice", "src/planners/HRM3D.cpp: connectOneSlice3D, connectMultiSlice"]}
{"id": "C19", "title": "Roadmap vertices are at the slice's sweep lines and free segments", "statement": "Every vertex of a 2D slice has the slice heading, the height of one sweep line and an abscissa taken from the mid list of this line; every mid value occurs, in order; the per-line index table gives the first vertex of each line.", "quantifier": "every table of free segments, every prior graph", "why_tests_cant": "bookkeeping must hold for all sizes", "anchors": ["src/planners/HRM2D.cpp: generateVertices"]}
{"id": "C20", "title": "Slice bookkeeping partitions the vertices", "statement": "The recorded per-slice index ranges are contiguous, start at the end of the previous slice, and cover the whole vertex list.", "quantifier": "every number of slices and every slice content", "why_tests_cant": "history invariant", "anchors": ["include/hrm/planners/HighwayRoadMap-inl.h: buildRoadmap", "src/planners/HRM2D.cpp: generateVertices"]}
{"id": "C21", "title": "Same-slice edges were checked", "statement": "Every edge inside a 2D slice either joins neighbouring vertices of one sweep line whose segments touch (gap below 1e-6) or joins vertices of adjacent sweep lines whose straight transition was reported collision free (or goes through a bridge vertex both halves of which were reported free); existing vertices and edges are never modified.", "quantifier": "every free segment table and every behaviour of the collision test", "why_tests_cant": "safety over all histories", "anchors": ["include/hrm/planners/HighwayRoadMap-inl.h: connectOneSlice2D, bridgeVertex"]}
{"id": "C22", "title": "Bridge vertices cannot be added in 2D", "statement": "In a 2D slice (all vertices share the heading) the bridging step never adds a vertex or an edge, because the candidate bridge vertices coincide with the endpoints of a transition already rejected.", "quantifier": "every pair of vertices with the same heading and every deterministic collision test", "why_tests_cant": "universally quantified over collision tests", "anchors": ["include/hrm/planners/HighwayRoadMap-inl.h: bridgeVertex"]}
{"id": "C23", "title": "Cross-slice edges were checked", "statement": "Every edge added between slices joins a vertex of the current slice with a vertex of the adjacent slice, whose heights differ by at most two sweep-line gaps, and whose interpolated motion was reported free; each vertex of the current slice gets at most one such edge per adjacent slice.", "quantifier": "every slice content and collision test", "why_tests_cant": "safety over all histories", "anchors": ["src/planners/HRM2D.cpp: connectMultiSlice, connectExistSlice", "src/planners/HRM3D.cpp: connectMultiSlice, connectExistSlice", "src/planners/ProbHRM3D.cpp: connectMultiSlice"]}
{"id": "C24", "title": "Two-slice requests always fail", "statement": "A 2D planning request with exactly two slices always ends in std::out_of_range while connecting slices.", "quantifier": "every scene and request with numSlice = 2", "why_tests_cant": "must hold for every scene", "anchors": ["src/planners/HRM2D.cpp: connectMultiSlice"]}
{"id": "C25", "title": "One-slice and one-line requests produce NaN", "statement": "With a single slice the only heading is NaN, and with a single sweep line the only height is NaN; with more than one, headings and heights are finite, start at the lower limit, and the spacing uses the n-1 formula.", "quantifier": "every boundary limits, every count", "why_tests_cant": "boundary cases and all counts", "anchors": ["src/planners/HRM2D.cpp: sampleOrientations, sweepLineProcess"]}
{"id": "C26", "title": "Refinement of an unsolved roadmap throws", "statement": "The per-line tables are sized once in the constructor; after the line count is doubled the next slice construction fails with std::out_of_range (whenever there was at least one line), so refinement can never solve a query.", "quantifier": "every planner state reachable after construction, every scene", "why_tests_cant": "must hold for all scenes and histories", "anchors": ["include/hrm/planners/HighwayRoadMap-inl.h: refineExistRoadmap", "include/hrm/datastructure/FreeSpace-inl.h: setup", "src/datastructure/FreeSpace2D.cpp: computeIntersectionInterval"]}
{"id": "C27", "title": "All slices use the same obstacle boundary", "statement": "The configuration-space boundary computed for a slice does not depend on the slice heading: it is always computed for the pose the robot had when the planner was constructed.", "quantifier": "every sequence of slices and headings, every robot and scene", "why_tests_cant": "aliasing/ownership property over all histories", "anchors": ["include/hrm/datastructure/FreeSpace-inl.h: FreeSpaceComputator, computeCSpaceBoundary", "src/planners/HRM2D.cpp: constructOneSlice, setTransform"]}
{"id": "C28", "title": "A reported path is connected in the roadmap", "statement": "When search reports success, the path of vertex ids starts at the chosen start neighbour, ends at the chosen goal neighbour, and consecutive ids are joined by roadmap edges.", "quantifier": "every graph, every predecessor map satisfying the A* contract", "why_tests_cant": "path validity over all graphs", "anchors": ["include/hrm/planners/HighwayRoadMap-inl.h: search"]}
{"id": "C29", "title": "Reported cost is not the path length", "statement": "The cost reported by search sums, for each path vertex other than the start neighbour, the weight of the edge whose list index equals the vertex id; it need not equal the length of the path, and if a path vertex id is not a valid edge index the read is out of bounds (undefined behaviour).", "quantifier": "every graph and path", "why_tests_cant": "tests only check solved flag; must relate to all graphs", "anchors": ["include/hrm/planners/HighwayRoadMap-inl.h: search"]}
{"id": "C30", "title": "Solution path starts at the start and ends at the goal", "statement": "The solved path consists of the start pose, the vertices of the path ids in order, and the goal pose, each resized to the roadmap's vertex dimension; it has two more poses than path ids.", "quantifier": "every roadmap and path", "why_tests_cant": "all sizes", "anchors": ["include/hrm/planners/HighwayRoadMap-inl.h: getSolutionPath"]}
{"id": "C31", "title": "Nearest-neighbour query is in range and bounded", "statement": "getNearestNeighborsOnGraph returns at most min(k, number of slices) (at least one slot is used even for k = 0) valid vertex indexes, on every non-empty roadmap; they are exactly the vertices, in roadmap order, that lie in one of the selected slices (those with the k headings closest to the query) and inside the height window around the query; on an empty roadmap it is undefined behaviour.", "quantifier": "every roadmap, query, k, radius", "why_tests_cant": "all roadmap sizes", "anchors": ["src/planners/HRM2D.cpp: getNearestNeighborsOnGraph"]}
{"id": "C32", "title": "Nearest neighbour may come from another slice", "statement": "The vertex returned for a slice need not belong to this slice: vertex 0 is used whenever no vertex of the slice is strictly closer to the query than vertex 0; when some vertex of the slice is strictly closer than vertex 0 the answer is the first closest vertex of that slice.", "quantifier": "every roadmap and query; witness for the failure", "why_tests_cant": "argmin correctness over all vertex lists", "anchors": ["src/planners/HRM2D.cpp: getNearestNeighborsOnGraph"]}
{"id": "C33", "title": "Kinematics-of-containment planner never connects slices", "statement": "HRM2DKC never adds a vertex or edge between slices: its containment polyhedron list is empty, so every middle vertex candidate is rejected.", "quantifier": "every scene, every random number stream", "why_tests_cant": "all random streams", "anchors": ["src/planners/HRM2DKC.cpp: connectMultiSlice, addMiddleVertex", "src/geometry/PointInPoly.cpp: isPtInPoly"]}
{"id": "C34", "title": "Point-in-polyhedron test", "statement": "isPtInPoly is true iff for some stored simplex matrix all four coordinates of matrix times (x,y,z,1) are in [0,1] (exact arithmetic); when the stored matrices are the inverses of the simplices' vertex matrices, it is true iff the point lies in one of the simplices; a point with fewer than three coordinates is read out of bounds.", "quantifier": "every list of simplices and point (exact arithmetic)", "why_tests_cant": "all list lengths", "anchors": ["src/geometry/PointInPoly.cpp: isPtInPoly"]}
{"id": "C35", "title": "Slices are connected to an earlier slice only", "statement": "In HRM3D each slice is connected to the closest earlier slice (in angular distance, first minimum), and the first slice is connected with itself; later slices are never considered.", "quantifier": "every list of orientations and distance function", "why_tests_cant": "argmin over all lists", "anchors": ["src/planners/HRM3D.cpp: connectMultiSlice"]}
{"id": "C36", "title": "HRM3D::plan does not interpolate", "statement": "The interpolated path returned by the base planning loop equals the solved path for every planner whose interpolation has a different signature (HRM3D), because it hides rather than overrides the base function.", "quantifier": "every solved path", "why_tests_cant": "dispatch is static; holds for all inputs", "anchors": ["include/hrm/planners/HighwayRoadMap-inl.h: plan, getInterpolatedSolutionPath", "src/planners/HRM3D.cpp: getInterpolatedSolutionPath"]}
{"id": "C37", "title": "Vector interpolation", "statement": "interpolateRn with n >= 1 steps returns n+1 vectors of the start's dimension; the first equals the start and the last equals the end, all lie on the straight segment between them with equal spacing (exact arithmetic); it reads out of bounds iff the end vector is shorter; in binary64 the first vector still has the start's value, but the last need not be the end, and with n = 0 the single returned vector is NaN in every coordinate.", "quantifier": "every dimension, vectors and step count", "why_tests_cant": "all sizes and rounding", "anchors": ["src/util/InterpolateSE3.cpp: interpolateRn"]}
{"id": "C38", "title": "Compound interpolation", "statement": "interpolateCompoundSE3Rn returns n+1 poses of the start's dimension for n >= 1 and pose dimension >= 7, with linearly interpolated translation and joint parts and a spherically interpolated quaternion (exact start, end up to sign, uniform angle, norm within 2^-53 of one in exact arithmetic); dimension below 7 is undefined behaviour; n = 0 does not return the two end poses but one or three poses.", "quantifier": "every dimension and step count", "why_tests_cant": "all sizes", "anchors": ["src/util/InterpolateSE3.cpp: interpolateCompoundSE3Rn, interpolateSE3"]}
{"id": "C39", "title": "Euclidean distance", "statement": "vectorEuclidean over equal-length vectors is the Euclidean metric in exact arithmetic (non-negative, zero iff equal, symmetric, triangle inequality); in binary64 it is symmetric bit for bit; it reads out of bounds iff the second vector is shorter.", "quantifier": "every pair of vectors of any dimension", "why_tests_cant": "metric laws quantify over all vectors", "anchors": ["src/util/DistanceMetric.cpp: vectorEuclidean"]}
{"id": "C40", "title": "Rigid motion of a multi-body robot", "statement": "After any history of addBody and robotTF calls, robotTF(g) places the base at g and each link at g composed with the pose the link had when it was added (in space, with an optional extra transform per link from a kinematic chain, applied between the two); the shapes stay the ones given. Placing is not cumulative: the result depends on the bodies added, not on where the robot was before. No history of complete bodies and rigid transforms fails.", "quantifier": "every robot (any number of links), every history of calls, every rigid transform (exact arithmetic)", "why_tests_cant": "unbounded histories of calls and continuous parameters", "anchors": ["src/datastructure/MultiBodyTree2D.cpp: robotTF, addBody", "src/datastructure/MultiBodyTree3D.cpp: robotTF, addBody"]}
{"id": "C41", "title": "Boundary points lie on the body", "statement": "Every point returned by getOriginShape, brought back to the body frame, satisfies the equation of the superellipse (plane) or of the superquadric (space), and the number of points is num (plane) or num*num (space). With num = 1 the planar point is not a number. Sample i of the plane is the point at angle 2*i*3.1415926/(num-1); sample i*num+j in space is the one at the i-th of num equally spaced latitudes and the j-th of num equally spaced longitudes.", "quantifier": "every positive semi-axes and exponents, pose and number of points (exact arithmetic)", "why_tests_cant": "all parameters", "anchors": ["src/geometry/SuperEllipse.cpp: getOriginShape", "src/geometry/SuperQuadrics.cpp: getOriginShape"]}
{"id": "C42", "title": "Spatial Minkowski boundary points are exact contacts", "statement": "For each sample, the robot ellipsoid centred at the point returned by getMinkSum3D touches the convex obstacle at the corresponding point of getOriginShape, lies on the other side of a common tangent plane, and the interiors are disjoint; with k = -1 it touches the obstacle from inside.", "quantifier": "every convex superquadric obstacle, robot ellipsoid, orientation, position and number of samples (exact arithmetic)", "why_tests_cant": "all parameters", "anchors": ["src/geometry/SuperQuadrics.cpp: getMinkSum3D, getOriginShape, getGradientsCanonical"]}
{"id": "C43", "title": "Planar Minkowski boundary is exact for equal semi-axes only", "statement": "getMinkSum2D omits the division by the semi-axes in the gradient. Its points are contact points (disjoint interiors; inner contact for k = -1) whenever the obstacle's semi-axes are equal; for every obstacle with different semi-axes, every robot and every number of samples at least 2, some returned centre makes the robot penetrate the obstacle.", "quantifier": "every planar obstacle with exponent between 0 and 2, every robot ellipse, orientation, number of samples (exact arithmetic)", "why_tests_cant": "numerical tests with circles pass; both halves quantify over all shapes", "anchors": ["src/geometry/SuperEllipse.cpp: getMinkSum2D"]}
{"id": "C44", "title": "The separation test is sound up to its root tolerance", "statement": "The coefficients used by isEllipseSeparated and isEllipsoidSeparated are those of det(lambda*A - M) (up to sign) for the two quadrics in a common frame. Two ellipses (ellipsoids) of any axes, position and orientation have no common point exactly when this polynomial has two different negative roots. When the test answers true and the roots it counted are real, the two closed bodies have no common point; when the bodies are disjoint, there are exactly two negative roots and the test answers true exactly if these differ by more than 1e-6 (for circles and spheres: exactly when a stated gap bound holds). With complex roots of tiny imaginary part it can answer true for overlapping circles, and it can miss a tiny gap.", "quantifier": "all ellipses/ellipsoids (centre, axes, orientation) and exact root finders, exact arithmetic", "why_tests_cant": "geometric statement over all points of all pairs of bodies", "anchors": ["src/util/EllipsoidSeparation.cpp: isEllipseSeparated, isEllipsoidSeparated"]}
{"id": "C45", "title": "Root list is padded with zeros", "statement": "getRootsPolynomial of a degree-n polynomial returns 2n values, the first n being zero (even if zero is no root); the companion matrix has the given polynomial (divided by its leading coefficient) as characteristic polynomial; the separation decision ignores the padding.", "quantifier": "every coefficient list and eigenvalue routine", "why_tests_cant": "all inputs", "anchors": ["src/util/EllipsoidSeparation.cpp: getRootsPolynomial"]}
{"id": "C46", "title": "Enclosing ellipse or ellipsoid encloses, up to orientation", "statement": "With any correct singular value decomposition, the ellipse of getMVCE2D encloses both arguments with the returned angle or its opposite, and with the returned angle if the first singular vector points upwards; otherwise (a correct decomposition pointing downwards) no elongated tilted ellipse is enclosed by its own result, because acos loses the sign. In space, getMVCE3D encloses both arguments if the orthogonal factor is a rotation; a correct decomposition with a reflection gives a non-unit quaternion and an ellipsoid that does not contain its arguments.", "quantifier": "every pair of ellipses / ellipsoids, every orientation, every decomposition meeting its contract (exact arithmetic)", "why_tests_cant": "all inputs", "anchors": ["src/geometry/TightFitEllipsoid.cpp: getMVCE2D, getMVCE3D"]}
{"id": "C47", "title": "Surface mesh indices", "statement": "getMeshFromParamSurface(.., n) with n >= 1 returns 2(n-1)^2 triangles whose indices are below n*n, every grid cell is covered by exactly its two triangles; but the two triangles of a cell are oriented inconsistently; n = 0 is undefined.", "quantifier": "every n", "why_tests_cant": "all sizes", "anchors": ["src/geometry/MeshGenerator.cpp: getMeshFromParamSurface"]}
{"id": "C48", "title": "CSV reader", "statement": "parse2DCsvFile returns one record per line that does not start with '#', in order, including an empty record for an empty line; unparsable fields are dropped (shifting later columns), never replaced; a field outside the float range makes the whole call throw out_of_range; a missing file throws invalid_argument.", "quantifier": "every file content", "why_tests_cant": "all files", "anchors": ["src/util/Parse2dCsvFile.cpp: parse2DCsvFile"]}
{"id": "C49", "title": "A planner object plans at most once", "statement": "After a planning call of HRM2D has returned, no further planning call on the same object returns normally: the per-slice ranges of the first call are kept and connecting the slices reads past the list.", "quantifier": "every planner state reachable by construction and planning, every scene, every time-out behaviour", "why_tests_cant": "A test replans one scene; the claim is about every history of every planner object.", "anchors": ["include/hrm/planners/HighwayRoadMap-inl.h: plan, buildRoadmap", "src/planners/HRM2D.cpp: connectMultiSlice"]}
{"id": "C50", "title": "One-slice requests are never solved", "statement": "A planning request with a single slice that returns normally reports no solution, whatever the scene: the only heading is NaN and no start or goal neighbour passes the angle test.", "quantifier": "every scene, start, goal and robot with numSlice = 1, HRM2D and HRM2DKC", "why_tests_cant": "Needs every scene; NaN propagation through the neighbour query.", "anchors": ["src/planners/HRM2D.cpp: sampleOrientations, getNearestNeighborsOnGraph"]}
{"id": "C51", "title": "A* search is terminating, sound and complete on roadmaps", "statement": "On every well-formed roadmap with bounded finite coordinates the graph search run by the planner terminates; when it reports the goal, following predecessors from the goal reaches the start along roadmap edges without repetition; when it does not, start and goal are not connected.", "quantifier": "every roadmap graph (any size), start and goal vertex, every tie-breaking of the heap, binary64 weights", "why_tests_cant": "Every graph and tie-breaking; rounding of sums of weights.", "anchors": ["include/hrm/planners/HighwayRoadMap-inl.h: search, AStarHeuristic, AStarGoalVisitor"]}
{"id": "C52", "title": "Spatial roadmaps are well formed", "statement": "After any history of calls on an HRM3D or ProbHRM3D object the roadmap has as many weights as edges and every edge joins two existing vertices.", "quantifier": "every planner state reachable by construction, free-space queries and planning calls, every scene, robot and time-out behaviour", "why_tests_cant": "All histories and scenes.", "anchors": ["src/planners/HRM3D.cpp: generateVertices, connectOneSlice3D, connectMultiSlice", "src/planners/ProbHRM3D.cpp: plan, connectMultiSlice"]}
{"id": "C53", "title": "Recorded slice ranges partition the spatial roadmap's slice vertices", "statement": "The per-slice index ranges kept by the spatial planners are consecutive and cover the vertices in order; HRM3D records one slice per sampled orientation and ProbHRM3D one per sampled configuration; the configurations ProbHRM3D sweeps are the start orientation, then the goal orientation, then the random draws, in that order.", "quantifier": "every planner state reachable by construction, free-space queries and planning calls, every scene, robot and time-out behaviour", "why_tests_cant": "Ranges depend on every sweep line of every slice.", "anchors": ["src/planners/HRM3D.cpp: constructOneSlice, generateVertices", "src/planners/ProbHRM3D.cpp: generateVertices"]}
{"id": "C54", "title": "Vertices of a spatial slice lie on the sweep grid and carry the slice's orientation", "statement": "Every vertex in the range of slice k has x and y on the sweep grid of the stored limits and, for HRM3D, exactly the orientation of sample k. For ProbHRM3D's first call it carries orientation and joint angles of configuration k; after replanning only the joint angles are certain to be those of configuration k, the orientation being that of some configuration not after k.", "quantifier": "every planner state reachable by construction, free-space queries and planning calls, every scene, robot and time-out behaviour", "why_tests_cant": "All histories of calls and sampled configurations.", "anchors": ["src/planners/HRM3D.cpp: generateVertices, sweepLineProcess", "src/planners/ProbHRM3D.cpp: generateVertices"]}
{"id": "C55", "title": "Spatial roadmap edges are exactly the checked ones", "statement": "Within a slice the edges are exactly those between consecutive vertices of a sweep line, and those between free vertices of neighbouring sweep lines whose straight motion the planner's own test accepts, plus bridge links; every edge of the roadmap was accepted by one of the planner's tests; ProbHRM3D links a new slice only with the nearest earlier configuration.", "quantifier": "every planner state reachable by construction, free-space queries and planning calls, every scene, robot and time-out behaviour", "why_tests_cant": "Edges between all pairs of segments in all slices.", "anchors": ["src/planners/HRM3D.cpp: connectOneSlice3D, connectMultiSlice, bridgeSlice", "src/planners/ProbHRM3D.cpp: connectMultiSlice", "include/hrm/planners/HighwayRoadMap-inl.h: connectOneSlice2D, bridgeVertex"]}
{"id": "C56", "title": "An HRM3D object plans at most once", "statement": "After one planning call on an HRM3D object has returned, no later planning call on it returns normally.", "quantifier": "every planner state reachable by construction, free-space queries and planning calls, every scene, robot and time-out behaviour", "why_tests_cant": "Histories of calls.", "anchors": ["include/hrm/planners/HighwayRoadMap-inl.h: plan, buildRoadmap", "src/planners/HRM3D.cpp: connectMultiSlice"]}
{"id": "C57", "title": "Refinement never completes", "statement": "A refinement step of the spatial planners never returns normally on a reachable planner with at least one slice, so HRM3D returns normally only without refining, and a returning ProbHRM3D call with numPoint > 0 sampled fewer than sixty configurations.", "quantifier": "every planner state reachable by construction, free-space queries and planning calls, every scene, robot and time-out behaviour", "why_tests_cant": "Time-out driven path; all schedules of the clock.", "anchors": ["include/hrm/planners/HighwayRoadMap-inl.h: refineExistRoadmap, plan", "src/planners/ProbHRM3D.cpp: plan"]}
{"id": "C58", "title": "All slices use the obstacle boundary of the construction pose", "statement": "Every slice of the spatial planners is swept against one and the same configuration-space boundary, computed from the robot as given at construction; the boundary of a slice need not be that of the robot at the slice's orientation.", "quantifier": "every planner state reachable by construction, free-space queries and planning calls, every scene, robot and time-out behaviour", "why_tests_cant": "Any number of slices; the aliasing is invisible for spheres.", "anchors": ["src/planners/HRM3D.cpp: constructOneSlice, setTransform", "include/hrm/planners/FreeSpace-inl.h: setup"]}
{"id": "C59", "title": "Attaching start and goal can read an uninitialised quaternion", "statement": "If no sampled orientation is strictly closer to the query than the first sample, the reference orientation is read uninitialised. Treating that read as undefined: a ProbHRM3D planning call never returns normally (its first search has one sample), and HRM3D returns only if both start and goal are closer to another sample than to the first.", "quantifier": "every planner state reachable by construction, free-space queries and planning calls, every scene, robot and time-out behaviour", "why_tests_cant": "Depends on sampled orientations for every start/goal.", "anchors": ["src/planners/HRM3D.cpp: getNearestNeighborsOnGraph"]}
{"id": "C60", "title": "Settings under which the spatial planners never plan", "statement": "An HRM3D request with an articulated robot always throws; a ProbHRM3D request for a robot declared rigid but with joints never returns normally.", "quantifier": "every reachable planner state and every request with those settings", "why_tests_cant": "All histories.", "anchors": ["src/planners/HRM3D.cpp: setTransform", "src/planners/ProbHRM3D.cpp: generateVertices, setTransform"]}
{"id": "C61", "title": "Sweep-line counts of the spatial planners", "statement": "A slice with no sweep lines in x or y is never built normally; with a single line its coordinate is NaN; with k >= 2 lines the grid runs monotonically between the limits with the first line at the lower limit.", "quantifier": "every line count and finite limits in binary64", "why_tests_cant": "All counts and limits, rounding.", "anchors": ["src/planners/HRM3D.cpp: sweepLineProcess", "include/hrm/planners/HRM3D.h: getFreeSegmentOneSlice"]}
{"id": "C63", "title": "Interpolated path of ProbHRM3D", "statement": "The interpolated path consists, for each pair of consecutive solution poses, of a block of poses determined by their distance and the reported cost divided by the number of points; a zero cost is undefined behaviour, so a first call in which start and goal attach to one vertex never returns; a block can contain NaN poses although path and cost are finite.", "quantifier": "every path, cost and number of points", "why_tests_cant": "Conversion of every quotient to an integer.", "anchors": ["src/planners/HRM3D.cpp: getInterpolatedSolutionPath", "src/planners/ProbHRM3D.cpp: plan"]}
{"id": "C64", "title": "Free-segment query depends on a previous plan", "statement": "getFreeSegmentOneSlice on a freshly constructed spatial planner gives the same result for every boundary passed in; after planning it requires at least as many meshes as the planner's own arena and obstacles and returns the segments of the meshes given, leaving roadmap and result unchanged.", "quantifier": "every planner, boundary and history", "why_tests_cant": "All boundaries.", "anchors": ["include/hrm/planners/HRM3D.h: getFreeSegmentOneSlice", "src/planners/HRM3D.cpp: sweepLineProcess"]}
{"id": "C65", "title": "A reported spatial path is a roadmap walk; an unsolved result means disconnected", "statement": "A path returned by the first planning call consists of start, a walk along roadmap edges between a neighbour of the start and a neighbour of the goal, and goal; if HRM3D reports no path then no neighbour of the start is connected with a neighbour of the goal.", "quantifier": "every scene whose roadmap coordinates are finite and bounded, every tie-breaking of the search", "why_tests_cant": "All graphs.", "anchors": ["include/hrm/planners/HighwayRoadMap-inl.h: plan, search, getSolutionPath", "src/planners/ProbHRM3D.cpp: plan"]}
{"id": "C66", "title": "Neighbours of a spatial query", "statement": "The neighbour query returns at most max(1, k) vertices; each is in range, lies within the line-spacing window of the query, and is, for a sampled orientation within the radius of the reference orientation, the closest vertex of that orientation or vertex 0 if there is none; so a returned vertex need not have the orientation looked for.", "quantifier": "every roadmap, query pose, k and radius", "why_tests_cant": "argmin over all vertices and orientations.", "anchors": ["src/planners/HRM3D.cpp: getNearestNeighborsOnGraph"]}
{"id": "C67", "title": "Replanning with ProbHRM3D after success", "statement": "A planning call on a ProbHRM3D object that already solved adds exactly one slice and reports a path whatever the new search finds; a search started at the first vertex of the stored path reports cost zero.", "quantifier": "every planner state reachable by construction, free-space queries and planning calls, every scene, robot and time-out behaviour", "why_tests_cant": "Histories of calls.", "anchors": ["src/planners/ProbHRM3D.cpp: plan", "include/hrm/planners/HighwayRoadMap-inl.h: search"]}
{"id": "C62", "title": "Meaning of the motion and point tests in exact arithmetic", "statement": "A straight spatial motion reported free crosses no face of any obstacle mesh which its line meets at most twice; one reported blocked meets some face strictly inside the segment (up to the tolerance); the test is defined unless a mesh is met exactly once. A point reported clear does not lie between a lower and an upper face on its vertical line (planar: between two edges on its horizontal line), a point reported blocked does. Limits: a segment entirely inside an obstacle is free, and only the first two hits are considered.", "quantifier": "every list of meshes/polygons, segment and point over the reals; witnesses in binary64", "why_tests_cant": "All geometry.", "anchors": ["src/planners/HRM3D.cpp: isSameSliceTransitionFree, isPtInCFree", "src/planners/HRM2D.cpp: isPtInCFree", "src/geometry/LineIntersection.cpp: intersectLineMesh3D, intersectVerticalLineMesh3D"]}
{"id": "C68", "title": "Motion tests are exhaustive", "statement": "In binary64, a straight motion inside a slice is accepted exactly if it passes the test against every obstacle of the slice, and a motion between slices is accepted exactly if at every interpolated pose every body is clear of every boundary listed for that body; a mesh on which exactly one point is found makes the straight spatial test undefined.", "quantifier": "every scene, robot (any number of bodies), pair of poses and number of interpolation points", "why_tests_cant": "Every obstacle, body and pose index.", "anchors": ["src/planners/HRM2D.cpp: isSameSliceTransitionFree, isMultiSliceTransitionFree, isPtInCFree", "src/planners/HRM3D.cpp: isSameSliceTransitionFree, isMultiSliceTransitionFree, isPtInCFree"]}
{"id": "C69", "title": "Few interpolation points make the planar between-slice test vacuous", "statement": "With numPoint = 0 every planar motion between slices is accepted; with numPoint = 1 the only pose tested is not a number, so every motion of a robot whose bodies follow the pose is accepted; with numPoint = 2 only the end poses are tested and passing through an obstacle in between is accepted.", "quantifier": "every robot, boundary and pair of poses", "why_tests_cant": "Universal over motions; NaN arithmetic.", "anchors": ["src/planners/HRM2D.cpp: isMultiSliceTransitionFree"]}
{"id": "C70", "title": "Minkowski sums of a multi-body robot are touching poses", "statement": "minkSum returns one boundary per body; each of its points is a translation of the base at which that body touches the obstacle without overlap, at the robot's current orientation, wherever the robot stood before (plane). In space the points for the links are relative to the base translation at which the robot stood, so they are touching poses only after adding it: for every robot with a link there is a translation of the robot after which a returned point puts the link into the obstacle.", "quantifier": "every robot (any number of bodies), every history of calls, orientation, translation and obstacle (round in the plane, convex in space), every sample (exact arithmetic)", "why_tests_cant": "continuous parameters, any number of bodies, histories; tests call minkSum with the base at the origin", "anchors": ["src/datastructure/MultiBodyTree2D.cpp: minkSum, robotTF", "src/datastructure/MultiBodyTree3D.cpp: minkSum, robotTF"]}
{"id": "C71", "title": "Tight-fitted ellipsoid covers the whole range of orientations", "statement": "getTFE2D and getTFE3D return a body that encloses the given one at both end orientations and at every interpolated orientation of the range (planar: linear angles; spatial: slerp). One planar step gives a result that is not a number.", "quantifier": "every semi-axes, orientations, number of steps, every decomposition meeting its contract and of the good orientation (C46) (exact arithmetic; spatial orientations not within rounding of each other or equal)", "why_tests_cant": "continuous parameters and any number of steps", "anchors": ["src/geometry/TightFitEllipsoid.cpp: getTFE2D, getTFE3D", "src/util/InterpolateSE3.cpp: interpolateSlerp"]}
{"id": "C72", "title": "Sampled angle ranges do not match a full turn", "statement": "The last point of the planar getOriginShape is not the first one, for every body and number of samples at least 2, because PI is the decimal 3.1415926; code treating consecutive samples as a closed polygon leaves a gap. In space both angle ranges are extended by 1e-6 and go past a full turn, so the ends overlap.", "quantifier": "every positive semi-axes, exponent, pose and number of samples (exact arithmetic)", "why_tests_cant": "a statement about all parameters; the gap is below usual test tolerances", "anchors": ["src/geometry/SuperEllipse.cpp: getOriginShape", "include/hrm/datastructure/DataType.h: PI"]}
{"id": "C73", "title": "The sampled forbidden region is inscribed", "statement": "The centres returned by getMinkSum2D for a circular-axes body, and by getMinkSum3D for every convex superquadric, are contact poses, and every centre strictly between two different returned centres (in space also inside a triangle of three) is in collision: the polygon or mesh through the samples lies inside the forbidden region, so it under-approximates it. The planar samples are pairwise different.", "quantifier": "every positive semi-axes, exponents in the convex range, poses and sample counts (exact arithmetic)", "why_tests_cant": "all parameters and all points of an edge", "anchors": ["src/geometry/SuperEllipse.cpp: getMinkSum2D", "src/geometry/SuperQuadrics.cpp: getMinkSum3D"]}
{"id": "C74", "title": "Roadmap vertices and inner waypoints are clear of the swept boundaries", "statement": "After any number of planning calls, every vertex of the planar roadmap lies on a sweep line, its abscissa is a number, it is never strictly between the two crossings of an obstacle boundary with that line, and it is between the limits extended by the arena crossings; so is every waypoint of a returned path except the first and the last. In space (HRM3D, ProbHRM3D) the same holds for every vertex on the sweep grid with respect to the vertical line through it; any other vertex is a corner between two vertices, both of whose straight legs passed the motion test.", "quantifier": "every scene with crossings of magnitude at most 2^1022, robot, request and history of planning calls", "why_tests_cant": "every scene and every vertex, through sweeping, sorting, interval algebra and graph construction in floating point", "anchors": ["src/planners/HRM2D.cpp: constructOneSlice, sweepLineProcess, generateVertices", "src/planners/HRM3D.cpp: constructOneSlice, sweepLineProcess, connectOneSlice3D", "src/planners/ProbHRM3D.cpp: plan", "src/planners/FreeSpace2D.cpp", "src/planners/FreeSpace3D.cpp", "include/hrm/planners/FreeSpace-inl.h: computeFreeSegment", "include/hrm/planners/HighwayRoadMap-inl.h: plan, bridgeVertex"]}
{"id": "C75", "title": "Start, goal and the legs joining them are not checked", "statement": "A planning call can return a path whose first waypoint is inside an obstacle's boundary, and a path whose first leg goes through a wall which separates start and goal although start, goal and all roadmap vertices are clear.", "quantifier": "refuted clearance claim with witnesses; the obstruction holds for every continuous motion", "why_tests_cant": "the claim users expect is universal; its negation needs a proof that no motion exists", "anchors": ["include/hrm/planners/HighwayRoadMap-inl.h: search, getSolutionPath", "src/planners/HRM2D.cpp: getNearestNeighborsOnGraph"]}
{"id": "C76", "title": "Thin obstacles are passed through between slices", "statement": "With the default five interpolation points a path is returned although a wall separates start and goal, no motion within the arena avoids it, and the bridge boundary used between slices contains that wall: only the interpolated poses are tested.", "quantifier": "refuted soundness claim with a witness; the obstruction holds for every continuous motion", "why_tests_cant": "the claim users expect is universal; its negation needs a proof that no motion exists", "anchors": ["src/planners/HRM2D.cpp: isMultiSliceTransitionFree, connectMultiSlice"]}
{"id": "C77", "title": "What the OMPL wrapper's plan returns", "statement": "For every history of setup and plan calls, plan returns true exactly if the object was set up successfully before (an articulated object: always), whether or not a path was found; isSolved is true afterwards exactly if the OMPL planner reported a solution (also an approximate one) and took less than the limit. A start or goal with too few entries (planar 3, spatial 7, articulated 7 plus the number of joints), and only that, ends in out_of_range; the object then says unsolved and keeps its stored results.", "quantifier": "all call histories, configurations, limits and replies of the OMPL planner", "why_tests_cant": "ranges over every history of calls and every reply of an external planner", "anchors": ["include/hrm/planners/ompl_interface/OMPLInterface-inl.h: plan, isSolved", "src/planners/ompl_interface/OMPL2D.cpp: setup, setStateFromVector", "src/planners/ompl_interface/OMPL3D.cpp", "src/planners/ompl_interface/OMPL3DArticulated.cpp"]}
{"id": "C78", "title": "Paths of the OMPL wrapper accumulate over calls", "statement": "After any history the stored solution path is the concatenation of the paths of all solved calls, in order, and the interpolated path likewise; the planar interpolated path stays empty. The reported path length is the number of states of the simplified path in the plane and of the path before simplification in space, and stays that of an earlier call if the call is unsolved. That the stored path is the last call's fails for any two solved calls.", "quantifier": "all call histories and replies of the OMPL planner", "why_tests_cant": "a statement about unbounded histories of an object reused between queries", "anchors": ["include/hrm/planners/ompl_interface/OMPLInterface-inl.h: plan, getSolution", "src/planners/ompl_interface/OMPL2D.cpp: getSolution", "src/planners/ompl_interface/OMPL3D.cpp: getSolution"]}
{"id": "C79", "title": "Which roadmap vertices are read back from OMPL", "statement": "In the plane a call stores as many vertices (and their edges) as the previous call counted valid motions, none after the first call, and is undefined if that count exceeds the number of vertices of the planner's roadmap. In space all vertices and exactly the edges of the roadmap are stored.", "quantifier": "all call histories and replies of the OMPL planner", "why_tests_cant": "depends on the state left by every earlier call; the failure is undefined behaviour", "anchors": ["src/planners/ompl_interface/OMPL2D.cpp: getSolution", "src/planners/ompl_interface/OMPL3D.cpp: getSolution", "include/hrm/planners/ompl_interface/OMPLInterface-inl.h: getVertices, getEdges, numValidEdges"]}
{"id": "C80", "title": "The explicit collision check decides clearance for ellipsoids", "statement": "For a robot assembled by any history of calls from ellipses and obstacles that are ellipses, a planar state found valid has no point of the robot in an obstacle (the eigenvalue routine returning the exact spectrum without rounding near the real axis), and a state clear of the obstacles is found valid unless the two negative roots of some pair are within 1e-6 of each other. In space, with an exact collision routine, a state is valid exactly if no point of the robot lies in an obstacle, for rigid and articulated robots, after any number of setups; HRM3DAblation's motion check is true exactly if this holds at each interpolated pose.", "quantifier": "all robots, obstacles, poses, joint transforms, histories, numbers of setups", "why_tests_cant": "universal over continuous configurations and over shapes; a missed collision is a single exceptional pose", "anchors": ["src/util/EllipsoidSQCollisionFCL.cpp", "src/planners/ompl_interface/OMPL2D.cpp: isStateValid", "src/planners/ompl_interface/OMPL3D.cpp: isStateValid", "include/hrm/planners/HRM3DAblation-inl.h: isMultiSliceTransitionFree"]}
{"id": "C81", "title": "The explicit collision check ignores the arena and the robot's exponents", "statement": "Without obstacles every state is valid, also with the robot outside the arena. A robot body with exponent below one is checked as the ellipsoid with the same semi-axes: for all semi-axes and exponents some ball reaches into the body and the state is found valid.", "quantifier": "all semi-axes, exponents, numbers of sampled points; every exact collision routine", "why_tests_cant": "a user expects a universal soundness claim; it fails for all such shapes, not one", "anchors": ["src/planners/ompl_interface/OMPL3D.cpp: isStateValid, setCollisionObject", "src/planners/ompl_interface/OMPL2D.cpp: isStateValid", "src/util/EllipsoidSQCollisionFCL.cpp: setCollisionObjectFromSQ"]}
{"id": "C82", "title": "Obstacles that are not ellipsoids are checked as surfaces", "statement": "For every superquadric obstacle that is no ellipsoid (an exponent off one by 1e-6 or more) some ball strictly inside it is a valid state. For every superellipse that is no ellipse some disc reaching into it is a valid state and, for exponents of at least one fifth, some disc which touches no point of it is an invalid state. An obstacle whose exponents are within 1e-6 of one is checked as the ellipse (ellipsoid) with its semi-axes and pose.", "quantifier": "all semi-axes, exponents, poses, point numbers, every exact collision routine and triangulation of the points", "why_tests_cant": "a user expects a universal soundness claim; it fails for all such shapes, not one", "anchors": ["src/util/EllipsoidSQCollisionFCL.cpp: setCollisionObjectFromSQ, isCollision", "src/geometry/MeshGenerator.cpp: getMesh, getMeshFromSQ", "src/planners/ompl_interface/OMPL2D.cpp: setCollisionObject"]}
{"id": "C83", "title": "The query given to OMPL is pulled into the bounds", "statement": "Each position entry of the start and goal handed to OMPL is the given one if it lies within the bounds of the last successful setup and the nearer bound otherwise, without a message; joint values are pulled to plus or minus a quarter turn. So a planning call can answer true and solved for a start that was not the given one. An articulated object planned before setup has no validity checker, after setup it has one.", "quantifier": "all histories, bounds, starts and goals", "why_tests_cant": "ranges over all queries and histories of setups", "anchors": ["src/planners/ompl_interface/OMPL2D.cpp: setStateFromVector, setup", "src/planners/ompl_interface/OMPL3D.cpp: setStateFromVector, setup", "src/planners/ompl_interface/OMPL3DArticulated.cpp: setup, setStateFromVector"]}
{"id": "C84", "title": "The path found is a shortest one between its ends, up to rounding", "statement": "When the first planning call of a planner succeeds, the graph path returned leads from a neighbour of the start to a neighbour of the goal, and its exact Euclidean length in configuration coordinates is at most (1 + n(m+4)/2^46) times the length of any walk of the roadmap between these two vertices, plus n/2^500, for a roadmap of n vertices with m coordinates. It need not be the shortest over all start and goal neighbours: the search stops at the first connected pair, and a scene is given in which one vertex neighbours both start and goal and the path reported is longer than two units.", "quantifier": "all scenes, roadmaps with finite moderate coordinates, start and goal, heap orders of the priority queue, walks in the roadmap", "why_tests_cant": "compares the result with every walk of every roadmap, including accumulated rounding error", "anchors": ["include/hrm/planners/HighwayRoadMap-inl.h: search, AStarGoalVisitor, connectOneSlice2D, bridgeVertex", "src/util/DistanceMetric.cpp: vectorEuclidean", "src/planners/ProbHRM3D.cpp: connectMultiSlice"]}
{"id": "C85", "title": "Loading scene and robot files", "statement": "Loading a scene file gives one shape per data line, in file order, made of the first six (planar: semi-axes, exponent, position, heading) or twelve (spatial: semi-axes, exponents, position, quaternion w,x,y,z) numbers of the line, and whatever the target list held before is dropped. A data line with fewer numbers, in particular an empty line, is undefined behaviour; a missing file throws. A robot file gives the base from its first row and the links from the others in order (no rows: undefined); rows of an orientation file are x,y,z,w. Text fields are dropped, so the remaining numbers move to earlier columns without an error.", "quantifier": "all file contents, conversions of text to numbers, previous contents of the list, numbers of sample points", "why_tests_cant": "ranges over every text and every behaviour of the number conversion", "anchors": ["src/test/util/ParsePlanningSettings.cpp: loadVectorGeometry, loadRobotMultiBody2D, loadRobotMultiBody3D, loadPreDefinedQuaternions", "include/hrm/test/util/ParsePlanningSettings.h: PlannerSetting::loadEnvironment", "src/util/Parse2dCsvFile.cpp: parse2DCsvFile"]}
{"id": "C86", "title": "Converting resource files", "statement": "A row of exactly twelve numbers ending in axis and angle is converted to a row that, when loaded, gives the body turned by that angle about that axis by a unit quaternion; the six digits written move a point by at most 3/10000 of its largest coordinate. A zero axis gives no rotation whatever the angle. Rows of another length are copied (with a thirteenth column the axis and angle are read as the quaternion), an empty row throws, and converting a converted file again changes orientations. Start and goal get the same conversion, keep three joints for a robot named snake, six for tree and none for any other name, throw if too short, and for a dimension other than 2D and 3D nothing is written and no error reported.", "quantifier": "all rows, axes, angles, points of the body, robot names, dimensions, and roundings within six digits", "why_tests_cant": "ranges over all rotations and all points of the body", "anchors": ["src/test/util/ParsePlanningSettings.cpp: parseGeometricModel, parseStartGoalConfig, loadVectorGeometry"]}
{"id": "C87", "title": "Planning limits derived from arena and robot", "statement": "defineParameters sets the limits to the arena's box shrunk on each side by 1.5 (planar) or 1.2 (spatial) times the first semi-axis of the robot's base. A base whose centre is within the limits is inside the arena's box in every orientation if and only if its other semi-axes are at most 1.5 (1.2) times the first. The limits are empty exactly if the arena is narrower than that. Links can leave the box although the base is within the limits, and in an elliptical arena a position within the limits can be outside the arena.", "quantifier": "all arenas, robot bases, links, obstacles, requested parameters, positions and orientations", "why_tests_cant": "ranges over all poses of the robot and all points of its base", "anchors": ["src/test/util/ParsePlanningSettings.cpp: defineParameters", "src/datastructure/MultiBodyTree2D.cpp: robotTF"]}
{"id": "C88", "title": "Sweep-line and slice counts derived from the scene", "statement": "A planar request with a line count keeps it; without one the count n satisfies n m <= h < (n+1) m, h the half-height of the limits and m the smallest semi-axis of all obstacles. Neighbouring lines are then more than 2m apart, so the thinnest obstacle fits between any two of them, but every band of half-height m + 2m/(n-1) beginning in the limits contains a line. An arena only slightly larger or smaller than the robot gives no lines, with which planning is undefined; a still smaller one gives a count beyond 2^63. Without obstacles the call throws unless a count is given. In space both counts are computed if either is missing, overwriting a given one; the slice count always becomes the number of orientation samples, so with none (random rotations) HRM3D::plan never returns a result; an arena smaller than the robot is undefined behaviour.", "quantifier": "all arenas, robots, obstacle lists, requested parameters, bands and lines", "why_tests_cant": "relates the count to every obstacle list and every position between the lines", "anchors": ["src/test/util/ParsePlanningSettings.cpp: defineParameters", "include/hrm/test/util/ParsePlanningSettings.h: computeObstacleMinSize", "src/planners/HRM2D.cpp: sweepLineProcess", "src/planners/HRM3D.cpp: sampleSO3"]}
{"id": "C89", "title": "Positions inside the boundary polygon are blocked", "statement": "In exact arithmetic, a position strictly to the left of every edge of a boundary polygon lies strictly inside the interval recorded for the sweep line through it (the first two crossings that the line/polygon intersection returns), unless that line passes through a vertex. For a round robot of radius A and a round obstacle of radius a sampled with 3 to 3,000,000 points, every centre position nearer to the obstacle's centre than (a+A) cos(3.1415926/(n-1)) is blocked: what is left free overlaps by at most (a+A)(1 - cos(...)).", "quantifier": "all polygons, positions and sweep lines missing the vertices; all radii, centres, headings and sample counts", "why_tests_cant": "quantifies over every position of a continuum and every polygon", "anchors": ["src/geometry/LineIntersection.cpp: intersectHorizontalLinePolygon2D", "src/geometry/SuperEllipse.cpp: getMinkSum2D", "src/datastructure/FreeSpace2D.cpp: computeIntersectionInterval"]}
{"id": "C90", "title": "Blocked positions are collisions", "statement": "In exact arithmetic, wherever a sweep line crosses the sampled boundary of obstacle plus robot, at every position between any two of its crossings the robot's ellipse has a point in common with the obstacle. This holds for round and for elongated obstacles with exponent below 2, although the returned points are not the exact boundary for elongated ones. For two discs the centres are at most the sum of the radii apart.", "quantifier": "all semi-axes, exponents below 2, headings, centres, sample counts, sweep lines (through vertices too) and positions", "why_tests_cant": "quantifies over a continuum of shapes and positions; needs convexity of the sum", "anchors": ["src/geometry/SuperEllipse.cpp: getMinkSum2D", "src/geometry/LineIntersection.cpp: intersectHorizontalLinePolygon2D"]}
{"id": "C91", "title": "Motions without a reported crossing stay outside", "statement": "With an exact solver, a straight motion that starts strictly outside a convex boundary polygon (walked counter-clockwise), whose line meets no vertex and for which the segment/polygon test reports nothing, has no point strictly inside the polygon. For two discs: starting with the centres farther apart than the sum of the radii, all of the motion keeps them at least (a+A) cos(3.1415926/(n-1)) apart. From a start on the boundary the claim fails: a chord of the square through its middle is not reported.", "quantifier": "all convex polygons, motions, solvers meeting the contract, radii and sample counts", "why_tests_cant": "quantifies over all polygons and motions", "anchors": ["src/geometry/LineIntersection.cpp: isIntersectSegPolygon2D", "src/geometry/SuperEllipse.cpp: getMinkSum2D", "src/planners/HRM2D.cpp: isSameSliceTransitionFree"]}
{"id": "C92", "title": "Sweep-line crossings in floating point", "statement": "As computed in binary64, intersectHorizontalLinePolygon2D hits exactly the edges that exact arithmetic hits, in the same order, and each returned abscissa differs from the exact crossing by at most 2^-49 times the largest abscissa of the polygon (plus 2^-1073): every returned value is near a point of a non-horizontal edge at that height and every such point is found, also when the line passes through vertices or along edges. Hence a position inside the polygon by more than this error is strictly between the first two returned crossings, unless the line passes through a vertex.", "quantifier": "all polygons with finite coordinates of magnitude at most 2^1021, all heights of that magnitude, all positions", "why_tests_cant": "quantifies over all double inputs; rounding of seven operations per edge", "anchors": ["src/geometry/LineIntersection.cpp: intersectHorizontalLinePolygon2D"]}
{"id": "C93", "title": "Roadmap vertices are outside the obstacle polygons", "statement": "After any sequence of planning calls of the planar planner, no vertex of the roadmap, and no waypoint of a returned path other than start and goal, is inside a boundary polygon of an obstacle by more than the rounding error of the crossings (2^-49 of the polygon's largest abscissa), whatever the polygons are, provided the sweep line through it meets no vertex of the polygon and coordinates are of moderate magnitude. Without that proviso it fails: with a sweep line through two vertices of a diamond-shaped boundary a returned path goes through the middle of the obstacle.", "quantifier": "all scenes, boundary polygons, limits, numbers of lines and slices, and histories of planning calls", "why_tests_cant": "quantifies over all scenes and all histories; rounding included", "anchors": ["src/planners/HRM2D.cpp: sweepLineProcess, generateVertices", "src/datastructure/FreeSpace2D.cpp: computeIntersectionInterval", "src/geometry/LineIntersection.cpp: intersectHorizontalLinePolygon2D"]}
{"id": "C94", "title": "A round robot keeps its distance from round obstacles", "statement": "After any sequence of planning calls of the planar planner, at every vertex of the roadmap and every waypoint of a returned path other than start and goal, the robot's centre is at least (r+A)cos(3.1415926/(num-1)) - 3.5e8*eps - (rounding error of the crossings) from the centre of every round obstacle whose boundary polygon is within eps per coordinate of what getMinkSum2D computes in exact arithmetic for an obstacle of radius r with num samples and a robot of radius A; unless the sweep line through the vertex passes through a vertex of that polygon. Here r+A is the sum of the radii, so the only loss is the sampling of the circle and arithmetic error.", "quantifier": "all scenes, discs, positions, headings of the obstacle, numbers of samples from 3 to 3000000, accuracies eps, limits, numbers of lines and slices, and histories of planning calls", "why_tests_cant": "quantifies over all scenes and all histories, with rounding; end-to-end from shape parameters to the roadmap", "anchors": ["src/planners/HRM2D.cpp: sweepLineProcess, generateVertices", "src/geometry/SuperEllipse.cpp: getMinkSum2D", "src/datastructure/FreeSpace2D.cpp: computeIntersectionInterval", "src/geometry/LineIntersection.cpp: intersectHorizontalLinePolygon2D"]}
{"id": "C95", "title": "What a spatial sweep line blocks is a collision", "statement": "Take any convex superquadric obstacle in any pose and any ellipsoidal robot in any orientation, the boundary points getMinkSum3D returns for them (exact arithmetic), any mesh through these points and any vertical sweep line. Every position on the line between two recorded hits is within 4e-12 times the extent of the boundary, per coordinate, of a robot centre at which robot and obstacle share a point. For two balls: the centres are at most (a+A)(1+1.6e-11) apart. So the sweep does not discard free space because of the sampling, the mesh or the hit tolerance.", "quantifier": "all convex superquadrics, ellipsoids, poses, resolutions, face lists, vertical lines and positions between recorded hits", "why_tests_cant": "ranges over continuous shapes, orientations and lines; a test sees finitely many", "anchors": ["src/geometry/SuperQuadrics.cpp: getMinkSum3D", "src/geometry/LineIntersection.cpp: intersectVerticalLineMesh3D", "src/datastructure/FreeSpace3D.cpp: computeIntersectionInterval"]}
{"id": "C96", "title": "The vertical line through the centre of a ball is blocked (refuted)", "statement": "One expects the vertical sweep line through the centre of an obstacle to be blocked from the entry to the exit of the forbidden region. It is not: the sampled latitudes overrun the poles by one millionth, so the first two triangles of the library's own mesh both contain the polar axis; for every upright ball and round robot, at every resolution from 4 to 1500000, the two recorded hits are the same point, at least 2/5 of the sum of the radii below the centre. No other point of that line is recorded as blocked. A concrete consequence for the whole spatial planner in double precision: plan returns a path with a waypoint at which the robot overlaps the obstacle and a leg through the obstacle's centre, with a boundary mesh that is accurate to 1e-7.", "quantifier": "all ball obstacles turned about the vertical, all round robots, all resolutions from 4 to 1500000", "why_tests_cant": "the defect appears on one line only, at every resolution; the claim ranges over all shapes and resolutions", "anchors": ["src/geometry/SuperQuadrics.cpp: SuperQuadrics, getMinkSum3D", "src/geometry/MeshGenerator.cpp: getMeshFromParamSurface", "src/geometry/LineIntersection.cpp: intersectVerticalLineMesh3D", "src/planners/HRM3D.cpp: sweepLineProcess"]}
{"id": "C97", "title": "Stored results", "statement": "The files written for a roadmap and a solution hold them completely and in order: one line per vertex (waypoint) whose comma-separated fields are its entries, followed by an empty field; one line of two fields per edge with exactly the vertex numbers; the path's vertex numbers on one line; one line x, y, low, mid, high per free segment of the slice the planner's query returned (storing it is always defined). A finite entry is printed as a decimal number within five millionths of it, and exactly if it has at most six significant digits; two different doubles may print the same. Reading such a file with parse2DCsvFile gives as many vectors of as many entries in the same order, each within 5.1 millionths (stof rounds to float). The boundary-point files of storeRoutines hold, obstacles first, one blank-separated line per coordinate row of each body with the points' printed coordinates in order; they are not comma separated, and parse2DCsvFile gets at most one number per row from them (refuted as files to read back).", "quantifier": "all roadmaps, paths, free-segment lists and doubles; all stof functions that round to the nearest float", "why_tests_cant": "ranges over all doubles (rounding, carries into a new digit, fixed and exponent notation) and all paths", "anchors": ["src/test/util/DisplayPlanningData.cpp: storeGraphInfo, storePathInfo", "include/hrm/test/util/DisplayPlanningData-inl.h: storeRoutines", "src/util/Parse2dCsvFile.cpp: parse2DCsvFile"]}
{"id": "C98", "title": "Roadmaps stay next to the workspace", "statement": "After any planning calls of a planar planner, every roadmap vertex is a triple whose x is a number exceeding the workspace's limits and the arena boundaries' abscissae by at most 2^-49 of the largest one (plus 2^-1073), whose y is finite and between the workspace's limits (above the upper one by at most a few roundings) and whose heading is the one the robot shows in one of the slices. The vertices of the spatial planners likewise have x and y between the limits (above by at most a few roundings), a height that is a number no larger than the limits and the arena's crossings, and the orientation (and joints) of a sample. So in a workspace of size up to 2^299 no number of the search can overflow, and the first planning call is exact: it reports no path only if no start neighbour is connected to a goal neighbour in the roadmap, and a reported path is a roadmap walk, nearly shortest between its ends.", "quantifier": "all workspaces with finite limits, arena and obstacle boundaries, sweep-line counts from 2 to 2^53, slice counts, samples, histories of planning calls, sort functions and heaps", "why_tests_cant": "rounding errors over all doubles and all histories; reachability in every roadmap", "anchors": ["src/planners/HRM2D.cpp: sweepLineProcess, generateVertices", "src/planners/HRM3D.cpp: sweepLineProcess, generateVertices", "include/hrm/datastructure/FreeSpace-inl.h: computeFreeSegment", "include/hrm/planners/HighwayRoadMap-inl.h: plan, search"]}
{"id": "C99", "title": "Enclosing ellipses and ellipsoids are the smallest ones", "statement": "With any correct singular value decomposition, no ellipse (whatever its axes, heading and centre) that encloses both arguments of getMVCE2D has a smaller area than the returned one, and no ellipsoid that encloses both arguments of getMVCE3D has a smaller volume; where the returned one encloses them (C46) it is therefore a minimum-volume enclosing ellipse/ellipsoid as the name says. It is the only one: an enclosing ellipse (ellipsoid) of no larger area (volume) is the same set of points, wherever it is centred, so that neither the area (volume) nor the region depends on the order of the two arguments.", "quantifier": "all positive semi-axes, headings and unit quaternions of both arguments, all correct decompositions, and all competing ellipses/ellipsoids", "why_tests_cant": "minimality is over a continuum of competitors for every pair of arguments", "anchors": ["src/geometry/TightFitEllipsoid.cpp: getMVCE2D, getMVCE3D"]}
{"id": "C100", "title": "Articulated robots stand where their URDF description puts them", "statement": "For a well-formed robot description, getTransform returns the rigid motion that takes a point of a link to where the joints on the way from the root put it (each joint turns about, or slides along, its normalised axis by its joint value and then is placed at its origin in the parent; joints of other types do not move); joint values are numbered depth first, each movable joint having its own; joints not on the way to the link do not affect it, and the root stays put. robotTF with a description puts the base at the given pose and the k-th added body, in its given pose, on the link called body k.", "quantifier": "all trees of links, joint types, origins, axes and names, all joint values, base poses and histories of adding and moving bodies", "why_tests_cant": "over all trees and all real joint values", "anchors": ["src/util/ParseURDF.cpp: getTransform", "src/util/external/kdl_parser/src/kdl_parser/kdl_parser.cpp: addChildrenToTree, toKdl", "src/datastructure/MultiBodyTree3D.cpp: robotTF"]}
{"id": "C101", "title": "The articulated validity check is exact", "statement": "For robots and obstacles that are ellipsoids, and given an exact collision library, the sampling planner for articulated robots accepts a state (base position and orientation, joint values) exactly if no point of the robot in that configuration, as its description places it, is inside an obstacle.", "quantifier": "all descriptions, robots, obstacle sets, base poses and joint values", "why_tests_cant": "over all real configurations and a continuum of points of the robot", "anchors": ["src/planners/ompl_interface/OMPL3DArticulated.cpp: transformRobot", "src/datastructure/MultiBodyTree3D.cpp: robotTF", "src/util/ParseURDF.cpp: getTransform"]}
{"id": "C102", "title": "Unusable robot descriptions are reported (refuted)", "statement": "A robot description that cannot be used is reported to the caller. (Refuted: with an unreadable file, or a number of joint values that does not match, robotTF silently places the robot as a rigid one; a body without a link of its name moves with the base; and a description without movable joints is undefined behaviour, as the value of joint 0 is read from an empty array.)", "quantifier": "all descriptions, robots, poses and joint values", "why_tests_cant": "the failure is silent and holds for every robot and pose", "anchors": ["src/util/ParseURDF.cpp: ParseURDF, getTransform", "src/datastructure/MultiBodyTree3D.cpp: robotTF"]}
{"id": "C103", "title": "Lines meet convex obstacles where they enter and leave them", "statement": "For an obstacle whose mesh is the closed surface of a convex solid, and a line in general position to it (away from edges and not grazing a face), the intersection functions return nothing if the line misses the solid, and otherwise exactly two points: where it enters and where it leaves the solid. Hence the spatial point test says 'clear' exactly for points inside no obstacle, and the straight motion test between two points outside all obstacles says 'free' exactly if no point of the segment is in an obstacle. In the plane likewise, for convex polygons and lines that meet no vertex: the point test says 'clear' exactly for the points strictly inside no polygon, and a straight motion starting strictly outside is reported blocked exactly if it has a point strictly inside.", "quantifier": "all meshes (any number of vertices and triangles, either orientation) bounding a convex solid, all lines, points and segments in general position, any number of obstacles; exact arithmetic", "why_tests_cant": "over a continuum of solids, lines and points", "anchors": ["src/geometry/LineIntersection.cpp: intersectVerticalLineMesh3D, intersectLineMesh3D, intersectLineTriangle3D, intersectHorizontalLinePolygon2D, isIntersectSegPolygon2D", "src/planners/HRM3D.cpp: isPtInCFree, isSameSliceTransitionFree", "src/planners/HRM2D.cpp: isPtInCFree, isSameSliceTransitionFree"]}
{"id": "C104", "title": "Preparing a scene, at every stopping point", "statement": "A call of parsePlanningConfig that returns normally has replaced every scene file it could open (arena, obstacles, robot, end points), and only those, by one line per data line of the resource file, in order: bodies with twelve numbers get the quaternion of their axis and angle, other bodies are copied, ends keep position, quaternion and the robot's joints. Loading the prepared scene gives the shapes, robot and end points of the resource files with every number within 5.1 millionths; in space a body given by axis and angle then has that orientation, up to 3/10000 of a point's largest coordinate, if the computed quaternion is within a millionth. If it throws, at any point and for any contents, the scene files of the steps before are complete, that of the step itself is untouched or holds the rows before the offending one and at most the beginning of one more line, and the later ones are untouched: the scene on disk is then a mixture of the new and the previous one (refuted: all or nothing). An empty line among the bodies throws. A scene file that cannot be written is not reported (refuted). With a dimension other than \"2D\" and \"3D\" a call that returns has emptied the end point file of that dimension, whatever starts and goals the resource holds.", "quantifier": "all file systems and contents, object, environment and robot names, numbers read, quaternion conversions, sets of files that can be written, points where an exception ends the call", "why_tests_cant": "ranges over every file content and every row at which the conversion can stop", "anchors": ["src/test/util/ParsePlanningSettings.cpp: parsePlanningConfig, parseGeometricModel, parseStartGoalConfig, loadVectorGeometry", "include/hrm/test/util/ParsePlanningSettings.h: PlannerSetting::loadEnvironment"]}
{"id": "C105", "title": "A planning setting shows what the last effective calls gave it", "statement": "After any history of setArena, setObstacle, setEndPoints and loadEnvironment (exceptions caught) without undefined behaviour, getArena, getObstacle and getEndPoints each return what the last call that reached that part gave, or an empty list. loadEnvironment reads arena, obstacles and end points in this order; it returns normally exactly if all three files can be used, throws invalid_argument or out_of_range exactly if the first file it cannot use cannot be opened or has a number out of range, and is undefined exactly if that file has too short a line. A loading that returns leaves no trace of earlier calls or failures, and every shape it loaded has the setting's number of points. A loading that throws does not keep the scene (refuted): with an unreadable obstacle file the arena is the new one and obstacles and end points are the old ones.", "quantifier": "every sequence of calls of any length, every content of the files at each loading, every behaviour of stof on the fields, planar and spatial settings", "why_tests_cant": "The state depends on an unbounded history of calls and on the contents of the files at every loading, including the point at which each loading fails.", "anchors": ["include/hrm/test/util/ParsePlanningSettings.h: PlannerSetting, loadEnvironment, setArena, setObstacle, setEndPoints, getArena, getObstacle, getEndPoints", "src/test/util/ParsePlanningSettings.cpp: loadVectorGeometry", "src/util/Parse2dCsvFile.cpp: parse2DCsvFile"]}
{"id": "C106", "title": "Planning parameters after several scenes are those of the last usable one, but the line count is that of the first", "statement": "Calling defineParameters repeatedly with the same PlannerParameter, exceptions caught: boundaryLimits are always those of the last call whose scene has limits at all (an arena and enough numbers), also if that call threw because there are no obstacles to compute a count from; in space numSlice goes with them. If no scene had limits the parameters are as given. In the plane numSlice and numLineX never change. A count of lines once computed or given is never replaced, so the count does not always fit the scene last given (refuted).", "quantifier": "every sequence of calls of any length, every robot base, arena, obstacle list and parameters at each call, planar and spatial", "why_tests_cant": "The result depends on an unbounded history of calls and on which of them ended with an exception before or after the limits were stored.", "anchors": ["src/test/util/ParsePlanningSettings.cpp: defineParameters", "include/hrm/test/util/ParsePlanningSettings.h: computeObstacleMinSize", "include/hrm/planners/PlanningRequest.h: PlannerParameter"]}
