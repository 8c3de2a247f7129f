# Formal model of ChirikjianLab/hrm in Rocq (Coq 8.16.1)

## Layout

* `rocq/theories/Base`   – outcomes (value / exception / undefined behaviour), binary64.
* `rocq/theories/Model`  – executable model of the C++ code, function by function, each
  definition citing `/repo` file:lines and its simplifications. No proofs.
* `rocq/theories/Proofs` – lemmas.
* `rocq/theories/Props`  – only the property theorems (each `exact some_lemma`), the
  non-vacuity `Example`s beside them and `Print Assumptions`.

## Modelling choices

* **double** is IEEE binary64 with NaN, infinities, signed zeros (Flocq
  `BinarySingleNaN`, round-to-nearest-even) wherever comparisons, NaN, division by zero
  or rounding matter (intervals, sweep lines, planners, interpolation). One NaN value.
* **Exact arithmetic** (stdlib `R`) is used for geometric identities (superellipse,
  Minkowski sums, enclosing ellipses, polynomial coefficients, rigid transforms, convexity).
  This is a stated idealisation: rounding error of these formulas is not covered.
* **Undefined behaviour** (`operator[]` out of range, size_t underflow as loop bound,
  indeterminate reads) and **exceptions** are distinct outcomes (`Base/Outcome.v`).
* **std::sort** is any function returning a sorted permutation (all tie orders).
* **Oracles** (function arguments, all theorems quantify over them): libm/Eigen numerical kernels that are not
  modelled (SVD, eigenvalues, QR of a singular system), Boost A* (predecessor map contract), clock, random numbers.

## Plan per property

| id | model | how proved |
|----|-------|-----------|
| C01-C03 | `Interval::{unions,intersects}` over binary64, any conforming sort | induction on the sorted list, order embedding of non-NaN doubles in R |
| C04-C06 | `Interval::complements` | induction; witnesses by computation |
| C07-C10 | `FreeSpaceComputator::{computeSweepLineFreeSegment,computeFreeSegment,enhanceFreeSegment}` | from C01-C04; Flocq rounding monotonicity for midpoints; loop invariant for enhancement |
| C11,C12,C14 | `computeIntersectionInterval` 2D/3D | case analysis, witnesses |
| C13,C15 | polygon intersection, in R (ideal) and binary64 | linear algebra, witnesses |
| C16,C17 | line/triangle, line/mesh in R | algebra, induction on faces; the range filter decided exactly (extrema are attained), harmless for directions with coordinates zero or at least 1e-6 |
| C18-C27 | planner state machine (graph, index tables, free space, params), collision tests as oracle | invariants by induction over the loops and over operation histories |
| C28-C30 | `search`, `getSolutionPath` with A* oracle contract | induction on predecessor chain |
| C31,C32,C35 | nearest neighbour / nearest slice loops | argmin invariants, witnesses |
| C33,C34 | KC planner and `isPtInPoly` | induction; all random streams |
| C36 | static dispatch of `getInterpolatedSolutionPath` | direct |
| C37-C39 | interpolation, distance (binary64 and R) | Flocq / real algebra, Cauchy-Schwarz |
| C40 | MultiBodyTree2D/3D (`MMultiBody`) in R, call histories | matrix algebra, induction over the history |
| C41, C72 | getOriginShape of SuperEllipse/SuperQuadrics (`MGeom`) in R | powers of sine and cosine; bounds on PI |
| C73 | getMinkSum2D/3D (`MGeom`) in R | strict convexity: a point between two contacts has smaller support in every direction (`PInscribed`) |
| C74 | the planar and the spatial planner with the free-space tables (`MHRM2D`, `MHRM3D`, `MFreeSpace`) in binary64 | invariant over slices and calls: tables hold the crossings, midpoints of free segments are clear (`PClear`, `PClear3`) |
| C75, C76 | concrete planar scenes run through `MHRM2D` | kernel computation of the run, intermediate value theorem for the absence of a motion (`PClearX`) |
| C42, C43 | getMinkSum3D/2D in R | superquadric gradients as support planes (Hoelder), ellipsoid support function; penetration near the contact for the wrong planar normal |
| C46, C71 | getMVCE2D/3D, getTFE2D/3D (`MTightFit`) in R, SVD as parameter with contract `svd2_ok`/`svd3_ok` | matrix algebra; the contracts are met by explicit decompositions (`eig_svd`, `eigen_svd`: spectral theorem 2x2, 3x3) |
| C70 | minkSum of a robot of several bodies in R | C40 + C42/C43; a translation that produces overlap |
| C44, C45 | separation test in R, eigenvalue list as oracle with contract (exact spectrum) | polynomial identities; semidefinite pencil argument; for disjoint bodies the continuous family (1-t)A + tB has a member whose determinant has the sign at infinity reversed (intermediate value theorem), which with the signs at 0 and at infinity (in space: at the middle relative eigenvalue, by simultaneous diagonalization, `PSeparationM`) leaves exactly two negative roots; witnesses |
| C47 | mesh indices in nat | arithmetic |
| C48 | CSV reader on characters, number parser as oracle | induction on the text |
| C49 | planner state with per-slice ranges kept between calls | invariant over reachable states |
| C50 | headings, neighbour query, NaN | invariant: all headings NaN, so no neighbours |
| C51 | boost A* (colors, queue, relax) over binary64, heap abstracted | invariants (tree of predecessors, closed set), measure on distances |
| C52-C55 | HRM3D/ProbHRM3D state (graph, ranges, configurations, tables) over binary64; meshes, quaternion distance, slerp, bridge boundary as environment functions | invariant over reachable states (`inv3`), induction over sweep lines and slices |
| C56, C57 | replan and refinement on kept tables | invariant + size arguments; clock as arbitrary list of time-out answers |
| C58 | aliasing: FreeSpace copies the robot | invariant, witness |
| C59, C60, C61 | uninitialised quaternion, dof mismatch, line counts | outcome analysis, invariant |
| C62 | straight-motion and point tests over exact reals (`XR`) | geometry of line/triangle hits, uniqueness; binary64 witnesses |
| C63, C64 | ProbHRM3D interpolation, free-segment query | case analysis on conversions, witness by computation |
| C65-C67 | search on the spatial roadmap, neighbours, stale path | reuse of C28-C31 and C51 |
| C68, C69 | motion tests in binary64 | induction over obstacles, bodies, poses; NaN propagation |
| C77-C79, C83 | the OMPL wrapper as a state machine over setup/plan calls (`MOMPL`), OMPL's answers as arbitrary replies | invariant over call histories, inductive specification of what each call contributes |
| C80-C82 | collision objects and state checks (`MCollision`) in R, FCL as parameter with contract `exact_fcl`, CGAL's triangulation as parameter | C40, C44 (exact up to the root tolerance: `PCollisionZ`); openness of the interior against a surface mesh; points of the superellipse between samples |
| C84 | boost A* with the Euclidean heuristic (`MAStar`, `MSearch`), edge weights and sums in binary64 | exact lengths in `SShort`; error bound of the computed distance and of its sums, heuristic consistent up to that error, invariant on settled vertices (`PAStar`, `PShort`, `PShortP`) |
| C85-C88 | loaders, conversion and parameter selection (`MSettings`): loaders generic in the number type over the CSV reader of C48, conversion and parameters in exact reals | row-by-row equivalence (`PSettings`, `PSettingsX`); half-angle identities; ellipse inside the circle of its larger semi-axis; integer part of quotients (`PSettingsP`); consequences for the planners through `MHRM2D`, `MHRM3D` |
| C89-C91 | `MLine2D` at exact reals, fed with the polygon of `mink2` (`MGeom`) | crossings of a closed walk around an inner point alternate (`PCover`); a ray from an inner point meets an edge in front (`PCoverS`); chords of the sampled circle by half-angle identities, including the tiny closing edge left by 3.1415926 < pi (`PCoverX`, `PCoverD`); convexity of the sum for C90 |
| C92-C93 | `MLine2D` at binary64 (`F64`), compared with the same code at exact reals; the planar planner of `MHRM2D` | rounding-error analysis of the seven operations of an edge with Flocq (`PHline`: filters and parameter range are exact, Sterbenz-free relative errors for the subtractions); C89 transfers the exact result, C74 supplies what the planner ensures about its computed crossings (`PHlineX`) |
| C94 | as C93, with `mink2` (`MGeom`) at exact reals for the boundary; how far the doubles handed to the planner are from it is the parameter eps (libm is not modelled) | every edge of the sampled circle leaves a margin (`PDiscPlan.edge_margin`), which survives a perturbation of the vertices by eps; the factor 3.5e8 is the reciprocal of the length of the edge closing the polygon, because PI is 3.1415926 in the code; then C93 |
| C95 | `mink3` (`MGeom`) and `vertical_line_mesh` (`MLine3D`) at exact reals, any face list | each boundary point is a centre of contact (C42), contact centres are closed under mixtures for convex bodies (`PCover3.meet_mix3`), a hit is within the tolerance of a point of its triangle (`hit_near`) |
| C96 | the same with the faces of `mesh_faces` (`MMesh`) | refutation: the samples of row 0 lie beyond the pole, so the triangles (0, n, n+1) and (1, n+1, n+2) contain the axis and meet it in one point (`PAxis.fan_hit`); C17 then gives the recorded hits |
| C97 | `MStore`: the characters written, with operator<< for doubles (printf's %g, six digits, ties to even) and for size_t digit by digit; `MCsv` for reading | value of a digit list is additive over concatenation, trailing zeros do not change a fraction; the six digits are the nearest integer to the scaled value (`PStore.six_digits_spec`); no written field has a comma, newline or '#', so splitting inverts writing; the free-segment tables have equal row lengths (`PStoreS.compute_shape`) |
| C98 | the planar planner over any history (`MHRM2D`), with the workspace and the arena polygons bounded as in C92/C93; the spatial planners (`MHRM3D`), with the arena's crossings bounded | a free point is within an arena pair (C07), whose ends are limits or computed crossings, which C92 places next to the polygon; error analysis of the sweep heights (`PRange.sweep_range`); so the roadmap is `tame` and C28, C65, C84 apply without that hypothesis |
| C99 | getMVCE2D, getMVCE3D over the reals with an abstract correct SVD (`MTightFit`), as in C46 | the images of the principal directions lie on the boundary of one of the arguments, which bounds the diagonal of a competitor's matrix in the code's frame; Hadamard's inequality bounds its determinant (`PTight2.mvce2_matrix`, `PTight3.mvce3_matrix`); a competitor centred elsewhere encloses no less when moved to the origin (`PMin`); uniqueness (`PMinU`): an off-centre competitor leaves room to shrink, and the mean of two different positive forms of the same determinant encloses both arguments with a larger determinant |
| C100 | ParseURDF, kdl_parser's addChildrenToTree and toKdl, the KDL classes they use (joints, segments, tree, recursive forward kinematics, quaternion extraction), robotTF with a file (`MUrdf`) | induction over the tree: what addSegment leaves in the map for every link (`PUrdf.add_children_spec`), then over the chain of joints (`fk_chain`); Rodrigues' matrix is the quaternion's rotation and commutes with a change of frame; `SUrdf` says where a point goes without matrices or the map |
| C101 | the above with isSeparated (`MCollision`) | C100 composed with C80 |
| C102 | the error paths of the same functions | refuted: the frame keeps its initial value, for every input |
| C103 | intersectLineTriangle3D, intersectVerticalLineMesh3D, intersectLineMesh3D (`MLine3D`), the point and straight motion tests (`MHRM3D`), and their planar counterparts (`MLine2D`, `MHRM2D`), at exact reals | the solid on the line is a system of linear inequalities; its solution set is an interval whose ends are tight for a face (`PSolid.chord`); closedness puts a face there, disjointness allows only one, so the face loop collects exactly two points; early stop and bounding-box rejection lose none |
| C104 | `MPrepare`: parsePlanningConfig as four conversions on a map from names to texts, with what each loop has written when an exception ends it (C++17 order of `<<`), files that cannot be opened for writing, and the quaternion conversion in binary64 as a parameter | induction over the steps with the outputs distinct from each other and from the inputs; a row is converted or ends the loop with an unfinished line; read back through C48 and C97's printed numbers; composed with the loaders of C85; the pose of a spatial body by composing the quaternion's error, the printed digits' error and the bound of each rotation entry |
| C105 | `MSetting`: PlannerSetting as an object with an exception or undefined behaviour leaving the state reached; histories of calls with exceptions caught | the loader of each file has exactly three outcomes (given, unreadable, too short a line); four cases of one loading; induction over the history for the last writer of each part; agreement with C85's loaders |
| C106 | `MParams`: defineParameters as a procedure on the parameters that an exception leaves as they then are; histories of calls with exceptions caught | one call stores the limits exactly if the scene has some (equivalence with the specification); induction over the history; agreement with C87/C88's functions; the counts by exact division |

## Trusted base

* Coq 8.16.1's kernel (`coqchk` re-checks the compiled files); no axiom, `Admitted`, functor or
  switched-off check of our own.
* Axioms of the standard library, exactly those listed below per theorem by `Print Assumptions`:
  `ClassicalDedekindReals.sig_forall_dec`, `ClassicalDedekindReals.sig_not_dec` (construction
  of the reals), `FunctionalExtensionality.functional_extensionality_dep`,
  `Classical_Prop.classic`. Flocq (binary64) adds none.
* The reading of the C++ text into the models: nothing links them mechanically. Every
  definition cites the lines it stands for.

### Modelled

| code | model | arithmetic |
|------|-------|------------|
| src/datastructure/Interval.cpp | MInterval | binary64 |
| FreeSpace-inl.h, FreeSpace2D.cpp, FreeSpace3D.cpp (sweep lines, free segments, enhancement, queries) | MFreeSpace, MHRM2D, MHRM3D | binary64 |
| src/geometry/LineIntersection.cpp | MLine2D, MLine3D | binary64 and exact reals (same text) |
| src/geometry/PointInPoly.cpp | MPointInPoly | binary64 and exact reals |
| src/geometry/MeshGenerator.cpp: getMeshFromParamSurface | MMesh | indices |
| src/geometry/SuperEllipse.cpp, SuperQuadrics.cpp, src/util/ExponentialFunction.cpp | MGeom | exact reals |
| src/geometry/TightFitEllipsoid.cpp | MTightFit | exact reals |
| MultiBodyTree.h, MultiBodyTree2D.cpp, MultiBodyTree3D.cpp | MMultiBody | exact reals |
| ParseURDF.cpp, kdl_parser.cpp, the URDF overloads of MultiBodyTree3D::robotTF | MUrdf | exact reals |
| HighwayRoadMap-inl.h, HRM2D.cpp, HRM2DKC.cpp | MGraph, MHRM2D, MSearch | binary64 |
| HRM3D.cpp, ProbHRM3D.cpp | MHRM3D | binary64 |
| boost::astar_search as called | MAStar | binary64, heap = any least element |
| DistanceMetric.cpp, InterpolateSE3.cpp | MDistance, MInterp | binary64 and exact reals |
| EllipsoidSeparation.cpp | MSeparation | exact reals |
| OMPLInterface-inl.h, OMPL2D.cpp, OMPL3D.cpp, OMPL3DArticulated.cpp | MOMPL | binary64 |
| src/test/util/ParsePlanningSettings.cpp, ParsePlanningSettings.h | MSettings, MSetting, MParams, MPrepare | loaders: binary64 as read; parameters and conversion: exact reals, six-digit output as a relative error (C97 proves that error of the printed text); MPrepare: binary64 and characters, files named by strings (no links) |
| EllipsoidSQCollisionFCL.cpp, MeshGenerator.cpp (getMesh, getMeshFromSQ), isStateValid and setCollisionObject of the OMPL wrappers, HRM3DAblation-inl.h | MCollision | exact reals |
| Parse2dCsvFile.cpp | MCsv | characters |
| src/test/util/DisplayPlanningData.cpp (storeGraphInfo, storePathInfo), DisplayPlanningData-inl.h and GTestUtils-inl.h (the files of storeRoutines; Eigen's operator<< for a matrix from its sources) | MStore | characters; doubles printed from their exact binary64 value |

### Not modelled

* Rounding in the files whose arithmetic column says exact reals.
* Eigen's kernels (JacobiSVD, EigenSolver, slerp's libm calls, QR) are parameters: theorems quantify
  over all functions meeting the stated contract; boost's d-ary heap and `std::sort` likewise.
* In the planners' models the Minkowski boundaries, meshes and the bridge boundary are an
  environment function of the state they are computed from (`MHRM2D`, `MHRM3D` say which).
* FCL, CGAL and OMPL themselves. FCL's `collide` and CGAL's triangulation are parameters; a call of an
  OMPL planner is answered by an arbitrary reply (solved or not, time, paths, planner data). Assumed of
  OMPL: `setBounds` throws unless low < high in each dimension, `enforceBounds` clamps positions
  (above the high bound first, then below the low one), rotations are wrapped by functions of their
  value (parameters), and a space information without validity checker takes every state for valid.
* URDF files are modelled from the tree of links urdfdom delivers (`MUrdf`); the XML text and urdfdom
  (which orders child links by joint name) are not. The classes of orocos KDL that ParseURDF and
  kdl_parser call are not part of the repository and are modelled from KDL's sources. In theorems
  other than C100-C102 joint transforms are arbitrary rigid motions.
* GeomUtils.cpp (dead code), the display functions and the rest of the test utilities, wall-clock values (the time-out test is an arbitrary stream of
  answers), memory exhaustion.

### Print Assumptions, per theorem

<!-- assumptions -->
* **no axioms (closed under the global context)** (42 theorems): C12_defined_iff_no_single_hit, C03_intersects_empty_list, C04_complements_no_inner, C04_complements_no_outer, C06_only_first_outer, C13_empty_polygon_undefined, C15_short_pose_throws, C17_at_most_two, C35_never_a_later_slice, C35_first_slice_with_itself, C30_solution_path, C85_planar_file, C85_spatial_file, C85_short_line_undefined, C85_empty_line_undefined, C85_missing_file_throws, C85_planar_scene, C85_spatial_scene, C85_planar_robot, C85_spatial_robot, C34_short_point_is_undefined, C37_undefined_iff_end_shorter, C38_shape, C38_short_pose_is_undefined, C38_zero_steps_count, C39_undefined_iff_second_shorter, C47_each_cell_exactly_two_triangles, C47_zero_is_undefined, C47_consistent_orientation_refuted, C48_one_record_per_data_line, C48_out_of_range_escapes, C48_missing_file_throws, C105_planar_endings, C105_spatial_endings, C105_planar_last_writer, C105_spatial_last_writer, C105_success_forgets, C105_failure_keeps_the_scene_refuted, C105_spatial_failure_keeps_the_scene_refuted, C105_points_per_shape, C105_spatial_points_per_shape, C104_other_dimension_no_ends
* **`ClassicalDedekindReals.sig_forall_dec`** (2 theorems): C100_every_link, C100_joint_numbers
* **`ClassicalDedekindReals.sig_forall_dec`, `FunctionalExtensionality.functional_extensionality_dep`** (23 theorems): C40_composition_moves_points, C44_coefficients_are_the_characteristic_polynomial, C45_companion_matrix, C45_zero_is_not_a_root_refuted, C87_limits, C87_spatial_limits, C87_limits_can_be_empty, C88_planar_count, C88_thin_obstacles_between_lines, C88_taller_bands_are_swept, C88_small_arena_no_lines, C88_no_obstacles, C88_spatial_counts, C88_spatial_small_arena_undefined, C97_edges, C97_path_ids, C106_planar_history, C106_spatial_history, C106_returns_as_once, C106_failed_count_keeps_limits, C106_failed_spatial_count_keeps_limits, C106_no_limits_nothing_changes, C106_count_fits_the_scene_refuted
* **`ClassicalDedekindReals.sig_forall_dec`, `ClassicalDedekindReals.sig_not_dec`, `FunctionalExtensionality.functional_extensionality_dep`** (57 theorems): C89_inside_is_blocked, C14_convex_cross_section, C91_free_motion_stays_outside, C91_from_boundary_refuted, C40_spatial_placement, C13_hits_exact, C13_outside_range_empty, C15_crossing_iff, C15_segment_inside_not_reported_refuted, C15_through_vertices_not_reported_refuted, C15_crossing_reported, C16_hit_iff, C16_rejects_degenerate, C17_line_first_two, C17_vertical_first_two, C17_bad_face_undefined, C62_free_segment_crosses_nothing, C62_blocked_segment_meets_a_face, C62_defined, C62_clear_point_not_inside, C62_blocked_point_between_faces, C62_planar_clear_point, C62_planar_blocked_point, C44_separated_ellipses_are_disjoint, C44_separated_ellipsoids_are_disjoint, C44_disjoint_circles_and_spheres, C44_disjoint_ellipses_iff_two_negative_roots, C44_disjoint_ellipsoids_iff_two_negative_roots, C44_disjoint_ellipses_reported, C44_disjoint_ellipsoids_reported, C44_separated_but_overlapping_refuted, C44_disjoint_always_reported_refuted, C45_roots_are_padded_with_zeros, C86_turned_about_the_axis, C86_six_digits, C86_zero_axis_not_turned, C86_other_rows_copied, C86_extra_column_not_converted, C86_empty_row_throws, C86_one_row_per_row, C86_converting_twice_refuted, C86_goals_converted, C86_planar_goals, C86_other_dimension_writes_nothing, C103_planar_point_test, C103_planar_straight_motion, C100_chain, C100_root, C100_other_joints, C102_reported_refuted, C102_no_joints, C34_true_iff_coordinates_in_unit_interval, C34_is_membership_in_simplices, C37_straight_equally_spaced, C39_is_a_metric, C17_line_exactly, C104_spatial_orientation
* **`ClassicalDedekindReals.sig_forall_dec`, `ClassicalDedekindReals.sig_not_dec`, `Classical_Prop.classic`, `FunctionalExtensionality.functional_extensionality_dep`** (262 theorems): C74_planar_vertices_are_clear, C74_planar_waypoints_are_clear, C74_spatial_vertices_are_clear, C75_start_is_clear_refuted, C75_first_leg_is_clear_refuted, C76_path_exists_refuted, C80_planar_valid_sound, C80_planar_valid_exact, C80_spatial_valid_exact, C80_ablation_exact, C81_arena_checked_refuted, C81_robot_shape_checked_refuted, C82_inside_detected_refuted, C82_planar_samples_detected, C82_planar_overlap_detected_refuted, C82_planar_clear_accepted_refuted, C82_within_tolerance_as_ellipse, C82_within_tolerance_as_ellipsoid, C89_disc_core_is_blocked, C90_blocked_means_contact, C90_disc_blocked_is_near, C91_disc_motion_clearance, C95_blocked_means_contact, C95_ball_blocked_is_near, C96_line_through_centre_not_blocked_refuted, C96_returned_path_through_ball_refuted, C94_vertices_keep_distance, C94_waypoints_keep_distance, C07_sweep_line_exact, C07_never_inside_an_obstacle, C07_no_arena_no_segment, C07_from_intersections, C08_midpoint_inside, C08_no_overflow_below_2p1022, C08_overflow_guard_refuted, C09_enhancement_sound, C09_free_segments_are_free, C10_zero_lines_undefined, C10_some_line_defined, C11_arena_never_shrinks, C11_points_outside_arena_reported_free_refuted, C40_planar_placement, C40_placing_overrides, C40_histories_run, C41_planar_boundary, C41_spatial_boundary, C41_one_sample, C42_returned_points_are_contacts, C43_round_obstacle, C43_elongated_obstacle_refuted, C46_planar_up_to_the_sign, C46_planar_upwards, C46_planar_angle_refuted, C46_spatial_rotation, C46_spatial_orientation_refuted, C70_planar_poses_touch, C70_spatial_poses_touch, C70_spatial_moved_base_refuted, C71_planar_range, C71_planar_one_step, C71_spatial_range, C72_boundary_is_open, C92_crossings_nearly_exact, C92_same_edges_as_exact, C92_deep_inside_is_blocked, C93_vertices_outside_obstacles, C93_waypoints_outside_obstacles, C93_vertex_heights_refuted, C01_unions_exact, C02_unions_normal_form, C02_unions_canonical, C02_unions_order_independent, C03_intersects_exact, C04_complements_exact, C05_overlapping_inner_refuted, C05_complements_never_loses_points, C06_other_outer_dropped_refuted, C14_chord, C14_vertex_hit_refuted, C16_thin_triangle_refuted, C17_shared_vertex_refuted, C17_tilted_line_refuted, C99_planar_no_smaller, C99_planar_smallest, C99_planar_order, C99_spatial_no_smaller, C99_spatial_smallest, C99_planar_unique, C99_planar_same, C99_spatial_unique, C99_spatial_same, C68_planar_straight, C68_planar_between_slices, C68_spatial_straight, C68_spatial_straight_poses, C68_spatial_between_slices, C68_one_point_undefined, C69_no_points_nothing_tested, C69_one_point_nothing_tested, C69_passing_through_refuted, C62_segment_inside_is_free, C62_first_two_hits_only, C77_plan_result, C77_short_vectors, C77_true_means_solved_refuted, C78_paths_accumulate, C78_planar_interpolated_empty, C78_path_length, C78_latest_path_refuted, C79_planar_readout, C79_first_readout_refuted, C79_spatial_readout, C83_query_pulled, C83_joints_pulled, C83_given_start_refuted, C83_unchecked_before_setup, C83_checked_after_setup, C18_roadmap_well_formed, C18_slice_keeps_well_formed, C18_linking_keeps_well_formed, C19_slice_vertices, C19_vertices_of_slices, C20_ranges_partition, C20_one_slice_each, C21_slice_edges, C21_every_edge_was_checked, C22_bridge_is_idle, C22_no_bridge_vertices, C23_cross_edges, C23_one_slice_no_edges, C23_greedy_misses_pairs_refuted, C24_two_slices_never_return, C24_two_slices_throw, C25_one_slice_nan, C25_one_line_nan, C25_headings, C25_heights, C26_refine_never_returns, C26_returning_plans_did_not_refine, C26_refine_throws, C27_one_boundary_for_all_slices, C27_boundary_at_heading_refuted, C33_kc_never_connects, C33_kc_plan_edges, C33_kc_links_through_middle_vertex, C49_plan_at_most_once, C50_one_slice_unsolved, C35_linked_to_nearest_earlier, C36_spatial_path_not_interpolated, C52_roadmap_well_formed, C52_slice_keeps_well_formed, C53_ranges_partition, C53_slices_recorded, C53_slices_sampled, C53_sampling_order, C54_vertices_of_slices, C54_vertices_first_call, C54_vertices_any_history, C55_slice_edges, C55_every_edge_was_checked, C55_last_slice_links, C56_plan_at_most_once, C57_refine_never_returns, C57_returning_plans_did_not_refine, C57_prob_fewer_than_sixty, C58_one_boundary_for_all_slices, C58_boundary_at_orientation_refuted, C59_prob_never_returns, C59_needs_a_closer_sample, C60_articulated_hrm3d_throws, C60_rigid_prob_never_returns, C61_lines_required, C61_one_line_is_nan, C61_grid_spacing, C63_blocks, C63_zero_cost_is_undefined, C63_one_vertex_never_returns, C63_poses_are_numbers_refuted, C64_fresh_query_ignores_boundary, C64_query_needs_meshes, C64_query_segments, C65_hrm3d_path, C65_hrm3d_unsolved, C65_prob_path, C66_neighbours, C66_neighbours_exactly, C66_nearest_vertex, C66_vertex_has_orientation_refuted, C67_replan_reports_a_path, C67_stale_search_costs_nothing, C98_vertices_in_range, C98_roadmap_is_tame, C98_first_plan_exact, C98_headings_plain, C98_spatial_vertices_in_range, C98_spatial_roadmap_is_tame, C98_spatial_first_plan_exact, C98_prob_first_path_exact, C28_path_is_a_roadmap_walk, C28_unsolved_means_disconnected, C28_search, C29_reported_cost, C29_defined_or_out_of_range, C29_cost_is_path_length_refuted, C29_undefined_plan, C30_returned_path, C36_planar_path_not_interpolated, C31_neighbours_bounded, C31_neighbours_exact, C31_defined_on_nonempty, C31_empty_roadmap_undefined, C32_nearest_in_slice, C32_belongs_to_slice_refuted, C51_astar_terminates, C51_astar_sound, C51_astar_complete, C85_columns_by_field_refuted, C87_base_stays_in_box, C87_spatial_base_stays_in_box, C87_links_stay_in_box_refuted, C87_within_limits_in_arena_refuted, C88_no_lines_undefined, C88_random_orientations_never_plan, C41_planar_samples, C41_spatial_samples, C72_spatial_ranges_overlap, C73_planar_edges_collide, C73_planar_samples_differ, C73_spatial_triangles_collide, C84_astar_nearly_shortest, C84_search_nearly_shortest, C84_planar_path_nearly_shortest, C84_spatial_path_nearly_shortest, C84_prob_path_nearly_shortest, C84_best_neighbours_refuted, C103_vertical_hits, C103_line_hits, C103_point_test, C103_straight_motion, C97_rows_and_fields, C97_six_digits, C97_read_back, C97_segments, C97_boundary_rows, C97_boundary_read_back_refuted, C97_values_kept_refuted, C100_robot_placement, C101_articulated_valid_exact, C37_zero_steps_is_nan, C37_first_is_start_binary64, C37_last_is_end_binary64_refuted, C38_slerp_facts, C39_symmetric_binary64, C48_columns_keep_their_position_refuted, C17_steep_line_loses_nothing, C104_every_stopping_point, C104_converts, C104_planar_scene, C104_spatial_scene, C104_failure_keeps_the_scene_refuted, C104_unwritten_reported_refuted, C104_empty_line_throws
<!-- /assumptions -->
