# Formal model of hguo/ftk in Rocq (Coq 8.16.1)

All Coq sources are in `rocq/theories` (logical name `Verif`). Each area has

* a model file (`X.v`): executable Gallina definitions, each citing the file and lines of `/repo` it models;
* a small specification (`XSpec.v`): the vocabulary of the theorem statements, independent of the model's helpers;
* proof files (`XProofs*.v`) with the supporting lemmas;
* the property theorems in `PropX.v`, and beside them `Example`s showing that concrete non-trivial cases meet the
  hypotheses.

`Audit.v` runs `Print Assumptions` on every property theorem.

Where the full English property is false of the code, the file has a theorem `..._refuted` (a witness, or better a whole
class of inputs on which it fails), plus the strongest true statement, named `..._partial`, and the property has the
status `partial` in `MANIFEST.json`. The status `proved` means that the English statement, for all inputs the code's
documentation admits, is a theorem about the model; preconditions are written as hypotheses and discussed in the note.

## Trusted base

1. Coq 8.16.1's kernel (and `coqc`, `coqchk`). No kernel check is switched off, there are no axioms of our own, parameters,
   `Admitted`, functors or module types in this development, and no plugins.
2. `Print Assumptions` (see `Audit.v`): every property theorem up to C76 reports `Closed under the global context`. The
   theorems about the numeric functions over the real numbers (C77 and the later ones that use `R`) depend on the axioms
   of the standard library's real numbers, and on nothing else: `ClassicalDedekindReals.sig_forall_dec`,
   `ClassicalDedekindReals.sig_not_dec` and `FunctionalExtensionality.functional_extensionality_dep` (and, for theorems
   with trigonometric functions or roots, `Classical_Prop.classic` where the library's analysis uses it). (A listing of the
   axioms of all *loaded* libraries also shows the seven constants of `Coq.ssr.ssrunder`; they come with the standard
   library's ssreflect and no theorem here depends on them.)
3. That the model says what the C++ says. The model is written by hand from the text of `/repo`; nothing has been
   extracted or executed against the C++ program. Each definition cites the lines it models, and the simplifications are
   in its comment or in the header of its file. The general ones:
   * C++ integers are `Z` (or `nat` for lengths/indices), unbounded unless the property is about overflow; where the
     machine width matters it is written into the model (`mod 2^64`, or an explicit check that is `UB` when it fails).
   * Floating-point numbers are exact (`Z`, `Q`, `R` or an abstract ordered type). Rounding is modelled only where a theorem
     says so (a rounding function as a parameter, e.g. C49, C57). NaN and infinities are not modelled.
   * `std::set`/`std::map`/`std::multimap` are sorted lists of their entries (`Base.v`, `FeatureCurveSet.v`), so iteration
     order is the real one; `std::unordered_map` is a list in an arbitrary order.
   * Undefined behaviour, a thrown exception and `fatal()` are the outcome `UB`; running out of the loop bound is
     `OutOfFuel`. Neither is ever a default value. A theorem of the form `exists r, f x = Ok r /\ ...` hence includes
     "terminates, no undefined behaviour". Allocation failure is not modelled.
   * Concurrency: an interleaving is a list of atomic steps, one per lock-protected section or atomic instruction;
     theorems quantify over all interleavings. Weak memory is not modelled.
   * MPI: collective calls are functions of the tuple of the ranks' arguments and buffers with the byte layout of the
     standard (`Mpi.v`, `Serial.v`); messages are not lost. Crashes of ranks are not modelled.
   * Library algorithms with several allowed outcomes (`std::nth_element`, hash orders) are relations or parameters.

## What is modelled

| model | code (include/ftk/...) | modelled | not modelled | properties | proof method |
|---|---|---|---|---|---|
| UnionFind.v, Forest.v | basic/simple_union_find.hh, basic/union_find.hh | all members | - | C01, C02 | rank-free forest invariant; refinement to the equivalence closure by induction over histories |
| Duf.v | basic/duf.hh | find, unite, get_sets; threads as programs over critical sections | sync, print | C03, C04 | parent <= child invariant; all interleavings by invariant, a lost union by an explicit schedule |
| Lattice.v | mesh/lattice.hh, mesh/lattice_partitioner.hh | to_integer/from_integer, partition, prime factors, ghosts | unlimited lattices' printing | C05-C09 | mixed radix by induction over dimensions; tiling invariant over the queue of cuts |
| NdArray.v | ndarray.hh, ndarray/ndarray_base.hh | reshape, index, at, slice, slice_time, stack, concat, transpose, min_max, diy serialization | file formats (VTK, NetCDF, HDF5, ADIOS2), CUDA | C10-C15 | induction over dimensions; codec lemmas |
| RegularMesh.v, MeshEnum.v, MeshIndex.v, MeshLevels.v, MeshSides.v, MeshCofaces.v | mesh/simplicial_regular_mesh.hh | unit simplices, element ids, element_for, sides, side_of | get_simplex (geometry), work-index variants | C16-C21 | chains characterised by induction on n and k; double counting of cofaces |
| SoS.v, SoSEps.v, SoSExact.v, SoSPerm.v, SoSZero.v, SoSCross.v | numeric/sign_det.hh, numeric/critical_point_test.hh | sign_det2/3/4, positive1-3, robust_point_in_simplex1-3, robust_critical_point_in_simplex1-3 | robust_point_in_polygon2, half lines | C22-C27 | perturbation polynomials and sign lemmas; chirotope algebra |
| Graph.v, GraphCurves.v | algorithms/cca.hh, cca_bfs.hh, bfs.hh, ccl.hh, geometry/cc2curves.hh, tracking_graph label tracking | all algorithms | - | C28-C33 | reachability, loop invariants |
| HK.v | algorithms/hoshen_kopelman.hh | all | - | C34 | union-find invariant over the scan order; overrun for a whole class of inputs |
| Dijkstra.v | algorithms/dijkstra.hh | all | - | C35 | loop invariant, partial correctness + termination |
| Interval.v | numeric/basic_interval.hh, numeric/disjoint_intervals.hh | all set operations | printing | C36, C37, C58 | pointwise set semantics |
| Rational.v | numeric/rational_number.hh, numeric/fixed_point.hh, gcd.hh | all arithmetic | - | C38, C39 | cross-multiplication in Z |
| TrackingGraph.v | tracking_graph/tracking_graph.hh, event.hh | add_node/add_edge, relabel, detect_events, type | drawing | C40-C42 | via C28 |
| ContourTree.v | basic/contour_tree.hh | add_node/add_arc, reduce_node, reduce | printing | C43, C59 | invariant over histories |
| Parallel.v | object.hh, utils/async_ptr.hh | parallel_for, async_ptr | CUDA | C44, C45 | residue classes; interleaving semantics |
| Serial.v, Mpi.v | utils/serialization.hh, gather.hh, all2all.hh, redistribution.hh, scatter.hh, bcast.hh, diy serialization of containers | all | MPI transport itself | C46-C48, C60, C61 | codec laws, prefix sums |
| Kd.v | basic/kd.hh | build, find_nearest, find_leaf | find_nearest_nonrecursive (does not compile) | C49, C62, C63 | induction over the tree, nth_element as a relation |
| FeatureCurve.v | features/feature_curve.hh, feature_point.hh | all members but convert_to_geo, derive_velocity, json | those | C50-C55, C64, C65 | list induction |
| FeatureCurveSet.v | features/feature_curve_set.hh | add, filter, split_all, intercept, to_list/from_list, to_vtp/from_vtp | to_geo, text output, stubs | C56, C57, C66 | sorted multimap invariant; list induction |
| CpTracker.v | filters/critical_point_tracker.hh, critical_point_tracker_regular.hh, critical_point_tracker_2d_regular.hh, critical_point_tracker_3d_regular.hh, regular_tracker.hh | push, update_timestep, advance_timestep, check_simplex, scaling factor, online and offline tracing, finalize, slicing | GMP and accelerator code, non-robust detection, the floating-point position/type/scalar of a point (an arbitrary function), scalar-field derivation, text and vtk output, int64_t overflow of determinants | C67-C73 | SoSInside.v: the robust test is containment of the perturbed zero; CpTrackerProofs.v/CpTrackerRun.v: invariant over the history of pushes and rounds; CpCells.v: 0 or 2 faces per cell; CpTraces.v/CpCurves.v: curves; CpOnline.v: invariant of the growing trajectories; CpRanks.v: the ranks' points partition those of one rank |
| CcTracker.v | filters/connected_component_tracker.hh, filters/threshold_tracker.hh | push_labeled_data_snapshot, push_scalar_field_snapshot, advance_timestep, update_timestep, finalize | writing | C74, C75 | C34 for the labels; induction over the frames; C40/C41 for labels and events |
| StreamingFilter.v | filters/streaming_filter.hh | push, get, finish | int overflow; scalar frame types (uninitialised sum); no callback | C76 | closed form of the state after m pushes; induction over the frames left |
| Numeric.v | numeric/det.hh, adjugate.hh, matrix_inverse.hh, matrix_multiplication.hh, transpose.hh, linear_solver.hh, characteristic_polynomial.hh, linear_interpolation.hh, inverse_linear_interpolation_solver.hh, gradient.hh | every function of these files that compiles, formula by formula, over the real numbers | rounding; functions that do not compile; solve_linear_real1 | C77-C81 | polynomial identities (ring), field, normal equations, uniqueness by determinants |
| NumericRoots.v | numeric/linear_solver1.hh, quadratic_solver.hh, cubic_solver.hh, eigen_solver2.hh, eigen_solver3.hh, critical_point_type.hh, vector_normalization.hh | real and complex roots, maps of multiplicities, arrays with unset elements and overruns, eigenvalues, eigenvectors, types | rounding, quartic solver, generalized eigenvectors | C82-C87 | factorisations (Cardano, trigonometric), discriminant of a symmetric matrix as a sum of squares, definiteness by Cayley-Hamilton |
| Stencil.v | ndarray/grad.hh, ndarray/conv.hh | every function of the two files on the ndarray model: reads and writes through strides, size_t wrap-around, int loop bounds, accesses outside the buffer as UB | rounding; jacobian2DPL (has no return statement); exp is that of the standard library | C88-C91 | loop nests as assignment lists, exactness on quadratics with derivable_pt_lim, finite sums |
| Polynomial.v | numeric/polynomial.hh, rational_function.hh | every function that compiles; arrays with bounds | rounding, aliasing of input and output, polynomial_long_division (a stub), the second scalar overload (does not compile) | C92, C93 | coefficient loops as assignment lists; finite sums and derivable_pt_lim; l'Hospital by Cauchy's mean value theorem, induction over the order of the zero |
| Inequality.v | numeric/linear_inequality_solver.hh, cubic_inequality_solver.hh, basic_interval<double>, disjoint_intervals<double>::join | both solvers, intervals over the reals with two infinities, unset array elements | rounding; rational and quantized inequality solvers | C94 | C83 for the roots; constant sign between roots by the intermediate value theorem; joins of increasing intervals by induction |
| UMesh2.v | mesh/simplicial_unstructured_2d_mesh.hh | build_triangles, build_edges, n, find_*, get_*, sides, side_of | reading files, locators, gradients, smoothing, kernels, partition over processes | C95 | loop invariants over the three passes (triangles, edges by insertion order, arrays); a double count for the bound of the last loop |
| UExt2.v | mesh/simplicial_unstructured_extruded_2d_mesh.hh, mesh/simplicial_unstructured_extruded_2d_mesh_implicit.hh | n, n_ordinal, n_interval, is_ordinal, flat_vertex_*, get_simplex, simplex_type, sides, side_of, find_simplex, get_vertex_edge_vertex, element_for_ordinal/interval (visited ids), get_triangle_chi | partial meshes (part = true), coordinates, the explicit implementation, threads of element_for | C96-C98 | normal form id = position + type*n + t*n(d); staircase simplices characterised by lower and upper parts; faces by cases of types |
| UMesh3.v | mesh/simplicial_unstructured_3d_mesh.hh | initialize/build: sorting, build of triangles and edges, vertex lists; n, get_*, find_simplex, side_of, get_vertex_edge_vertex | reading files, the constructor from vectors (never builds), coordinates | C99 | maps from faces to the sets of their cofaces: the key set and the sets characterised by induction over the list, two levels; numbering by position in the map |
| Interp.v | numeric/linear_interpolation.hh, bilinear_interpolation.hh, trilinear_interpolation.hh, quadratic_interpolation.hh, inverse_bilinear_interpolation_solver.hh | every function | rounding; NaN and infinity as failing tests; inverse trilinear | C80, C100, C101 | functions reproduced from their values: sums swapped, ring/field; eigenproblem of the inverse; existence by products of barycentric coordinates |
| Motion.v | numeric/quaternion.hh, rk4.hh; cross_product.hh, vector_dot_product.hh, vector_norm.hh, vector_normalization.hh (the parts called) | every function of quaternion.hh and rk4.hh | rounding; NaN as None; aliasing other than the calls made | C102, C103 | Rodrigues' formula from the quaternion product; dot products and volumes by ring; sums |
| NumericMisc.v | numeric/fmod.hh, rad.hh, clamp.hh, mpas.hh, wachspress_interpolation.hh, matrix_norm.hh, cond.hh, matrix_decomposition.hh, symmetric_matrix.hh, critical_point_degree.hh | every function that compiles | rounding; NaN inputs; matrix_2norm_real2x2 (calls an undeclared function) | C104-C107 | fan triangulation and sign change for convex cells; loop invariant of the bisection; a telescoping sum for Wachspress weights |
| UExt3.v | mesh/simplicial_unstructured_extruded_3d_mesh.hh | n, n_ordinal, n_interval, is_ordinal, mod, simplex_type, get_simplex, sides, side_of, the ids visited by element_for_* | overflow; the order in which threads visit ids; get_coords (covered by the 2D one in substance); double rounding of the floor | C108-C111 | cells as (steep?, type, base simplex, layer); inclusion of cells decided on indices (UExt3Cells), finite tables for each type (UExt3Faces, UExt3Sides, UExt3Cofaces) |
| ParallelVector.v | numeric/parallel_vector_solver2.hh, parallel_vector_solver3.hh; cross_product.hh, transpose.hh (the parts called) | verify_pv_*, solve_pv_s1v2, solve_pv_s2v3, solve_pv_s1v3, characteristic_polynomials_pv_*, solve_pv_inequalities_s2v2 for a constant field | rounding; NaN and infinity as failing tests; solve_pv_inequalities_quantized_* and the functions that call them; printing | C112-C117 | v = lambda w as a zero of v - lambda w, reduced to inverse interpolation (C80), roots (C82-C84), inequalities (C94); Lagrange's identity for least squares |
| QuadLocator.v | mesh/aabb.hh, bvh2d.hh, point_locator_2d_quad.hh, src/filters/locator2.cuh, simplicial_unstructured_2d_mesh::eval | AABB, quad_node::subdivide, update_bounds, initialize, locate_point_nonrecursive, inside_triangle, to_bvh, bvh2_locate_point, _tri, _coherent, eval for scalars and vectors | rounding (exact reals); locate_point_recursive (not called); printing; CUDA kernels calling the search | C118-C121 | halving of boxes against the least distance of two centroids; invariants of the depth-first search; the flat array encodes the tree |
| FeatureMesh.v | features/feature_surface.hh, features/feature_volume.hh, features/feature_line.hh | relabel, reorient, slice_time, to_curve_set, slice, discard | files, VTK, triangulate (empty); negative indices; the distance of two points and < on double are arbitrary functions in discard | C122-C126 | C02 for relabel; invariant of the breadth-first search; C30 for curves; invariant on parents and children in discard |
| ContourTracker.v | filters/contour_tracker.hh, contour_tracker_regular.hh, contour_tracker_2d_regular.hh, contour_tracker_3d_regular.hh | check_simplex, update_timestep, advance_timestep, related cells, build_surfaces, build_isovolume | the gradient values (only whether their reads are in bounds), VTK, accelerators, relabelling at finalize (C122), gathering over MPI; doubles are exact rationals | C127-C130, C149 | the simulation-of-simplicity test on an edge reduced to signs; scan as a map insertion per task, NoDup tasks; faces and cofaces by inclusion of vertex lists; tetrahedron patterns (1-3, 2-2) by cases and a count over the cells around a face; all 243 patterns of five vertices (above, below, no value) computed on pairs of indices and carried over to point numbers by an injective map (ContourVolume.v) |
| Xgc3.v | mesh/simplicial_xgc_3d_mesh.hh | n, np, transform, get_simplex, find_simplex, sides, side_of, get_vertex_edge_vertex(_nextnodes), is_poloidal, is_actual_poloidal, get_poloidal, interpolate for a vertex | coordinates, how interpolants are computed, read and written, smoothing, VTK; overflow; values are exact rationals | C131-C134 | an inclusion modulo np layers lifts to one of the extruded mesh when np >= 3; C96-C98 |
| XgcBlob.v | filters/xgc_blob_threshold_tracker.hh, filters/xgc_tracker.hh | push_field_data_snapshot, advance_timestep, update_timestep, get_sliced, derive_threshold (squared) | smoothing, roi meshes, VTK; concurrent execution of the loops (any sequential order is covered); rounding | C135-C136 | the calls of unite are exactly the links of the specification; C03 on the history of calls, with the finds of get_sliced appended; algebra for the variance |
| ParticleTracer.v | filters/particle_tracer.hh, filters/particle_tracer_regular.hh, ndarray.hh (mlerp), src/cli/ftk.cpp (the callback of the particle tracer) | mlerp with one component dimension, eval_vt, update_timestep, advance_timestep, setters, initialize_particles, the CLI loop; RK4 from Motion.v | rounding, MPI, threads (each trajectory is traced by one call), spherical integrators, VTK output, particle_tracer_mpas_ocean; uninitialised velocities are None | C137-C141 | the 2^n corners by induction on n (high bit = last axis); a relation for j accepted steps and an exact description of the loop; RK4 is Simpson's rule on uniform fields |
| Tdgl.v | filters/tdgl_vortex_tracker_3d_regular.hh | simplex_values, magnetic_potential, line_integral, check_simplex, build_vortex_surfaces for one cell | the scan of the mesh (TdglTracker.v), gathering, VTK, accelerators, file readers; float is exact real | C142-C145 | unique representative modulo 2 pi (C104); the sum of the windings of the faces of a tetrahedron; cross products as sines; cyclic triples of a tournament on five vertices by enumeration of all 1024, lifted to all real inputs |
| TriTracker.v, CritLine.v | filters/critical_line_tracker.hh, filters/critical_line_tracker_3d_regular.hh (and the scan of filters/tdgl_vortex_tracker_3d_regular.hh) | push, update_timestep, advance_timestep, reset, check_simplex, simplex_vectors, related cells, build_vortex_surfaces | accelerators, gathering over MPI, VTK output, build_vortex_lines, concurrent execution of the mutex-protected bodies (any order is covered); rounding | C146-C147 | the scan by rounds as for critical points; the test of one triangle is C40 (SoS); counting the pierced triangles of a pentachoron: they are the faces that each of its five tetrahedra has 0 or 2 of |
| TdglTracker.v | filters/tdgl_vortex_tracker.hh, filters/tdgl_vortex_tracker_3d_regular.hh | push, update_timestep, advance_timestep, check_simplex with simplex_values reading the four arrays, related cells | accelerators, gathering over MPI, VTK output, concurrent execution of the mutex-protected bodies (any order is covered); rounding | C148, C150 | the generic scan of TriRun.v instantiated; two corners with the same values give the same winding |

## What is not modelled

* Everything under `external/` (json, cxxopts, concurrentqueue, diy) except the serialization functions of diy that FTK's
  containers use; python bindings, CUDA/SYCL/HIP kernels, VTK filters and the command-line programs.
* File formats and I/O libraries (NetCDF, HDF5, ADIOS2, VTK readers/writers).
* Numerical quality: rounding errors, convergence of iterative solvers, `Eigen` decompositions.
* Code that does not compile when instantiated (`shared_union_find`, `find_nearest_nonrecursive`, `tracking_graph::has_node`)
  and empty stubs (`linear_graph_tracer.hh`).
* The legacy distributed union-find (`basic/legacy`), which nothing includes.

Properties are stated about these functions' results and effects; a caller's use of them (the command-line programs, the
trackers not listed above) is not part of the model.

## Plan and result per property

| id | property | status | theorems | remarks |
|---|---|---|---|---|
| C01 | simple_union_find is exactly the equivalence closure of the unite calls | proved | `C01_simple_union_find_is_closure` |  |
| C02 | union_find::get_sets partitions the added elements by the unite history | proved | `C02_union_find_get_sets` |  |
| C03 | duf (sequential) returns the smallest element of a class as its root | proved | `C03_duf_sequential` |  |
| C04 | duf keeps every union under concurrent unite calls | partial | `C04_duf_concurrent_safety_partial`, `C04_duf_concurrent_exact_if_no_interference_partial`, `C04_duf_concurrent_union_refuted` | The full claim is false of the code (C04_duf_concurrent_union_refuted: unite(1,3) // unite(2,3) loses a union). Proved: safety for every interleaving, and exactness for every schedule in which no write hits a key that stopped being a root. The model treats each mutex-protected section as one atomic step. |
| C05 | lattice linear index is a bijection onto 0..n-1 | proved | `C05_lattice_index_bijection` |  |
| C06 | lattice_partitioner cores tile the domain | proved | `C06_cores_tile_the_domain` |  |
| C07 | partition yields exactly np blocks or none | proved | `C07_np_blocks_or_none`, `C07_np_blocks_when_room` |  |
| C08 | ghost extents are the clamped dilation of the core | proved | `C08_extent_is_clamped_dilation`, `C08_extents_of_a_request` |  |
| C09 | partition terminates for every request | partial | `C09_partition_terminates_partial`, `C09_partition_terminates_refuted` | The full claim is false of the code (C09_partition_terminates_refuted: given={2,2,0}, np=8 on a domain with unlimited time loops forever). Proved: termination for one entry per cuttable dimension. |
| C10 | ndarray element addressing is injective and in bounds | proved | `C10_addressing` |  |
| C11 | ndarray slice copies exactly the requested box | proved | `C11_slice` |  |
| C12 | stack and slice_time are inverse; concat interleaves components | proved | `C12_stack_then_slice_time`, `C12_slice_time_then_stack`, `C12_concat` |  |
| C13 | get_transpose reverses the axes and is an involution | proved | `C13_transpose` |  |
| C14 | ndarray::min_max returns the exact minimum and maximum | partial | `C14_min_max_integers_partial`, `C14_min_max_floats_partial`, `C14_min_max_refuted` | The full claim is false of the code for floating types (C14_min_max_refuted: numeric_limits<float>::min() is the smallest positive float, so all-negative arrays report a wrong maximum). Proved: exact for integer types, and for floats as soon as one element is >= FLT_MIN. NaN and infinities are not modelled. |
| C15 | ndarray binary serialization round-trips | proved | `C15_ndarray_roundtrip`, `C15_ndarray_string_roundtrip` |  |
| C16 | regular mesh element ids round-trip | proved | `C16_element_ids`, `C16_element_ids_distinct` |  |
| C17 | element_for visits every element of the scope exactly once | proved | `C17_element_for`, `C17_scopes` | Under the C44 side conditions (at least one thread, ntasks + nthreads <= 2^31). |
| C18 | unit simplex types are the reduced Kuhn chains | proved | `C18_unit_types` |  |
| C19 | sides of a mesh element are its k+1 faces | proved | `C19_sides` |  |
| C20 | side_of is the inverse relation of sides | proved | `C20_side_of` |  |
| C21 | every codimension-one element is shared by exactly two top elements | proved | `C21_facets` |  |
| C22 | SoS determinant sign is never zero and refines the exact sign | proved | `C22_sign_det2`, `C22_sign_det3`, `C22_sign_det4` |  |
| C23 | SoS determinant sign equals the sign of a symbolically perturbed determinant | proved | `C23_perturbed_det2`, `C23_perturbed_det3`, `C23_perturbed_det4`, `C23_positive` |  |
| C24 | positive1/2/3 are antisymmetric orientation predicates | proved | `C24_bubble_sort`, `C24_antisymmetric`, `C24_parity` |  |
| C25 | robust_critical_point_in_simplex does not depend on vertex order | proved | `C25_vertex_order` |  |
| C26 | a robust zero crosses 0 or 2 facets of every cell | proved | `C26_facets` |  |
| C27 | the robust test agrees with exact geometry in general position | proved | `C27_segment`, `C27_triangle`, `C27_tetrahedron`, `C27_any_triangle`, `C27_any_tetrahedron` |  |
| C28 | extract_connected_components returns the connected components | proved | `C28_components`, `C28_components_nodes` |  |
| C29 | bfs visits every reachable node exactly once | proved | `C29_bfs`, `C29_bfs_disqualified_seed` |  |
| C30 | extract_connected_components_bfs agrees with the union-find version | proved | `C30_bfs_components`, `C30_same_components` |  |
| C31 | labelConnectedComponents labels components 1..N | proved | `C31_labels` | For labels cleared by the caller (the function itself does not clear them; see C31_stale_labels). IdType = size_t. |
| C32 | component tracking reports exactly the overlapping pairs | partial | `C32_overlap`, `C32_labels_partial`, `C32_labels_refuted` | track_connected_components: proved in full. The label variant is false of the code (C32_labels_refuted: equal labels are dropped); proved: exactly the co-occurring pairs of different non-zero labels. |
| C33 | connected_component_to_linear_components yields curves covering all ordinary nodes | proved | `C33_linear_components`, `C33_is_loop` | Neighbour function symmetric; special nodes (more than two neighbours) are dropped by the code, as the property says. |
| C34 | hoshen_kopelman_2d labels 4-connected clusters without leaving its buffers | partial | `C34_labels_partial`, `C34_overrun`, `C34_within_buffer_refuted`, `C34_not_2d` | The full claim is false of the code (C34_within_buffer_refuted: the label buffer has nelem/2 entries and is overrun, e.g. by two diagonal cells of a 2x2 array). Proved: an exact characterisation - correct labelling whenever fewer than nelem/2 cells start a provisional label, and a buffer overrun in every other case (C34_overrun). Labels are unbounded naturals. |
| C35 | dijkstra returns a shortest path | partial | `C35_shortest_partial`, `C35_unreachable_undefined`, `C35_unreachable_refuted` | Proved for every reachable destination (T as Z; path lengths below numeric_limits<T>::max()). The claim about unreachable destinations is false of the code: the uninitialised u is read (C35_unreachable_undefined; C35_unreachable_refuted for class node types). |
| C36 | closed disjoint_intervals implement set union and intersection | proved | `C36_contains`, `C36_disjoint`, `C36_overlaps`, `C36_empty` | Values as an order-isomorphic copy of T in Z (the functions use only comparisons); points strictly between the two extreme values. Reversed constructor arguments: see C58. |
| C37 | open endpoints survive joins | partial | `C37_intersect_exact`, `C37_joins_partial`, `C37_join_flags_refuted`, `C37_join_dropped_refuted`, `C37_intersect_dropped_refuted`, `C37_lower_inf`, `C37_lower_inf_refuted` | False of the code in three ways (join keeps the wrong open flag; an interval with the same lower end as a stored one is dropped; set_lower_inf on integers writes the upper end). Proved: single intersections are exact for all end kinds; after any sequence of joins of non-degenerate intervals contains() is right except possibly at ends. |
| C38 | rational arithmetic denotes rational arithmetic | partial | `C38_gcd`, `C38_arithmetic_partial`, `C38_integer_arithmetic`, `C38_less_partial`, `C38_less_int_partial`, `C38_equal_partial`, `C38_greater_int_partial`, `C38_binary_refuted`, `C38_compare_refuted`, `C38_less_diverges` | Unbounded integers (no overflow). All compound assignments proved exact for every legal operand. False of the code: binary + and - ignore the first operand (C38_binary_refuted); comparisons on results with negative denominator, which += and -= produce from reduced operands (C38_compare_refuted), and < may not terminate there (C38_less_diverges). Proved: < for positive denominators, == and > for reduced fractions. |
| C39 | fixed_point arithmetic is scaled integer arithmetic | partial | `C39_add_sub`, `C39_mul`, `C39_compare`, `C39_integers`, `C39_div_refuted` | Division is wrong in the code (C39_div_refuted). Everything else proved, with 64-bit overflow as undefined behaviour. Conversion from floating point is not modelled. |
| C40 | tracking_graph::relabel gives equal global labels exactly to simply connected nodes | partial | `C40_relabel_partial`, `C40_relabel_unbranched_partial`, `C40_relabel_refuted` | False of the code at splits and merges (C40_relabel_refuted: an edge needs degree one on only ONE linked side, so A->B, A->C all share a label). Proved: labels are 1..N, all used, and shared exactly along chains of edges that are simple on at least one side; the full claim when no edge is simple on exactly one side. Global labels unbounded; each call atomic (the class locks a mutex). |
| C41 | detect_events reports exactly the non-trivial components of each interval | partial | `C41_events_partial`, `C41_events_refuted` | Proved for histories with no edge inside one timestep, on a graph whose events were not detected before. With such an edge the claim is false (C41_events_refuted: two deaths disappear). Calling detect_events twice appends duplicates. |
| C42 | Event::type classifies by the two side counts | proved | `C42_event_type`, `C42_event_name` |  |
| C43 | contour_tree::reduce_node contracts a regular node | proved |  | For nodes with at least one arc, which is what the property is about; reduce() proved too. Nodes without arcs: C59. |
| C44 | parallel_for runs every task exactly once | partial | `C44_parallel_for_partial`, `C44_zero_threads_refuted`, `C44_overflow_refuted` | Proved for nthreads >= 1 and ntasks + nthreads <= 2^31, every interleaving. The full claim is false of the code outside that range: nthreads == 0 (which hardware_concurrency() may return) never returns (C44_zero_threads_refuted), and near INT_MAX the loop counter overflows (C44_overflow_refuted). |
| C45 | async_ptr frees its object exactly once | partial | `C45_async_ptr_safety_partial`, `C45_async_ptr_unseparated_partial`, `C45_async_ptr_double_free_refuted` | The full claim is false of the code (C45_async_ptr_double_free_refuted: the decrement and the zero test are separate accesses, so two threads can both delete). Proved: safety of every error-free interleaving, and absence of memory errors when decrement and test are not separated. |
| C46 | gather/allgather merge all ranks' maps | proved | `C46_gather_map`, `C46_gather_merger`, `C46_gather_set`, `C46_allgather_map` | MPI collectives modelled after the standard; sizes below 2^31 bytes; allgather merges into what out already holds (its own entries win), so the ranks agree when out was empty. tbb containers not modelled. |
| C47 | all2all delivers to each rank exactly what was addressed to it | partial | `C47_all2all_partial`, `C47_all2all_refuted` | False of the code for three or more ranks: the receive displacements are all zero, so EVERY such call overlaps messages (C47_all2all_refuted, for all inputs). Proved for one and two ranks. |
| C48 | redistribute groups every key on the rank chosen by its hash | proved | `C48_redistribute` | Sizes below 2^31 bytes; out initially empty; collisions on the inner key are won by the lowest rank. |
| C49 | kd-tree search returns a nearest point | proved | `C49_nearest`, `C49_nearest_rounded`, `C49_as_naive`, `C49_default_limit`, `C49_outcomes_exist`, `C49_rounding_exists` | Coordinates are rationals with an arbitrary rounding function (monotone, idempotent, rnd 0 = 0); C49_nearest is the exact case. std::nth_element is any outcome the standard allows. N <= 2^max_level covers the default limit. NaN/inf not modelled; find_nearest_nonrecursive does not compile when instantiated. |
| C50 | feature_curve split returns consistent pieces that lose no point | partial | `C50_split_partial`, `C50_split_refuted` | False for EVERY curve whose type changes (C50_split_refuted): the first point of each new type is dropped. Proved: pieces are non-empty, of constant type, in order; exact for curves of constant type. |
| C51 | adjust_time makes time monotone | proved | `C51_adjust_time`, `C51_no_change` | Times are integers (multiples of a unit); only comparisons are made. |
| C52 | unwrap removes periodic jumps | proved | `C52_unwrap`, `C52_bounds` | Exact arithmetic; an empty curve makes at() throw. |
| C53 | rotate and reorder permute a curve cyclically / by reversal only | proved | `C53_rotate`, `C53_reorder` | rotate() of an empty loop is undefined (front()). |
| C54 | smoothing makes interval point types change at most once between ordinals | proved | `C54_smooth_interval_types`, `C54_no_ordinals`, `C54_smooth_ordinal_types` | Both smooth_interval_types and smooth_ordinal_types are fully characterised. |
| C55 | discard/intercept/select keep exactly the selected points in order | proved | `C55_discard`, `C55_select`, `C55_select_order`, `C55_intercept`, `C55_statistics`, `C55_consistent_type` | intercept for curves in time order (as its comment assumes), non-empty and with a set id; statistics for values within the range of double. |
| C56 | feature_curve_set ids are fresh and filter keeps exactly the accepted curves | proved | `C56_order`, `C56_add`, `C56_add_defined`, `C56_add_overflow`, `C56_add_label`, `C56_add_all`, `C56_filter`, `C56_from_list` | multimap entries in iteration order. add at INT_MAX is undefined (C56_add_overflow). |
| C57 | feature_curve_set survives export to and import from polydata | partial | `C57_vtp_partial`, `C57_vtp_refuted_two`, `C57_vtp_refuted_point`, `C57_vtp_refuted_loop` | False for every set with two curves that start at different points, with a loop, or with a single-point curve (three refutation theorems): from_vtp ignores the point ids of the cells and the verts. Proved for exactly one non-loop curve of two or more points, up to float rounding / 32-bit ids (timestep, scalars and ordinal are not exported). |
| C58 | an interval that reports empty() contains no point | partial | `C58_empty_partial`, `C58_empty_refuted` | False for reversed closed intervals and for [v,v) (C58_empty_refuted): contains() tests the ends without testing emptiness. Proved: right at every point other than the ends. |
| C59 | contour_tree::reduce_node is safe on every node of degree at most one on each side | partial |  | False for nodes without arcs (C59_reduce_node_refuted: an arc between IdType(-1) and itself appears; C59_last_node_undefined: an empty set is dereferenced). |
| C60 | scatterv gives each rank its own element | proved | `C60_scatterv` |  |
| C61 | bcastv gives every rank the root's object | partial | `C61_bcastv_partial`, `C61_bcastv_refuted` | False for containers that are not empty on the receiving rank (C61_bcastv_refuted: entries are merged). Proved for default-constructed receivers. |
| C62 | find_leaf leads to the leaf of an input point | partial | `C62_leaf_partial`, `C62_shared_coordinate_refuted` | False when points share a coordinate (C62_shared_coordinate_refuted). Proved for points whose coordinates are not shared. |
| C63 | kd-tree search stays correct under a level limit | partial | `C63_limit_partial`, `C63_limit_refuted` | False for limits that do not suffice (C63_limit_refuted): points below truncated leaves are lost. Proved for N <= 2^max_level. |
| C64 | split_geo cuts exactly at longitude jumps | proved | `C64_split_geo` | Exact arithmetic. |
| C65 | curve assignment copies the curve | partial | `C65_assign_partial`, `C65_self_assign_refuted` | False for self-assignment, for every curve with a point (C65_self_assign_refuted): operator= clears the curve first. |
| C66 | split_all leaves only curves of one type | proved | `C66_split_all`, `C66_ids` | Pieces may lack points of the old curve: that loss is C50. |
| C67 | critical point detection is exact | proved | `C67_detection`, `C67_schedule` | Without GMP and accelerator, robust detection. Position, time, scalar, velocity and type of a point are an arbitrary function of the data in memory; determinants are exact integers; log2 in the scaling factor is exact. |
| C68 | a trajectory crosses 0 or 2 faces of every cell | partial | `C68_cell`, `C68_detected_partial`, `C68_scaling_refuted` | False when a later snapshot changes the scaling factor (C68_scaling_refuted). Proved for a factor that stays the same, on one rank without type filter. |
| C69 | trajectories are the curves of the detected points | partial | `C69_trajectories_partial`, `C69_short_loop_refuted` | False for the loop flag of trajectories with two points (C69_short_loop_refuted: loop is set iff first and last face share a cell), and, through C68, when the scaling factor changes. Proved for a factor that stays the same, on one rank without type filter. |
| C70 | streaming trajectories | partial | `C70_call`, `C70_streaming_partial`, `C70_merge_refuted`, `C70_id_refuted`, `C70_last_step_refuted` | Proved for a scaling factor that stays the same (see C68), for the points of all time steps but the last of the data, which are never traced (C70_last_step_refuted). False of the code: trajectories that meet are not merged and one is marked complete (C70_merge_refuted); appended points keep the id 0 (C70_id_refuted). |
| C71 | the type filter keeps exactly the requested types | partial | `C71_filter_partial`, `C71_3d_ignored`, `C71_3d_refuted` | Proved in 2D. False in 3D, where the filter is ignored for all data (C71_3d_ignored, C71_3d_refuted). |
| C72 | several ranks find what one rank finds | partial | `C72_ranks_partial`, `C72_whole_arrays`, `C72_partial_arrays_refuted` | Proved for ranks that are given whole arrays (C72_whole_arrays), and for partial arrays when all ranks compute the same scaling factor. False for partial arrays in general: the factor is computed from the local array only (C72_partial_arrays_refuted). |
| C73 | streaming on several ranks | partial | `C73_first_round_partial`, `C73_streaming_ranks_refuted` | Proved for the first tracing only. False afterwards: non-root ranks return before clearing their points, which are gathered and appended again (C73_streaming_ranks_refuted). |
| C74 | Connected component tracking links overlapping components | partial | `C74_components_partial`, `C74_isolated_refuted`, `C74_ahead_refuted`, `C74_advance_never_false` | False for components that overlap no other one: they are not in the graph (C74_isolated_refuted). Proved when advance_timestep() follows every push; pushing ahead links wrong time steps (C74_ahead_refuted, for all overlapping frames); while(advance_timestep()) never ends (C74_advance_never_false). |
| C75 | Threshold tracking | partial | `C75_comparison`, `C75_threshold_partial` | As C74 and C34: for frames that do not overrun the label buffer of hoshen_kopelman_2d. |
| C76 | Streaming filter delivers every smoothed frame exactly once | partial | `C76_filter_partial`, `C76_short_refuted`, `C76_empty_undefined` | Proved for streams at least as long as the kernel. False for EVERY shorter one (C76_short_refuted: frames missing), undefined for the empty one (C76_empty_undefined). Frame type: arrays with any addition and scaling; a scalar frame type leaves the sum uninitialised (not modelled). |
| C77 | Determinant, adjugate and inverse are exact | proved | `C77_determinant`, `C77_adjugate`, `C77_inverse`, `C77_inverse4` | Exact real arithmetic (no rounding). Uses the axioms of the standard library's real numbers. |
| C78 | Linear systems and least squares are solved exactly | proved | `C78_solve`, `C78_least_squares`, `C78_least_squares_columns` | Exact real arithmetic. solve_least_square4x3 with one right-hand side does not compile (an undefined function) and is not modelled. Uses the axioms of the standard library's real numbers. |
| C79 | Characteristic polynomials | proved | `C79_characteristic` | Exact real arithmetic. |
| C80 | Inverse interpolation finds the zero | partial | `C80_interpolation_edge`, `C80_interpolation_triangle`, `C80_interpolation_tetrahedron`, `C80_edge_2d_partial`, `C80_edge_2d_refuted`, `C80_triangle_3d_flag`, `C80_triangle`, `C80_tetrahedron`, `C80_edge`, `C80_triangle_3d`, `C80_integer_partial`, `C80_integer_refuted` | Exact real arithmetic, non-degenerate values. Interpolation itself is exact in all variants. integer_inverse_lerp_s1v2 is right unless both vectors are zero (C80_integer_refuted). For vectors on an edge the weight is the nearest one to a zero (C80_edge_2d_partial), and the flag may be true although the field has no zero there (C80_edge_2d_refuted). |
| C81 | Gradients and Jacobians over a simplex | partial | `C81_triangle`, `C81_triangle_jacobian`, `C81_tetrahedron_jacobian`, `C81_triangle_3d_partial`, `C81_triangle_3d_refuted` | Exact real arithmetic. gradient_3dsimplex2 divides by zero for every triangle whose second and third corner have the same third coordinate (C81_triangle_3d_refuted, due to a typo in the matrix); otherwise it is the slope without third component. gradient_3dsimplex3 does not compile. |
| C82 | Real roots with multiplicities | proved | `C82_roots` | Exact real arithmetic; pow(x, 1/3) is the real cube root, acos and cos those of the standard library. Uses the axioms of the standard library's real numbers. |
| C83 | Real roots in an array | partial | `C83_arrays_partial`, `C83_arrays_refuted` | False for EVERY quadratic without constant term: it writes x[n+1] instead of x[n], past an array of two, and leaves x[1] unset; a cubic with neither constant nor linear term reports an unset element (C83_arrays_refuted). Proved for all others (C83_arrays_partial). |
| C84 | Complex roots | proved | `C84_quadratic`, `C84_cubic` | Exact real arithmetic, complex numbers as pairs. |
| C85 | 2D critical point types | proved | `C85_vector_field`, `C85_scalar_field`, `C85_eigenvalues`, `C85_type_filter`, `C85_no_filter` | Exact real arithmetic: in floating point an exact center or degenerate type is decided by a comparison with zero of a rounded number, which is not modelled. |
| C86 | 3D critical point types | partial | `C86_eigenvalues`, `C86_scalar_field`, `C86_vector_field_refuted` | Proved for symmetric matrices. False for vector fields: every Jacobian is UNKNOWN (C86_vector_field_refuted). |
| C87 | Eigenvectors | partial | `C87_eigenvector_2d_partial`, `C87_eigenvector_3d_partial`, `C87_eigenvectors_refuted` | Proved when no eigenvector for the eigenvalue has components that add up to zero; false if those of all of them do, e.g. [[0,1],[1,0]] and -1 (C87_eigenvectors_refuted): the code looks for an eigenvector whose components add up to one and divides by zero. |
| C88 | Gradients of sampled fields | partial | `C88_gradient2Dt`, `C88_gradient3D`, `C88_gradient3Dt`, `C88_gradient2D_refuted` | Exact real arithmetic. Proved for gradient2Dt, gradient3D and gradient3Dt: exact on every field that is quadratic along the axes, 0 on the boundary. gradient2D is false for EVERY field: twice the derivative inside of the grid (C88_gradient2D_refuted). |
| C89 | Jacobians of sampled fields | partial | `C89_jacobian2Dt`, `C89_jacobian3D`, `C89_jacobian2D_refuted`, `C89_jacobian3Dt_undefined` | Proved for jacobian2Dt and jacobian3D. jacobian2D is false: the step size scales only one operand of the differences, so constant fields get nonzero entries, and without symmetry the off-diagonal entries are all assigned to the first grid point (C89_jacobian2D_refuted). jacobian3Dt reads outside of EVERY array it has something to do for (C89_jacobian3Dt_undefined). |
| C90 | Curl, cross product and acceleration fields | partial | `C90_vorticity_partial`, `C90_cross_product`, `C90_jacobian_products` | Proved for cross products and products with the Jacobian (inside of the grid). vorticity3D returns twice the curl of every field (C90_vorticity_partial). |
| C91 | Convolution and Gaussian smoothing | partial | `C91_conv2D`, `C91_conv3D`, `C91_gaussian_kernel`, `C91_gaussian_kernel2D`, `C91_gaussian_kernel3D`, `C91_smoothing_refuted`, `C91_smoothing3D_refuted`, `C91_conv_gaussian` | Proved: convolutions are zero-padded correlations divided by the number of elements of the kernel; Gaussian kernels are normalised. False: Gaussian smoothing of EVERY nonzero constant field does not keep its value, since a normalised kernel is divided once more (C91_smoothing_refuted, C91_smoothing3D_refuted). Kernels no larger than the padded data only (size_t wraps otherwise). |
| C92 | Polynomial arithmetic | partial | `C92_evaluate`, `C92_derivative`, `C92_copy`, `C92_addition`, `C92_subtraction_partial`, `C92_subtraction_refuted`, `C92_in_place`, `C92_scalar`, `C92_multiplication`, `C92_tests` | Exact real arithmetic. Everything proved but subtraction of a polynomial of higher degree, which returns Q - P instead of P - Q for EVERY pair with m < n (C92_subtraction_partial, C92_subtraction_refuted). |
| C93 | Values of rational functions | proved | `C93_evaluate_rational`, `C93_infinity` | Exact real arithmetic; values and derivatives at the point (coefficients, at infinity) are zero or above the tolerance. 0/0 everywhere (both polynomials zero) returns infinity. |
| C94 | Solution sets of polynomial inequalities | partial | `C94_cubic_partial`, `C94_cubic_refuted`, `C94_cubic_undefined_refuted`, `C94_linear`, `C94_linear_small_slope`, `C94_nonvacuous`, `C94_interval_empty`, `C94_interval_contains`, `C94_interval_overlaps` | Exact real arithmetic, coefficients zero or above the tolerance. The linear solver is exact. The cubic one returns exactly the solutions that are not isolated: isolated solutions are lost (C94_cubic_refuted); with no constant term, and no quadratic or no linear one (as stated), it reads array elements never written (C94_cubic_undefined_refuted). The all-zero polynomial is excluded. |
| C95 | Triangle meshes: construction and incidences | proved | `C95_triangle_mesh`, `C95_two_sides_only`, `C95_three_triangles_refuted` | One process, int does not overflow. A mesh with an edge of three triangles is outside the statement: the third triangle is lost, or written outside the array (C95_three_triangles_refuted). |
| C96 | The extruded triangle mesh enumerates a simplicial complex | proved | `C96_layered_simplices`, `C96_find_simplex`, `C96_find_refuted` | int and size_t do not overflow, exact floor. Outside the statement: find_simplex does not check its argument and returns the id of another simplex for vertices that are none (C96_find_refuted). |
| C97 | Faces and cofaces in the extruded triangle mesh | proved | `C97_sides`, `C97_side_of`, `C97_negative_refuted` | Ids k >= 0 (cofaces in the layer below 0 included). At negative multiples of n(d), which the API accepts elsewhere, sides is empty and side_of aborts (C97_negative_refuted). |
| C98 | Layers of the extruded triangle mesh | partial | `C98_layers`, `C98_orientation`, `C98_neighbours_partial`, `C98_neighbours_refuted` | All but get_vertex_edge_vertex, which returns the neighbours in the layer and the vertices above and below (C98_neighbours_partial) but misses the diagonal edges between layers (C98_neighbours_refuted). |
| C99 | A tetrahedral mesh numbers its triangles and edges once each, and all incidences agree | proved | `C99_tetrahedral_mesh`, `C99_find_unsorted_refuted` | int does not overflow; initialize() is called on tetrahedra of four different vertices, no two with the same vertices. find_simplex knows a simplex only by its increasing vertices: in another order an existing simplex is reported absent (C99_find_unsorted_refuted). |
| C100 | Bilinear and trilinear interpolation reproduce multilinear functions, and the inverse finds all zeros | partial | `C100_bilinear`, `C100_trilinear`, `C100_inverse_bilinear_partial`, `C100_inverse_bilinear_refuted` | Exact real arithmetic. inverse_bilinear_interpolation is proved when two determinants of the coefficients do not vanish; if the first one does, as for every affine field, it finds nothing (C100_inverse_bilinear_refuted). |
| C101 | Quadratic interpolation reproduces quadratic functions, their gradients and Hessians | partial | `C101_reproduces`, `C101_interpolates`, `C101_gradient`, `C101_hessian_partial`, `C101_hessian_refuted`, `C101_barycentric` | Exact real arithmetic, non-degenerate triangle. Values and gradients are right; the diagonal of the Hessian is half the second derivative (C101_hessian_partial, C101_hessian_refuted). |
| C102 | Rotations about an axis, and steps on a sphere | partial | `C102_rotation`, `C102_rotation_determined`, `C102_zero_axis_refuted`, `C102_great_circle`, `C102_rk1_vertical`, `C102_vertical`, `C102_rest_refuted`, `C102_projection`, `C102_rigid_rk1`, `C102_rigid_rk4_refuted` | Exact real arithmetic. A zero axis gives NaN (C102_zero_axis_refuted), so a particle at rest becomes NaN (C102_rest_refuted). spherical_rk1 follows a rigid rotation exactly; the four-stage scheme lags behind it (C102_rigid_rk4_refuted: it averages vectors tangent at different points), by a third-order amount in h per step. |
| C103 | The classical Runge-Kutta step has order four and moves the particle only if it succeeds | partial | `C103_cubic_in_time`, `C103_travelled`, `C103_linear`, `C103_refused_refuted`, `C103_sphere_refused` | Exact real arithmetic. A refused later stage of rk4 leaves the particle at the intermediate point (C103_refused_refuted); the steps on the sphere do not (C103_sphere_refused). |
| C104 | Angles and barycentric coordinates are brought into range | partial | `C104_fmod1`, `C104_residue_unique`, `C104_angles`, `C104_fmod1_negative_refuted`, `C104_clamp`, `C104_clamp_barycentric` | Exact real arithmetic (in floating point z + y may round up to y). With a negative modulus fmod1 leaves the range (C104_fmod1_negative_refuted). |
| C105 | Points are located in the cells and layers of an ocean mesh, and Wachspress weights reproduce them | partial | `C105_point_in_cell`, `C105_bisection`, `C105_layer_unique`, `C105_brute_force_partial`, `C105_brute_force_refuted`, `C105_wachspress`, `C105_wachspress_refuted` | Exact real arithmetic. The search from the top reads behind the array when z is below all tops (C105_brute_force_refuted, C105_brute_force_partial); more than ten vertices overflow an array (C105_wachspress_refuted). |
| C106 | Matrix norms, condition numbers and symmetric parts | partial | `C106_one_norm`, `C106_max_norm`, `C106_frobenius_partial`, `C106_frobenius_refuted`, `C106_condition`, `C106_decomposition`, `C106_make_symmetric` | Exact real arithmetic. The Frobenius functions return the square of the norm (C106_frobenius_partial, C106_frobenius_refuted). matrix_2norm_real2x2 calls a function that does not exist and is not modelled. |
| C107 | The degree of a critical point is its Poincare index | partial | `C107_degree_partial`, `C107_index`, `C107_degree_refuted`, `C107_no_zero_refuted` | The result is the opposite of the index (C107_degree_partial, C107_degree_refuted), and is never 0 (C107_no_zero_refuted). |
| C108 | The extruded tetrahedral mesh enumerates a simplicial complex | partial | `C108_layered_simplices_partial`, `C108_pentachora_partial`, `C108_pentachora_refuted`, `C108_vertex` | Proved for d = 0..3; for pentachora (C108_pentachora_partial) what get_simplex returns is given exactly: the last one of each prism has a vertex twice (C108_pentachora_refuted). |
| C109 | Faces in the extruded tetrahedral mesh | proved | `C109_sides_of_pentachora`, `C109_sides_of_tetrahedra` | The vertices of a pentachoron are those of simplex_of (get_simplex with the repeated vertex of C108 repaired). |
| C110 | Cofaces in the extruded tetrahedral mesh | partial | `C110_side_of_tetrahedra`, `C110_side_of_steep_triangles`, `C110_side_of_triangles_partial`, `C110_side_of_refuted`, `C110_low_dimensions_refuted` | side_of(3) and side_of(2) of triangles over edges are exact; for the other triangles only tetrahedra containing them are returned (C110_side_of_triangles_partial), but not all (C110_side_of_refuted). side_of(1), sides(2) return nothing (C110_low_dimensions_refuted). |
| C111 | Layers of the extruded tetrahedral mesh | partial | `C111_layers_partial`, `C111_pentachora_refuted` | Proved for d = 0..3; false for pentachora (C111_pentachora_refuted). |
| C112 | Characteristic polynomials of parallel vectors | proved | `C112_triangle`, `C112_tetrahedron`, `C112_constant` | Exact real arithmetic. |
| C113 | Parallel points on an edge in the plane | partial | `C113_edge_partial`, `C113_edge_undefined_refuted` | Proved for determinants whose nonzero coefficients are beyond the tolerances of the root solver, and det W = 0 or det V <> 0; otherwise the two-element array overflows (C113_edge_undefined_refuted). |
| C114 | Parallel points on a triangle in space | partial | `C114_triangle_partial` | Proved for determinants whose nonzero coefficients are beyond the tolerances of the cubic solver (exact arithmetic); what happens below the tolerances is missing. |
| C115 | Parallel points on an edge in space | partial | `C115_edge_partial`, `C115_planar_refuted`, `C115_orientation_refuted`, `C115_not_parallel_refuted` | Proved where the compared components are generic; false for planar fields (C115_planar_refuted), under reversal of the edge (C115_orientation_refuted), and points are reported where the fields are not parallel (C115_not_parallel_refuted). |
| C116 | Multiples for which a triangle contains a parallel point | proved | `C116_inequalities`, `C116_triangle` | Slopes of the linear polynomials are 0 or at least machine epsilon, the tolerance of solve_linear_inequality. |
| C117 | Verification of parallel points | proved | `C117_verify`, `C117_parallel`, `C117_reported` |  |
| C118 | Building the point locator of a 2D triangle mesh terminates exactly when no two triangles share a centroid | proved | `C118_terminates`, `C118_disjoint`, `C118_same_centroid_refuted` | Termination under distinct centroids, and non-termination for equal centroids (C118_same_centroid_refuted). |
| C119 | Locating a point returns a triangle that contains it, with its barycentric coordinates | partial | `C119_sound`, `C119_complete_partial`, `C119_interior`, `C119_boundary_refuted`, `C119_single` | Soundness is proved for all points; completeness for points below the largest coordinates of a triangle that contains them; it is false on the upper edges of the bounding box (C119_boundary_refuted). |
| C120 | Evaluating a field at a point interpolates it linearly | partial | `C120_scalar`, `C120_vector_undefined_refuted`, `C120_vector_constant_refuted` | Scalar fields are proved; the claim is false for vector fields (C120_vector_undefined_refuted, C120_vector_constant_refuted). |
| C121 | The flattened bounding volume hierarchy answers like exhaustive search | partial | `C121_bvh_partial`, `C121_coherent_partial` | Proved for quadtrees of at most 21 levels, the depth for which the stack of 64 entries suffices, in exact arithmetic. |
| C122 | relabel gives connected points one id | partial | `C122_surface_partial`, `C122_pentagon_refuted`, `C122_volume`, `C122_line` | Volumes, lines and surfaces without pentagons are proved; the claim is false for the fifth point of a pentagon (C122_pentagon_refuted). |
| C123 | reorient makes triangles consistent | partial | `C123_preserves`, `C123_orientation_refuted`, `C123_assertion_refuted`, `C123_empty_refuted` | Termination and preservation are proved (without assertions); consistency is false as soon as triangle 0 has a neighbour (C123_orientation_refuted); an assertion fails on a consistent pair (C123_assertion_refuted); undefined without triangles (C123_empty_refuted). |
| C124 | curves of a time slice and of a line set | partial | `C124_line`, `C124_surface`, `C124_numbers`, `C124_two_points_refuted`, `C124_fresh` | All but the marking of loops: an open curve of two points is marked as a loop (C124_two_points_refuted). |
| C125 | slices of a volume | partial | `C125_slice`, `C125_numbers`, `C125_slice_time`, `C125_slice_time_refuted` | slice is proved; slice_time is characterised exactly (C125_slice_time) and is not the slice of the points at that time (C125_slice_time_refuted). |
| C126 | discard removes the points that satisfy a predicate | partial | `C126_discard`, `C126_all_refuted`, `C126_quads_refuted` | Proved except that points satisfying f that are in triangles may stay: never all points of a connected surface are removed (C126_all_refuted), and quadrilaterals keep their stale indices (C126_quads_refuted). |
| C127 | contour trackers find exactly the crossed edges | proved | `C127_points`, `C127_schedule` | Finite values below 2^41 in absolute value, exact arithmetic on doubles. In 2D the array of the rank holds the whole domain; in 3D arrays start at the origin (see C130 for what happens otherwise). |
| C128 | points of a contour lie on their edges | partial | `C128_between_partial`, `C128_outside_refuted` | Exactly characterised: true unless both values are above the threshold, one of them by less than 2^-21 (C128_outside_refuted). |
| C129 | the contour surface in space-time is watertight | proved | `C129_surface` | 2D tracker, the whole domain on the rank, every pushed snapshot processed. |
| C130 | contour tracking on several ranks | partial | `C130_ranks_partial`, `C130_partial_2d_refuted`, `C130_partial_3d_refuted` | Proved if every rank has the whole array; with partial arrays both trackers read outside of them (C130_partial_2d_refuted, C130_partial_3d_refuted). |
| C131 | Ids of the torus mesh name its simplices | partial | `C131_torus_simplices`, `C131_find_simplex`, `C131_two_planes_refuted`, `C131_find_refuted` | Proved for three planes or more and vertices given in range. With two planes different edges have the same vertices and find_simplex returns another tetrahedron (C131_two_planes_refuted); vertices out of range are not found correctly (C131_find_refuted). |
| C132 | Faces and cofaces on the torus | proved | `C132_sides`, `C132_side_of`, `C132_planes_closed` | Three planes or more. The hypothesis of C132_side_of that the mesh has a triangle only excludes empty meshes. |
| C133 | Planes and neighbours on the torus | partial | `C133_neighbours_partial`, `C133_planes`, `C133_neighbours_refuted`, `C133_plane` | The planes are proved for all ids in range. Neighbours: exactly those of the same plane and the copies in the next and previous plane; the diagonal edges of the mesh are omitted, and negative ids are not taken modulo the number of vertices (C133_neighbours_refuted). |
| C134 | Values at the vertices of the torus | partial | `C134_real_planes`, `C134_virtual_planes`, `C134_periods_refuted` | Proved for iphi = 1, exact arithmetic. With iphi > 1 the data has nphi planes only and is read out of bounds (C134_periods_refuted). How the interpolants are computed is not modelled: proper weights are a hypothesis. |
| C135 | Blobs of the threshold tracker are connected components | partial | `C135_labels_partial`, `C135_same_label_partial`, `C135_plain_values`, `C135_isolated_refuted` | Proved for loops that run one index after the other in any order, with neighbours in the sense of C133 (no diagonal edges). A vertex above the threshold with no neighbour above it gets -1 like those below (C135_isolated_refuted). Concurrent loops: only the safety of C04. |
| C136 | The derived threshold is a multiple of the standard deviation | partial | `C136_threshold_partial`, `C136_threshold_refuted`, `C136_nodes` | Exactly characterised: the variance plus (nphi-1)^2 times the square of the mean, hence right for one plane only (C136_threshold_refuted). |
| C137 | Multilinear interpolation is correct on every grid | proved | `C137_domain`, `C137_reads`, `C137_interpolant`, `C137_grid`, `C137_affine`, `C137_bounds`, `C137_edge_refuted`, `C137_witness` | The domain in the property is the one of the code: the last row and column, where values are stored, have none (C137_edge_refuted shows it; the property says so). |
| C138 | Spatially uniform fields are traced exactly | proved | `C138_interval`, `C138_stream`, `C138_witness` | Exact arithmetic. The particle must be further from the boundary than it can travel. |
| C139 | The time of a traced particle | partial | `C139_time`, `C139_unit_interval`, `C139_delta_refuted` | Proved: the times of all points for any delta_t, and that only the grid stops a particle when delta_t is 1. The snapshot number is used as its time whatever delta_t is: with delta_t = 1/2 particles stop after the first interval (C139_delta_refuted). |
| C140 | What an update appends to trajectories | partial | `C140_append`, `C140_independent`, `C140_idle`, `C140_points`, `C140_checkpoint_refuted`, `C140_velocity_refuted`, `C140_advance`, `C140_defaults` | Proved: append-only, independence, exact positions and number of the points. set_nsteps_per_checkpoint ignores its argument (C140_checkpoint_refuted); the first velocity appended is uninitialised (C140_velocity_refuted), the others are those at the beginning of the previous step. |
| C141 | Traced particles stay on the grid | partial | `C141_outside_stays`, `C141_inside`, `C141_recorded_outside_refuted` | Proved for particles that complete the interval, all points but the last. A refused step leaves the particle at the intermediate point of RK4 that was off the grid, and this point is recorded (C141_recorded_outside_refuted). |
| C142 | Vortices are found by the winding of the phase | partial | `C142_quantized`, `C142_punctured`, `C142_unit`, `C142_flux`, `C142_flux_refuted`, `C142_corners`, `C142_potential` | Exact real arithmetic. Proved for the potential the code uses (C142_punctured, C142_flux); that potential is the one of (0,By,Bz) if By>0 and of (Bx,0,Bz) otherwise, so not of B when By<0 or when Bx and By are both nonzero (C142_flux_refuted). C142_potential gives the components of the potential. |
| C143 | Vortices do not end inside tetrahedra | partial | `C143_orientation`, `C143_tetrahedron_partial`, `C143_exactly_pi_refuted` | Proved if no phase difference is exactly pi; false otherwise (C143_exactly_pi_refuted). |
| C144 | Vortex points are zeros of the order parameter | partial | `C144_position`, `C144_flux_refuted`, `C144_witness` | Proved, with uniqueness, for triangles without flux, no phase difference of exactly pi and positive magnitudes. With a flux of 3/8 of a quantum the point may be far outside of the triangle (C144_flux_refuted). |
| C145 | Vortex surfaces of a cell | partial | `C145_count`, `C145_triangle`, `C145_polygon_refuted`, `C145_overflow_refuted` | The number of punctured faces is proved for cells without flux and without phase differences of exactly pi. Four faces give four triangles and five faces nine (C145_polygon_refuted). In a strong field a cell may have seven punctured faces, and the ids overflow the array of six (C145_overflow_refuted). |
| C146 | Critical line tracker: points on the triangles | proved | `C146_points`, `C146_schedule` | For one process with any part of the domain; floats are rationals and the position is computed in exact real arithmetic. A point whose three vectors are collinear has no position (the floats the code would store are not modelled). |
| C147 | Critical line tracker: surfaces traced by the lines | partial | `C147_surfaces_partial` | Proved for a process with the whole domain and all snapshots processed, in the branch build_vortex_surfaces(): cells, numbers of triangles, indices, no overflow. Four triangles give four pieces and five give nine (stated in the theorem), where a polygon has two and three; build_vortex_lines() (a single step) is the union-find of C122 and is not repeated. |
| C148 | TDGL vortex tracker: points on the triangles | proved | `C148_vortices` | A float is an exact real. A triangle counts as turning when its winding number w and the circulation of the potential satisfy /circulation - 2 pi w/ >= pi, which by C142 is w<>0 for less than half a quantum of flux. |
| C149 | The isovolume of a 3D contour tracker | proved | `C149_volume`, `C149_flat_refuted` | One process; a float is an exact real. Corners and which cell they come from are proved, not that neighbouring prisms choose the same diagonal on a shared quadrilateral. C149_flat_refuted: the flat tetrahedra at the last time step really occur. |
| C150 | Reusing a tracker of lines or vortices after reset | partial | `C150_line_reset`, `C150_vortex_reset_partial`, `C150_stale_cells_refuted`, `C150_start_refuted` | Points proved for both trackers (time steps count from 0: C150_start_refuted); missing for the vortex tracker, and false in the code: the old cells are forgotten (C150_stale_cells_refuted). |
