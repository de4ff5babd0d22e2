{"id": "C01", "title": "simple_union_find is exactly the equivalence closure of the unite calls", "statement": "After any sequence of unite/find/same_set calls on in-range ids, same_set(p,q) returns true iff p and q are connected by the unite calls made so far; find(p) terminates, returns a member of p's class and the same id for every member; queries never change the partition.", "quantifier": "every size, every finite history of unite/find/same_set calls with in-range ids", "why_tests_cant": "the number of histories is unbounded and the invariant (an acyclic parent forest under path halving) is global", "anchors": ["include/ftk/basic/simple_union_find.hh: simple_union_find::unite, find, same_set, reset"]}
{"id": "C02", "title": "union_find::get_sets partitions the added elements by the unite history", "statement": "After any history of add/unite on added elements, get_sets() returns pairwise disjoint non-empty sets whose union is exactly the added elements, and two elements are in the same set iff connected by unite calls; find through its aliasing reference still returns the class root; a call on an element never added is undefined behaviour and is never reached from add-before-use histories.", "quantifier": "every key type with a strict total order, every finite history", "why_tests_cant": "unbounded histories; the reference-aliased path compression mutates two slots per step", "anchors": ["include/ftk/basic/union_find.hh: union_find::add, unite, find, has, same_set, get_sets"]}
{"id": "C03", "title": "duf (sequential) returns the smallest element of a class as its root", "statement": "In any single-threaded history, duf::find(i) returns the minimum of the set of elements connected to i by unite calls, registering i if unknown; find equality decides connectivity; get_roots returns exactly the minima of the registered classes.", "quantifier": "every finite single-threaded history of unite/find/has/get_roots over a totally ordered id type", "why_tests_cant": "unbounded histories; depends on the invariant that parent links strictly decrease", "anchors": ["include/ftk/basic/duf.hh: duf::unite, find, has, get_roots, size"]}
{"id": "C04", "title": "duf keeps every union under concurrent unite calls", "statement": "When several threads call unite concurrently, after all calls return find(i)==find(j) for every pair united by any thread, and never for a pair not connected by the requested unions.", "quantifier": "every number of threads, every list of unite calls per thread, every interleaving of the lock-protected critical sections", "why_tests_cant": "the losing interleaving needs a precise schedule between three separate critical sections", "anchors": ["include/ftk/basic/duf.hh: duf::unite (find; find; locked write), duf::find"]}
{"id": "C05", "title": "lattice linear index is a bijection onto 0..n-1", "statement": "For a lattice with given starts and positive sizes, to_integer maps the contained coordinates one-to-one onto 0..n()-1, from_integer is its inverse on both sides, and from_integer always lands inside the lattice (contains).", "quantifier": "every dimension count, all starts and sizes, every coordinate/index, below machine overflow", "why_tests_cant": "quantifies over all shapes and all indices", "anchors": ["include/ftk/mesh/lattice.hh: lattice::to_integer, from_integer, n, contains, reshape"]}
{"id": "C06", "title": "lattice_partitioner cores tile the domain", "statement": "Whenever partition(np, given, ...) produces cores, every point of the domain lattice lies in exactly one core and every core is non-empty and inside the domain.", "quantifier": "every domain lattice (any dimension, bounded or unlimited time), every np, every list of given cuts", "why_tests_cant": "quantifies over all shapes, process counts and prime factorizations", "anchors": ["include/ftk/mesh/lattice_partitioner.hh: lattice_partitioner::partition, prime_factorization"]}
{"id": "C07", "title": "partition yields exactly np blocks or none", "statement": "A call partition(np, given, ...) on a fresh partitioner that returns leaves either 0 blocks (request refused) or exactly np blocks, and get_ext has one extent per core.", "quantifier": "every np >= 1, every given vector, every domain", "why_tests_cant": "requires correctness of prime factorization and round-robin distribution for every np", "anchors": ["include/ftk/mesh/lattice_partitioner.hh: partition, prime_factorization, is_vector_zero"]}
{"id": "C08", "title": "ghost extents are the clamped dilation of the core", "statement": "Each extent equals its core grown by ghost_low/ghost_high on every cuttable dimension and clipped to the domain: it contains its core, stays inside the domain, never changes the unlimited time dimension, and contains every domain point within the ghost distance of the core.", "quantifier": "every core inside the domain, every ghost vector", "why_tests_cant": "all shapes and ghost widths, unsigned-subtraction edge cases at every boundary", "anchors": ["include/ftk/mesh/lattice_partitioner.hh: lattice_partitioner::add_ghost"]}
{"id": "C09", "title": "partition terminates for every request", "statement": "partition(np, given, ghosts) returns for every np and every given vector with one entry per dimension.", "quantifier": "every np, given, domain", "why_tests_cant": "non-termination cannot be observed by a finite test", "anchors": ["include/ftk/mesh/lattice_partitioner.hh: partition (while given[curr] != 0)"]}
{"id": "C10", "title": "ndarray element addressing is injective and in bounds", "statement": "After reshape(dims), at(idx) of an in-range multi-index addresses a position inside the buffer, distinct in-range multi-indices address distinct positions, writing one element changes no other, and the variadic at(i0,..,i6) forms agree with the vector form.", "quantifier": "every shape, every pair of in-range multi-indices", "why_tests_cant": "all shapes and dimensions", "anchors": ["include/ftk/ndarray.hh: ndarray::at, reshape, operator()", "include/ftk/ndarray/ndarray_base.hh: ndarray_base::index"]}
{"id": "C11", "title": "ndarray slice copies exactly the requested box", "statement": "slice(starts,sizes) returns an array of shape sizes whose element at index k equals the source element at starts+k, for every in-range k.", "quantifier": "every array, every box inside it", "why_tests_cant": "all shapes and boxes", "anchors": ["include/ftk/ndarray.hh: ndarray::slice", "include/ftk/mesh/lattice.hh: from_integer"]}
{"id": "C12", "title": "stack and slice_time are inverse; concat interleaves components", "statement": "stack({a0..am-1}).slice_time(t) equals at for every t; conversely stack(a.slice_time()) equals a; concat places element i of array j at component j of element i.", "quantifier": "every non-empty list of equally shaped arrays; every array with at least two dimensions", "why_tests_cant": "all shapes and list lengths", "anchors": ["include/ftk/ndarray.hh: ndarray::stack, slice_time, concat"]}
{"id": "C13", "title": "get_transpose reverses the axes and is an involution", "statement": "get_transpose of a 2-, 3- or 4-dimensional array has reversed shape, element (i_k,..,i_0) equal to source (i_0,..,i_k), and transposing twice gives the original array.", "quantifier": "every 1..4-dimensional array and every in-range index", "why_tests_cant": "all shapes", "anchors": ["include/ftk/ndarray.hh: ndarray::get_transpose, transpose"]}
{"id": "C14", "title": "ndarray::min_max returns the exact minimum and maximum", "statement": "For a non-empty array min_max returns the least and the greatest element.", "quantifier": "every element type, every non-empty array", "why_tests_cant": "fails only for all-negative floating data because of the initial value; holds for all others", "anchors": ["include/ftk/ndarray.hh: ndarray::min_max, maxabs, resolution"]}
{"id": "C15", "title": "ndarray binary serialization round-trips", "statement": "Loading a buffer produced by saving an array restores shape, strides, component count, time flag and all elements, consumes exactly the bytes written, and several objects saved in sequence are loaded back in order.", "quantifier": "every array, every sequence of arrays, every trailing buffer content", "why_tests_cant": "all shapes and contents", "anchors": ["include/ftk/ndarray.hh: diy::Serialization<ftk::ndarray<T>>", "include/ftk/utils/serialization.hh: StringBuffer"]}
{"id": "C16", "title": "regular mesh element ids round-trip", "statement": "For a d-dimensional element whose corner lies in the mesh bounds, from_integer(to_integer(e)) = e, distinct elements have distinct integers below n(d), and every integer below n(d) denotes such an element.", "quantifier": "every mesh dimension and bounds, every element dimension, every element, below int overflow of the mesh size", "why_tests_cant": "all meshes and all elements", "anchors": ["include/ftk/mesh/simplicial_regular_mesh.hh: simplicial_regular_mesh_element::to_integer, from_integer, n, set_lb_ub"]}
{"id": "C17", "title": "element_for visits every element of the scope exactly once", "statement": "element_for(d, l, scope, f) calls f exactly once on each (corner in l, type in scope) pair and on nothing else, for every thread count; the ordinal and interval scopes partition the full scope.", "quantifier": "every mesh, sub-lattice, scope, number of threads and schedule", "why_tests_cant": "all lattices, thread counts and schedules", "anchors": ["include/ftk/mesh/simplicial_regular_mesh.hh: element_for, element_for_ordinal, element_for_interval, from_work_index, derive_ordinal_and_interval_simplices", "include/ftk/object.hh: parallel_for"]}
{"id": "C18", "title": "unit simplex types are the reduced Kuhn chains", "statement": "The k-simplex types of an n-dimensional regular mesh are, without duplicates, exactly the strictly increasing chains of k+1 points of {0,1}^n starting at the origin.", "quantifier": "every n >= 1 and k <= n", "why_tests_cant": "all dimensions; tests check n <= 4 counts only", "anchors": ["include/ftk/mesh/simplicial_regular_mesh.hh: subdivide_unit_cube, reduce_unit_simplex, enumerate_unit_simplices"]}
{"id": "C19", "title": "sides of a mesh element are its k+1 faces", "statement": "sides(e) of a k-element (k>=1) lists, without duplicates, exactly the k+1 elements whose vertex sets are obtained by deleting one vertex of e.", "quantifier": "every mesh dimension, every element, every corner", "why_tests_cant": "all dimensions and elements", "anchors": ["include/ftk/mesh/simplicial_regular_mesh.hh: sides, enumerate_unit_simplex_sides"]}
{"id": "C20", "title": "side_of is the inverse relation of sides", "statement": "A (k+1)-element c is listed in side_of(e) iff e is listed in sides(c).", "quantifier": "every pair of elements of adjacent dimension", "why_tests_cant": "all dimensions and elements", "anchors": ["include/ftk/mesh/simplicial_regular_mesh.hh: side_of, enumerate_unit_simplex_side_of, sides"]}
{"id": "C21", "title": "every codimension-one element is shared by exactly two top elements", "statement": "In the unbounded regular mesh every (n-1)-element is a side of exactly two n-elements (so a traced intersection always enters and leaves).", "quantifier": "every mesh dimension n, every (n-1)-element", "why_tests_cant": "all dimensions and elements", "anchors": ["include/ftk/mesh/simplicial_regular_mesh.hh: side_of"]}
{"id": "C22", "title": "SoS determinant sign is never zero and refines the exact sign", "statement": "robust_sign_det2/3/4 return +1 or -1 for every input, and return the sign of the exact determinant whenever that determinant is non-zero.", "quantifier": "all integer point coordinates", "why_tests_cant": "degenerate inputs are a measure-zero set that sampling misses", "anchors": ["include/ftk/numeric/sign_det.hh: robust_sign_det2, robust_sign_det3, robust_sign_det4"]}
{"id": "C23", "title": "SoS determinant sign equals the sign of a symbolically perturbed determinant", "statement": "For every input there is a bound such that for every smaller positive epsilon the returned sign is the sign of the determinant of the points with each coordinate (i,j) perturbed by the prescribed power of epsilon; hence it is a consistent general-position geometry.", "quantifier": "all integer coordinates, all sufficiently small epsilon", "why_tests_cant": "a statement about a limit; every table entry and sign matters", "anchors": ["include/ftk/numeric/sign_det.hh: robust_sign_det2, robust_sign_det3, robust_sign_det4"]}
{"id": "C24", "title": "positive1/2/3 are antisymmetric orientation predicates", "statement": "Exchanging two (point,index) pairs negates positive1/2/3, so the result depends on the labelled point set and the parity of its listing only; the inner bubble sort really sorts and its swap count has the parity of the permutation.", "quantifier": "all coordinates, all pairwise distinct indices, all permutations", "why_tests_cant": "all permutations of all inputs", "anchors": ["include/ftk/numeric/sign_det.hh: positive1, positive2, positive3, nswaps_bubble_sort"]}
{"id": "C25", "title": "robust_critical_point_in_simplex does not depend on vertex order", "statement": "robust_critical_point_in_simplex1/2/3 return the same answer for every reordering of the (vector, index) pairs of the simplex.", "quantifier": "all vectors, all distinct non-negative indices, all permutations", "why_tests_cant": "shared faces are visited in different vertex orders by different cells; every degenerate tie must agree", "anchors": ["include/ftk/numeric/critical_point_test.hh", "include/ftk/numeric/sign_det.hh: robust_point_in_simplex1/2/3"]}
{"id": "C26", "title": "a robust zero crosses 0 or 2 facets of every cell", "statement": "For any triangle with scalar vertex values exactly 0 or 2 of its edges robustly contain zero, and for any tetrahedron with 2-vectors at the vertices exactly 0 or 2 of its faces robustly contain zero, including all degenerate data.", "quantifier": "all vertex vectors (including zero and collinear), all distinct non-negative vertex indices", "why_tests_cant": "degenerate ties are where tracking breaks, and random tests never hit them", "anchors": ["include/ftk/numeric/critical_point_test.hh: robust_critical_point_in_simplex1, robust_critical_point_in_simplex2"]}
{"id": "C27", "title": "the robust test agrees with exact geometry in general position", "statement": "When zero and the vertex vectors are in general position, robust_critical_point_in_simplex1/2 is true iff zero is a strict convex combination of the vertex vectors.", "quantifier": "all integer vectors in general position", "why_tests_cant": "all inputs", "anchors": ["include/ftk/numeric/critical_point_test.hh", "include/ftk/numeric/sign_det.hh"]}
{"id": "C28", "title": "extract_connected_components returns the connected components", "statement": "The result partitions the qualified set, and two qualified nodes share a component iff they are connected through qualified nodes along the (symmetrised) neighbor relation.", "quantifier": "every finite qualified set and every neighbor function", "why_tests_cant": "all graphs", "anchors": ["include/ftk/algorithms/cca.hh: extract_connected_components"]}
{"id": "C29", "title": "bfs visits every reachable node exactly once", "statement": "bfs(seed,...) calls operation exactly once on each node reachable from seed through nodes meeting the criterion, on no other node, each node no later than its distance order, and terminates when the reachable set is finite.", "quantifier": "every graph with finite reachable set, every seed and criterion", "why_tests_cant": "all graphs", "anchors": ["include/ftk/algorithms/bfs.hh: bfs"]}
{"id": "C30", "title": "extract_connected_components_bfs agrees with the union-find version", "statement": "For a symmetric neighbor relation both extraction routines produce the same family of components.", "quantifier": "every finite qualified set, every symmetric neighbor function", "why_tests_cant": "all graphs", "anchors": ["include/ftk/algorithms/cca_bfs.hh: extract_connected_components_bfs", "include/ftk/algorithms/cca.hh"]}
{"id": "C31", "title": "labelConnectedComponents labels components 1..N", "statement": "Starting from all-zero labels, after labelConnectedComponents the returned count N is the number of components, labels are 0 exactly on unqualified nodes, and two qualified nodes have the same label iff connected.", "quantifier": "every node count, symmetric neighbor function and criterion", "why_tests_cant": "all graphs", "anchors": ["include/ftk/algorithms/ccl.hh: labelConnectedComponents"]}
{"id": "C32", "title": "component tracking reports exactly the overlapping pairs", "statement": "track_connected_components reports (i,j) iff component i of the first step and component j of the second share a node; the label-based variant reports every pair of nonzero labels co-occurring at some position.", "quantifier": "every pair of component lists / label arrays", "why_tests_cant": "all inputs; the label variant silently drops equal labels", "anchors": ["include/ftk/algorithms/cca.hh: track_connected_components", "include/ftk/algorithms/ccl.hh: trackConnectedComponentsByLabels"]}
{"id": "C33", "title": "connected_component_to_linear_components yields curves covering all ordinary nodes", "statement": "For a symmetric neighbor relation the returned linear components contain each node with at most two neighbours exactly once, no other node, consecutive nodes are neighbours, and is_loop is true only when the ends are neighbours.", "quantifier": "every finite connected component and symmetric neighbor function", "why_tests_cant": "all graphs, including loops, branching nodes and isolated points", "anchors": ["include/ftk/geometry/cc2curves.hh: connected_component_to_linear_components, is_loop"]}
{"id": "C34", "title": "hoshen_kopelman_2d labels 4-connected clusters without leaving its buffers", "statement": "For every 2-D array the call stays within its label buffer, and afterwards two non-zero cells carry the same label iff 4-connected, labels are 1..N and N is returned.", "quantifier": "every matrix shape and contents", "why_tests_cant": "the buffer overrun only occurs on sparse checkerboard-like inputs", "anchors": ["include/ftk/algorithms/hoshen_kopelman.hh: hoshen_kopelman_2d"]}
{"id": "C35", "title": "dijkstra returns a shortest path", "statement": "For non-negative distances and a reachable destination, dijkstra returns a path from src to dst along neighbors whose length is minimal; for an unreachable destination it does not return a path.", "quantifier": "every finite graph with non-negative distances", "why_tests_cant": "all graphs", "anchors": ["include/ftk/algorithms/dijkstra.hh: dijkstra"]}
{"id": "C36", "title": "closed disjoint_intervals implement set union and intersection", "statement": "For closed (possibly unbounded) intervals, contains() after any history of join/intersect calls equals the pointwise union/intersection, and the stored subintervals remain pairwise disjoint.", "quantifier": "every finite history of join/intersect with closed intervals, every point", "why_tests_cant": "unbounded histories", "anchors": ["include/ftk/numeric/disjoint_intervals.hh: join, intersect, contains, overlaps", "include/ftk/numeric/basic_interval.hh"]}
{"id": "C37", "title": "open endpoints survive joins", "statement": "join and intersect on half-open and open intervals keep contains() equal to pointwise union/intersection, and set_lower_inf makes an interval unbounded below.", "quantifier": "every history with open or half-open endpoints", "why_tests_cant": "wrong only at single endpoint values", "anchors": ["include/ftk/numeric/basic_interval.hh: join, intersect, set_lower_inf", "include/ftk/numeric/disjoint_intervals.hh: join"]}
{"id": "C38", "title": "rational arithmetic denotes rational arithmetic", "statement": "+=, -=, *=, /= change the denoted value to the sum, difference, product, quotient of the operands; comparison operators agree with the order of values; binary + and - return the sum and difference.", "quantifier": "all numerators/denominators with non-zero denominator, below overflow", "why_tests_cant": "all operands; sign of gcd and non-normalised operands are rare in tests", "anchors": ["include/ftk/numeric/rational_number.hh: rational", "include/ftk/numeric/gcd.hh: gcd"]}
{"id": "C39", "title": "fixed_point arithmetic is scaled integer arithmetic", "statement": "For fixed_point with factor F, +,- and comparisons are exact on the represented multiples of 1/F, * and / return the scaled product/quotient rounded toward zero.", "quantifier": "all representable operands below overflow", "why_tests_cant": "all operands", "anchors": ["include/ftk/numeric/fixed_point.hh: fixed_point"]}
{"id": "C40", "title": "tracking_graph::relabel gives equal global labels exactly to simply connected nodes", "statement": "After relabel every node has a global label in 1..N, and two nodes share it iff linked by a chain of edges whose both ends are of degree one on the linked sides.", "quantifier": "every history of add_node/add_edge", "why_tests_cant": "all graphs; split/merge nodes are the only failing ones", "anchors": ["include/ftk/tracking_graph/tracking_graph.hh: add_node, add_edge, relabel, get_global_label"]}
{"id": "C41", "title": "detect_events reports exactly the non-trivial components of each interval", "statement": "For consecutive timesteps the reported events are exactly the connected components, with other than one node on each side, of the bipartite graph of edges between them, with lhs/rhs the labels on each side.", "quantifier": "every history of add_node/add_edge", "why_tests_cant": "all graphs", "anchors": ["include/ftk/tracking_graph/tracking_graph.hh: detect_events", "include/ftk/tracking_graph/event.hh: Event::type"]}
{"id": "C42", "title": "Event::type classifies by the two side counts", "statement": "type() is NONE for 1-1, BIRTH for 0-1, DEATH for 1-0, SPLIT for 1-2, MERGE for 2-1, RECOMBINATION for 2-2 and COMPOUND for all other counts; the name table matches the codes.", "quantifier": "all pairs of set sizes", "why_tests_cant": "infinite pairs of counts", "anchors": ["include/ftk/tracking_graph/event.hh: Event::type, eventTypeToString"]}
{"id": "C43", "title": "contour_tree::reduce_node contracts a regular node", "statement": "Removing a node with one upper and one lower arc connects its neighbours directly, keeps upper and lower links mutually inverse, changes no other arc, and refused calls change nothing.", "quantifier": "every tree state reachable by add_node/add_arc/reduce_node, every node", "why_tests_cant": "all histories; the isolated-node case creates a spurious arc", "anchors": ["include/ftk/basic/contour_tree.hh: contour_tree::reduce_node, add_arc, reduce"]}
{"id": "C44", "title": "parallel_for runs every task exactly once", "statement": "parallel_for(ntasks, f, nthreads) calls f once for each index 0..ntasks-1 and for no other index, whatever the interleaving, and returns for every nthreads.", "quantifier": "all task counts, all thread counts, all interleavings", "why_tests_cant": "all counts and schedules; nthreads=0 diverges", "anchors": ["include/ftk/object.hh: object::parallel_for"]}
{"id": "C45", "title": "async_ptr frees its object exactly once", "statement": "For any number of threads copying and destroying async_ptr handles the pointee is deleted exactly once, after the last handle is gone, and never used after deletion.", "quantifier": "every history of copies/destructions, every interleaving", "why_tests_cant": "the double free needs an exact two-instruction race", "anchors": ["include/ftk/utils/async_ptr.hh: async_ptr::clear, copy constructor, operator="]}
{"id": "C46", "title": "gather/allgather merge all ranks' maps", "statement": "After gather the root holds the union of all ranks' containers (root's own value wins on key collision, then lower ranks); allgather gives the same union to every rank.", "quantifier": "every number of ranks, every contents", "why_tests_cant": "all process counts and contents", "anchors": ["include/ftk/utils/gather.hh: gather, allgather"]}
{"id": "C47", "title": "all2all delivers to each rank exactly what was addressed to it", "statement": "After all2all rank r holds the union over ranks i of ins_i[r].", "quantifier": "every number of ranks, every contents", "why_tests_cant": "wrong receive displacements only matter with three or more ranks and non-empty payloads", "anchors": ["include/ftk/utils/all2all.hh: all2all"]}
{"id": "C48", "title": "redistribute groups every key on the rank chosen by its hash", "statement": "After redistribute, rank r holds exactly the entries of all ranks whose key hashes to r, merged per key.", "quantifier": "every number of ranks, hash function and contents", "why_tests_cant": "all process counts and contents", "anchors": ["include/ftk/utils/redistribution.hh: redistribute"]}
{"id": "C49", "title": "kd-tree search returns a nearest point", "statement": "After build() without level limit find_nearest(x) returns the id of an input point at minimal Euclidean distance from x, as the brute-force search does.", "quantifier": "every non-empty point set, dimension, query, and every valid outcome of nth_element", "why_tests_cant": "all point sets; ties and coincident coordinates", "anchors": ["include/ftk/basic/kd.hh: build, build_recursive, find_nearest_recursive, find_nearest, find_nearest_naive"]}
{"id": "C50", "title": "feature_curve split returns consistent pieces that lose no point", "statement": "split() returns non-empty pieces of constant type, in order, whose concatenation is the original curve.", "quantifier": "every curve", "why_tests_cant": "all type sequences", "anchors": ["include/ftk/features/feature_curve.hh: feature_curve_t::split"]}
{"id": "C51", "title": "adjust_time makes time monotone", "statement": "If ordinal points have non-decreasing times then after adjust_time all times along the curve are non-decreasing, ordinal times are unchanged and applying it again changes nothing.", "quantifier": "every curve", "why_tests_cant": "all time sequences", "anchors": ["include/ftk/features/feature_curve.hh: feature_curve_t::adjust_time"]}
{"id": "C52", "title": "unwrap removes periodic jumps", "statement": "unwrap(period) changes each coordinate by a multiple of the period, keeps the first point, and leaves consecutive differences of at most half a period when the inputs lay within one period of each other.", "quantifier": "every non-empty curve, every positive period", "why_tests_cant": "all coordinate sequences", "anchors": ["include/ftk/features/feature_curve.hh: feature_curve_t::unwrap"]}
{"id": "C53", "title": "rotate and reorder permute a curve cyclically / by reversal only", "statement": "rotate() is a cyclic rotation that, for loops whose ends share a type, starts the curve at the first type change; reorder() either keeps or reverses the curve and makes the first point not later than the last.", "quantifier": "every curve", "why_tests_cant": "all curves", "anchors": ["include/ftk/features/feature_curve.hh: feature_curve_t::rotate, reorder"]}
{"id": "C54", "title": "smoothing makes interval point types change at most once between ordinals", "statement": "After smooth_interval_types types of ordinal points are unchanged, every run between consecutive ordinals is at most two constant blocks, and the terminal runs take the type of the nearest ordinal.", "quantifier": "every curve with at least one ordinal point", "why_tests_cant": "all type sequences", "anchors": ["include/ftk/features/feature_curve.hh: smooth_interval_types, smooth_ordinal_types"]}
{"id": "C55", "title": "discard/intercept/select keep exactly the selected points in order", "statement": "discard(f) keeps exactly the points with f false, in order; intercept(t0,t1) keeps exactly the points with t0<=t<=t1; select returns exactly their indices; bounding statistics are exact.", "quantifier": "every curve and predicate", "why_tests_cant": "all curves", "anchors": ["include/ftk/features/feature_curve.hh: discard, intercept, select, to_ordinals, update_statistics"]}
{"id": "C56", "title": "feature_curve_set ids are fresh and filter keeps exactly the accepted curves", "statement": "add(curve) stores the curve under an id larger than all existing ids and labels all its points with it, without touching other curves; filter(f) keeps exactly the curves accepted by f.", "quantifier": "every history of add/filter", "why_tests_cant": "unbounded histories", "anchors": ["include/ftk/features/feature_curve_set.hh: add, get_new_id, filter, to_list, from_list"]}
{"id": "C57", "title": "feature_curve_set survives export to and import from polydata", "statement": "from_vtp(to_vtp(s)) restores every curve's points.", "quantifier": "every curve set", "why_tests_cant": "wrong only with two or more curves", "anchors": ["include/ftk/features/feature_curve_set.hh: to_vtp, from_vtp"]}
{"id": "C58", "title": "an interval that reports empty() contains no point", "statement": "If empty() is true for a basic_interval then contains(x) is false for every x; conversely if it is false, the interval contains every point strictly between its ends.", "quantifier": "every interval built by the constructors, setters, join and intersect; every point", "why_tests_cant": "all ends, flags and points", "anchors": ["include/ftk/numeric/basic_interval.hh: empty, contains, singleton"]}
{"id": "C59", "title": "contour_tree::reduce_node is safe on every node of degree at most one on each side", "statement": "If a node has at most one upper and at most one lower arc, reduce_node returns true, removes it, and every arc present afterwards was present before or replaces the two arcs of the removed node.", "quantifier": "every tree state reachable by add_node/add_arc/reduce_node/reduce, every node", "why_tests_cant": "isolated and just-isolated nodes arise only from particular histories", "anchors": ["include/ftk/basic/contour_tree.hh: contour_tree::reduce_node, upper_node, lower_node"]}
{"id": "C60", "title": "scatterv gives each rank its own element", "statement": "After scatterv rank r holds ins[r] of the root (when out was default-constructed).", "quantifier": "every number of ranks, every serializable contents, every rank", "why_tests_cant": "all contents and rank counts; displacement errors show only for particular sizes", "anchors": ["include/ftk/utils/scatter.hh: scatterv"]}
{"id": "C61", "title": "bcastv gives every rank the root's object", "statement": "After bcastv every rank holds the object of the root.", "quantifier": "every serializable object and every previous value on the other ranks", "why_tests_cant": "all previous values; containers are merged instead of replaced", "anchors": ["include/ftk/utils/bcast.hh: bcastv"]}
{"id": "C62", "title": "find_leaf leads to the leaf of an input point", "statement": "After build(), find_leaf(p) for an input point p returns the leaf that stores p.", "quantifier": "every point set, every input point, every valid outcome of nth_element", "why_tests_cant": "fails only when points share a coordinate with a splitting point", "anchors": ["include/ftk/basic/kd.hh: find_leaf, find_leaf_recursive"]}
{"id": "C63", "title": "kd-tree search stays correct under a level limit", "statement": "build(max_level) limits the depth of the tree; find_nearest still returns a nearest point.", "quantifier": "every point set, query and max_level", "why_tests_cant": "small limits with many points", "anchors": ["include/ftk/basic/kd.hh: build, find_nearest"]}
{"id": "C64", "title": "split_geo cuts exactly at longitude jumps", "statement": "split_geo() cuts the curve exactly between consecutive points whose longitudes differ by more than 180 degrees; the pieces are non-empty, keep the id and concatenate to the curve.", "quantifier": "every curve", "why_tests_cant": "all longitude sequences", "anchors": ["include/ftk/features/feature_curve.hh: feature_curve_t::split_geo"]}
{"id": "C65", "title": "curve assignment copies the curve", "statement": "a = b makes a equal to b and leaves every other curve as it was, also when a and b are the same object.", "quantifier": "every pair of curves, including a = a", "why_tests_cant": "aliasing", "anchors": ["include/ftk/features/feature_curve.hh: feature_curve_t::operator="]}
{"id": "C66", "title": "split_all leaves only curves of one type", "statement": "After feature_curve_set_t::split_all() every curve of the set has points of one type only; curves that already had a common type are still there unchanged; every other curve is a non-empty piece of one old curve, stored under that curve's id and labelled with it.", "quantifier": "every history of adds, filters, splits and intercepts", "why_tests_cant": "unbounded number of curves, types and ids", "anchors": ["include/ftk/features/feature_curve_set.hh: split_all, add", "include/ftk/features/feature_curve.hh: split, relabel"]}
{"id": "C67", "title": "critical point detection is exact", "statement": "After pushing snapshots and advancing (or updating) through them, the detected critical points are exactly: one per space-time face (triangle of the 2+1D mesh, tetrahedron of the 3+1D mesh) of this rank's part whose perturbed, scaled and rounded vectors contain zero, with the time step, tag and ordinal flag of the face; in 2D only those that pass the type filter. The result does not depend on how pushes are batched or on the order in which threads process the faces.", "quantifier": "every grid, every data (including non-finite and degenerate values), every batching of pushes, every thread schedule", "why_tests_cant": "all data and all schedules; degenerate data is measure zero for random tests", "anchors": ["include/ftk/filters/critical_point_tracker_2d_regular.hh: update_timestep, check_simplex", "include/ftk/filters/critical_point_tracker_3d_regular.hh: update_timestep, check_simplex", "include/ftk/filters/critical_point_tracker.hh: advance_timestep, update_vector_field_scaling_factor", "include/ftk/filters/regular_tracker.hh: element_for_ordinal, element_for_interval"]}
{"id": "C68", "title": "a trajectory crosses 0 or 2 faces of every cell", "statement": "In every space-time cell whose data is available the tracker detects either no face or exactly two.", "quantifier": "every grid, every data, every cell", "why_tests_cant": "all data; depends on the whole history of pushes through the scaling factor", "anchors": ["include/ftk/filters/critical_point_tracker.hh: update_vector_field_scaling_factor", "include/ftk/filters/critical_point_tracker_2d_regular.hh: check_simplex", "include/ftk/filters/critical_point_tracker_3d_regular.hh: check_simplex"]}
{"id": "C69", "title": "trajectories are the curves of the detected points", "statement": "finalize() produces trajectories such that every detected point is in exactly one of them, once; consecutive points lie on faces of one cell; points on faces of one cell are neighbours in one trajectory; a trajectory ends only at the border of the data or is a closed loop, and loop is set exactly for closed ones; ids are 0,1,2,...", "quantifier": "every grid, every data, every thread schedule", "why_tests_cant": "all data and all schedules", "anchors": ["include/ftk/filters/critical_point_tracker_2d_regular.hh: finalize", "include/ftk/filters/critical_point_tracker_3d_regular.hh: finalize", "include/ftk/filters/critical_point_tracker.hh: trace_critical_points_offline", "include/ftk/geometry/cc2curves.hh: is_loop"]}
{"id": "C70", "title": "streaming trajectories", "statement": "With streaming trajectories enabled, after every advance the trajectories contain every critical point detected up to then exactly once; trajectories that are not complete grow at both ends until no new point continues them, new points form new trajectories, and a trajectory that did not grow is complete; points on faces of one cell end up in one trajectory and each point carries the id of its trajectory.", "quantifier": "every grid, every data, every history of pushes and advances, every thread schedule", "why_tests_cant": "the state depends on the whole history; merging events need special data", "anchors": ["include/ftk/filters/critical_point_tracker.hh: trace_critical_points_online", "include/ftk/filters/critical_point_tracker_2d_regular.hh: update_timestep", "include/ftk/filters/critical_point_tracker_3d_regular.hh: update_timestep"]}
{"id": "C71", "title": "the type filter keeps exactly the requested types", "statement": "With set_type_filter(mask), the detected critical points are exactly those found without a filter whose type is in the mask.", "quantifier": "every grid, every data, every mask", "why_tests_cant": "all data and masks; relates two runs", "anchors": ["include/ftk/filters/critical_point_tracker.hh: set_type_filter, filter_critical_point_type", "include/ftk/filters/critical_point_tracker_2d_regular.hh: update_timestep", "include/ftk/filters/critical_point_tracker_3d_regular.hh: update_timestep"]}
{"id": "C72", "title": "several ranks find what one rank finds", "statement": "On any number of MPI ranks with the default domain partition every critical point is detected by exactly one rank, and the gathered points and traced trajectories are those of a single rank.", "quantifier": "every grid, every data, every number of ranks, every thread schedule on each rank", "why_tests_cant": "needs all partitions and data; ranks cannot be enumerated", "anchors": ["include/ftk/filters/regular_tracker.hh: initialize", "include/ftk/ndarray/lattice_partitioner.hh: partition, add_ghost", "include/ftk/filters/critical_point_tracker.hh: trace_critical_points_offline", "include/ftk/filters/critical_point_tracker_2d_regular.hh: check_simplex", "include/ftk/filters/critical_point_tracker_3d_regular.hh: check_simplex"]}
{"id": "C73", "title": "streaming on several ranks", "statement": "With streaming trajectories on several ranks the root has the same trajectories as a single rank after every advance.", "quantifier": "every grid, every data, every number of ranks, every history", "why_tests_cant": "depends on the history on all ranks", "anchors": ["include/ftk/filters/critical_point_tracker.hh: trace_critical_points_online", "include/ftk/utils/gather.hh: gather"]}
{"id": "C74", "title": "Connected component tracking links overlapping components", "statement": "Pushing one labelled frame per time step and advancing after each one, the tracking graph contains an edge between two components exactly if they lie in consecutive frames and share a cell; finalize() gives every component of every frame a global label, the same along simple chains of edges, and births, deaths, merges and splits are those of the overlap relation.", "quantifier": "every number of frames, every frame size, every labelling", "why_tests_cant": "Needs all labelled sequences; overlaps, merges and splits combine over unboundedly many frames.", "anchors": ["include/ftk/filters/connected_component_tracker.hh", "include/ftk/tracking_graph/tracking_graph.hh"]}
{"id": "C75", "title": "Threshold tracking", "statement": "The threshold tracker labels, in every frame, the 4-connected regions of the cells that pass the comparison with the threshold (NaN and infinities included) and links regions of consecutive frames exactly if they overlap.", "quantifier": "every sequence of 2D frames, threshold and comparison mode", "why_tests_cant": "Regions are arbitrary sets of cells; tests cover a few shapes only.", "anchors": ["include/ftk/filters/threshold_tracker.hh", "include/ftk/filters/connected_component_tracker.hh", "include/ftk/algorithms/hoshen_kopelman.hh"]}
{"id": "C76", "title": "Streaming filter delivers every smoothed frame exactly once", "statement": "For every odd kernel and every stream of frames, after pushing all frames and finish() the callback has received each frame number once and in order, with the weighted sum of the frames around it, frames beyond the ends repeating the first or last frame; a frame is delivered as soon as its window is complete.", "quantifier": "every stream length, odd kernel length and data type with addition and scaling", "why_tests_cant": "Window positions, ring-buffer eviction and the two ends interact differently for every pair of stream and kernel length.", "anchors": ["include/ftk/filters/streaming_filter.hh"]}
{"id": "C77", "title": "Determinant, adjugate and inverse are exact", "statement": "det2/det3/det4 return the determinant; adjugate2/3 times the matrix is the determinant times the identity, on both sides; matrix_inverse2x2/3x3/4 return the determinant and, whenever it is not zero, the two-sided inverse.", "quantifier": "every real 2x2, 3x3 and 4x4 matrix (exact arithmetic)", "why_tests_cant": "the formulas must be identities of polynomials in up to 16 variables", "anchors": ["include/ftk/numeric/det.hh", "include/ftk/numeric/adjugate.hh", "include/ftk/numeric/matrix_inverse.hh"]}
{"id": "C78", "title": "Linear systems and least squares are solved exactly", "statement": "solve_linear2x2/3x3 return the determinant and, whenever it is not zero, the only solution; solve_least_square3x2 (and the versions with several right-hand sides for 3x2 and 4x3) return the only minimiser of the sum of squared residuals whenever the columns are independent.", "quantifier": "every matrix and right-hand side (exact arithmetic); every competing vector", "why_tests_cant": "optimality quantifies over all vectors", "anchors": ["include/ftk/numeric/linear_solver.hh", "include/ftk/numeric/matrix_multiplication.hh", "include/ftk/numeric/transpose.hh"]}
{"id": "C79", "title": "Characteristic polynomials", "statement": "characteristic_polynomial_2x2 and _3x3 return the coefficients of det(x I - A), their generalized versions those of det(A - x B): the polynomial has this value for every x.", "quantifier": "every matrix, every x (exact arithmetic)", "why_tests_cant": "a polynomial identity", "anchors": ["include/ftk/numeric/characteristic_polynomial.hh"]}
{"id": "C80", "title": "Inverse interpolation finds the zero", "statement": "inverse_lerp_s2v2/s3v3/s1v1/s2v3 return the barycentric coordinates of the only zero of the interpolated vector field and tell whether it lies in the simplex (up to the tolerance); integer_inverse_lerp_s1v2 tells whether it lies strictly between the two values.", "quantifier": "every non-degenerate set of corner values (exact arithmetic) and tolerance; every pair of integer vectors", "why_tests_cant": "existence, uniqueness and containment are claims over all points of the simplex", "anchors": ["include/ftk/numeric/inverse_linear_interpolation_solver.hh", "include/ftk/numeric/linear_interpolation.hh"]}
{"id": "C81", "title": "Gradients and Jacobians over a simplex", "statement": "gradient_2dsimplex2, gradient_3dsimplex2, jacobian_2dsimplex2 and jacobian_3dsimplex return the slope of the only linear function that interpolates the corner values (component c of a vector field in column c).", "quantifier": "every non-degenerate triangle and tetrahedron and all corner values (exact arithmetic)", "why_tests_cant": "an identity over all corner positions and values", "anchors": ["include/ftk/numeric/gradient.hh", "include/ftk/numeric/linear_solver.hh"]}
{"id": "C82", "title": "Real roots with multiplicities", "statement": "solve_quadratic_real_multiplicity and solve_cubic_real_multiplicity return a map in which every real number has its multiplicity as a root of the polynomial (absent: not a root), also when leading or trailing coefficients vanish.", "quantifier": "every nonzero polynomial whose coefficients are each zero or above the tolerances (exact arithmetic), every real number", "why_tests_cant": "soundness and completeness over all real numbers and all root configurations", "anchors": ["include/ftk/numeric/quadratic_solver.hh", "include/ftk/numeric/cubic_solver.hh", "include/ftk/numeric/linear_solver1.hh"]}
{"id": "C83", "title": "Real roots in an array", "statement": "solve_quadratic_real and solve_cubic_real write exactly the distinct real roots to the first elements of the array, return their number, and never write past the degree.", "quantifier": "every nonzero polynomial whose coefficients are each zero or above the tolerances (exact arithmetic), every array as long as the degree", "why_tests_cant": "all root configurations", "anchors": ["include/ftk/numeric/quadratic_solver.hh", "include/ftk/numeric/cubic_solver.hh"]}
{"id": "C84", "title": "Complex roots", "statement": "solve_quadratic and solve_cubic return all complex roots: the polynomial is the product of its leading coefficient and the differences to them, at every complex number; the sign of the returned discriminant tells whether they are real.", "quantifier": "every polynomial with nonzero leading coefficient, every complex number (exact arithmetic)", "why_tests_cant": "an identity of polynomials involving cube roots and cosines", "anchors": ["include/ftk/numeric/quadratic_solver.hh", "include/ftk/numeric/cubic_solver.hh", "include/ftk/numeric/sqrt.hh"]}
{"id": "C85", "title": "2D critical point types", "statement": "critical_point_type_2d returns saddle, source, sink, focus, center or degenerate exactly when the complex eigenvalues of the Jacobian say so; for a symmetric Hessian minimum, maximum, saddle or degenerate exactly when it is positive definite, negative definite, indefinite or singular. solve_eigenvalues_symmetric2x2 returns the two eigenvalues, the larger in absolute value first.", "quantifier": "every real 2x2 matrix (exact arithmetic)", "why_tests_cant": "both directions of each classification over all matrices and all vectors", "anchors": ["include/ftk/numeric/critical_point_type.hh", "include/ftk/numeric/eigen_solver2.hh"]}
{"id": "C86", "title": "3D critical point types", "statement": "critical_point_type_3d returns minimum, maximum, saddle or degenerate exactly when the symmetric Hessian is positive definite, negative definite, indefinite and nonsingular, or singular; solve_eigenvalues_symmetric3x3 returns the three eigenvalues; Jacobians of vector fields are classified.", "quantifier": "every real symmetric 3x3 matrix (exact arithmetic)", "why_tests_cant": "all matrices and all vectors; the discriminant of a symmetric matrix is never positive", "anchors": ["include/ftk/numeric/critical_point_type.hh", "include/ftk/numeric/eigen_solver3.hh"]}
{"id": "C87", "title": "Eigenvectors", "statement": "solve_eigenvectors2x2 and solve_eigenvectors3x3 return a unit eigenvector for each given eigenvalue.", "quantifier": "every real matrix and each of its real eigenvalues (exact arithmetic)", "why_tests_cant": "all matrices", "anchors": ["include/ftk/numeric/eigen_solver2.hh", "include/ftk/numeric/eigen_solver3.hh"]}
{"id": "C88", "title": "Gradients of sampled fields", "statement": "The gradient functions return, at every grid point inside of the boundary layer, the partial derivatives of the sampled field whenever it is a quadratic polynomial along the axes, in the units the function uses (unit square or grid), and 0 on the boundary layer.", "quantifier": "every grid size, every field that is quadratic along the axes, every grid point (exact arithmetic)", "why_tests_cant": "all fields and grid sizes, through the index arithmetic of the array", "anchors": ["include/ftk/ndarray/grad.hh:gradient2D", "include/ftk/ndarray/grad.hh:gradient2Dt", "include/ftk/ndarray/grad.hh:gradient3D", "include/ftk/ndarray/grad.hh:gradient3Dt"]}
{"id": "C89", "title": "Jacobians of sampled fields", "statement": "The Jacobian functions return, at every grid point inside of the boundary layer, the matrix of the partial derivatives of the sampled vector field whenever its components are quadratic along the axes, and never access memory outside of the arrays.", "quantifier": "every grid size, every vector field that is quadratic along the axes (exact arithmetic)", "why_tests_cant": "all fields and grid sizes, through the index arithmetic of the array", "anchors": ["include/ftk/ndarray/grad.hh:jacobian2D", "include/ftk/ndarray/grad.hh:jacobian2Dt", "include/ftk/ndarray/grad.hh:jacobian3D", "include/ftk/ndarray/grad.hh:jacobian3Dt"]}
{"id": "C90", "title": "Curl, cross product and acceleration fields", "statement": "vorticity3D returns the curl of the sampled field, cross_product3D the pointwise cross product, Jv_dot_v and JvT_dot_v the product of the Jacobian (transposed) with the vector, at every grid point inside of the boundary layer.", "quantifier": "every grid size, every pair of vector fields (derivatives: quadratic along the axes)", "why_tests_cant": "all fields and grid sizes", "anchors": ["include/ftk/ndarray/grad.hh:vorticity3D", "include/ftk/ndarray/grad.hh:cross_product3D", "include/ftk/ndarray/grad.hh:JvT_dot_v", "include/ftk/ndarray/grad.hh:Jv_dot_v"]}
{"id": "C91", "title": "Convolution and Gaussian smoothing", "statement": "conv2D and conv3D compute the correlation of the zero-padded data with the kernel (averaged over the kernel); the Gaussian kernels are positive multiples of exp(-r^2/(2 sigma^2)) around the centre and add up to one; Gaussian smoothing keeps the value of a constant field where the kernel does not reach over the boundary.", "quantifier": "every data, kernel, padding with kernel no larger than padded data, every nonzero sigma, every kernel size (exact arithmetic)", "why_tests_cant": "all sizes, paddings and fields, with unsigned wrap-around of the indices", "anchors": ["include/ftk/ndarray/conv.hh:conv2D", "include/ftk/ndarray/conv.hh:conv3D", "include/ftk/ndarray/conv.hh:gaussian_kernel", "include/ftk/ndarray/conv.hh:gaussian_kernel2D", "include/ftk/ndarray/conv.hh:gaussian_kernel3D", "include/ftk/ndarray/conv.hh:conv2D_gaussian"]}
{"id": "C92", "title": "Polynomial arithmetic", "statement": "The polynomial functions compute what their names say of coefficient arrays (index i the coefficient of x^i): evaluate gives the value, derivative the derivative, addition, subtraction, scalar multiplication and multiplication the coefficients of the sum, difference (P - Q), multiple and product, the in-place variants the same, and the tests for zero and constant polynomials hold exactly for those (tolerance 0).", "quantifier": "every pair of degrees, all coefficients, every point (exact arithmetic)", "why_tests_cant": "all degrees and coefficients; undefined reads outside of the arrays must never occur", "anchors": ["include/ftk/numeric/polynomial.hh:polynomial_evaluate", "include/ftk/numeric/polynomial.hh:polynomial_derivative", "include/ftk/numeric/polynomial.hh:polynomial_addition", "include/ftk/numeric/polynomial.hh:polynomial_subtraction", "include/ftk/numeric/polynomial.hh:polynomial_multiplication"]}
{"id": "C93", "title": "Values of rational functions", "statement": "evaluate_rational(P, Q, n, x) returns P(x)/Q(x) where it is defined, the limit of P/Q at x where numerator and denominator both vanish, infinity where only the denominator does; evaluate_rational_infinity returns the limit at infinity.", "quantifier": "every pair of polynomials, Q not the zero polynomial, every point and every order of common zeros (exact arithmetic)", "why_tests_cant": "common zeros of arbitrary order; a limit quantifies over all neighbourhoods", "anchors": ["include/ftk/numeric/rational_function.hh:evaluate_rational", "include/ftk/numeric/rational_function.hh:evaluate_rational_infinity"]}
{"id": "C94", "title": "Solution sets of polynomial inequalities", "statement": "solve_linear_inequality(a, b) returns the interval of all x with a x + b >= 0; solve_cubic_inequality_real(P) returns the set of all x with P(x) >= 0 as disjoint intervals.", "quantifier": "all coefficients (zero or above the tolerance) and every real x (exact arithmetic)", "why_tests_cant": "uncountably many inputs and members; root configurations are measure-zero sets a test does not hit", "anchors": ["include/ftk/numeric/linear_inequality_solver.hh:solve_linear_inequality", "include/ftk/numeric/cubic_inequality_solver.hh:solve_cubic_inequality_real", "include/ftk/numeric/disjoint_intervals.hh:join"]}
{"id": "C95", "title": "Triangle meshes: construction and incidences", "statement": "Building an unstructured triangle mesh from vertices and triangles (at most two triangles per edge, no triangle twice, three different vertices each) succeeds; triangles keep their ids with vertices in increasing order and the sign tells whether the orientation was flipped; edges are exactly the pairs of corners of triangles, numbered 0..n(1)-1 without repetition; find_edge and find_triangle invert get_edge and get_triangle for vertices in any order; sides, side_of, the neighbours of a vertex and the triangles of a vertex are exactly the incident simplices, as sorted sets.", "quantifier": "every number of vertices and every list of triangles in which an edge belongs to at most two triangles", "why_tests_cant": "ids are assigned by insertion order into maps and spread over seven arrays; tests use a handful of meshes, while a missing incidence shows up only for particular numberings", "anchors": ["include/ftk/mesh/simplicial_unstructured_2d_mesh.hh: build_triangles, build_edges, sides, side_of, find_edge, find_triangle, get_edge, get_triangle"]}
{"id": "C96", "title": "The extruded triangle mesh enumerates a simplicial complex", "statement": "For a triangle mesh extruded in time, the nonnegative ids of dimension d = 0..3 are in bijection with the (d)-simplices of the staircase triangulation of the prisms over its triangles at layers t >= 0: get_simplex(d, k) returns k itself and the d+1 increasing vertices of a simplex of layer k div n(d), every simplex has an id, no two ids have the same vertices; find_simplex returns the id of any such simplex from its vertices.", "quantifier": "every well-formed triangle mesh, every dimension, every nonnegative id, every simplex with vertices of nonnegative id", "why_tests_cant": "meshes and time steps are unbounded; a test only visits the ids of one mesh", "anchors": ["include/ftk/mesh/simplicial_unstructured_extruded_2d_mesh.hh: n, n_ordinal, flat_vertex_id, flat_vertex_time", "include/ftk/mesh/simplicial_unstructured_extruded_2d_mesh_implicit.hh: get_simplex, find_simplex, simplex_type"]}
{"id": "C97", "title": "Faces and cofaces in the extruded triangle mesh", "statement": "For every tetrahedron k >= 0 of the extruded mesh, sides(3, k) is exactly the set of triangles whose vertices are among its own, and for every triangle k >= 0, side_of(2, k) is exactly the set of tetrahedra containing it (its internal consistency check never aborts), including those of the layer below.", "quantifier": "every well-formed triangle mesh, every nonnegative tetrahedron and triangle id", "why_tests_cant": "the incidences must hold for every mesh and every layer; the tracker's connectivity rests on them", "anchors": ["include/ftk/mesh/simplicial_unstructured_extruded_2d_mesh_implicit.hh: sides, side_of"]}
{"id": "C98", "title": "Layers of the extruded triangle mesh", "statement": "is_ordinal(d, k) tells whether all vertices of simplex k are in one layer; element_for_ordinal(d, t) visits exactly once each simplex inside layer t and element_for_interval(d, t, t+1) each simplex with vertices in both layers; get_triangle_chi is the orientation of the triangle below for triangles inside a layer and 0 for the others; get_vertex_edge_vertex returns the vertices joined to a vertex by an edge.", "quantifier": "every well-formed triangle mesh, every dimension, every nonnegative id and layer", "why_tests_cant": "the tracker visits each layer and interval once; a missed or repeated simplex loses or duplicates a feature in some mesh", "anchors": ["include/ftk/mesh/simplicial_unstructured_extruded_2d_mesh.hh: is_ordinal, element_for_ordinal, element_for_interval, get_triangle_chi", "include/ftk/mesh/simplicial_unstructured_extruded_2d_mesh_implicit.hh: n_interval, get_vertex_edge_vertex"]}
{"id": "C99", "title": "A tetrahedral mesh numbers its triangles and edges once each, and all incidences agree", "statement": "From any list of tetrahedra (four different vertices, no two tetrahedra with the same vertices), the 3D unstructured mesh keeps the ids of the tetrahedra with their vertices in increasing order; its triangles and edges, with ids 0..n(d)-1, are exactly the sets of three and of two corners of a tetrahedron, once each; find_simplex returns the id of a simplex from its increasing vertices and fails for anything else; side_of returns exactly the simplices of the next dimension that contain a given simplex; get_vertex_edge_vertex returns exactly the vertices that share a tetrahedron with the given one.", "quantifier": "every number of vertices and every list of tetrahedra over them, every dimension, every id and every list of vertices looked up", "why_tests_cant": "the mesh is an arbitrary complex; a wrong face template, id or incidence shows only at particular meshes and at particular simplices of them", "anchors": ["include/ftk/mesh/simplicial_unstructured_3d_mesh.hh"]}
{"id": "C100", "title": "Bilinear and trilinear interpolation reproduce multilinear functions, and the inverse finds all zeros", "statement": "bilinear_interpolation3, bilinear_interpolation3_location (both layouts) and trilinear_interpolation3 return the value of the function linear in each coordinate that has the given corner values; inverse_bilinear_interpolation returns exactly the points of the unit square where two such functions vanish.", "quantifier": "every set of corner values and every point (exact arithmetic)", "why_tests_cant": "exactness and completeness are claims over all points of the cell and all corner values", "anchors": ["include/ftk/numeric/bilinear_interpolation.hh", "include/ftk/numeric/trilinear_interpolation.hh", "include/ftk/numeric/inverse_bilinear_interpolation_solver.hh"]}
{"id": "C101", "title": "Quadratic interpolation reproduces quadratic functions, their gradients and Hessians", "statement": "quadratic_interpolation_coefficients and quadratic_interpolation (and the barycentric variants) reproduce at every point the quadratic function with the six given values at the corners and edge midpoints of a triangle; the gradient functions return its partial derivatives and quadratic_interpolation_hessian its second derivatives.", "quantifier": "every non-degenerate triangle, six values, every point (exact arithmetic)", "why_tests_cant": "an identity over all triangles, values and points", "anchors": ["include/ftk/numeric/quadratic_interpolation.hh"]}
{"id": "C102", "title": "Rotations about an axis, and steps on a sphere", "statement": "axis_rotate_vector turns a vector about any non-zero axis by the given angle, keeping the part along the axis and the length. For a velocity tangent to the sphere, angular_stepping moves along the great circle through the position in the direction of the velocity by the arc length h |v|, keeps the radius, and advances time; angular_and_vertical_stepping also changes the radius by h v[4]; spherical_stepping stays on the sphere; spherical_rk1 and spherical_rk4_with_vertical_velocity follow a rigid rotation.", "quantifier": "every axis, angle, position, tangent velocity, step (exact arithmetic)", "why_tests_cant": "an identity over all positions, velocities and angles", "anchors": ["include/ftk/numeric/quaternion.hh: quatmul, axis_rotate_vector", "include/ftk/numeric/rk4.hh: angular_stepping, angular_and_vertical_stepping, spherical_stepping, spherical_rk1, spherical_rk4_with_vertical_velocity"]}
{"id": "C103", "title": "The classical Runge-Kutta step has order four and moves the particle only if it succeeds", "statement": "rk4 is exact for velocities that are cubic polynomials of time, and for a linear field x' = A x in any dimension returns the fourth order Taylor polynomial of exp(hA) x; when the field refuses one of the points it is asked for, the step returns false and the particle stays where it was.", "quantifier": "every dimension, matrix, cubic, position, step (exact arithmetic), every field", "why_tests_cant": "an identity over all fields of a class in every dimension", "anchors": ["include/ftk/numeric/rk4.hh: rk4, spherical_rk1, spherical_rk4_with_vertical_velocity"]}
{"id": "C104", "title": "Angles and barycentric coordinates are brought into range", "statement": "For y > 0 fmod1(x, y) is the number in [0, y) that differs from x by a multiple of y; mod2pi and mod2pi1 are the representatives of an angle in [0, 2 pi) and [-pi, pi); deg2rad and rad2deg are inverse to each other; clamp returns the nearest point of the interval; clamp_barycentric returns non-negative coordinates of sum one, unchanged if they already were, zero where they were not positive, and uniform if none was positive.", "quantifier": "every number, modulus, interval, dimension (exact arithmetic)", "why_tests_cant": "ranges and congruences over all reals", "anchors": ["include/ftk/numeric/fmod.hh", "include/ftk/numeric/rad.hh", "include/ftk/numeric/clamp.hh"]}
{"id": "C105", "title": "Points are located in the cells and layers of an ocean mesh, and Wachspress weights reproduce them", "statement": "For a convex cell, point_in_mpas_cell returns true exactly for the points in the cone of its vertices; locate_mpas_layer_bisection ends for every array and returns a layer containing z exactly if z is between the last and the first top, and locate_mpas_layer_brute_force agrees with it; inside a convex polygon wachspress_weights are positive, have sum one, and the weighted sum of the vertices is the point.", "quantifier": "every convex cell and number of vertices, every point, every array of layer tops (exact arithmetic)", "why_tests_cant": "any number of vertices and layers", "anchors": ["include/ftk/numeric/mpas.hh", "include/ftk/numeric/wachspress_interpolation.hh"]}
{"id": "C106", "title": "Matrix norms, condition numbers and symmetric parts", "statement": "matrix_1norm and matrix_inf_norm return the operator norms for the 1-norm and the maximum norm, matrix_frobenius_norm the Frobenius norm; cond_real2x2 and cond_real3x3 are at least one and bound the amplification of relative errors of the linear system; the symmetric and antisymmetric parts are the only such matrices whose sum is the given one; make_symmetric keeps the quadratic form.", "quantifier": "every matrix (exact arithmetic)", "why_tests_cant": "bounds over all vectors", "anchors": ["include/ftk/numeric/matrix_norm.hh", "include/ftk/numeric/cond.hh", "include/ftk/numeric/matrix_decomposition.hh", "include/ftk/numeric/symmetric_matrix.hh"]}
{"id": "C107", "title": "The degree of a critical point is its Poincare index", "statement": "critical_point_degree_simplex2 returns the Poincare index of the zero of the linear field inside a triangle, the sign of the determinant of its Jacobian, and 0 if there is none.", "quantifier": "every non-degenerate triangle and field on it (exact arithmetic)", "why_tests_cant": "a sign over all triangles and fields", "anchors": ["include/ftk/numeric/critical_point_degree.hh"]}
{"id": "C108", "title": "The extruded tetrahedral mesh enumerates a simplicial complex", "statement": "For a tetrahedral mesh extruded in time, the nonnegative ids of dimension d = 0..4 are in bijection with the d-simplices of the staircase triangulation of the prisms over its tetrahedra at layers t >= 0: get_simplex(d, k) gives the d+1 increasing vertices of a simplex of layer k div n(d), every simplex has an id, no two ids have the same vertices.", "quantifier": "every well-formed tetrahedral mesh, every dimension, every nonnegative id, every simplex with vertices of nonnegative id", "why_tests_cant": "meshes and times are unbounded; one wrong vertex shows only on some prisms", "anchors": ["include/ftk/mesh/simplicial_unstructured_extruded_3d_mesh.hh: get_simplex, simplex_type, n, mod"]}
{"id": "C109", "title": "Faces in the extruded tetrahedral mesh", "statement": "For every pentachoron k >= 0 of the extruded mesh, sides(4, k) is exactly the set of its five tetrahedra, and for every tetrahedron k >= 0, sides(3, k) exactly the set of its four triangles; the lookup assertions in the code never fail.", "quantifier": "every well-formed tetrahedral mesh, every nonnegative pentachoron and tetrahedron id", "why_tests_cant": "the incidences must hold for every mesh and every layer; the 4D trackers' connectivity rests on them", "anchors": ["include/ftk/mesh/simplicial_unstructured_extruded_3d_mesh.hh: sides"]}
{"id": "C110", "title": "Cofaces in the extruded tetrahedral mesh", "statement": "For every tetrahedron k >= 0 of the extruded mesh, side_of(3, k) is exactly the set of pentachora containing it, including those of the layer below, and for every triangle k >= 0, side_of(2, k) is the set of tetrahedra containing it.", "quantifier": "every well-formed tetrahedral mesh, every nonnegative tetrahedron and triangle id", "why_tests_cant": "the incidences must hold for every mesh and every layer; a missed coface splits a curve or surface", "anchors": ["include/ftk/mesh/simplicial_unstructured_extruded_3d_mesh.hh: side_of, position"]}
{"id": "C111", "title": "Layers of the extruded tetrahedral mesh", "statement": "is_ordinal(d, k) tells whether all vertices of simplex k are in one layer; element_for_ordinal(d, t) visits exactly once each d-simplex inside layer t and element_for_interval(d, t) each d-simplex with vertices in both layers t and t+1.", "quantifier": "every well-formed tetrahedral mesh, every dimension, every nonnegative id and layer", "why_tests_cant": "the tracker visits each layer and interval once; a missed or repeated simplex loses or duplicates features", "anchors": ["include/ftk/mesh/simplicial_unstructured_extruded_3d_mesh.hh: is_ordinal, n_ordinal, n_interval, element_for_ordinal, element_for_interval"]}
{"id": "C112", "title": "Characteristic polynomials of parallel vectors", "statement": "characteristic_polynomials_pv_s2v2 (triangle) and characteristic_polynomials_pv_s3v3 (tetrahedron) return polynomials Q and P[i] such that, for every lambda with Q(lambda) != 0, the point where v = lambda w has the barycentric coordinates P[i](lambda)/Q(lambda), and it is the only one; for a constant field w the linear polynomials P[i] are the coordinates themselves.", "quantifier": "all real values of the two fields at the corners, all lambda", "why_tests_cant": "the identity must hold for every pair of fields and every lambda: curves of parallel points are traced from these polynomials", "anchors": ["include/ftk/numeric/parallel_vector_solver2.hh: characteristic_polynomials_pv_s2v2", "include/ftk/numeric/parallel_vector_solver3.hh: characteristic_polynomials_pv_s3v3"]}
{"id": "C113", "title": "Parallel points on an edge in the plane", "statement": "solve_pv_s1v2 reports exactly the pairs (lambda, mu) with |lambda| > epsilon, v = lambda w at the point with weights mu, mu in the edge up to epsilon and the point isolated; each lambda once.", "quantifier": "all real values of two plane vector fields at the ends of an edge, every epsilon >= 0", "why_tests_cant": "a missed or wrong point breaks a traced curve for particular real data only", "anchors": ["include/ftk/numeric/parallel_vector_solver2.hh: solve_pv_s1v2", "include/ftk/numeric/quadratic_solver.hh: solve_quadratic_real"]}
{"id": "C114", "title": "Parallel points on a triangle in space", "statement": "solve_pv_s2v3 reports exactly the pairs (lambda, mu) with |lambda| > epsilon, v = lambda w at the point with weights mu, mu in the triangle up to epsilon and the point isolated; each lambda once, at most three.", "quantifier": "all real values of two vector fields at the corners of a triangle in space, every epsilon >= 0", "why_tests_cant": "the critical line tracker finds vortex cores by this function on every triangle; a missed root breaks a curve for particular real data only", "anchors": ["include/ftk/numeric/parallel_vector_solver3.hh: solve_pv_s2v3", "include/ftk/numeric/cubic_solver.hh: solve_cubic_real"]}
{"id": "C115", "title": "Parallel points on an edge in space", "statement": "solve_pv_s1v3 reports exactly the pairs (lambda, mu) with |lambda| > epsilon, v = lambda w at the point with weights mu of the edge, and INT_MAX if there are infinitely many; the result does not depend on the orientation of the edge.", "quantifier": "all real values of two vector fields at the ends of an edge in space, every epsilon >= 0", "why_tests_cant": "degenerate configurations (a zero component, fields that vanish at an end) are not hit by random tests", "anchors": ["include/ftk/numeric/parallel_vector_solver3.hh: solve_pv_s1v3"]}
{"id": "C116", "title": "Multiples for which a triangle contains a parallel point", "statement": "solve_pv_inequalities_s2v2 (constant field w) returns exactly the set of the lambda for which the point with v = lambda w lies in the triangle.", "quantifier": "all triangles whose values of v are not collinear, all w", "why_tests_cant": "the set must be right for every real value, including the ends of the intervals", "anchors": ["include/ftk/numeric/parallel_vector_solver2.hh: solve_pv_inequalities_s2v2, characteristic_polynomials_pv_s2v2"]}
{"id": "C117", "title": "Verification of parallel points", "statement": "The functions verify_pv_* accept a point if and only if the area of the parallelogram of the two interpolated vectors is at most epsilon; hence for every epsilon >= 0 they accept every point where the fields are parallel, and with epsilon = 0 no other.", "quantifier": "all fields, weights and epsilon >= 0", "why_tests_cant": "a wrong component would accept points for all fields with a zero there", "anchors": ["include/ftk/numeric/parallel_vector_solver2.hh: verify_pv_s0v2, verify_pv_s1v2, verify_pv_s2v2", "include/ftk/numeric/parallel_vector_solver3.hh: verify_pv_s0v3, verify_pv_s1v3, verify_pv_s2v3, verify_pv_s3v3"]}
{"id": "C118", "title": "Building the point locator of a 2D triangle mesh terminates exactly when no two triangles share a centroid", "statement": "Constructing the quadtree point locator of a 2D unstructured mesh (point_locator_2d_quad::initialize) terminates for every mesh with finite coordinates and valid connectivity in which different triangles have different centroids, in particular for every mesh whose triangles do not overlap. If two triangles (one of them not degenerate) have the same centroid, the recursion never ends.", "quantifier": "all 2D triangle meshes with valid connectivity and finite coordinates, any number of triangles", "why_tests_cant": "termination of an unbounded recursion for every mesh; a test can only try given meshes", "anchors": ["include/ftk/mesh/point_locator_2d_quad.hh: initialize, subdivide, update_bounds", "include/ftk/mesh/aabb.hh: AABB::contains, update_centroid"]}
{"id": "C119", "title": "Locating a point returns a triangle that contains it, with its barycentric coordinates", "statement": "point_locator_2d_quad::locate always ends without reading outside its arrays. If it returns a triangle, that triangle is not degenerate and contains the point, and mu are the point's barycentric coordinates (non-negative, sum one, reproducing the point). If the point is in a triangle and strictly below the largest x and y of that triangle's corners - in particular if the mesh covers the points next to it in the direction (+,+) - a triangle is found. The converse fails at the boundary: with two or more triangles, a point on the right or upper edge of the mesh's bounding box is never found, because boxes are half open; with one triangle every point of it is found.", "quantifier": "all meshes, all points", "why_tests_cant": "every point of the plane; the failing points are a set of measure zero that random tests miss", "anchors": ["include/ftk/mesh/point_locator_2d_quad.hh: locate, locate_point_nonrecursive, inside_triangle", "include/ftk/mesh/aabb.hh: AABB::contains"]}
{"id": "C120", "title": "Evaluating a field at a point interpolates it linearly", "statement": "simplicial_unstructured_2d_mesh::eval of a scalar array returns false exactly when the point is not located, and otherwise reproduces every field that is affine in the coordinates. For an array of vectors it does not: with one, two, or at least four components it reads outside the rows of its local array, and with three components it interpolates across components, so that a constant field (a,b,c) gives three equal components.", "quantifier": "all meshes, fields and points", "why_tests_cant": "all real-valued fields and points", "anchors": ["include/ftk/mesh/simplicial_unstructured_2d_mesh.hh: eval"]}
{"id": "C121", "title": "The flattened bounding volume hierarchy answers like exhaustive search", "statement": "For a mesh without degenerate triangles whose quadtree has at most 21 levels, the array that to_bvh builds can be searched from every point: bvh2_locate_point_tri never reads outside the array or overflows its stack of 64 entries, returns a triangle containing the point with its barycentric coordinates whenever the point is in some triangle, and -1 only if it is in none; any sequence of coherent searches, each starting from the leaf found last, returns correct results too.", "quantifier": "all meshes, all points, all sequences of searches", "why_tests_cant": "every point and every history of searches; stack overflow depends on depth", "anchors": ["include/ftk/mesh/point_locator_2d_quad.hh: to_bvh", "include/ftk/mesh/bvh2d.hh", "include/ftk/src/filters/locator2.cuh: bvh2_locate_point, bvh2_locate_point_tri, bvh2_locate_point_coherent"]}
{"id": "C122", "title": "relabel gives connected points one id", "statement": "After relabel on a surface, a volume or a line, two points have equal ids if and only if they are connected through cells (triangles, quadrilaterals, pentagons; tetrahedra; edges); nothing else changes.", "quantifier": "every surface, volume and line whose cells refer to existing points", "why_tests_cant": "connectivity is a property of arbitrary cell lists; tests try a few", "anchors": ["include/ftk/features/feature_surface.hh:relabel", "include/ftk/features/feature_volume.hh:relabel", "include/ftk/features/feature_line.hh:relabel"]}
{"id": "C123", "title": "reorient makes triangles consistent", "statement": "feature_surface_t::reorient keeps each triangle up to exchanging two of its points, and afterwards no two triangles traverse a common edge in the same direction, if the surface can be oriented so.", "quantifier": "every surface, with and without assertions", "why_tests_cant": "the traversal order and the orientations met depend on the whole mesh", "anchors": ["include/ftk/features/feature_surface.hh:reorient"]}
{"id": "C124", "title": "curves of a time slice and of a line set", "statement": "slice_time of a surface and to_curve_set of a line set return curves that cover every point with at most two neighbours exactly once, consecutive points are neighbours, two points are in one curve iff they are connected through such points, every curve is keyed by the id of its first point, and only closed curves are marked as loops.", "quantifier": "every surface and timestep, every line set with valid edges", "why_tests_cant": "the graph of neighbours is arbitrary", "anchors": ["include/ftk/features/feature_surface.hh:slice_time", "include/ftk/features/feature_line.hh:to_curve_set"]}
{"id": "C125", "title": "slices of a volume", "statement": "feature_volume_t::slice(f) returns the points that satisfy f in order, and one sorted triangle, once each, for the tetrahedra exactly three of whose points satisfy f; slice_time(t) is the slice of the points at timestep t.", "quantifier": "every volume, predicate and timestep", "why_tests_cant": "the tetrahedra and the predicate are arbitrary", "anchors": ["include/ftk/features/feature_volume.hh:slice", "include/ftk/features/feature_volume.hh:slice_time"]}
{"id": "C126", "title": "discard removes the points that satisfy a predicate", "statement": "feature_surface_t::discard(f) terminates, keeps all points that do not satisfy f in order, removes the points that satisfy f, and keeps exactly the cells with kept points, renumbered.", "quantifier": "every surface with valid triangles, every predicate, every distance function", "why_tests_cant": "the chain of parents depends on the whole history of removals", "anchors": ["include/ftk/features/feature_surface.hh:discard"]}
{"id": "C127", "title": "contour trackers find exactly the crossed edges", "statement": "After any run of the 2D or 3D contour tracker with finite data, one point is stored for exactly the space-time edges of the scanned part with one end above the threshold (by the resolution 2^-21 of the test) and one not, at the place where linear interpolation gives the threshold, with its tag, timestep and ordinal flag; related cells are exactly the cells of the grid around these edges; the result does not depend on the order in which the threads take the tasks or on how the pushes are batched.", "quantifier": "every grid, threshold, sequence of snapshots, batching of pushes and order of the parallel tasks", "why_tests_cant": "the data, the number of time steps and the schedule are unbounded", "anchors": ["include/ftk/filters/contour_tracker_2d_regular.hh:update_timestep", "include/ftk/filters/contour_tracker_3d_regular.hh:update_timestep", "include/ftk/filters/contour_tracker_2d_regular.hh:check_simplex", "include/ftk/filters/contour_tracker_3d_regular.hh:check_simplex", "include/ftk/filters/contour_tracker.hh:advance_timestep"]}
{"id": "C128", "title": "points of a contour lie on their edges", "statement": "The point that a contour tracker stores for an edge lies between the two ends of the edge (and in the domain).", "quantifier": "every edge and every pair of values at its ends", "why_tests_cant": "the values are arbitrary; the counterexamples are in a thin range above the threshold", "anchors": ["include/ftk/filters/contour_tracker_2d_regular.hh:check_simplex", "include/ftk/numeric/inverse_linear_interpolation_solver.hh:inverse_lerp_s1v1"]}
{"id": "C129", "title": "the contour surface in space-time is watertight", "statement": "build_surfaces() of the 2D contour tracker returns all points and triangles whose corners are three different points on edges of one cell; a side of a triangle in a face between cells is used once by each complete cell at the face, so twice away from the boundary, and a diagonal inside of a cell twice or never.", "quantifier": "every grid, threshold, sequence of snapshots, schedule and order of the cells", "why_tests_cant": "it is a statement on all cells and all configurations of signs", "anchors": ["include/ftk/filters/contour_tracker_2d_regular.hh:build_surfaces"]}
{"id": "C130", "title": "contour tracking on several ranks", "statement": "On several MPI ranks every rank of a contour tracker finds the points of the single-rank run that belong to its part and reads no memory outside of its arrays, also when the arrays hold only the part of the rank with ghosts.", "quantifier": "every decomposition, data and schedule", "why_tests_cant": "the decomposition and the data are arbitrary", "anchors": ["include/ftk/filters/contour_tracker_2d_regular.hh:update_timestep", "include/ftk/filters/contour_tracker_3d_regular.hh:update_timestep", "include/ftk/filters/regular_tracker.hh:initialize", "include/ftk/filters/contour_tracker_3d_regular.hh:simplex_values"]}
{"id": "C131", "title": "Ids of the torus mesh name its simplices", "statement": "On the torus made of np copies of a triangle mesh, every integer names a simplex, periodically with period n(d); the ids 0..n(d)-1 name every simplex of the torus exactly once, and find_simplex returns the id of a simplex from its vertices in any order.", "quantifier": "every well-formed triangle mesh, every number of planes (at least 3 for the positive part), every dimension, id and order of vertices", "why_tests_cant": "The wrap-around at the last plane depends on the number of planes and on which vertices lie on both sides; tests use one mesh and one number of planes.", "anchors": ["include/ftk/mesh/simplicial_xgc_3d_mesh.hh: get_simplex", "include/ftk/mesh/simplicial_xgc_3d_mesh.hh: find_simplex", "include/ftk/mesh/simplicial_xgc_3d_mesh.hh: transform", "include/ftk/mesh/simplicial_xgc_3d_mesh.hh: n"]}
{"id": "C132", "title": "Faces and cofaces on the torus", "statement": "sides(3, i) returns exactly the triangles whose vertices are among those of tetrahedron i, side_of(2, i) exactly the tetrahedra that contain triangle i, also across the last plane; every triangle inside a plane is a face of two tetrahedra, one on either side.", "quantifier": "every well-formed triangle mesh, every number of planes of at least 3, every id", "why_tests_cant": "Adjacency is computed from index arithmetic and checked by an assertion in the code itself; a mistake at the seam shows up only for some ids.", "anchors": ["include/ftk/mesh/simplicial_xgc_3d_mesh.hh: sides", "include/ftk/mesh/simplicial_xgc_3d_mesh.hh: side_of"]}
{"id": "C133", "title": "Planes and neighbours on the torus", "statement": "get_poloidal returns the plane of a simplex (the lower one if it lies between two), is_poloidal tells whether it lies in one plane and is_actual_poloidal whether that is a plane of the data; get_vertex_edge_vertex returns the vertices joined to a vertex by an edge.", "quantifier": "every well-formed triangle mesh, every number of planes, every id", "why_tests_cant": "Must hold for every id, including those at the seam and every vphi.", "anchors": ["include/ftk/mesh/simplicial_xgc_3d_mesh.hh: is_poloidal", "include/ftk/mesh/simplicial_xgc_3d_mesh.hh: is_actual_poloidal", "include/ftk/mesh/simplicial_xgc_3d_mesh.hh: get_poloidal", "include/ftk/mesh/simplicial_xgc_3d_mesh.hh: get_vertex_edge_vertex"]}
{"id": "C134", "title": "Values at the vertices of the torus", "statement": "interpolate reads the sample itself on a plane of the data; on a virtual plane it returns a value between the least and the greatest sample (so constants are reproduced) if the interpolants have non-negative weights that add up to 1; nothing is read out of bounds.", "quantifier": "every mesh, vphi, interpolants, data and vertex", "why_tests_cant": "The reads depend on the plane, vphi and the interpolants; bounds must hold for all of them.", "anchors": ["include/ftk/mesh/simplicial_xgc_3d_mesh.hh: interpolate", "include/ftk/numeric/xgc_interpolant.hh: xgc_interpolant_t"]}
{"id": "C135", "title": "Blobs of the threshold tracker are connected components", "statement": "After the snapshots have been pushed and processed, the labels of two vertices above the threshold, at the same or different steps, are equal if and only if the vertices are connected through vertices above the threshold (mesh edges, or the same vertex at consecutive steps); vertices below the threshold get -1; the label is the least id of the component and does not depend on the order of the loops.", "quantifier": "every mesh, threshold, series of snapshots and order in which the loops visit the vertices", "why_tests_cant": "Connected components over all steps are a global property; the union-find calls are made in parallel in any order.", "anchors": ["include/ftk/filters/xgc_blob_threshold_tracker.hh: update_timestep", "include/ftk/filters/xgc_blob_threshold_tracker.hh: get_sliced", "include/ftk/filters/xgc_tracker.hh: advance_timestep"]}
{"id": "C136", "title": "The derived threshold is a multiple of the standard deviation", "statement": "derive_threshold returns sigma_threshold times the standard deviation of the values in the region of interest; it does not change when a constant is added to the field and is 0 for constant fields.", "quantifier": "every field, region and number of planes", "why_tests_cant": "An algebraic identity in all values.", "anchors": ["include/ftk/filters/xgc_tracker.hh: derive_threshold"]}
{"id": "C137", "title": "Multilinear interpolation is correct on every grid", "statement": "For an array of any number of dimensions with components, mlerp(x, v) returns true exactly when every coordinate of x is at least 0 and less than the last index of its dimension; it then reads stored elements only and v is the multilinear interpolant of the cell that contains x: the stored value at grid points, exact on affine fields, and between the least and the greatest value stored around x.", "quantifier": "all dimensions, sizes, contents and points; exact arithmetic", "why_tests_cant": "the number of corners grows as 2^n and the positions are a continuum", "anchors": ["include/ftk/ndarray.hh: mlerp"]}
{"id": "C138", "title": "Spatially uniform fields are traced exactly", "statement": "When the snapshots of a series are uniform in space, a particle that cannot reach the boundary is recorded at the exact solution of the interpolated velocity, at every checkpoint and for any number of steps; after the whole series its displacement is the sum of the mean velocities of the intervals and its time is the number of intervals.", "quantifier": "all grids, velocities, numbers of steps and of snapshots; exact arithmetic", "why_tests_cant": "positions, velocities and step counts are unbounded", "anchors": ["include/ftk/filters/particle_tracer.hh: update_timestep, eval_vt", "include/ftk/filters/particle_tracer_regular.hh: eval_v", "include/ftk/numeric/rk4.hh: rk4"]}
{"id": "C139", "title": "The time of a traced particle", "statement": "Every accepted step advances a particle by delta_t / nsteps_per_interval, checkpoints carry the time of their step, and a particle that completes the interval ends delta_t later, at the time of the next snapshot; time alone never stops a particle.", "quantifier": "all fields, particles, steps and values of delta_t", "why_tests_cant": "the fields and delta_t are arbitrary", "anchors": ["include/ftk/filters/particle_tracer.hh: update_timestep, eval_vt, set_delta_t"]}
{"id": "C140", "title": "What an update appends to trajectories", "statement": "update_timestep only appends points: one at every checkpoint (at the interval that was set) and one at the end, each reached by the accepted steps since the last point, each with the velocity there; what it appends to one trajectory does not depend on the others; without a second snapshot it does nothing, unless the series has one snapshot.", "quantifier": "all fields, trajectories, numbers of steps and checkpoint intervals", "why_tests_cant": "all fields and lengths", "anchors": ["include/ftk/filters/particle_tracer.hh: update_timestep, set_nsteps_per_checkpoint"]}
{"id": "C141", "title": "Traced particles stay on the grid", "statement": "Every recorded point of a particle that starts on the grid is on the grid; a particle outside of it is not moved.", "quantifier": "all fields, particles and step counts", "why_tests_cant": "all fields and positions", "anchors": ["include/ftk/filters/particle_tracer.hh: update_timestep", "include/ftk/numeric/rk4.hh: rk4", "include/ftk/ndarray.hh: mlerp"]}
{"id": "C142", "title": "Vortices are found by the winding of the phase", "statement": "For Ginzburg-Landau data every triangle has one winding number (the sum of the three gauge invariant phase differences plus the flux of the magnetic field, in turns); a triangle is reported as punctured exactly if it is not 0, provided the flux is less than half a quantum.", "quantifier": "all corner positions, phases, potentials and magnetic fields", "why_tests_cant": "all real phases and fields", "anchors": ["include/ftk/filters/tdgl_vortex_tracker_3d_regular.hh: check_simplex, simplex_values, magnetic_potential, line_integral, build_vortex_surfaces", "include/ftk/numeric/fmod.hh: mod2pi1", "include/ftk/numeric/inverse_linear_interpolation_solver.hh: inverse_lerp_s2v2"]}
{"id": "C143", "title": "Vortices do not end inside tetrahedra", "statement": "The report for a triangle does not depend on its orientation, and a tetrahedron never has exactly one punctured face.", "quantifier": "all phases, magnitudes and fields with less than half a quantum of flux per face", "why_tests_cant": "all real phases and fields", "anchors": ["include/ftk/filters/tdgl_vortex_tracker_3d_regular.hh: check_simplex, simplex_values, magnetic_potential, line_integral, build_vortex_surfaces", "include/ftk/numeric/fmod.hh: mod2pi1", "include/ftk/numeric/inverse_linear_interpolation_solver.hh: inverse_lerp_s2v2"]}
{"id": "C144", "title": "Vortex points are zeros of the order parameter", "statement": "The point reported for a punctured triangle lies inside it and is the zero of the linear interpolation of the complex order parameter.", "quantifier": "all triangles, phases, magnitudes and fields", "why_tests_cant": "all real values", "anchors": ["include/ftk/filters/tdgl_vortex_tracker_3d_regular.hh: check_simplex, simplex_values, magnetic_potential, line_integral, build_vortex_surfaces", "include/ftk/numeric/fmod.hh: mod2pi1", "include/ftk/numeric/inverse_linear_interpolation_solver.hh: inverse_lerp_s2v2"]}
{"id": "C145", "title": "Vortex surfaces of a cell", "statement": "A space-time cell has no, three, four or five punctured faces and contributes the triangulation of the polygon with these corners; the buffer of six face numbers never overflows.", "quantifier": "all values on the five corners of a cell", "why_tests_cant": "all real values and all combinations of punctured faces", "anchors": ["include/ftk/filters/tdgl_vortex_tracker_3d_regular.hh: check_simplex, simplex_values, magnetic_potential, line_integral, build_vortex_surfaces", "include/ftk/numeric/fmod.hh: mod2pi1", "include/ftk/numeric/inverse_linear_interpolation_solver.hh: inverse_lerp_s2v2"]}
{"id": "C146", "title": "Critical line tracker: points on the triangles", "statement": "For a 3D+time field of two channels, streamed into the critical line tracker snapshot by snapshot, the tracker finishes and stores exactly one point for every triangle of the space-time mesh in the domain of the process that the line of zeros (u = v = 0, of the values rounded to multiples of 2^-21, ties broken by the simulation of simplicity) passes through, and no other. The point lies in the triangle, at the zero of the linear interpolation of the vectors in space and time, and records the time step, the integer id of the triangle and whether it lies in one time step. The result does not depend on the order in which threads take the triangles nor on how pushes are batched.", "quantifier": "all 3D grids and domain parts that fit in an int, all series of finite values below 2^42, all orders of tasks in both loops, all batchings of pushes in which the snapshots needed have arrived, last step by update or advance", "why_tests_cant": "The number of triangles grows with the grid, degenerate values need all tie-breaking cases, and the order of tasks is chosen by threads", "anchors": ["include/ftk/filters/critical_line_tracker.hh", "include/ftk/filters/critical_line_tracker_3d_regular.hh", "include/ftk/mesh/simplicial_regular_mesh.hh", "include/ftk/numeric/critical_point_test.hh"]}
{"id": "C147", "title": "Critical line tracker: surfaces traced by the lines", "statement": "After all time steps are processed on one process, the tracker builds the surfaces that the critical lines sweep: the 4-cells of the space-time mesh that contain a pierced triangle, each once; each has at most five pierced triangles among its ten, so that the fixed array of six ids never overflows, and between three and five when it lies within the data. The surface has one vertex per pierced triangle, and the pieces within a cell should form a polygon of these vertices.", "quantifier": "all grids, series, orders and batchings as before; all orders in which threads handle cells", "why_tests_cant": "Overflow of the array and the count depend on all value configurations of five vertices with tie breaking", "anchors": ["include/ftk/filters/critical_line_tracker_3d_regular.hh"]}
{"id": "C148", "title": "TDGL vortex tracker: points on the triangles", "statement": "For a series of 3D TDGL snapshots streamed into the vortex tracker, the tracker finishes and stores exactly one point for every triangle of the space-time mesh in the domain of the process around which the phase, corrected for the vector potential, turns, and no other; it records the time step, the id of the triangle and whether it lies in one time step. The 4-cells collected for the surfaces are those with one of these triangles. The result does not depend on the order in which threads take the triangles nor on how pushes are batched.", "quantifier": "all 3D grids and domain parts that fit in an int, all metadata and values, all orders of tasks in both loops, all batchings of pushes in which the snapshots needed have arrived", "why_tests_cant": "The order of tasks is chosen by threads and the number of triangles grows with the grid", "anchors": ["include/ftk/filters/tdgl_vortex_tracker.hh", "include/ftk/filters/tdgl_vortex_tracker_3d_regular.hh"]}
{"id": "C149", "title": "The isovolume of a 3D contour tracker", "statement": "With the whole domain on the process and every pushed snapshot processed, building the isovolume of a 3D contour tracker never overflows a buffer or fails an assertion. Its points are the points found, and every complete space-time cell contributes exactly the piece of volume it should: with one vertex on its own side of the threshold the tetrahedron of the points on its four edges; with two vertices on a side the prism of the points on the six edges between the sides, split along a staircase into three tetrahedra; otherwise nothing. The order of the cells does not matter. A cell with missing vertices (at the last time step) should contribute nothing; the code adds a flat tetrahedron when its four known vertices are split two and two.", "quantifier": "all grids whose indices fit in an int, all finite scalar fields, thresholds, numbers of time steps, orders of tasks and of cells", "why_tests_cant": "The number of cells and the combinations of values at their vertices are unbounded, and the order in which threads process them is not controlled", "anchors": ["include/ftk/filters/contour_tracker_3d_regular.hh"]}
{"id": "C150", "title": "Reusing a tracker of lines or vortices after reset", "statement": "After reset(), whatever a 3D critical line tracker or TDGL vortex tracker has done before, streaming a new series into it finds exactly the points (and, for the surfaces, the cells) that a new tracker would find for that series. In the code the points are those of a new tracker that starts at time step 0, also where set_start_timestep gave another start; and the cells collected by the vortex tracker before the reset stay in its list.", "quantifier": "all previous histories of the tracker, all grids that fit in an int, all series, orders of tasks and batchings of pushes", "why_tests_cant": "The history before the reset is arbitrary, and so are the series after it and the order in which threads take the triangles", "anchors": ["include/ftk/filters/critical_line_tracker_3d_regular.hh", "include/ftk/filters/tdgl_vortex_tracker_3d_regular.hh", "include/ftk/filters/critical_line_tracker.hh"]}
