{
 "claims": [
  {
   "property": "C01",
   "status": "proved",
   "theorems": [
    "C01_simple_union_find_is_closure"
   ],
   "note": ""
  },
  {
   "property": "C02",
   "status": "proved",
   "theorems": [
    "C02_union_find_get_sets"
   ],
   "note": ""
  },
  {
   "property": "C03",
   "status": "proved",
   "theorems": [
    "C03_duf_sequential"
   ],
   "note": ""
  },
  {
   "property": "C04",
   "status": "partial",
   "theorems": [
    "C04_duf_concurrent_safety_partial",
    "C04_duf_concurrent_exact_if_no_interference_partial",
    "C04_duf_concurrent_union_refuted"
   ],
   "note": "The full claim is false of the code (C04_duf_concurrent_union_refuted: unite(1,3) || unite(2,3) loses a union). Proved: safety for every interleaving, and exactness for every schedule in which no write hits a key that stopped being a root. The model treats each mutex-protected section as one atomic step."
  },
  {
   "property": "C05",
   "status": "proved",
   "theorems": [
    "C05_lattice_index_bijection"
   ],
   "note": ""
  },
  {
   "property": "C06",
   "status": "proved",
   "theorems": [
    "C06_cores_tile_the_domain"
   ],
   "note": ""
  },
  {
   "property": "C07",
   "status": "proved",
   "theorems": [
    "C07_np_blocks_or_none",
    "C07_np_blocks_when_room"
   ],
   "note": ""
  },
  {
   "property": "C08",
   "status": "proved",
   "theorems": [
    "C08_extent_is_clamped_dilation",
    "C08_extents_of_a_request"
   ],
   "note": ""
  },
  {
   "property": "C09",
   "status": "partial",
   "theorems": [
    "C09_partition_terminates_partial",
    "C09_partition_terminates_refuted"
   ],
   "note": "The full claim is false of the code (C09_partition_terminates_refuted: given={2,2,0}, np=8 on a domain with unlimited time loops forever). Proved: termination for one entry per cuttable dimension."
  },
  {
   "property": "C10",
   "status": "proved",
   "theorems": [
    "C10_addressing"
   ],
   "note": ""
  },
  {
   "property": "C11",
   "status": "proved",
   "theorems": [
    "C11_slice"
   ],
   "note": ""
  },
  {
   "property": "C12",
   "status": "proved",
   "theorems": [
    "C12_stack_then_slice_time",
    "C12_slice_time_then_stack",
    "C12_concat"
   ],
   "note": ""
  },
  {
   "property": "C13",
   "status": "proved",
   "theorems": [
    "C13_transpose"
   ],
   "note": ""
  },
  {
   "property": "C14",
   "status": "partial",
   "theorems": [
    "C14_min_max_integers_partial",
    "C14_min_max_floats_partial",
    "C14_min_max_refuted"
   ],
   "note": "The full claim is false of the code for floating types (C14_min_max_refuted: numeric_limits<float>::min() is the smallest positive float, so all-negative arrays report a wrong maximum). Proved: exact for integer types, and for floats as soon as one element is >= FLT_MIN. NaN and infinities are not modelled."
  },
  {
   "property": "C15",
   "status": "proved",
   "theorems": [
    "C15_ndarray_roundtrip",
    "C15_ndarray_string_roundtrip"
   ],
   "note": ""
  },
  {
   "property": "C16",
   "status": "proved",
   "theorems": [
    "C16_element_ids",
    "C16_element_ids_distinct"
   ],
   "note": ""
  },
  {
   "property": "C17",
   "status": "proved",
   "theorems": [
    "C17_element_for",
    "C17_scopes"
   ],
   "note": "Under the C44 side conditions (at least one thread, ntasks + nthreads <= 2^31)."
  },
  {
   "property": "C18",
   "status": "proved",
   "theorems": [
    "C18_unit_types"
   ],
   "note": ""
  },
  {
   "property": "C19",
   "status": "proved",
   "theorems": [
    "C19_sides"
   ],
   "note": ""
  },
  {
   "property": "C20",
   "status": "proved",
   "theorems": [
    "C20_side_of"
   ],
   "note": ""
  },
  {
   "property": "C21",
   "status": "proved",
   "theorems": [
    "C21_facets"
   ],
   "note": ""
  },
  {
   "property": "C22",
   "status": "proved",
   "theorems": [
    "C22_sign_det2",
    "C22_sign_det3",
    "C22_sign_det4"
   ],
   "note": ""
  },
  {
   "property": "C23",
   "status": "proved",
   "theorems": [
    "C23_perturbed_det2",
    "C23_perturbed_det3",
    "C23_perturbed_det4",
    "C23_positive"
   ],
   "note": ""
  },
  {
   "property": "C24",
   "status": "proved",
   "theorems": [
    "C24_bubble_sort",
    "C24_antisymmetric",
    "C24_parity"
   ],
   "note": ""
  },
  {
   "property": "C25",
   "status": "proved",
   "theorems": [
    "C25_vertex_order"
   ],
   "note": ""
  },
  {
   "property": "C26",
   "status": "proved",
   "theorems": [
    "C26_facets"
   ],
   "note": ""
  },
  {
   "property": "C27",
   "status": "proved",
   "theorems": [
    "C27_segment",
    "C27_triangle",
    "C27_tetrahedron",
    "C27_any_triangle",
    "C27_any_tetrahedron"
   ],
   "note": ""
  },
  {
   "property": "C28",
   "status": "proved",
   "theorems": [
    "C28_components",
    "C28_components_nodes"
   ],
   "note": ""
  },
  {
   "property": "C29",
   "status": "proved",
   "theorems": [
    "C29_bfs",
    "C29_bfs_disqualified_seed"
   ],
   "note": ""
  },
  {
   "property": "C30",
   "status": "proved",
   "theorems": [
    "C30_bfs_components",
    "C30_same_components"
   ],
   "note": ""
  },
  {
   "property": "C31",
   "status": "proved",
   "theorems": [
    "C31_labels"
   ],
   "note": "For labels cleared by the caller (the function itself does not clear them; see C31_stale_labels). IdType = size_t."
  },
  {
   "property": "C32",
   "status": "partial",
   "theorems": [
    "C32_overlap",
    "C32_labels_partial",
    "C32_labels_refuted"
   ],
   "note": "track_connected_components: proved in full. The label variant is false of the code (C32_labels_refuted: equal labels are dropped); proved: exactly the co-occurring pairs of different non-zero labels."
  },
  {
   "property": "C33",
   "status": "proved",
   "theorems": [
    "C33_linear_components",
    "C33_is_loop"
   ],
   "note": "Neighbour function symmetric; special nodes (more than two neighbours) are dropped by the code, as the property says."
  },
  {
   "property": "C34",
   "status": "partial",
   "theorems": [
    "C34_labels_partial",
    "C34_overrun",
    "C34_within_buffer_refuted",
    "C34_not_2d"
   ],
   "note": "The full claim is false of the code (C34_within_buffer_refuted: the label buffer has nelem/2 entries and is overrun, e.g. by two diagonal cells of a 2x2 array). Proved: an exact characterisation - correct labelling whenever fewer than nelem/2 cells start a provisional label, and a buffer overrun in every other case (C34_overrun). Labels are unbounded naturals."
  },
  {
   "property": "C35",
   "status": "partial",
   "theorems": [
    "C35_shortest_partial",
    "C35_unreachable_undefined",
    "C35_unreachable_refuted"
   ],
   "note": "Proved for every reachable destination (T as Z; path lengths below numeric_limits<T>::max()). The claim about unreachable destinations is false of the code: the uninitialised u is read (C35_unreachable_undefined; C35_unreachable_refuted for class node types)."
  },
  {
   "property": "C36",
   "status": "proved",
   "theorems": [
    "C36_contains",
    "C36_disjoint",
    "C36_overlaps",
    "C36_empty"
   ],
   "note": "Values as an order-isomorphic copy of T in Z (the functions use only comparisons); points strictly between the two extreme values. Reversed constructor arguments: see C58."
  },
  {
   "property": "C37",
   "status": "partial",
   "theorems": [
    "C37_intersect_exact",
    "C37_joins_partial",
    "C37_join_flags_refuted",
    "C37_join_dropped_refuted",
    "C37_intersect_dropped_refuted",
    "C37_lower_inf",
    "C37_lower_inf_refuted"
   ],
   "note": "False of the code in three ways (join keeps the wrong open flag; an interval with the same lower end as a stored one is dropped; set_lower_inf on integers writes the upper end). Proved: single intersections are exact for all end kinds; after any sequence of joins of non-degenerate intervals contains() is right except possibly at ends."
  },
  {
   "property": "C38",
   "status": "partial",
   "theorems": [
    "C38_gcd",
    "C38_arithmetic_partial",
    "C38_integer_arithmetic",
    "C38_less_partial",
    "C38_less_int_partial",
    "C38_equal_partial",
    "C38_greater_int_partial",
    "C38_binary_refuted",
    "C38_compare_refuted",
    "C38_less_diverges"
   ],
   "note": "Unbounded integers (no overflow). All compound assignments proved exact for every legal operand. False of the code: binary + and - ignore the first operand (C38_binary_refuted); comparisons on results with negative denominator, which += and -= produce from reduced operands (C38_compare_refuted), and < may not terminate there (C38_less_diverges). Proved: < for positive denominators, == and > for reduced fractions."
  },
  {
   "property": "C39",
   "status": "partial",
   "theorems": [
    "C39_add_sub",
    "C39_mul",
    "C39_compare",
    "C39_integers",
    "C39_div_refuted"
   ],
   "note": "Division is wrong in the code (C39_div_refuted). Everything else proved, with 64-bit overflow as undefined behaviour. Conversion from floating point is not modelled."
  },
  {
   "property": "C40",
   "status": "partial",
   "theorems": [
    "C40_relabel_partial",
    "C40_relabel_unbranched_partial",
    "C40_relabel_refuted"
   ],
   "note": "False of the code at splits and merges (C40_relabel_refuted: an edge needs degree one on only ONE linked side, so A->B, A->C all share a label). Proved: labels are 1..N, all used, and shared exactly along chains of edges that are simple on at least one side; the full claim when no edge is simple on exactly one side. Global labels unbounded; each call atomic (the class locks a mutex)."
  },
  {
   "property": "C41",
   "status": "partial",
   "theorems": [
    "C41_events_partial",
    "C41_events_refuted"
   ],
   "note": "Proved for histories with no edge inside one timestep, on a graph whose events were not detected before. With such an edge the claim is false (C41_events_refuted: two deaths disappear). Calling detect_events twice appends duplicates."
  },
  {
   "property": "C42",
   "status": "proved",
   "theorems": [
    "C42_event_type",
    "C42_event_name"
   ],
   "note": ""
  },
  {
   "property": "C43",
   "status": "proved",
   "theorems": [],
   "note": "For nodes with at least one arc, which is what the property is about; reduce() proved too. Nodes without arcs: C59."
  },
  {
   "property": "C44",
   "status": "partial",
   "theorems": [
    "C44_parallel_for_partial",
    "C44_zero_threads_refuted",
    "C44_overflow_refuted"
   ],
   "note": "Proved for nthreads >= 1 and ntasks + nthreads <= 2^31, every interleaving. The full claim is false of the code outside that range: nthreads == 0 (which hardware_concurrency() may return) never returns (C44_zero_threads_refuted), and near INT_MAX the loop counter overflows (C44_overflow_refuted)."
  },
  {
   "property": "C45",
   "status": "partial",
   "theorems": [
    "C45_async_ptr_safety_partial",
    "C45_async_ptr_unseparated_partial",
    "C45_async_ptr_double_free_refuted"
   ],
   "note": "The full claim is false of the code (C45_async_ptr_double_free_refuted: the decrement and the zero test are separate accesses, so two threads can both delete). Proved: safety of every error-free interleaving, and absence of memory errors when decrement and test are not separated."
  },
  {
   "property": "C46",
   "status": "proved",
   "theorems": [
    "C46_gather_map",
    "C46_gather_merger",
    "C46_gather_set",
    "C46_allgather_map"
   ],
   "note": "MPI collectives modelled after the standard; sizes below 2^31 bytes; allgather merges into what out already holds (its own entries win), so the ranks agree when out was empty. tbb containers not modelled."
  },
  {
   "property": "C47",
   "status": "partial",
   "theorems": [
    "C47_all2all_partial",
    "C47_all2all_refuted"
   ],
   "note": "False of the code for three or more ranks: the receive displacements are all zero, so EVERY such call overlaps messages (C47_all2all_refuted, for all inputs). Proved for one and two ranks."
  },
  {
   "property": "C48",
   "status": "proved",
   "theorems": [
    "C48_redistribute"
   ],
   "note": "Sizes below 2^31 bytes; out initially empty; collisions on the inner key are won by the lowest rank."
  },
  {
   "property": "C49",
   "status": "proved",
   "theorems": [
    "C49_nearest",
    "C49_nearest_rounded",
    "C49_as_naive",
    "C49_default_limit",
    "C49_outcomes_exist",
    "C49_rounding_exists"
   ],
   "note": "Coordinates are rationals with an arbitrary rounding function (monotone, idempotent, rnd 0 = 0); C49_nearest is the exact case. std::nth_element is any outcome the standard allows. N <= 2^max_level covers the default limit. NaN/inf not modelled; find_nearest_nonrecursive does not compile when instantiated."
  },
  {
   "property": "C50",
   "status": "partial",
   "theorems": [
    "C50_split_partial",
    "C50_split_refuted"
   ],
   "note": "False for EVERY curve whose type changes (C50_split_refuted): the first point of each new type is dropped. Proved: pieces are non-empty, of constant type, in order; exact for curves of constant type."
  },
  {
   "property": "C51",
   "status": "proved",
   "theorems": [
    "C51_adjust_time",
    "C51_no_change"
   ],
   "note": "Times are integers (multiples of a unit); only comparisons are made."
  },
  {
   "property": "C52",
   "status": "proved",
   "theorems": [
    "C52_unwrap",
    "C52_bounds"
   ],
   "note": "Exact arithmetic; an empty curve makes at() throw."
  },
  {
   "property": "C53",
   "status": "proved",
   "theorems": [
    "C53_rotate",
    "C53_reorder"
   ],
   "note": "rotate() of an empty loop is undefined (front())."
  },
  {
   "property": "C54",
   "status": "proved",
   "theorems": [
    "C54_smooth_interval_types",
    "C54_no_ordinals",
    "C54_smooth_ordinal_types"
   ],
   "note": "Both smooth_interval_types and smooth_ordinal_types are fully characterised."
  },
  {
   "property": "C55",
   "status": "proved",
   "theorems": [
    "C55_discard",
    "C55_select",
    "C55_select_order",
    "C55_intercept",
    "C55_statistics",
    "C55_consistent_type"
   ],
   "note": "intercept for curves in time order (as its comment assumes), non-empty and with a set id; statistics for values within the range of double."
  },
  {
   "property": "C56",
   "status": "proved",
   "theorems": [
    "C56_order",
    "C56_add",
    "C56_add_defined",
    "C56_add_overflow",
    "C56_add_label",
    "C56_add_all",
    "C56_filter",
    "C56_from_list"
   ],
   "note": "multimap entries in iteration order. add at INT_MAX is undefined (C56_add_overflow)."
  },
  {
   "property": "C57",
   "status": "partial",
   "theorems": [
    "C57_vtp_partial",
    "C57_vtp_refuted_two",
    "C57_vtp_refuted_point",
    "C57_vtp_refuted_loop"
   ],
   "note": "False for every set with two curves that start at different points, with a loop, or with a single-point curve (three refutation theorems): from_vtp ignores the point ids of the cells and the verts. Proved for exactly one non-loop curve of two or more points, up to float rounding / 32-bit ids (timestep, scalars and ordinal are not exported)."
  },
  {
   "property": "C58",
   "status": "partial",
   "theorems": [
    "C58_empty_partial",
    "C58_empty_refuted"
   ],
   "note": "False for reversed closed intervals and for [v,v) (C58_empty_refuted): contains() tests the ends without testing emptiness. Proved: right at every point other than the ends."
  },
  {
   "property": "C59",
   "status": "partial",
   "theorems": [],
   "note": "False for nodes without arcs (C59_reduce_node_refuted: an arc between IdType(-1) and itself appears; C59_last_node_undefined: an empty set is dereferenced)."
  },
  {
   "property": "C60",
   "status": "proved",
   "theorems": [
    "C60_scatterv"
   ],
   "note": ""
  },
  {
   "property": "C61",
   "status": "partial",
   "theorems": [
    "C61_bcastv_partial",
    "C61_bcastv_refuted"
   ],
   "note": "False for containers that are not empty on the receiving rank (C61_bcastv_refuted: entries are merged). Proved for default-constructed receivers."
  },
  {
   "property": "C62",
   "status": "partial",
   "theorems": [
    "C62_leaf_partial",
    "C62_shared_coordinate_refuted"
   ],
   "note": "False when points share a coordinate (C62_shared_coordinate_refuted). Proved for points whose coordinates are not shared."
  },
  {
   "property": "C63",
   "status": "partial",
   "theorems": [
    "C63_limit_partial",
    "C63_limit_refuted"
   ],
   "note": "False for limits that do not suffice (C63_limit_refuted): points below truncated leaves are lost. Proved for N <= 2^max_level."
  },
  {
   "property": "C64",
   "status": "proved",
   "theorems": [
    "C64_split_geo"
   ],
   "note": "Exact arithmetic."
  },
  {
   "property": "C65",
   "status": "partial",
   "theorems": [
    "C65_assign_partial",
    "C65_self_assign_refuted"
   ],
   "note": "False for self-assignment, for every curve with a point (C65_self_assign_refuted): operator= clears the curve first."
  },
  {
   "property": "C66",
   "status": "proved",
   "theorems": [
    "C66_split_all",
    "C66_ids"
   ],
   "note": "Pieces may lack points of the old curve: that loss is C50."
  },
  {
   "property": "C67",
   "status": "proved",
   "theorems": [
    "C67_detection",
    "C67_schedule"
   ],
   "note": "Without GMP and accelerator, robust detection. Position, time, scalar, velocity and type of a point are an arbitrary function of the data in memory; determinants are exact integers; log2 in the scaling factor is exact."
  },
  {
   "property": "C68",
   "status": "partial",
   "theorems": [
    "C68_cell",
    "C68_detected_partial",
    "C68_scaling_refuted"
   ],
   "note": "False when a later snapshot changes the scaling factor (C68_scaling_refuted). Proved for a factor that stays the same, on one rank without type filter."
  },
  {
   "property": "C69",
   "status": "partial",
   "theorems": [
    "C69_trajectories_partial",
    "C69_short_loop_refuted"
   ],
   "note": "False for the loop flag of trajectories with two points (C69_short_loop_refuted: loop is set iff first and last face share a cell), and, through C68, when the scaling factor changes. Proved for a factor that stays the same, on one rank without type filter."
  },
  {
   "property": "C70",
   "status": "partial",
   "theorems": [
    "C70_call",
    "C70_streaming_partial",
    "C70_merge_refuted",
    "C70_id_refuted",
    "C70_last_step_refuted"
   ],
   "note": "Proved for a scaling factor that stays the same (see C68), for the points of all time steps but the last of the data, which are never traced (C70_last_step_refuted). False of the code: trajectories that meet are not merged and one is marked complete (C70_merge_refuted); appended points keep the id 0 (C70_id_refuted)."
  },
  {
   "property": "C71",
   "status": "partial",
   "theorems": [
    "C71_filter_partial",
    "C71_3d_ignored",
    "C71_3d_refuted"
   ],
   "note": "Proved in 2D. False in 3D, where the filter is ignored for all data (C71_3d_ignored, C71_3d_refuted)."
  },
  {
   "property": "C72",
   "status": "partial",
   "theorems": [
    "C72_ranks_partial",
    "C72_whole_arrays",
    "C72_partial_arrays_refuted"
   ],
   "note": "Proved for ranks that are given whole arrays (C72_whole_arrays), and for partial arrays when all ranks compute the same scaling factor. False for partial arrays in general: the factor is computed from the local array only (C72_partial_arrays_refuted)."
  },
  {
   "property": "C73",
   "status": "partial",
   "theorems": [
    "C73_first_round_partial",
    "C73_streaming_ranks_refuted"
   ],
   "note": "Proved for the first tracing only. False afterwards: non-root ranks return before clearing their points, which are gathered and appended again (C73_streaming_ranks_refuted)."
  },
  {
   "property": "C74",
   "status": "partial",
   "theorems": [
    "C74_components_partial",
    "C74_isolated_refuted",
    "C74_ahead_refuted",
    "C74_advance_never_false"
   ],
   "note": "False for components that overlap no other one: they are not in the graph (C74_isolated_refuted). Proved when advance_timestep() follows every push; pushing ahead links wrong time steps (C74_ahead_refuted, for all overlapping frames); while(advance_timestep()) never ends (C74_advance_never_false)."
  },
  {
   "property": "C75",
   "status": "partial",
   "theorems": [
    "C75_comparison",
    "C75_threshold_partial"
   ],
   "note": "As C74 and C34: for frames that do not overrun the label buffer of hoshen_kopelman_2d."
  },
  {
   "property": "C76",
   "status": "partial",
   "theorems": [
    "C76_filter_partial",
    "C76_short_refuted",
    "C76_empty_undefined"
   ],
   "note": "Proved for streams at least as long as the kernel. False for EVERY shorter one (C76_short_refuted: frames missing), undefined for the empty one (C76_empty_undefined). Frame type: arrays with any addition and scaling; a scalar frame type leaves the sum uninitialised (not modelled)."
  },
  {
   "property": "C77",
   "status": "proved",
   "theorems": [
    "C77_determinant",
    "C77_adjugate",
    "C77_inverse",
    "C77_inverse4"
   ],
   "note": "Exact real arithmetic (no rounding). Uses the axioms of the standard library's real numbers."
  },
  {
   "property": "C78",
   "status": "proved",
   "theorems": [
    "C78_solve",
    "C78_least_squares",
    "C78_least_squares_columns"
   ],
   "note": "Exact real arithmetic. solve_least_square4x3 with one right-hand side does not compile (an undefined function) and is not modelled. Uses the axioms of the standard library's real numbers."
  },
  {
   "property": "C79",
   "status": "proved",
   "theorems": [
    "C79_characteristic"
   ],
   "note": "Exact real arithmetic."
  },
  {
   "property": "C80",
   "status": "partial",
   "theorems": [
    "C80_interpolation_edge",
    "C80_interpolation_triangle",
    "C80_interpolation_tetrahedron",
    "C80_edge_2d_partial",
    "C80_edge_2d_refuted",
    "C80_triangle_3d_flag",
    "C80_triangle",
    "C80_tetrahedron",
    "C80_edge",
    "C80_triangle_3d",
    "C80_integer_partial",
    "C80_integer_refuted"
   ],
   "note": "Exact real arithmetic, non-degenerate values. Interpolation itself is exact in all variants. integer_inverse_lerp_s1v2 is right unless both vectors are zero (C80_integer_refuted). For vectors on an edge the weight is the nearest one to a zero (C80_edge_2d_partial), and the flag may be true although the field has no zero there (C80_edge_2d_refuted)."
  },
  {
   "property": "C81",
   "status": "partial",
   "theorems": [
    "C81_triangle",
    "C81_triangle_jacobian",
    "C81_tetrahedron_jacobian",
    "C81_triangle_3d_partial",
    "C81_triangle_3d_refuted"
   ],
   "note": "Exact real arithmetic. gradient_3dsimplex2 divides by zero for every triangle whose second and third corner have the same third coordinate (C81_triangle_3d_refuted, due to a typo in the matrix); otherwise it is the slope without third component. gradient_3dsimplex3 does not compile."
  },
  {
   "property": "C82",
   "status": "proved",
   "theorems": [
    "C82_roots"
   ],
   "note": "Exact real arithmetic; pow(x, 1/3) is the real cube root, acos and cos those of the standard library. Uses the axioms of the standard library's real numbers."
  },
  {
   "property": "C83",
   "status": "partial",
   "theorems": [
    "C83_arrays_partial",
    "C83_arrays_refuted"
   ],
   "note": "False for EVERY quadratic without constant term: it writes x[n+1] instead of x[n], past an array of two, and leaves x[1] unset; a cubic with neither constant nor linear term reports an unset element (C83_arrays_refuted). Proved for all others (C83_arrays_partial)."
  },
  {
   "property": "C84",
   "status": "proved",
   "theorems": [
    "C84_quadratic",
    "C84_cubic"
   ],
   "note": "Exact real arithmetic, complex numbers as pairs."
  },
  {
   "property": "C85",
   "status": "proved",
   "theorems": [
    "C85_vector_field",
    "C85_scalar_field",
    "C85_eigenvalues",
    "C85_type_filter",
    "C85_no_filter"
   ],
   "note": "Exact real arithmetic: in floating point an exact center or degenerate type is decided by a comparison with zero of a rounded number, which is not modelled."
  },
  {
   "property": "C86",
   "status": "partial",
   "theorems": [
    "C86_eigenvalues",
    "C86_scalar_field",
    "C86_vector_field_refuted"
   ],
   "note": "Proved for symmetric matrices. False for vector fields: every Jacobian is UNKNOWN (C86_vector_field_refuted)."
  },
  {
   "property": "C87",
   "status": "partial",
   "theorems": [
    "C87_eigenvector_2d_partial",
    "C87_eigenvector_3d_partial",
    "C87_eigenvectors_refuted"
   ],
   "note": "Proved when no eigenvector for the eigenvalue has components that add up to zero; false if those of all of them do, e.g. [[0,1],[1,0]] and -1 (C87_eigenvectors_refuted): the code looks for an eigenvector whose components add up to one and divides by zero."
  },
  {
   "property": "C88",
   "status": "partial",
   "theorems": [
    "C88_gradient2Dt",
    "C88_gradient3D",
    "C88_gradient3Dt",
    "C88_gradient2D_refuted"
   ],
   "note": "Exact real arithmetic. Proved for gradient2Dt, gradient3D and gradient3Dt: exact on every field that is quadratic along the axes, 0 on the boundary. gradient2D is false for EVERY field: twice the derivative inside of the grid (C88_gradient2D_refuted)."
  },
  {
   "property": "C89",
   "status": "partial",
   "theorems": [
    "C89_jacobian2Dt",
    "C89_jacobian3D",
    "C89_jacobian2D_refuted",
    "C89_jacobian3Dt_undefined"
   ],
   "note": "Proved for jacobian2Dt and jacobian3D. jacobian2D is false: the step size scales only one operand of the differences, so constant fields get nonzero entries, and without symmetry the off-diagonal entries are all assigned to the first grid point (C89_jacobian2D_refuted). jacobian3Dt reads outside of EVERY array it has something to do for (C89_jacobian3Dt_undefined)."
  },
  {
   "property": "C90",
   "status": "partial",
   "theorems": [
    "C90_vorticity_partial",
    "C90_cross_product",
    "C90_jacobian_products"
   ],
   "note": "Proved for cross products and products with the Jacobian (inside of the grid). vorticity3D returns twice the curl of every field (C90_vorticity_partial)."
  },
  {
   "property": "C91",
   "status": "partial",
   "theorems": [
    "C91_conv2D",
    "C91_conv3D",
    "C91_gaussian_kernel",
    "C91_gaussian_kernel2D",
    "C91_gaussian_kernel3D",
    "C91_smoothing_refuted",
    "C91_smoothing3D_refuted",
    "C91_conv_gaussian"
   ],
   "note": "Proved: convolutions are zero-padded correlations divided by the number of elements of the kernel; Gaussian kernels are normalised. False: Gaussian smoothing of EVERY nonzero constant field does not keep its value, since a normalised kernel is divided once more (C91_smoothing_refuted, C91_smoothing3D_refuted). Kernels no larger than the padded data only (size_t wraps otherwise)."
  },
  {
   "property": "C92",
   "status": "partial",
   "theorems": [
    "C92_evaluate",
    "C92_derivative",
    "C92_copy",
    "C92_addition",
    "C92_subtraction_partial",
    "C92_subtraction_refuted",
    "C92_in_place",
    "C92_scalar",
    "C92_multiplication",
    "C92_tests"
   ],
   "note": "Exact real arithmetic. Everything proved but subtraction of a polynomial of higher degree, which returns Q - P instead of P - Q for EVERY pair with m < n (C92_subtraction_partial, C92_subtraction_refuted)."
  },
  {
   "property": "C93",
   "status": "proved",
   "theorems": [
    "C93_evaluate_rational",
    "C93_infinity"
   ],
   "note": "Exact real arithmetic; values and derivatives at the point (coefficients, at infinity) are zero or above the tolerance. 0/0 everywhere (both polynomials zero) returns infinity."
  },
  {
   "property": "C94",
   "status": "partial",
   "theorems": [
    "C94_cubic_partial",
    "C94_cubic_refuted",
    "C94_cubic_undefined_refuted",
    "C94_linear",
    "C94_linear_small_slope",
    "C94_nonvacuous",
    "C94_interval_empty",
    "C94_interval_contains",
    "C94_interval_overlaps"
   ],
   "note": "Exact real arithmetic, coefficients zero or above the tolerance. The linear solver is exact. The cubic one returns exactly the solutions that are not isolated: isolated solutions are lost (C94_cubic_refuted); with no constant term, and no quadratic or no linear one (as stated), it reads array elements never written (C94_cubic_undefined_refuted). The all-zero polynomial is excluded."
  },
  {
   "property": "C95",
   "status": "proved",
   "theorems": [
    "C95_triangle_mesh",
    "C95_two_sides_only",
    "C95_three_triangles_refuted"
   ],
   "note": "One process, int does not overflow. A mesh with an edge of three triangles is outside the statement: the third triangle is lost, or written outside the array (C95_three_triangles_refuted)."
  },
  {
   "property": "C96",
   "status": "proved",
   "theorems": [
    "C96_layered_simplices",
    "C96_find_simplex",
    "C96_find_refuted"
   ],
   "note": "int and size_t do not overflow, exact floor. Outside the statement: find_simplex does not check its argument and returns the id of another simplex for vertices that are none (C96_find_refuted)."
  },
  {
   "property": "C97",
   "status": "proved",
   "theorems": [
    "C97_sides",
    "C97_side_of",
    "C97_negative_refuted"
   ],
   "note": "Ids k >= 0 (cofaces in the layer below 0 included). At negative multiples of n(d), which the API accepts elsewhere, sides is empty and side_of aborts (C97_negative_refuted)."
  },
  {
   "property": "C98",
   "status": "partial",
   "theorems": [
    "C98_layers",
    "C98_orientation",
    "C98_neighbours_partial",
    "C98_neighbours_refuted"
   ],
   "note": "All but get_vertex_edge_vertex, which returns the neighbours in the layer and the vertices above and below (C98_neighbours_partial) but misses the diagonal edges between layers (C98_neighbours_refuted)."
  },
  {
   "property": "C99",
   "status": "proved",
   "theorems": [
    "C99_tetrahedral_mesh",
    "C99_find_unsorted_refuted"
   ],
   "note": "int does not overflow; initialize() is called on tetrahedra of four different vertices, no two with the same vertices. find_simplex knows a simplex only by its increasing vertices: in another order an existing simplex is reported absent (C99_find_unsorted_refuted)."
  },
  {
   "property": "C100",
   "status": "partial",
   "theorems": [
    "C100_bilinear",
    "C100_trilinear",
    "C100_inverse_bilinear_partial",
    "C100_inverse_bilinear_refuted"
   ],
   "note": "Exact real arithmetic. inverse_bilinear_interpolation is proved when two determinants of the coefficients do not vanish; if the first one does, as for every affine field, it finds nothing (C100_inverse_bilinear_refuted)."
  },
  {
   "property": "C101",
   "status": "partial",
   "theorems": [
    "C101_reproduces",
    "C101_interpolates",
    "C101_gradient",
    "C101_hessian_partial",
    "C101_hessian_refuted",
    "C101_barycentric"
   ],
   "note": "Exact real arithmetic, non-degenerate triangle. Values and gradients are right; the diagonal of the Hessian is half the second derivative (C101_hessian_partial, C101_hessian_refuted)."
  },
  {
   "property": "C102",
   "status": "partial",
   "theorems": [
    "C102_rotation",
    "C102_rotation_determined",
    "C102_zero_axis_refuted",
    "C102_great_circle",
    "C102_rk1_vertical",
    "C102_vertical",
    "C102_rest_refuted",
    "C102_projection",
    "C102_rigid_rk1",
    "C102_rigid_rk4_refuted"
   ],
   "note": "Exact real arithmetic. A zero axis gives NaN (C102_zero_axis_refuted), so a particle at rest becomes NaN (C102_rest_refuted). spherical_rk1 follows a rigid rotation exactly; the four-stage scheme lags behind it (C102_rigid_rk4_refuted: it averages vectors tangent at different points), by a third-order amount in h per step."
  },
  {
   "property": "C103",
   "status": "partial",
   "theorems": [
    "C103_cubic_in_time",
    "C103_travelled",
    "C103_linear",
    "C103_refused_refuted",
    "C103_sphere_refused"
   ],
   "note": "Exact real arithmetic. A refused later stage of rk4 leaves the particle at the intermediate point (C103_refused_refuted); the steps on the sphere do not (C103_sphere_refused)."
  },
  {
   "property": "C104",
   "status": "partial",
   "theorems": [
    "C104_fmod1",
    "C104_residue_unique",
    "C104_angles",
    "C104_fmod1_negative_refuted",
    "C104_clamp",
    "C104_clamp_barycentric"
   ],
   "note": "Exact real arithmetic (in floating point z + y may round up to y). With a negative modulus fmod1 leaves the range (C104_fmod1_negative_refuted)."
  },
  {
   "property": "C105",
   "status": "partial",
   "theorems": [
    "C105_point_in_cell",
    "C105_bisection",
    "C105_layer_unique",
    "C105_brute_force_partial",
    "C105_brute_force_refuted",
    "C105_wachspress",
    "C105_wachspress_refuted"
   ],
   "note": "Exact real arithmetic. The search from the top reads behind the array when z is below all tops (C105_brute_force_refuted, C105_brute_force_partial); more than ten vertices overflow an array (C105_wachspress_refuted)."
  },
  {
   "property": "C106",
   "status": "partial",
   "theorems": [
    "C106_one_norm",
    "C106_max_norm",
    "C106_frobenius_partial",
    "C106_frobenius_refuted",
    "C106_condition",
    "C106_decomposition",
    "C106_make_symmetric"
   ],
   "note": "Exact real arithmetic. The Frobenius functions return the square of the norm (C106_frobenius_partial, C106_frobenius_refuted). matrix_2norm_real2x2 calls a function that does not exist and is not modelled."
  },
  {
   "property": "C107",
   "status": "partial",
   "theorems": [
    "C107_degree_partial",
    "C107_index",
    "C107_degree_refuted",
    "C107_no_zero_refuted"
   ],
   "note": "The result is the opposite of the index (C107_degree_partial, C107_degree_refuted), and is never 0 (C107_no_zero_refuted)."
  },
  {
   "property": "C108",
   "status": "partial",
   "theorems": [
    "C108_layered_simplices_partial",
    "C108_pentachora_partial",
    "C108_pentachora_refuted",
    "C108_vertex"
   ],
   "note": "Proved for d = 0..3; for pentachora (C108_pentachora_partial) what get_simplex returns is given exactly: the last one of each prism has a vertex twice (C108_pentachora_refuted)."
  },
  {
   "property": "C109",
   "status": "proved",
   "theorems": [
    "C109_sides_of_pentachora",
    "C109_sides_of_tetrahedra"
   ],
   "note": "The vertices of a pentachoron are those of simplex_of (get_simplex with the repeated vertex of C108 repaired)."
  },
  {
   "property": "C110",
   "status": "partial",
   "theorems": [
    "C110_side_of_tetrahedra",
    "C110_side_of_steep_triangles",
    "C110_side_of_triangles_partial",
    "C110_side_of_refuted",
    "C110_low_dimensions_refuted"
   ],
   "note": "side_of(3) and side_of(2) of triangles over edges are exact; for the other triangles only tetrahedra containing them are returned (C110_side_of_triangles_partial), but not all (C110_side_of_refuted). side_of(1), sides(2) return nothing (C110_low_dimensions_refuted)."
  },
  {
   "property": "C111",
   "status": "partial",
   "theorems": [
    "C111_layers_partial",
    "C111_pentachora_refuted"
   ],
   "note": "Proved for d = 0..3; false for pentachora (C111_pentachora_refuted)."
  },
  {
   "property": "C112",
   "status": "proved",
   "theorems": [
    "C112_triangle",
    "C112_tetrahedron",
    "C112_constant"
   ],
   "note": "Exact real arithmetic."
  },
  {
   "property": "C113",
   "status": "partial",
   "theorems": [
    "C113_edge_partial",
    "C113_edge_undefined_refuted"
   ],
   "note": "Proved for determinants whose nonzero coefficients are beyond the tolerances of the root solver, and det W = 0 or det V <> 0; otherwise the two-element array overflows (C113_edge_undefined_refuted)."
  },
  {
   "property": "C114",
   "status": "partial",
   "theorems": [
    "C114_triangle_partial"
   ],
   "note": "Proved for determinants whose nonzero coefficients are beyond the tolerances of the cubic solver (exact arithmetic); what happens below the tolerances is missing."
  },
  {
   "property": "C115",
   "status": "partial",
   "theorems": [
    "C115_edge_partial",
    "C115_planar_refuted",
    "C115_orientation_refuted",
    "C115_not_parallel_refuted"
   ],
   "note": "Proved where the compared components are generic; false for planar fields (C115_planar_refuted), under reversal of the edge (C115_orientation_refuted), and points are reported where the fields are not parallel (C115_not_parallel_refuted)."
  },
  {
   "property": "C116",
   "status": "proved",
   "theorems": [
    "C116_inequalities",
    "C116_triangle"
   ],
   "note": "Slopes of the linear polynomials are 0 or at least machine epsilon, the tolerance of solve_linear_inequality."
  },
  {
   "property": "C117",
   "status": "proved",
   "theorems": [
    "C117_verify",
    "C117_parallel",
    "C117_reported"
   ],
   "note": ""
  },
  {
   "property": "C118",
   "status": "proved",
   "theorems": [
    "C118_terminates",
    "C118_disjoint",
    "C118_same_centroid_refuted"
   ],
   "note": "Termination under distinct centroids, and non-termination for equal centroids (C118_same_centroid_refuted)."
  },
  {
   "property": "C119",
   "status": "partial",
   "theorems": [
    "C119_sound",
    "C119_complete_partial",
    "C119_interior",
    "C119_boundary_refuted",
    "C119_single"
   ],
   "note": "Soundness is proved for all points; completeness for points below the largest coordinates of a triangle that contains them; it is false on the upper edges of the bounding box (C119_boundary_refuted)."
  },
  {
   "property": "C120",
   "status": "partial",
   "theorems": [
    "C120_scalar",
    "C120_vector_undefined_refuted",
    "C120_vector_constant_refuted"
   ],
   "note": "Scalar fields are proved; the claim is false for vector fields (C120_vector_undefined_refuted, C120_vector_constant_refuted)."
  },
  {
   "property": "C121",
   "status": "partial",
   "theorems": [
    "C121_bvh_partial",
    "C121_coherent_partial"
   ],
   "note": "Proved for quadtrees of at most 21 levels, the depth for which the stack of 64 entries suffices, in exact arithmetic."
  },
  {
   "property": "C122",
   "status": "partial",
   "theorems": [
    "C122_surface_partial",
    "C122_pentagon_refuted",
    "C122_volume",
    "C122_line"
   ],
   "note": "Volumes, lines and surfaces without pentagons are proved; the claim is false for the fifth point of a pentagon (C122_pentagon_refuted)."
  },
  {
   "property": "C123",
   "status": "partial",
   "theorems": [
    "C123_preserves",
    "C123_orientation_refuted",
    "C123_assertion_refuted",
    "C123_empty_refuted"
   ],
   "note": "Termination and preservation are proved (without assertions); consistency is false as soon as triangle 0 has a neighbour (C123_orientation_refuted); an assertion fails on a consistent pair (C123_assertion_refuted); undefined without triangles (C123_empty_refuted)."
  },
  {
   "property": "C124",
   "status": "partial",
   "theorems": [
    "C124_line",
    "C124_surface",
    "C124_numbers",
    "C124_two_points_refuted",
    "C124_fresh"
   ],
   "note": "All but the marking of loops: an open curve of two points is marked as a loop (C124_two_points_refuted)."
  },
  {
   "property": "C125",
   "status": "partial",
   "theorems": [
    "C125_slice",
    "C125_numbers",
    "C125_slice_time",
    "C125_slice_time_refuted"
   ],
   "note": "slice is proved; slice_time is characterised exactly (C125_slice_time) and is not the slice of the points at that time (C125_slice_time_refuted)."
  },
  {
   "property": "C126",
   "status": "partial",
   "theorems": [
    "C126_discard",
    "C126_all_refuted",
    "C126_quads_refuted"
   ],
   "note": "Proved except that points satisfying f that are in triangles may stay: never all points of a connected surface are removed (C126_all_refuted), and quadrilaterals keep their stale indices (C126_quads_refuted)."
  },
  {
   "property": "C127",
   "status": "proved",
   "theorems": [
    "C127_points",
    "C127_schedule"
   ],
   "note": "Finite values below 2^41 in absolute value, exact arithmetic on doubles. In 2D the array of the rank holds the whole domain; in 3D arrays start at the origin (see C130 for what happens otherwise)."
  },
  {
   "property": "C128",
   "status": "partial",
   "theorems": [
    "C128_between_partial",
    "C128_outside_refuted"
   ],
   "note": "Exactly characterised: true unless both values are above the threshold, one of them by less than 2^-21 (C128_outside_refuted)."
  },
  {
   "property": "C129",
   "status": "proved",
   "theorems": [
    "C129_surface"
   ],
   "note": "2D tracker, the whole domain on the rank, every pushed snapshot processed."
  },
  {
   "property": "C130",
   "status": "partial",
   "theorems": [
    "C130_ranks_partial",
    "C130_partial_2d_refuted",
    "C130_partial_3d_refuted"
   ],
   "note": "Proved if every rank has the whole array; with partial arrays both trackers read outside of them (C130_partial_2d_refuted, C130_partial_3d_refuted)."
  },
  {
   "property": "C131",
   "status": "partial",
   "theorems": [
    "C131_torus_simplices",
    "C131_find_simplex",
    "C131_two_planes_refuted",
    "C131_find_refuted"
   ],
   "note": "Proved for three planes or more and vertices given in range. With two planes different edges have the same vertices and find_simplex returns another tetrahedron (C131_two_planes_refuted); vertices out of range are not found correctly (C131_find_refuted)."
  },
  {
   "property": "C132",
   "status": "proved",
   "theorems": [
    "C132_sides",
    "C132_side_of",
    "C132_planes_closed"
   ],
   "note": "Three planes or more. The hypothesis of C132_side_of that the mesh has a triangle only excludes empty meshes."
  },
  {
   "property": "C133",
   "status": "partial",
   "theorems": [
    "C133_neighbours_partial",
    "C133_planes",
    "C133_neighbours_refuted",
    "C133_plane"
   ],
   "note": "The planes are proved for all ids in range. Neighbours: exactly those of the same plane and the copies in the next and previous plane; the diagonal edges of the mesh are omitted, and negative ids are not taken modulo the number of vertices (C133_neighbours_refuted)."
  },
  {
   "property": "C134",
   "status": "partial",
   "theorems": [
    "C134_real_planes",
    "C134_virtual_planes",
    "C134_periods_refuted"
   ],
   "note": "Proved for iphi = 1, exact arithmetic. With iphi > 1 the data has nphi planes only and is read out of bounds (C134_periods_refuted). How the interpolants are computed is not modelled: proper weights are a hypothesis."
  },
  {
   "property": "C135",
   "status": "partial",
   "theorems": [
    "C135_labels_partial",
    "C135_same_label_partial",
    "C135_plain_values",
    "C135_isolated_refuted"
   ],
   "note": "Proved for loops that run one index after the other in any order, with neighbours in the sense of C133 (no diagonal edges). A vertex above the threshold with no neighbour above it gets -1 like those below (C135_isolated_refuted). Concurrent loops: only the safety of C04."
  },
  {
   "property": "C136",
   "status": "partial",
   "theorems": [
    "C136_threshold_partial",
    "C136_threshold_refuted",
    "C136_nodes"
   ],
   "note": "Exactly characterised: the variance plus (nphi-1)^2 times the square of the mean, hence right for one plane only (C136_threshold_refuted)."
  },
  {
   "property": "C137",
   "status": "proved",
   "theorems": [
    "C137_domain",
    "C137_reads",
    "C137_interpolant",
    "C137_grid",
    "C137_affine",
    "C137_bounds",
    "C137_edge_refuted",
    "C137_witness"
   ],
   "note": "The domain in the property is the one of the code: the last row and column, where values are stored, have none (C137_edge_refuted shows it; the property says so)."
  },
  {
   "property": "C138",
   "status": "proved",
   "theorems": [
    "C138_interval",
    "C138_stream",
    "C138_witness"
   ],
   "note": "Exact arithmetic. The particle must be further from the boundary than it can travel."
  },
  {
   "property": "C139",
   "status": "partial",
   "theorems": [
    "C139_time",
    "C139_unit_interval",
    "C139_delta_refuted"
   ],
   "note": "Proved: the times of all points for any delta_t, and that only the grid stops a particle when delta_t is 1. The snapshot number is used as its time whatever delta_t is: with delta_t = 1/2 particles stop after the first interval (C139_delta_refuted)."
  },
  {
   "property": "C140",
   "status": "partial",
   "theorems": [
    "C140_append",
    "C140_independent",
    "C140_idle",
    "C140_points",
    "C140_checkpoint_refuted",
    "C140_velocity_refuted",
    "C140_advance",
    "C140_defaults"
   ],
   "note": "Proved: append-only, independence, exact positions and number of the points. set_nsteps_per_checkpoint ignores its argument (C140_checkpoint_refuted); the first velocity appended is uninitialised (C140_velocity_refuted), the others are those at the beginning of the previous step."
  },
  {
   "property": "C141",
   "status": "partial",
   "theorems": [
    "C141_outside_stays",
    "C141_inside",
    "C141_recorded_outside_refuted"
   ],
   "note": "Proved for particles that complete the interval, all points but the last. A refused step leaves the particle at the intermediate point of RK4 that was off the grid, and this point is recorded (C141_recorded_outside_refuted)."
  },
  {
   "property": "C142",
   "status": "partial",
   "theorems": [
    "C142_quantized",
    "C142_punctured",
    "C142_unit",
    "C142_flux",
    "C142_flux_refuted",
    "C142_corners",
    "C142_potential"
   ],
   "note": "Exact real arithmetic. Proved for the potential the code uses (C142_punctured, C142_flux); that potential is the one of (0,By,Bz) if By>0 and of (Bx,0,Bz) otherwise, so not of B when By<0 or when Bx and By are both nonzero (C142_flux_refuted). C142_potential gives the components of the potential."
  },
  {
   "property": "C143",
   "status": "partial",
   "theorems": [
    "C143_orientation",
    "C143_tetrahedron_partial",
    "C143_exactly_pi_refuted"
   ],
   "note": "Proved if no phase difference is exactly pi; false otherwise (C143_exactly_pi_refuted)."
  },
  {
   "property": "C144",
   "status": "partial",
   "theorems": [
    "C144_position",
    "C144_flux_refuted",
    "C144_witness"
   ],
   "note": "Proved, with uniqueness, for triangles without flux, no phase difference of exactly pi and positive magnitudes. With a flux of 3/8 of a quantum the point may be far outside of the triangle (C144_flux_refuted)."
  },
  {
   "property": "C145",
   "status": "partial",
   "theorems": [
    "C145_count",
    "C145_triangle",
    "C145_polygon_refuted",
    "C145_overflow_refuted"
   ],
   "note": "The number of punctured faces is proved for cells without flux and without phase differences of exactly pi. Four faces give four triangles and five faces nine (C145_polygon_refuted). In a strong field a cell may have seven punctured faces, and the ids overflow the array of six (C145_overflow_refuted)."
  },
  {
   "property": "C146",
   "status": "proved",
   "theorems": [
    "C146_points",
    "C146_schedule"
   ],
   "note": "For one process with any part of the domain; floats are rationals and the position is computed in exact real arithmetic. A point whose three vectors are collinear has no position (the floats the code would store are not modelled)."
  },
  {
   "property": "C147",
   "status": "partial",
   "theorems": [
    "C147_surfaces_partial"
   ],
   "note": "Proved for a process with the whole domain and all snapshots processed, in the branch build_vortex_surfaces(): cells, numbers of triangles, indices, no overflow. Four triangles give four pieces and five give nine (stated in the theorem), where a polygon has two and three; build_vortex_lines() (a single step) is the union-find of C122 and is not repeated."
  },
  {
   "property": "C148",
   "status": "proved",
   "theorems": [
    "C148_vortices"
   ],
   "note": "A float is an exact real. A triangle counts as turning when its winding number w and the circulation of the potential satisfy |circulation - 2 pi w| >= pi, which by C142 is w<>0 for less than half a quantum of flux."
  },
  {
   "property": "C149",
   "status": "proved",
   "theorems": [
    "C149_volume",
    "C149_flat_refuted"
   ],
   "note": "One process; a float is an exact real. Corners and which cell they come from are proved, not that neighbouring prisms choose the same diagonal on a shared quadrilateral. C149_flat_refuted: the flat tetrahedra at the last time step really occur."
  },
  {
   "property": "C150",
   "status": "partial",
   "theorems": [
    "C150_line_reset",
    "C150_vortex_reset_partial",
    "C150_stale_cells_refuted",
    "C150_start_refuted"
   ],
   "note": "Points proved for both trackers (time steps count from 0: C150_start_refuted); missing for the vortex tracker, and false in the code: the old cells are forgotten (C150_stale_cells_refuted)."
  }
 ]
}