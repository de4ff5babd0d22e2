(** Generated: Print Assumptions for every property theorem. *)
From Verif Require PropCcTracker PropContour PropContour3 PropConv PropCpFilter PropCpOnline PropCpRanks PropCpStreamRanks PropCpTracker PropCpType PropCurve PropCurveSet PropDijkstra PropEigenvector PropFeatureMesh PropFeatureMesh2 PropFeatureMesh3 PropFeatureMesh4 PropFeatureMeshEx PropGraph PropHK PropInequality PropInterp PropInterval PropKd PropLattice PropLine PropMotion PropMpi PropNdArray PropNumeric PropNumericMisc PropNumericRoots PropParallel PropParallelVector PropParallelVector3 PropParticle PropPolynomial PropQuadBvh PropQuadLocator PropRational PropRationalFunction PropRegularMesh PropReset PropSoS PropStencil PropStencil2 PropStreamingFilter PropTdgl PropTdglTracker PropTracking PropUExt2 PropUExt3 PropUMesh2 PropUMesh3 PropUnionFind PropXgc3 PropXgcBlob.
Print Assumptions PropCcTracker.C74_components_partial.
Print Assumptions PropCcTracker.C74_isolated_refuted.
Print Assumptions PropCcTracker.C74_ahead_refuted.
Print Assumptions PropCcTracker.C74_advance_never_false.
Print Assumptions PropCcTracker.C75_comparison.
Print Assumptions PropCcTracker.C75_threshold_partial.
Print Assumptions PropContour.C127_points.
Print Assumptions PropContour.C127_schedule.
Print Assumptions PropContour.C128_between_partial.
Print Assumptions PropContour.C128_outside_refuted.
Print Assumptions PropContour.C129_surface.
Print Assumptions PropContour.C130_ranks_partial.
Print Assumptions PropContour.C130_partial_2d_refuted.
Print Assumptions PropContour.C130_partial_3d_refuted.
Print Assumptions PropContour3.C149_volume.
Print Assumptions PropContour3.C149_flat_refuted.
Print Assumptions PropConv.C91_conv2D.
Print Assumptions PropConv.C91_conv3D.
Print Assumptions PropConv.C91_gaussian_kernel.
Print Assumptions PropConv.C91_gaussian_kernel2D.
Print Assumptions PropConv.C91_gaussian_kernel3D.
Print Assumptions PropConv.C91_smoothing_refuted.
Print Assumptions PropConv.C91_smoothing3D_refuted.
Print Assumptions PropConv.C91_conv_gaussian.
Print Assumptions PropCpFilter.C71_filter_partial.
Print Assumptions PropCpFilter.C71_3d_ignored.
Print Assumptions PropCpFilter.C71_3d_refuted.
Print Assumptions PropCpOnline.C70_call.
Print Assumptions PropCpOnline.C70_streaming_partial.
Print Assumptions PropCpOnline.C70_merge_refuted.
Print Assumptions PropCpOnline.C70_id_refuted.
Print Assumptions PropCpOnline.C70_last_step_refuted.
Print Assumptions PropCpRanks.C72_ranks_partial.
Print Assumptions PropCpRanks.C72_whole_arrays.
Print Assumptions PropCpRanks.C72_partial_arrays_refuted.
Print Assumptions PropCpStreamRanks.C73_first_round_partial.
Print Assumptions PropCpStreamRanks.C73_streaming_ranks_refuted.
Print Assumptions PropCpTracker.C67_detection.
Print Assumptions PropCpTracker.C67_schedule.
Print Assumptions PropCpTracker.C68_cell.
Print Assumptions PropCpTracker.C68_detected_partial.
Print Assumptions PropCpTracker.C68_scaling_refuted.
Print Assumptions PropCpTracker.C69_trajectories_partial.
Print Assumptions PropCpTracker.C69_short_loop_refuted.
Print Assumptions PropCpType.C84_quadratic.
Print Assumptions PropCpType.C84_cubic.
Print Assumptions PropCpType.C85_vector_field.
Print Assumptions PropCpType.C85_scalar_field.
Print Assumptions PropCpType.C85_eigenvalues.
Print Assumptions PropCpType.C86_eigenvalues.
Print Assumptions PropCpType.C86_scalar_field.
Print Assumptions PropCpType.C86_vector_field_refuted.
Print Assumptions PropCpType.C85_type_filter.
Print Assumptions PropCpType.C85_no_filter.
Print Assumptions PropCurve.C50_split_partial.
Print Assumptions PropCurve.C50_split_refuted.
Print Assumptions PropCurve.C51_adjust_time.
Print Assumptions PropCurve.C51_no_change.
Print Assumptions PropCurve.C52_unwrap.
Print Assumptions PropCurve.C52_bounds.
Print Assumptions PropCurve.C53_rotate.
Print Assumptions PropCurve.C53_reorder.
Print Assumptions PropCurve.C54_smooth_interval_types.
Print Assumptions PropCurve.C54_no_ordinals.
Print Assumptions PropCurve.C54_smooth_ordinal_types.
Print Assumptions PropCurve.C55_discard.
Print Assumptions PropCurve.C55_select.
Print Assumptions PropCurve.C55_select_order.
Print Assumptions PropCurve.C55_intercept.
Print Assumptions PropCurve.C55_statistics.
Print Assumptions PropCurve.C55_consistent_type.
Print Assumptions PropCurve.C64_split_geo.
Print Assumptions PropCurve.C65_assign_partial.
Print Assumptions PropCurve.C65_self_assign_refuted.
Print Assumptions PropCurveSet.C56_order.
Print Assumptions PropCurveSet.C56_add.
Print Assumptions PropCurveSet.C56_add_defined.
Print Assumptions PropCurveSet.C56_add_overflow.
Print Assumptions PropCurveSet.C56_add_label.
Print Assumptions PropCurveSet.C56_add_all.
Print Assumptions PropCurveSet.C56_filter.
Print Assumptions PropCurveSet.C56_from_list.
Print Assumptions PropCurveSet.C57_vtp_partial.
Print Assumptions PropCurveSet.C57_vtp_refuted_two.
Print Assumptions PropCurveSet.C57_vtp_refuted_point.
Print Assumptions PropCurveSet.C57_vtp_refuted_loop.
Print Assumptions PropCurveSet.C66_split_all.
Print Assumptions PropCurveSet.C66_ids.
Print Assumptions PropDijkstra.C35_shortest_partial.
Print Assumptions PropDijkstra.C35_unreachable_undefined.
Print Assumptions PropDijkstra.C35_unreachable_refuted.
Print Assumptions PropEigenvector.C87_eigenvector_2d_partial.
Print Assumptions PropEigenvector.C87_eigenvector_3d_partial.
Print Assumptions PropEigenvector.C87_eigenvectors_refuted.
Print Assumptions PropFeatureMesh.C122_surface_partial.
Print Assumptions PropFeatureMesh.C122_pentagon_refuted.
Print Assumptions PropFeatureMesh.C122_volume.
Print Assumptions PropFeatureMesh.C122_line.
Print Assumptions PropFeatureMesh.C123_preserves.
Print Assumptions PropFeatureMesh.C123_orientation_refuted.
Print Assumptions PropFeatureMesh.C123_assertion_refuted.
Print Assumptions PropFeatureMesh.C123_empty_refuted.
Print Assumptions PropFeatureMesh2.C124_line.
Print Assumptions PropFeatureMesh2.C124_surface.
Print Assumptions PropFeatureMesh2.C124_numbers.
Print Assumptions PropFeatureMesh2.C124_two_points_refuted.
Print Assumptions PropFeatureMesh2.C124_fresh.
Print Assumptions PropFeatureMesh3.C125_slice.
Print Assumptions PropFeatureMesh3.C125_numbers.
Print Assumptions PropFeatureMesh3.C125_slice_time.
Print Assumptions PropFeatureMesh3.C125_slice_time_refuted.
Print Assumptions PropFeatureMesh4.C126_discard.
Print Assumptions PropFeatureMesh4.C126_all_refuted.
Print Assumptions PropFeatureMesh4.C126_quads_refuted.
Print Assumptions PropGraph.C28_components.
Print Assumptions PropGraph.C28_components_nodes.
Print Assumptions PropGraph.C29_bfs.
Print Assumptions PropGraph.C29_bfs_disqualified_seed.
Print Assumptions PropGraph.C30_bfs_components.
Print Assumptions PropGraph.C30_same_components.
Print Assumptions PropGraph.C31_labels.
Print Assumptions PropGraph.C32_overlap.
Print Assumptions PropGraph.C32_labels_partial.
Print Assumptions PropGraph.C32_labels_refuted.
Print Assumptions PropGraph.C33_linear_components.
Print Assumptions PropGraph.C33_is_loop.
Print Assumptions PropHK.C34_labels_partial.
Print Assumptions PropHK.C34_overrun.
Print Assumptions PropHK.C34_within_buffer_refuted.
Print Assumptions PropHK.C34_not_2d.
Print Assumptions PropInequality.C94_cubic_partial.
Print Assumptions PropInequality.C94_cubic_refuted.
Print Assumptions PropInequality.C94_cubic_undefined_refuted.
Print Assumptions PropInequality.C94_linear.
Print Assumptions PropInequality.C94_linear_small_slope.
Print Assumptions PropInequality.C94_nonvacuous.
Print Assumptions PropInequality.C94_interval_empty.
Print Assumptions PropInequality.C94_interval_contains.
Print Assumptions PropInequality.C94_interval_overlaps.
Print Assumptions PropInterp.C80_interpolation_edge.
Print Assumptions PropInterp.C80_interpolation_triangle.
Print Assumptions PropInterp.C80_interpolation_tetrahedron.
Print Assumptions PropInterp.C80_edge_2d_partial.
Print Assumptions PropInterp.C80_edge_2d_refuted.
Print Assumptions PropInterp.C80_triangle_3d_flag.
Print Assumptions PropInterp.C100_bilinear.
Print Assumptions PropInterp.C100_trilinear.
Print Assumptions PropInterp.C100_inverse_bilinear_partial.
Print Assumptions PropInterp.C100_inverse_bilinear_refuted.
Print Assumptions PropInterp.C101_reproduces.
Print Assumptions PropInterp.C101_interpolates.
Print Assumptions PropInterp.C101_gradient.
Print Assumptions PropInterp.C101_hessian_partial.
Print Assumptions PropInterp.C101_hessian_refuted.
Print Assumptions PropInterp.C101_barycentric.
Print Assumptions PropInterval.C36_contains.
Print Assumptions PropInterval.C36_disjoint.
Print Assumptions PropInterval.C36_overlaps.
Print Assumptions PropInterval.C36_empty.
Print Assumptions PropInterval.C37_intersect_exact.
Print Assumptions PropInterval.C37_joins_partial.
Print Assumptions PropInterval.C37_join_flags_refuted.
Print Assumptions PropInterval.C37_join_dropped_refuted.
Print Assumptions PropInterval.C37_intersect_dropped_refuted.
Print Assumptions PropInterval.C37_lower_inf.
Print Assumptions PropInterval.C37_lower_inf_refuted.
Print Assumptions PropInterval.C58_empty_partial.
Print Assumptions PropInterval.C58_empty_refuted.
Print Assumptions PropKd.C49_nearest.
Print Assumptions PropKd.C49_nearest_rounded.
Print Assumptions PropKd.C49_as_naive.
Print Assumptions PropKd.C49_default_limit.
Print Assumptions PropKd.C49_outcomes_exist.
Print Assumptions PropKd.C49_rounding_exists.
Print Assumptions PropKd.C62_leaf_partial.
Print Assumptions PropKd.C62_shared_coordinate_refuted.
Print Assumptions PropKd.C63_limit_partial.
Print Assumptions PropKd.C63_limit_refuted.
Print Assumptions PropLattice.C05_lattice_index_bijection.
Print Assumptions PropLattice.C06_cores_tile_the_domain.
Print Assumptions PropLattice.C07_np_blocks_or_none.
Print Assumptions PropLattice.C07_np_blocks_when_room.
Print Assumptions PropLattice.C08_extent_is_clamped_dilation.
Print Assumptions PropLattice.C08_extents_of_a_request.
Print Assumptions PropLattice.C09_partition_terminates_partial.
Print Assumptions PropLattice.C09_partition_terminates_refuted.
Print Assumptions PropLine.C146_points.
Print Assumptions PropLine.C146_schedule.
Print Assumptions PropLine.C147_surfaces_partial.
Print Assumptions PropMotion.C102_rotation.
Print Assumptions PropMotion.C102_rotation_determined.
Print Assumptions PropMotion.C102_zero_axis_refuted.
Print Assumptions PropMotion.C102_great_circle.
Print Assumptions PropMotion.C102_rk1_vertical.
Print Assumptions PropMotion.C102_vertical.
Print Assumptions PropMotion.C102_rest_refuted.
Print Assumptions PropMotion.C102_projection.
Print Assumptions PropMotion.C102_rigid_rk1.
Print Assumptions PropMotion.C102_rigid_rk4_refuted.
Print Assumptions PropMotion.C103_cubic_in_time.
Print Assumptions PropMotion.C103_travelled.
Print Assumptions PropMotion.C103_linear.
Print Assumptions PropMotion.C103_refused_refuted.
Print Assumptions PropMotion.C103_sphere_refused.
Print Assumptions PropMpi.C46_gather_map.
Print Assumptions PropMpi.C46_gather_merger.
Print Assumptions PropMpi.C46_gather_set.
Print Assumptions PropMpi.C46_allgather_map.
Print Assumptions PropMpi.C47_all2all_partial.
Print Assumptions PropMpi.C47_all2all_refuted.
Print Assumptions PropMpi.C48_redistribute.
Print Assumptions PropMpi.C60_scatterv.
Print Assumptions PropMpi.C61_bcastv_partial.
Print Assumptions PropMpi.C61_bcastv_refuted.
Print Assumptions PropNdArray.C10_addressing.
Print Assumptions PropNdArray.C11_slice.
Print Assumptions PropNdArray.C12_stack_then_slice_time.
Print Assumptions PropNdArray.C12_slice_time_then_stack.
Print Assumptions PropNdArray.C12_concat.
Print Assumptions PropNdArray.C13_transpose.
Print Assumptions PropNdArray.C14_min_max_integers_partial.
Print Assumptions PropNdArray.C14_min_max_floats_partial.
Print Assumptions PropNdArray.C14_min_max_refuted.
Print Assumptions PropNdArray.C15_ndarray_roundtrip.
Print Assumptions PropNdArray.C15_ndarray_string_roundtrip.
Print Assumptions PropNumeric.C77_determinant.
Print Assumptions PropNumeric.C77_adjugate.
Print Assumptions PropNumeric.C77_inverse.
Print Assumptions PropNumeric.C77_inverse4.
Print Assumptions PropNumeric.C78_solve.
Print Assumptions PropNumeric.C78_least_squares.
Print Assumptions PropNumeric.C78_least_squares_columns.
Print Assumptions PropNumeric.C79_characteristic.
Print Assumptions PropNumeric.C80_triangle.
Print Assumptions PropNumeric.C80_tetrahedron.
Print Assumptions PropNumeric.C80_edge.
Print Assumptions PropNumeric.C80_triangle_3d.
Print Assumptions PropNumeric.C80_integer_partial.
Print Assumptions PropNumeric.C80_integer_refuted.
Print Assumptions PropNumeric.C81_triangle.
Print Assumptions PropNumeric.C81_triangle_jacobian.
Print Assumptions PropNumeric.C81_tetrahedron_jacobian.
Print Assumptions PropNumeric.C81_triangle_3d_partial.
Print Assumptions PropNumeric.C81_triangle_3d_refuted.
Print Assumptions PropNumericMisc.C104_fmod1.
Print Assumptions PropNumericMisc.C104_residue_unique.
Print Assumptions PropNumericMisc.C104_angles.
Print Assumptions PropNumericMisc.C104_fmod1_negative_refuted.
Print Assumptions PropNumericMisc.C104_clamp.
Print Assumptions PropNumericMisc.C104_clamp_barycentric.
Print Assumptions PropNumericMisc.C105_point_in_cell.
Print Assumptions PropNumericMisc.C105_bisection.
Print Assumptions PropNumericMisc.C105_layer_unique.
Print Assumptions PropNumericMisc.C105_brute_force_partial.
Print Assumptions PropNumericMisc.C105_brute_force_refuted.
Print Assumptions PropNumericMisc.C105_wachspress.
Print Assumptions PropNumericMisc.C105_wachspress_refuted.
Print Assumptions PropNumericMisc.C106_one_norm.
Print Assumptions PropNumericMisc.C106_max_norm.
Print Assumptions PropNumericMisc.C106_frobenius_partial.
Print Assumptions PropNumericMisc.C106_frobenius_refuted.
Print Assumptions PropNumericMisc.C106_condition.
Print Assumptions PropNumericMisc.C106_decomposition.
Print Assumptions PropNumericMisc.C106_make_symmetric.
Print Assumptions PropNumericMisc.C107_degree_partial.
Print Assumptions PropNumericMisc.C107_index.
Print Assumptions PropNumericMisc.C107_degree_refuted.
Print Assumptions PropNumericMisc.C107_no_zero_refuted.
Print Assumptions PropNumericRoots.C82_roots.
Print Assumptions PropNumericRoots.C83_arrays_partial.
Print Assumptions PropNumericRoots.C83_arrays_refuted.
Print Assumptions PropParallel.C44_parallel_for_partial.
Print Assumptions PropParallel.C44_zero_threads_refuted.
Print Assumptions PropParallel.C44_overflow_refuted.
Print Assumptions PropParallel.C45_async_ptr_safety_partial.
Print Assumptions PropParallel.C45_async_ptr_unseparated_partial.
Print Assumptions PropParallel.C45_async_ptr_double_free_refuted.
Print Assumptions PropParallelVector.C112_triangle.
Print Assumptions PropParallelVector.C112_tetrahedron.
Print Assumptions PropParallelVector.C112_constant.
Print Assumptions PropParallelVector.C116_inequalities.
Print Assumptions PropParallelVector.C116_triangle.
Print Assumptions PropParallelVector.C113_edge_partial.
Print Assumptions PropParallelVector.C113_edge_undefined_refuted.
Print Assumptions PropParallelVector.C117_verify.
Print Assumptions PropParallelVector.C117_parallel.
Print Assumptions PropParallelVector.C117_reported.
Print Assumptions PropParallelVector3.C114_triangle_partial.
Print Assumptions PropParallelVector3.C115_edge_partial.
Print Assumptions PropParallelVector3.C115_planar_refuted.
Print Assumptions PropParallelVector3.C115_orientation_refuted.
Print Assumptions PropParallelVector3.C115_not_parallel_refuted.
Print Assumptions PropParticle.C137_domain.
Print Assumptions PropParticle.C137_reads.
Print Assumptions PropParticle.C137_interpolant.
Print Assumptions PropParticle.C137_grid.
Print Assumptions PropParticle.C137_affine.
Print Assumptions PropParticle.C137_bounds.
Print Assumptions PropParticle.C137_edge_refuted.
Print Assumptions PropParticle.C137_witness.
Print Assumptions PropParticle.C138_interval.
Print Assumptions PropParticle.C138_stream.
Print Assumptions PropParticle.C138_witness.
Print Assumptions PropParticle.C139_time.
Print Assumptions PropParticle.C139_unit_interval.
Print Assumptions PropParticle.C139_delta_refuted.
Print Assumptions PropParticle.C140_append.
Print Assumptions PropParticle.C140_independent.
Print Assumptions PropParticle.C140_idle.
Print Assumptions PropParticle.C140_points.
Print Assumptions PropParticle.C140_checkpoint_refuted.
Print Assumptions PropParticle.C140_velocity_refuted.
Print Assumptions PropParticle.C140_advance.
Print Assumptions PropParticle.C140_defaults.
Print Assumptions PropParticle.C141_outside_stays.
Print Assumptions PropParticle.C141_inside.
Print Assumptions PropParticle.C141_recorded_outside_refuted.
Print Assumptions PropPolynomial.C92_evaluate.
Print Assumptions PropPolynomial.C92_derivative.
Print Assumptions PropPolynomial.C92_copy.
Print Assumptions PropPolynomial.C92_addition.
Print Assumptions PropPolynomial.C92_subtraction_partial.
Print Assumptions PropPolynomial.C92_subtraction_refuted.
Print Assumptions PropPolynomial.C92_in_place.
Print Assumptions PropPolynomial.C92_scalar.
Print Assumptions PropPolynomial.C92_multiplication.
Print Assumptions PropPolynomial.C92_tests.
Print Assumptions PropQuadBvh.C121_bvh_partial.
Print Assumptions PropQuadBvh.C121_coherent_partial.
Print Assumptions PropQuadLocator.C118_terminates.
Print Assumptions PropQuadLocator.C118_disjoint.
Print Assumptions PropQuadLocator.C118_same_centroid_refuted.
Print Assumptions PropQuadLocator.C119_sound.
Print Assumptions PropQuadLocator.C119_complete_partial.
Print Assumptions PropQuadLocator.C119_interior.
Print Assumptions PropQuadLocator.C119_boundary_refuted.
Print Assumptions PropQuadLocator.C119_single.
Print Assumptions PropQuadLocator.C120_scalar.
Print Assumptions PropQuadLocator.C120_vector_undefined_refuted.
Print Assumptions PropQuadLocator.C120_vector_constant_refuted.
Print Assumptions PropRational.C38_gcd.
Print Assumptions PropRational.C38_arithmetic_partial.
Print Assumptions PropRational.C38_integer_arithmetic.
Print Assumptions PropRational.C38_less_partial.
Print Assumptions PropRational.C38_less_int_partial.
Print Assumptions PropRational.C38_equal_partial.
Print Assumptions PropRational.C38_greater_int_partial.
Print Assumptions PropRational.C38_binary_refuted.
Print Assumptions PropRational.C38_compare_refuted.
Print Assumptions PropRational.C38_less_diverges.
Print Assumptions PropRational.C39_add_sub.
Print Assumptions PropRational.C39_mul.
Print Assumptions PropRational.C39_compare.
Print Assumptions PropRational.C39_integers.
Print Assumptions PropRational.C39_div_refuted.
Print Assumptions PropRationalFunction.C93_evaluate_rational.
Print Assumptions PropRationalFunction.C93_infinity.
Print Assumptions PropRegularMesh.C16_element_ids.
Print Assumptions PropRegularMesh.C16_element_ids_distinct.
Print Assumptions PropRegularMesh.C17_element_for.
Print Assumptions PropRegularMesh.C17_scopes.
Print Assumptions PropRegularMesh.C18_unit_types.
Print Assumptions PropRegularMesh.C19_sides.
Print Assumptions PropRegularMesh.C20_side_of.
Print Assumptions PropRegularMesh.C21_facets.
Print Assumptions PropReset.C150_line_reset.
Print Assumptions PropReset.C150_vortex_reset_partial.
Print Assumptions PropReset.C150_stale_cells_refuted.
Print Assumptions PropReset.C150_start_refuted.
Print Assumptions PropSoS.C22_sign_det2.
Print Assumptions PropSoS.C22_sign_det3.
Print Assumptions PropSoS.C22_sign_det4.
Print Assumptions PropSoS.C23_perturbed_det2.
Print Assumptions PropSoS.C23_perturbed_det3.
Print Assumptions PropSoS.C23_perturbed_det4.
Print Assumptions PropSoS.C23_positive.
Print Assumptions PropSoS.C24_bubble_sort.
Print Assumptions PropSoS.C24_antisymmetric.
Print Assumptions PropSoS.C24_parity.
Print Assumptions PropSoS.C25_vertex_order.
Print Assumptions PropSoS.C26_facets.
Print Assumptions PropSoS.C27_segment.
Print Assumptions PropSoS.C27_triangle.
Print Assumptions PropSoS.C27_tetrahedron.
Print Assumptions PropSoS.C27_any_triangle.
Print Assumptions PropSoS.C27_any_tetrahedron.
Print Assumptions PropStencil.C88_gradient2Dt.
Print Assumptions PropStencil.C88_gradient3D.
Print Assumptions PropStencil.C88_gradient3Dt.
Print Assumptions PropStencil.C88_gradient2D_refuted.
Print Assumptions PropStencil.C89_jacobian2Dt.
Print Assumptions PropStencil.C89_jacobian3D.
Print Assumptions PropStencil.C89_jacobian2D_refuted.
Print Assumptions PropStencil2.C89_jacobian3Dt_undefined.
Print Assumptions PropStencil2.C90_vorticity_partial.
Print Assumptions PropStencil2.C90_cross_product.
Print Assumptions PropStencil2.C90_jacobian_products.
Print Assumptions PropStreamingFilter.C76_filter_partial.
Print Assumptions PropStreamingFilter.C76_short_refuted.
Print Assumptions PropStreamingFilter.C76_empty_undefined.
Print Assumptions PropTdgl.C142_quantized.
Print Assumptions PropTdgl.C142_punctured.
Print Assumptions PropTdgl.C142_unit.
Print Assumptions PropTdgl.C142_flux.
Print Assumptions PropTdgl.C142_flux_refuted.
Print Assumptions PropTdgl.C143_orientation.
Print Assumptions PropTdgl.C143_tetrahedron_partial.
Print Assumptions PropTdgl.C143_exactly_pi_refuted.
Print Assumptions PropTdgl.C144_position.
Print Assumptions PropTdgl.C144_flux_refuted.
Print Assumptions PropTdgl.C144_witness.
Print Assumptions PropTdgl.C145_count.
Print Assumptions PropTdgl.C145_triangle.
Print Assumptions PropTdgl.C145_polygon_refuted.
Print Assumptions PropTdgl.C142_corners.
Print Assumptions PropTdgl.C142_potential.
Print Assumptions PropTdgl.C145_overflow_refuted.
Print Assumptions PropTdglTracker.C148_vortices.
Print Assumptions PropTracking.C40_relabel_partial.
Print Assumptions PropTracking.C40_relabel_unbranched_partial.
Print Assumptions PropTracking.C41_events_partial.
Print Assumptions PropTracking.C42_event_type.
Print Assumptions PropTracking.C42_event_name.
Print Assumptions PropTracking.C40_relabel_refuted.
Print Assumptions PropTracking.C41_events_refuted.
Print Assumptions PropUExt2.C96_layered_simplices.
Print Assumptions PropUExt2.C96_find_simplex.
Print Assumptions PropUExt2.C97_sides.
Print Assumptions PropUExt2.C97_side_of.
Print Assumptions PropUExt2.C98_layers.
Print Assumptions PropUExt2.C98_orientation.
Print Assumptions PropUExt2.C98_neighbours_partial.
Print Assumptions PropUExt2.C96_find_refuted.
Print Assumptions PropUExt2.C97_negative_refuted.
Print Assumptions PropUExt2.C98_neighbours_refuted.
Print Assumptions PropUExt3.C108_layered_simplices_partial.
Print Assumptions PropUExt3.C108_pentachora_partial.
Print Assumptions PropUExt3.C109_sides_of_pentachora.
Print Assumptions PropUExt3.C109_sides_of_tetrahedra.
Print Assumptions PropUExt3.C110_side_of_tetrahedra.
Print Assumptions PropUExt3.C110_side_of_steep_triangles.
Print Assumptions PropUExt3.C110_side_of_triangles_partial.
Print Assumptions PropUExt3.C111_layers_partial.
Print Assumptions PropUExt3.C108_pentachora_refuted.
Print Assumptions PropUExt3.C110_side_of_refuted.
Print Assumptions PropUExt3.C110_low_dimensions_refuted.
Print Assumptions PropUExt3.C111_pentachora_refuted.
Print Assumptions PropUExt3.C108_vertex.
Print Assumptions PropUMesh2.C95_triangle_mesh.
Print Assumptions PropUMesh2.C95_two_sides_only.
Print Assumptions PropUMesh2.C95_three_triangles_refuted.
Print Assumptions PropUMesh3.C99_tetrahedral_mesh.
Print Assumptions PropUMesh3.C99_find_unsorted_refuted.
Print Assumptions PropUnionFind.C01_simple_union_find_is_closure.
Print Assumptions PropUnionFind.C02_union_find_get_sets.
Print Assumptions PropUnionFind.C03_duf_sequential.
Print Assumptions PropUnionFind.C04_duf_concurrent_safety_partial.
Print Assumptions PropUnionFind.C04_duf_concurrent_exact_if_no_interference_partial.
Print Assumptions PropUnionFind.C04_duf_concurrent_union_refuted.
Print Assumptions PropXgc3.C131_torus_simplices.
Print Assumptions PropXgc3.C131_find_simplex.
Print Assumptions PropXgc3.C132_sides.
Print Assumptions PropXgc3.C132_side_of.
Print Assumptions PropXgc3.C132_planes_closed.
Print Assumptions PropXgc3.C133_neighbours_partial.
Print Assumptions PropXgc3.C133_planes.
Print Assumptions PropXgc3.C131_two_planes_refuted.
Print Assumptions PropXgc3.C131_find_refuted.
Print Assumptions PropXgc3.C133_neighbours_refuted.
Print Assumptions PropXgc3.C133_plane.
Print Assumptions PropXgcBlob.C134_real_planes.
Print Assumptions PropXgcBlob.C134_virtual_planes.
Print Assumptions PropXgcBlob.C134_periods_refuted.
Print Assumptions PropXgcBlob.C135_labels_partial.
Print Assumptions PropXgcBlob.C135_same_label_partial.
Print Assumptions PropXgcBlob.C135_plain_values.
Print Assumptions PropXgcBlob.C135_isolated_refuted.
Print Assumptions PropXgcBlob.C136_threshold_partial.
Print Assumptions PropXgcBlob.C136_threshold_refuted.
Print Assumptions PropXgcBlob.C136_nodes.
