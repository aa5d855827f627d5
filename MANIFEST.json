{
 "claims": [
  {
   "property": "C01",
   "status": "proved",
   "theorems": [
    "c01_sdf_exact",
    "c01_sdf_binary64"
   ],
   "note": "exact arithmetic, and the double-precision field with its two roundings"
  },
  {
   "property": "C02",
   "status": "proved",
   "theorems": [
    "c02_line_transform",
    "c02_line_transform_binary64"
   ],
   "note": ""
  },
  {
   "property": "C03",
   "status": "proved",
   "theorems": [
    "c03_binary64_distances_exact"
   ],
   "note": ""
  },
  {
   "property": "C04",
   "status": "proved",
   "theorems": [
    "c04_schedule_independent",
    "c04_schedule_independent_binary64"
   ],
   "note": ""
  },
  {
   "property": "C05",
   "status": "proved",
   "theorems": [
    "c05_sdf_sign",
    "c05_sdf_sign_binary64"
   ],
   "note": "also with a virtual border"
  },
  {
   "property": "C06",
   "status": "proved",
   "theorems": [
    "c06_uniform"
   ],
   "note": ""
  },
  {
   "property": "C07",
   "status": "proved",
   "theorems": [
    "c07_lipschitz"
   ],
   "note": ""
  },
  {
   "property": "C08",
   "status": "proved",
   "theorems": [
    "c08_monotone",
    "c08_monotone_binary64",
    "c08_monotone_binary32"
   ],
   "note": "In exact arithmetic, and for the values stored in fields of double and float."
  },
  {
   "property": "C09",
   "status": "proved",
   "theorems": [
    "c09_virtual_border",
    "c01_sdf_binary64"
   ],
   "note": ""
  },
  {
   "property": "C10",
   "status": "proved",
   "theorems": [
    "c10_occupancy_classification",
    "c10_unknown_is_filled_lowers"
   ],
   "note": ""
  },
  {
   "property": "C11",
   "status": "proved",
   "theorems": [
    "c11_object_lists",
    "c11_order_and_repetition"
   ],
   "note": ""
  },
  {
   "property": "C12",
   "status": "proved",
   "theorems": [
    "c12_all_object_sdfs"
   ],
   "note": ""
  },
  {
   "property": "C13",
   "status": "proved",
   "theorems": [
    "c13_free_and_named"
   ],
   "note": ""
  },
  {
   "property": "C14",
   "status": "proved",
   "theorems": [
    "c14_locked_field_is_frozen"
   ],
   "note": ""
  },
  {
   "property": "C15",
   "status": "proved",
   "theorems": [
    "c15_minmax_current",
    "c15_minmax_current_float"
   ],
   "note": ""
  },
  {
   "property": "C16",
   "status": "proved",
   "theorems": [
    "c16_sdf_round_trip",
    "c16_cache_current_after_histories"
   ],
   "note": "For objects whose cached minimum and maximum are current, which the second theorem shows for every careful history (see C56 and C57 for the others). For every base class serialization and zlib that satisfy deps_ok (SerialSpec.v)."
  },
  {
   "property": "C17",
   "status": "proved",
   "theorems": [
    "c17_answers",
    "c17_values"
   ],
   "note": "Which cells answer: every arithmetic. Values of the components: exact arithmetic."
  },
  {
   "property": "C18",
   "status": "partial",
   "theorems": [
    "c18_total",
    "c18_between_partial",
    "c18_range_partial",
    "c18_centre_partial",
    "c18_extrapolation_refuted"
   ],
   "note": "Totality in every arithmetic. In exact arithmetic the bound holds between the outermost cell centres; in the outer half of boundary voxels the code extrapolates and the claim is refuted, with a bound on the excess."
  },
  {
   "property": "C19",
   "status": "proved",
   "theorems": [
    "c19_local_extrema"
   ],
   "note": "Every field, every arithmetic: termination and full characterization of the map."
  },
  {
   "property": "C20",
   "status": "partial",
   "theorems": [
    "c20_project_partial",
    "c20_throws_refuted",
    "c20_forever_refuted",
    "c20_outside"
   ],
   "note": "Returned positions exceed the minimum distance; but with the default step size the call can throw (a step leaves the grid) or never return (alternates between two points), both refuted in binary64 on ordinary fields."
  },
  {
   "property": "C21",
   "status": "partial",
   "theorems": [
    "c21_points_partial",
    "c21_coordinates_refuted"
   ],
   "note": "The constructor taking three coordinates sets w = 0; all results of projection have w = 1."
  },
  {
   "property": "C22",
   "status": "proved",
   "theorems": [
    "c22_map_round_trips"
   ],
   "note": "The five map types. For every base class serialization and zlib that satisfy deps_ok (SerialSpec.v)."
  },
  {
   "property": "C23",
   "status": "proved",
   "theorems": [
    "c23_save_load",
    "c23_other_files_rejected"
   ],
   "note": "For every base class serialization and zlib that satisfy deps_ok (SerialSpec.v)."
  },
  {
   "property": "C24",
   "status": "partial",
   "theorems": [
    "c24_shared_header_refuted",
    "c24_families_partial"
   ],
   "note": "False of the code: plain and component maps share CMGZ/CMGR, tagged and tagged component maps TMGZ/TMGR; a component map file loads as a plain map. Proved between the families."
  },
  {
   "property": "C25",
   "status": "partial",
   "theorems": [
    "c25_plain_conversion",
    "c25_tagged_conversion",
    "c25_component_conversion",
    "c25_tagged_component_conversion",
    "c25_uninitialized_frame_refuted",
    "c25_uninitialized_partial"
   ],
   "note": "Proved for every initialized map. An uninitialized map converts to an uninitialized one, but the frame set on it with SetFrame is lost."
  },
  {
   "property": "C26",
   "status": "proved",
   "theorems": [
    "c26_components_are_classes"
   ],
   "note": "Grids of fewer than 2^32 cells (component numbers are uint32_t). A NaN occupancy is on no side of 0.5, so such a cell is a class of its own."
  },
  {
   "property": "C27",
   "status": "proved",
   "theorems": [
    "c27_numbers_without_gaps"
   ],
   "note": "Grids of fewer than 2^32 cells."
  },
  {
   "property": "C28",
   "status": "proved",
   "theorems": [
    "c28_labelling_total",
    "c28_each_cell_once"
   ],
   "note": "Termination for grids of any size."
  },
  {
   "property": "C29",
   "status": "proved",
   "theorems": [
    "c29_valid_components_are_right"
   ],
   "note": "Histories in which no mutable cell reference is kept across an update (see C58) and grids of fewer than 2^32 cells."
  },
  {
   "property": "C30",
   "status": "partial",
   "theorems": [
    "c30_tagged_components_partial",
    "c30_valid_for_some_flag_partial",
    "c30_cached_flag_refuted"
   ],
   "note": "False for histories: a second call with the other flag returns the cached labels. Proved from any map whose components are not valid, and for histories: valid labels are those of the flag of an earlier call."
  },
  {
   "property": "C31",
   "status": "partial",
   "theorems": [
    "c31_last_update_valid_partial",
    "c31_never_both_valid",
    "c31_both_valid_refuted"
   ],
   "note": "False: marking through GetIndexMutable clears both flags, so the two results are never valid together."
  },
  {
   "property": "C32",
   "status": "partial",
   "theorems": [
    "c32_segments_are_classes_partial",
    "c32_valid_for_some_call_partial",
    "c32_cached_threshold_refuted"
   ],
   "note": "False for histories: a second call with another threshold returns the cached segments. Proved from any map whose segments are not valid, for any local extrema map."
  },
  {
   "property": "C33",
   "status": "proved",
   "theorems": [
    "c33_surface_index",
    "c33_surface_index_nan"
   ],
   "note": "For any cell type with an occupancy, so for all four map types. Without NaN cells the statement as written; the second theorem gives the exact behaviour with NaN cells."
  },
  {
   "property": "C34",
   "status": "proved",
   "theorems": [
    "c34_component_surface_index"
   ],
   "note": ""
  },
  {
   "property": "C35",
   "status": "partial",
   "theorems": [
    "c35_all_selected_cells_partial",
    "c35_interior_cell_refuted"
   ],
   "note": "False of the code: the extraction tests whether IsConnectedComponentSurfaceIndex returned a value, not the value, so interior cells are returned. Proved: exactly all cells of the selected kinds, grouped by component, are returned, hence every surface cell."
  },
  {
   "property": "C36",
   "status": "proved",
   "theorems": [
    "c36_candidate_corner"
   ],
   "note": ""
  },
  {
   "property": "C37",
   "status": "partial",
   "theorems": [
    "c37_topology_throws_refuted",
    "c37_one_layer_partial",
    "c37_one_layer_tagged_partial",
    "c37_one_layer_walk_partial",
    "c37_throws_exactly",
    "c37_throws_exactly_tagged",
    "c37_flat_top_throws",
    "c37_pinched_refuted",
    "c37_well_composed_partial",
    "c37_well_composed_tagged_partial"
   ],
   "note": "False of the code: the z+1 neighbour is read at z-1 (topology_computation.hpp:388-391), so a component with a flat top two cells thick anywhere throws in every traversal order, and so does one without any cube of cells whose cavities touch the outside at corners. Proved: exactly when the call throws, for maps of any size, that on maps one cell high it never does, and that it returns when no selected component has such a top or touches itself along an edge or at a vertex."
  },
  {
   "property": "C38",
   "status": "proved",
   "theorems": [
    "c38_static_of_dynamic",
    "c38_static_round_trip",
    "c38_index_map"
   ],
   "note": ""
  },
  {
   "property": "C39",
   "status": "proved",
   "theorems": [
    "c39_ray_walk"
   ],
   "note": "For every arithmetic (the ray_arith record is universally quantified), so for every rounding behaviour."
  },
  {
   "property": "C40",
   "status": "partial",
   "theorems": [
    "c40_marked_on_ray_partial",
    "c40_free_before_grid_refuted"
   ],
   "note": "In exact arithmetic. False of the code when the sensor is outside the grid and the ray ends before reaching it: the first voxel of the grid is marked free. Proved for sensors inside the grid and for rays that reach the grid before their end."
  },
  {
   "property": "C41",
   "status": "proved",
   "theorems": [
    "c41_crossed_voxels_marked"
   ],
   "note": "In exact arithmetic."
  },
  {
   "property": "C42",
   "status": "proved",
   "theorems": [
    "c42_schedule_independence"
   ],
   "note": "Every arithmetic, every hand-out of points and every interleaving."
  },
  {
   "property": "C43",
   "status": "proved",
   "theorems": [
    "c43_non_finite_ignored",
    "c43_single_point_rejected"
   ],
   "note": "Every arithmetic."
  },
  {
   "property": "C44",
   "status": "proved",
   "theorems": [
    "c44_classification",
    "c44_default_filled"
   ],
   "note": "Class of one camera for all counts whose sum fits in int32; the share test is characterized by the correctly rounded binary64 quotient and, up to one part in 2^53, by the real share."
  },
  {
   "property": "C45",
   "status": "proved",
   "theorems": [
    "c45_filtering",
    "c45_camera_order",
    "c45_more_cameras"
   ],
   "note": "All schedules of the parallel filter: race free, terminating, result determined by the numbers of cameras; order of cameras irrelevant; added cameras never clear a cell above 0.5."
  },
  {
   "property": "C46",
   "status": "partial",
   "theorems": [
    "c46_backends_agree_partial",
    "c46_backends_disagree_refuted"
   ],
   "note": "The device tests the share in binary32, the CPU in binary64: with default options 2^26 free and one filled observation are FREE on the device and FILLED on the CPU. They agree whenever no share lies within a relative distance of 2^-21 of the percentage, and for the default percentage up to 2^24 observations."
  },
  {
   "property": "C47",
   "status": "partial",
   "theorems": [
    "c47_cpu_partial",
    "c47_device",
    "c47_stale_output_refuted"
   ],
   "note": "The CPU backend filters whatever the output map contained: stale filled voxels survive. The device backends are independent of the previous content; the CPU backend is when output and static environment have the same cells above 0.5."
  },
  {
   "property": "C48",
   "status": "partial",
   "theorems": [
    "c48_vector_partial",
    "c48_overflow_refuted",
    "c48_copy_cloud",
    "c48_message_partial",
    "c48_message_refuted",
    "c48_vector4",
    "c48_message_reads"
   ],
   "note": "The range check of the vector index overflows for the last three int64 values, and only the first of twelve bytes read from a message is checked: both refuted. Holds for other indices and for messages with enough data."
  },
  {
   "property": "C49",
   "status": "partial",
   "theorems": [
    "c49_union_partial",
    "c49_race_refuted"
   ],
   "note": "Union of the triangles for every schedule and interleaving of atomic accesses; but threads write the same cell without synchronisation, a data race."
  },
  {
   "property": "C50",
   "status": "partial",
   "theorems": [
    "c50_covers_partial",
    "c50_covers_refuted",
    "c50_rotated_refuted"
   ],
   "note": "Closest edge point is chosen by distance from the world origin and rotated maps give empty index ranges: both refuted. Holds where the foot of the voxel centre lies in the triangle and for small triangles."
  },
  {
   "property": "C51",
   "status": "partial",
   "theorems": [
    "c51_contains_partial",
    "c51_resolution",
    "c51_rounding_refuted"
   ],
   "note": "Exact arithmetic; rounding of the grid origin at large coordinates makes the call throw."
  },
  {
   "property": "C52",
   "status": "partial",
   "theorems": [
    "c52_default_colors_partial",
    "c52_ignored_refuted",
    "c52_empty_refuted"
   ],
   "note": "The test for an empty colour map is inverted: a non-empty map is ignored and an empty one hides everything. Honoured only when the map repeats the default colours."
  },
  {
   "property": "C53",
   "status": "partial",
   "theorems": [
    "c53_surfaces_partial",
    "c53_object_surfaces_partial",
    "c53_interior_refuted"
   ],
   "note": "The condition tests that IsSurfaceIndex holds a value, so cells off the surface are shown too. No surface cell is missing."
  },
  {
   "property": "C54",
   "status": "partial",
   "theorems": [
    "c54_message_round_trips",
    "c54_other_scalar_type_partial",
    "c54_uncompressed_scalar_type_refuted",
    "c54_uncompressed"
   ],
   "note": "Round trips proved for all types. The scalar type is only checked for compressed messages: rejection proved for messages made by GetMessageRepresentation, refuted for uncompressed ones."
  },
  {
   "property": "C55",
   "status": "proved",
   "theorems": [
    "c55_best",
    "c55_explicit",
    "c55_threads",
    "c55_listed",
    "c55_list_complete",
    "c55_device_threads"
   ],
   "note": "For every environment with fewer than 2^31 platforms and devices."
  },
  {
   "property": "C56",
   "status": "partial",
   "theorems": [
    "c56_kept_reference_refuted",
    "c14_locked_field_is_frozen"
   ],
   "note": "false: a reference obtained before the lock still writes; holds when no reference is kept across the lock (C14)"
  },
  {
   "property": "C57",
   "status": "partial",
   "theorems": [
    "c57_reload_while_locked_refuted",
    "c15_minmax_current"
   ],
   "note": "false when the object was locked before the reload; holds when it was unlocked (reload is one of the calls of C15)"
  },
  {
   "property": "C58",
   "status": "partial",
   "theorems": [
    "c29_valid_components_are_right",
    "c58_kept_reference_refuted"
   ],
   "note": "False: a reference obtained before the update can be written without the map noticing. Proved when no reference is kept (C29)."
  },
  {
   "property": "C59",
   "status": "proved",
   "theorems": [
    "c59_reads_what_it_reports",
    "c59_truncated_rejected"
   ],
   "note": "For every base class serialization and zlib that satisfy deps_ok (SerialSpec.v)."
  },
  {
   "property": "C60",
   "status": "partial",
   "theorems": [
    "c60_counters_partial",
    "c60_counters_refuted"
   ],
   "note": "Holds while all counters fit in 2^31 elements; with five clouds and 2^28 voxels the filter kernels compute addresses outside the buffer."
  },
  {
   "property": "C61",
   "status": "partial",
   "theorems": [
    "c61_options_partial",
    "c61_nan_percentage_refuted"
   ],
   "note": "NaN is accepted as percentage. For every other double the constructor accepts exactly the valid options."
  },
  {
   "property": "C62",
   "status": "proved",
   "theorems": [
    "c62_cpu",
    "c62_device",
    "c62_sizes"
   ],
   "note": "Over every ray arithmetic (RaycastModel); device theorems for counters fitting in 2^31 elements."
  },
  {
   "property": "C63",
   "status": "proved",
   "theorems": [
    "c63_continuous"
   ],
   "note": "Exact arithmetic."
  },
  {
   "property": "C64",
   "status": "partial",
   "theorems": [
    "c64_translation_partial",
    "c64_rotation_refuted"
   ],
   "note": "Gradients are rotated into the world frame but used to step grid indices: refuted for a quarter turn, holds for translations."
  },
  {
   "property": "C65",
   "status": "partial",
   "theorems": [
    "c65_fine_gradient_partial",
    "c65_one_layer_refuted",
    "c65_half_window_refuted"
   ],
   "note": "Throws on one-layer maps with a window of one voxel and uses the full window to either side; answers and is a difference quotient bounded as in C63 when every axis is at least twice the window wide and the grid is not rotated."
  },
  {
   "property": "C66",
   "status": "partial",
   "theorems": [
    "c66_decodes_partial",
    "c66_rows_refuted",
    "c66_byte_order_refuted",
    "c66_size_refuted"
   ],
   "note": "row_step and is_bigendian are ignored and the number of points wraps at 2^32; holds otherwise."
  },
  {
   "property": "C67",
   "status": "partial",
   "theorems": [
    "c67_constructible_partial",
    "c67_constructible_refuted"
   ],
   "note": "OpenCL devices are listed without trying to build the programs."
  },
  {
   "property": "C68",
   "status": "proved",
   "theorems": [
    "c68_only_near"
   ],
   "note": "Exact arithmetic, every pose."
  },
  {
   "property": "C69",
   "status": "proved",
   "theorems": [
    "c69_for_display",
    "c69_separate_display"
   ],
   "note": ""
  },
  {
   "property": "C70",
   "status": "proved",
   "theorems": [
    "c70_index_map",
    "c70_index_map_throws",
    "c70_indices",
    "c70_indices_throws"
   ],
   "note": ""
  },
  {
   "property": "C71",
   "status": "proved",
   "theorems": [
    "c71_components",
    "c71_segment",
    "c71_segment_throws"
   ],
   "note": "LookupUniqueColor and InterpolateHotToCold are oracles assumed to give visible colours."
  },
  {
   "property": "C72",
   "status": "partial",
   "theorems": [
    "c72_sdf_partial",
    "c72_infinite_refuted"
   ],
   "note": "Proved for finite distances in binary64/binary32; infinite distances give a channel that is not a number."
  },
  {
   "property": "C73",
   "status": "partial",
   "theorems": [
    "c73_collision_partial",
    "c73_tiny_refuted"
   ],
   "note": "Distances are narrowed to float: positive distances up to 2^-150 are shown as collisions."
  },
  {
   "property": "C74",
   "status": "proved",
   "theorems": [
    "c74_hashed_map"
   ],
   "note": "Chunk bases are multiples of the chunk size (voxel_grid library)."
  },
  {
   "property": "C75",
   "status": "partial",
   "theorems": [
    "c75_entered_partial",
    "c75_devices_refuted",
    "c75_far_sensor_refuted"
   ],
   "note": "Proved in exact arithmetic from 1e-10 after the entry on. The nudge of 1e-10 vanishes in binary32: for a sensor beyond the upper end of a row the CPU clears the row and the devices do not. In binary64 it vanishes from 2^21 voxels on."
  },
  {
   "property": "C76",
   "status": "partial",
   "theorems": [
    "c41_crossed_voxels_marked",
    "c76_far_point_refuted"
   ],
   "note": "Proved in exact arithmetic. In binary32 the squared length overflows and the ray collapses to the sensor: the devices clear nothing but its voxel."
  },
  {
   "property": "C77",
   "status": "partial",
   "theorems": [
    "c77_hole_count_partial",
    "c77_hole_count_refuted"
   ],
   "note": "Proved for components whose cells nowhere touch only at a corner: the count is 1 - Euler number. False with corner contacts: two of them on a component without loops give 1, which is neither the count with cells joined by sides (0) nor with corners (2)."
  },
  {
   "property": "C78",
   "status": "partial",
   "theorems": [
    "c78_counts_partial",
    "c78_counts_tagged_partial",
    "c78_counts_exactly",
    "c78_counts_exactly_tagged",
    "c78_void_count_refuted"
   ],
   "note": "Proved for components without a cube of eight cells (voids) and without cells that meet only in an edge (holes). False with cubes: a cube with one more cell on top is reported with a void. What is returned for any component is in c78_counts_exactly."
  },
  {
   "property": "C79",
   "status": "proved",
   "theorems": [
    "c79_order_irrelevant",
    "c79_order_irrelevant_tagged"
   ],
   "note": ""
  },
  {
   "property": "C80",
   "status": "partial",
   "theorems": [
    "c80_float_values_partial",
    "c80_rounded_double_partial",
    "c80_sign_partial",
    "c80_tiny_refuted"
   ],
   "note": "Proved for resolutions above 2^-150. At 2^-200 all values round to zero, so filled and free cells get equal values."
  },
  {
   "property": "C81",
   "status": "proved",
   "theorems": [
    "c81_accuracy_double",
    "c81_accuracy_float"
   ],
   "note": ""
  },
  {
   "property": "C82",
   "status": "partial",
   "theorems": [
    "c82_holes_and_voids_partial",
    "c82_holes_and_voids_tagged_partial",
    "c82_cube_refuted"
   ],
   "note": "Proved for components without 2x2x2 cubes whose boundary does not touch itself; the tunnel count is expressed through the Euler number of the union of the cells. With a cube a void is reported that does not exist."
  },
  {
   "property": "C83",
   "status": "partial",
   "theorems": [
    "c83_cuda_partial",
    "c83_opencl",
    "c83_ends",
    "c83_free_refuted",
    "c83_loop_refuted",
    "c83_every_cloud"
   ],
   "note": "CUDA: an error of cudaFree is thrown from a destructor (.cu:496, 511-520) and ends the process, and so does any exception in a parallel loop that does not pass exceptions on (OpenMP). Everything else is proved, for OpenCL without exception. The contents of the output are C45-C47."
  },
  {
   "property": "C84",
   "status": "partial",
   "theorems": [
    "c84_devices_partial",
    "c84_opencl",
    "c84_devices_refuted",
    "c84_threads_refuted"
   ],
   "note": "False for CUDA: only the constructor and RaycastPoints call cudaSetDevice, so after constructing voxelizers for devices 0 and 1 the first one allocates on device 1 and runs on device 0, and so does a voxelizer for device 1 used on another thread. Proved when all CUDA voxelizers are for one device and are used where one was constructed (any thread for device 0), and for OpenCL."
  },
  {
   "property": "C85",
   "status": "proved",
   "theorems": [
    "c85_exact",
    "c85_everywhere",
    "c85_double",
    "c85_float"
   ],
   "note": "The constants are sqrt 3 - 1/2 and sqrt 3 / 2. The interpolation is in exact arithmetic on the values that are stored; rounding inside the query is not covered. The bound for outer half voxels is for exact stored distances. Fields with infinite distances (no filled or no free voxel and no border) have no finite estimate to speak of."
  },
  {
   "property": "C86",
   "status": "proved",
   "theorems": [
    "c86_loaded",
    "c86_converted",
    "c86_extracted"
   ],
   "note": "For dynamic maps the check is the one of the grid class, which is an oracle here. Sizes are compared as bit patterns; the code compares doubles."
  },
  {
   "property": "C87",
   "status": "proved",
   "theorems": [
    "c87_estimate",
    "c87_answers",
    "c87_trilinear",
    "c87_clearance_double",
    "c87_clearance_float"
   ],
   "note": "TrilinearInterpolate is external: any evaluation with relative error k (c87_trilinear: k = 2^-41 for one order of evaluation). The location is the one in the frame of the grid; the transform into it is external."
  },
  {
   "property": "C88",
   "status": "partial",
   "theorems": [
    "c88_coarse",
    "c88_coarse_double",
    "c88_coarse_float",
    "c88_fine_partial",
    "c88_tiny_window_refuted"
   ],
   "note": "Coarse gradient: proved for stored doubles (2^-47) and floats (2^-22), relative to 1 + largest distance over voxel size. Fine gradient: proved for windows of 2^-40 to 2^40 voxel sizes at locations within 2^50 windows of the origin, with any interpolation of the accuracy kappa. Missing: other windows; false for them, since a window lost in rounding the coordinates gives 0/0 (c88_tiny_window_refuted)."
  },
  {
   "property": "C89",
   "status": "proved",
   "theorems": [
    "c89_double",
    "c89_float",
    "c89_double_cloud",
    "c89_float_cloud"
   ],
   "note": "Binary64 and binary32 with round to nearest even (Flocq). The distance is N(N+128) 2^-53 voxel sizes on the CPU and N(N+130) 2^-24 on the devices for grids of at most N voxels per axis; coordinates up to 2^50 (2^20) voxel sizes, coordinate differences zero or at least 2^-90 (2^-30) voxel sizes. Assumed: each operation is rounded once (no contraction into fused operations), the norm adds the squares in order."
  },
  {
   "property": "C90",
   "status": "proved",
   "theorems": [
    "c90_cpu",
    "c90_devices",
    "c90_origin"
   ],
   "note": "Binary64 and binary32 with round to nearest even (Flocq). The error of coordinates is N(N+128) u v + 500 u s (N+130 on the devices) for voxel size v, at most N voxels per axis, and translations and points of at most s; that of lengths is 16384 u s; u is 2^-53 on the CPU and 2^-24 on the devices. Sensors at least that error and 2^-30 v (2^-15 v) inside the grid; sensors outside are C75 and C76. Assumed: each operation is rounded once, and Eigen adds the products of a row in order."
  },
  {
   "property": "C91",
   "status": "proved",
   "theorems": [
    "c91_cpu",
    "c91_devices",
    "c91_map_cpu",
    "c91_map_devices",
    "c91_distance_double",
    "c91_distance_float"
   ],
   "note": "Uses C62, C87 and C90, with their bounds on sizes. On the devices at most 2^24 points per cloud. A static cell that is NaN stays NaN and hides what is in it, so the environment has none. The map must not be all filled or all free unless the border is added (then the field is infinite, C01). With other percentages or thresholds a cell with points need not be filled; C90 says when it is. tri is any trilinear interpolation with a bounded error; c87_trilinear shows one."
  },
  {
   "property": "C92",
   "status": "proved",
   "theorems": [
    "c92_agree"
   ],
   "note": "Uses C90 on both sides, with its bounds on sizes. That the backends differ on some cells is C46 (refuted). The float points are the double points cast to float, as a PointCloudWrapper that stores doubles gives them."
  },
  {
   "property": "C93",
   "status": "proved",
   "theorems": [
    "c93_ray",
    "c93_cloud",
    "c93_missed"
   ],
   "note": "Extends C89 to sensors outside of the grid. The point must differ from the sensor: at distance zero the direction is not a number. A segment that stops in front of the grid may count free voxels it does not reach, which is C40 (refuted); such segments satisfy the other clauses. In float on the devices the nudge can be lost, see C75 (refuted), so this is about the CPU only. Assumes correctly rounded binary64 arithmetic and the compiler's floor to int64."
  },
  {
   "property": "C94",
   "status": "proved",
   "theorems": [
    "c94_cpu"
   ],
   "note": "Extends C90 on the CPU to sensors outside of the grid, using C93. The view of a sensor outside of the grid must be clear: the ray to a point, cut at the range, gets past the near sides of the grid by a small margin, or the ray passes the grid by; a segment that stops in front of the grid may mark free cells beyond its end, which is C40 (refuted). Sensors must be off the three planes through the origin of the grid by a tiny margin and outside sensors must not be at their points. Assumes correctly rounded binary64 arithmetic and the compiler's floor to int64."
  },
  {
   "property": "C95",
   "status": "proved",
   "theorems": [
    "c95_contains"
   ],
   "note": "Complements C51, which is in exact arithmetic: with rounding it holds up to 2^48 voxels from the origin, and fails at 2^53 (c51_rounding_refuted). Single accesses of the threads are taken as atomic, see C49. Assumes correctly rounded binary64 arithmetic and the compiler's floor and ceil to int64."
  },
  {
   "property": "C96",
   "status": "proved",
   "theorems": [
    "c96_only_near"
   ],
   "note": "Complements C68, which is in exact arithmetic. The triangle may be thin up to a squared area of a thousandth of the fourth power of its size, and the voxel may be up to 2^20 triangle sizes away. The rounding of the centre of the voxel is not included: the distance is from the centre as the map computes it. Assumes correctly rounded binary64 arithmetic."
  },
  {
   "property": "C97",
   "status": "proved",
   "theorems": [
    "c97_covers",
    "c97_small"
   ],
   "note": "Complements the positive part of C50, which is in exact arithmetic. Voxels whose centre projects outside of a larger triangle may be left out even if they meet it, which is C50 (refuted); so is the box of a turned map. The distance is from the centre as the map computes it. Assumes correctly rounded binary64 arithmetic."
  },
  {
   "property": "C98",
   "status": "proved",
   "theorems": [
    "c98_edges"
   ],
   "note": "In exact arithmetic. Goes beyond the second case of c50_covers_partial, which asks for all corners near; a voxel near only one or two of the edges may be left out, which is C50 (refuted)."
  }
 ]
}