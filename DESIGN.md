# Formal model of voxelized_geometry_tools: design

The code in `/repo` is read as text; nothing of it is compiled or run here.
Each definition in `rocq/theories/*Model.v` cites the file and lines it models
and states what it simplifies.

## 1. Layout

| file kind | contents |
|-----------|----------|
| `Util.v`, `Grid.v`, `Prog.v`, `Schedule.v` | list and grid lemmas, cell-at-a-time programs, interleavings of threads |
| `*Model.v`, `Occ.v` | executable Gallina transcription of the C++ functions |
| `*Spec.v` | small independent specifications, phrased without the model's helpers |
| `*Proofs.v`, `*Laws.v`, `*Top.v`, `SerialDeps.v`, `SdfQueryArith.v`, `FloatOrder.v`, `EdtExact.v`, `EdtFloat.v` | lemmas and instances |
| `Props*.v` | the property theorems, `Example`s showing that their hypotheses are met, and `Print Assumptions` |

Properties are listed in `properties.jsonl`, theorem names per property in
`MANIFEST.json`, mutation experiments in `seeded/LOG.jsonl`.

## 2. Trusted base

* The Coq 8.16.1 kernel, including `vm_compute`, which evaluates witnesses.
* What `Print Assumptions` lists per theorem (section 5). No axiom is added by
  this development.
* The reading of the C++ source by the author of the model (section 3).
* Behaviour assumed of what is not in `/repo` (section 4).

## 3. What is modelled

| source (under `src/` or `include/voxelized_geometry_tools/`) | model | not modelled |
|---|---|---|
| `signed_distance_field_generation.cpp/.hpp` | `EdtModel`, `SdfModel`, `SdfSingleModel` (float): both one-dimensional transforms, the three passes with their parallel loops, both signed combinations, virtual border, scaling | |
| `signed_distance_field.hpp` | `SdfStateModel` (lock, minimum and maximum), `SdfQueryModel` (gradients, distance estimates, projection, local extrema), `SerialModel` | overloads that only repack arguments. Distance estimates and gradients are also instantiated with binary64 (`SdfDoubleModel`), for stored double and float; projection and local extrema are proved in exact arithmetic only, except for the witnesses |
| `occupancy_map.*`, `occupancy_component_map.*`, `tagged_object_occupancy_map.*`, `tagged_object_occupancy_component_map.*` | `Occ` (cell predicates of SDF extraction), `ComponentMapModel` (components, segments and their validity over histories), `SurfaceModel` (surface, component surface and corner queries, extraction), `SerialModel` | `DoClone` (copies all members); the checks for cubic voxels in constructors, other than as part of conversions (the deserializers and distance field extraction have their own) |
| `topology_computation.hpp` | `TopologyModel` (labelling), `SurfaceModel` (surfaces, hole and void count) | verbose printing |
| `dynamic_spatial_hashed_occupancy_map.*` | `SerialModel` (serialization), `DisplayModel` (export) | chunk lookup, which is in the voxel_grid library |
| `occupancy_map_conversions.*` | `ConversionModel` | |
| `cpu_pointcloud_voxelization.*` | `RaycastModel`, `RayFloatModel` (in binary64), `PoseModel` (composition and application of transforms), `FilterModel` | measured run times |
| `cuda_voxelization_helpers.cu`, `opencl_voxelization_helpers.cc` | `RaycastModel` (the kernels are the same algorithm), `RayFloatModel` (in binary32), `PoseModel` (application of the transform), `FilterModel` (filter kernels, counter addresses, retrieval), `BackendModel` (device listing and availability), `ResourceModel` (buffers, failing calls, exceptions, devices of threads; not the contents of buffers) | error logging; the macOS variant of filling a buffer |
| `device_pointcloud_voxelization.*`, `pointcloud_voxelization_interface.hpp` | `FilterModel` (entry points, filter options), `PoseModel` (transforms and their conversion to float), `ResourceModel` (order of the calls and of destructors), `PointCloudModel` (point copies) | dispatch options are read by `BackendModel` only |
| `pointcloud_voxelization.*`, `dummy_*_helpers.cc` | `BackendModel` | log messages |
| `pointcloud_voxelization_ros_interface.*` | `PointCloudModel` (PointCloud2 decoding) | |
| `mesh_rasterizer.*` | `MeshModel`, `MeshDoubleModel` (in binary64) | |
| `ros_interface.*` | `DisplayModel` (points and colours of markers), `SerialModel` (messages) | header stamps, name spaces and ids of markers |
| `cl.hpp` (third party), examples, tests, CMake files | — | all |

Simplifications that hold throughout:

* Integers are unbounded, except where a property is about overflow: int32
  counters and addresses in `FilterModel` and `RaycastModel`, uint32 component
  numbers, int64 and uint32 indices in `PointCloudModel`, int32 values in
  `BackendModel`.
* Threads interleave at the granularity of one read or write of a cell.
  Theorems about schedules quantify over all interleavings; conflicting
  unsynchronised accesses are reported as a separate outcome.
* Undefined behaviour, exceptions and running out of fuel are separate
  outcomes, never default values. Theorems show that fuel suffices.
* Floating point is one of: exact reals or rationals with infinities and NaN
  (for geometric statements), Flocq binary64 and binary32 (for statements about
  rounding), or any implementation of an interface of operations (for
  statements that need no arithmetic). Witnesses that must be evaluated use
  `SpecFloat` of the standard library with the parameters of binary64 and
  binary32. Contraction into fused multiply-add is not represented.

## 4. What is assumed of dependencies

common_robotics_utilities, Eigen, zlib, OpenMP, CUDA, OpenCL and ROS are not in
`/repo`. The model assumes:

* `VoxelGridBase`: dense row-major storage (x slowest, z fastest). Indexed
  accesses check bounds. Mutable access first asks `OnMutableAccess` and is
  refused when it answers false.
* `DynamicSpatialHashedVoxelGrid`: chunk bases are multiples of the chunk size.
* `norm()` of Eigen adds the squares of the coordinates in order (`RayFloatModel`),
  and products of Eigen transforms add the products of a row in order (`PoseModel`);
  compilers round every operation of the kernels once, to nearest.
* `LocationInGridFrameToGridIndex` is `floor(location * inverse_voxel_size)` per
  axis. `GridIndexToLocationInGridFrame` is the cell centre.
  `VoxelGridSizes::FromGridSizes` takes the ceiling of size over cell size.
* `OwningMaybe<T>` and `ReferencingMaybe<T>` convert to `bool` as `HasValue()`.
* `SerializeMemcpyable` writes the bytes of the object, little endian.
  `SerializeString` and `SerializeVectorLike` write a 64 bit length followed by
  the elements. Deserializers throw when the buffer is too short. The precise
  laws are `deps_ok` in `SerialSpec.v`; `SerialDeps.v` gives an instance.
* `DecompressBytes (CompressBytes b) = b`.
* Parallel loops run each index exactly once, in any order and interleaving, and
  return after all are done. Relaxed atomic increments are indivisible and wrap
  at 2^32.
* `InverseVoxelSize` is `1.0 / voxel size`.
* `TrilinearInterpolate` is the usual formula and does not clamp. For C87 it is
  any evaluation of it in double with a bounded relative error; one order of
  evaluation is shown to be accurate enough.
  `VectorRejection` and `ClampValue` are what their names say.
* `static_cast<float>` of a double rounds to nearest and overflows to infinity.
* An Eigen isometry applied to a 4-vector leaves its last entry unchanged.
* `LookupUniqueColor` and `InterpolateHotToCold` are oracles that give visible
  colours. `MakeFromFloatColors` clamps its arguments to [0, 1].
* `cudaSetDevice` acts on the calling host thread, threads start on device 0,
  and `cudaMalloc` allocates on the device of the calling thread. A kernel that
  is given memory of another device, or memory that is not allocated, is an
  error after which nothing is claimed. Host memory never runs out.
* The set of devices does not change. Creating an OpenCL context or queue on a
  listed device succeeds.

## 5. Assumptions of each theorem

As printed by `Print Assumptions`. All are axioms of the standard library:

* D1 `ClassicalDedekindReals.sig_forall_dec`
* D2 `ClassicalDedekindReals.sig_not_dec`
* F `FunctionalExtensionality.functional_extensionality_dep`
* C `Classical_Prop.classic`

D1, D2 and F come with `Reals`; C comes with Flocq.

**Closed under the global context** (99 theorems): `c02_line_transform`, `c04_schedule_independent`, `c14_locked_field_is_frozen`, `c16_sdf_round_trip`, `c16_cache_current_after_histories`, `c17_answers`, `c18_total`, `c19_local_extrema`, `c20_project_partial`, `c20_throws_refuted`, `c20_forever_refuted`, `c20_outside`, `c21_points_partial`, `c21_coordinates_refuted`, `c22_map_round_trips`, `c23_save_load`, `c23_other_files_rejected`, `c24_shared_header_refuted`, `c24_families_partial`, `c25_plain_conversion`, `c25_tagged_conversion`, `c25_component_conversion`, `c25_tagged_component_conversion`, `c25_uninitialized_frame_refuted`, `c25_uninitialized_partial`, `c28_labelling_total`, `c34_component_surface_index`, `c35_interior_cell_refuted`, `c36_candidate_corner`, `c37_topology_throws_refuted`, `c38_static_of_dynamic`, `c38_static_round_trip`, `c38_index_map`, `c39_ray_walk`, `c42_schedule_independence`, `c43_non_finite_ignored`, `c43_single_point_rejected`, `c48_vector_partial`, `c48_overflow_refuted`, `c48_copy_cloud`, `c48_message_partial`, `c48_message_refuted`, `c48_vector4`, `c48_message_reads`, `c49_union_partial`, `c49_race_refuted`, `c50_covers_refuted`, `c50_rotated_refuted`, `c51_resolution`, `c51_rounding_refuted`, `c52_default_colors_partial`, `c52_ignored_refuted`, `c52_empty_refuted`, `c54_message_round_trips`, `c54_other_scalar_type_partial`, `c54_uncompressed_scalar_type_refuted`, `c54_uncompressed`, `c55_best`, `c55_explicit`, `c55_threads`, `c55_listed`, `c55_list_complete`, `c55_device_threads`, `c56_kept_reference_refuted`, `c57_reload_while_locked_refuted`, `c59_reads_what_it_reports`, `c59_truncated_rejected`, `c60_counters_partial`, `c60_counters_refuted`, `c62_sizes`, `c64_translation_partial`, `c64_rotation_refuted`, `c65_one_layer_refuted`, `c65_half_window_refuted`, `c66_decodes_partial`, `c66_rows_refuted`, `c66_byte_order_refuted`, `c66_size_refuted`, `c67_constructible_partial`, `c67_constructible_refuted`, `c70_index_map`, `c70_index_map_throws`, `c70_indices`, `c70_indices_throws`, `c71_segment`, `c71_segment_throws`, `c83_cuda_partial`, `c83_opencl`, `c83_ends`, `c83_free_refuted`, `c83_loop_refuted`, `c83_every_cloud`, `c84_devices_partial`, `c84_opencl`, `c84_devices_refuted`, `c84_threads_refuted`, `c86_loaded`, `c86_converted`, `c88_tiny_window_refuted`.

**D1, F** (1 theorems): `c75_far_sensor_refuted`.

**D1, D2, F** (26 theorems): `c01_sdf_exact`, `c05_sdf_sign`, `c06_uniform`, `c07_lipschitz`, `c08_monotone`, `c09_virtual_border`, `c10_unknown_is_filled_lowers`, `c11_order_and_repetition`, `c12_all_object_sdfs`, `c17_values`, `c18_between_partial`, `c18_range_partial`, `c18_centre_partial`, `c18_extrapolation_refuted`, `c40_marked_on_ray_partial`, `c40_free_before_grid_refuted`, `c41_crossed_voxels_marked`, `c50_covers_partial`, `c51_contains_partial`, `c63_continuous`, `c65_fine_gradient_partial`, `c68_only_near`, `c75_entered_partial`, `c85_exact`, `c85_everywhere`, `c98_edges`.

**D1, D2, F, C** (117 theorems): `c01_sdf_binary64`, `c02_line_transform_binary64`, `c03_binary64_distances_exact`, `c04_schedule_independent_binary64`, `c05_sdf_sign_binary64`, `c08_monotone_binary64`, `c08_monotone_binary32`, `c10_occupancy_classification`, `c11_object_lists`, `c13_free_and_named`, `c15_minmax_current`, `c15_minmax_current_float`, `c26_components_are_classes`, `c27_numbers_without_gaps`, `c28_each_cell_once`, `c29_valid_components_are_right`, `c30_tagged_components_partial`, `c30_valid_for_some_flag_partial`, `c30_cached_flag_refuted`, `c31_last_update_valid_partial`, `c31_never_both_valid`, `c31_both_valid_refuted`, `c32_segments_are_classes_partial`, `c32_valid_for_some_call_partial`, `c32_cached_threshold_refuted`, `c33_surface_index`, `c33_surface_index_nan`, `c35_all_selected_cells_partial`, `c37_one_layer_partial`, `c37_one_layer_tagged_partial`, `c37_one_layer_walk_partial`, `c37_throws_exactly`, `c37_throws_exactly_tagged`, `c37_flat_top_throws`, `c37_pinched_refuted`, `c37_well_composed_partial`, `c37_well_composed_tagged_partial`, `c44_classification`, `c44_default_filled`, `c45_filtering`, `c45_camera_order`, `c45_more_cameras`, `c46_backends_agree_partial`, `c46_backends_disagree_refuted`, `c47_cpu_partial`, `c47_device`, `c47_stale_output_refuted`, `c53_surfaces_partial`, `c53_object_surfaces_partial`, `c53_interior_refuted`, `c58_kept_reference_refuted`, `c61_options_partial`, `c61_nan_percentage_refuted`, `c62_cpu`, `c62_device`, `c69_for_display`, `c69_separate_display`, `c71_components`, `c72_sdf_partial`, `c72_infinite_refuted`, `c73_collision_partial`, `c73_tiny_refuted`, `c74_hashed_map`, `c75_devices_refuted`, `c76_far_point_refuted`, `c77_hole_count_partial`, `c77_hole_count_refuted`, `c78_counts_partial`, `c78_counts_tagged_partial`, `c78_counts_exactly`, `c78_counts_exactly_tagged`, `c78_void_count_refuted`, `c79_order_irrelevant`, `c79_order_irrelevant_tagged`, `c80_float_values_partial`, `c80_rounded_double_partial`, `c80_sign_partial`, `c80_tiny_refuted`, `c81_accuracy_double`, `c81_accuracy_float`, `c82_holes_and_voids_partial`, `c82_holes_and_voids_tagged_partial`, `c82_cube_refuted`, `c85_double`, `c85_float`, `c86_extracted`, `c87_estimate`, `c87_answers`, `c87_trilinear`, `c87_clearance_double`, `c87_clearance_float`, `c88_coarse`, `c88_coarse_double`, `c88_coarse_float`, `c88_fine_partial`, `c89_double`, `c89_float`, `c89_double_cloud`, `c89_float_cloud`, `c90_cpu`, `c90_devices`, `c90_origin`, `c91_cpu`, `c91_devices`, `c91_map_cpu`, `c91_map_devices`, `c91_distance_double`, `c91_distance_float`, `c92_agree`, `c93_ray`, `c93_cloud`, `c93_missed`, `c94_cpu`, `c95_contains`, `c96_only_near`, `c97_covers`, `c97_small`.

## 6. Properties

`proved`: the statement in `properties.jsonl` holds of the model. `partial`: it
does not hold, or only in part. Then theorems ending in `_refuted` exhibit a
counterexample of the model, and the others state what does hold.

| id | property | status | theorems | note |
|----|----------|--------|----------|------|
| C01 | SDF magnitude is the exact nearest-opposite distance | proved | `c01_sdf_exact`, `c01_sdf_binary64` | exact arithmetic, and the double-precision field with its two roundings |
| C02 | One dimensional transform: linear-time and brute-force variants agree | proved | `c02_line_transform`, `c02_line_transform_binary64` |  |
| C03 | Binary64 rounding never changes a squared distance | proved | `c03_binary64_distances_exact` |  |
| C04 | SDF generation is independent of the parallel schedule | proved | `c04_schedule_independent`, `c04_schedule_independent_binary64` |  |
| C05 | SDF sign classifies cells | proved | `c05_sdf_sign`, `c05_sdf_sign_binary64` | also with a virtual border |
| C06 | SDF of a uniform map is infinite | proved | `c06_uniform` |  |
| C07 | SDF is Lipschitz | proved | `c07_lipschitz` |  |
| C08 | SDF is monotone in the filled set | proved | `c08_monotone`, `c08_monotone_binary64`, `c08_monotone_binary32` | In exact arithmetic, and for the values stored in fields of double and float. |
| C09 | Virtual border limits distances by the grid boundary | proved | `c09_virtual_border`, `c01_sdf_binary64` |  |
| C10 | Occupancy classification for SDFs honours unknown_is_filled | proved | `c10_occupancy_classification`, `c10_unknown_is_filled_lowers` |  |
| C11 | Object-filtered SDFs see only the requested objects | proved | `c11_object_lists`, `c11_order_and_repetition` |  |
| C12 | MakeAllObjectSDFs covers exactly the non-zero object ids | proved | `c12_all_object_sdfs` |  |
| C13 | Free-and-named-objects SDF combination | proved | `c13_free_and_named` |  |
| C14 | A locked SDF cannot change | proved | `c14_locked_field_is_frozen` |  |
| C15 | Minimum/maximum queries are never stale | proved | `c15_minmax_current`, `c15_minmax_current_float` |  |
| C16 | SDF serialization round trip | proved | `c16_sdf_round_trip`, `c16_cache_current_after_histories` | For objects whose cached minimum and maximum are current, which the second theorem shows for every careful history (see C56 and C57 for the others). For every base class serialization and zlib that satisfy deps_ok (SerialSpec.v). |
| C17 | Coarse gradient is a finite difference of in-grid cells | proved | `c17_answers`, `c17_values` | Which cells answer: every arithmetic. Values of the components: exact arithmetic. |
| C18 | Distance estimation stays within the corrected neighbour values | partial | `c18_total`, `c18_between_partial`, `c18_range_partial`, `c18_centre_partial`, `c18_extrapolation_refuted` | Totality in every arithmetic. In exact arithmetic the bound holds between the outermost cell centres; in the outer half of boundary voxels the code extrapolates and the claim is refuted, with a bound on the excess. |
| C19 | Local extrema map is total and terminates | proved | `c19_local_extrema` | Every field, every arithmetic: termination and full characterization of the map. |
| C20 | Projection out of collision reaches the minimum distance | partial | `c20_project_partial`, `c20_throws_refuted`, `c20_forever_refuted`, `c20_outside` | Returned positions exceed the minimum distance; but with the default step size the call can throw (a step leaves the grid) or never return (alternates between two points), both refuted in binary64 on ordinary fields. |
| C21 | Projection results are usable as query points | partial | `c21_points_partial`, `c21_coordinates_refuted` | The constructor taking three coordinates sets w = 0; all results of projection have w = 1. |
| C22 | Occupancy map serialization round trips | proved | `c22_map_round_trips` | The five map types. For every base class serialization and zlib that satisfy deps_ok (SerialSpec.v). |
| C23 | File save/load round trip | proved | `c23_save_load`, `c23_other_files_rejected` | For every base class serialization and zlib that satisfy deps_ok (SerialSpec.v). |
| C24 | Files of one map type are not accepted by another type's loader by header | partial | `c24_shared_header_refuted`, `c24_families_partial` | False of the code: plain and component maps share CMGZ/CMGR, tagged and tagged component maps TMGZ/TMGR; a component map file loads as a plain map. Proved between the families. |
| C25 | Conversions between plain and component maps lose nothing | partial | `c25_plain_conversion`, `c25_tagged_conversion`, `c25_component_conversion`, `c25_tagged_component_conversion`, `c25_uninitialized_frame_refuted`, `c25_uninitialized_partial` | Proved for every initialized map. An uninitialized map converts to an uninitialized one, but the frame set on it with SetFrame is lost. |
| C26 | Connected component labels are the connectivity classes | proved | `c26_components_are_classes` | Grids of fewer than 2^32 cells (component numbers are uint32_t). A NaN occupancy is on no side of 0.5, so such a cell is a class of its own. |
| C27 | Component numbers are 1..n without gaps and n is reported | proved | `c27_numbers_without_gaps` | Grids of fewer than 2^32 cells. |
| C28 | Component labelling terminates and never fails | proved | `c28_labelling_total`, `c28_each_cell_once` | Termination for grids of any size. |
| C29 | Components reported valid are right | proved | `c29_valid_components_are_right` | Histories in which no mutable cell reference is kept across an update (see C58) and grids of fewer than 2^32 cells. |
| C30 | Tagged components honour connect_across_objects | partial | `c30_tagged_components_partial`, `c30_valid_for_some_flag_partial`, `c30_cached_flag_refuted` | False for histories: a second call with the other flag returns the cached labels. Proved from any map whose components are not valid, and for histories: valid labels are those of the flag of an earlier call. |
| C31 | Components and spatial segments can both be valid | partial | `c31_last_update_valid_partial`, `c31_never_both_valid`, `c31_both_valid_refuted` | False: marking through GetIndexMutable clears both flags, so the two results are never valid together. |
| C32 | Spatial segments are the classes of the requested connectivity | partial | `c32_segments_are_classes_partial`, `c32_valid_for_some_call_partial`, `c32_cached_threshold_refuted` | False for histories: a second call with another threshold returns the cached segments. Proved from any map whose segments are not valid, for any local extrema map. |
| C33 | Surface index query | proved | `c33_surface_index`, `c33_surface_index_nan` | For any cell type with an occupancy, so for all four map types. Without NaN cells the statement as written; the second theorem gives the exact behaviour with NaN cells. |
| C34 | Connected component surface query | proved | `c34_component_surface_index` |  |
| C35 | Extracted component surfaces contain only surface cells | partial | `c35_all_selected_cells_partial`, `c35_interior_cell_refuted` | False of the code: the extraction tests whether IsConnectedComponentSurfaceIndex returned a value, not the value, so interior cells are returned. Proved: exactly all cells of the selected kinds, grouped by component, are returned, hence every surface cell. |
| C36 | Candidate corner query | proved | `c36_candidate_corner` |  |
| C37 | Component topology succeeds on every map | partial | `c37_topology_throws_refuted`, `c37_one_layer_partial`, `c37_one_layer_tagged_partial`, `c37_one_layer_walk_partial`, `c37_throws_exactly`, `c37_throws_exactly_tagged`, `c37_flat_top_throws`, `c37_pinched_refuted`, `c37_well_composed_partial`, `c37_well_composed_tagged_partial` | False of the code: the z+1 neighbour is read at z-1 (topology_computation.hpp:388-391), so a component with a flat top two cells thick anywhere throws in every traversal order, and so does one without any cube of cells whose cavities touch the outside at corners. Proved: exactly when the call throws, for maps of any size, that on maps one cell high it never does, and that it returns when no selected component has such a top or touches itself along an edge or at a vertex. |
| C38 | Static and dynamic surface representations convert faithfully | proved | `c38_static_of_dynamic`, `c38_static_round_trip`, `c38_index_map` |  |
| C39 | A ray updates each voxel at most once and terminates | proved | `c39_ray_walk` | For every arithmetic (the ray_arith record is universally quantified), so for every rounding behaviour. |
| C40 | Voxels marked free are on the ray | partial | `c40_marked_on_ray_partial`, `c40_free_before_grid_refuted` | In exact arithmetic. False of the code when the sensor is outside the grid and the ray ends before reaching it: the first voxel of the grid is marked free. Proved for sensors inside the grid and for rays that reach the grid before their end. |
| C41 | Every voxel crossed by an in-grid ray is seen | proved | `c41_crossed_voxels_marked` | In exact arithmetic. |
| C42 | Raycasting is independent of the parallel schedule | proved | `c42_schedule_independence` | Every arithmetic, every hand-out of points and every interleaving. |
| C43 | Non-finite points are ignored | proved | `c43_non_finite_ignored`, `c43_single_point_rejected` | Every arithmetic. |
| C44 | Camera classification of counts | proved | `c44_classification`, `c44_default_filled` | Class of one camera for all counts whose sum fits in int32; the share test is characterized by the correctly rounded binary64 quotient and, up to one part in 2^53, by the real share. |
| C45 | Filtering preserves filled cells and is insensitive to camera order | proved | `c45_filtering`, `c45_camera_order`, `c45_more_cameras` | All schedules of the parallel filter: race free, terminating, result determined by the numbers of cameras; order of cameras irrelevant; added cameras never clear a cell above 0.5. |
| C46 | CPU and device backends filter alike | partial | `c46_backends_agree_partial`, `c46_backends_disagree_refuted` | The device tests the share in binary32, the CPU in binary64: with default options 2^26 free and one filled observation are FREE on the device and FILLED on the CPU. They agree whenever no share lies within a relative distance of 2^-21 of the percentage, and for the default percentage up to 2^24 observations. |
| C47 | Voxelizing into a provided output starts from the static environment | partial | `c47_cpu_partial`, `c47_device`, `c47_stale_output_refuted` | The CPU backend filters whatever the output map contained: stale filled voxels survive. The device backends are independent of the previous content; the CPU backend is when output and static environment have the same cells above 0.5. |
| C48 | Point copies stay inside their buffers | partial | `c48_vector_partial`, `c48_overflow_refuted`, `c48_copy_cloud`, `c48_message_partial`, `c48_message_refuted`, `c48_vector4`, `c48_message_reads` | The range check of the vector index overflows for the last three int64 values, and only the first of twelve bytes read from a message is checked: both refuted. Holds for other indices and for messages with enough data. |
| C49 | Mesh rasterization is independent of the schedule and only adds | partial | `c49_union_partial`, `c49_race_refuted` | Union of the triangles for every schedule and interleaving of atomic accesses; but threads write the same cell without synchronisation, a data race. |
| C50 | Every voxel intersected by a triangle is filled | partial | `c50_covers_partial`, `c50_covers_refuted`, `c50_rotated_refuted` | Closest edge point is chosen by distance from the world origin and rotated maps give empty index ranges: both refuted. Holds where the foot of the voxel centre lies in the triangle and for small triangles. |
| C51 | A map built for a mesh contains it | partial | `c51_contains_partial`, `c51_resolution`, `c51_rounding_refuted` | Exact arithmetic; rounding of the grid origin at large coordinates makes the call throw. |
| C52 | Display exports honour the object colour map | partial | `c52_default_colors_partial`, `c52_ignored_refuted`, `c52_empty_refuted` | The test for an empty colour map is inverted: a non-empty map is ignored and an empty one hides everything. Honoured only when the map repeats the default colours. |
| C53 | Surface exports show exactly the surface cells | partial | `c53_surfaces_partial`, `c53_object_surfaces_partial`, `c53_interior_refuted` | The condition tests that IsSurfaceIndex holds a value, so cells off the surface are shown too. No surface cell is missing. |
| C54 | Message round trips | partial | `c54_message_round_trips`, `c54_other_scalar_type_partial`, `c54_uncompressed_scalar_type_refuted`, `c54_uncompressed` | Round trips proved for all types. The scalar type is only checked for compressed messages: rejection proved for messages made by GetMessageRepresentation, refuted for uncompressed ones. |
| C55 | Backend selection | proved | `c55_best`, `c55_explicit`, `c55_threads`, `c55_listed`, `c55_list_complete`, `c55_device_threads` | For every environment with fewer than 2^31 platforms and devices. |
| C56 | A locked SDF cannot change through references handed out before the lock | partial | `c56_kept_reference_refuted`, `c14_locked_field_is_frozen` | false: a reference obtained before the lock still writes; holds when no reference is kept across the lock (C14) |
| C57 | Reloading a locked SDF refreshes its minimum/maximum | partial | `c57_reload_while_locked_refuted`, `c15_minmax_current` | false when the object was locked before the reload; holds when it was unlocked (reload is one of the calls of C15) |
| C58 | Valid components stay right when a kept reference is written | partial | `c29_valid_components_are_right`, `c58_kept_reference_refuted` | False: a reference obtained before the update can be written without the map noticing. Proved when no reference is kept (C29). |
| C59 | Deserialization reads only what it reports and rejects truncated data | proved | `c59_reads_what_it_reports`, `c59_truncated_rejected` | For every base class serialization and zlib that satisfy deps_ok (SerialSpec.v). |
| C60 | Device counters of every camera are read back where they were written | partial | `c60_counters_partial`, `c60_counters_refuted` | Holds while all counters fit in 2^31 elements; with five clouds and 2^28 voxels the filter kernels compute addresses outside the buffer. |
| C61 | Filter options are always meaningful | partial | `c61_options_partial`, `c61_nan_percentage_refuted` | NaN is accepted as percentage. For every other double the constructor accepts exactly the valid options. |
| C62 | Voxelization produces the map described by what the points see | proved | `c62_cpu`, `c62_device`, `c62_sizes` | Over every ray arithmetic (RaycastModel); device theorems for counters fitting in 2^31 elements. |
| C63 | Distance estimates are continuous | proved | `c63_continuous` | Exact arithmetic. |
| C64 | Local extrema map does not depend on the pose of the grid | partial | `c64_translation_partial`, `c64_rotation_refuted` | Gradients are rotated into the world frame but used to step grid indices: refuted for a quarter turn, holds for translations. |
| C65 | Fine gradient answers everywhere and is the documented difference quotient | partial | `c65_fine_gradient_partial`, `c65_one_layer_refuted`, `c65_half_window_refuted` | Throws on one-layer maps with a window of one voxel and uses the full window to either side; answers and is a difference quotient bounded as in C63 when every axis is at least twice the window wide and the grid is not rotated. |
| C66 | PointCloud2 points are the points of the message | partial | `c66_decodes_partial`, `c66_rows_refuted`, `c66_byte_order_refuted`, `c66_size_refuted` | row_step and is_bigendian are ignored and the number of points wraps at 2^32; holds otherwise. |
| C67 | Listed backends can be constructed | partial | `c67_constructible_partial`, `c67_constructible_refuted` | OpenCL devices are listed without trying to build the programs. |
| C68 | Rasterization fills only voxels near the triangle | proved | `c68_only_near` | Exact arithmetic, every pose. |
| C69 | Display exports show every cell once in the colour of its kind | proved | `c69_for_display`, `c69_separate_display` |  |
| C70 | Index exports show exactly the listed cells | proved | `c70_index_map`, `c70_index_map_throws`, `c70_indices`, `c70_indices_throws` |  |
| C71 | Component and segment exports colour by number | proved | `c71_components`, `c71_segment`, `c71_segment_throws` | LookupUniqueColor and InterpolateHotToCold are oracles assumed to give visible colours. |
| C72 | SDF display colours by sign and scales by distance | partial | `c72_sdf_partial`, `c72_infinite_refuted` | Proved for finite distances in binary64/binary32; infinite distances give a channel that is not a number. |
| C73 | Collision display of an SDF shows exactly non-positive distances | partial | `c73_collision_partial`, `c73_tiny_refuted` | Distances are narrowed to float: positive distances up to 2^-150 are shown as collisions. |
| C74 | Hashed map display shows every voxel of every chunk once | proved | `c74_hashed_map` | Chunk bases are multiples of the chunk size (voxel_grid library). |
| C75 | A sensor outside the grid clears the voxels its rays cross | partial | `c75_entered_partial`, `c75_devices_refuted`, `c75_far_sensor_refuted` | Proved in exact arithmetic from 1e-10 after the entry on. The nudge of 1e-10 vanishes in binary32: for a sensor beyond the upper end of a row the CPU clears the row and the devices do not. In binary64 it vanishes from 2^21 voxels on. |
| C76 | A finite point clears the space up to the range, however far it is | partial | `c41_crossed_voxels_marked`, `c76_far_point_refuted` | Proved in exact arithmetic. In binary32 the squared length overflows and the ray collapses to the sensor: the devices clear nothing but its voxel. |
| C77 | The hole count of a component is its number of loops | partial | `c77_hole_count_partial`, `c77_hole_count_refuted` | Proved for components whose cells nowhere touch only at a corner: the count is 1 - Euler number. False with corner contacts: two of them on a component without loops give 1, which is neither the count with cells joined by sides (0) nor with corners (2). |
| C78 | Voids and holes are those of the boundary of the component | partial | `c78_counts_partial`, `c78_counts_tagged_partial`, `c78_counts_exactly`, `c78_counts_exactly_tagged`, `c78_void_count_refuted` | Proved for components without a cube of eight cells (voids) and without cells that meet only in an edge (holes). False with cubes: a cube with one more cell on top is reported with a void. What is returned for any component is in c78_counts_exactly. |
| C79 | Component topology does not depend on the hash containers | proved | `c79_order_irrelevant`, `c79_order_irrelevant_tagged` |  |
| C80 | A float field holds the distances of the double field | partial | `c80_float_values_partial`, `c80_rounded_double_partial`, `c80_sign_partial`, `c80_tiny_refuted` | Proved for resolutions above 2^-150. At 2^-200 all values round to zero, so filled and free cells get equal values. |
| C81 | Stored distances are accurate to the last digits | proved | `c81_accuracy_double`, `c81_accuracy_float` |  |
| C82 | Voids are cavities and holes are tunnels | partial | `c82_holes_and_voids_partial`, `c82_holes_and_voids_tagged_partial`, `c82_cube_refuted` | Proved for components without 2x2x2 cubes whose boundary does not touch itself; the tunnel count is expressed through the Euler number of the union of the cells. With a cube a void is reported that does not exist. |
| C83 | A failing device call never leaks memory or half a result | partial | `c83_cuda_partial`, `c83_opencl`, `c83_ends`, `c83_free_refuted`, `c83_loop_refuted`, `c83_every_cloud` | CUDA: an error of cudaFree is thrown from a destructor (.cu:496, 511-520) and ends the process, and so does any exception in a parallel loop that does not pass exceptions on (OpenMP). Everything else is proved, for OpenCL without exception. The contents of the output are C45-C47. |
| C84 | Device voxelizers can be used side by side and from any thread | partial | `c84_devices_partial`, `c84_opencl`, `c84_devices_refuted`, `c84_threads_refuted` | False for CUDA: only the constructor and RaycastPoints call cudaSetDevice, so after constructing voxelizers for devices 0 and 1 the first one allocates on device 1 and runs on device 0, and so does a voxelizer for device 1 used on another thread. Proved when all CUDA voxelizers are for one device and are used where one was constructed (any thread for device 0), and for OpenCL. |
| C85 | Estimated distances of a generated field are true to within a voxel diagonal | proved | `c85_exact`, `c85_everywhere`, `c85_double`, `c85_float` | The constants are sqrt 3 - 1/2 and sqrt 3 / 2. The interpolation is in exact arithmetic on the values that are stored; rounding inside the query is not covered. The bound for outer half voxels is for exact stored distances. Fields with infinite distances (no filled or no free voxel and no border) have no finite estimate to speak of. |
| C86 | Objects only ever have cubic voxels | proved | `c86_loaded`, `c86_converted`, `c86_extracted` | For dynamic maps the check is the one of the grid class, which is an oracle here. Sizes are compared as bit patterns; the code compares doubles. |
| C87 | Distance estimates computed in double are close to exact | proved | `c87_estimate`, `c87_answers`, `c87_trilinear`, `c87_clearance_double`, `c87_clearance_float` | TrilinearInterpolate is external: any evaluation with relative error k (c87_trilinear: k = 2^-41 for one order of evaluation). The location is the one in the frame of the grid; the transform into it is external. |
| C88 | Gradients computed in double precision are close to the exact ones | partial | `c88_coarse`, `c88_coarse_double`, `c88_coarse_float`, `c88_fine_partial`, `c88_tiny_window_refuted` | Coarse gradient: proved for stored doubles (2^-47) and floats (2^-22), relative to 1 + largest distance over voxel size. Fine gradient: proved for windows of 2^-40 to 2^40 voxel sizes at locations within 2^50 windows of the origin, with any interpolation of the accuracy kappa. Missing: other windows; false for them, since a window lost in rounding the coordinates gives 0/0 (c88_tiny_window_refuted). |
| C89 | Rays cast with rounded arithmetic mark the voxels along the segment | proved | `c89_double`, `c89_float`, `c89_double_cloud`, `c89_float_cloud` | Binary64 and binary32 with round to nearest even (Flocq). The distance is N(N+128) 2^-53 voxel sizes on the CPU and N(N+130) 2^-24 on the devices for grids of at most N voxels per axis; coordinates up to 2^50 (2^20) voxel sizes, coordinate differences zero or at least 2^-90 (2^-30) voxel sizes. Assumed: each operation is rounded once (no contraction into fused operations), the norm adds the squares in order. |
| C90 | Voxelization shows what the sensors saw, with poses, ranges and rounding | proved | `c90_cpu`, `c90_devices`, `c90_origin` | Binary64 and binary32 with round to nearest even (Flocq). The error of coordinates is N(N+128) u v + 500 u s (N+130 on the devices) for voxel size v, at most N voxels per axis, and translations and points of at most s; that of lengths is 16384 u s; u is 2^-53 on the CPU and 2^-24 on the devices. Sensors at least that error and 2^-30 v (2^-15 v) inside the grid; sensors outside are C75 and C76. Assumed: each operation is rounded once, and Eigen adds the products of a row in order. |
| C91 | A reported distance is about what the sensors saw | proved | `c91_cpu`, `c91_devices`, `c91_map_cpu`, `c91_map_devices`, `c91_distance_double`, `c91_distance_float` | Uses C62, C87 and C90, with their bounds on sizes. On the devices at most 2^24 points per cloud. A static cell that is NaN stays NaN and hides what is in it, so the environment has none. The map must not be all filled or all free unless the border is added (then the field is infinite, C01). With other percentages or thresholds a cell with points need not be filled; C90 says when it is. tri is any trilinear interpolation with a bounded error; c87_trilinear shows one. |
| C92 | The backends agree on clear-cut cells | proved | `c92_agree` | Uses C90 on both sides, with its bounds on sizes. That the backends differ on some cells is C46 (refuted). The float points are the double points cast to float, as a PointCloudWrapper that stores doubles gives them. |
| C93 | Rays of a sensor anywhere, computed in double | proved | `c93_ray`, `c93_cloud`, `c93_missed` | Extends C89 to sensors outside of the grid. The point must differ from the sensor: at distance zero the direction is not a number. A segment that stops in front of the grid may count free voxels it does not reach, which is C40 (refuted); such segments satisfy the other clauses. In float on the devices the nudge can be lost, see C75 (refuted), so this is about the CPU only. Assumes correctly rounded binary64 arithmetic and the compiler's floor to int64. |
| C94 | Maps of scenes seen from anywhere | proved | `c94_cpu` | Extends C90 on the CPU to sensors outside of the grid, using C93. The view of a sensor outside of the grid must be clear: the ray to a point, cut at the range, gets past the near sides of the grid by a small margin, or the ray passes the grid by; a segment that stops in front of the grid may mark free cells beyond its end, which is C40 (refuted). Sensors must be off the three planes through the origin of the grid by a tiny margin and outside sensors must not be at their points. Assumes correctly rounded binary64 arithmetic and the compiler's floor to int64. |
| C95 | A map built for a mesh contains it, in double | proved | `c95_contains` | Complements C51, which is in exact arithmetic: with rounding it holds up to 2^48 voxels from the origin, and fails at 2^53 (c51_rounding_refuted). Single accesses of the threads are taken as atomic, see C49. Assumes correctly rounded binary64 arithmetic and the compiler's floor and ceil to int64. |
| C96 | Rasterization in double fills only voxels near the triangle | proved | `c96_only_near` | Complements C68, which is in exact arithmetic. The triangle may be thin up to a squared area of a thousandth of the fourth power of its size, and the voxel may be up to 2^20 triangle sizes away. The rounding of the centre of the voxel is not included: the distance is from the centre as the map computes it. Assumes correctly rounded binary64 arithmetic. |
| C97 | Rasterization in double fills the voxels over the triangle | proved | `c97_covers`, `c97_small` | Complements the positive part of C50, which is in exact arithmetic. Voxels whose centre projects outside of a larger triangle may be left out even if they meet it, which is C50 (refuted); so is the box of a turned map. The distance is from the centre as the map computes it. Assumes correctly rounded binary64 arithmetic. |
| C98 | Rasterization fills the voxels near all edges of the triangle | proved | `c98_edges` | In exact arithmetic. Goes beyond the second case of c50_covers_partial, which asks for all corners near; a voxel near only one or two of the edges may be left out, which is C50 (refuted). |

