{"id": "C01", "title": "SDF magnitude is the exact nearest-opposite distance", "statement": "After ExtractSignedDistanceField (no virtual border), the value stored for a cell that the map reports as not filled is the voxel resolution times the Euclidean distance, in voxels, from that cell's centre to the nearest filled cell's centre; for a filled cell it is minus the resolution times the distance to the nearest not-filled cell. This holds on every axis length, on both sides of the length at which the implementation changes algorithm.", "quantifier": "every grid of at least one voxel per axis, every assignment of filled/not-filled to its cells, every cell, in exact arithmetic", "why_tests_cant": "The number of fill patterns is 2^(cells); the lower-envelope algorithm has data-dependent backtracking whose worst cases are not reached by sampling.", "anchors": ["include/voxelized_geometry_tools/signed_distance_field_generation.hpp:ExtractSignedDistanceField", "src/voxelized_geometry_tools/signed_distance_field_generation.cpp:ComputeDistanceFieldTransformInPlace", "src/voxelized_geometry_tools/signed_distance_field_generation.cpp:ComputeOneDimensionDistanceTransformInPlaceLinear"]}
{"id": "C02", "title": "One dimensional transform: linear-time and brute-force variants agree", "statement": "The result of the distance transform along a line does not depend on whether the line is short enough for the brute-force variant or long enough for the linear-time one: both yield, at each position q, the minimum over positions p of (q-p)^2 plus the input value at p, including inputs where some or all values are +infinity.", "quantifier": "every line length, every line content of non-negative integers (squared voxel distances) and infinities; in binary64 every line of at most 2^25 cells and values up to 2^51", "why_tests_cant": "Threshold-crossing behaviour must coincide for every content, not just for the tested ones; infinities meet special cases in the intersection computation.", "anchors": ["src/voxelized_geometry_tools/signed_distance_field_generation.cpp:ComputeOneDimensionDistanceTransformInPlaceBruteForce", "src/voxelized_geometry_tools/signed_distance_field_generation.cpp:ComputeOneDimensionDistanceTransformInPlaceLinear", "src/voxelized_geometry_tools/signed_distance_field_generation.cpp:ComputeOneDimensionDistanceTransformInPlace"]}
{"id": "C03", "title": "Binary64 rounding never changes a squared distance", "statement": "Although the squared-distance fields are computed with double arithmetic that includes divisions, for grids of at most 2^25 voxels per axis every squared distance produced is exactly the integer it should be: rounding of the intersection positions never selects a wrong source cell.", "quantifier": "every grid of at most 2^25 voxels per axis, every fill pattern, every cell, IEEE binary64 round-to-nearest-even", "why_tests_cant": "Rounding errors appear only at particular combinations of positions and values; sampling cannot show that none of them flips a comparison.", "anchors": ["src/voxelized_geometry_tools/signed_distance_field_generation.cpp:ComputeOneDimensionDistanceTransformInPlaceLinear"]}
{"id": "C04", "title": "SDF generation is independent of the parallel schedule", "statement": "For every number of threads and every interleaving of the per-line work of one axis pass, the field produced is the one produced by serial execution; no two lines of one pass read or write a common cell.", "quantifier": "every grid, every fill pattern, every permutation and every read/write interleaving of the line tasks of each pass", "why_tests_cant": "The number of interleavings is exponential and a test run observes one of them.", "anchors": ["src/voxelized_geometry_tools/signed_distance_field_generation.cpp:ComputeDistanceFieldTransformInPlace"]}
{"id": "C05", "title": "SDF sign classifies cells", "statement": "In a generated SDF (no virtual border) the stored value is strictly negative exactly for filled cells and strictly positive exactly for the others, with magnitude at least the voxel resolution; it is never zero.", "quantifier": "every grid, every fill pattern, every cell", "why_tests_cant": "Collision checking relies on the sign at every cell of every map.", "anchors": ["include/voxelized_geometry_tools/signed_distance_field_generation.hpp:ExtractSignedDistanceField"]}
{"id": "C06", "title": "SDF of a uniform map is infinite", "statement": "If no cell is filled every value is +infinity; if every cell is filled every value is -infinity; if both kinds exist every value is finite.", "quantifier": "every grid, every fill pattern", "why_tests_cant": "Degenerate contents exercise the infinity arithmetic of all three passes for every grid shape.", "anchors": ["include/voxelized_geometry_tools/signed_distance_field_generation.hpp:ExtractSignedDistanceField", "src/voxelized_geometry_tools/signed_distance_field_generation.cpp:ComputeDistanceFieldTransformInPlace"]}
{"id": "C07", "title": "SDF is Lipschitz", "statement": "For two cells of equal sign the values differ by at most the distance between the cell centres; for two cells of opposite sign by at most twice that distance.", "quantifier": "every grid, every fill pattern with at least one filled and one free cell, every pair of cells", "why_tests_cant": "A relation over all pairs of cells of all maps.", "anchors": ["include/voxelized_geometry_tools/signed_distance_field_generation.hpp:ExtractSignedDistanceField"]}
{"id": "C08", "title": "SDF is monotone in the filled set", "statement": "If map B is filled wherever map A is filled (same grid), then at every cell the SDF of B is at most the SDF of A.", "quantifier": "every grid, every pair of fill patterns related by inclusion, every cell", "why_tests_cant": "A two-run (relational) property.", "anchors": ["include/voxelized_geometry_tools/signed_distance_field_generation.hpp:ExtractSignedDistanceField"]}
{"id": "C09", "title": "Virtual border limits distances by the grid boundary", "statement": "With a virtual border, for every cell the value is, for a free cell, the smaller of the distance to the nearest filled cell and the distance to the nearest virtual cell just outside the grid on an axis with more than one voxel; and for a filled cell minus the smaller of the distance to the nearest free cell and to the nearest such virtual cell. Axes with a single voxel contribute no border. The sign is the sign of the borderless SDF.", "quantifier": "every grid with uniform voxel sizes, every fill pattern, every cell", "why_tests_cant": "Border handling interacts with each axis length and the combination rule of two fields at every cell.", "anchors": ["include/voxelized_geometry_tools/signed_distance_field_generation.hpp:ExtractSignedDistanceField (virtual border overload)"]}
{"id": "C10", "title": "Occupancy classification for SDFs honours unknown_is_filled", "statement": "The SDF extracted from an occupancy map treats a cell as filled exactly if its occupancy is greater than 0.5, or equals 0.5 and the parameters declare unknown cells filled; with the flag set the SDF is at most the SDF without it, everywhere.", "quantifier": "every occupancy map, every cell, both flag values", "why_tests_cant": "Relates two full extractions for all maps.", "anchors": ["include/voxelized_geometry_tools/occupancy_map.hpp:ExtractSignedDistanceField", "include/voxelized_geometry_tools/signed_distance_field.hpp:SignedDistanceFieldGenerationParameters"]}
{"id": "C11", "title": "Object-filtered SDFs see only the requested objects", "statement": "For tagged maps, extracting with a non-empty object list gives the SDF whose filled cells are the filled cells whose object id is in the list; with an empty list, all filled cells; the result is unaffected by order and repetitions in the list.", "quantifier": "every tagged map, every object list", "why_tests_cant": "All lists and all maps.", "anchors": ["include/voxelized_geometry_tools/tagged_object_occupancy_map.hpp:ExtractSignedDistanceField", "include/voxelized_geometry_tools/tagged_object_occupancy_component_map.hpp:ExtractSignedDistanceField"]}
{"id": "C12", "title": "MakeAllObjectSDFs covers exactly the non-zero object ids", "statement": "The returned map has an entry for exactly the object ids greater than zero that occur in some cell of the map, and each entry is the SDF extracted with that single id.", "quantifier": "every tagged map", "why_tests_cant": "The key set is determined by all cells.", "anchors": ["include/voxelized_geometry_tools/tagged_object_occupancy_map.hpp:MakeAllObjectSDFs", "include/voxelized_geometry_tools/tagged_object_occupancy_map.hpp:MakeSeparateObjectSDFs"]}
{"id": "C13", "title": "Free-and-named-objects SDF combination", "statement": "In the combined SDF of free space and named objects, a cell that is not filled holds the value of the free-space SDF (positive); a filled cell of a named object (id greater than zero) holds the value of the SDF of the named objects alone (negative); a filled cell that belongs to no named object holds zero.", "quantifier": "every tagged map, every cell", "why_tests_cant": "Cellwise combination of two fields over all maps.", "anchors": ["include/voxelized_geometry_tools/tagged_object_occupancy_map.hpp:ExtractFreeAndNamedObjectsSignedDistanceField"]}
{"id": "C14", "title": "A locked SDF cannot change", "statement": "In every history of API calls on an SDF, no stored distance changes between a Lock (made while the caller keeps no mutable reference into the SDF) and the next Unlock or reload from bytes: every attempted mutable access in between is refused.", "quantifier": "every finite sequence of API calls from every initial SDF", "why_tests_cant": "Histories are unbounded.", "anchors": ["include/voxelized_geometry_tools/signed_distance_field.hpp:OnMutableAccess", "include/voxelized_geometry_tools/signed_distance_field.hpp:Lock", "include/voxelized_geometry_tools/signed_distance_field.hpp:Unlock"]}
{"id": "C15", "title": "Minimum/maximum queries are never stale", "statement": "In every history of API calls on an initialized SDF in which Lock is not called while mutable references are kept and a locked SDF is not deserialized into, GetMinimumMaximum returns the true minimum and maximum of the distances stored at that moment, whether computed or cached.", "quantifier": "every finite sequence of Lock/Unlock/set/raw access/reload/query calls storing no NaN", "why_tests_cant": "Caches go stale only in particular histories.", "anchors": ["include/voxelized_geometry_tools/signed_distance_field.hpp:GetMinimumMaximum", "include/voxelized_geometry_tools/signed_distance_field.hpp:Lock", "include/voxelized_geometry_tools/signed_distance_field.hpp:DerivedDeserializeSelf"]}
{"id": "C16", "title": "SDF serialization round trip", "statement": "Deserializing the bytes produced by serializing an SDF, at any offset in any buffer that contains them, yields an SDF with the same sizes, origin, distances, default values, frame, lock state and min/max answers, and reports exactly the number of bytes written.", "quantifier": "every SDF, every prefix and suffix of the buffer", "why_tests_cant": "All contents and offsets.", "anchors": ["include/voxelized_geometry_tools/signed_distance_field.hpp:DerivedSerializeSelf", "include/voxelized_geometry_tools/signed_distance_field.hpp:DerivedDeserializeSelf"]}
{"id": "C17", "title": "Coarse gradient is a finite difference of in-grid cells", "statement": "GetGridAlignedIndexCoarseGradient answers for exactly the in-bounds cells, unless edge gradients are disabled in which case exactly for cells strictly inside the grid on every axis; it reads only in-bounds cells, each component is the difference of two stored distances divided by the distance between the two cells' centres, and is zero on an axis with a single voxel.", "quantifier": "every SDF, every index, both settings of the edge flag", "why_tests_cant": "Boundary cases on six faces, twelve edges and eight corners for each grid shape, including axes of one or two voxels.", "anchors": ["include/voxelized_geometry_tools/signed_distance_field.hpp:GetGridAlignedIndexCoarseGradient"]}
{"id": "C18", "title": "Distance estimation stays within the corrected neighbour values", "statement": "For every query location inside the grid the interpolation uses in-bounds cells only and the estimate lies between the smallest and largest of the (boundary-corrected) distances of those cells; outside the grid the query is empty.", "quantifier": "every SDF, every query location", "why_tests_cant": "Continuous query space.", "anchors": ["include/voxelized_geometry_tools/signed_distance_field.hpp:EstimateLocationDistance4d", "include/voxelized_geometry_tools/signed_distance_field.hpp:EstimateDistanceInterpolateFromNeighbors", "include/voxelized_geometry_tools/signed_distance_field.hpp:GetAxisInterpolationIndices", "include/voxelized_geometry_tools/signed_distance_field.hpp:GetCorrectedCenterDistance"]}
{"id": "C19", "title": "Local extrema map is total and terminates", "statement": "Computing the local extrema map terminates on every SDF; every cell receives an extremum: a location of an in-grid cell centre reached by following gradients from that cell, or infinity exactly when following gradients leaves the grid.", "quantifier": "every SDF, whatever its gradients, every cell", "why_tests_cant": "Termination of gradient following on arbitrary fields (cycles, plateaus) is not testable.", "anchors": ["include/voxelized_geometry_tools/signed_distance_field.hpp:ComputeLocalExtremaMap", "include/voxelized_geometry_tools/signed_distance_field.hpp:FollowGradientsToLocalExtremaUnsafe"]}
{"id": "C20", "title": "Projection out of collision reaches the minimum distance", "statement": "ProjectLocationOutOfCollisionToMinimumDistance never throws for an in-grid start; when it returns a location different from an out-of-grid start, the estimated distance there exceeds the requested minimum.", "quantifier": "every SDF, every start location, every minimum distance and stepsize", "why_tests_cant": "Iterative continuous process; failures depend on particular fields.", "anchors": ["include/voxelized_geometry_tools/signed_distance_field.hpp:ProjectLocationOutOfCollisionToMinimumDistance4d"]}
{"id": "C21", "title": "Projection results are usable as query points", "statement": "Every projected-position result carries homogeneous coordinate w = 1, whichever constructor is used, so that it transforms as a point.", "quantifier": "every projected position", "why_tests_cant": "A type-level contract over all construction paths.", "anchors": ["include/voxelized_geometry_tools/signed_distance_field.hpp:ProjectedPosition"]}
{"id": "C22", "title": "Occupancy map serialization round trips", "statement": "For each of the occupancy map types (plain, component, tagged, tagged component, dynamic spatial hashed frame data), deserializing the serialized bytes at any offset inside any buffer gives back an equal map (cells, sizes, origin, default and out-of-bounds values, frame, component and segment counts and validity flags) and reports exactly the number of bytes written.", "quantifier": "every map, every buffer prefix and suffix", "why_tests_cant": "All contents and offsets; codecs fail at rare byte patterns.", "anchors": ["src/voxelized_geometry_tools/occupancy_map.cpp:DerivedSerializeSelf", "src/voxelized_geometry_tools/occupancy_component_map.cpp:DerivedSerializeSelf", "src/voxelized_geometry_tools/tagged_object_occupancy_map.cpp:DerivedSerializeSelf", "src/voxelized_geometry_tools/tagged_object_occupancy_component_map.cpp:DerivedSerializeSelf"]}
{"id": "C23", "title": "File save/load round trip", "statement": "Loading a file written by SaveToFile for the same type returns an equal map with and without compression; files shorter than the header or with another header are rejected with an exception, never loaded.", "quantifier": "every map, both compression settings, every file content for the rejection part", "why_tests_cant": "All file contents.", "anchors": ["src/voxelized_geometry_tools/occupancy_map.cpp:SaveToFile", "src/voxelized_geometry_tools/occupancy_map.cpp:LoadFromFile", "src/voxelized_geometry_tools/occupancy_component_map.cpp:LoadFromFile", "include/voxelized_geometry_tools/signed_distance_field.hpp:LoadFromFile"]}
{"id": "C24", "title": "Files of one map type are not accepted by another type's loader by header", "statement": "The header written by one map type is distinct from every header accepted by a different map type's loader.", "quantifier": "every pair of distinct map types, both compression settings", "why_tests_cant": "Cross-product contract that each type's own tests never look at.", "anchors": ["src/voxelized_geometry_tools/occupancy_map.cpp:LoadFromFile", "src/voxelized_geometry_tools/occupancy_component_map.cpp:LoadFromFile", "src/voxelized_geometry_tools/tagged_object_occupancy_map.cpp:LoadFromFile", "src/voxelized_geometry_tools/tagged_object_occupancy_component_map.cpp:LoadFromFile"]}
{"id": "C25", "title": "Conversions between plain and component maps lose nothing", "statement": "Converting a plain map to its component counterpart and back gives an equal map; conversion preserves each cell's occupancy (and object id), sizes, origin, frame, default and out-of-bounds occupancy, sets every component to zero and leaves components marked invalid.", "quantifier": "every map of both kinds, initialized or not", "why_tests_cant": "All contents.", "anchors": ["src/voxelized_geometry_tools/occupancy_map_conversions.cpp:ConvertOccupancyMapImpl", "include/voxelized_geometry_tools/occupancy_map_conversions.hpp:ConvertToOccupancyComponentCell"]}
{"id": "C26", "title": "Connected component labels are the connectivity classes", "statement": "After UpdateConnectedComponents on a map whose components were not already valid, two cells have the same component number if and only if they are joined by a path of face-adjacent cells all of the same kind (filled, empty, unknown).", "quantifier": "every grid, every occupancy assignment, every pair of cells", "why_tests_cant": "Reachability over all maps; flood fill bugs show only in particular shapes.", "anchors": ["include/voxelized_geometry_tools/topology_computation.hpp:ComputeConnectedComponents", "include/voxelized_geometry_tools/topology_computation.hpp:MarkConnectedComponent", "src/voxelized_geometry_tools/occupancy_component_map.cpp:UpdateConnectedComponents"]}
{"id": "C27", "title": "Component numbers are 1..n without gaps and n is reported", "statement": "After UpdateConnectedComponents every cell has a component number between 1 and n, every number in that range is used, and n is both the returned value and the subsequent NumConnectedComponents; numbers are assigned in the order in which the components' first cells appear in the x, y, z scan.", "quantifier": "every grid, every occupancy assignment", "why_tests_cant": "All maps; depends on the loop's early exit.", "anchors": ["include/voxelized_geometry_tools/topology_computation.hpp:ComputeConnectedComponents"]}
{"id": "C28", "title": "Component labelling terminates and never fails", "statement": "UpdateConnectedComponents finishes on every map without exception, visiting each cell at most once per component sweep.", "quantifier": "every grid, every occupancy assignment", "why_tests_cant": "Termination for all inputs.", "anchors": ["include/voxelized_geometry_tools/topology_computation.hpp:MarkConnectedComponent", "include/voxelized_geometry_tools/topology_computation.hpp:ComputeConnectedComponents"]}
{"id": "C29", "title": "Components reported valid are right", "statement": "In every history of API calls that does not use the Force* calls or deserialization, whenever AreComponentsValid is true the stored component numbers are the connectivity classes of the current occupancies and NumConnectedComponents is their number; when it is false NumConnectedComponents is empty.", "quantifier": "every finite sequence of cell reads, mutable accesses, writes and updates", "why_tests_cant": "Histories are unbounded; a missed invalidation shows only in some of them.", "anchors": ["src/voxelized_geometry_tools/occupancy_component_map.cpp:OnMutableAccess", "src/voxelized_geometry_tools/occupancy_component_map.cpp:UpdateConnectedComponents", "include/voxelized_geometry_tools/occupancy_component_map.hpp:NumConnectedComponents"]}
{"id": "C30", "title": "Tagged components honour connect_across_objects", "statement": "On a tagged component map UpdateConnectedComponents(connect_across_objects) leaves labels that are the classes of the requested connectivity: same kind, and, unless connecting across objects, same object id \u2014 whatever calls were made before.", "quantifier": "every tagged map, both flag values, every preceding history", "why_tests_cant": "Depends on the history of cached results.", "anchors": ["src/voxelized_geometry_tools/tagged_object_occupancy_component_map.cpp:UpdateConnectedComponents"]}
{"id": "C31", "title": "Components and spatial segments can both be valid", "statement": "After updating connected components and then spatial segments (or the other order), both results are reported valid and both counts are available.", "quantifier": "every tagged map, every order of updates", "why_tests_cant": "Cross-feature history.", "anchors": ["src/voxelized_geometry_tools/tagged_object_occupancy_component_map.cpp:OnMutableAccess", "src/voxelized_geometry_tools/tagged_object_occupancy_component_map.cpp:UpdateSpatialSegments", "src/voxelized_geometry_tools/tagged_object_occupancy_component_map.cpp:UpdateConnectedComponents"]}
{"id": "C32", "title": "Spatial segments are the classes of the requested connectivity", "statement": "UpdateSpatialSegments(threshold, ...) leaves segment numbers that are the classes of face-adjacency between cells of the same object whose local extrema are closer than the given threshold (cells without an extremum keep segment 0), whatever was computed before.", "quantifier": "every tagged map, every extrema map, every threshold, every history", "why_tests_cant": "All maps and histories.", "anchors": ["src/voxelized_geometry_tools/tagged_object_occupancy_component_map.cpp:UpdateSpatialSegments", "include/voxelized_geometry_tools/topology_computation.hpp:ComputeConnectedComponents"]}
{"id": "C33", "title": "Surface index query", "statement": "IsSurfaceIndex is empty exactly out of bounds, and otherwise true exactly if one of the up to 26 in-grid neighbours is of a different kind (filled, empty, unknown).", "quantifier": "every map, every index", "why_tests_cant": "All maps and boundary positions.", "anchors": ["src/voxelized_geometry_tools/occupancy_map.cpp:IsSurfaceIndex", "src/voxelized_geometry_tools/occupancy_component_map.cpp:IsSurfaceIndex"]}
{"id": "C34", "title": "Connected component surface query", "statement": "IsConnectedComponentSurfaceIndex is empty exactly out of bounds, and otherwise true exactly if the cell lies on the grid boundary or one of its six face neighbours has a different component number.", "quantifier": "every map, every index, whatever the component numbers", "why_tests_cant": "All maps and positions.", "anchors": ["src/voxelized_geometry_tools/occupancy_component_map.cpp:IsConnectedComponentSurfaceIndex"]}
{"id": "C35", "title": "Extracted component surfaces contain only surface cells", "statement": "ExtractComponentSurfaces returns, per component of the selected kinds, exactly the cells of that component that are surface cells.", "quantifier": "every map, every kind selection", "why_tests_cant": "All maps; interior cells exist only in larger shapes.", "anchors": ["src/voxelized_geometry_tools/occupancy_component_map.cpp:ExtractComponentSurfaces", "src/voxelized_geometry_tools/tagged_object_occupancy_component_map.cpp:ExtractComponentSurfaces", "include/voxelized_geometry_tools/topology_computation.hpp:ExtractComponentSurfaces"]}
{"id": "C36", "title": "Candidate corner query", "statement": "CheckIfCandidateCorner is empty exactly out of bounds, and otherwise true exactly if at least two of the cell's in-grid face neighbours carry a component number different from its own.", "quantifier": "every map, every index", "why_tests_cant": "All maps and positions.", "anchors": ["src/voxelized_geometry_tools/occupancy_component_map.cpp:CheckIfCandidateCorner"]}
{"id": "C37", "title": "Component topology succeeds on every map", "statement": "ComputeComponentTopology returns hole and void counts for every component of every map without throwing.", "quantifier": "every map, every kind selection", "why_tests_cant": "All shapes.", "anchors": ["include/voxelized_geometry_tools/topology_computation.hpp:ComputeHolesAndVoidsInSurface", "include/voxelized_geometry_tools/topology_computation.hpp:ComputeComponentTopology", "src/voxelized_geometry_tools/occupancy_component_map.cpp:ComputeComponentTopology"]}
{"id": "C38", "title": "Static and dynamic surface representations convert faithfully", "statement": "Converting extracted surfaces to the dynamic form and back preserves, per component, exactly the set of surface cells; the surface index map finds precisely the position of each listed cell.", "quantifier": "every surface collection", "why_tests_cant": "All collections.", "anchors": ["include/voxelized_geometry_tools/topology_computation.hpp:ExtractStaticSurface", "include/voxelized_geometry_tools/topology_computation.hpp:ConvertToDynamicSurface", "include/voxelized_geometry_tools/topology_computation.hpp:BuildSurfaceIndexMap"]}
{"id": "C39", "title": "A ray updates each voxel at most once and terminates", "statement": "Raycasting one point terminates for every behaviour of floating point arithmetic; it increments at most one counter of any voxel, by one; all updated voxels are in the grid and lie in the index box spanned by the ray's first and last voxel; the voxels marked free by the traversal form a face-connected chain starting at the first voxel; the last voxel is counted filled if the point is within range and free if the ray was clipped.", "quantifier": "every start and end voxel, every grid, every outcome of the floating point comparisons", "why_tests_cant": "All rays and all rounding behaviours.", "anchors": ["src/voxelized_geometry_tools/cpu_pointcloud_voxelization.cpp:DoRaycastSinglePoint", "src/voxelized_geometry_tools/cuda_voxelization_helpers.cu:RaycastPoint", "src/voxelized_geometry_tools/opencl_voxelization_helpers.cc:RaycastPoint"]}
{"id": "C40", "title": "Voxels marked free are on the ray", "statement": "Every voxel whose free count is increased by raycasting a point is touched by the segment from the sensor origin to the point (cut at the maximum range).", "quantifier": "every grid, sensor origin, point and maximum range, in exact arithmetic", "why_tests_cant": "Continuous space of rays.", "anchors": ["src/voxelized_geometry_tools/cpu_pointcloud_voxelization.cpp:DoRaycastSinglePoint"]}
{"id": "C41", "title": "Every voxel crossed by an in-grid ray is seen", "statement": "If the sensor origin and the (range-limited) point are inside the grid, every voxel whose interior the segment crosses is marked: free along the way, and the last one filled (or free when clipped).", "quantifier": "every grid, every pair of in-grid points in exact arithmetic", "why_tests_cant": "Continuous space of rays.", "anchors": ["src/voxelized_geometry_tools/cpu_pointcloud_voxelization.cpp:DoRaycastSinglePoint"]}
{"id": "C42", "title": "Raycasting is independent of the parallel schedule", "statement": "The free and filled counts accumulated for a point cloud are the same for every number of threads and every interleaving of the atomic increments.", "quantifier": "every cloud, every interleaving of every point's increments", "why_tests_cant": "Exponentially many schedules.", "anchors": ["src/voxelized_geometry_tools/cpu_pointcloud_voxelization.cpp:DoRaycastPointCloud", "include/voxelized_geometry_tools/cpu_pointcloud_voxelization.hpp:CpuVoxelizationTrackingCell"]}
{"id": "C43", "title": "Non-finite points are ignored", "statement": "Points with a NaN or infinite coordinate do not influence the voxelization: removing them from the cloud changes nothing.", "quantifier": "every cloud, every subset of non-finite points", "why_tests_cant": "All clouds.", "anchors": ["src/voxelized_geometry_tools/cpu_pointcloud_voxelization.cpp:DoRaycastPointCloud"]}
{"id": "C44", "title": "Camera classification of counts", "statement": "For one camera a voxel is classified: unknown if it has no free observations and fewer filled observations than the outlier threshold; free if only free observations count; filled if only filled ones count; and when both count, free exactly if the free share reaches the requested percentage, as decided by binary64 division.", "quantifier": "all non-negative counts whose sum fits in 32 bits, all valid options", "why_tests_cant": "2^62 count pairs times all options.", "anchors": ["include/voxelized_geometry_tools/pointcloud_voxelization_interface.hpp:CountsSeenAs"]}
{"id": "C45", "title": "Filtering preserves filled cells and is insensitive to camera order", "statement": "Combining cameras never changes a cell whose prior occupancy is above 0.5; every other cell becomes filled if any camera classifies it filled, otherwise free if at least the requested number of cameras classify it free, otherwise unknown; the result does not depend on the order of cameras nor on the schedule, and adding a camera never turns a filled cell into anything else.", "quantifier": "every grid, every number of cameras, every permutation", "why_tests_cant": "All camera multisets.", "anchors": ["src/voxelized_geometry_tools/cpu_pointcloud_voxelization.cpp:DoCombineAndFilterGrids", "include/voxelized_geometry_tools/pointcloud_voxelization_interface.hpp:VoxelizePointClouds"]}
{"id": "C46", "title": "CPU and device backends filter alike", "statement": "Given equal tracking counts, the CPU backend and the device kernels assign the same occupancy to every cell.", "quantifier": "all counts, options, number of cameras, prior occupancies", "why_tests_cant": "Needs all counts; float and double divisions differ only at some of them.", "anchors": ["src/voxelized_geometry_tools/cuda_voxelization_helpers.cu:FilterGrids", "src/voxelized_geometry_tools/opencl_voxelization_helpers.cc:FilterGrids", "src/voxelized_geometry_tools/cpu_pointcloud_voxelization.cpp:DoCombineAndFilterGrids", "src/voxelized_geometry_tools/device_pointcloud_voxelization.cpp:DoVoxelizePointClouds"]}
{"id": "C47", "title": "Voxelizing into a provided output starts from the static environment", "statement": "VoxelizePointClouds with a caller-provided output map produces the same cells as the overload that returns a new map, whatever the output map contained before.", "quantifier": "every static environment, every prior content of the output, every cloud", "why_tests_cant": "Depends on prior output content.", "anchors": ["include/voxelized_geometry_tools/pointcloud_voxelization_interface.hpp:VoxelizePointClouds", "src/voxelized_geometry_tools/cpu_pointcloud_voxelization.cpp:DoVoxelizePointClouds", "src/voxelized_geometry_tools/device_pointcloud_voxelization.cpp:DoVoxelizePointClouds"]}
{"id": "C48", "title": "Point copies stay inside their buffers", "statement": "Copying a point into a caller's vector either throws or writes exactly three consecutive in-range elements and leaves the others unchanged; reading a point from a PointCloud2 message never reads outside the message's data.", "quantifier": "every index, every buffer size, every message layout", "why_tests_cant": "All layouts including truncated and adversarial messages.", "anchors": ["include/voxelized_geometry_tools/pointcloud_voxelization_interface.hpp:EnforceVectorIndexInRange", "include/voxelized_geometry_tools/pointcloud_voxelization_ros_interface.hpp:CopyPointLocationIntoFloatPtrImpl", "src/voxelized_geometry_tools/pointcloud_voxelization_ros_interface.cpp:PointCloud2Wrapper"]}
{"id": "C49", "title": "Mesh rasterization is independent of the schedule and only adds", "statement": "RasterizeMesh sets to filled exactly the union of the cells set by each triangle alone, leaves all other cells unchanged, and the result is the same for every order and interleaving of the triangles.", "quantifier": "every mesh, every map that contains it, every interleaving", "why_tests_cant": "Exponentially many schedules.", "anchors": ["src/voxelized_geometry_tools/mesh_rasterizer.cpp:RasterizeMesh", "src/voxelized_geometry_tools/mesh_rasterizer.cpp:RasterizeTriangle"]}
{"id": "C50", "title": "Every voxel intersected by a triangle is filled", "statement": "RasterizeTriangle sets every in-grid voxel that the (closed) triangle intersects to filled.", "quantifier": "every non-degenerate triangle, every grid pose and resolution", "why_tests_cant": "Continuous space of triangles.", "anchors": ["src/voxelized_geometry_tools/mesh_rasterizer.cpp:CalcClosestPointOnTriangle", "src/voxelized_geometry_tools/mesh_rasterizer.cpp:RasterizeTriangle"]}
{"id": "C51", "title": "A map built for a mesh contains it", "statement": "RasterizeMeshIntoOccupancyMap chooses bounds such that every vertex lies strictly inside the grid, so rasterization never reports that the map does not contain the mesh; it throws for non-positive resolution.", "quantifier": "every mesh, every resolution", "why_tests_cant": "Continuous space.", "anchors": ["src/voxelized_geometry_tools/mesh_rasterizer.cpp:RasterizeMeshIntoOccupancyMapImpl"]}
{"id": "C52", "title": "Display exports honour the object colour map", "statement": "Exporting a tagged map for display with a non-empty colour map gives each listed object its colour and hides all others; with an empty map each object gets its default colour.", "quantifier": "every tagged map, every colour map", "why_tests_cant": "All colour maps including the empty one.", "anchors": ["src/voxelized_geometry_tools/ros_interface.cpp:ExportForDisplay", "src/voxelized_geometry_tools/ros_interface.cpp:ExportSurfacesForDisplay"]}
{"id": "C53", "title": "Surface exports show exactly the surface cells", "statement": "ExportSurfacesForDisplay emits a marker exactly for surface cells whose colour is visible.", "quantifier": "every map, every colour choice", "why_tests_cant": "Interior cells exist only in larger maps.", "anchors": ["src/voxelized_geometry_tools/ros_interface.cpp:ExportSurfacesForDisplay", "include/voxelized_geometry_tools/ros_interface.hpp:ExportVoxelGridToRViz"]}
{"id": "C54", "title": "Message round trips", "statement": "Loading from the message representation of a map or SDF gives back an equal object; a message carrying an SDF of the other scalar type is rejected.", "quantifier": "every map, every SDF, every message", "why_tests_cant": "All contents.", "anchors": ["src/voxelized_geometry_tools/ros_interface.cpp:GetMessageRepresentation", "src/voxelized_geometry_tools/ros_interface.cpp:LoadFromMessageRepresentation", "include/voxelized_geometry_tools/ros_interface.hpp:LoadFromMessageRepresentation"]}
{"id": "C55", "title": "Backend selection", "statement": "MakeBestAvailablePointCloudVoxelizer returns the first of CUDA, OpenCL, CPU whose construction does not fail with a runtime error; GetAvailableBackends always ends with the serial CPU backend, and every listed backend is constructed with the options it advertises.", "quantifier": "every device environment, every option map", "why_tests_cant": "Environments are not available to tests.", "anchors": ["src/voxelized_geometry_tools/pointcloud_voxelization.cpp:MakeBestAvailablePointCloudVoxelizer", "src/voxelized_geometry_tools/pointcloud_voxelization.cpp:GetAvailableBackends", "src/voxelized_geometry_tools/pointcloud_voxelization.cpp:MakePointCloudVoxelizer"]}
{"id": "C56", "title": "A locked SDF cannot change through references handed out before the lock", "statement": "After Lock no stored distance changes until the next Unlock, even if the caller still holds a mutable reference obtained from GetIndexMutable before the lock.", "quantifier": "every history of calls, with kept references", "why_tests_cant": "depends on the interleaving of reference acquisition and locking in arbitrary client code", "anchors": ["include/voxelized_geometry_tools/signed_distance_field.hpp:OnMutableAccess", "include/voxelized_geometry_tools/signed_distance_field.hpp:Lock"]}
{"id": "C57", "title": "Reloading a locked SDF refreshes its minimum/maximum", "statement": "Deserializing into an SDF object leaves minimum/maximum answers that describe the newly loaded distances, also when the object was locked before.", "quantifier": "every previous state of the object, every serialized SDF", "why_tests_cant": "depends on the object's history before the call", "anchors": ["include/voxelized_geometry_tools/signed_distance_field.hpp:DerivedDeserializeSelf", "include/voxelized_geometry_tools/signed_distance_field.hpp:Lock", "include/voxelized_geometry_tools/signed_distance_field.hpp:GetMinimumMaximum"]}
{"id": "C58", "title": "Valid components stay right when a kept reference is written", "statement": "A component map that reports its components as valid stores the connectivity classes of its current occupancies, even when the caller writes through a mutable cell reference obtained before the last UpdateConnectedComponents.", "quantifier": "every history, including writes through kept references", "why_tests_cant": "Quantifies over histories in which references outlive updates.", "anchors": ["src/voxelized_geometry_tools/occupancy_component_map.cpp:OnMutableAccess", "src/voxelized_geometry_tools/occupancy_component_map.cpp:UpdateConnectedComponents"]}
{"id": "C59", "title": "Deserialization reads only what it reports and rejects truncated data", "statement": "A successful Deserialize of any map type or SDF consumes bytes that lie inside the buffer, its result depends only on the bytes it reports as read, and every strict prefix of the bytes written by Serialize is rejected with an exception.", "quantifier": "every buffer and offset; every map and SDF, every truncation point", "why_tests_cant": "Tests try round trips of a few maps; they cannot cover every buffer, offset and truncation length.", "anchors": ["src/voxelized_geometry_tools/occupancy_map.cpp:33-84", "src/voxelized_geometry_tools/tagged_object_occupancy_component_map.cpp:41-140", "include/voxelized_geometry_tools/signed_distance_field.hpp:565-596"]}
{"id": "C60", "title": "Device counters of every camera are read back where they were written", "statement": "When point clouds are voxelized on CUDA or OpenCL, the filter kernel reads, for every cloud and every voxel, exactly the two counters that the raycasting kernel incremented for that cloud and voxel, and no read or write falls outside the allocated counter buffer.", "quantifier": "for all map dimensions, numbers of clouds, points, raycasting schedules, clouds k and voxels", "why_tests_cant": "the offsets are computed partly in 64 bit and partly in 32 bit arithmetic; they agree on every map a test can afford and separate only beyond 2^31 counters", "anchors": ["src/voxelized_geometry_tools/cuda_voxelization_helpers.cu:358-426", "src/voxelized_geometry_tools/opencl_voxelization_helpers.cc:331-386", "src/voxelized_geometry_tools/device_pointcloud_voxelization.cpp:65-181"]}
{"id": "C61", "title": "Filter options are always meaningful", "statement": "Constructing PointCloudVoxelizationFilterOptions succeeds exactly when the percentage lies in (0, 1] and both thresholds are positive; otherwise the constructor throws.", "quantifier": "for all doubles (including infinities and NaN) and all int32 thresholds", "why_tests_cant": "a test samples a few doubles; the comparison with NaN, which satisfies neither of the two rejecting comparisons, is easily left out", "anchors": ["include/voxelized_geometry_tools/pointcloud_voxelization_interface.hpp:20-47"]}
{"id": "C62", "title": "Voxelization produces the map described by what the points see", "statement": "VoxelizePointClouds on the CPU, CUDA and OpenCL always terminates and every execution returns the static environment in which each cell of occupancy at most 0.5 is filled if some cloud sees it filled, else free if at least the requested number of clouds see it free, else unknown, where what a cloud sees is decided from the number of its points counting the cell as free and as filled; cells above 0.5 keep their value; output maps of other dimensions are rejected. (On the devices: for maps whose counters for all clouds fit in 2^31 elements.)", "quantifier": "for all maps, options, lists of clouds of fewer than 2^31 points, thread counts, and all interleavings of points, clouds and voxels", "why_tests_cant": "the result is produced by atomics from concurrently running threads; tests exercise a few schedules of a few scenes", "anchors": ["include/voxelized_geometry_tools/pointcloud_voxelization_interface.hpp:246-292", "src/voxelized_geometry_tools/cpu_pointcloud_voxelization.cpp:133-206", "src/voxelized_geometry_tools/cpu_pointcloud_voxelization.cpp:438-497", "src/voxelized_geometry_tools/device_pointcloud_voxelization.cpp:65-181"]}
{"id": "C63", "title": "Distance estimates are continuous", "statement": "EstimateLocationDistance is a continuous function of the location inside the grid, as documented: two locations at coordinate distance t (sum over the axes) have estimates that differ by at most 4 D t / resolution, where D is the largest difference between corrected distances of face-adjacent cells.", "quantifier": "every SDF, every pose, all pairs of in-grid locations, including pairs in different cells and in the outer half of boundary cells", "why_tests_cant": "Continuity across every cell and half-cell border is a statement about all pairs of points.", "anchors": ["include/voxelized_geometry_tools/signed_distance_field.hpp:EstimateLocationDistance4d", "include/voxelized_geometry_tools/signed_distance_field.hpp:EstimateDistanceInterpolateFromNeighbors", "include/voxelized_geometry_tools/signed_distance_field.hpp:GetAxisInterpolationIndices"]}
{"id": "C64", "title": "Local extrema map does not depend on the pose of the grid", "statement": "The local extrema map, whose values are locations in the frame of the grid, is the same for two fields with the same distances and voxel size whatever their origin transforms.", "quantifier": "every SDF, every pair of origin transforms", "why_tests_cant": "Tests use a few poses; grids that are not rotated hide a confusion of world and grid axes.", "anchors": ["include/voxelized_geometry_tools/signed_distance_field.hpp:ComputeLocalExtremaMap", "include/voxelized_geometry_tools/signed_distance_field.hpp:FollowGradientsToLocalExtremaUnsafe", "include/voxelized_geometry_tools/signed_distance_field.hpp:GetNextFromGradient", "include/voxelized_geometry_tools/signed_distance_field.hpp:GetIndexCoarseGradient"]}
{"id": "C65", "title": "Fine gradient answers everywhere and is the documented difference quotient", "statement": "GetLocationFineGradient answers for every in-grid location and window size up to the voxel size; each component is the difference quotient of the distance estimates half the window size to either side, one-sided where that leaves the grid.", "quantifier": "every SDF, every in-grid location, every window size", "why_tests_cant": "Continuous query space; thin grids and locations near the boundary are special.", "anchors": ["include/voxelized_geometry_tools/signed_distance_field.hpp:GetLocationFineGradient", "include/voxelized_geometry_tools/signed_distance_field.hpp:ComputeAxisFineGradient"]}
{"id": "C66", "title": "PointCloud2 points are the points of the message", "statement": "A PointCloud2Wrapper has width times height points, and point row * width + column has the coordinates that the message stores for that row and column according to its point step, row step, field offsets and byte order; the double and float accessors agree.", "quantifier": "every message that follows the message documentation, every row and column", "why_tests_cant": "Message layouts (padding, byte order, sizes) form an unbounded family; tests use one layout.", "anchors": ["include/voxelized_geometry_tools/pointcloud_voxelization_ros_interface.hpp:GetStartingOffsetForPointXYZ", "include/voxelized_geometry_tools/pointcloud_voxelization_ros_interface.hpp:Size", "src/voxelized_geometry_tools/pointcloud_voxelization_ros_interface.cpp:PointCloud2Wrapper"]}
{"id": "C67", "title": "Listed backends can be constructed", "statement": "MakePointCloudVoxelizer succeeds for every backend returned by GetAvailableBackends on the same machine.", "quantifier": "every device environment", "why_tests_cant": "The failing environments need hardware or drivers tests do not have.", "anchors": ["src/voxelized_geometry_tools/pointcloud_voxelization.cpp:GetAvailableBackends", "src/voxelized_geometry_tools/opencl_voxelization_helpers.cc:GetAvailableDevices", "src/voxelized_geometry_tools/cuda_voxelization_helpers.cu:GetAvailableDevices"]}
{"id": "C68", "title": "Rasterization fills only voxels near the triangle", "statement": "Every voxel that RasterizeTriangle changes becomes filled and has a point of the triangle within the radius of its circumscribed sphere (half the resolution times the square root of three) of its centre.", "quantifier": "every non-degenerate triangle, every grid pose and resolution", "why_tests_cant": "Continuous space of triangles and poses.", "anchors": ["src/voxelized_geometry_tools/mesh_rasterizer.cpp:CalcClosestPointOnTriangle", "src/voxelized_geometry_tools/mesh_rasterizer.cpp:RasterizeTriangleImpl"]}
{"id": "C69", "title": "Display exports show every cell once in the colour of its kind", "statement": "ExportForDisplay emits one cube at the centre of each cell whose kind (above, below or equal to 0.5 or not a number) has a visible colour, in that colour; ExportForSeparateDisplay emits the same cubes in three markers, one per kind.", "quantifier": "every map of every map type, every choice of colours", "why_tests_cant": "All grid sizes, contents and colour choices.", "anchors": ["src/voxelized_geometry_tools/ros_interface.cpp:ExportForDisplay", "src/voxelized_geometry_tools/ros_interface.cpp:ExportForSeparateDisplay", "include/voxelized_geometry_tools/ros_interface.hpp:ExportVoxelGridToRViz"]}
{"id": "C70", "title": "Index exports show exactly the listed cells", "statement": "ExportIndexMapForDisplay shows exactly the cells of entries with positive value, ExportIndicesForDisplay one cube per listed index in order; both throw when a listed (active) index is outside of the map.", "quantifier": "every map, every index map and index vector", "why_tests_cant": "All lists of indices, in and out of bounds, with repetitions.", "anchors": ["src/voxelized_geometry_tools/ros_interface.cpp:ExportIndexMapForDisplay", "src/voxelized_geometry_tools/ros_interface.cpp:ExportIndicesForDisplay", "include/voxelized_geometry_tools/ros_interface.hpp:ExportVoxelGridIndexMapToRViz", "include/voxelized_geometry_tools/ros_interface.hpp:ExportVoxelGridIndicesToRViz"]}
{"id": "C71", "title": "Component and segment exports colour by number", "statement": "ExportConnectedComponentsForDisplay shows every cell in the colour of its component number, unknown cells grey unless asked; ExportSpatialSegmentForDisplay shows exactly the cells of the object and segment in one colour and throws when segments are not computed.", "quantifier": "every map, object and segment number", "why_tests_cant": "All maps and numberings.", "anchors": ["src/voxelized_geometry_tools/ros_interface.cpp:ExportConnectedComponentsForDisplay", "src/voxelized_geometry_tools/ros_interface.cpp:ExportSpatialSegmentForDisplay"]}
{"id": "C72", "title": "SDF display colours by sign and scales by distance", "statement": "ExportSDFForDisplay shows every cell, green for positive, red for negative and blue for zero distance; the channel is between 0.2 and 1 and does not decrease with the distance.", "quantifier": "every field, every alpha", "why_tests_cant": "Rounding of every pair of distance and extreme, infinite distances.", "anchors": ["include/voxelized_geometry_tools/ros_interface.hpp:ExportSDFForDisplay"]}
{"id": "C73", "title": "Collision display of an SDF shows exactly non-positive distances", "statement": "ExportSDFForDisplayCollisionOnly shows exactly the cells of distance at most zero.", "quantifier": "every field, every alpha", "why_tests_cant": "Tiny distances that vanish when narrowed to float.", "anchors": ["include/voxelized_geometry_tools/ros_interface.hpp:ExportSDFForDisplayCollisionOnly"]}
{"id": "C74", "title": "Hashed map display shows every voxel of every chunk once", "statement": "ExportForDisplay of a DynamicSpatialHashedOccupancyMap emits one cube for each voxel of each allocated chunk whose kind has a visible colour, at the index of that voxel, and no other.", "quantifier": "every set of chunks, every chunk size, negative indices included", "why_tests_cant": "All allocations of chunks.", "anchors": ["src/voxelized_geometry_tools/ros_interface.cpp:ExportForDisplay", "include/voxelized_geometry_tools/ros_interface.hpp:ExportDynamicSpatialHashedVoxelGridToRViz"]}
{"id": "C75", "title": "A sensor outside the grid clears the voxels its rays cross", "statement": "When the sensor origin lies outside the grid, every voxel of the grid whose interior the (range-limited) segment crosses is marked free, unless it holds the end point. The CPU, CUDA and OpenCL voxelizers agree on this.", "quantifier": "every grid, every sensor outside it, every point, every backend", "why_tests_cant": "Continuous space of rays; the effect of the inward nudge depends on the precision of the backend and on the distance of the sensor.", "anchors": ["src/voxelized_geometry_tools/cpu_pointcloud_voxelization.cpp:DoRaycastSinglePoint", "src/voxelized_geometry_tools/cuda_voxelization_helpers.cu:RaycastPoint", "src/voxelized_geometry_tools/opencl_voxelization_helpers.cc:RaycastPoint"]}
{"id": "C76", "title": "A finite point clears the space up to the range, however far it is", "statement": "A finite point beyond the maximum range clears the voxels between the sensor and the range, whatever its distance and whichever backend is used.", "quantifier": "every finite point, every backend", "why_tests_cant": "Overflow of the squared length happens only for points no usual test has, such as a no-return marker at the top of the range of float.", "anchors": ["src/voxelized_geometry_tools/cpu_pointcloud_voxelization.cpp:DoRaycastSinglePoint", "src/voxelized_geometry_tools/cuda_voxelization_helpers.cu:RaycastPoint", "src/voxelized_geometry_tools/opencl_voxelization_helpers.cc:RaycastPoint"]}
{"id": "C77", "title": "The hole count of a component is its number of loops", "statement": "The number of holes ComputeComponentTopology reports for a component of a map one cell high is the number of independent loops of the component.", "quantifier": "every map one cell high, every component, every traversal order of the hash containers", "why_tests_cant": "All shapes; the count is computed from vertex valences, so only an Euler-number argument over arbitrary shapes relates it to loops.", "anchors": ["include/voxelized_geometry_tools/topology_computation.hpp:ComputeHolesAndVoidsInSurface", "src/voxelized_geometry_tools/occupancy_component_map.cpp:ComputeComponentTopology"]}
{"id": "C78", "title": "Voids and holes are those of the boundary of the component", "statement": "For every component ComputeComponentTopology reports, the void count is the number of separate closed surfaces of the component's boundary less one, and the hole count is the number of those surfaces less half of the Euler number of the boundary.", "quantifier": "every map, every selection of kinds of components, every component, every traversal order of the hash containers", "why_tests_cant": "All shapes; the counts come from vertex valences and a walk over surface vertices, so only a counting argument over arbitrary shapes relates them to the boundary.", "anchors": ["include/voxelized_geometry_tools/topology_computation.hpp:ComputeHolesAndVoidsInSurface", "include/voxelized_geometry_tools/topology_computation.hpp:ComputeComponentTopology", "src/voxelized_geometry_tools/occupancy_component_map.cpp:ComputeComponentTopology", "src/voxelized_geometry_tools/tagged_object_occupancy_component_map.cpp:ComputeComponentTopology"]}
{"id": "C79", "title": "Component topology does not depend on the hash containers", "statement": "ComputeComponentTopology gives the same result, or throws, whatever order the hash maps and sets it uses are traversed in.", "quantifier": "every map after the components are updated, every selection of kinds, every two traversal orders", "why_tests_cant": "One standard library gives one traversal order; the order decides which vertex each surface is walked from and which surface is found first.", "anchors": ["include/voxelized_geometry_tools/topology_computation.hpp:ComputeHolesAndVoidsInSurface", "include/voxelized_geometry_tools/topology_computation.hpp:ComputeComponentTopology", "src/voxelized_geometry_tools/occupancy_component_map.cpp:ComputeComponentTopology", "src/voxelized_geometry_tools/tagged_object_occupancy_component_map.cpp:ComputeComponentTopology"]}
{"id": "C80", "title": "A float field holds the distances of the double field", "statement": "ExtractSignedDistanceField for float gives, in every cell, the value of the field for double rounded once to float; its sign tells filled cells from free cells, with and without the virtual border.", "quantifier": "every grid, every fill state, every resolution", "why_tests_cant": "The border variant compares rounded values with zero, so a rounding anywhere could change which of two fields is used; tests sample few resolutions.", "anchors": ["include/voxelized_geometry_tools/signed_distance_field_generation.hpp:ExtractSignedDistanceField", "include/voxelized_geometry_tools/occupancy_map.hpp:ExtractSignedDistanceField", "include/voxelized_geometry_tools/tagged_object_occupancy_map.hpp:ExtractSignedDistanceField"]}
{"id": "C81", "title": "Stored distances are accurate to the last digits", "statement": "Every finite stored distance differs from the Euclidean distance between the cell's centre and the nearest centre of the other kind by at most 2^-51 of it in a field of double and 2^-23 in a field of float.", "quantifier": "every grid, every fill state, every resolution that is a normal number of the scalar type, every cell", "why_tests_cant": "A bound over all inputs on accumulated rounding of transform, square root, scaling and narrowing.", "anchors": ["include/voxelized_geometry_tools/signed_distance_field_generation.hpp:ExtractSignedDistanceField", "include/voxelized_geometry_tools/occupancy_map.hpp:ExtractSignedDistanceField", "include/voxelized_geometry_tools/tagged_object_occupancy_map.hpp:ExtractSignedDistanceField"]}
{"id": "C82", "title": "Voids are cavities and holes are tunnels", "statement": "For every component ComputeComponentTopology reports, the void count is the number of cavities the component encloses, and the hole count is the number of independent tunnels through it.", "quantifier": "every map, every selection of kinds of components, every component, every traversal order of the hash containers", "why_tests_cant": "All shapes; that each cavity is bounded by exactly one surface is a separation theorem, and that the hole count is never negative an inequality about closed surfaces.", "anchors": ["include/voxelized_geometry_tools/topology_computation.hpp:ComputeHolesAndVoidsInSurface", "include/voxelized_geometry_tools/topology_computation.hpp:ComputeComponentTopology", "src/voxelized_geometry_tools/occupancy_component_map.cpp:ComputeComponentTopology", "src/voxelized_geometry_tools/tagged_object_occupancy_component_map.cpp:ComputeComponentTopology"]}
{"id": "C83", "title": "A failing device call never leaks memory or half a result", "statement": "Whatever call of the device library fails during VoxelizePointClouds on a CUDA or OpenCL voxelizer, the call throws (it does not end the process), frees all device memory it allocated and no other memory, and never reports success with an output it did not write; if nothing fails it returns with the output written. When it returns, every cloud that has points was read and raycast.", "quantifier": "every pattern of failing library calls, every number and size of point clouds, every interleaving of the dispatching threads, every state of the device memory before the call", "why_tests_cant": "Failures must be injected at every call site and in every interleaving; most cannot be provoked on a healthy device.", "anchors": ["src/voxelized_geometry_tools/cuda_voxelization_helpers.cu:CudaBuffer", "src/voxelized_geometry_tools/opencl_voxelization_helpers.cc:OpenCLVoxelizationHelperInterface", "src/voxelized_geometry_tools/device_pointcloud_voxelization.cpp:DoVoxelizePointClouds"]}
{"id": "C84", "title": "Device voxelizers can be used side by side and from any thread", "statement": "However voxelizers for the listed devices are constructed and used, one after the other and on any host threads, each kernel runs on the device its voxelizer was made for and only uses memory of that device, and no memory stays allocated between calls.", "quantifier": "every history of constructions and voxelization calls on any threads and devices, with any failures", "why_tests_cant": "Histories over several devices and host threads are unbounded, and most test machines have one device.", "anchors": ["src/voxelized_geometry_tools/cuda_voxelization_helpers.cu:SetCudaDevice", "src/voxelized_geometry_tools/cuda_voxelization_helpers.cu:PrepareTrackingGrids", "src/voxelized_geometry_tools/cuda_voxelization_helpers.cu:RaycastPoints", "src/voxelized_geometry_tools/device_pointcloud_voxelization.cpp:DoVoxelizePointClouds"]}
{"id": "C85", "title": "Estimated distances of a generated field are true to within a voxel diagonal", "statement": "Let a field be generated from a map and queried with EstimateDistance at a location between the outermost cell centres, the interpolation being exact. The estimate exceeds the distance from the location to any point of any filled voxel by less than 1.24 voxels, and some point of a filled voxel is no farther than the estimate (or zero, if it is negative) plus 0.87 voxels; the negated estimate says the same about free voxels. So an estimate above 1.24 voxels means the location is in free space. In the outer half of boundary voxels both bounds are 6 voxels. For stored double and float distances true distances count with a relative error of 2^-51 and 2^-23.", "quantifier": "every map, resolution, border option and placement of the grid, every location", "why_tests_cant": "The claim relates a continuous query to all points of all filled voxels of arbitrary maps, through distance transform, sign, half-voxel correction and trilinear interpolation together.", "anchors": ["include/voxelized_geometry_tools/signed_distance_field.hpp:EstimateLocationDistance4d", "include/voxelized_geometry_tools/signed_distance_field.hpp:GetCorrectedCenterDistance", "include/voxelized_geometry_tools/signed_distance_field_generation.hpp:ExtractSignedDistanceField", "include/voxelized_geometry_tools/occupancy_map.hpp:ExtractSignedDistanceField"]}
{"id": "C86", "title": "Objects only ever have cubic voxels", "statement": "No map or signed distance field with different voxel sizes per axis comes out of deserialization, a file, a ROS message or a conversion between map types, whatever the bytes or the source: such input is rejected. Signed distance fields are not extracted from a grid whose voxels are not cubes.", "quantifier": "every byte string, file and message, every map to convert, every grid and border option", "why_tests_cant": "Tests try a few well-formed inputs; the distance computations and neighbour queries silently give wrong numbers on any input for which one check is missing.", "anchors": ["include/voxelized_geometry_tools/occupancy_map.hpp:OccupancyMap", "include/voxelized_geometry_tools/signed_distance_field.hpp:DerivedDeserializeSelf", "include/voxelized_geometry_tools/signed_distance_field_generation.hpp:ExtractSignedDistanceField", "src/voxelized_geometry_tools/dynamic_spatial_hashed_occupancy_map.cpp:DerivedDeserializeSelf"]}
{"id": "C87", "title": "Distance estimates computed in double are close to exact", "statement": "Computed in double precision, with every rounding of the index computation, the cell centres, the correction and the interpolation, an estimated distance is finite and differs from the exact interpolation of the stored values at that location by at most (2k + N 2^-43)(D + half a voxel), where N bounds the number of cells per axis, D the stored distances and k the relative error of the interpolation routine. Locations further than N 2^-50 voxels inside the grid are answered and those further outside are not. For generated fields the estimate still brackets the clearance, with the bounds of C85 enlarged by that error.", "quantifier": "every grid of up to 2^25 cells per axis with finite stored values, stored as double or float, every voxel size from 2^-900 to 2^900 and every location; for the clearance every set of filled cells and both border options", "why_tests_cant": "The worst rounding happens next to cell boundaries, where the index may be off by one and another pair of cells is interpolated; tests sample a handful of points and compare with a tolerance.", "anchors": ["include/voxelized_geometry_tools/signed_distance_field.hpp:EstimateLocationDistance4d", "include/voxelized_geometry_tools/signed_distance_field.hpp:EstimateDistanceInterpolateFromNeighbors", "include/voxelized_geometry_tools/signed_distance_field.hpp:GetCorrectedCenterDistance"]}
{"id": "C88", "title": "Gradients computed in double precision are close to the exact ones", "statement": "GetIndexCoarseGradient computes, from stored float or double distances and a double voxel size, a gradient that is present exactly when the exact one is and every component of which is finite and within a stated relative error of the difference quotient of the stored distances; GetLocationFineGradient returns components that are within a stated error of a difference quotient of the exact interpolated distances, whatever positive window is given.", "quantifier": "every field of finite values, every voxel size in a wide range, every index, every location and every window", "why_tests_cant": "the errors of a subtraction that is rounded to the stored type, a division, and (for the fine gradient) of rounded window locations and two trilinear interpolations combine; tests see a few values, and a window that is lost in the rounding of the coordinates is a corner they do not reach", "anchors": ["include/voxelized_geometry_tools/signed_distance_field.hpp:ComputeAxisFineGradient", "include/voxelized_geometry_tools/signed_distance_field.hpp:GetIndexCoarseGradient", "include/voxelized_geometry_tools/signed_distance_field.hpp:GetLocationFineGradient"]}
{"id": "C89", "title": "Rays cast with rounded arithmetic mark the voxels along the segment", "statement": "With the sensor in the grid, raycasting a point in double precision on the CPU or in single precision on a device marks only voxels that the segment from the sensor to the point, cut at the maximum range, comes within a stated small distance of, marks every voxel of the grid that the segment enters deeper than that distance, and counts as filled exactly the voxel of an uncut point (up to that distance), which it always does for a point that deep in the grid; the cut is at the maximum range up to a stated relative error. After casting a cloud into fresh counters with any number of threads, a positive free or filled count comes from such a segment and every voxel deep on a segment has a positive count.", "quantifier": "every grid with up to about 2^26 (CPU) or 4000 (devices) voxels per axis, every voxel size in a wide range, every sensor in the grid, every point of moderate size, every range, every cloud and every assignment of points to threads", "why_tests_cant": "each step adds a rounded crossing time, so errors accumulate along the ray, and a tie between two crossings can be decided either way; a test sees a few rays and cannot tell a harmless detour from a skipped voxel", "anchors": ["src/voxelized_geometry_tools/cpu_pointcloud_voxelization.cpp:DoRaycastSinglePoint", "src/voxelized_geometry_tools/cpu_pointcloud_voxelization.cpp:DoRaycastPointCloud", "src/voxelized_geometry_tools/cuda_voxelization_helpers.cu:RaycastPoint", "src/voxelized_geometry_tools/opencl_voxelization_helpers.cc:RaycastPoint", "src/voxelized_geometry_tools/device_pointcloud_voxelization.cpp:DoVoxelizePointClouds"]}
{"id": "C90", "title": "Voxelization shows what the sensors saw, with poses, ranges and rounding", "statement": "VoxelizePointClouds, from the pose of the grid, the poses and maximum ranges of the sensors and their points to the returned map, on the CPU in double precision and on the devices with the composed transform rounded to single precision: cells filled in the static environment are kept; a cell becomes filled only if enough points of one sensor are in or very near it and in range, and free only if enough sensors have a segment, cut at the range, through or very near it; a cell deep inside of which enough points of one sensor lie, and which no other ray of it comes near, becomes filled; a cell that enough sensors see deep through and no point is near becomes free; a cell no ray comes near is unknown. Invalid points (NaN or infinite) have no effect. 'Very near' and 'deep' are a stated small multiple of the rounding unit.", "quantifier": "every grid and sensor pose with entries of moderate size, every number of sensors in the grid, every list of points of moderate size, every range, every valid filter options, every static environment, and every execution of the parallel loops or kernels", "why_tests_cant": "the errors of composing transforms, moving points, cutting at the range and stepping through voxels add up along a pipeline with three kinds of arithmetic; a test compares a few scenes, usually with points at centres of voxels, and cannot bound what happens near the boundaries of voxels or over schedules", "anchors": ["src/voxelized_geometry_tools/cpu_pointcloud_voxelization.cpp:DoVoxelizePointClouds", "src/voxelized_geometry_tools/cpu_pointcloud_voxelization.cpp:DoRaycastPointCloud", "src/voxelized_geometry_tools/device_pointcloud_voxelization.cpp:DoVoxelizePointClouds", "src/voxelized_geometry_tools/cuda_voxelization_helpers.cu:RaycastPoint", "src/voxelized_geometry_tools/opencl_voxelization_helpers.cc:RaycastPoint", "include/voxelized_geometry_tools/pointcloud_voxelization_interface.hpp:VoxelizePointClouds"]}
{"id": "C91", "title": "A reported distance is about what the sensors saw", "statement": "The whole pipeline with the default filter options (percentage 1.0, outlier threshold 1): clouds placed by their poses are voxelized, the signed distance field of the map is built and stored as double or float, and the distance at a location of the world is estimated with EstimateDistance. The answer exists and is finite; it exceeds the distance from the true location to any sensed point in range and in the grid, to any voxel filled in the static environment and to the virtual border by at most about 1.24 voxels and stated rounding errors; and some sensed point, filled voxel, border voxel or (if unknown counts as filled) unknown voxel is as close as reported, up to about 2.6 voxels.", "quantifier": "every pose of the grid and of the sensors with entries of moderate size, every number of sensors in the grid, every list of points, ranges, static environment without NaN, option of the field, schedule of the parallel loops or kernels, and every location at least half a voxel inside the grid", "why_tests_cant": "it relates the number a planner acts on to points in the world through transforms, ray casting, filtering, two distance transforms, storage in float and interpolation; a test samples scenes and locations, and tests of the stages do not show that their errors do not add up to a missed obstacle", "anchors": ["include/voxelized_geometry_tools/pointcloud_voxelization_interface.hpp:VoxelizePointClouds", "src/voxelized_geometry_tools/cpu_pointcloud_voxelization.cpp:DoVoxelizePointClouds", "src/voxelized_geometry_tools/device_pointcloud_voxelization.cpp:DoVoxelizePointClouds", "include/voxelized_geometry_tools/occupancy_map.hpp:ExtractSignedDistanceField", "include/voxelized_geometry_tools/signed_distance_field.hpp:EstimateLocationDistance"]}
{"id": "C92", "title": "The backends agree on clear-cut cells", "statement": "The CPU backend voxelizes the points in double precision, the CUDA and OpenCL backends the same points rounded to floats. In every execution of each, the two maps agree on every cell that the sensors decide with a margin: cells filled in the environment, cells holding enough points of a sensor with none of its rays going on behind, cells seen through by enough sensors and holding no point, and cells no ray passes. The margin is N(N+130) 2^-24 voxels plus 572 2^-24 times the size of the scene, so backends can only differ at cells whose boundary a ray or point comes that close to.", "quantifier": "every pose of the grid and of the sensors with entries of moderate size, every number of sensors in the grid, every list of points, range, static environment and output map, filter options, schedule of the parallel loops and of the kernels", "why_tests_cant": "a test compares the backends on a few scenes whose points happen to be away from boundaries; it cannot say how far from a boundary is enough, nor that no pose, point or schedule brings out a larger difference", "anchors": ["src/voxelized_geometry_tools/cpu_pointcloud_voxelization.cpp:DoVoxelizePointClouds", "src/voxelized_geometry_tools/device_pointcloud_voxelization.cpp:DoVoxelizePointClouds", "src/voxelized_geometry_tools/cuda_voxelization_helpers.cu:RaycastPoints", "src/voxelized_geometry_tools/opencl_voxelization_helpers.cc:RaycastPoints"]}
{"id": "C93", "title": "Rays of a sensor anywhere, computed in double", "statement": "On the CPU, wherever the sensor is, in front of the grid or in it, and with every rounding of the clipping against the grid, the entry point and the walk: every voxel of the grid that the range-limited segment from the sensor to the point enters deeper than a small margin is counted; only the voxel at the point is counted as filled, and only if the point is within range; a segment that gets past the near sides of the grid counts no voxels but those near it; and a ray that passes by the grid counts nothing. The margin is of the order of the 1e-10 nudge at the entry, plus a fraction of the square of the distances involved, and is given exactly.", "quantifier": "every grid and voxel size in a wide range, every sensor and point with coordinates up to 2048 (and up to 2^21 voxels), with or without a maximum range, every list of points and every schedule of the threads", "why_tests_cant": "the sensor's position, the point and the rounding of the entry point vary continuously; a test samples a few rays away from the corners of the grid, where one wrong comparison in the clipping shows up only for some directions", "anchors": ["src/voxelized_geometry_tools/cpu_pointcloud_voxelization.cpp:DoRaycastSinglePoint", "src/voxelized_geometry_tools/cpu_pointcloud_voxelization.cpp:DoRaycastPointCloud"]}
{"id": "C94", "title": "Maps of scenes seen from anywhere", "statement": "Voxelizing point clouds on the CPU, with each sensor in the grid or outside of it, from the poses of grid and sensors, the points and the ranges to the map, with every rounding: every execution returns a map, and the map shows what the sensors saw. Cells not known in advance to be filled are free where enough cameras surely see through, filled where enough points of a camera surely end with none passing, unknown where no ray comes near, and a cell is only free or filled if rays pass or end near it. The margins of near and surely are given exactly.", "quantifier": "every pose of the grid and the sensors, every number of clouds, points and cameras, every grid size, voxel size, range, filter options, static map and schedule of the threads, within bounds on the magnitude of the numbers; sensors outside of the grid whose rays to the points reach the grid or pass it by", "why_tests_cant": "the poses are continuous and sensors usually stand outside of the mapped volume; a test compares a few cells for a few hand-picked poses, and errors of the clipping, the transform or the filter that only matter for some directions go unnoticed", "anchors": ["src/voxelized_geometry_tools/cpu_pointcloud_voxelization.cpp:DoVoxelizePointClouds", "src/voxelized_geometry_tools/cpu_pointcloud_voxelization.cpp:DoRaycastPointCloud", "src/voxelized_geometry_tools/cpu_pointcloud_voxelization.cpp:DoRaycastSinglePoint", "src/voxelized_geometry_tools/cpu_pointcloud_voxelization.cpp:DoCombineAndFilterGrids"]}
{"id": "C95", "title": "A map built for a mesh contains it, in double", "statement": "RasterizeMeshIntoOccupancyMap, with every rounding of the corners, the counts and the indices, returns a map for every mesh whose vertices are at most 2^48 voxels away from the origin: every vertex has its voxel in the map and is at least half a voxel away from its sides, the map is at most four voxels larger than the mesh on each axis, and rasterization on any number of threads never reports that the map does not contain the mesh and leaves the same map.", "quantifier": "every list of vertices and triangles, every resolution in a wide range, every way of handing out the triangles to threads and every interleaving", "why_tests_cant": "whether the buffer of one voxel on each side absorbs the roundings of origin, size, count and index depends on the bits of the coordinates; tests use a few meshes with round numbers near the origin", "anchors": ["src/voxelized_geometry_tools/mesh_rasterizer.cpp:RasterizeMeshIntoOccupancyMapImpl", "src/voxelized_geometry_tools/mesh_rasterizer.cpp:RasterizeTriangleImpl"]}
{"id": "C96", "title": "Rasterization in double fills only voxels near the triangle", "statement": "Every voxel that RasterizeTriangle changes becomes filled and has a point of the triangle within the radius of the sphere around the voxel, up to 2^-38 of the distances and coordinates involved, with every rounding of the cross products, the projection, the clamped ratio, the radius and the comparison; the error grows with the square of how thin the triangle is.", "quantifier": "every triangle that is not too thin, every map and pose for which the centre of the voxel is a number, every resolution in a wide range", "why_tests_cant": "the roundings of eight cross products, a quotient of products of fourth degree and a square root add up differently for every triangle; a test compares a few voxels of a few triangles with the same computation", "anchors": ["src/voxelized_geometry_tools/mesh_rasterizer.cpp:CalcClosestPointOnTriangle", "src/voxelized_geometry_tools/mesh_rasterizer.cpp:ClosestPointOnLineSegment", "src/voxelized_geometry_tools/mesh_rasterizer.cpp:RasterizeTriangleImpl"]}
{"id": "C97", "title": "Rasterization in double fills the voxels over the triangle", "statement": "RasterizeTriangle, with every rounding of the side tests, the projection, the radius and the comparison, fills every voxel of the map and of the index box of the triangle whose centre projects into the triangle by a small margin and is within the radius of the sphere around the voxel by a small margin, and every voxel of that box for which all three corners of the triangle are within that radius by a small margin, wherever its centre projects to; the margins are 2^-44 and 2^-38 of the sizes involved and grow with how thin the triangle is.", "quantifier": "every triangle that is not too thin, every map and pose for which the centre of the voxel is a number, every resolution in a wide range", "why_tests_cant": "a voxel left out by a rounded side test or a rounded quotient is a hole in a rasterized surface that shows only for particular triangles; a test looks at a few triangles aligned with the grid", "anchors": ["src/voxelized_geometry_tools/mesh_rasterizer.cpp:PointProjectsInsideTriangle", "src/voxelized_geometry_tools/mesh_rasterizer.cpp:CalcClosestPointOnTriangle", "src/voxelized_geometry_tools/mesh_rasterizer.cpp:RasterizeTriangleImpl"]}
{"id": "C98", "title": "Rasterization fills the voxels near all edges of the triangle", "statement": "RasterizeTriangle sets every voxel of the map that has a point of the triangle and, for each of the three edges, a point of that edge within the radius of the sphere around the voxel to filled, wherever the centre of the voxel projects to and however far away the corners are.", "quantifier": "every triangle whose corners are not on one line, every map with the axes of the world, every resolution and position of the map, every voxel", "why_tests_cant": "Continuous space of triangles; a wrong clamp of the point on an edge shows only for voxels beside a long edge.", "anchors": ["src/voxelized_geometry_tools/mesh_rasterizer.cpp:ClosestPointOnLineSegment", "src/voxelized_geometry_tools/mesh_rasterizer.cpp:CalcClosestPointOnTriangle", "src/voxelized_geometry_tools/mesh_rasterizer.cpp:RasterizeTriangleImpl"]}
