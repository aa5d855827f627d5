(** Model of the mesh rasterizer,
    /repo/src/voxelized_geometry_tools/mesh_rasterizer.cpp.

    Both map types share the code; what it changes of a cell is its occupancy, so the
    grid here is the grid of the occupancies.  (On an OccupancyComponentMap, the mutable
    access also marks the components as invalid; that flag is in ComponentMapModel.)
    The uninitialized map, which throws, is not represented. *)
From Coq Require Import ZArith List Bool.
From Verif Require Import Util Grid Occ Prog SdfQueryModel.
Import ListNotations.
Local Open Scope Z_scope.

(** Arithmetic: that of the queries, and the external functions used here.
    [m_radius_sq r] is pow(r * 0.5 * sqrt(3.0), 2.0) (mesh_rasterizer.cpp:118-120),
    [m_reject] is VectorRejection, [m_clamp] ClampValue(_, 0.0, 1.0) and [m_count] the
    number of voxels FromGridSizes gives to an axis of some size (ceil of the
    quotient), all of common_robotics_utilities. *)
Record mesh_arith : Type := mkMeshArith {
  m_query : query_arith;
  m_radius_sq : qT m_query -> qT m_query;
  m_reject : qvec m_query -> qvec m_query -> qvec m_query;
  m_clamp : qT m_query -> qT m_query;
  m_count : qT m_query -> qT m_query -> Z }.

Section Mesh.
Variable M : mesh_arith.
Notation A := (m_query M).
Notation T := (qT A).
Notation vec := (qvec A).

(** Eigen's operations on Vector3d; sums of three products are evaluated as
    x + (y + z), the order of Eigen's unrolled reductions. *)
Definition vsub (u v : vec) : vec := qmap2 A (q_sub A) u v.
Definition vadd (u v : vec) : vec := qmap2 A (q_add A) u v.
Definition vscale (u : vec) (k : T) : vec := qmap A (fun c => q_mul A c k) u.
Definition vdot (u v : vec) : T :=
  q_add A (q_mul A (qx A u) (qx A v))
    (q_add A (q_mul A (qy A u) (qy A v)) (q_mul A (qz A u) (qz A v))).
Definition vcross (u v : vec) : vec :=
  (q_sub A (q_mul A (qy A u) (qz A v)) (q_mul A (qz A u) (qy A v)),
   q_sub A (q_mul A (qz A u) (qx A v)) (q_mul A (qx A u) (qz A v)),
   q_sub A (q_mul A (qx A u) (qy A v)) (q_mul A (qy A u) (qx A v))).
Definition vsq (u : vec) : T := vdot u u.

(** The lambda same_side, mesh_rasterizer.cpp:31-38. *)
Definition same_side (a b p1 p2 : vec) : bool :=
  let ab := vsub b a in
  q_leb A (q_zero A) (vdot (vcross ab (vsub p1 a)) (vcross ab (vsub p2 a))).

(** PointProjectsInsideTriangle, mesh_rasterizer.cpp:27-43. *)
Definition projects_inside (v1 v2 v3 q : vec) : bool :=
  same_side v1 v2 v3 q && same_side v2 v3 v1 q && same_side v3 v1 v2 q.

(** ClosestPointOnLineSegment, mesh_rasterizer.cpp:45-58. *)
Definition closest_on_segment (a b q : vec) : vec :=
  let ab := vsub b a in
  let ratio := q_div A (vdot ab (vsub q a)) (vsq ab) in
  vadd a (vscale ab (m_clamp M ratio)).

(** CalcClosestPointOnTriangle, mesh_rasterizer.cpp:60-101.  The three candidates are
    compared by their distance from the origin of the mesh frame (82-84), as in the
    code. *)
Definition closest_on_triangle (v1 v2 v3 normal q : vec) : vec :=
  if projects_inside v1 v2 v3 q then vadd v1 (m_reject M normal (vsub q v1))
  else
    let c12 := closest_on_segment v1 v2 q in
    let c23 := closest_on_segment v2 v3 q in
    let c31 := closest_on_segment v3 v1 q in
    let d12 := vsq c12 in let d23 := vsq c23 in let d31 := vsq c31 in
    if q_leb A d12 d23 && q_leb A d12 d31 then c12
    else if q_leb A d23 d12 && q_leb A d23 d31 then c23
    else c31.

(** What rasterization uses of a map: voxel counts, resolution and its inverse, and
    the transforms between world and grid frame. *)
Record mmap : Type := mkMmap {
  mm_nx : Z; mm_ny : Z; mm_nz : Z; mm_res : T; mm_inv : T;
  mm_to_grid : vec -> vec; mm_to_world : vec -> vec }.

(** LocationToGridIndex and GridIndexToLocation (external). *)
Definition mm_index (m : mmap) (p : vec) : idx :=
  let q := mm_to_grid m p in
  (q_floor A (q_mul A (qx A q) (mm_inv m)), q_floor A (q_mul A (qy A q) (mm_inv m)),
   q_floor A (q_mul A (qz A q) (mm_inv m))).
Definition mm_centre (m : mmap) (i : idx) : vec :=
  let at_ c := q_mul A (mm_res m) (q_add A (q_ofZ A c) (q_half A)) in
  mm_to_world m (at_ (ix i), at_ (iy i), at_ (iz i)).

(** std::min and std::max of an initializer list of three: the first of the equal
    ones. *)
Definition tmin (a b : T) : T := if q_ltb A b a then b else a.
Definition tmax (a b : T) : T := if q_ltb A a b then b else a.
Definition min3 (a b c : T) : T := tmin (tmin a b) c.
Definition max3 (a b c : T) : T := tmax (tmax a b) c.
Definition vmin3 (a b c : vec) : vec :=
  (min3 (qx A a) (qx A b) (qx A c), min3 (qy A a) (qy A b) (qy A c), min3 (qz A a) (qz A b) (qz A c)).
Definition vmax3 (a b c : vec) : vec :=
  (max3 (qx A a) (qx A b) (qx A c), max3 (qy A a) (qy A b) (qy A c), max3 (qz A a) (qz A b) (qz A c)).

(** The indices of the three nested loops, mesh_rasterizer.cpp:141-154. *)
Definition index_box (lo hi : idx) : list idx :=
  flat_map (fun x => flat_map (fun y => map (fun z => (x, y, z))
    (zrange (iz lo) (iz hi + 1))) (zrange (iy lo) (iy hi + 1))) (zrange (ix lo) (ix hi + 1)).

(** The test of one voxel, mesh_rasterizer.cpp:156-184. *)
Definition voxel_hit (m : mmap) (v1 v2 v3 normal : vec) (i : idx) : bool :=
  let q := mm_centre m i in
  q_leb A (vsq (vsub (closest_on_triangle v1 v2 v3 normal q) q)) (m_radius_sq M (mm_res m)).

(** The update of one voxel, mesh_rasterizer.cpp:186-199; [Fail] is the exception
    "Triangle is not contained by occupancy map". *)
Definition fill_voxel (m : mmap) (enforce : bool) (i : idx) : prog occ unit :=
  if in_bounds3 (mm_nx m) (mm_ny m) (mm_nz m) i then write i one_bits
  else if enforce then Fail else Ret tt.

(** The voxels of a triangle that pass the test, mesh_rasterizer.cpp:127-184. *)
Definition triangle_voxels (m : mmap) (v1 v2 v3 : vec) : list idx :=
  let normal := vcross (vsub v2 v1) (vsub v3 v1) in
  filter (voxel_hit m v1 v2 v3 normal)
    (index_box (mm_index m (vmin3 v1 v2 v3)) (mm_index m (vmax3 v1 v2 v3))).

(** RasterizeTriangleImpl, mesh_rasterizer.cpp:103-204; [Fail] is also the out_of_range
    of the accesses to triangles and vertices (122-125; a negative vertex index becomes
    a huge one). *)
Definition triangle_task (m : mmap) (vertices : list vec) (triangles : list (Z * Z * Z))
    (enforce : bool) (t : Z) : prog occ unit :=
  match zget triangles t with
  | None => Fail
  | Some (i, j, k) =>
      match zget vertices i, zget vertices j, zget vertices k with
      | Some v1, Some v2, Some v3 =>
          pseq (map (fill_voxel m enforce) (triangle_voxels m v1 v2 v3))
      | _, _, _ => Fail
      end
  end.

(** RasterizeMeshImpl, mesh_rasterizer.cpp:206-229, is the parallel loop of
    [triangle_task] over all triangles (Schedule.threads); run serially it is: *)
Definition mesh_task (m : mmap) (vertices : list vec) (triangles : list (Z * Z * Z))
    (enforce : bool) : prog occ unit :=
  pseq (map (triangle_task m vertices triangles enforce) (zrange 0 (zlen triangles))).

(** ** A map for a mesh *)

(** cwiseMin and cwiseMax. *)
Definition vmin (a b : vec) : vec := qmap2 A tmin a b.
Definition vmax (a b : vec) : vec := qmap2 A tmax a b.

(** The corners, mesh_rasterizer.cpp:243-253.  The folds of the code start at plus and
    minus infinity; the model starts at the first vertex, and a mesh without vertices,
    for which the code asks for a grid of infinite size, has no corners. *)
Definition corners (vertices : list vec) : option (vec * vec) :=
  match vertices with
  | [] => None
  | v :: r => Some (fold_left vmin r v, fold_left vmax r v)
  end.

(** RasterizeMeshIntoOccupancyMapImpl, mesh_rasterizer.cpp:231-273: the map before
    rasterization, [None] when the call throws; the inverse of the resolution is that of
    VoxelGridSizes. *)
Definition map_for_mesh (vertices : list vec) (resolution : T) : option mmap :=
  if q_leb A resolution (q_zero A) then None
  else
    let* (lower, upper) := corners vertices in
    let size := vsub upper lower in
    let buffer := q_mul A resolution (q_two A) in
    let origin := qmap A (fun c => q_sub A c resolution) lower in
    let count c := m_count M (q_add A c buffer) resolution in
    Some (mkMmap (count (qx A size)) (count (qy A size)) (count (qz A size))
            resolution (q_div A (q_one A) resolution)
            (fun p => vsub p origin) (fun p => vadd p origin)).

(** The whole call, run serially: the map and its occupancies, initially 0
    (mesh_rasterizer.cpp:269-275). *)
Definition rasterize_into_map (vertices : list vec) (triangles : list (Z * Z * Z))
    (resolution : T) : option (mmap * grid occ) :=
  let* m := map_for_mesh vertices resolution in
  let* (_, g) := run (mesh_task m vertices triangles true)
                   (gconst (mm_nx m) (mm_ny m) (mm_nz m) zero_bits) in
  Some (m, g).
End Mesh.
