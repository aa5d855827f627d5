(** Filtering of the tracking grids of point cloud voxelization, on the CPU and on
    the device, and the voxelization entry points.

    Sources: /repo/include/voxelized_geometry_tools/pointcloud_voxelization_interface.hpp,
    /repo/src/voxelized_geometry_tools/cpu_pointcloud_voxelization.cpp,
    device_pointcloud_voxelization.cpp, cuda_voxelization_helpers.cu and
    opencl_voxelization_helpers.cc. *)
From Coq Require Import ZArith List Bool.
From Flocq Require Import Core BinarySingleNaN.
From Verif Require Import Util Grid Prog Schedule EdtModel FloatModel Occ RaycastModel.
Import ListNotations.
Local Open Scope Z_scope.

(** ** Arithmetic *)

(** int32_t arithmetic outside std::atomic: overflow is undefined behaviour, here
    [None]. *)
Definition chk32 (x : Z) : option Z :=
  if (- 2 ^ 31 <=? x) && (x <? 2 ^ 31) then Some x else None.

Definition b64_one : b64 := @B754_finite 53 1024 false 4503599627370496 (-52) eq_refl.
Definition b64_zero : b64 := B754_zero false.
Definition b32_one : b32 := @B754_finite 24 128 false 8388608 (-23) eq_refl.
Definition b32_div (a b : b32) : b32 := Bdiv mode_NE a b.
Definition b32_leb (a b : b32) : bool := Bleb a b.

(** static_cast<float>(double). *)
Definition b32_of_b64 (x : b64) : b32 :=
  match x with
  | B754_zero s => B754_zero s
  | B754_infinity s => B754_infinity s
  | B754_nan => B754_nan
  | B754_finite s m e _ =>
    binary_normalize 24 128 _ _ mode_NE (if s then Z.neg m else Z.pos m) e s
  end.

(** ** Options *)

(** PointCloudVoxelizationFilterOptions, interface.hpp:20-92. *)
Record filter_options : Type := mkOptions {
  o_percent : b64; o_outlier : Z; o_cameras : Z }.

(** The validating constructor, interface.hpp:23-42; [None] when it throws. *)
Definition make_options (percent : b64) (outlier cameras : Z) : option filter_options :=
  if b64_leb percent b64_zero || b64_ltb b64_one percent then None
  else if outlier <=? 0 then None
  else if cameras <=? 0 then None
  else Some (mkOptions percent outlier cameras).

(** The default constructor, interface.hpp:44-47. *)
Definition default_options : filter_options := mkOptions b64_one 1 1.

(** ** Classification of one camera *)

(** SeenAs, interface.hpp:18. *)
Inductive seen : Type := SeenUnknown | SeenFilled | SeenFree.

(** interface.hpp:54-86, and the same code inlined in the kernels (cuda .cu:380-408,
    opencl .cc:349-371).  [enough free total] is the comparison of the share with
    the requested percentage.  The addition of the two counts can overflow. *)
Definition classify (enough : Z -> Z -> bool) (outlier free filled : Z) : option seen :=
  let f := if outlier <=? filled then filled else 0 in
  if (0 <? free) && (0 <? f) then
    let* total := chk32 (free + f) in
    Some (if enough free total then SeenFree else SeenFilled)
  else if 0 <? free then Some SeenFree
  else if 0 <? f then Some SeenFilled
  else Some SeenUnknown.

(** interface.hpp:61-64, in double. *)
Definition cpu_enough (percent : b64) (free total : Z) : bool :=
  b64_leb percent (b64_div (b64_ofZ free) (b64_ofZ total)).

(** cuda .cu:387-391 and opencl .cc:353-355, in float. *)
Definition dev_enough (percent : b32) (free total : Z) : bool :=
  b32_leb percent (b32_div (b32_ofZ free) (b32_ofZ total)).

(** CountsSeenAs, interface.hpp:54-86. *)
Definition counts_seen_as (o : filter_options) (free filled : Z) : option seen :=
  classify (cpu_enough (o_percent o)) (o_outlier o) free filled.

(** ** Combination of the cameras for one voxel *)

(** The camera loop, cpu .cpp:455-470, cuda .cu:374-409, opencl .cc:342-372:
    (seen_filled, seen_free).  A count that cannot be read is [None]. *)
Fixpoint tally (cls : Z -> Z -> option seen) (l : list (option (Z * Z))) (acc : Z * Z)
    : option (Z * Z) :=
  match l with
  | [] => Some acc
  | c :: t =>
    let* c := c in
    let* s := cls (fst c) (snd c) in
    tally cls t (match s with
                 | SeenFree => (fst acc, snd acc + 1)
                 | SeenFilled => (fst acc + 1, snd acc)
                 | SeenUnknown => acc
                 end)
  end.

(** cpu .cpp:471-485, cuda .cu:410-424, opencl .cc:373-384. *)
Definition decide (cls : Z -> Z -> option seen) (cameras : Z) (l : list (option (Z * Z)))
    : option occ :=
  let* n := tally cls l (0, 0) in
  Some (if 0 <? fst n then one_bits
        else if cameras <=? snd n then zero_bits else half_bits).

(** Cell with data index [k]; grids store their cells in this order (Grid.v). *)
Definition cell_at (ny nz k : Z) : idx := (k / nz / ny, (k / nz) mod ny, k mod nz).

(** The work for one voxel, cpu .cpp:448-487, cuda .cu:365-425, opencl .cc:336-385.
    [counts k] are the counts of the cameras at data index [k]. *)
Definition filter_task (cls : Z -> Z -> option seen) (cameras : Z)
    (counts : Z -> list (option (Z * Z))) (ny nz k : Z) : prog occ unit :=
  Rd (cell_at ny nz k) (fun b =>
    if occ_le b then
      match decide cls cameras (counts k) with
      | Some v => Wr (cell_at ny nz k) v (Ret tt)
      | None => Fail
      end
    else Ret tt).

(** ** CPU *)

(** cpu .cpp:457-460, GetDataIndexImmutable of every tracking grid. *)
Definition cpu_counts (tgs : list tgrid) (k : Z) : list (option (Z * Z)) :=
  map (fun t => zget (g_cells t) k) tgs.

(** DoCombineAndFilterGrids, cpu .cpp:438-497: one parallel loop over the voxels. *)
Definition cpu_filter (o : filter_options) (tgs : list tgrid) (g : grid occ) : phase occ :=
  mkPhase (g_total g)
    (filter_task (counts_seen_as o) (o_cameras o) (cpu_counts tgs) (g_ny g) (g_nz g)).

(** ** Device *)

(** Address of the counters of a voxel in the buffer of tracking grids, as the
    filter kernels compute it.  CUDA, .cu:376-378: 64 bit product truncated to
    int32_t.  OpenCL, .cc:344-346: num_cells is truncated on the host (.cc:751-752),
    then all arithmetic is 32 bit. *)
Definition cuda_offset (cells k : Z) : option Z := Some (wrap32 (cells * 2 * k)).
Definition opencl_offset (cells k : Z) : option Z :=
  let* a := chk32 (wrap32 cells * 2) in chk32 (a * k).

(** .cu:377-382, .cc:345-348. *)
Definition dev_read (offset : Z -> Z -> option Z) (mem : list Z) (cells k v : Z)
    : option (Z * Z) :=
  let* o := offset cells k in
  let* d := chk32 (v * 2) in
  let* a := chk32 (o + d) in
  let* a1 := chk32 (a + 1) in
  let* free := zget mem a in
  let* filled := zget mem a1 in
  Some (free, filled).

Definition dev_counts (offset : Z -> Z -> option Z) (mem : list Z) (cells grids v : Z)
    : list (option (Z * Z)) :=
  map (fun k => dev_read offset mem cells k v) (zrange 0 grids).

(** The share test of the device, with the percentage cast to float
    (device_pointcloud_voxelization.cpp:155-156). *)
Definition dev_seen_as (o : filter_options) (free filled : Z) : option seen :=
  classify (dev_enough (b32_of_b64 (o_percent o))) (o_outlier o) free filled.

(** FilterGrids, .cu:358-426 with the launch .cu:721-729 of [CalcNumBlocks]
    (.cu:777-782) blocks of [threads] threads: thread [k] of the launch works on
    voxel [k] if there is one. *)
Definition cuda_blocks (items threads : Z) : Z := (items + (threads - 1)) / threads.

Definition cuda_filter (o : filter_options) (threads : Z) (mem : list Z) (grids : Z)
    (g : grid occ) : phase occ :=
  mkPhase (cuda_blocks (g_total g) threads * threads)
    (fun k => if k <? g_total g
              then filter_task (dev_seen_as o) (o_cameras o)
                     (dev_counts cuda_offset mem (g_total g) grids) (g_ny g) (g_nz g) k
              else Ret tt).

(** FilterGrids, .cc:331-386 with the launch .cc:759-762: one work item per voxel. *)
Definition opencl_filter (o : filter_options) (mem : list Z) (grids : Z) (g : grid occ)
    : phase occ :=
  mkPhase (g_total g)
    (filter_task (dev_seen_as o) (o_cameras o)
       (dev_counts opencl_offset mem (g_total g) grids) (g_ny g) (g_nz g)).

(** Address of the counter incremented by the raycasting kernels.  The strides are
    ny*nz and nz (.cu:683-684, .cc:680-681). *)
Definition dev_data_index (ny nz : Z) (i : idx) : option Z :=
  let* s1 := chk32 (ny * nz) in
  let* a := chk32 (ix i * s1) in
  let* b := chk32 (iy i * nz) in
  let* c := chk32 (a + b) in
  chk32 (c + iz i).

(** .cu:281-291, 313-316: the pointer to the grid is advanced by the 64 bit
    starting offset [k * cells * 2] (.cu:650-655, 688-691). *)
Definition cuda_address (ny nz cells k : Z) (b : bump) : option Z :=
  let* d := dev_data_index ny nz (fst b) in
  let* e := chk32 (d * 2) in
  let* e := chk32 (e + (if snd b then 1 else 0)) in
  Some (k * cells * 2 + e).

(** .cc:248-260, 282-287, with the starting offset cast to int32_t (.cc:682-683). *)
Definition opencl_address (ny nz cells k : Z) (b : bump) : option Z :=
  let* d := dev_data_index ny nz (fst b) in
  let* e := chk32 (d * 2) in
  let* a := chk32 (wrap32 (k * cells * 2) + e) in
  chk32 (a + (if snd b then 1 else 0)).

(** atomicAdd(&memory[a], 1). *)
Definition dev_bump (mem : list Z) (a : Z) : option (list Z) :=
  let* v := zget mem a in zset mem a (wrap32 (v + 1)).

(** Work items, each a list of addresses, perform their increments one at a time in
    any order. *)
Inductive dstep : list (list Z) * list Z -> list (list Z) * list Z -> Prop :=
| dstep_bump l1 a w l2 mem mem' :
    dev_bump mem a = Some mem' -> dstep (l1 ++ (a :: w) :: l2, mem) (l1 ++ w :: l2, mem').

Inductive dsteps : list (list Z) * list Z -> list (list Z) * list Z -> Prop :=
| dsteps_refl s : dsteps s s
| dsteps_cons s1 s2 s3 : dstep s1 s2 -> dsteps s2 s3 -> dsteps s1 s3.

(** Increments of one point of cloud number [k]; [None] if an address computation
    overflows. *)
Fixpoint addresses (addr : bump -> option Z) (bs : list bump) : option (list Z) :=
  match bs with
  | [] => Some []
  | b :: t => let* a := addr b in let* r := addresses addr t in Some (a :: r)
  end.

(** The work items of all raycasting launches, device_pointcloud_voxelization.cpp:
    99-139: one per point of every cloud (empty clouds have no points).  The kernels
    run the same algorithm as the CPU with float arithmetic (.cu:73-356,
    .cc:59-327), so [A] and [rg] are to be read with float.  [address k] is the
    address computation for tracking grid [k]. *)
Fixpoint point_items (A : ray_arith) (rg : ray_grid A) (addr : bump -> option Z)
    (c : cloud A) (ks : list Z) : option (list (list Z)) :=
  match ks with
  | [] => Some []
  | k :: t =>
    let* bs := point_work A rg c k in
    let* w := addresses addr bs in
    let* r := point_items A rg addr c t in Some (w :: r)
  end.

Fixpoint cloud_items (A : ray_arith) (rg : ray_grid A) (address : Z -> bump -> option Z)
    (k : Z) (cs : list (cloud A)) : option (list (list Z)) :=
  match cs with
  | [] => Some []
  | c :: t =>
    let* w := point_items A rg (address k) c (zrange 0 (zlen (c_points A c))) in
    let* r := cloud_items A rg address (k + 1) t in Some (w ++ r)
  end.

(** ** Voxelization *)

(** One complete execution of a parallel loop. *)
Definition executes (p : phase occ) (g g' : grid occ) : Prop :=
  exists s, msteps ([], g, [p]) s /\ mfinished s /\ mgrid s = g'.

(** CpuPointCloudVoxelizer::DoVoxelizePointClouds, cpu .cpp:133-165: one zeroed
    tracking grid per cloud, then the filter on the output map. *)
Definition cpu_voxelize (A : ray_arith) (rg : ray_grid A) (o : filter_options)
    (clouds : list (cloud A)) (static output output' : grid occ) : Prop :=
  exists tgs,
    Forall2 (fun c t => raycast_cloud A rg c
                          (gconst (g_nx static) (g_ny static) (g_nz static) (0, 0)) t)
      clouds tgs /\
    executes (cpu_filter o tgs output) output output'.

(** DevicePointCloudVoxelizer::DoVoxelizePointClouds, device .cpp:65-181: zeroed
    counters for max(#clouds, 1) grids, all raycasting, then the filter on a copy of
    the static environment, which replaces the output.  The two device interfaces
    are the two instances below.  Failing allocations and launches, which throw, are
    not represented. *)
Definition dev_voxelize (A : ray_arith) (rg : ray_grid A)
    (address : Z -> Z -> Z -> Z -> bump -> option Z)
    (filter : list Z -> Z -> grid occ -> phase occ)
    (clouds : list (cloud A)) (static output output' : grid occ) : Prop :=
  let cells := g_total static in
  let grids := Z.max (zlen clouds) 1 in
  exists items items' mem,
    cloud_items A rg (address (g_ny static) (g_nz static) cells) 0 clouds = Some items /\
    dsteps (items, repeat 0 (Z.to_nat (2 * (cells * grids)))) (items', mem) /\
    Forall (fun w => w = []) items' /\
    executes (filter mem grids static) static output'.

Definition cuda_voxelize A rg o threads :=
  dev_voxelize A rg cuda_address (cuda_filter o threads).
Definition opencl_voxelize A rg o :=
  dev_voxelize A rg opencl_address (opencl_filter o).

(** The public entry points, interface.hpp:246-292.  [voxelize] stands for
    DoVoxelizePointClouds of a backend; the checks of the maps' sizes are the
    dimensions here (voxel sizes are not represented), and the checks for
    uninitialized maps and null clouds have no counterpart because grids and clouds
    are values.  [None] when the call throws. *)
Inductive outcome : Type := Throws | Returns (g : grid occ).

Definition voxelize_into (voxelize : grid occ -> grid occ -> grid occ -> Prop)
    (static output : grid occ) (r : outcome) : Prop :=
  if (g_nx static =? g_nx output) && (g_ny static =? g_ny output) && (g_nz static =? g_nz output)
  then exists g', voxelize static output g' /\ r = Returns g'
  else r = Throws.

(** interface.hpp:246-260: the output starts as a copy of the static environment. *)
Definition voxelize_new (voxelize : grid occ -> grid occ -> grid occ -> Prop)
    (static : grid occ) (r : outcome) : Prop :=
  voxelize_into voxelize static static r.
