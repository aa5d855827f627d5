(** Model of casting a point cloud into a tracking grid.
    CPU: /repo/src/voxelized_geometry_tools/cpu_pointcloud_voxelization.cpp.
    Devices: RaycastPoint in cuda_voxelization_helpers.cu and in
    opencl_voxelization_helpers.cc of the same directory, which run the same
    algorithm in binary32 with 32 bit indices; their lines are cited as .cu and .cc.
    Both take the origin from the last column of the transform (.cu:117-119,
    .cc:96-98), the model from the image of zero. *)
From Coq Require Import ZArith List Bool.
From Verif Require Import Util Grid Schedule.
Import ListNotations.
Local Open Scope Z_scope.

(** The arithmetic the rays are computed with: binary64 for the CPU, binary32 for
    the devices, exact reals for geometric statements.  Simplification: [r_floor]
    is floor followed by the conversion to int64 (CPU) or int32 (devices), which
    in C++ is undefined for values that do not fit; the model lets it be any
    function. *)
Record ray_arith : Type := mkRay {
  rT : Type;
  r_zero : rT; r_half : rT; r_one : rT; r_inf : rT;
  r_tiny : rT;                          (* the literal 1e-10 *)
  r_add : rT -> rT -> rT; r_sub : rT -> rT -> rT;
  r_mul : rT -> rT -> rT; r_div : rT -> rT -> rT;
  r_abs : rT -> rT;
  r_norm : rT -> rT -> rT -> rT;        (* Vector4d::norm with last entry 0 *)
  r_ltb : rT -> rT -> bool; r_leb : rT -> rT -> bool;
  r_finite : rT -> bool;                (* std::isfinite *)
  r_floor : rT -> Z; r_ofZ : Z -> rT }.

Section Ray.
Variable A : ray_arith.
Notation T := (rT A).
Notation "a +: b" := (r_add A a b) (at level 50, left associativity).
Notation "a -: b" := (r_sub A a b) (at level 50, left associativity).
Notation "a *: b" := (r_mul A a b) (at level 40, left associativity).
Notation "a /: b" := (r_div A a b) (at level 40, left associativity).

Definition vec : Type := (T * T * T)%type.
Definition vx (v : vec) : T := fst (fst v).
Definition vy (v : vec) : T := snd (fst v).
Definition vz (v : vec) : T := snd v.

(** Sizes of the tracking grid (VoxelGrid of common_robotics_utilities, uniform
    voxels): voxel counts, VoxelXSize, InverseVoxelXSize, GridSizes. *)
Record ray_grid : Type := mkRayGrid {
  rg_nx : Z; rg_ny : Z; rg_nz : Z;
  rg_voxel : T; rg_inv : T;
  rg_sx : T; rg_sy : T; rg_sz : T }.

Variable g : ray_grid.

(** LocationInGridFrameToGridIndex4d (external), written out in
    cuda_voxelization_helpers.cu:139-144. *)
Definition voxel_of (p : vec) : idx :=
  (r_floor A (vx p *: rg_inv g), r_floor A (vy p *: rg_inv g), r_floor A (vz p *: rg_inv g)).

Definition in_grid (i : idx) : bool := in_bounds3 (rg_nx g) (rg_ny g) (rg_nz g) i.

Definition vmap2 (f : T -> T -> T) (a b : vec) : vec :=
  (f (vx a) (vx b), f (vy a) (vy b), f (vz a) (vz b)).
Definition vmap (f : T -> T) (a : vec) : vec := (f (vx a), f (vy a), f (vz a)).

(** cpu_pointcloud_voxelization.cpp:217-218; devices: .cu:121-124, .cc:100-103. *)
Definition ray_of (o p : vec) : vec := vmap2 (r_sub A) p o.
Definition length_of (r : vec) : T := r_norm A (vx r) (vy r) (vz r).

(** cpu_pointcloud_voxelization.cpp:219, clipped; devices: .cu:126, .cc:105. *)
Definition is_clipped (max_range : T) (r : vec) : bool := r_ltb A max_range (length_of r).

(** cpu_pointcloud_voxelization.cpp:221-226, p_GFinal; devices: .cu:128-136, .cc:107-115. *)
Definition final_point (max_range : T) (o p : vec) : vec :=
  let r := ray_of o p in
  if is_clipped max_range r
  then vmap2 (r_add A) o (vmap (fun x => x *: (max_range /: length_of r)) r)
  else p.

(** cpu_pointcloud_voxelization.cpp:245-285, one axis of the loop: direction,
    origin and grid size of the axis; [None] is the early return.  Lines 274-277
    are kept as they are (the larger upper bound replaces tmax).  Devices:
    .cu:177-217, .cc:153-193. *)
Definition slab_axis (t : T * T) (a : T * T * T) : option (T * T) :=
  let '(tmin, tmax) := t in
  let '(dir, p, size) := a in
  if r_ltb A (r_abs A dir) (r_tiny A)
  then if r_leb A (r_zero A) p && r_ltb A p size then Some (tmin, tmax) else None
  else
    let ood := r_one A /: dir in
    let tlow := (r_zero A -: p) *: ood in
    let thigh := (size -: p) *: ood in
    let t1 := if r_leb A tlow thigh then tlow else thigh in
    let t2 := if r_leb A tlow thigh then thigh else tlow in
    let tmin' := if r_ltb A tmin t1 then t1 else tmin in
    let tmax' := if r_ltb A tmax t2 then t2 else tmax in
    if r_ltb A tmax' tmin' then None else Some (tmin', tmax').

(** cpu_pointcloud_voxelization.cpp:228-290, p_GStart; [None] is the early return.
    Devices: .cu:151-225, .cc:127-201. *)
Definition start_point (max_range : T) (o : vec) (oi : idx) (r : vec) : option vec :=
  if in_grid oi then Some o
  else
    let d := vmap (fun x => x /: length_of r) r in
    let* t := ofold slab_axis
      [(vx d, vx o, rg_sx g); (vy d, vy o, rg_sy g); (vz d, vz o, rg_sz g)]
      (r_zero A, max_range) in
    Some (vmap2 (r_add A) o (vmap (fun x => x *: (fst t +: r_tiny A)) d)).

(** cpu_pointcloud_voxelization.cpp:300-314, step_from_diff; devices: GetStepFromDiff,
    .cu:35-50, .cc:23-37. *)
Definition step_of (diff : Z) : Z :=
  if 0 <? diff then 1 else if diff <? 0 then -1 else 0.

(** cpu_pointcloud_voxelization.cpp:336-354, get_axis_t_value; devices: GetAxisTValue,
    .cu:52-71, .cc:39-57. *)
Definition axis_t (p r vmin vmax : T) : T :=
  if r_ltb A (r_zero A) r then r_abs A ((vmax -: p) /: r)
  else if r_ltb A r (r_zero A) then r_abs A ((p -: vmin) /: r)
  else r_inf A.

(** cpu_pointcloud_voxelization.cpp:323-361 on one axis: centre of the start voxel
    (GridIndexToLocationInGridFrame, external: voxel size times index plus one
    half), its corners and the first crossing time.  Devices: .cu:247-270,
    .cc:217-237. *)
Definition first_t (p r : T) (i : Z) : T :=
  let half := rg_voxel g *: r_half A in
  let c := rg_voxel g *: (r_ofZ A i +: r_half A) in
  axis_t p r (c -: half) (c +: half).

(** cpu_pointcloud_voxelization.cpp:363-365, delta_tx; devices: .cu:272-274, .cc:239-241. *)
Definition delta_t (r : T) : T := r_abs A (rg_voxel g /: r).

(** cpu_pointcloud_voxelization.cpp:389-435, the loop: the voxels whose seen-free
    count is increased, in order.  [r] is the ray, [step] the axis steps, [fin] the
    last index.  [None] stands for fuel exhaustion.  Devices: .cu:295-356,
    .cc:264-327. *)
Fixpoint walk (fuel : nat) (r : vec) (step fin cur : idx) (tx ty tz : T) : option (list idx) :=
  match fuel with
  | O => None
  | S fuel =>
    if idx_eqb cur fin then Some []
    else if in_grid cur then
      let* rest :=
        if r_leb A tx ty && r_leb A tx tz then
          if ix cur =? ix fin then Some []
          else walk fuel r step fin (ix cur + ix step, iy cur, iz cur)
                 (tx +: delta_t (vx r)) ty tz
        else if r_leb A ty tx && r_leb A ty tz then
          if iy cur =? iy fin then Some []
          else walk fuel r step fin (ix cur, iy cur + iy step, iz cur)
                 tx (ty +: delta_t (vy r)) tz
        else
          if iz cur =? iz fin then Some []
          else walk fuel r step fin (ix cur, iy cur, iz cur + iz step)
                 tx ty (tz +: delta_t (vz r)) in
      Some (cur :: rest)
    else Some []
  end.

(** Bound on the iterations of [walk]; RaycastProofs shows it suffices. *)
Definition walk_fuel (i j : idx) : nat :=
  S (Z.to_nat (Z.abs (ix i - ix j) + Z.abs (iy i - iy j) + Z.abs (iz i - iz j))).

(** One atomic increment: the cell, and whether it is the seen-filled counter. *)
Definition bump : Type := (idx * bool)%type.

(** cpu_pointcloud_voxelization.cpp:208-436, DoRaycastSinglePoint; the increments it
    performs, in order.  The early return performs none.  Devices: .cu:121-356,
    .cc:100-327. *)
Definition cast_point (max_range : T) (o : vec) (oi : idx) (p : vec) : option (list bump) :=
  let r := ray_of o p in
  let pf := final_point max_range o p in
  match start_point max_range o oi r with
  | None => Some []
  | Some ps =>
    let si := voxel_of ps in
    let fi := voxel_of pf in
    let step := (step_of (ix fi - ix si), step_of (iy fi - iy si), step_of (iz fi - iz si)) in
    let last := if in_grid fi then [(fi, negb (is_clipped max_range r))] else [] in
    let* path := walk (walk_fuel si fi) r step fi si
      (first_t (vx ps) (vx r) (ix si)) (first_t (vy ps) (vy r) (iy si))
      (first_t (vz ps) (vz r) (iz si)) in
    Some (last ++ map (fun i => (i, false)) path)
  end.

Definition vfinite (p : vec) : bool :=
  r_finite A (vx p) && r_finite A (vy p) && r_finite A (vz p).

(** cpu_pointcloud_voxelization.cpp:81-107, RaycastSinglePoint: throws ([None]) on
    non-finite input; [Some] of the increments otherwise.  The test that the grid
    is initialised is not represented. *)
Definition raycast_single_point (max_range : T) (o p : vec) : option (list bump) :=
  if vfinite o && vfinite p then cast_point max_range o (voxel_of o) p else None.

(** A point cloud as DoRaycastPointCloud sees it: its points in the cloud's frame,
    the transform X_GC into the grid frame as a function, and MaxRange.  The
    composition of the transforms is in PoseModel. *)
Record cloud : Type := mkCloud {
  c_points : list vec; c_to_grid : vec -> vec; c_max_range : T }.

(** cpu_pointcloud_voxelization.cpp:176-178, p_GCo. *)
Definition c_origin (c : cloud) : vec := c_to_grid c (r_zero A, r_zero A, r_zero A).

(** cpu_pointcloud_voxelization.cpp:186-199, the work for one point; devices:
    RaycastPoint, .cu:73-356, .cc:59-327 (test for finite coordinates .cu:97,
    .cc:76). *)
Definition point_work (c : cloud) (k : Z) : option (list bump) :=
  let* p := zget (c_points c) k in
  if vfinite p
  then cast_point (c_max_range c) (c_origin c) (voxel_of (c_origin c)) (c_to_grid c p)
  else Some [].

(** The increments of one thread, which runs its points one after the other. *)
Fixpoint thread_work (c : cloud) (ks : list Z) : option (list bump) :=
  match ks with
  | [] => Some []
  | k :: t => let* b := point_work c k in let* bs := thread_work c t in Some (b ++ bs)
  end.

End Ray.

(** The threads of the loop cpu_pointcloud_voxelization.cpp:201-205 under an
    assignment of points to threads. *)
Fixpoint cloud_threads (A : ray_arith) (g : ray_grid A) (c : cloud A) (sched : list (list Z))
    : option (list (list bump)) :=
  match sched with
  | [] => Some []
  | ks :: t =>
    let* w := thread_work A g c ks in let* ws := cloud_threads A g c t in Some (w :: ws)
  end.

(** int32_t arithmetic of std::atomic::fetch_add, which wraps around. *)
Definition wrap32 (x : Z) : Z := (x + 2 ^ 31) mod 2 ^ 32 - 2 ^ 31.

(** cpu_pointcloud_voxelization.hpp:24-32: a cell holds the seen-free and the
    seen-filled count. *)
Definition tgrid : Type := grid (Z * Z).

(** fetch_add(1) on one of the two counters of a cell, cpp lines 374, 379, 396.
    [None] stands for an access outside the grid. *)
Definition do_bump (t : tgrid) (b : bump) : option tgrid :=
  let* c := gget t (fst b) in
  Some (gset t (fst b)
    (if snd b then (fst c, wrap32 (snd c + 1)) else (wrap32 (fst c + 1), snd c))).

(** One thread performs its next atomic increment. *)
Inductive tstep : list (list bump) * tgrid -> list (list bump) * tgrid -> Prop :=
| tstep_bump l1 b k l2 t t' :
    do_bump t b = Some t' -> tstep (l1 ++ (b :: k) :: l2, t) (l1 ++ k :: l2, t').

Inductive tsteps : list (list bump) * tgrid -> list (list bump) * tgrid -> Prop :=
| tsteps_refl s : tsteps s s
| tsteps_cons s1 s2 s3 : tstep s1 s2 -> tsteps s2 s3 -> tsteps s1 s3.

Definition all_done (ws : list (list bump)) : Prop := Forall (fun w => w = []) ws.

(** One complete execution of DoRaycastPointCloud (cpp 167-206) on a tracking grid:
    some assignment of the points to threads, some interleaving, joined at the
    end. *)
Definition raycast_cloud (A : ray_arith) (g : ray_grid A) (c : cloud A) (t t' : tgrid) : Prop :=
  exists sched ws ws',
    schedules sched (zlen (c_points A c)) /\ cloud_threads A g c sched = Some ws /\
    tsteps (ws, t) (ws', t') /\ all_done ws'.
