(** IEEE arithmetic for RaycastModel in the executable form of the standard library
    (SpecFloat): binary64 for cpu_pointcloud_voxelization.cpp:208-436, binary32 for
    RaycastPoint in cuda_voxelization_helpers.cu:73-356 and
    opencl_voxelization_helpers.cc:59-327.  The kernels are assumed to round every
    operation to nearest; contraction into fused operations is not represented. *)
From Coq Require Import ZArith Bool SpecFloat.
From Verif Require Import RaycastModel SdfQueryArith.
Local Open Scope Z_scope.

(** std::isfinite. *)
Definition sf_finite (x : spec_float) : bool :=
  match x with S754_zero _ | S754_finite _ _ _ => true | _ => false end.

(** [prec], [emax] are the parameters of the format. *)
Definition sf_of (prec emax : Z) (z : Z) : spec_float := binary_normalize prec emax z 0 false.

(** The literals 0.5 and 1e-10 are the nearest numbers of the format.  Floor and
    conversion to an index is [sf_floor], 0 for values that are not numbers. *)
Definition sf_ray (prec emax : Z) : ray_arith :=
  mkRay spec_float (S754_zero false)
    (SFdiv prec emax (sf_of prec emax 1) (sf_of prec emax 2)) (sf_of prec emax 1)
    (S754_infinity false)
    (SFdiv prec emax (sf_of prec emax 1) (sf_of prec emax 10000000000))
    (SFadd prec emax) (SFsub prec emax) (SFmul prec emax) (SFdiv prec emax) SFabs
    (fun x y z => SFsqrt prec emax
       (SFadd prec emax (SFadd prec emax (SFmul prec emax x x) (SFmul prec emax y y))
          (SFmul prec emax z z)))
    SFltb SFleb sf_finite sf_floor (sf_of prec emax).

Definition ray64 : ray_arith := sf_ray 53 1024.
Definition ray32 : ray_arith := sf_ray 24 128.

(** A grid of [nx * ny * nz] voxels of edge 1, in either format
    (device_pointcloud_voxelization.cpp:90-98 casts the sizes to float). *)
Definition unit_grid (prec emax nx ny nz : Z) : ray_grid (sf_ray prec emax) :=
  mkRayGrid (sf_ray prec emax) nx ny nz (sf_of prec emax 1) (sf_of prec emax 1)
    (sf_of prec emax nx) (sf_of prec emax ny) (sf_of prec emax nz).

(** A location in quarters of a unit. *)
Definition quarters (prec emax : Z) (p : Z * Z * Z) : vec (sf_ray prec emax) :=
  let q z := SFdiv prec emax (sf_of prec emax z) (sf_of prec emax 4) in
  (q (fst (fst p)), q (snd (fst p)), q (snd p)).

(** A cloud seen by a sensor at [o] (in quarters) that is not rotated. *)
Definition sensor_cloud (prec emax : Z) (o : Z * Z * Z) (ps : list (vec (sf_ray prec emax)))
    (range : spec_float) : cloud (sf_ray prec emax) :=
  mkCloud (sf_ray prec emax) ps
    (vmap2 (sf_ray prec emax) (SFadd prec emax) (quarters prec emax o)) range.
