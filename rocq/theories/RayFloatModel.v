(** Arithmetic of RaycastModel in IEEE formats, round to nearest even (Flocq): binary64 for
    cpu_pointcloud_voxelization.cpp, binary32 for the RaycastPoint kernels of
    cuda_voxelization_helpers.cu and opencl_voxelization_helpers.cc. *)
From Coq Require Import ZArith.
From Flocq Require Import Core BinarySingleNaN.
From Verif Require Import Util Grid FloatModel FilterModel RaycastModel.
Local Open Scope Z_scope.

(** cpu_pointcloud_voxelization.cpp:208-436, .cu:73-356 and .cc:59-327 in a format with the
    given precision and largest exponent.  [fl] is floor with the conversion to an index; the
    literals are the nearest numbers; the norm adds the squares in the order of the
    coordinates, as .cu:124 and .cc:103 do (Eigen may use another order).  The kernels are
    assumed to round every operation to nearest; contraction into fused operations is not
    represented. *)
Definition float_ray (prec emax : Z) (Hp : Prec_gt_0 prec) (He : Prec_lt_emax prec emax)
    (fl : binary_float prec emax -> Z) : ray_arith :=
  let lit m e := binary_normalize prec emax Hp He mode_NE m e false in
  mkRay (binary_float prec emax) (B754_zero false) (lit 1 (-1)) (lit 1 0) (B754_infinity false)
    (Bdiv mode_NE (lit 1 0) (lit 10000000000 0))
    (Bplus mode_NE) (Bminus mode_NE) (Bmult mode_NE) (Bdiv mode_NE) Babs
    (fun x y z => Bsqrt mode_NE (Bplus mode_NE (Bplus mode_NE (Bmult mode_NE x x) (Bmult mode_NE y y)) (Bmult mode_NE z z)))
    Bltb Bleb is_finite fl (fun z => lit z 0).

Definition double_ray (fl : b64 -> Z) : ray_arith := float_ray 53 1024 prec53 emax1024 fl.
Definition float32_ray (fl : b32 -> Z) : ray_arith := float_ray 24 128 prec24 emax128 fl.

(** VoxelGridSizes of a tracking grid (external), as read in
    cpu_pointcloud_voxelization.cpp:228-365: InverseVoxelXSize is 1.0 / VoxelXSize and the
    grid sizes are voxel size times count. *)
Definition double_grid (fl : b64 -> Z) (nx ny nz : Z) (res : b64) : ray_grid (double_ray fl) :=
  mkRayGrid (double_ray fl) nx ny nz res (b64_div (b64_ofZ 1) res)
    (b64_mul res (b64_ofZ nx)) (b64_mul res (b64_ofZ ny)) (b64_mul res (b64_ofZ nz)).

(** device_pointcloud_voxelization.cpp:90-105: the sizes are computed in double and cast to
    float. *)
Definition float32_grid (fl : b32 -> Z) (nx ny nz : Z) (res : b64) : ray_grid (float32_ray fl) :=
  mkRayGrid (float32_ray fl) nx ny nz (b32_of_b64 res) (b32_of_b64 (b64_div (b64_ofZ 1) res))
    (b32_of_b64 (b64_mul res (b64_ofZ nx))) (b32_of_b64 (b64_mul res (b64_ofZ ny)))
    (b32_of_b64 (b64_mul res (b64_ofZ nz))).
