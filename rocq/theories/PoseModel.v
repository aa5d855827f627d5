(** Poses of the grid and of the sensors, and the point clouds they place in the grid.

    Sources: /repo/src/voxelized_geometry_tools/cpu_pointcloud_voxelization.cpp,
    device_pointcloud_voxelization.cpp, cuda_voxelization_helpers.cu and
    opencl_voxelization_helpers.cc. *)
From Coq Require Import ZArith List.
From Flocq Require Import Core BinarySingleNaN.
From Verif Require Import Util Grid FloatModel FilterModel RaycastModel RayFloatModel.
Local Open Scope Z_scope.

(** Eigen::Isometry3d and Isometry3f: the rows of the linear part, and the translation. *)
Record pose (A : ray_arith) : Type := mkPose {
  po_x : vec A; po_y : vec A; po_z : vec A; po_t : vec A }.

Section Pose.
Variable A : ray_arith.

(** One coordinate of a product with the linear part, added from left to right as in
    .cu:104-117 and .cc:82-92; the order in which Eigen adds is assumed to be the same. *)
Definition dot3 (a b : vec A) : rT A :=
  r_add A (r_add A (r_mul A (vx A a) (vx A b)) (r_mul A (vy A a) (vy A b))) (r_mul A (vz A a) (vz A b)).

(** X * p, cpu_pointcloud_voxelization.cpp:178,198 (fourth coordinate 1), .cu:103-117 and
    .cc:81-93. *)
Definition pose_apply (X : pose A) (p : vec A) : vec A :=
  (r_add A (dot3 (po_x A X) p) (vx A (po_t A X)), r_add A (dot3 (po_y A X) p) (vy A (po_t A X)),
   r_add A (dot3 (po_z A X) p) (vz A (po_t A X))).

(** X * Y, cpu_pointcloud_voxelization.cpp:176 and device_pointcloud_voxelization.cpp:121:
    the linear parts are multiplied, and X is applied to the translation of Y. *)
Definition row_times (a : vec A) (Y : pose A) : vec A :=
  (dot3 a (vx A (po_x A Y), vx A (po_y A Y), vx A (po_z A Y)),
   dot3 a (vy A (po_x A Y), vy A (po_y A Y), vy A (po_z A Y)),
   dot3 a (vz A (po_x A Y), vz A (po_y A Y), vz A (po_z A Y))).
Definition pose_mul (X Y : pose A) : pose A :=
  mkPose A (row_times (po_x A X) Y) (row_times (po_y A X) Y) (row_times (po_z A X) Y) (pose_apply X (po_t A Y)).
End Pose.

(** PointCloudWrapper, pointcloud_voxelization_interface.hpp:95-201, as the voxelizers read
    it: PointCloudOriginTransform, the locations as double and as float (NaN and infinity
    mark invalid points), and MaxRange. *)
Record wrapped (fl : b64 -> Z) (fl32 : b32 -> Z) : Type := mkWrapped {
  w_pose : pose (double_ray fl);
  w_double : list (vec (double_ray fl));
  w_float : list (vec (float32_ray fl32));
  w_range : b64 }.

Section Clouds.
Variable fl : b64 -> Z.
Variable fl32 : b32 -> Z.

(** cpu_pointcloud_voxelization.cpp:171-199.  [gw] is InverseOriginTransform of the grid,
    computed by VoxelGridBase (external). *)
Definition cpu_cloud (gw : pose (double_ray fl)) (c : wrapped fl fl32) : cloud (double_ray fl) :=
  mkCloud (double_ray fl) (w_double _ _ c) (pose_apply _ (pose_mul _ gw (w_pose _ _ c))) (w_range _ _ c).

(** signed_distance_field.hpp:320-321, the query location in the frame of the grid;
    LocationToGridIndex4d (external) computes the same product.  Simplification: the fourth
    coordinate is 1, as all overloads but the one for Vector4d make it (:808-818). *)
Definition locate (gw : pose (double_ray fl)) (p : (b64 * b64 * b64) * b64) : b64 * b64 * b64 :=
  pose_apply (double_ray fl) gw (fst p).

(** .cast<float>(), device_pointcloud_voxelization.cpp:121. *)
Definition cast_vec (v : vec (double_ray fl)) : vec (float32_ray fl32) :=
  (b32_of_b64 (vx _ v), b32_of_b64 (vy _ v), b32_of_b64 (vz _ v)).
Definition cast_pose (X : pose (double_ray fl)) : pose (float32_ray fl32) :=
  mkPose (float32_ray fl32) (cast_vec (po_x _ X)) (cast_vec (po_y _ X)) (cast_vec (po_z _ X)) (cast_vec (po_t _ X)).

(** device_pointcloud_voxelization.cpp:114-139, .cu:88-117 and .cc:68-93.  The kernels
    read the origin of the cloud from the translation (.cu:120-122, .cc:96-98); here the
    transform is applied to zero as on the CPU, which differs in the sign of a zero only
    (theorem [c90_origin]). *)
Definition dev_cloud (gw : pose (double_ray fl)) (c : wrapped fl fl32) : cloud (float32_ray fl32) :=
  mkCloud (float32_ray fl32) (w_float _ _ c) (pose_apply _ (cast_pose (pose_mul _ gw (w_pose _ _ c))))
    (b32_of_b64 (w_range _ _ c)).
End Clouds.
