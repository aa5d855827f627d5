(** Model of the point cloud wrapper (pointcloud_voxelization_interface.hpp) and of
    the PointCloud2 wrapper (pointcloud_voxelization_ros_interface.hpp and .cpp).

    Outcomes separate returning, throwing and undefined behaviour (signed overflow,
    or an access outside an object).  A float is its 32 bit pattern. *)
From Coq Require Import ZArith List Bool String.
From Verif Require Import Util SerialModel.
Import ListNotations.
Local Open Scope Z_scope.

(** The exception classes thrown by the modelled functions. *)
Inductive exn : Type := OutOfRange | InvalidArgument | RuntimeError.

(** Result of a C++ call. *)
Inductive res (A : Type) : Type :=
| Ret (a : A)
| Throw (e : exn)
| Undefined.
Arguments Ret {A}. Arguments Throw {A}. Arguments Undefined {A}.

Definition rbind {A B} (r : res A) (f : A -> res B) : res B :=
  match r with Ret a => f a | Throw e => Throw e | Undefined => Undefined end.
Notation "'let!' x ':=' a 'in' b" := (rbind a (fun x => b))
  (at level 200, x pattern, a at level 100, b at level 200).

Definition int64_max : Z := 2 ^ 63 - 1.

(** ** PointCloudWrapper *)

(** pointcloud_voxelization_interface.hpp:95-201.  The virtual members used below:
    [Size] and the [...PtrImpl] that writes three elements.  [impl] gives the three
    elements it writes (for any subclass; PointCloud2 is [pc2_cloud] below). *)
Record cloud (T : Type) : Type := mkCloud {
  cl_size : Z;
  cl_impl : Z -> res (T * T * T) }.
Arguments mkCloud {T}. Arguments cl_size {T}. Arguments cl_impl {T}.

(** EnforcePointIndexInRange, pointcloud_voxelization_interface.hpp:175-181. *)
Definition enforce_point_index {T} (c : cloud T) (point_index : Z) : res unit :=
  if (point_index <? 0) || (cl_size c <=? point_index) then Throw OutOfRange else Ret tt.

(** EnforceVectorIndexInRange, pointcloud_voxelization_interface.hpp:183-192.  The sum
    [vector_index + 3] is evaluated only for non-negative indices and is undefined
    behaviour when it exceeds the range of int64_t. *)
Definition enforce_vector_index {T} (vector_index : Z) (destination : list T) : res unit :=
  if vector_index <? 0 then Throw OutOfRange
  else if int64_max <? vector_index + 3 then Undefined
  else if zlen destination <? vector_index + 3 then Throw OutOfRange
  else Ret tt.

(** CopyPointLocationIntoDoublePtr / FloatPtr,
    pointcloud_voxelization_interface.hpp:161-173: the three elements written. *)
Definition copy_into_ptr {T} (c : cloud T) (point_index : Z) : res (T * T * T) :=
  let! _ := enforce_point_index c point_index in
  cl_impl c point_index.

(** A write of one element through [vector.data() + i]: outside of the vector it is
    undefined behaviour. *)
Definition store {T} (l : list T) (i : Z) (v : T) : res (list T) :=
  match zset l i v with Some l' => Ret l' | None => Undefined end.

(** CopyPointLocationIntoVectorDouble / VectorFloat,
    pointcloud_voxelization_interface.hpp:145-159. *)
Definition copy_into_vector {T} (c : cloud T) (point_index : Z) (vector : list T)
    (vector_index : Z) : res (list T) :=
  let! _ := enforce_vector_index vector_index vector in
  let! (x, y, z) := copy_into_ptr c point_index in
  let! v1 := store vector vector_index x in
  let! v2 := store v1 (vector_index + 1) y in
  store v2 (vector_index + 2) z.

(** CopyPointLocationIntoVector4d / Vector4f and GetPointLocationVector4d / Vector4f,
    pointcloud_voxelization_interface.hpp:117-143; [one] is the constant 1. *)
Definition point_vector4 {T} (one : T) (c : cloud T) (point_index : Z)
  : res (T * T * T * T) :=
  let! (x, y, z) := copy_into_ptr c point_index in
  Ret (x, y, z, one).

(** DevicePointCloudVoxelizer::DoVoxelizePointClouds, the copy of the whole cloud into
    [raw_points], device_pointcloud_voxelization.cpp:131-139. *)
Fixpoint copy_loop {T} (c : cloud T) (points : list Z) (raw : list T) : res (list T) :=
  match points with
  | [] => Ret raw
  | point :: rest =>
      let! raw' := copy_into_vector c point raw (point * 3) in
      copy_loop c rest raw'
  end.
Definition copy_cloud {T} (zero : T) (c : cloud T) : res (list T) :=
  copy_loop c (zrange 0 (cl_size c)) (repeat zero (Z.to_nat (cl_size c * 3))).

(** ** PointCloud2Wrapper *)

(** sensor_msgs/PointField: name, offset (uint32), datatype (uint8); [count] is not
    read by the code. *)
Record field : Type := mkField { f_name : string; f_offset : Z; f_datatype : Z }.

(** sensor_msgs/PointCloud2: height, width, fields, is_bigendian, point_step,
    row_step (uint32) and data.  The code does not read [is_bigendian], [row_step],
    [header] or [is_dense]; the first two are kept because the meaning of a message
    depends on them. *)
Record pc2 : Type := mkPc2 {
  m_height : Z; m_width : Z; m_fields : list field; m_bigendian : bool;
  m_point_step : Z; m_row_step : Z; m_data : bytes }.

(** std::map filled in order by operator[], so that the last entry with a name wins;
    pointcloud_voxelization_ros_interface.cpp:44-50. *)
Fixpoint last_field (name : string) (l : list field) (acc : option field) : option field :=
  match l with
  | [] => acc
  | f :: r => last_field name r (if String.eqb (f_name f) name then Some f else acc)
  end.

(** std::map::at on the maps of types and offsets. *)
Definition field_at (name : string) (l : list field) : res field :=
  match last_field name l None with Some f => Ret f | None => Throw OutOfRange end.

(** PointField::FLOAT32. *)
Definition float32 : Z := 7.
(** size_t arithmetic. *)
Definition szt (z : Z) : Z := z mod 2 ^ 64.

Definition check_type (f : field) : res unit :=
  if f_datatype f =? float32 then Ret tt else Throw InvalidArgument.

(** PointCloud2Wrapper::PointCloud2Wrapper,
    pointcloud_voxelization_ros_interface.cpp:30-79.  [m] is [None] for a null pointer;
    [range_le_zero] is the truth value of [max_range_ <= 0.0].  Returns the byte offset
    of x inside a point (xyz_offset_from_point_start_). *)
Definition pc2_make (m : option pc2) (range_le_zero : bool) : res Z :=
  match m with
  | None => Throw InvalidArgument
  | Some m =>
      if range_le_zero then Throw RuntimeError
      else
        let! fx := field_at "x" (m_fields m) in
        let! _ := check_type fx in
        let! fy := field_at "y" (m_fields m) in
        let! _ := check_type fy in
        let! fz := field_at "z" (m_fields m) in
        let! _ := check_type fz in
        if (szt (f_offset fz - f_offset fy) =? 4) && (szt (f_offset fy - f_offset fx) =? 4)
        then Ret (f_offset fx)
        else Throw InvalidArgument
  end.

(** Size, pointcloud_voxelization_ros_interface.hpp:44-47: a product of two uint32_t. *)
Definition pc2_size (m : pc2) : Z := (m_width m * m_height m) mod 2 ^ 32.

(** GetStartingOffsetForPointXYZ, pointcloud_voxelization_ros_interface.hpp:84-91. *)
Definition pc2_start (m : pc2) (xyz_offset point_index : Z) : Z :=
  szt (szt (point_index * m_point_step m) + xyz_offset).

(** std::memcpy of three floats from [&data[start]]; reading past the end of the
    data is undefined behaviour.  Words are stored least significant byte first (the
    hosts supported by the library). *)
Definition read_words3 (data : bytes) (start : Z) : res (Z * Z * Z) :=
  match de_word 4 data start, de_word 4 data (start + 4), de_word 4 data (start + 8) with
  | Some (x, _), Some (y, _), Some (z, _) => Ret (x, y, z)
  | _, _, _ => Undefined
  end.

(** CopyPointLocationIntoFloatPtrImpl,
    pointcloud_voxelization_ros_interface.hpp:76-82: data.at checks the first byte. *)
Definition pc2_float_impl (m : pc2) (xyz_offset point_index : Z) : res (Z * Z * Z) :=
  let start := pc2_start m xyz_offset point_index in
  match zget (m_data m) start with
  | None => Throw OutOfRange
  | Some _ => read_words3 (m_data m) start
  end.

Definition pc2_cloud (m : pc2) (xyz_offset : Z) : cloud Z :=
  mkCloud (pc2_size m) (pc2_float_impl m xyz_offset).

(** CopyPointLocationIntoDoublePtrImpl,
    pointcloud_voxelization_ros_interface.hpp:68-74: through GetPointLocationVector4f;
    [cast] is the conversion of a float to double. *)
Definition pc2_double_impl {D} (cast : Z -> D) (m : pc2) (xyz_offset point_index : Z)
  : res (D * D * D) :=
  let! (x, y, z, _) := point_vector4 1065353216 (pc2_cloud m xyz_offset) point_index in
  Ret (cast x, cast y, cast z).

Definition pc2_double_cloud {D} (cast : Z -> D) (m : pc2) (xyz_offset : Z) : cloud D :=
  mkCloud (pc2_size m) (pc2_double_impl cast m xyz_offset).
