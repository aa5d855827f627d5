(** Model of the selection and construction of point cloud voxelizers
    (pointcloud_voxelization.cpp, the constructors of the voxelizers and of the CUDA and
    OpenCL helpers).

    The devices are an environment: what the CUDA runtime and the OpenCL loader report.
    It is the same for every call (devices do not come and go).  Logging functions are
    not modelled (assumed not to throw); they do not influence the results. *)
From Coq Require Import ZArith List Bool String.
From Verif Require Import Util PointCloudModel.
Import ListNotations.
Local Open Scope Z_scope.

(** ** Environment *)

(** CUDA runtime: cudaGetDeviceCount ([None]: it fails), cudaSetDevice (whether it
    succeeds) and cudaGetDeviceProperties (the name, [None]: it fails). *)
Record cuda_env : Type := mkCudaEnv {
  cu_count : option Z; cu_set : Z -> bool; cu_name : Z -> option string }.

(** OpenCL: platforms, their devices, and whether each of the two kernel programs
    builds for a device. *)
Record cl_device : Type := mkClDevice {
  cd_name : string; cd_raycasting_builds : bool; cd_filter_builds : bool }.
Record cl_platform : Type := mkClPlatform {
  cp_name : string; cp_vendor : string; cp_devices : list cl_device }.

(** [None] for CUDA or OpenCL: the feature was not built (dummy helpers).
    [e_omp_threads] is the result of DegreeOfParallelism::FromOmp. *)
Record environment : Type := mkEnv {
  e_cuda : option cuda_env;
  e_opencl : option (list cl_platform);
  e_omp_enabled : bool;
  e_omp_threads : Z }.

(** std::map<std::string, int32_t>. *)
Definition options : Type := list (string * Z).

(** std::map::find. *)
Fixpoint opt_find (o : options) (name : string) : option Z :=
  match o with
  | [] => None
  | (k, v) :: r => if String.eqb k name then Some v else opt_find r name
  end.

(** RetrieveOptionOrDefault, device_voxelization_interface.hpp:44-70. *)
Definition retrieve (o : options) (name : string) (default : Z) : Z :=
  match opt_find o name with Some v => v | None => default end.

(** ** Voxelizers *)

(** A constructed voxelizer: its class and configuration. *)
Inductive voxelizer : Type :=
| VCpu (threads : Z)
| VCuda (dispatch_threads device threads_per_block : Z)
| VOpenCL (dispatch_threads platform device : Z).

(** The degree of parallelism computed in the constructors,
    cpu_pointcloud_voxelization.cpp:33-64 and device_pointcloud_voxelization.cpp:31-62;
    DegreeOfParallelism::None() is one thread. *)
Definition parallelism (env : environment) (parallelize threads : Z) : Z :=
  if (0 <? parallelize) && (1 <=? threads) then threads
  else if 0 <? parallelize then e_omp_threads env
  else 1.

(** CpuPointCloudVoxelizer, cpu_pointcloud_voxelization.cpp:29-65. *)
Definition cpu_voxelizer (env : environment) (o : options) : res voxelizer :=
  Ret (VCpu (parallelism env (retrieve o "CPU_PARALLELIZE" 1) (retrieve o "CPU_NUM_THREADS" (-1)))).

(** DevicePointCloudVoxelizer, device_pointcloud_voxelization.cpp:27-63. *)
Definition dispatch_parallelism (env : environment) (o : options) : Z :=
  parallelism env (retrieve o "DISPATCH_PARALLELIZE" 1) (retrieve o "DISPATCH_NUM_THREADS" (-1)).

(** kDefaultThreadsPerBlock, cuda_voxelization_helpers.cu. *)
Definition default_threads_per_block : Z := 256.

(** CudaVoxelizationHelperInterface, cuda_voxelization_helpers.cu:562-635: threads per
    block and device number; the device number is -1 when the device is out of range or
    a CUDA call fails (the runtime_error is caught). *)
Definition cuda_helper (c : cuda_env) (o : options) : Z * Z :=
  let requested := retrieve o "CUDA_THREADS_PER_BLOCK" (-1) in
  let threads := if 0 <? requested then requested else default_threads_per_block in
  let device := retrieve o "CUDA_DEVICE" 0 in
  (threads,
   match cu_count c with
   | None => -1
   | Some count =>
       if (0 <=? device) && (device <? count) then
         if cu_set c device then
           match cu_name c device with Some _ => device | None => -1 end
         else -1
       else -1
   end).

(** CudaPointCloudVoxelizer, device_pointcloud_voxelization.cpp:183-192, with
    EnforceAvailable (device_pointcloud_voxelization.hpp:34-46) and IsAvailable
    (cuda_voxelization_helpers.cu:637). *)
Definition cuda_voxelizer (env : environment) (o : options) : res voxelizer :=
  match e_cuda env with
  | None => Throw RuntimeError
  | Some c =>
      let '(threads, device) := cuda_helper c o in
      if 0 <=? device then Ret (VCuda (dispatch_parallelism env o) device threads)
      else Throw RuntimeError
  end.

(** static_cast<int32_t> of a size_t. *)
Definition int32 (z : Z) : Z := (z + 2 ^ 31) mod 2 ^ 32 - 2 ^ 31.

(** OpenCLVoxelizationHelperInterface, opencl_voxelization_helpers.cc:455-585: the
    platform, the device and whether each program was kept; [None] when no context was
    made.  Creation of context and queue is assumed to return objects. *)
Definition opencl_helper (platforms : list cl_platform) (o : options)
  : option (Z * Z * bool * bool) :=
  let platform_index := retrieve o "OPENCL_PLATFORM_INDEX" 0 in
  if (0 <? zlen platforms) && (0 <=? platform_index) && (platform_index <? int32 (zlen platforms)) then
    let* platform := zget platforms platform_index in
    let devices := cp_devices platform in
    let device_index := retrieve o "OPENCL_DEVICE_INDEX" 0 in
    if (0 <? zlen devices) && (0 <=? device_index) && (device_index <? int32 (zlen devices)) then
      let* device := zget devices device_index in
      Some (platform_index, device_index, cd_raycasting_builds device, cd_filter_builds device)
    else None
  else None.

(** OpenCLPointCloudVoxelizer, device_pointcloud_voxelization.cpp:194-203, with
    IsAvailable (opencl_voxelization_helpers.cc:587-590). *)
Definition opencl_voxelizer (env : environment) (o : options) : res voxelizer :=
  match e_opencl env with
  | None => Throw RuntimeError
  | Some platforms =>
      match opencl_helper platforms o with
      | Some (p, d, true, true) => Ret (VOpenCL (dispatch_parallelism env o) p d)
      | _ => Throw RuntimeError
      end
  end.

(** try { return make(); } catch (const std::runtime_error&) { continue with [next] }.
    std::out_of_range and std::invalid_argument are not runtime errors. *)
Definition try_else {A} (r next : res A) : res A :=
  match r with Throw RuntimeError => next | other => other end.

(** MakeBestAvailablePointCloudVoxelizer, pointcloud_voxelization.cpp:92-147. *)
Definition make_best (env : environment) (o : options) : res voxelizer :=
  try_else (cuda_voxelizer env o)
    (try_else (opencl_voxelizer env o)
      (try_else (cpu_voxelizer env o) (Throw RuntimeError))).

(** BackendOptions, pointcloud_voxelization.hpp:18-21; the enumeration is passed as its
    integer value. *)
Definition BEST_AVAILABLE : Z := 0.
Definition CPU : Z := 1.
Definition OPENCL : Z := 2.
Definition CUDA : Z := 3.

(** MakePointCloudVoxelizer, pointcloud_voxelization.cpp:55-83. *)
Definition make_voxelizer (env : environment) (backend : Z) (o : options) : res voxelizer :=
  if backend =? BEST_AVAILABLE then make_best env o
  else if backend =? CPU then cpu_voxelizer env o
  else if backend =? OPENCL then opencl_voxelizer env o
  else if backend =? CUDA then cuda_voxelizer env o
  else Throw InvalidArgument.

(** AvailableBackend, pointcloud_voxelization.hpp:24-52. *)
Record backend : Type := mkBackend { b_name : string; b_options : options; b_option : Z }.

(** MakePointCloudVoxelizer(AvailableBackend), pointcloud_voxelization.cpp:85-90. *)
Definition make_available (env : environment) (b : backend) : res voxelizer :=
  make_voxelizer env (b_option b) (b_options b).

(** ** Listing *)

(** cuda_helpers::GetAvailableDevices, the loop of
    cuda_voxelization_helpers.cu:802-817: the exception for a device without properties
    ends the loop and the devices before it stay listed. *)
Fixpoint cuda_list (c : cuda_env) (indices : list Z) : list backend :=
  match indices with
  | [] => []
  | i :: r =>
      match cu_name c i with
      | None => []
      | Some name =>
          mkBackend ("CUDA - Device: [" ++ name ++ "]") [("CUDA_DEVICE"%string, i)] CUDA
          :: cuda_list c r
      end
  end.

(** cuda_helpers::GetAvailableDevices, cuda_voxelization_helpers.cu:791-822 (and the
    dummy, which lists nothing). *)
Definition cuda_devices (env : environment) : list backend :=
  match e_cuda env with
  | None => []
  | Some c => match cu_count c with None => [] | Some n => cuda_list c (zrange 0 n) end
  end.

(** [l] with the index of each element. *)
Fixpoint indexed {A} (l : list A) (i : Z) : list (Z * A) :=
  match l with [] => [] | x :: r => (i, x) :: indexed r (i + 1) end.

(** opencl_helpers::GetAvailableDevices, opencl_voxelization_helpers.cc:816-856 (and
    the dummy). *)
Definition opencl_devices (env : environment) : list backend :=
  match e_opencl env with
  | None => []
  | Some platforms =>
      flat_map (fun '(p, platform) =>
        map (fun '(d, device) =>
          mkBackend ("OpenCL - Platform name: [" ++ cp_name platform ++ "] Vendor: ["
                     ++ cp_vendor platform ++ "] Device: [" ++ cd_name device ++ "]")
            [("OPENCL_DEVICE_INDEX"%string, int32 d); ("OPENCL_PLATFORM_INDEX"%string, int32 p)] OPENCL)
          (indexed (cp_devices platform) 0))
        (indexed platforms 0)
  end.

(** GetAvailableBackends, pointcloud_voxelization.cpp:18-53. *)
Definition available_backends (env : environment) : list backend :=
  cuda_devices env ++ opencl_devices env ++
  [mkBackend (if e_omp_enabled env then "CPU/OpenMP (parallel)" else "CPU/async (parallel)")
     [("CPU_PARALLELIZE"%string, 1)] CPU;
   mkBackend "CPU (serial)" [("CPU_PARALLELIZE"%string, 0)] CPU].
