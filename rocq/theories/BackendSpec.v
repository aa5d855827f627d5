(** Which devices can be used, stated about the environment only. *)
From Coq Require Import ZArith List Bool String.
From Verif Require Import Util BackendModel.
Import ListNotations.
Local Open Scope Z_scope.

(** The map gives [v] for [name], or has no entry and [v] is the default. *)
Definition has_option (o : options) (name : string) (default v : Z) : Prop :=
  In (name, v) o \/ (~ In name (map fst o) /\ v = default).

(** The CUDA device the options ask for exists and answers. *)
Definition cuda_usable (env : environment) (o : options) (device : Z) : Prop :=
  exists c count name,
    e_cuda env = Some c /\ cu_count c = Some count /\
    has_option o "CUDA_DEVICE" 0 device /\ 0 <= device < count /\
    cu_set c device = true /\ cu_name c device = Some name.

(** The OpenCL device the options ask for exists and builds both programs. *)
Definition opencl_usable (env : environment) (o : options) (platform device : Z) : Prop :=
  exists ps p d,
    e_opencl env = Some ps /\
    has_option o "OPENCL_PLATFORM_INDEX" 0 platform /\
    has_option o "OPENCL_DEVICE_INDEX" 0 device /\
    zget ps platform = Some p /\ zget (cp_devices p) device = Some d /\
    cd_raycasting_builds d = true /\ cd_filter_builds d = true.

(** Fewer than 2^31 platforms, and devices on each. *)
Definition small_env (env : environment) : Prop :=
  forall ps, e_opencl env = Some ps ->
    zlen ps < 2 ^ 31 /\ forall p, In p ps -> zlen (cp_devices p) < 2 ^ 31.

Definition keys_unique (o : options) : Prop := NoDup (map fst o).

(** [t] threads, given the options: one unless parallel, the number asked for if
    positive, otherwise as many as OpenMP would use. *)
Definition dispatch_threads_are (env : environment) (parallelize threads t : Z) : Prop :=
  (parallelize <= 0 -> t = 1) /\
  (0 < parallelize -> threads <= 0 -> t = e_omp_threads env) /\
  (0 < parallelize -> 0 < threads -> t = threads).
