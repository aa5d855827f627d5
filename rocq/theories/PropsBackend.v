(** Properties C55 and C67: selection, listing and construction of voxelizers. *)
From Coq Require Import ZArith List Bool Lia String.
From Verif Require Import Util PointCloudModel BackendModel BackendSpec BackendProofs.
Import ListNotations.
Local Open Scope Z_scope.

(** A machine with one CUDA device that answers and two OpenCL devices, the second of
    which cannot build the filter program. *)
Definition workstation : environment :=
  mkEnv (Some (mkCudaEnv (Some 1) (fun d => d =? 0) (fun d => if d =? 0 then Some "a"%string else None)))
    (Some [mkClPlatform "p" "v" [mkClDevice "b" true true; mkClDevice "c" true false]])
    true 8.

Example workstation_small : small_env workstation.
Proof. intros ps [= <-]. split; [cbn; lia|]. intros p [<-|[]]. cbn. lia. Qed.

(** ** C55: the best available voxelizer *)

(** The best available voxelizer always exists; it is the CUDA voxelizer on the device
    the options ask for if that device works, otherwise the OpenCL voxelizer on the
    device the options ask for if that works, otherwise the CPU voxelizer. *)
Theorem c55_best :
  forall env o, keys_unique o -> small_env env ->
  exists v, make_voxelizer env BEST_AVAILABLE o = Ret v /\
  match v with
  | VCuda _ d _ => cuda_usable env o d
  | VOpenCL _ p d => opencl_usable env o p d /\ ~ (exists d', cuda_usable env o d')
  | VCpu _ => ~ (exists d, cuda_usable env o d) /\ ~ (exists p d, opencl_usable env o p d)
  end.
Proof.
  intros env o N S. change (make_voxelizer env BEST_AVAILABLE o) with (make_best env o).
  unfold make_best. pose proof (cuda_ctor_inv env o N) as C.
  destruct (cuda_voxelizer env o) as [v|e|]; [| |contradiction].
  - destruct C as (d & b & -> & U). eexists. split; [reflexivity|exact U].
  - destruct C as (-> & NC). cbn [try_else].
    pose proof (opencl_ctor_inv env o N S) as L.
    destruct (opencl_voxelizer env o) as [v|e|]; [| |contradiction].
    + destruct L as (p & d & -> & U). eexists. split; [reflexivity|exact (conj U NC)].
    + destruct L as (-> & NL). cbn [try_else cpu_voxelizer]. eexists. split; [reflexivity|exact (conj NC NL)].
Qed.
Print Assumptions c55_best.

(** Asking for one backend gives it on the device of the options, or a runtime error;
    CPU voxelizers can always be made; other values of the enumeration are rejected. *)
Theorem c55_explicit :
  forall env o, keys_unique o -> small_env env ->
  (forall d, cuda_usable env o d -> exists t b, make_voxelizer env CUDA o = Ret (VCuda t d b)) /\
  (~ (exists d, cuda_usable env o d) -> make_voxelizer env CUDA o = Throw RuntimeError) /\
  (forall p d, opencl_usable env o p d -> exists t, make_voxelizer env OPENCL o = Ret (VOpenCL t p d)) /\
  (~ (exists p d, opencl_usable env o p d) -> make_voxelizer env OPENCL o = Throw RuntimeError) /\
  (exists t, make_voxelizer env CPU o = Ret (VCpu t)) /\
  (forall backend, ~ In backend [BEST_AVAILABLE; CPU; OPENCL; CUDA] ->
     make_voxelizer env backend o = Throw InvalidArgument).
Proof.
  intros env o N S. pose proof (cuda_ctor_inv env o N) as C. pose proof (opencl_ctor_inv env o N S) as L.
  change (make_voxelizer env CUDA o) with (cuda_voxelizer env o).
  change (make_voxelizer env OPENCL o) with (opencl_voxelizer env o).
  change (make_voxelizer env CPU o) with (cpu_voxelizer env o).
  split; [intros d U; destruct (cuda_ctor env o d N U) as (b & -> & _); eauto|].
  split.
  { intros H. destruct (cuda_voxelizer env o) as [v|e|]; [|now destruct C as (-> & _)|contradiction].
    destruct C as (d & b & _ & U). exfalso. apply H. now exists d. }
  split; [intros p d U; rewrite (opencl_ctor env o p d N S U); eauto|].
  split.
  { intros H. destruct (opencl_voxelizer env o) as [v|e|]; [|now destruct L as (-> & _)|contradiction].
    destruct L as (p & d & _ & U). exfalso. apply H. now exists p, d. }
  split; [eexists; reflexivity|].
  intros b B. unfold make_voxelizer. cbn [In] in B.
  destruct (Z.eqb_spec b BEST_AVAILABLE); [intuition congruence|].
  destruct (Z.eqb_spec b CPU); [intuition congruence|].
  destruct (Z.eqb_spec b OPENCL); [intuition congruence|].
  destruct (Z.eqb_spec b CUDA); [intuition congruence|reflexivity].
Qed.
Print Assumptions c55_explicit.

(** Number of CPU threads: what the options say. *)
Theorem c55_threads :
  forall env o parallelize threads, keys_unique o ->
  has_option o "CPU_PARALLELIZE" 1 parallelize -> has_option o "CPU_NUM_THREADS" (-1) threads ->
  (parallelize <= 0 -> make_voxelizer env CPU o = Ret (VCpu 1)) /\
  (0 < parallelize -> threads <= 0 -> make_voxelizer env CPU o = Ret (VCpu (e_omp_threads env))) /\
  (0 < parallelize -> 0 < threads -> make_voxelizer env CPU o = Ret (VCpu threads)).
Proof.
  intros env o a n N A T. apply (retrieve_spec _ _ _ _ N) in A. apply (retrieve_spec _ _ _ _ N) in T.
  change (make_voxelizer env CPU o) with (cpu_voxelizer env o). unfold cpu_voxelizer, parallelism.
  rewrite A, T.
  destruct (Z.ltb_spec 0 a), (Z.leb_spec 1 n); cbn [andb]; repeat split; intros; (reflexivity || lia).
Qed.
Print Assumptions c55_threads.

(** Number of threads that dispatch to a device, and of CUDA threads per block: what
    the options say, whichever way the voxelizer was made. *)
Theorem c55_device_threads :
  forall env o backend v parallelize threads block, keys_unique o -> small_env env ->
  has_option o "DISPATCH_PARALLELIZE" 1 parallelize -> has_option o "DISPATCH_NUM_THREADS" (-1) threads ->
  has_option o "CUDA_THREADS_PER_BLOCK" (-1) block ->
  make_voxelizer env backend o = Ret v ->
  match v with
  | VCpu _ => True
  | VCuda t _ b => dispatch_threads_are env parallelize threads t /\
      ((0 < block /\ b = block) \/ (block <= 0 /\ b = 256))
  | VOpenCL t _ _ => dispatch_threads_are env parallelize threads t
  end.
Proof.
  intros env o backend v a n b N S A T B M.
  assert (P : dispatch_threads_are env a n (dispatch_parallelism env o)).
  { apply (retrieve_spec _ _ _ _ N) in A. apply (retrieve_spec _ _ _ _ N) in T.
    unfold dispatch_parallelism, parallelism, dispatch_threads_are. rewrite A, T.
    destruct (Z.ltb_spec 0 a), (Z.leb_spec 1 n); cbn [andb]; intuition lia. }
  assert (C : forall w, cuda_voxelizer env o = Ret w -> match w with
    | VCuda t _ c => dispatch_threads_are env a n t /\ ((0 < b /\ c = b) \/ (b <= 0 /\ c = 256))
    | _ => False end).
  { intros w. unfold cuda_voxelizer. destruct (e_cuda env) as [c|]; [|discriminate].
    unfold cuda_helper. apply (retrieve_spec _ _ _ _ N) in B. rewrite B.
    match goal with |- (if ?x then _ else _) = _ -> _ => destruct x; [|discriminate] end.
    intros [= <-]. split; [exact P|]. unfold default_threads_per_block. destruct (Z.ltb_spec 0 b); [left|right]; lia. }
  assert (L : forall w, opencl_voxelizer env o = Ret w -> match w with
    | VOpenCL t _ _ => dispatch_threads_are env a n t
    | _ => False end).
  { intros w. unfold opencl_voxelizer. destruct (e_opencl env); [|discriminate].
    destruct (opencl_helper l o) as [[[[p d] [|]] [|]]|]; try discriminate. intros [= <-]. exact P. }
  unfold make_voxelizer in M.
  destruct (backend =? BEST_AVAILABLE).
  { unfold make_best, try_else in M.
    destruct (cuda_voxelizer env o) as [w|[]|]; try discriminate.
    - injection M as <-. specialize (C w eq_refl). destruct w; tauto.
    - destruct (opencl_voxelizer env o) as [w|[]|]; try discriminate.
      + injection M as <-. specialize (L w eq_refl). destruct w; tauto.
      + unfold cpu_voxelizer in M. injection M as <-. exact I. }
  destruct (backend =? CPU); [unfold cpu_voxelizer in M; injection M as <-; exact I|].
  destruct (backend =? OPENCL); [apply L in M; destruct v; tauto|].
  destruct (backend =? CUDA); [apply C in M; destruct v; tauto|discriminate].
Qed.
Print Assumptions c55_device_threads.

Example c55_best_cases :
  make_voxelizer workstation BEST_AVAILABLE [] = Ret (VCuda 8 0 256) /\
  make_voxelizer workstation BEST_AVAILABLE [("CUDA_DEVICE"%string, 1)] = Ret (VOpenCL 8 0 0) /\
  make_voxelizer workstation BEST_AVAILABLE
    [("CUDA_DEVICE"%string, 1); ("OPENCL_DEVICE_INDEX"%string, 1)] = Ret (VCpu 8).
Proof. vm_compute. auto. Qed.

Example c55_explicit_case :
  cuda_usable workstation [] 0 /\ opencl_usable workstation [] 0 0 /\
  keys_unique [("CPU_NUM_THREADS"%string, 3)] /\
  make_voxelizer workstation CPU [("CPU_NUM_THREADS"%string, 3)] = Ret (VCpu 3) /\
  make_voxelizer workstation CPU [("CPU_PARALLELIZE"%string, 0); ("CPU_NUM_THREADS"%string, 3)]
    = Ret (VCpu 1).
Proof.
  split; [|split; [|split; [apply keys1|split; reflexivity]]].
  - eexists _, _, _. split; [reflexivity|]. split; [reflexivity|].
    split; [right; cbn; tauto|]. split; [lia|]. split; reflexivity.
  - eexists _, _, _. split; [reflexivity|].
    split; [right; cbn; tauto|]. split; [right; cbn; tauto|].
    split; [reflexivity|]. split; [reflexivity|]. split; reflexivity.
Qed.

Example c55_device_threads_case :
  keys_unique [("DISPATCH_NUM_THREADS"%string, 3)] /\ small_env workstation /\
  has_option [("DISPATCH_NUM_THREADS"%string, 3)] "DISPATCH_PARALLELIZE" 1 1 /\
  has_option [("DISPATCH_NUM_THREADS"%string, 3)] "DISPATCH_NUM_THREADS" (-1) 3 /\
  has_option [("DISPATCH_NUM_THREADS"%string, 3)] "CUDA_THREADS_PER_BLOCK" (-1) (-1) /\
  make_voxelizer workstation BEST_AVAILABLE [("DISPATCH_NUM_THREADS"%string, 3)] = Ret (VCuda 3 0 256).
Proof.
  split; [repeat constructor; intros []|]. split; [exact workstation_small|].
  split; [right; split; [intros [H|[]]; discriminate|reflexivity]|]. split; [left; now left|].
  split; [right; split; [intros [H|[]]; discriminate|reflexivity]|]. reflexivity.
Qed.

(** ** C55: the list of backends *)

(** The list ends with the parallel and the serial CPU backend.  Constructing a listed
    backend gives a voxelizer of its kind on the device it advertises, or a runtime
    error; the latter never for the CPU backends. *)
Theorem c55_listed :
  forall env, small_env env ->
  (exists front parallel serial,
     available_backends env = front ++ [parallel; serial] /\
     make_available env parallel = Ret (VCpu (e_omp_threads env)) /\
     make_available env serial = Ret (VCpu 1) /\
     forall b, In b front -> b_option b = CUDA \/ b_option b = OPENCL) /\
  forall b, In b (available_backends env) ->
  match make_available env b with
  | Ret (VCpu _) => b_option b = CPU
  | Ret (VCuda _ d _) => b_option b = CUDA /\ In ("CUDA_DEVICE"%string, d) (b_options b)
  | Ret (VOpenCL _ p d) =>
      b_option b = OPENCL /\ In ("OPENCL_PLATFORM_INDEX"%string, p) (b_options b) /\
      In ("OPENCL_DEVICE_INDEX"%string, d) (b_options b)
  | Throw e => e = RuntimeError /\ b_option b <> CPU
  | Undefined => False
  end.
Proof.
  intros env S. split.
  { eexists (cuda_devices env ++ opencl_devices env), _, _.
    split; [unfold available_backends; now rewrite app_assoc|].
    split; [reflexivity|]. split; [reflexivity|]. intros b I. apply in_app_iff in I as [I|I].
    - destruct (in_cuda_devices _ _ I) as (c & n & d & name & H). tauto.
    - destruct (in_opencl_devices _ _ S I) as (ps & p & d & P & D & H). tauto. }
  intros b I. unfold available_backends in I.
  apply in_app_iff in I as [I|I]; [|apply in_app_iff in I as [I|[<-|[<-|[]]]]];
    [| |reflexivity|reflexivity].
  - destruct (in_cuda_devices _ _ I) as (c & n & d & name & _ & _ & _ & _ & B & O).
    unfold make_available. rewrite B, O.
    change (make_voxelizer env CUDA ?o) with (cuda_voxelizer env o).
    pose proof (cuda_ctor_inv env _ (keys1 "CUDA_DEVICE"%string d)) as C.
    destruct (cuda_voxelizer env [("CUDA_DEVICE"%string, d)]) as [v|e|]; [| |contradiction].
    + destruct C as (d' & t & -> & (c' & n' & name' & _ & _ & [K|(K & _)] & _)); [auto|].
      exfalso. apply K. now left.
    + destruct C as (-> & _). split; [reflexivity|discriminate].
  - destruct (in_opencl_devices _ _ S I) as (ps & p & d & P & D & _ & _ & _ & B & O).
    unfold make_available. rewrite B, O.
    change (make_voxelizer env OPENCL ?o) with (opencl_voxelizer env o).
    pose proof (opencl_ctor_inv env _ (keys_cl p d) S) as C.
    destruct (opencl_voxelizer env [("OPENCL_DEVICE_INDEX"%string, d); ("OPENCL_PLATFORM_INDEX"%string, p)])
      as [v|e|]; [| |contradiction].
    + destruct C as (p' & d' & -> & (ps' & P' & D' & _ & [K|(K & _)] & [J|(J & _)] & _)); auto;
        exfalso; cbn in *; tauto.
    + destruct C as (-> & _). split; [reflexivity|discriminate].
Qed.
Print Assumptions c55_listed.

(** Every usable device is listed with options that select it: all OpenCL devices, and
    every CUDA device such that no device before it fails to report its properties. *)
Theorem c55_list_complete :
  forall env, small_env env ->
  (forall c n d, e_cuda env = Some c -> cu_count c = Some n -> 0 <= d < n ->
     (forall i, 0 <= i <= d -> cu_name c i <> None) ->
     exists b, In b (available_backends env) /\ b_option b = CUDA /\
       b_options b = [("CUDA_DEVICE"%string, d)]) /\
  (forall ps p d P D, e_opencl env = Some ps -> zget ps p = Some P -> zget (cp_devices P) d = Some D ->
     exists b, In b (available_backends env) /\ b_option b = OPENCL /\
       has_option (b_options b) "OPENCL_PLATFORM_INDEX" 0 p /\
       has_option (b_options b) "OPENCL_DEVICE_INDEX" 0 d).
Proof.
  intros env S. unfold available_backends. split.
  - intros c n d C K R H. unfold cuda_devices. rewrite C, K. unfold zrange. rewrite Z.sub_0_r.
    destruct (cuda_list_in c (Z.to_nat n) d 0 H) as (b & I & B); [lia|].
    exists b. split; [apply in_app_iff; now left|exact B].
  - intros ps p d P D C GP GD.
    destruct (opencl_devices_in env ps p d P D S C GP GD) as (b & I & B & O).
    exists b. split; [apply in_app_iff; right; apply in_app_iff; now left|].
    split; [exact B|]. rewrite O. unfold has_option. cbn. auto.
Qed.
Print Assumptions c55_list_complete.

Example c55_listed_case :
  map b_option (available_backends workstation) = [CUDA; OPENCL; OPENCL; CPU; CPU] /\
  map (make_available workstation) (available_backends workstation) =
    [Ret (VCuda 8 0 256); Ret (VOpenCL 8 0 0); Throw RuntimeError; Ret (VCpu 8); Ret (VCpu 1)].
Proof. vm_compute. auto. Qed.

(** ** C67: listed backends can be constructed *)

(** Holds when every OpenCL device builds both programs and every CUDA device can be
    set. *)
Theorem c67_constructible_partial :
  forall env, small_env env ->
  (forall c d, e_cuda env = Some c -> cu_set c d = true) ->
  (forall ps p D, e_opencl env = Some ps -> In p ps -> In D (cp_devices p) ->
     cd_raycasting_builds D = true /\ cd_filter_builds D = true) ->
  forall b, In b (available_backends env) -> exists v, make_available env b = Ret v.
Proof.
  intros env S HC HO b I. unfold available_backends in I.
  apply in_app_iff in I as [I|I]; [|apply in_app_iff in I as [I|[<-|[<-|[]]]]];
    [| |eexists; reflexivity|eexists; reflexivity].
  - destruct (in_cuda_devices _ _ I) as (c & n & d & name & C & K & R & P & B & O).
    unfold make_available. rewrite B, O.
    destruct (cuda_ctor env [("CUDA_DEVICE"%string, d)] d (keys1 _ _)) as (t & E & _).
    { exists c, n, name. split; [exact C|]. split; [exact K|]. split; [left; now left|].
      split; [exact R|]. split; [exact (HC c d C)|exact P]. }
    eexists. exact E.
  - destruct (in_opencl_devices _ _ S I) as (ps & p & d & P & D & C & GP & GD & B & O).
    unfold make_available. rewrite B, O. eexists.
    assert (In P ps) as IP.
    { unfold zget in GP. destruct (p <? 0); [discriminate|]. now apply nth_error_In in GP. }
    assert (In D (cp_devices P)) as ID.
    { unfold zget in GD. destruct (d <? 0); [discriminate|]. now apply nth_error_In in GD. }
    apply (opencl_ctor env _ p d (keys_cl p d) S).
    exists ps, P, D. split; [exact C|]. split; [left; right; now left|]. split; [left; now left|].
    split; [exact GP|]. split; [exact GD|]. exact (HO ps P D C IP ID).
Qed.
Print Assumptions c67_constructible_partial.

Example c67_constructible_case :
  let env := mkEnv (Some (mkCudaEnv (Some 1) (fun _ => true) (fun _ => Some "a"%string)))
    (Some [mkClPlatform "p" "v" [mkClDevice "b" true true]]) false 4 in
  small_env env /\ map (make_available env) (available_backends env) =
    [Ret (VCuda 4 0 256); Ret (VOpenCL 4 0 0); Ret (VCpu 4); Ret (VCpu 1)].
Proof.
  split; [|reflexivity]. intros ps [= <-]. split; [cbn; lia|]. intros p [<-|[]]. cbn. lia.
Qed.

(** A device whose program does not build is listed although it cannot be used. *)
Theorem c67_constructible_refuted :
  exists env b, small_env env /\ In b (available_backends env) /\
    make_available env b = Throw RuntimeError.
Proof.
  exists workstation, (mkBackend "OpenCL - Platform name: [p] Vendor: [v] Device: [c]"
    [("OPENCL_DEVICE_INDEX"%string, 1); ("OPENCL_PLATFORM_INDEX"%string, 0)] OPENCL).
  split; [exact workstation_small|]. split; [|reflexivity].
  vm_compute. tauto.
Qed.
Print Assumptions c67_constructible_refuted.
