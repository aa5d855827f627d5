(** Model of the life cycle of device memory in the CUDA and OpenCL voxelizers.

    Sources: /repo/src/voxelized_geometry_tools/cuda_voxelization_helpers.cu (cited as
    .cu), opencl_voxelization_helpers.cc (.cc) and device_pointcloud_voxelization.cpp
    (device .cpp).

    Contents of buffers are in FilterModel.v; here are the calls of the device libraries,
    each of which may fail, the exceptions thrown for failures, the destructors run while
    they propagate, and the device each buffer belongs to. *)
From Coq Require Import ZArith List Bool Permutation.
From Verif Require Import Util.
Import ListNotations.
Local Open Scope Z_scope.

(** ** Device libraries *)

(** Calls.  cudaSetDevice, cudaGetDeviceProperties, cudaMalloc, cudaMemset, cudaMemcpy to
    and from the device, kernel launch with cudaGetLastError, cudaFree.  For OpenCL, the
    device is that of the context of the voxelizer: creation of a buffer (with or without
    data), enqueueFillBuffer and enqueueNDRangeKernel, enqueueReadBuffer, and the release in
    the destructor of cl::Buffer. *)
Inductive call : Type :=
| CSetDevice (d : Z) | CProperties (d : Z)
| CMalloc | CMemset (p : Z) | CCopyIn (p : Z) | CLaunch (ps : list Z) | CCopyOut (p : Z) | CFree (p : Z)
| LCreate (d : Z) | LEnqueue (d : Z) (ps : list Z) | LRead (d : Z) (p : Z) | LRelease (p : Z).

(** Their results: CL_SUCCESS or cudaSuccess, an address, an error code. *)
Inductive reply : Type := ROk | RPtr (p : Z) | RErr.

(** The map the caller passed as output: not written, the data of the filter buffer, or
    unspecified (the copy to it failed half way). *)
Inductive written : Type := Untouched | Written | Unspecified.

(** [h_current t] is the CUDA device of host thread [t] (cudaSetDevice acts on the calling
    thread, and threads start on device 0).  [h_live] are the allocations with the device
    they are on.  [h_bad]: memory was used that is not allocated, or a kernel was given
    memory of another device than the one it runs on; nothing can be said afterwards. *)
Record host : Type := mkHost {
  h_current : Z -> Z; h_live : list (Z * Z); h_bad : bool; h_out : written }.

(** The process before the first call. *)
Definition init_host : host := mkHost (fun _ => 0) [] false Untouched.

(** Book-keeping of the device libraries, no code of /repo: whether address [p] is allocated
    on device [d], or at all; the allocations without it; a state after memory was used,
    after the allocations changed, and after the output changed. *)
Definition has (l : list (Z * Z)) (p d : Z) : bool :=
  existsb (fun a => (fst a =? p) && (snd a =? d)) l.
Definition has_any (l : list (Z * Z)) (p : Z) : bool := existsb (fun a => fst a =? p) l.
Definition drop (l : list (Z * Z)) (p : Z) : list (Z * Z) := filter (fun a => negb (fst a =? p)) l.

Definition check_use (ok : bool) (s : host) : host :=
  mkHost (h_current s) (h_live s) (h_bad s || negb ok) (h_out s).
Definition with_live (l : list (Z * Z)) (s : host) : host :=
  mkHost (h_current s) l (h_bad s) (h_out s).
Definition with_out (o : written) (s : host) : host :=
  mkHost (h_current s) (h_live s) (h_bad s) o.

(** What a call by thread [t] may do.  Allocations return any address that is not in use.
    The calls in [fails] may fail, at any time and without effect, but a failing copy to the
    host leaves anything in the output.  Errors of the release of OpenCL buffers are ignored
    (cl.hpp:1813-1816).  Kernels are finished when a later call uses or
    frees their buffers (default stream, in-order queue). *)
Inductive api (fails : call -> bool) (t : Z) (s : host) : call -> reply -> host -> Prop :=
| api_set d : api fails t s (CSetDevice d) ROk
    (mkHost (fun u => if u =? t then d else h_current s u) (h_live s) (h_bad s) (h_out s))
| api_properties d : api fails t s (CProperties d) ROk s
| api_malloc p : has_any (h_live s) p = false ->
    api fails t s CMalloc (RPtr p) (with_live ((p, h_current s t) :: h_live s) s)
| api_memset p : api fails t s (CMemset p) ROk (check_use (has_any (h_live s) p) s)
| api_copy_in p : api fails t s (CCopyIn p) ROk (check_use (has_any (h_live s) p) s)
| api_launch ps : api fails t s (CLaunch ps) ROk
    (check_use (forallb (fun p => has (h_live s) p (h_current s t)) ps) s)
| api_copy_out p : api fails t s (CCopyOut p) ROk
    (check_use (has_any (h_live s) p) (with_out Written s))
| api_free p : api fails t s (CFree p) ROk
    (check_use (has_any (h_live s) p) (with_live (drop (h_live s) p) s))
| api_create d p : has_any (h_live s) p = false ->
    api fails t s (LCreate d) (RPtr p) (with_live ((p, d) :: h_live s) s)
| api_enqueue d ps : api fails t s (LEnqueue d ps) ROk
    (check_use (forallb (fun p => has (h_live s) p d) ps) s)
| api_read d p : api fails t s (LRead d p) ROk
    (check_use (has (h_live s) p d) (with_out Written s))
| api_release p : api fails t s (LRelease p) ROk
    (check_use (has_any (h_live s) p) (with_live (drop (h_live s) p) s))
| api_error c : fails c = true ->
    (forall p, c <> CCopyOut p) -> (forall d p, c <> LRead d p) -> (forall p, c <> LRelease p) ->
    api fails t s c RErr s
| api_copy_out_error p : fails (CCopyOut p) = true ->
    api fails t s (CCopyOut p) RErr (with_out Unspecified s)
| api_read_error d p : fails (LRead d p) = true ->
    api fails t s (LRead d p) RErr (with_out Unspecified s).

(** ** C++ *)

(** How a piece of code ends: normally, with an exception, or by std::terminate. *)
Inductive ending (A : Type) : Type := Returned (a : A) | Thrown | Terminated.
Arguments Returned {A}. Arguments Thrown {A}. Arguments Terminated {A}.

(** Code that calls a device library, .cu:503-767, .cc:592-808. *)
Inductive cprog (A : Type) : Type := CEnd (e : ending A) | CCall (c : call) (k : reply -> cprog A).
Arguments CEnd {A}. Arguments CCall {A}.

(** Sequencing, no code of /repo: runs [f] on the way [p] ends; the rest after a normal end. *)
Fixpoint cthen {A B} (p : cprog A) (f : ending A -> cprog B) : cprog B :=
  match p with CEnd e => f e | CCall c k => CCall c (fun r => cthen (k r) f) end.

Definition cbind {A B} (p : cprog A) (f : A -> cprog B) : cprog B :=
  cthen p (fun e => match e with
                    | Returned a => f a | Thrown => CEnd Thrown | Terminated => CEnd Terminated end).

(** A scope with a destructor: it runs when the scope is left, normally or by an exception.
    Destructors are noexcept: an exception that leaves one is std::terminate. *)
Definition cscope {A} (p : cprog A) (destructor : cprog unit) : cprog A :=
  cthen p (fun e =>
    match e with
    | Terminated => CEnd Terminated
    | _ => cthen destructor (fun e' => match e' with Returned _ => CEnd e | _ => CEnd Terminated end)
    end).

(** CudaCheckErrors(call), .cu:26-33; for OpenCL the tests of err. *)
Definition check (c : call) : cprog unit :=
  CCall c (fun r => match r with RErr => CEnd Thrown | _ => CEnd (Returned tt) end).

(** ** CUDA *)

(** AllocateBuffer, .cu:503-509. *)
Definition allocate : cprog Z :=
  CCall CMalloc (fun r => match r with RPtr p => CEnd (Returned p) | _ => CEnd Thrown end).

(** FreeBuffer of a buffer that holds memory, .cu:511-520.  Buffers that hold none (moved
    from) do nothing and are left out. *)
Definition free_buffer (p : Z) : cprog unit := check (CFree p).

(** The constructors of CudaBuffer, .cu:455-471 (zeroed) and .cu:473-494 (copied from memory
    that is not null): [fill] is the call that fills the memory.  The destructor does not
    run when a constructor throws, they free the memory themselves. *)
Definition new_buffer (fill : Z -> call) (elements : Z) : cprog Z :=
  if elements =? 0 then CEnd Thrown
  else cbind allocate (fun p =>
    CCall (fill p) (fun r =>
      match r with
      | RErr => cbind (free_buffer p) (fun _ => CEnd Thrown)
      | _ => CEnd (Returned p)
      end)).

(** A local CudaBuffer; destructor .cu:496. *)
Definition with_buffer {A} (make : cprog Z) (body : Z -> cprog A) : cprog A :=
  cbind make (fun p => cscope (body p) (free_buffer p)).

(** ** Point clouds, as far as they matter here: the number of points, and whether reading
    them throws (pointcloud_voxelization_interface.hpp:100-235). *)
Record dcloud : Type := mkDcloud { dc_size : Z; dc_throws : bool }.

(** RaycastPoints, .cu:660-699. *)
Definition cuda_raycast (device tracking points : Z) : cprog unit :=
  cbind (check (CSetDevice device)) (fun _ =>
    with_buffer (new_buffer CCopyIn (points * 3)) (fun a =>
      with_buffer (new_buffer CCopyIn 16) (fun b =>
        check (CLaunch [a; b; tracking])))).

(** PrepareTrackingGrids, .cu:641-658. *)
Definition cuda_prepare (cells grids : Z) : cprog Z := new_buffer CMemset (2 * (cells * grids)).

(** device .cpp:163-175: PrepareFilterGrid (.cu:701-708), FilterTrackingGrids (.cu:710-732),
    RetrieveFilteredGrid (.cu:754-767), and the destructor of the filter grid. *)
Definition cuda_filter_grid (cells tracking : Z) : cprog unit :=
  with_buffer (new_buffer CCopyIn cells) (fun f =>
    cbind (check (CLaunch [tracking; f])) (fun _ => check (CCopyOut f))).

(** The constructor of the helper for a device number that is in range, .cu:591-633 (the
    exceptions are caught there): whether the voxelizer can be used.  cudaGetDeviceCount
    has no effect and is left out; a number out of range makes no call that has one. *)
Definition cuda_construct (device : Z) : cprog bool :=
  cthen (cbind (check (CSetDevice device)) (fun _ => check (CProperties device)))
    (fun e => match e with
              | Returned _ => CEnd (Returned true)
              | Thrown => CEnd (Returned false)
              | Terminated => CEnd Terminated end).

(** ** OpenCL *)

(** new cl::Buffer, with data (.cc:653-663, 666-677, 714-724) or without (.cc:608-619). *)
Definition cl_buffer (device : Z) : cprog Z :=
  CCall (LCreate device) (fun r => match r with RPtr p => CEnd (Returned p) | _ => CEnd Thrown end).

(** Destructor of cl::Buffer, cl.hpp:1813-1816. *)
Definition cl_release (p : Z) : cprog unit := CCall (LRelease p) (fun _ => CEnd (Returned tt)).

(** A local cl::Buffer, .cc:653-677, or one owned by a unique_ptr in a handle, .cc:404-454. *)
Definition with_cl_buffer {A} (make : cprog Z) (body : Z -> cprog A) : cprog A :=
  cbind make (fun p => cscope (body p) (cl_release p)).

(** RaycastPoints, .cc:642-705. *)
Definition opencl_raycast (device tracking points : Z) : cprog unit :=
  with_cl_buffer (cl_buffer device) (fun a =>
    with_cl_buffer (cl_buffer device) (fun b =>
      check (LEnqueue device [a; b; tracking]))).

(** PrepareTrackingGrids, .cc:592-640 (not on macOS): the unique_ptr releases the buffer when
    filling it fails; otherwise it is moved into the result. *)
Definition opencl_prepare (device : Z) : cprog Z :=
  cbind (cl_buffer device) (fun p =>
    CCall (LEnqueue device [p]) (fun r =>
      match r with
      | RErr => cbind (cl_release p) (fun _ => CEnd Thrown)
      | _ => CEnd (Returned p)
      end)).

(** PrepareFilterGrid, FilterTrackingGrids and RetrieveFilteredGrid, .cc:707-764, 791-808. *)
Definition opencl_filter_grid (device tracking : Z) : cprog unit :=
  with_cl_buffer (cl_buffer device) (fun f =>
    cbind (check (LEnqueue device [tracking; f])) (fun _ => check (LRead device f))).

(** ** Voxelization *)

(** What DoVoxelizePointClouds uses of the helper interface. *)
Record helper : Type := mkHelper {
  hl_prepare : Z -> Z -> cprog Z;          (* cells, grids: PrepareTrackingGrids *)
  hl_raycast : Z -> Z -> cprog unit;       (* tracking grids, points: RaycastPoints *)
  hl_filter : Z -> Z -> cprog unit;        (* cells, tracking grids: the last three *)
  hl_destroy : Z -> cprog unit }.          (* destructor of the tracking grids *)

(** CudaVoxelizationHelperInterface and CudaTrackingGridsHandle, .cu:525-541, 559-788, and
    their OpenCL counterparts, .cc:404-454, 456-815. *)
Definition cuda_helper_of (device : Z) : helper :=
  mkHelper cuda_prepare (cuda_raycast device) cuda_filter_grid free_buffer.
Definition opencl_helper_of (device : Z) : helper :=
  mkHelper (fun _ _ => opencl_prepare device) (opencl_raycast device)
    (fun _ => opencl_filter_grid device) cl_release.

(** per_item_work, device .cpp:110-145. *)
Definition item_work (h : helper) (tracking : Z) (c : dcloud) : cprog unit :=
  if 0 <? dc_size c then
    if dc_throws c then CEnd Thrown else hl_raycast h tracking (dc_size c)
  else CEnd (Returned tt).

(** Iterations of one thread; an exception ends them. *)
Fixpoint items_work (h : helper) (tracking : Z) (cs : list dcloud) : cprog unit :=
  match cs with
  | [] => CEnd (Returned tt)
  | c :: r => cbind (item_work h tracking c) (fun _ => items_work h tracking r)
  end.

(** Execution by one thread, no code of /repo. *)
Inductive exec {A} (fails : call -> bool) (t : Z) : cprog A -> host -> ending A -> host -> Prop :=
| exec_end e s : exec fails t (CEnd e) s e s
| exec_call c k s r s1 e s2 :
    api fails t s c r s1 -> exec fails t (k r) s1 e s2 -> exec fails t (CCall c k) s e s2.

(** Threads that take turns; this and the following relations are the semantics of the
    dispatching loop (device .cpp:147-149). *)
Definition workers : Type := list (Z * cprog unit).

Inductive wstep (fails : call -> bool) : workers * host -> workers * host -> Prop :=
| wstep_call w1 t c k w2 s r s1 :
    api fails t s c r s1 -> wstep fails (w1 ++ (t, CCall c k) :: w2, s) (w1 ++ (t, k r) :: w2, s1).

Inductive wsteps (fails : call -> bool) : workers * host -> workers * host -> Prop :=
| wsteps_refl s : wsteps fails s s
| wsteps_cons s1 s2 s3 : wstep fails s1 s2 -> wsteps fails s2 s3 -> wsteps fails s1 s3.

Definition ended (e : ending unit) (w : Z * cprog unit) : Prop := snd w = CEnd e.

(** DynamicParallelForIndexLoop over the clouds, device .cpp:147-149.  The clouds are
    distributed over distinct threads, which may include the caller.  With [rethrows], the
    loop waits for all threads and throws if one of them did (std::async; serial loops
    are those with one thread); otherwise an exception in a thread is std::terminate
    (OpenMP).  Which of the two is decided in common_robotics_utilities. *)
Inductive dispatch (fails : call -> bool) (rethrows : bool) (h : helper) (tracking : Z) (clouds : list dcloud) (s : host)
  : ending unit -> host -> Prop :=
| dispatch_ends sched ws s' e :
    NoDup (map fst sched) -> Permutation (concat (map snd sched)) clouds ->
    wsteps fails (map (fun x => (fst x, items_work h tracking (snd x))) sched, s) (ws, s') ->
    Forall (fun w => ended (Returned tt) w \/ (rethrows = true /\ ended Thrown w)) ws ->
    e = (if existsb (fun w => match snd w with CEnd Thrown => true | _ => false end) ws
         then Thrown else Returned tt) ->
    dispatch fails rethrows h tracking clouds s e s'
| dispatch_terminates sched ws s' :
    NoDup (map fst sched) -> Permutation (concat (map snd sched)) clouds ->
    wsteps fails (map (fun x => (fst x, items_work h tracking (snd x))) sched, s) (ws, s') ->
    Exists (fun w => ended Terminated w \/ (rethrows = false /\ ended Thrown w)) ws ->
    dispatch fails rethrows h tracking clouds s Terminated s'.

(** DoVoxelizePointClouds, device .cpp:65-181, called by thread [t] with a fresh output. *)
Definition voxelize (fails : call -> bool) (rethrows : bool) (t : Z) (h : helper) (cells : Z) (clouds : list dcloud)
    (s : host) (e : ending unit) (s' : host) : Prop :=
  exists e1 s1,
    exec fails t (hl_prepare h cells (Z.max (zlen clouds) 1)) (with_out Untouched s) e1 s1 /\
    match e1 with
    | Returned p => exists e2 s2,
        dispatch fails rethrows h p clouds s1 e2 s2 /\
        exec fails t
          (cscope (cbind (CEnd e2) (fun _ => hl_filter h cells p)) (hl_destroy h p)) s2 e s'
    | Thrown => e = Thrown /\ s' = s1
    | Terminated => e = Terminated /\ s' = s1
    end.

(** ** Histories *)

(** Construction of a CUDA voxelizer by a thread, with its result; calls on CUDA and OpenCL
    voxelizers for a device.  Termination of the process ends a history. *)
Inductive event : Type :=
| EConstruct (t device : Z) (usable : bool)
| ECuda (t device cells : Z) (clouds : list dcloud)
| EOpenCL (t device cells : Z) (clouds : list dcloud).

Inductive happens (fails : call -> bool) (rethrows : bool) (s : host) : event -> host -> Prop :=
| happens_construct t d b s' :
    exec fails t (cuda_construct d) s (Returned b) s' -> happens fails rethrows s (EConstruct t d b) s'
| happens_cuda t d cells clouds e s' :
    voxelize fails rethrows t (cuda_helper_of d) cells clouds s e s' -> e <> Terminated ->
    happens fails rethrows s (ECuda t d cells clouds) s'
| happens_opencl t d cells clouds e s' :
    voxelize fails rethrows t (opencl_helper_of d) cells clouds s e s' -> e <> Terminated ->
    happens fails rethrows s (EOpenCL t d cells clouds) s'.

Inductive history (fails : call -> bool) (rethrows : bool) (s : host) : list event -> host -> Prop :=
| history_nil : history fails rethrows s [] s
| history_snoc l ev s1 s2 :
    history fails rethrows s l s1 -> happens fails rethrows s1 ev s2 ->
    history fails rethrows s (l ++ [ev]) s2.
