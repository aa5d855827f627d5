(** Properties C83 and C84: device memory and devices. *)
From Coq Require Import ZArith List Bool Lia.
From Verif Require Import Util ResourceModel ResourceSpec ResourceProofs.
Import ListNotations.
Local Open Scope Z_scope.

(** ** C83: failures of the device *)

(** Whatever fails in a call on a CUDA voxelizer, except cudaFree, and however its threads
    interleave: the call returns or throws (if the parallel loop passes exceptions on), all memory it allocated is free again and no other memory was freed.  If
    it returns the output is written; if it throws the output does not hold a result, and
    something failed.  Missing: errors of cudaFree and loops that do not pass exceptions on;
    see [c83_free_refuted] and [c83_loop_refuted]. *)
Theorem c83_cuda_partial :
  forall fails rethrows t v cells clouds s e s',
  (forall a, fails (CFree a) = false) -> 0 < cells -> distinct_memory s -> h_current s t = v ->
  voxelize fails rethrows t (cuda_helper_of v) cells clouds s e s' ->
  match e with
  | Returned _ => same_memory s s' /\ h_out s' = Written /\
      Forall (fun c => 0 < dc_size c -> dc_throws c = false) clouds
  | Thrown => same_memory s s' /\ h_out s' <> Written /\ trouble fails clouds
  | Terminated => rethrows = false /\ trouble fails clouds
  end.
Proof.
  intros fails rethrows t v cells clouds s e s' F C N D H.
  destruct (voxelize_cuda fails t v cells clouds rethrows s e s' F D C N H) as (_ & K & R & T & X).
  destruct e as [[]| |].
  - destruct (K ltac:(discriminate)) as [K1 _]. split; [exact K1|]. split; [now apply R|].
    eapply voxelize_all; [|exact H]. exact (cuda_raycast_kernels v).
  - destruct (K ltac:(discriminate)) as [K1 _]. split; [exact K1|]. destruct (T eq_refl). easy.
  - now apply X.
Qed.
Print Assumptions c83_cuda_partial.

(** OpenCL voxelizers, whatever fails. *)
Theorem c83_opencl :
  forall fails rethrows t v cells clouds s e s',
  0 < cells -> distinct_memory s ->
  voxelize fails rethrows t (opencl_helper_of v) cells clouds s e s' ->
  match e with
  | Returned _ => same_memory s s' /\ h_out s' = Written /\
      Forall (fun c => 0 < dc_size c -> dc_throws c = false) clouds
  | Thrown => same_memory s s' /\ h_out s' <> Written /\ trouble fails clouds
  | Terminated => rethrows = false /\ trouble fails clouds
  end.
Proof.
  intros fails rethrows t v cells clouds s e s' C N H.
  destruct (voxelize_opencl fails t v cells clouds rethrows s e s' C N H) as (_ & K & R & T & X & _).
  destruct e as [[]| |].
  - destruct (K ltac:(discriminate)) as [K1 _]. split; [exact K1|]. split; [now apply R|].
    eapply voxelize_all; [|exact H]. exact (opencl_raycast_kernels v).
  - destruct (K ltac:(discriminate)) as [K1 _]. split; [exact K1|]. destruct (T eq_refl). easy.
  - now apply X.
Qed.
Print Assumptions c83_opencl.

(** A thread that gets through its clouds normally has started a kernel for each of them that
    has points. *)
Theorem c83_every_cloud :
  forall h v tracking cs l,
  h = cuda_helper_of v \/ h = opencl_helper_of v -> sensible l ->
  path (items_work h tracking cs) l (Returned tt) -> kernels l = zlen (with_points cs).
Proof.
  intros h v tracking cs l [->| ->] S H; eapply items_path; try eassumption;
    [exact (cuda_raycast_kernels v)|exact (opencl_raycast_kernels v)].
Qed.
Print Assumptions c83_every_cloud.

Example c83_every_cloud_case :
  let cloud a b := [(CSetDevice 0, ROk); (CMalloc, RPtr a); (CCopyIn a, ROk); (CMalloc, RPtr b); (CCopyIn b, ROk);
                    (CLaunch [a; b; 9], ROk); (CFree b, ROk); (CFree a, ROk)] in
  let l := cloud 1 2 ++ cloud 3 4 in
  sensible l /\ kernels l = 2 /\
  path (items_work (cuda_helper_of 0) 9 [mkDcloud 5 false; mkDcloud 0 false; mkDcloud 3 false]) l (Returned tt).
Proof.
  cbn zeta. split; [|split; [reflexivity|]].
  - unfold sensible. repeat constructor; discriminate.
  - cbn [app]. repeat (apply path_call; cbn). apply path_end.
Qed.

(** The threads that dispatch the clouds never wait for each other and make finitely many
    calls: as long as one has not ended some thread can go on, and no execution is infinite. *)
Theorem c83_ends :
  forall fails : call -> bool,
  (~ exists f : nat -> workers * host, forall n, wstep fails (f n) (f (S n))) /\
  (forall ws s, (forall x, ~ wstep fails (ws, s) x) -> Forall (fun w => exists e, ended e w) ws).
Proof.
  intros fails. split; [intros (f & H); exact (no_infinite fails f H)|].
  intros ws s H. destruct (workers_progress fails ws s) as [W|(x & W)]; [exact W|]. now apply H in W.
Qed.
Print Assumptions c83_ends.

(** An error of cudaFree is thrown from a destructor, which ends the process. *)
Theorem c83_free_refuted :
  exists fails t v cells clouds s s',
    (forall c, fails c = true -> exists a, c = CFree a) /\ 0 < cells /\ distinct_memory s /\ h_current s t = v /\
    voxelize fails true t (cuda_helper_of v) cells clouds s Terminated s'.
Proof.
  exists (fun c => match c with CFree _ => true | _ => false end), 0, 0, 8, [mkDcloud 5 false], init_host.
  pose proof (run_voxelize_ok (fun c => match c with CFree _ => true | _ => false end) true 0
    (cuda_helper_of 0) 8 [mkDcloud 5 false] init_host) as H. cbn zeta in H.
  eexists. split; [|split; [lia|split; [constructor|split; [reflexivity|]]]].
  - intros c. destruct c; try discriminate. intros _. now exists p.
  - exact H.
Qed.
Print Assumptions c83_free_refuted.

(** A device without memory for the points of a cloud, if the loop over the clouds does not
    pass exceptions on: the process ends. *)
Theorem c83_loop_refuted :
  exists fails t v cells clouds s s',
    (forall a, fails (CFree a) = false) /\ 0 < cells /\ distinct_memory s /\ h_current s t = v /\
    voxelize fails false t (cuda_helper_of v) cells clouds s Terminated s'.
Proof.
  exists (fun c => match c with CCopyIn _ => true | _ => false end), 0, 0, 8, [mkDcloud 5 false], init_host.
  pose proof (run_voxelize_ok (fun c => match c with CCopyIn _ => true | _ => false end) false 0
    (cuda_helper_of 0) 8 [mkDcloud 5 false] init_host) as H. cbn zeta in H.
  eexists. split; [reflexivity|split; [lia|split; [constructor|split; [reflexivity|]]]]. exact H.
Qed.
Print Assumptions c83_loop_refuted.

(** Calls on a machine that has an allocation of its own: one that succeeds, and one that
    throws in the middle. *)
Example c83_cases :
  let s := mkHost (fun _ => 0) [(7, 0)] false Untouched in
  let clouds := [mkDcloud 5 false; mkDcloud 0 false; mkDcloud 3 false] in
  distinct_memory s /\
  (exists s', voxelize (fun _ => false) true 0 (cuda_helper_of 0) 8 clouds s (Returned tt) s') /\
  (exists s', voxelize (fun c => match c with CLaunch _ => true | _ => false end) true 0 (cuda_helper_of 0)
                8 clouds s Thrown s') /\
  (exists s', voxelize (fun c => match c with LRead _ _ => true | _ => false end) true 0 (opencl_helper_of 1)
                8 clouds s Thrown s' /\ h_out s' = Unspecified).
Proof.
  cbn zeta. set (s := mkHost (fun _ => 0) [(7, 0)] false Untouched).
  set (clouds := [mkDcloud 5 false; mkDcloud 0 false; mkDcloud 3 false]).
  split; [repeat constructor; intros []|]. split; [|split].
  - eexists. exact (run_voxelize_ok (fun _ => false) true 0 (cuda_helper_of 0) 8 clouds s).
  - eexists. exact (run_voxelize_ok (fun c => match c with CLaunch _ => true | _ => false end) true 0
      (cuda_helper_of 0) 8 clouds s).
  - eexists. split; [exact (run_voxelize_ok (fun c => match c with LRead _ _ => true | _ => false end) true 0
      (opencl_helper_of 1) 8 clouds s)|]. vm_compute. reflexivity.
Qed.

(** ** C84: kernels run where their memory is *)

(** In every history of constructions and calls, on any threads, with any failures: kernels
    only ever use memory of the device they run on, no memory is used after it was freed or
    freed twice, and between the calls no memory is allocated if cudaFree works.  This is
    for machines on which all CUDA voxelizers are for the same device and are used on
    threads on which one was constructed, or are for device 0.  OpenCL voxelizers of any
    devices may be used in between.  Missing: other uses of CUDA voxelizers; see
    [c84_devices_refuted] and [c84_threads_refuted]. *)
Theorem c84_devices_partial :
  forall fails rethrows v l s,
  history fails rethrows init_host l s -> one_device v l -> positive_cells l ->
  h_bad s = false /\ ((forall a, fails (CFree a) = false) -> h_live s = []).
Proof.
  intros fails rethrows v l s H O P. destruct (history_ok fails rethrows v l s H O P) as (B & _ & _ & _ & L). easy.
Qed.
Print Assumptions c84_devices_partial.

(** Only OpenCL voxelizers. *)
Theorem c84_opencl :
  forall fails rethrows l s,
  history fails rethrows init_host l s -> Forall (fun ev => exists t d cells clouds, ev = EOpenCL t d cells clouds /\ 0 < cells) l ->
  h_bad s = false /\ h_live s = [].
Proof.
  intros fails rethrows l s H F.
  assert (G : h_bad s = false /\ h_live s = []); [|exact G].
  induction H as [|l ev s1 s2 H IH HE]; [easy|].
  apply Forall_app in F. destruct F as [F1 F2]. destruct (IH F1) as [B L].
  inversion F2 as [|? ? (t & d & cells & clouds & -> & C) _]; subst.
  inversion HE as [| |? ? ? ? e ? HV NE]; subst.
  destruct (voxelize_opencl fails t d cells clouds rethrows s1 e s2 C) as (B' & K & _);
    [rewrite L; constructor|exact HV|].
  split; [congruence|]. destruct (K NE) as (S & _). rewrite L in S.
  destruct (h_live s2) as [|[a x] r]; [reflexivity|]. exfalso. apply (S a x). now left.
Qed.
Print Assumptions c84_opencl.

(** Two CUDA voxelizers made one after the other on one thread, for devices 0 and 1: when
    the first is used, its tracking grids are made on device 1 and its kernels run on
    device 0. *)
Theorem c84_devices_refuted :
  exists l s, history (fun _ => false) true init_host l s /\ positive_cells l /\ h_bad s = true /\
    l = [EConstruct 0 0 true; EConstruct 0 1 true; ECuda 0 0 8 [mkDcloud 5 false]].
Proof.
  pose (s1 := snd (run (fun _ => false) 0 (cuda_construct 0) init_host)).
  pose (s2 := snd (run (fun _ => false) 0 (cuda_construct 1) s1)).
  pose (r := run_voxelize (fun _ => false) true 0 (cuda_helper_of 0) 8 [mkDcloud 5 false] s2).
  exists ((([] ++ [EConstruct 0 0 true]) ++ [EConstruct 0 1 true]) ++ [ECuda 0 0 8 [mkDcloud 5 false]]), (snd r).
  split; [|split; [|split; [vm_compute; reflexivity|reflexivity]]].
  - eapply history_snoc; [eapply history_snoc; [eapply history_snoc; [apply history_nil|]|]|].
    + apply happens_construct. exact (run_exec (fun _ => false) 0 (cuda_construct 0) init_host).
    + apply happens_construct. exact (run_exec (fun _ => false) 0 (cuda_construct 1) s1).
    + eapply happens_cuda; [exact (run_voxelize_ok (fun _ => false) true 0 (cuda_helper_of 0) 8 [mkDcloud 5 false] s2)|].
      vm_compute. discriminate.
  - intros t d cells clouds I. cbn [app In] in I. destruct I as [[I|[I|[I|[]]]]|[I|[I|[I|[]]]]]; try discriminate.
    injection I as _ _ <- _. lia.
Qed.
Print Assumptions c84_devices_refuted.

(** One CUDA voxelizer for device 1, made on one thread and used on another. *)
Theorem c84_threads_refuted :
  exists l s, history (fun _ => false) true init_host l s /\ positive_cells l /\ h_bad s = true /\
    l = [EConstruct 0 1 true; ECuda 5 1 8 [mkDcloud 5 false]].
Proof.
  pose (s1 := snd (run (fun _ => false) 0 (cuda_construct 1) init_host)).
  pose (r := run_voxelize (fun _ => false) true 5 (cuda_helper_of 1) 8 [mkDcloud 5 false] s1).
  exists (([] ++ [EConstruct 0 1 true]) ++ [ECuda 5 1 8 [mkDcloud 5 false]]), (snd r).
  split; [|split; [|split; [vm_compute; reflexivity|reflexivity]]].
  - eapply history_snoc; [eapply history_snoc; [apply history_nil|]|].
    + apply happens_construct. exact (run_exec (fun _ => false) 0 (cuda_construct 1) init_host).
    + eapply happens_cuda; [exact (run_voxelize_ok (fun _ => false) true 5 (cuda_helper_of 1) 8 [mkDcloud 5 false] s1)|].
      vm_compute. discriminate.
  - intros t d cells clouds I. cbn [app In] in I. destruct I as [[I|[I|[]]]|[I|[I|[]]]]; try discriminate.
    injection I as _ _ <- _. lia.
Qed.
Print Assumptions c84_threads_refuted.

(** A history with one device that is not device 0. *)
Example c84_case :
  exists s, history (fun _ => false) true init_host [EConstruct 3 1 true; ECuda 3 1 8 [mkDcloud 5 false]] s /\
    one_device 1 [EConstruct 3 1 true; ECuda 3 1 8 [mkDcloud 5 false]] /\
    positive_cells [EConstruct 3 1 true; ECuda 3 1 8 [mkDcloud 5 false]].
Proof.
  pose (s1 := snd (run (fun _ => false) 3 (cuda_construct 1) init_host)).
  pose (r := run_voxelize (fun _ => false) true 3 (cuda_helper_of 1) 8 [mkDcloud 5 false] s1).
  exists (snd r). split; [|split].
  - change [EConstruct 3 1 true; ECuda 3 1 8 [mkDcloud 5 false]]
      with (([] ++ [EConstruct 3 1 true]) ++ [ECuda 3 1 8 [mkDcloud 5 false]]).
    eapply history_snoc; [eapply history_snoc; [apply history_nil|]|].
    + apply happens_construct. exact (run_exec (fun _ => false) 3 (cuda_construct 1) init_host).
    + eapply happens_cuda; [exact (run_voxelize_ok (fun _ => false) true 3 (cuda_helper_of 1) 8 [mkDcloud 5 false] s1)|].
      vm_compute. discriminate.
  - split.
    + intros t d b [I|[I|[]]]; [now injection I|discriminate].
    + intros l1 t d cells clouds l2 E. destruct l1 as [|x [|y l1]].
      * discriminate.
      * injection E as <- <- <- _ _ _. split; [reflexivity|]. right. now left.
      * injection E as _ _ E. destruct l1; discriminate.
  - intros t d cells clouds [[I|[I|[]]]|[I|[I|[]]]]; try discriminate. injection I as _ _ <- _. lia.
Qed.
