(** Vocabulary of the properties of device memory. *)
From Coq Require Import ZArith List.
From Verif Require Import Util ResourceModel.
Import ListNotations.
Local Open Scope Z_scope.

(** The same memory is allocated, on the same devices. *)
Definition same_memory (s s' : host) : Prop :=
  forall a d, In (a, d) (h_live s') <-> In (a, d) (h_live s).

(** Allocations have distinct addresses. *)
Definition distinct_memory (s : host) : Prop := NoDup (map fst (h_live s)).

(** Something can go wrong: a call of the device library, or reading a cloud. *)
Definition trouble (fails : call -> bool) (clouds : list dcloud) : Prop :=
  (exists c, fails c = true) \/ Exists (fun c => 0 < dc_size c /\ dc_throws c = true) clouds.

(** A way a piece of code can run: its calls with their results, and how it ends. *)
Inductive path {A} : cprog A -> list (call * reply) -> ending A -> Prop :=
| path_end e : path (CEnd e) [] e
| path_call c k r l e : path (k r) l e -> path (CCall c k) ((c, r) :: l) e.

(** The number of kernels that were started. *)
Fixpoint kernels (l : list (call * reply)) : Z :=
  match l with
  | [] => 0
  | (CLaunch _, ROk) :: t | (LEnqueue _ _, ROk) :: t => kernels t + 1
  | _ :: t => kernels t
  end.

(** The clouds that have points. *)
Definition with_points (cs : list dcloud) : list dcloud := filter (fun c => 0 <? dc_size c) cs.

(** Replies a library can give: kernels return no address. *)
Definition sensible (l : list (call * reply)) : Prop :=
  Forall (fun x => match fst x, snd x with
                   | CLaunch _, RPtr _ | LEnqueue _ _, RPtr _ => False | _, _ => True end) l.

(** All CUDA voxelizers are for device [v], and threads that use one were put on that device
    by constructing one (or it is the device threads start on). *)
Definition one_device (v : Z) (l : list event) : Prop :=
  (forall t d b, In (EConstruct t d b) l -> d = v) /\
  (forall l1 t d cells clouds l2, l = l1 ++ ECuda t d cells clouds :: l2 ->
     d = v /\ (v = 0 \/ In (EConstruct t v true) l1)).
Definition positive_cells (l : list event) : Prop :=
  forall t d cells clouds, In (ECuda t d cells clouds) l \/ In (EOpenCL t d cells clouds) l -> 0 < cells.

