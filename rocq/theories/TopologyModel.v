(** Model of connected component labelling,
    /repo/include/voxelized_geometry_tools/topology_computation.hpp:57-196. *)
From Coq Require Import ZArith List Bool.
From Verif Require Import Util Grid.
Import ListNotations.
Local Open Scope Z_scope.

(** Conversion to uint32_t. *)
Definition u32 (z : Z) : Z := z mod 2 ^ 32.

(** topology_computation.hpp:115-133: the six face neighbours, in this order. *)
Definition face_neighbors (i : idx) : list idx :=
  let '(x, y, z) := i in
  [(x - 1, y, z); (x + 1, y, z); (x, y - 1, z); (x, y + 1, z); (x, y, z - 1); (x, y, z + 1)].

Section Components.
(** The map being labelled, and the three callbacks of the C++ functions;
    [are_connected] gives no value where the callback throws. *)
Variables (St : Type) (are_connected : St -> idx -> idx -> option bool)
  (get_component : St -> idx -> Z) (mark_component : St -> idx -> Z -> St).

(** topology_computation.hpp:84-101, lambda [handle_neighbor_index]; state: map,
    working queue, queued set (a list without repetition).  In this function the
    callback's result is converted to uint32_t. *)
Definition handle_neighbor (cur : idx) (st : St * list idx * list idx) (n : idx)
    : option (St * list idx * list idx) :=
  let '(s, queue, queued) := st in
  if u32 (get_component s n) =? 0 then
    let* c := are_connected s cur n in
    if c then
      if existsb (idx_eqb n) queued then Some st else Some (s, queue ++ [n], queued ++ [n])
    else Some st
  else Some st.

(** topology_computation.hpp:103-134, the [while] loop.  [fuel] bounds the number
    of iterations; running out of it is an error that the theorems exclude. *)
Fixpoint mark_loop (fuel : nat) (component : Z) (st : St * list idx * list idx) (marked : Z)
    : option (St * Z) :=
  let '(s, queue, queued) := st in
  match queue with
  | [] => Some (s, marked)
  | cur :: rest =>
      match fuel with
      | O => None
      | S fuel' =>
          let* st' := ofold (handle_neighbor cur) (face_neighbors cur)
                        (mark_component s cur component, rest, queued) in
          mark_loop fuel' component st' (marked + 1)
      end
  end.

(** topology_computation.hpp:59-136, MarkConnectedComponent. *)
Definition mark_connected_component (total : Z) (s : St) (start : idx) (component : Z)
    : option (St * Z) :=
  mark_loop (S (Z.to_nat total)) component (s, [start], [start]) 0.

(** topology_computation.hpp:149-160, the reset loop. *)
Definition reset_components (nx ny nz : Z) (s : St) : St :=
  fold_left (fun s i => mark_component s i 0) (all_idx nx ny nz) s.

(** topology_computation.hpp:169-193, one iteration of the sweep; state: map,
    marked cells, number of components, and whether the early return was taken. *)
Definition sweep_step (total : Z) (st : St * Z * Z * bool) (i : idx) : option (St * Z * Z * bool) :=
  let '(s, marked, n, done) := st in
  if done then Some st
  else if get_component s i =? 0 then
    let n' := u32 (n + 1) in
    let* (s', cells) := mark_connected_component total s i n' in
    Some (s', marked + cells, n', marked + cells =? total)
  else Some st.

(** topology_computation.hpp:138-196, ComputeConnectedComponents. *)
Definition compute_components (nx ny nz : Z) (s : St) : option (St * Z) :=
  let total := nx * ny * nz in
  let* (s', _, n, _) := ofold (sweep_step total) (all_idx nx ny nz)
                          (reset_components nx ny nz s, 0, 0, false) in
  Some (s', n).
End Components.

Arguments handle_neighbor {St}. Arguments mark_loop {St}. Arguments mark_connected_component {St}.
Arguments reset_components {St}. Arguments sweep_step {St}. Arguments compute_components {St}.
