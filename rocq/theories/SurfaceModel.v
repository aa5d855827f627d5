(** Model of the surface queries of the map types, of surface extraction and of the
    hole and void count:
    /repo/src/voxelized_geometry_tools/occupancy_map.cpp,
    /repo/src/voxelized_geometry_tools/occupancy_component_map.cpp,
    /repo/include/voxelized_geometry_tools/topology_computation.hpp.
    The four map types repeat the same code; the model takes the cell type and its
    Occupancy and Component members as parameters. *)
From Coq Require Import ZArith List Bool.
From Verif Require Import Util Grid Occ TopologyModel.
Import ListNotations.
Local Open Scope Z_scope.

(** Early return out of nested loops: the first index of the list for which the body
    returns true; [None] when the body throws before that. *)
Fixpoint first_true (f : idx -> option bool) (l : list idx) : option bool :=
  match l with
  | [] => Some false
  | i :: t => let* b := f i in if b then Some true else first_true f t
  end.

Section Surface.
Context {C : Type} (occ_of : C -> occ) (comp_of : C -> Z).

(** occupancy_map.cpp:213-224 (the same in occupancy_component_map.cpp:242-253,
    tagged_object_occupancy_map.cpp:225-236 and
    tagged_object_occupancy_component_map.cpp:279-290): the indices visited by the
    clipped loops. *)
Definition clipped_block (g : grid C) (i : idx) : list idx :=
  let '(x, y, z) := i in
  flat_map (fun x' => flat_map (fun y' => map (fun z' => (x', y', z'))
      (zrange (Z.max 0 (z - 1)) (Z.min (g_nz g - 1) (z + 1) + 1)))
      (zrange (Z.max 0 (y - 1)) (Z.min (g_ny g - 1) (y + 1) + 1)))
      (zrange (Z.max 0 (x - 1)) (Z.min (g_nx g - 1) (x + 1) + 1)).

(** occupancy_map.cpp:195-248, IsSurfaceIndex (the same code in
    occupancy_component_map.cpp:226-281, tagged_object_occupancy_map.cpp:207-262 and
    tagged_object_occupancy_component_map.cpp:262-317).  The outer option is an exception
    ([Value] of an empty query), the inner one the OwningMaybe returned. *)
Definition is_surface_index (g : grid C) (i : idx) : option (option bool) :=
  if in_bounds g i then
    let* us := gget g i in
    let our := occ_of us in
    let* b := first_true (fun j =>
        if idx_eqb j i then Some false
        else
          let* them := gget g j in
          let other := occ_of them in
          Some (if occ_lt our && occ_ge other then true
                else if occ_gt our && occ_le other then true
                else occ_eq our && negb (occ_eq other)))
      (clipped_block g i) in
    Some (Some b)
  else Some None.

(** occupancy_component_map.cpp:290-350 and
    tagged_object_occupancy_component_map.cpp:327-386,
    IsConnectedComponentSurfaceIndex. *)
Definition is_component_surface_index (g : grid C) (i : idx) : option (option bool) :=
  let '(x, y, z) := i in
  if in_bounds g i then
    if (x =? 0) || (y =? 0) || (z =? 0) || (x =? g_nx g - 1) || (y =? g_ny g - 1) || (z =? g_nz g - 1)
    then Some (Some true)
    else
      let* us := gget g i in
      let* b := first_true (fun j => let* them := gget g j in Some (negb (comp_of us =? comp_of them)))
        [(x, y, z - 1); (x, y, z + 1); (x, y - 1, z); (x, y + 1, z); (x - 1, y, z); (x + 1, y, z)] in
      Some (Some b)
  else Some None.

(** occupancy_component_map.cpp:380-445 and
    tagged_object_occupancy_component_map.cpp:417-480, CheckIfCandidateCorner. *)
Definition candidate_corner (g : grid C) (i : idx) : option bool :=
  let '(x, y, z) := i in
  match gget g i with
  | Some us =>
      let different (j : idx) : Z :=
        match gget g j with Some them => if comp_of them =? comp_of us then 0 else 1 | None => 0 end in
      let n := different (x - 1, y, z) + different (x + 1, y, z) + different (x, y - 1, z)
               + different (x, y + 1, z) + different (x, y, z - 1) + different (x, y, z + 1) in
      Some (negb (n <=? 1))
  | None => None
  end.

(** occupancy_component_map.hpp:72-76, COMPONENT_TYPES (one bit each). *)
Record kinds : Type := mkKinds { k_filled : bool; k_empty : bool; k_unknown : bool }.

(** occupancy_component_map.cpp:530-567, lambda [is_surface_index_fn] (also 613-650
    and tagged_object_occupancy_component_map.cpp:502-539, 585-622).  The condition
    [if (IsConnectedComponentSurfaceIndex(index))] converts the OwningMaybe to bool,
    which tells whether it holds a value. *)
Definition has_value {A} (o : option A) : bool := match o with Some _ => true | None => false end.
Definition surface_index_fn (k : kinds) (g : grid C) (i : idx) : option bool :=
  let* c := gget g i in
  let test (selected : bool) : option bool :=
    if selected then let* r := is_component_surface_index g i in Some (has_value r) else Some false in
  if occ_gt (occ_of c) then test (k_filled k)
  else if occ_lt (occ_of c) then test (k_empty k)
  else test (k_unknown k).

(** occupancy_component_map.cpp:518-530, lambda [get_component_fn]. *)
Definition component_fn (g : grid C) (i : idx) : Z :=
  match gget g i with Some c => comp_of c | None => -1 end.

(** [std::unordered_map<GridIndex, uint8_t>]: the entries in some order. *)
Definition surface_map : Type := list (idx * Z).
Fixpoint smap_set (m : surface_map) (i : idx) (v : Z) : surface_map :=
  match m with
  | [] => [(i, v)]
  | (j, w) :: t => if idx_eqb i j then (j, v) :: t else (j, w) :: smap_set t i v
  end.
Fixpoint smap_get (m : surface_map) (i : idx) : option Z :=
  match m with
  | [] => None
  | (j, w) :: t => if idx_eqb i j then Some w else smap_get t i
  end.

(** [std::map<uint32_t, ...>] with [operator\[\]]: entries ordered by key. *)
Definition surfaces : Type := list (Z * surface_map).
Fixpoint surfaces_add (s : surfaces) (comp : Z) (i : idx) : surfaces :=
  match s with
  | [] => [(comp, [(i, 1)])]
  | (c, m) :: t =>
      if comp =? c then (c, smap_set m i 1) :: t
      else if comp <? c then (comp, [(i, 1)]) :: s
      else (c, m) :: surfaces_add t comp i
  end.

(** topology_computation.hpp:301-329, ExtractComponentSurfaces. *)
Definition extract_surfaces_gen (is_surface : idx -> option bool) (get_component : idx -> Z)
    (nx ny nz : Z) : option surfaces :=
  ofold (fun s i => let* b := is_surface i in
                    if b then Some (surfaces_add s (u32 (get_component i)) i) else Some s)
    (all_idx nx ny nz) [].

(** occupancy_component_map.cpp:511-571 and
    tagged_object_occupancy_component_map.cpp:482-543, ExtractComponentSurfaces. *)
Definition extract_surfaces (k : kinds) (g : grid C) : option surfaces :=
  extract_surfaces_gen (surface_index_fn k g) (component_fn g) (g_nx g) (g_ny g) (g_nz g).
End Surface.

(** ** Static and dynamic surfaces *)

(** topology_computation.hpp:674-690, ExtractStaticSurface. *)
Definition extract_static (m : surface_map) : list idx :=
  flat_map (fun e => if snd e =? 1 then [fst e] else []) m.

(** topology_computation.hpp:692-702, ConvertToDynamicSurface. *)
Definition to_dynamic (l : list idx) : surface_map := fold_left (fun m i => smap_set m i 1) l [].

(** topology_computation.hpp:704-714, BuildSurfaceIndexMap. *)
Definition build_index_map (l : list idx) : surface_map :=
  fst (fold_left (fun '(m, k) i => (smap_set m i k, k + 1)) l ([], 0)).

(** ** Holes and voids *)

Section Topology.
(** [get_component_fn]; [order] is the unspecified order in which the unordered
    containers are traversed. *)
Variables (get_component : idx -> Z) (order : list idx -> list idx).

(** topology_computation.hpp:375-489: the vertices inserted for one surface voxel.
    Both [xyzm1_component] and [xyzp1_component] read the voxel at z - 1 (lines
    384-391). *)
Definition voxel_vertices (component : Z) (i : idx) : list idx :=
  let '(x, y, z) := i in
  let differs (j : idx) : bool := negb (component =? get_component j) in
  let zm := differs (x, y, z - 1) in
  let zp := differs (x, y, z - 1) in
  let ym := differs (x, y - 1, z) in
  let yp := differs (x, y + 1, z) in
  let xm := differs (x - 1, y, z) in
  let xp := differs (x + 1, y, z) in
  let vertex (b : bool) (v : idx) : list idx := if b then [v] else [] in
  vertex (zm || ym || xm) (x, y, z) ++
  vertex (zp || ym || xm) (x, y, z + 1) ++
  vertex (zm || yp || xm) (x, y + 1, z) ++
  vertex (zp || yp || xm) (x, y + 1, z + 1) ++
  vertex (zm || ym || xp) (x + 1, y, z) ++
  vertex (zp || ym || xp) (x + 1, y, z + 1) ++
  vertex (zm || yp || xp) (x + 1, y + 1, z) ++
  vertex (zp || yp || xp) (x + 1, y + 1, z + 1).

Definition set_insert (l : list idx) (i : idx) : list idx :=
  if existsb (idx_eqb i) l then l else l ++ [i].

(** topology_computation.hpp:374-490: the set of surface vertices. *)
Definition surface_vertices (component : Z) (surface : surface_map) : list idx :=
  fold_left (fun s '(i, v) => if v =? 0 then s else fold_left set_insert (voxel_vertices component i) s)
    surface [].

(** topology_computation.hpp:517-611: which of the six edges of a vertex are
    exposed, in the order of the bits: z-, z+, y-, y+, x-, x+. *)
Definition vertex_edges (component : Z) (v : idx) : list bool :=
  let '(x, y, z) := v in
  let out (dx dy dz : Z) : bool := negb (component =? get_component (x + dx, y + dy, z + dz)) in
  let exposed (a b c d : bool) : bool := (a || b || c || d) && negb (a && b && c && d) in
  let mmm := out (-1) (-1) (-1) in let mmp := out (-1) (-1) 0 in
  let mpm := out (-1) 0 (-1) in let mpp := out (-1) 0 0 in
  let pmm := out 0 (-1) (-1) in let pmp := out 0 (-1) 0 in
  let ppm := out 0 0 (-1) in let ppp := out 0 0 0 in
  [exposed mmm mpm pmm ppm; exposed mmp mpp pmp ppp;
   exposed mmm mmp pmm pmp; exposed mpm mpp ppm ppp;
   exposed mmm mmp mpm mpp; exposed pmm pmp ppm ppp].

(** topology_computation.hpp:259-288: the other ends of the exposed edges. *)
Definition edge_ends (v : idx) : list idx :=
  let '(x, y, z) := v in
  [(x, y, z - 1); (x, y, z + 1); (x, y - 1, z); (x, y + 1, z); (x - 1, y, z); (x + 1, y, z)].
Definition connected_vertices (edges : idx -> list bool) (v : idx) : list idx :=
  flat_map (fun '(b, w) => if (b : bool) then [w] else []) (combine (edges v) (edge_ends v)).

(** topology_computation.hpp:245-291, the [while] loop over one surface; state:
    queue and queued set (whose members are the vertices labelled at the end).
    [None]: [at] throws out_of_range, or out of fuel. *)
Fixpoint walk (fuel : nat) (vertices : list idx) (edges : idx -> list bool)
    (queue queued : list idx) : option (list idx) :=
  match queue with
  | [] => Some queued
  | v :: rest =>
      match fuel with
      | O => None
      | S fuel' =>
          if existsb (idx_eqb v) vertices then
            let new := fold_left (fun '(q, s) w => if existsb (idx_eqb w) s then (q, s) else (q ++ [w], s ++ [w]))
                         (connected_vertices edges v) (rest, queued) in
            walk fuel' vertices edges (fst new) (snd new)
          else None
      end
  end.

(** topology_computation.hpp:198-299, ComputeConnectivityOfSurfaceVertices; state:
    labelled vertices, number of processed vertices, number of surfaces, and whether
    the loop was left by [break]. *)
Definition count_surfaces (vertices : list idx) (edges : idx -> list bool) : option Z :=
  let* (_, _, n, _) := ofold (fun '(labelled, processed, n, stop) v =>
      if (stop : bool) then Some (labelled, processed, n, stop)
      else if existsb (idx_eqb v) labelled then Some (labelled, processed, n, stop)
      else
        let* reached := walk (S (length vertices)) vertices edges [v] [v] in
        let processed' := processed + zlen reached in
        Some (labelled ++ reached, processed', n + 1, processed' =? zlen vertices))
    (order vertices) ([], 0, 0, false) in
  Some n.

(** topology_computation.hpp:331-643, ComputeHolesAndVoidsInSurface: holes and voids;
    [None] when it throws.  Integers are unbounded here; the counters of the code are
    int32_t. *)
Definition holes_and_voids (component : Z) (surface : surface_map) : option (Z * Z) :=
  let vertices := surface_vertices component surface in
  let count (k : Z) : Z :=
    zlen (filter (fun v => zlen (filter (fun b => b) (vertex_edges component v)) =? k) (order vertices)) in
  let* surfaces := count_surfaces vertices (vertex_edges component) in
  let voids := surfaces - 1 in
  let holes := 1 + Z.quot (count 5 + 2 * count 6 - count 3) 8 + voids in
  if (holes <? 0) || (voids <? 0) then None else Some (holes, voids).

(** topology_computation.hpp:645-670, ComputeComponentTopology, after surface
    extraction. *)
Definition topology_of_surfaces (s : surfaces) : option (list (Z * (Z * Z))) :=
  ofold (fun acc '(c, m) => let* r := holes_and_voids c m in Some (acc ++ [(c, r)])) s [].
End Topology.

(** occupancy_component_map.cpp:594-653 and
    tagged_object_occupancy_component_map.cpp:565-624, ComputeComponentTopology, after
    the components were updated. *)
Definition component_topology {C} (occ_of : C -> occ) (comp_of : C -> Z) (order : list idx -> list idx)
    (k : kinds) (g : grid C) : option (list (Z * (Z * Z))) :=
  let* s := extract_surfaces occ_of comp_of k g in
  topology_of_surfaces (component_fn comp_of g) order s.
