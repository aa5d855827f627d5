(** Model of the component-tracking maps: OccupancyComponentMap
    (/repo/src/voxelized_geometry_tools/occupancy_component_map.cpp) and
    TaggedObjectOccupancyComponentMap
    (/repo/src/voxelized_geometry_tools/tagged_object_occupancy_component_map.cpp). *)
From Coq Require Import ZArith List Bool.
From Flocq Require BinarySingleNaN.
From Verif Require Import Util Grid Occ EdtModel FloatModel TopologyModel.
Import ListNotations.
Local Open Scope Z_scope.

(** ** OccupancyComponentMap *)

(** occupancy_component_map.hpp:29-65, OccupancyComponentCell. *)
Record ccell : Type := mkCcell { c_occ : occ; c_comp : Z }.

(** occupancy_component_map.hpp:79-93: cells, [number_of_components_] and
    [components_valid_].  Simplification: origin, frame and out-of-bounds value play
    no role here. *)
Record cmap : Type := mkCmap { cm_grid : grid ccell; cm_n : Z; cm_valid : bool }.

(** occupancy_component_map.hpp:138-176, the constructors. *)
Definition cm_construct (nx ny nz : Z) (default : ccell) : cmap :=
  mkCmap (gconst nx ny nz default) 0 false.

(** occupancy_component_map.cpp:112-120 and 123-127, OnMutableAccess and
    OnMutableRawAccess: access is always granted and invalidates the components. *)
Definition cm_touch (m : cmap) : cmap := mkCmap (cm_grid m) (cm_n m) false.

(** SetIndex (VoxelGridBase): out of bounds nothing happens. *)
Definition cm_set (m : cmap) (i : idx) (c : ccell) : cmap :=
  if in_bounds (cm_grid m) i
  then mkCmap (gset (cm_grid m) i c) (cm_n m) false
  else m.

(** occupancy_component_map.cpp:458-483, lambda [are_connected_fn]. *)
Definition same_kind (a b : occ) : bool :=
  if occ_gt a && occ_gt b then true
  else if occ_lt a && occ_lt b then true
  else if occ_eq a && occ_eq b then true
  else false.
Definition cm_connected (m : cmap) (i j : idx) : option bool :=
  let* a := gget (cm_grid m) i in
  let* b := gget (cm_grid m) j in
  Some (same_kind (c_occ a) (c_occ b)).

(** occupancy_component_map.cpp:484-496, lambda [get_component_fn]. *)
Definition cm_component (m : cmap) (i : idx) : Z :=
  match gget (cm_grid m) i with Some c => c_comp c | None => -1 end.

(** occupancy_component_map.cpp:497-505, lambda [mark_component_fn]. *)
Definition cm_mark (m : cmap) (i : idx) (component : Z) : cmap :=
  match gget (cm_grid m) i with
  | Some c => cm_set m i (mkCcell (c_occ c) component)
  | None => m
  end.

(** occupancy_component_map.cpp:447-511, UpdateConnectedComponents; returns the
    new map and the returned number. *)
Definition cm_update (m : cmap) : option (cmap * Z) :=
  if cm_valid m then Some (m, cm_n m)
  else
    let g := cm_grid m in
    let* (m', n) := compute_components cm_connected cm_component cm_mark
                      (g_nx g) (g_ny g) (g_nz g) (mkCmap g (cm_n m) false) in
    Some (mkCmap (cm_grid m') n true, n).

(** occupancy_component_map.hpp:178-184 (AreComponentsValid and the Force calls) and
    195-207 (NumConnectedComponents). *)
Definition cm_num_components (m : cmap) : option Z := if cm_valid m then Some (cm_n m) else None.

(** ** TaggedObjectOccupancyComponentMap *)

(** tagged_object_occupancy_component_map.hpp:30-96. *)
Record tccell : Type := mkTccell { t_occ : occ; t_obj : Z; t_comp : Z; t_seg : Z }.

(** tagged_object_occupancy_component_map.hpp:119-126. *)
Record tmap : Type := mkTmap {
  tm_grid : grid tccell;
  tm_n : Z; tm_nseg : Z;          (* number_of_components_, number_of_spatial_segments_ *)
  tm_valid : bool; tm_seg_valid : bool }.

Definition tm_construct (nx ny nz : Z) (default : tccell) : tmap :=
  mkTmap (gconst nx ny nz default) 0 0 false false.

(** tagged_object_occupancy_component_map.cpp:143-160: mutable access invalidates
    both. *)
Definition tm_touch (m : tmap) : tmap := mkTmap (tm_grid m) (tm_n m) (tm_nseg m) false false.

Definition tm_set (m : tmap) (i : idx) (c : tccell) : tmap :=
  if in_bounds (tm_grid m) i
  then mkTmap (gset (tm_grid m) i c) (tm_n m) (tm_nseg m) false false
  else m.

(** tagged_object_occupancy_component_map.cpp:700-740, lambda [are_connected_fn]. *)
Definition tm_connected (across : bool) (m : tmap) (i j : idx) : option bool :=
  let* a := gget (tm_grid m) i in
  let* b := gget (tm_grid m) j in
  let same_object := if across then true else t_obj a =? t_obj b in
  Some (if occ_gt (t_occ a) && occ_gt (t_occ b) then same_object
        else if occ_lt (t_occ a) && occ_lt (t_occ b) then same_object
        else if occ_eq (t_occ a) && occ_eq (t_occ b) then same_object
        else false).

(** tagged_object_occupancy_component_map.cpp:746-758. *)
Definition tm_component (m : tmap) (i : idx) : Z :=
  match gget (tm_grid m) i with Some c => t_comp c | None => -1 end.

(** tagged_object_occupancy_component_map.cpp:759-767. *)
Definition tm_mark (m : tmap) (i : idx) (component : Z) : tmap :=
  match gget (tm_grid m) i with
  | Some c => tm_set m i (mkTccell (t_occ c) (t_obj c) component (t_seg c))
  | None => m
  end.

(** tagged_object_occupancy_component_map.cpp:689-773, UpdateConnectedComponents. *)
Definition tm_update (across : bool) (m : tmap) : option (tmap * Z) :=
  if tm_valid m then Some (m, tm_n m)
  else
    let g := tm_grid m in
    let* (m', n) := compute_components (tm_connected across) tm_component tm_mark
                      (g_nx g) (g_ny g) (g_nz g)
                      (mkTmap g (tm_n m) (tm_nseg m) false (tm_seg_valid m)) in
    Some (mkTmap (tm_grid m') n (tm_nseg m') true (tm_seg_valid m'), n).

(** tagged_object_occupancy_component_map.hpp:222-233 and 280-291. *)
Definition tm_num_components (m : tmap) : option Z := if tm_valid m then Some (tm_n m) else None.
Definition tm_num_segments (m : tmap) : option Z := if tm_seg_valid m then Some (tm_nseg m) else None.

(** ** Spatial segments *)

(** A cell of the local extrema map: an Eigen::Vector3d. *)
Definition vec3 : Type := (b64 * b64 * b64)%type.

(** [std::isinf] on a component. *)
Definition b64_isinf (a : b64) : bool :=
  match a with BinarySingleNaN.B754_infinity _ => true | _ => false end.

(** tagged_object_occupancy_component_map.cpp:806-807,
    [(a - b).norm()]; Eigen adds the three squares and takes the square root. *)
Definition vec3_distance (a b : vec3) : b64 :=
  let '(ax, ay, az) := a in
  let '(bx, by_, bz) := b in
  let dx := b64_sub ax bx in
  let dy := b64_sub ay by_ in
  let dz := b64_sub az bz in
  b64_sqrt (b64_add (b64_add (b64_mul dx dx) (b64_mul dy dy)) (b64_mul dz dz)).

(** tagged_object_occupancy_component_map.cpp:796-821, lambda [are_connected_fn]. *)
Definition seg_connected (extrema : grid vec3) (threshold : b64) (m : tmap) (i j : idx) : option bool :=
  let* a := gget (tm_grid m) i in
  let* b := gget (tm_grid m) j in
  if t_obj a =? t_obj b then
    let* ea := gget extrema i in
    let* eb := gget extrema j in
    Some (b64_ltb (vec3_distance ea eb) threshold)
  else Some false.

(** tagged_object_occupancy_component_map.cpp:822-853, lambda [get_component_fn].
    [extrema_query.Value()] throws on an index outside the extrema map; the extrema
    map has the dimensions of the map, so the default below is never reached. *)
Definition seg_component (extrema : grid vec3) (m : tmap) (i : idx) : Z :=
  match gget (tm_grid m) i with
  | Some c =>
      if occ_lt (t_occ c) || (0 <? t_obj c) then
        match gget extrema i with
        | Some (ex, ey, ez) =>
            if negb (b64_isinf ex) && negb (b64_isinf ey) && negb (b64_isinf ez) then t_seg c else -1
        | None => -1
        end
      else -1
  | None => -1
  end.

(** tagged_object_occupancy_component_map.cpp:854-862. *)
Definition seg_mark (m : tmap) (i : idx) (segment : Z) : tmap :=
  match gget (tm_grid m) i with
  | Some c => tm_set m i (mkTccell (t_occ c) (t_obj c) (t_comp c) segment)
  | None => m
  end.

(** tagged_object_occupancy_component_map.cpp:775-868, UpdateSpatialSegments, given
    the local extrema map computed on lines 786-790 from the current cells. *)
Definition tm_update_segments (extrema : grid vec3) (threshold : b64) (m : tmap) : option (tmap * Z) :=
  if tm_seg_valid m then Some (m, tm_nseg m)
  else
    let g := tm_grid m in
    let* (m', n) := compute_components (seg_connected extrema threshold) (seg_component extrema) seg_mark
                      (g_nx g) (g_ny g) (g_nz g)
                      (mkTmap g (tm_n m) (tm_nseg m) (tm_valid m) false) in
    Some (mkTmap (tm_grid m') (tm_n m') n (tm_valid m') true, n).

(** ** Histories of an OccupancyComponentMap *)

(** The map together with the cells to which the caller keeps mutable references. *)
Definition cstate : Type := (cmap * list idx)%type.

Inductive cop : Type :=
| CSet (i : idx) (c : ccell)      (* SetIndex *)
| CAcquire (i : idx)              (* GetIndexMutable, keeping the reference *)
| CRefSet (k : nat) (c : ccell)   (* writing through the k-th kept reference *)
| CDropRefs
| CRawSet (k : Z) (c : ccell)     (* GetMutableRawData().at(k) = c *)
| CUpdate                         (* UpdateConnectedComponents *)
| CInvalidate                     (* ForceComponentsToBeInvalid *)
| CRead (i : idx).                (* any const query *)

(** One call; [None] when the call throws or does not return. *)
Definition cstep (s : cstate) (o : cop) : option cstate :=
  let '(m, refs) := s in
  match o with
  | CSet i c => Some (cm_set m i c, refs)
  | CAcquire i => if in_bounds (cm_grid m) i then Some (cm_touch m, refs ++ [i]) else Some (m, refs)
  | CRefSet k c =>
      match nth_error refs k with
      | Some i => Some (mkCmap (gset (cm_grid m) i c) (cm_n m) (cm_valid m), refs)
      | None => Some s
      end
  | CDropRefs => Some (m, [])
  | CRawSet k c =>
      let g := cm_grid m in
      match zset (g_cells g) k c with
      | Some l => Some (mkCmap (mkGrid (g_nx g) (g_ny g) (g_nz g) l) (cm_n m) false, refs)
      | None => Some (cm_touch m, refs)
      end
  | CUpdate => let* (m', _) := cm_update m in Some (m', refs)
  | CInvalidate => Some (cm_touch m, refs)
  | CRead _ => Some s
  end.

Fixpoint crun (s : cstate) (ops : list cop) : option cstate :=
  match ops with [] => Some s | o :: t => let* s' := cstep s o in crun s' t end.

(** ** Histories of a TaggedObjectOccupancyComponentMap *)

Definition tstate : Type := (tmap * list idx)%type.

Inductive top : Type :=
| TSet (i : idx) (c : tccell)
| TAcquire (i : idx)
| TRefSet (k : nat) (c : tccell)
| TDropRefs
| TRawSet (k : Z) (c : tccell)
| TUpdate (across : bool)                              (* UpdateConnectedComponents *)
| TSegments (extrema : grid vec3) (threshold : b64)    (* UpdateSpatialSegments *)
| TInvalidate                                          (* ForceComponentsToBeInvalid and
                                                          ForceSpatialSegmentsToBeInvalid *)
| TRead (i : idx).

Definition tstep (s : tstate) (o : top) : option tstate :=
  let '(m, refs) := s in
  match o with
  | TSet i c => Some (tm_set m i c, refs)
  | TAcquire i => if in_bounds (tm_grid m) i then Some (tm_touch m, refs ++ [i]) else Some (m, refs)
  | TRefSet k c =>
      match nth_error refs k with
      | Some i => Some (mkTmap (gset (tm_grid m) i c) (tm_n m) (tm_nseg m) (tm_valid m) (tm_seg_valid m), refs)
      | None => Some s
      end
  | TDropRefs => Some (m, [])
  | TRawSet k c =>
      let g := tm_grid m in
      match zset (g_cells g) k c with
      | Some l => Some (mkTmap (mkGrid (g_nx g) (g_ny g) (g_nz g) l) (tm_n m) (tm_nseg m) false false, refs)
      | None => Some (tm_touch m, refs)
      end
  | TUpdate across => let* (m', _) := tm_update across m in Some (m', refs)
  | TSegments extrema threshold =>
      let* (m', _) := tm_update_segments extrema threshold m in Some (m', refs)
  | TInvalidate => Some (tm_touch m, refs)
  | TRead _ => Some s
  end.

Fixpoint trun (s : tstate) (ops : list top) : option tstate :=
  match ops with [] => Some s | o :: t => let* s' := tstep s o in trun s' t end.
