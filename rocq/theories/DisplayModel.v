(** Model of the exports for display,
    /repo/include/voxelized_geometry_tools/ros_interface.hpp and
    /repo/src/voxelized_geometry_tools/ros_interface.cpp.

    Of a marker, the model has the points and the colours.  Frame, pose and scale are
    copies of members of the map; name space, id, type, action and lifetime are
    constants.  (Message conversions are in SerialModel.) *)
From Coq Require Import ZArith List Bool.
From Flocq Require Import Core BinarySingleNaN.
From Verif Require Import Util Grid Occ FloatModel FilterModel TopologyModel ComponentMapModel SerialModel
  SurfaceModel SdfStateModel.
Import ListNotations.
Local Open Scope Z_scope.

(** std_msgs/ColorRGBA: four floats. *)
Record color : Type := mkColor { cr : b32; cg : b32; cb : b32; ca : b32 }.

Definition b32_zero : b32 := B754_zero false.
Definition b32_ltb (a b : b32) : bool := Bltb a b.

(** ros_interface.hpp:132 (also 191, 243 and 313): [cell_color.a > 0.0f]. *)
Definition visible (c : color) : bool := b32_ltb b32_zero (ca c).

(** ros_interface.cpp:80-82 (and the same lines of the other functions). *)
Definition no_color : color := mkColor b32_zero b32_zero b32_zero b32_zero.

Section Display.
(** Points, the centre of a cell in the grid frame (GridIndexToLocationInGridFrame and
    its conversion, external), LookupUniqueColor with alpha 1 (external, called by
    LookupComponentColor, ros_interface.hpp:85-90) and InterpolateHotToCold (external). *)
Variables (P : Type) (centre : idx -> P) (lookup : Z -> color) (hot_to_cold : Z -> Z -> color).

(** visualization_msgs/Marker of type CUBE_LIST. *)
Record marker : Type := mkMarker { mk_points : list P; mk_colors : list color }.
Definition empty_marker : marker := mkMarker [] [].

(** ros_interface.hpp:132-143 (also 191-201, 243-253 and 313-322). *)
Definition show (m : marker) (i : idx) (c : color) : marker :=
  if visible c then mkMarker (mk_points m ++ [centre i]) (mk_colors m ++ [c]) else m.

(** ros_interface.hpp:92-148, ExportVoxelGridToRViz.  [None] is an exception. *)
Definition export_grid {C} (g : grid C) (color_fn : C -> idx -> option color) : option marker :=
  ofold (fun m i => let* v := gget g i in let* c := color_fn v i in Some (show m i c))
    (all_idx (g_nx g) (g_ny g) (g_nz g)) empty_marker.

(** ros_interface.hpp:150-205, ExportVoxelGridIndexMapToRViz; the entries of the
    unordered_map in the order of the iteration. *)
Definition export_index_map {C} (g : grid C) (entries : surface_map)
    (color_fn : C -> idx -> option color) : option marker :=
  ofold (fun m e => let '(i, valid) := e in
           if 0 <? valid then let* v := gget g i in let* c := color_fn v i in Some (show m i c)
           else Some m) entries empty_marker.

(** ros_interface.hpp:207-256, ExportVoxelGridIndicesToRViz. *)
Definition export_indices {C} (g : grid C) (indices : list idx)
    (color_fn : C -> idx -> option color) : option marker :=
  ofold (fun m i => let* v := gget g i in let* c := color_fn v i in Some (show m i c))
    indices empty_marker.

(** ros_interface.hpp:258-328, ExportDynamicSpatialHashedVoxelGridToRViz.  A chunk is
    its base index and its cells, all chunks have the same size [n]; AccessIndex outside
    of the cells is [None]. *)
Definition export_chunks {C} (n : idx) (chunks : list (idx * list C))
    (color_fn : C -> idx -> option color) : option marker :=
  ofold (fun m chunk => let '(base, cells) := chunk in
    ofold (fun m k =>
        let i := (ix k + ix base, iy k + iy base, iz k + iz base) in
        let* v := zget cells (data_index3 (iy n) (iz n) k) in
        let* c := color_fn v i in Some (show m i c))
      (all_idx (ix n) (iy n) (iz n)) m) chunks empty_marker.

(** ** Occupancy *)

(** The colour by occupancy: ros_interface.cpp:47-63 (also 112-123, 237-253, 302-313,
    465-481, 552-568, 655-666, 828-844 and 931-942). *)
Definition occupancy_color (collision free unknown : color) (o : occ) : color :=
  if occ_gt o then collision else if occ_lt o then free else unknown.

(** ExportForDisplay, ros_interface.cpp:41-70 (also 231-260, 546-575 and 822-851). *)
Definition export_for_display {C} (occ_of : C -> occ) (g : grid C) (collision free unknown : color) : option marker :=
  export_grid g (fun v _ => Some (occupancy_color collision free unknown (occ_of v))).

(** ExportForSeparateDisplay, ros_interface.cpp:72-95 (also 262-285, 615-638 and
    891-914); the three markers in order. *)
Definition export_for_separate_display {C} (occ_of : C -> occ) (g : grid C) (collision free unknown : color)
    : option (marker * marker * marker) :=
  let* a := export_for_display occ_of g collision no_color no_color in
  let* b := export_for_display occ_of g no_color free no_color in
  let* c := export_for_display occ_of g no_color no_color unknown in
  Some (a, b, c).

(** ExportForDisplay for DynamicSpatialHashedOccupancyMap, ros_interface.cpp:459-488. *)
Definition export_chunks_for_display (n : idx) (chunks : list (idx * list occ)) (collision free unknown : color)
    : option marker :=
  export_chunks n chunks (fun v _ => Some (occupancy_color collision free unknown v)).

(** [if (occupancy_map.IsSurfaceIndex(index))]: the condition is the conversion of an
    OwningMaybe<bool> to bool, which tells whether it holds a value (external).
    ros_interface.cpp:110, 300, 653, 693, 929 and 969. *)
Definition surface_condition {C} (occ_of : C -> occ) (g : grid C) (i : idx) : option bool :=
  let* r := is_surface_index occ_of g i in Some (has_value r).

(** ExportSurfacesForDisplay, ros_interface.cpp:97-136 (also 287-326, 640-679 and
    916-955). *)
Definition export_surfaces_for_display {C} (occ_of : C -> occ) (g : grid C) (collision free unknown : color)
    : option marker :=
  export_grid g (fun v i =>
    let* b := surface_condition occ_of g i in
    Some (if b then occupancy_color collision free unknown (occ_of v) else no_color)).

(** ExportSurfacesForSeparateDisplay, ros_interface.cpp:138-164 (also 328-354, 726-752
    and 1002-1028). *)
Definition export_surfaces_for_separate_display {C} (occ_of : C -> occ) (g : grid C) (collision free unknown : color)
    : option (marker * marker * marker) :=
  let* a := export_surfaces_for_display occ_of g collision no_color no_color in
  let* b := export_surfaces_for_display occ_of g no_color free no_color in
  let* c := export_surfaces_for_display occ_of g no_color no_color unknown in
  Some (a, b, c).

(** ExportIndexMapForDisplay and ExportIndicesForDisplay, ros_interface.cpp:166-203
    (also 391-428, 754-791 and 1110-1149). *)
Definition export_index_map_for_display {C} (g : grid C) (entries : surface_map) (surface : color) : option marker :=
  export_index_map g entries (fun _ _ => Some surface).
Definition export_indices_for_display {C} (g : grid C) (indices : list idx) (surface : color) : option marker :=
  export_indices g indices (fun _ _ => Some surface).

(** ** Objects *)

(** [std::map<uint32_t, ColorRGBA>]: entries with distinct keys. *)
Definition color_map : Type := list (Z * color).
Fixpoint cmap_find (m : color_map) (k : Z) : option color :=
  match m with [] => None | (j, c) :: t => if j =? k then Some c else cmap_find t k end.

(** ros_interface.cpp:584 and 589-605 (also 688 and 695-711, 860 and 865-881, 964 and
    971-987); the condition is the one of the code. *)
Definition specifies_colors (m : color_map) : bool := match m with [] => true | _ => false end.
Definition object_color (m : color_map) (object : Z) : color :=
  if specifies_colors m then match cmap_find m object with Some c => c | None => no_color end
  else lookup object.

(** ExportForDisplay with object colours, ros_interface.cpp:577-613 (also 853-889). *)
Definition export_objects_for_display {C} (obj_of : C -> Z) (g : grid C) (m : color_map) : option marker :=
  export_grid g (fun v _ => Some (object_color m (obj_of v))).

(** ExportSurfacesForDisplay with object colours, ros_interface.cpp:681-724 (also
    957-1000). *)
Definition export_object_surfaces_for_display {C} (occ_of : C -> occ) (obj_of : C -> Z) (g : grid C) (m : color_map)
    : option marker :=
  export_grid g (fun v i =>
    let* b := surface_condition occ_of g i in
    Some (if b then object_color m (obj_of v) else no_color)).

(** ** Components and segments *)

(** 0.5f. *)
Definition b32_half : b32 := @B754_finite 24 128 false 8388608 (-24) eq_refl.
Definition grey : color := mkColor b32_half b32_half b32_half b32_one.

(** ExportConnectedComponentsForDisplay, ros_interface.cpp:356-389 (also
    1030-1063). *)
Definition export_components_for_display {C} (occ_of : C -> occ) (comp_of : C -> Z) (g : grid C) (color_unknown : bool)
    : option marker :=
  export_grid g (fun v _ =>
    Some (if negb (occ_eq (occ_of v)) then lookup (comp_of v)
          else if color_unknown then lookup (comp_of v) else grey)).

(** ExportSpatialSegmentForDisplay, ros_interface.cpp:1065-1108; Value() of the number
    of segments throws when there are none. *)
Definition export_segment_for_display (m : tmap) (object segment : Z) : option marker :=
  let* n := tm_num_segments m in
  export_grid (tm_grid m) (fun v _ =>
    Some (if (t_obj v =? object) && (t_seg v =? segment)
          then if n <? 22 then lookup (t_seg v) else hot_to_cold (t_seg v) n
          else no_color)).

(** ** Signed distance fields *)

(** ClampValue(alpha, 0.0f, 1.0f) (external). *)
Definition clamp01_b32 (a : b32) : b32 :=
  if b32_ltb a b32_zero then b32_zero else if b32_ltb b32_one a then b32_one else a.

(** 0.8f and 0.2f. *)
Definition b32_08 : b32 := @B754_finite 24 128 false 13421773 (-24) eq_refl.
Definition b32_02 : b32 := @B754_finite 24 128 false 13421773 (-26) eq_refl.

(** The lambda scale_color_value, ros_interface.hpp:336-346, for double. *)
Definition scale_color (distance extrema : b64) : b32 :=
  let ratio := b32_of_b64 (Babs (b64_div distance extrema)) in
  Bplus mode_NE (Bmult mode_NE ratio b32_08) b32_02.

(** ros_interface.hpp:349-375. *)
Definition sdf_color (alpha : b32) (minmax : b64 * b64) (d : b64) : color :=
  let a := clamp01_b32 alpha in
  let zero := B754_zero false : b64 in
  if b64_ltb zero d then mkColor b32_zero (scale_color d (snd minmax)) b32_zero a
  else if b64_ltb d zero then mkColor (scale_color d (fst minmax)) b32_zero b32_zero a
  else mkColor b32_zero b32_zero b32_one a.

(** ExportSDFForDisplay, ros_interface.hpp:332-381, for double. *)
Definition export_sdf_for_display (s : field_state b64) (alpha : b32) : option marker :=
  let* mm := get_minmax b64_ltb s in
  export_grid (f_grid s) (fun d _ => Some (sdf_color alpha mm d)).

(** ExportSDFForDisplayCollisionOnly, ros_interface.hpp:383-411, for double; the
    distance is passed as [const float&]. MakeFromFloatColors clamps (external). *)
Definition collision_color (alpha : b32) (d : b64) : color :=
  if b32_leb (b32_of_b64 d) b32_zero then mkColor b32_one b32_zero b32_zero (clamp01_b32 alpha)
  else no_color.
Definition export_collision_for_display (s : field_state b64) (alpha : b32) : option marker :=
  export_grid (f_grid s) (fun d _ => Some (collision_color alpha d)).
End Display.
