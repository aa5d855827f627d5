(** Model of /repo/src/voxelized_geometry_tools/occupancy_map_conversions.cpp. *)
From Coq Require Import ZArith List Bool.
From Verif Require Import Util Grid Occ ComponentMapModel SerialModel.
Import ListNotations.
Local Open Scope Z_scope.

(** occupancy_map_conversions.hpp:14-18, 20-24, 26-32 and 34-40; the constructors of
    the component cells (occupancy_component_map.hpp:52-53,
    tagged_object_occupancy_component_map.hpp:66-69) set component and segment to 0. *)
Definition to_ccell (o : occ) : ccell := mkCcell o 0.
Definition from_ccell (c : ccell) : occ := c_occ c.
Definition to_tccell (c : tcell) : tccell := mkTccell (g_occ c) (g_obj c) 0 0.
Definition from_tccell (c : tccell) : tcell := mkTcell (t_occ c) (t_obj c).

(** The matrix of the identity transform, as bits of doubles. *)
Definition identity_words : list Z :=
  let i := 4607182418800017408 in [i; 0; 0; 0; 0; i; 0; 0; 0; 0; i; 0; 0; 0; 0; i].

(** VoxelGridBase(): the uninitialized base; [c] is the default constructed cell. *)
Definition v_uninitialized {C} (c : C) : vgrid C :=
  mkVgrid false identity_words identity_words (0, 0, 0) (mkGrid 0 0 0 []) c c.

Section Conversions.
(** The inverse of a transform (Eigen). *)
Variable inv : list Z -> list Z.

(** VoxelGridBase(origin, sizes, default, oob): every cell holds the default.
    Simplification: the sizes are passed as the voxel sizes and counts of an existing
    grid, so that the constructor cannot reject them. *)
Definition v_construct {A C} (from : vgrid A) (default oob : C) : vgrid C :=
  mkVgrid true (v_origin from) (inv (v_origin from)) (v_sizes from)
    (gconst (g_nx (v_grid from)) (g_ny (v_grid from)) (g_nz (v_grid from)) default) default oob.

(** occupancy_map_conversions.cpp:12-46, ConvertOccupancyMapImpl, on the base part:
    [None] is an exception. The first exception is EnforceUniformVoxelSize of the
    target constructor, the second the check at 27-30. *)
Definition convert_base {A C} (conv : A -> C) (from : vgrid A) : option (vgrid C) :=
  let to := v_construct from (conv (v_default from)) (conv (v_oob from)) in
  if v_uniform to then
    if zlen (g_cells (v_grid from)) =? zlen (g_cells (v_grid to)) then
      Some (mkVgrid (v_init to) (v_origin to) (v_inverse to) (v_sizes to)
        (mkGrid (g_nx (v_grid to)) (g_ny (v_grid to)) (g_nz (v_grid to))
           (map conv (g_cells (v_grid from)))) (v_default to) (v_oob to))
    else None
  else None.

(** occupancy_map_conversions.cpp:50-55; the constructor of OccupancyComponentMap
    and GetMutableRawData leave the components invalid, their number 0. *)
Definition to_component (m : fmap occ) : option cmmap :=
  if v_init (fm_base m) then
    let* b := convert_base to_ccell (fm_base m) in Some (mkCmmap b 0 (fm_frame m) false)
  else Some (mkCmmap (v_uninitialized (mkCcell 0 0)) 0 [] false).
(** occupancy_map_conversions.cpp:57-62. *)
Definition from_component (m : cmmap) : option (fmap occ) :=
  if v_init (s_base m) then
    let* b := convert_base from_ccell (s_base m) in Some (mkFmap b (s_frame m))
  else Some (mkFmap (v_uninitialized 0) []).

(** occupancy_map_conversions.cpp:64-70 and 72-79. *)
Definition to_tagged_component (m : fmap tcell) : option tcmap :=
  if v_init (fm_base m) then
    let* b := convert_base to_tccell (fm_base m) in Some (mkTcmap b 0 0 (fm_frame m) false false)
  else Some (mkTcmap (v_uninitialized (mkTccell 0 0 0 0)) 0 0 [] false false).
Definition from_tagged_component (m : tcmap) : option (fmap tcell) :=
  if v_init (u_base m) then
    let* b := convert_base from_tccell (u_base m) in Some (mkFmap b (u_frame m))
  else Some (mkFmap (v_uninitialized (mkTcell 0 0)) []).
End Conversions.
