(** What a distance reported by the field of a voxelized scene says about the scene. *)
From Coq Require Import ZArith Reals List Bool.
From Verif Require Import Util Grid Occ SdfModel SdfSpec SdfQuerySpec ClearanceSpec RayGeoSpec RayRoundSpec VoxelRoundSpec.
Import ListNotations.
Local Open Scope R_scope.

(** The map [g] reflects the sightings and the environment [static]: cells filled in the
    environment are filled, a point certainly shown is in or next to a filled cell, and
    other filled cells have a point that may be in them. *)
Definition reflects (v e w : R) (nx ny nz : Z) (seen : list sighting) (static g : grid occ) : Prop :=
  (forall i b, gget static i = Some b -> occ_gt b = true -> gget g i = Some b) /\
  (forall S p, In S seen -> In (Some p) (sg_points S) -> surely_shown v e w nx ny nz S p ->
   exists i b, gget g i = Some b /\ occ_gt b = true /\ near_voxel v e i p) /\
  (forall i b, gget g i = Some b -> occ_gt b = true -> gget static i = Some b \/
   exists S p, In S seen /\ In (Some p) (sg_points S) /\ may_end v e w S i p).

(** Locations [y] that are certainly, or possibly, in the way: points of the sensors,
    voxels filled in the environment, and the voxels of the virtual border. *)
Definition surely_blocks (v e w : R) (nx ny nz : Z) (seen : list sighting) (static : grid occ) (border : bool) (y : pt) : Prop :=
  (exists S, In S seen /\ In (Some y) (sg_points S) /\ surely_shown v e w nx ny nz S y) \/
  (exists j b, gget static j = Some b /\ occ_gt b = true /\ in_voxel v j y) \/
  (border = true /\ exists j, in_shell nx ny nz j /\ in_voxel v j y).
Definition may_block (v e w : R) (nx ny nz : Z) (seen : list sighting) (static : grid occ) (border : bool) (y : pt) : Prop :=
  (exists S i, In S seen /\ In (Some y) (sg_points S) /\ in_box nx ny nz i /\ may_end v e w S i y) \/
  (exists j b, gget static j = Some b /\ occ_gt b = true /\ in_voxel v j y) \/
  (border = true /\ exists j, in_shell nx ny nz j /\ in_voxel v j y).

(** Locations of voxels that are unknown in the map. *)
Definition unknown_at (v : R) (g : grid occ) (y : pt) : Prop :=
  exists j b, gget g j = Some b /\ occ_eq b = true /\ in_voxel v j y.

(** A distance [d] reported at [q]: it exceeds the distance to nothing that is in the way
    by more than [a], and something that may be in the way is, up to [b], as close. *)
Definition brackets (eps a b : R) (surely may : pt -> Prop) (d : R) (q : pt) : Prop :=
  (forall y, surely y -> d <= (1 + eps) * dist q y + a) /\
  exists y, may y /\ (1 - eps) * dist q y <= Rmax d 0 + b.

(** On one axis: at least [m] inside the outermost centres, or in the only cell. *)
Definition in_reach (r m : R) (n : Z) (x : R) : Prop :=
  (n = 1%Z /\ m <= x <= r - m) \/ (r / 2 + m <= x <= r * (IZR n - 1 / 2) - m).
Definition in_reach3 (r m : R) (nx ny nz : Z) (q : pt) : Prop :=
  in_reach r m nx (px q) /\ in_reach r m ny (py q) /\ in_reach r m nz (pz q).
