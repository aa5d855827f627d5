(** Scenes with sensors anywhere. *)
From Coq Require Import ZArith Reals List.
From Verif Require Import Grid SdfSpec RayGeoSpec RayRoundSpec RayFarSpec VoxelRoundSpec.
Local Open Scope R_scope.

(** The locations differ by more than [d] on some axis. *)
Definition apart (d : R) (o p : pt) : Prop := d < Rabs (px p - px o) \/ d < Rabs (py p - py o) \/ d < Rabs (pz p - pz o).

(** The sensor at [o], without being in the grid, has a clear view of the point at [p]: the
    segment, cut at the range, gets past the near sides of the grid, or the ray passes by
    the grid.  [a] bounds the error of coordinates, [w] that of lengths. *)
Definition clear_view (v a w : R) (nx ny nz : Z) (range : option R) (o p : pt) : Prop :=
  (forall t whole, 0 <= t <= 1 -> cut_near w range (dist o p) t whole -> reaches v a nx ny nz o (along o p t)) \/
  passes_by v a nx ny nz o p.

(** Sensor and points have coordinates of at most [b], the sensor is [x] away from the three
    planes through the origin of the grid; and it is in the grid, or it is not at the points
    and has a clear view. *)
Definition good_view (v a w d x b : R) (nx ny nz : Z) (S : sighting) : Prop :=
  within b (sg_origin S) /\
  (x <= Rabs (px (sg_origin S)) /\ x <= Rabs (py (sg_origin S)) /\ x <= Rabs (pz (sg_origin S))) /\
  forall p, In (Some p) (sg_points S) -> within b p /\
    (inside v a nx ny nz (sg_origin S) \/
     (apart d (sg_origin S) p /\ clear_view v a w nx ny nz (sg_range S) (sg_origin S) p)).
