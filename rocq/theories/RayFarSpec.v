(** Rays of a sensor that may be outside of the grid. *)
From Coq Require Import ZArith Reals List.
From Verif Require Import Grid SdfSpec RaycastModel RayGeoSpec RayRoundSpec.
Local Open Scope R_scope.

(** On one axis with the grid between 0 and [w]: unless the way from [o] to [q] is downwards,
    [q] is past the lower side; unless it is upwards, [q] is past the upper side; both by [a]. *)
Definition reaches_axis (a w o q : R) : Prop := (q <= o - a \/ a <= q) /\ (o + a <= q \/ q <= w - a).

(** The segment from [o] to [q] does not stop before it is in front of the grid. *)
Definition reaches (v a : R) (nx ny nz : Z) (o q : pt) : Prop :=
  reaches_axis a (IZR nx * v) (px o) (px q) /\ reaches_axis a (IZR ny * v) (py o) (py q) /\
  reaches_axis a (IZR nz * v) (pz o) (pz q).

(** The ray from [o] through [p] passes by the grid; [e] is relative to the length of the
    ray in units of the distance from [o] to [p]. *)
Definition passes_by (v e : R) (nx ny nz : Z) (o p : pt) : Prop :=
  forall t i, 0 <= t -> in_box nx ny nz i -> ~ near_voxel v (e * (1 + t)) i (along o p t).

(** The counters [bs] include those of [marks_segment]; free voxels may be counted that are
    not on the segment. *)
Definition marks_at_least (v e s : R) (whole : bool) (nx ny nz : Z) (o p : pt) (bs : list bump) : Prop :=
  0 <= s <= 1 /\ (whole = true -> s = 1) /\
  (forall i b, In (i, b) bs -> in_box nx ny nz i) /\
  (forall i, In (i, true) bs -> whole = true /\ near_voxel v e i p) /\
  (forall t i, 0 <= t <= s -> in_box nx ny nz i -> deep_in_voxel v e i (along o p t) -> exists b, In (i, b) bs) /\
  (forall i, whole = true -> in_box nx ny nz i -> deep_in_voxel v e i p -> In (i, true) bs) /\
  (whole = true -> inside v e nx ny nz p -> exists i, In (i, true) bs).

(** The error for coordinates of at most [b], in a grid of at most [n] voxels of size [v] per
    axis, in binary64. *)
Definition far_error (n v b : R) : R :=
  n * (n + 64) * / 2 ^ 53 * v + 256 * / 2 ^ 53 * b + 17 / 10 ^ 10 + 9 / 10 ^ 10 * b + 101 * 10 ^ 10 * / 2 ^ 53 * (b * b).
