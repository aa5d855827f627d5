(** What an estimated distance says about the voxels of the map. *)
From Coq Require Import ZArith Reals.
From Verif Require Import Grid SdfModel SdfSpec.
Local Open Scope R_scope.

(** Euclidean distance of two locations. *)
Definition gap (p q : R * R * R) : R :=
  let '(x, y, z) := p in let '(x', y', z') := q in
  sqrt ((x - x') * (x - x') + (y - y') * (y - y') + (z - z') * (z - z')).

(** Location [y] (in the frame of the grid) belongs to voxel [c], boundary included. *)
Definition in_voxel (r : R) (c : idx) (y : R * R * R) : Prop :=
  let on k q := r * IZR k <= q <= r * (IZR k + 1) in
  on (ix c) (fst (fst y)) /\ on (iy c) (snd (fst y)) /\ on (iz c) (snd y).

(** Filled voxels, and voxels of the virtual border if there is one. *)
Definition blocked (nx ny nz : Z) (filled : idx -> bool) (border : bool) (j : idx) : Prop :=
  (in_box nx ny nz j /\ filled j = true) \/ (border = true /\ in_shell nx ny nz j).

(** Free voxels, and those of the border, which is on the other side of everything. *)
Definition vacant (nx ny nz : Z) (filled : idx -> bool) (border : bool) (j : idx) : Prop :=
  (in_box nx ny nz j /\ filled j = false) \/ (border = true /\ in_shell nx ny nz j).

(** The grid [f] of reals holds the finite values of [g]. *)
Definition reals_of {V} (value : V -> R -> Prop) (g : grid V) (f : grid R) : Prop :=
  gwf f /\ g_nx f = g_nx g /\ g_ny f = g_ny g /\ g_nz f = g_nz g /\
  forall i v, gget g i = Some v -> exists d, gget f i = Some d /\ value v d.

(** A reported distance [e] at location [q]: it exceeds the distance to no location of a
    blocked voxel by more than [a], and a location of a blocked voxel is, up to [b], as
    close as reported; the same with the sign changed for vacant voxels.  True distances
    may be off by the relative error [eps]. *)
Definition clearance (eps r : R) (nx ny nz : Z) (filled : idx -> bool) (border : bool) (e a b : R)
    (q : R * R * R) : Prop :=
  ((forall j y, blocked nx ny nz filled border j -> in_voxel r j y -> e <= (1 + eps) * gap q y + a) /\
   exists j y, blocked nx ny nz filled border j /\ in_voxel r j y /\ (1 - eps) * gap q y <= Rmax e 0 + b) /\
  ((forall j y, vacant nx ny nz filled border j -> in_voxel r j y -> - e <= (1 + eps) * gap q y + a) /\
   exists j y, vacant nx ny nz filled border j /\ in_voxel r j y /\ (1 - eps) * gap q y <= Rmax (- e) 0 + b).
