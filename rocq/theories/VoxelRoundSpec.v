(** What voxelization should do with sensors and points in space, up to rounding. *)
From Coq Require Import ZArith Reals List Bool.
From Flocq Require Import Core BinarySingleNaN.
From Verif Require Import Util Grid SdfSpec FloatModel Occ RaycastModel RayGeoSpec RayRoundSpec RayFloatModel PoseModel.
Import ListNotations.
Local Open Scope R_scope.

(** The location of [p] after the motion given by the numbers of [X], without rounding. *)
Definition rdot (a b : pt) : R := px a * px b + py a * py b + pz a * pz b.
Definition placed (A : ray_arith) (val : rT A -> R) (X : pose A) (p : pt) : pt :=
  (rdot (reals A val (po_x A X)) p + px (reals A val (po_t A X)),
   rdot (reals A val (po_y A X)) p + py (reals A val (po_t A X)),
   rdot (reals A val (po_z A X)) p + pz (reals A val (po_t A X))).

(** A sensor in the frame of the grid, the locations of its points ([None] where a point is
    marked as invalid) and its range. *)
Record sighting : Type := mkSighting { sg_origin : pt; sg_points : list (option pt); sg_range : option R }.

(** The point of the sighting at [p] is certainly, or possibly, in voxel [i] and within the
    range; the segment to it certainly, or possibly, passes through the voxel within the
    range.  [e] bounds the error of coordinates, [w] that of lengths. *)
Definition surely_ends (v e w : R) (S : sighting) (i : idx) (p : pt) : Prop :=
  up_to (sg_range S) (dist (sg_origin S) p + w) /\ deep_in_voxel v e i p.
Definition may_end (v e w : R) (S : sighting) (i : idx) (p : pt) : Prop :=
  up_to (sg_range S) (dist (sg_origin S) p - w) /\ near_voxel v e i p.
Definition surely_passes (v e w : R) (S : sighting) (i : idx) (p : pt) : Prop :=
  exists t, 0 <= t <= 1 /\ up_to (sg_range S) (t * dist (sg_origin S) p + w) /\ deep_in_voxel v e i (along (sg_origin S) p t).
Definition may_pass (v e w : R) (S : sighting) (i : idx) (p : pt) : Prop :=
  exists t, 0 <= t <= 1 /\ up_to (sg_range S) (t * dist (sg_origin S) p - w) /\ near_voxel v e i (along (sg_origin S) p t).

(** The point of the sighting at [p] is certainly within the range and in the grid. *)
Definition surely_shown (v e w : R) (nx ny nz : Z) (S : sighting) (p : pt) : Prop :=
  up_to (sg_range S) (dist (sg_origin S) p + w) /\ inside v e nx ny nz p.

(** At least [n] positions of [l] hold an element with property [P]. *)
Definition at_least {X} (n : Z) (P : X -> Prop) (l : list X) : Prop :=
  exists ks, NoDup ks /\ (n <= zlen ks)%Z /\ forall k, In k ks -> exists x, zget l k = Some x /\ P x.

(** The point exists and has the property. *)
Definition valid_and (P : pt -> Prop) (q : option pt) : Prop := exists p, q = Some p /\ P p.

(** The map [g] shows what the sensors saw in the environment [static]: cells filled there
    are kept.  A cell becomes filled only if enough points of one sensor may be in it, and
    free only if enough sensors may see through it.  It does become filled if enough
    points of one sensor are certainly in it and no other ray of the sensor may pass it;
    free if enough sensors certainly see through it and no point may be in it; and unknown
    if no ray may pass it. *)
Definition shows (v e w : R) (outlier cameras : Z) (seen : list sighting) (static g : grid occ) : Prop :=
  forall i b, gget static i = Some b ->
  exists b', gget g i = Some b' /\
    (occ_le b = false -> b' = b) /\
    (occ_le b = true ->
     (b' = one_bits \/ b' = zero_bits \/ b' = half_bits) /\
     (b' = one_bits -> exists S, In S seen /\ at_least outlier (valid_and (may_end v e w S i)) (sg_points S)) /\
     (b' = zero_bits -> at_least cameras (fun S => exists p, In (Some p) (sg_points S) /\ may_pass v e w S i p) seen) /\
     ((exists S, In S seen /\ at_least outlier (valid_and (surely_ends v e w S i)) (sg_points S) /\
       forall p, In (Some p) (sg_points S) -> may_pass v e w S i p -> surely_ends v e w S i p) -> b' = one_bits) /\
     (at_least cameras (fun S => exists p, In (Some p) (sg_points S) /\ surely_passes v e w S i p) seen ->
      (forall S p, In S seen -> In (Some p) (sg_points S) -> ~ may_end v e w S i p) -> b' = zero_bits) /\
     ((forall S p, In S seen -> In (Some p) (sg_points S) -> ~ may_pass v e w S i p) -> b' = half_bits)).

(** Numbers of a transform: finite, with entries of at most 2 and a translation of at most
    [s]. *)
Definition tame (A : ray_arith) (fin : rT A -> bool) (val : rT A -> R) (s : R) (X : pose A) : Prop :=
  forall f, f = vx A \/ f = vy A \/ f = vz A ->
  (forall a, a = po_x A X \/ a = po_y A X \/ a = po_z A X -> fin (f a) = true /\ Rabs (val (f a)) <= 2) /\
  fin (f (po_t A X)) = true /\ Rabs (val (f (po_t A X))) <= s.

(** Coordinates of at most [s]. *)
Definition within (s : R) (p : pt) : Prop := Rabs (px p) <= s /\ Rabs (py p) <= s /\ Rabs (pz p) <= s.

(** The sighting of a cloud with points [points] in the frame of a sensor with pose [X], in
    a grid of pose [G] in the world; both are poses of double precision. *)
Definition sighting_of (A B : ray_arith) (val : rT A -> R) (valB : rT B -> R) (G X : pose A) (points : list (vec B))
    (range : option R) : sighting :=
  mkSighting (placed A val G (placed A val X (0, 0, 0)))
    (map (fun p => if vfinite B p then Some (placed A val G (placed A val X (reals B valB p))) else None) points) range.

(** Ranges a user can mean: infinite, or a moderate number. *)
Definition good_range (m : b64) : Prop := m = B754_infinity false \/ (is_finite m = true /\ 0 <= B2R m <= bpow radix2 100).
Definition range_of (m : b64) : option R := if is_finite m then Some (B2R m) else None.

(** A sensor with pose [X] in the world whose cloud can be voxelized: moderate numbers, and
    the sensor at least [a] inside a grid with pose [G]. *)
Definition good_sensor (A B : ray_arith) (fin : rT A -> bool) (val : rT A -> R) (valB : rT B -> R) (s v a : R) (nx ny nz : Z)
    (G X : pose A) (points : list (vec B)) (m : b64) : Prop :=
  tame A fin val s X /\ (forall p, In p points -> vfinite B p = true -> within s (reals B valB p)) /\
  good_range m /\ (zlen points < 2 ^ 31)%Z /\ inside v a nx ny nz (placed A val G (placed A val X (0, 0, 0))).
