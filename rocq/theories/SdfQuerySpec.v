(** What the queries of a signed distance field should answer. *)
From Coq Require Import ZArith Reals List Bool Relations.
From Flocq Require Import Core.
From Verif Require Import Util Grid SdfQueryModel SdfQueryArith.
Import ListNotations.
Local Open Scope Z_scope.

(** Cells that have two neighbours on every axis. *)
Definition strictly_inside {V} (g : grid V) (i : idx) : Prop :=
  0 < ix i < g_nx g - 1 /\ 0 < iy i < g_ny g - 1 /\ 0 < iz i < g_nz g - 1.

(** The nearest existing cells on an axis with [n] cells. *)
Definition before (c : Z) : Z := Z.max 0 (c - 1).
Definition beyond (n c : Z) : Z := Z.min (n - 1) (c + 1).

(** [c] is the difference quotient of the stored distances of cells [hi] and [lo],
    whose centres are [k] cells of size [r] apart; zero when they are the same
    cell. *)
Definition quotient (g : grid R) (r : R) (k : Z) (hi lo : idx) (c : R) : Prop :=
  exists a b, gget g hi = Some a /\ gget g lo = Some b /\
    (0 < k -> c = ((a - b) / (IZR k * r))%R) /\ (k = 0 -> c = 0%R).

Definition difference_gradient (g : grid R) (r : R) (i : idx) (v : R * R * R) : Prop :=
  let '(x, y, z) := i in let '(gx, gy, gz) := v in
  quotient g r (beyond (g_nx g) x - before x) (beyond (g_nx g) x, y, z) (before x, y, z) gx /\
  quotient g r (beyond (g_ny g) y - before y) (x, beyond (g_ny g) y, z) (x, before y, z) gy /\
  quotient g r (beyond (g_nz g) z - before z) (x, y, beyond (g_nz g) z) (x, y, before z) gz.

(** ** Estimation *)

(** Pairs of indices that may be used at index [i] of an axis of [n] cells: two
    neighbours, of which [i] is one; the same cell twice if there is only one. *)
Definition good_pair (n i : Z) (p : Z * Z) : Prop :=
  0 <= fst p /\ snd p < n /\ (fst p = i \/ snd p = i) /\
  snd p = (if n =? 1 then fst p else fst p + 1).

(** An uncorrected distance moved by half a voxel towards the boundary. *)
Definition shifted (r d : R) : R := if Rle_dec 0 d then (d - r / 2)%R else (d + r / 2)%R.

(** A field in exact arithmetic. *)
Definition real_field (g : grid R) (r : R) (to_grid : qvec4 real_query -> qvec real_query)
    (to_world rotate : qvec real_query -> qvec real_query) : qfield real_query :=
  mkQField real_query g r (/ r)%R to_grid to_world rotate.

(** Coordinate [x] lies between the first and the last cell centre of an axis of [n]
    cells of size [r], or there is one cell only. *)
Definition within_centres (r : R) (n : Z) (x : R) : Prop :=
  n = 1 \/ (r / 2 <= x <= r * (IZR n - 1 / 2))%R.

(** Cell [c] has its centre within distance [t] of the location [q] (in the frame of
    the grid) on every axis. *)
Definition near_axis (r t : R) (c : Z) (q : R) : Prop := (Rabs (r * (IZR c + 1 / 2) - q) <= t)%R.
Definition near_cell (r t : R) (c : idx) (q : R * R * R) : Prop :=
  near_axis r t (ix c) (fst (fst q)) /\ near_axis r t (iy c) (snd (fst q)) /\
  near_axis r t (iz c) (snd q).

(** The location [q] lies inside the grid (in its frame). *)
Definition inside_axis (r : R) (n : Z) (q : R) : Prop := (0 <= q < r * IZR n)%R.
Definition inside (g : grid R) (r : R) (q : R * R * R) : Prop :=
  inside_axis r (g_nx g) (fst (fst q)) /\ inside_axis r (g_ny g) (snd (fst q)) /\
  inside_axis r (g_nz g) (snd q).

(** The sum of the coordinate differences of two locations. *)
Definition taxicab (p q : R * R * R) : R :=
  (Rabs (fst (fst p) - fst (fst q)) + Rabs (snd (fst p) - snd (fst q)) + Rabs (snd p - snd q))%R.

(** [c] is a difference quotient of [E] at [x] with the points [w] away from [x], one
    of them replaced by [x] itself if [E] has no answer there. *)
Definition slope (E : R -> answer R) (x w c : R) : Prop :=
  exists a b ea eb, E a = Answer ea /\ E b = Answer eb /\ (a < b)%R /\
    ((a = x - w)%R \/ (a = x /\ forall e, E (x - w)%R <> Answer e)) /\
    ((b = x + w)%R \/ (b = x /\ forall e, E (x + w)%R <> Answer e)) /\
    c = ((eb - ea) / (b - a))%R.

(** Cells that share a face. *)
Definition face_adjacent (i j : idx) : Prop :=
  (ix j = ix i + 1 /\ iy j = iy i /\ iz j = iz i) \/
  (ix j = ix i /\ iy j = iy i + 1 /\ iz j = iz i) \/
  (ix j = ix i /\ iy j = iy i /\ iz j = iz i + 1).

(** ** Following gradients *)

Section Flow.
Variable A : query_arith.
Variable s : qfield A.

(** No component of the gradient is larger than the threshold. *)
Definition flat (g : qvec A) : Prop :=
  let r := q_mul A (s_res A s) (q_flat A) in
  q_leb A (q_abs A (qx A g)) r = true /\ q_leb A (q_abs A (qy A g)) r = true /\
  q_leb A (q_abs A (qz A g)) r = true.

(** The gradient reported for a cell is flat. *)
Definition rests (i : idx) : Prop :=
  exists g, index_gradient A s i true = Answer g /\ flat g.

(** Movement along one axis: component [c] against the threshold [r]. *)
Definition axis_moves (r c : qT A) (d : Z) : Prop :=
  (q_ltb A r c = true /\ d = 1) \/
  (q_ltb A r c = false /\ q_ltb A c (q_opp A r) = true /\ d = -1) \/
  (q_ltb A r c = false /\ q_ltb A c (q_opp A r) = false /\ d = 0).

(** Cell [i] moves to [j]: along the reported gradient where the stored distance is
    not negative, against it where it is negative. *)
Definition moves (i j : idx) : Prop :=
  exists g d, index_gradient A s i true = Answer g /\ gget (s_grid A s) i = Some d /\
    ~ flat g /\
    let w := if q_ltb A (q_of A d) (q_zero A)
             then qmap A (fun c => q_mul A c (q_opp A (q_one A))) g else g in
    let r := q_mul A (s_res A s) (q_flat A) in
    axis_moves r (qx A w) (ix j - ix i) /\ axis_moves r (qy A w) (iy j - iy i) /\
    axis_moves r (qz A w) (iz j - iz i).

Definition reaches : idx -> idx -> Prop := clos_refl_trans idx moves.

(** Following gradients from [i] leaves the grid. *)
Definition escapes (i : idx) : Prop :=
  exists j, reaches i j /\ in_bounds (s_grid A s) j = false.

(** Where following gradients can end inside the grid: a flat cell, or a cell that
    is visited again. *)
Definition terminal (j : idx) : Prop :=
  rests j \/ exists k, moves j k /\ reaches k j.

Definition extrema_of (w : grid (extremum A)) : Prop :=
  gwf w /\ same_dims w (s_grid A s) /\
  forall i, in_bounds (s_grid A s) i = true ->
    exists e, gget w i = Some e /\ e <> Unset /\
      (e = OffGrid <-> escapes i) /\
      (forall c, e = At c -> exists j, in_bounds (s_grid A s) j = true /\
         reaches i j /\ terminal j /\ c = centre A s j) /\
      (rests i -> e = At (centre A s i)) /\
      forall j, moves i j -> in_bounds (s_grid A s) j = true -> gget w j = Some e.
End Flow.
