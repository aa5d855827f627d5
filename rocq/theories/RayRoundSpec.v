(** Rays computed with rounding: what is required of the arithmetic and of the rays. *)
From Coq Require Import ZArith Reals List.
From Flocq Require Import Core.
From Verif Require Import Util Grid SdfSpec RaycastModel RayGeoSpec.
Local Open Scope R_scope.

(** Finite numbers [fin] of [A] stand for reals; operations have relative error [u], and
    absolute error [eta] where products and quotients become tiny, unless the result
    exceeds [M]; floor is right up to [L]. *)
Record rounded_ray (A : ray_arith) (fin : rT A -> bool) (val : rT A -> R) (u eta M L : R) : Prop := {
  rr_zero : fin (r_zero A) = true /\ val (r_zero A) = 0;
  rr_half : fin (r_half A) = true /\ val (r_half A) = / 2;
  rr_add a b : fin a = true -> fin b = true -> Rabs (val a + val b) <= M ->
    fin (r_add A a b) = true /\
    Rabs (val (r_add A a b) - (val a + val b)) <= u * Rabs (val a + val b) /\
    (0 <= val b -> val a <= val (r_add A a b)) /\ (val b <= 0 -> val (r_add A a b) <= val a);
  rr_sub a b : fin a = true -> fin b = true -> Rabs (val a - val b) <= M ->
    fin (r_sub A a b) = true /\ Rabs (val (r_sub A a b) - (val a - val b)) <= u * Rabs (val a - val b);
  rr_mul a b : fin a = true -> fin b = true -> Rabs (val a * val b) <= M ->
    fin (r_mul A a b) = true /\
    Rabs (val (r_mul A a b) - val a * val b) <= u * Rabs (val a * val b) + eta /\
    (0 <= val a * val b -> 0 <= val (r_mul A a b)) /\ (val a * val b <= 0 -> val (r_mul A a b) <= 0);
  rr_mul_mono a b c : fin a = true -> fin b = true -> fin c = true ->
    Rabs (val a * val c) <= M -> Rabs (val b * val c) <= M ->
    val a * val c <= val b * val c -> val (r_mul A a c) <= val (r_mul A b c);
  rr_div a b : fin a = true -> fin b = true -> val b <> 0 -> Rabs (val a / val b) <= M ->
    fin (r_div A a b) = true /\ Rabs (val (r_div A a b) - val a / val b) <= u * Rabs (val a / val b) + eta;
  rr_clip a b : fin a = true -> 0 <= val a -> r_ltb A a b = true ->
    fin (r_div A a b) = true /\ 0 <= val (r_div A a b) <= 1;
  rr_abs a : fin a = true -> fin (r_abs A a) = true /\ val (r_abs A a) = Rabs (val a);
  rr_ltb a b : fin a = true -> fin b = true -> r_ltb A a b = Rlt_bool (val a) (val b);
  rr_leb a b : fin a = true -> fin b = true -> r_leb A a b = Rle_bool (val a) (val b);
  rr_leb_inf a : fin a = true -> r_leb A a (r_inf A) = true /\ r_leb A (r_inf A) a = false;
  rr_inf a : r_ltb A (r_inf A) a = false;
  rr_floor a : fin a = true -> Rabs (val a) <= L -> r_floor A a = Zfloor (val a);
  rr_ofZ z : IZR (Z.abs z) <= L -> fin (r_ofZ A z) = true /\ Rabs (val (r_ofZ A z) - IZR z) <= u * Rabs (IZR z) }.

(** The location stored in a vector. *)
Definition reals (A : ray_arith) (val : rT A -> R) (v : vec A) : pt := (val (vx A v), val (vy A v), val (vz A v)).

(** A location is in voxel [i] enlarged by [e] on every side; or in it with a distance of
    [e] to every side. *)
Definition near_voxel (v e : R) (i : idx) (q : pt) : Prop :=
  (IZR (ix i) * v - e <= px q <= (IZR (ix i) + 1) * v + e) /\
  (IZR (iy i) * v - e <= py q <= (IZR (iy i) + 1) * v + e) /\
  (IZR (iz i) * v - e <= pz q <= (IZR (iz i) + 1) * v + e).
Definition deep_in_voxel (v e : R) (i : idx) (q : pt) : Prop :=
  (IZR (ix i) * v + e < px q < (IZR (ix i) + 1) * v - e) /\
  (IZR (iy i) * v + e < py q < (IZR (iy i) + 1) * v - e) /\
  (IZR (iz i) * v + e < pz q < (IZR (iz i) + 1) * v - e).

(** In the grid, at least [a] away from its sides. *)
Definition inside (v a : R) (nx ny nz : Z) (p : pt) : Prop :=
  a <= px p <= IZR nx * v - a /\ a <= py p <= IZR ny * v - a /\ a <= pz p <= IZR nz * v - a.

(** Differences of coordinates that are neither zero nor tiny. *)
Definition not_tiny (x d : R) : Prop := d = 0 \/ x <= Rabs d.

(** Finite coordinates of at most [b], with differences that are zero or at least [x]. *)
Definition good_ray (A : ray_arith) (fin : rT A -> bool) (val : rT A -> R) (b x : R) (o p : vec A) : Prop :=
  forall f, f = vx A \/ f = vy A \/ f = vz A ->
  fin (f o) = true /\ fin (f p) = true /\ Rabs (val (f o)) <= b /\ Rabs (val (f p)) <= b /\
  not_tiny x (val (f p) - val (f o)).

(** The counters [bs] are those of the voxels on the first part, up to [s], of the segment
    from [o] to [p], up to [e]; [whole] says that the segment is not cut, and then the voxel
    of [p] is the filled one; there is one if [p] is in the grid. *)
Definition marks_segment (v e s : R) (whole : bool) (nx ny nz : Z) (o p : pt) (bs : list bump) : Prop :=
  0 <= s <= 1 /\ (whole = true -> s = 1) /\
  (forall i b, In (i, b) bs -> in_box nx ny nz i /\ exists t, 0 <= t <= s /\ near_voxel v e i (along o p t)) /\
  (forall i, In (i, true) bs -> whole = true /\ near_voxel v e i p) /\
  (forall t i, 0 <= t <= s -> in_box nx ny nz i -> deep_in_voxel v e i (along o p t) -> exists b, In (i, b) bs) /\
  (forall i, whole = true -> in_box nx ny nz i -> deep_in_voxel v e i p -> In (i, true) bs) /\
  (whole = true -> inside v e nx ny nz p -> exists i, In (i, true) bs).

(** The segment of length [d] is cut at the range, [None] for no limit, up to [e]. *)
Definition cut_near (e : R) (range : option R) (d s : R) (whole : bool) : Prop :=
  match range with
  | None => s = 1 /\ whole = true
  | Some m => Rabs (s * d - Rmin d m) <= e /\ (d + e <= m -> whole = true) /\ (m + e < d -> whole = false)
  end.

(** A number that stands for the range. *)
Definition stands_for (A : ray_arith) (fin : rT A -> bool) (val : rT A -> R) (m : rT A) (range : option R) : Prop :=
  match range with
  | None => m = r_inf A
  | Some r => fin m = true /\ 0 <= r /\ val m = r
  end.

(** Counters, free and filled, of a cloud of points seen from [o]: positive ones come from a
    segment that is near the voxel within the range, and segments deep in a voxel within the
    range are counted; lengths are known up to the fraction [w]. *)
Definition up_to (range : option R) (x : R) : Prop := match range with None => True | Some m => x <= m end.
Definition counts_segments (v e w : R) (range : option R) (o : pt) (points : list pt) (count : idx -> option (Z * Z)) : Prop :=
  forall i f s, count i = Some (f, s) ->
  (0 <= f /\ 0 <= s)%Z /\
  ((0 < f)%Z -> exists p t, In p points /\ 0 <= t <= 1 /\ up_to range (t * dist o p - w * dist o p) /\ near_voxel v e i (along o p t)) /\
  ((0 < s)%Z -> exists p, In p points /\ up_to range (dist o p - w * dist o p) /\ near_voxel v e i p) /\
  (forall p t, In p points -> 0 <= t <= 1 -> up_to range (t * dist o p + 2 * w * dist o p) -> deep_in_voxel v e i (along o p t) ->
   (0 < f \/ 0 < s)%Z) /\
  (forall p, In p points -> up_to range (dist o p + w * dist o p) -> deep_in_voxel v e i p -> (0 < s)%Z).
