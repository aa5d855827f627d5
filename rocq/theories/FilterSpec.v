(** What filtering should do, independently of the loops of the code. *)
From Coq Require Import ZArith Reals List Bool.
From Flocq Require Import Core BinarySingleNaN.
From Verif Require Import Util Grid FloatModel Occ RaycastModel RaycastSpec FilterModel.
Import ListNotations.
Local Open Scope Z_scope.

(** Counts of observations that a camera can produce: their sum fits in 32 bits. *)
Definition counts_ok (free filled : Z) : Prop :=
  0 <= free /\ 0 <= filled /\ free + filled < 2 ^ 31.

(** The share of free observations, as a real number. *)
Definition share (free filled : Z) : R := (IZR free / IZR (free + filled))%R.

(** Options a user can mean: a percentage in (0, 1] and positive thresholds. *)
Definition valid_options (o : filter_options) : Prop :=
  is_finite (o_percent o) = true /\ (0 < B2R (o_percent o) <= 1)%R /\
  0 < o_outlier o /\ 0 < o_cameras o.

(** A tracking grid that belongs to map [g], with possible counts. *)
Definition tracks (g : grid occ) (t : tgrid) : Prop :=
  gwf t /\ same_dims t g /\ forall i f s, gget t i = Some (f, s) -> counts_ok f s.

(** Number of cameras that classify cell [i] as [w]. *)
Definition seen_eqb (a b : seen) : bool :=
  match a, b with
  | SeenUnknown, SeenUnknown | SeenFilled, SeenFilled | SeenFree, SeenFree => true
  | _, _ => false
  end.

Definition cameras_seeing (cls : Z -> Z -> option seen) (w : seen) (tgs : list tgrid) (i : idx) : Z :=
  zlen (filter (fun t => match gget t i with
                         | Some (f, s) => match cls f s with Some v => seen_eqb w v | None => false end
                         | None => false
                         end) tgs).

(** The map [g'] is [g] filtered, where [filled i] and [free i] cameras see cell [i]
    filled and free. *)
Definition filtered_by (filled free : idx -> Z) (cameras : Z) (g g' : grid occ) : Prop :=
  gwf g' /\ same_dims g' g /\
  forall i b, gget g i = Some b ->
    (occ_le b = false -> gget g' i = Some b) /\
    (occ_le b = true -> 0 < filled i -> gget g' i = Some one_bits) /\
    (occ_le b = true -> filled i = 0 -> cameras <= free i -> gget g' i = Some zero_bits) /\
    (occ_le b = true -> filled i = 0 -> free i < cameras -> gget g' i = Some half_bits).

Definition filtered (cls : Z -> Z -> option seen) (cameras : Z) (tgs : list tgrid) (g g' : grid occ) : Prop :=
  filtered_by (cameras_seeing cls SeenFilled tgs) (cameras_seeing cls SeenFree tgs) cameras g g'.

(** Number of clouds whose points, cast into the grid, classify cell [i] as [w]. *)
Definition clouds_seeing (A : ray_arith) (rg : ray_grid A) (cls : Z -> Z -> option seen) (w : seen)
    (clouds : list (cloud A)) (i : idx) : Z :=
  zlen (filter (fun c => match cls (points_counting A rg c (i, false)) (points_counting A rg c (i, true)) with
                         | Some v => seen_eqb w v | None => false end) clouds).

Definition voxelized (A : ray_arith) (rg : ray_grid A) (cls : Z -> Z -> option seen) (cameras : Z)
    (clouds : list (cloud A)) (g g' : grid occ) : Prop :=
  filtered_by (clouds_seeing A rg cls SeenFilled clouds) (clouds_seeing A rg cls SeenFree clouds) cameras g g'.

(** A map with the dimensions of the ray casting grid. *)
Definition map_for {A} (rg : ray_grid A) (g : grid occ) : Prop :=
  gwf g /\ g_nx g = rg_nx A rg /\ g_ny g = rg_ny A rg /\ g_nz g = rg_nz A rg.

(** No cloud has more points than fit in an int32_t counter. *)
Definition few_points (A : ray_arith) (clouds : list (cloud A)) : Prop :=
  Forall (fun c => zlen (c_points A c) < 2 ^ 31) clouds.

(** Device memory holding the counters of the grids [tgs] of [cells] cells, one
    grid after the other, free count before filled count. *)
Definition holds (cells : Z) (mem : list Z) (tgs : list tgrid) : Prop :=
  zlen mem = 2 * (cells * zlen tgs) /\
  forall k t v c, zget tgs k = Some t -> zget (g_cells t) v = Some c ->
    zget mem (2 * (cells * k + v)) = Some (fst c) /\
    zget mem (2 * (cells * k + v) + 1) = Some (snd c).

(** The binary32 share test cannot differ from the binary64 one: the share is not
    within a relative distance of 2^-21 below or above the percentage, or the
    percentage is one and the counts are exact in binary32. *)
Definition clear_cut (percent : b64) (free filled : Z) : Prop :=
  (B2R percent * (1 + bpow radix2 (-21)) <= share free filled)%R \/
  (share free filled <= B2R percent * (1 - bpow radix2 (-21)))%R \/
  (percent = b64_one /\ free + filled <= 2 ^ 24).
