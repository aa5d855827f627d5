(** Model of the gradient, distance estimation, projection and local extrema queries
    of a signed distance field,
    /repo/include/voxelized_geometry_tools/signed_distance_field.hpp. *)
From Coq Require Import ZArith List Bool.
From Verif Require Import Util Grid.
Import ListNotations.
Local Open Scope Z_scope.

(** Arithmetic of the queries: [qT] is double, [qS] the stored scalar type (float or
    double).  [q_norm] is Vector4d::norm of a vector with last entry 0,
    [q_trilinear] is TrilinearInterpolate of common_robotics_utilities (external):
    lower corner, upper corner, the eight values in the order of the call and the
    query.  [q_floor] is floor and the conversion to int64_t, undefined in C++ for
    values that do not fit; the model lets it be any function. *)
Record query_arith : Type := mkQuery {
  qS : Type; qT : Type;
  q_ssub : qS -> qS -> qS; q_of : qS -> qT;
  q_zero : qT; q_half : qT; q_one : qT; q_two : qT; q_quarter : qT;
  q_flat : qT;                          (* the literal 0.06125 *)
  q_milli : qT;                         (* the literal 1e-3 *)
  q_add : qT -> qT -> qT; q_sub : qT -> qT -> qT;
  q_mul : qT -> qT -> qT; q_div : qT -> qT -> qT;
  q_opp : qT -> qT; q_abs : qT -> qT;
  q_norm : qT -> qT -> qT -> qT;
  q_ltb : qT -> qT -> bool; q_leb : qT -> qT -> bool; q_eqb : qT -> qT -> bool;
  q_floor : qT -> Z; q_ofZ : Z -> qT;
  q_trilinear : qT * qT * qT -> qT * qT * qT -> list qT -> qT * qT * qT -> qT }.

(** Result of a call that may throw or return an empty query object
    (EstimateDistanceQuery, GradientQuery, ProjectedPosition). *)
Inductive answer (X : Type) : Type := Throws | Empty | Answer (x : X).
Arguments Throws {X}. Arguments Empty {X}. Arguments Answer {X} _.

(** Value() throws on an empty query. *)
Definition value_of {X Y} (a : answer X) (f : X -> answer Y) : answer Y :=
  match a with Answer x => f x | _ => Throws end.
(** A stored value, GetIndexImmutable(...).Value(). *)
Definition stored {X Y} (o : option X) (f : X -> answer Y) : answer Y :=
  match o with Some x => f x | None => Throws end.

Section Query.
Variable A : query_arith.
Notation T := (qT A).
Notation S := (qS A).
Notation "a +: b" := (q_add A a b) (at level 50, left associativity).
Notation "a -: b" := (q_sub A a b) (at level 50, left associativity).
Notation "a *: b" := (q_mul A a b) (at level 40, left associativity).
Notation "a /: b" := (q_div A a b) (at level 40, left associativity).

Definition qvec : Type := (T * T * T)%type.
Definition qx (v : qvec) : T := fst (fst v).
Definition qy (v : qvec) : T := snd (fst v).
Definition qz (v : qvec) : T := snd v.
(** Vector4d: three coordinates and w. *)
Definition qvec4 : Type := (qvec * T)%type.

Definition qmap (f : T -> T) (v : qvec) : qvec := (f (qx v), f (qy v), f (qz v)).
Definition qmap2 (f : T -> T -> T) (u v : qvec) : qvec :=
  (f (qx u) (qx v), f (qy u) (qy v), f (qz u) (qz v)).

(** What the queries use of a field: the stored values, Resolution() (VoxelXSize),
    its inverse, InverseOriginTransform() applied to a location, OriginTransform()
    applied to a location of the grid frame (w = 1) and to a direction (w = 0).  An
    Eigen isometry leaves w as it is. *)
Record qfield : Type := mkQField {
  s_grid : grid S; s_res : T; s_inv : T;
  s_to_grid : qvec4 -> qvec; s_to_world : qvec -> qvec; s_rotate : qvec -> qvec }.

Variable s : qfield.
Notation res := (s_res s).

(** LocationToGridIndex4d (external). *)
Definition location_index (p : qvec4) : idx :=
  let q := s_to_grid s p in
  (q_floor A (qx q *: s_inv s), q_floor A (qy q *: s_inv s), q_floor A (qz q *: s_inv s)).

(** GridIndexToLocationInGridFrame (external), the centre of a cell. *)
Definition centre (i : idx) : qvec :=
  (res *: (q_ofZ A (ix i) +: q_half A), res *: (q_ofZ A (iy i) +: q_half A),
   res *: (q_ofZ A (iz i) +: q_half A)).

(** ** Coarse gradient *)

(** signed_distance_field.hpp:935-951, the central difference of one axis: [hi] and
    [lo] are subtracted as stored scalars, the product is in double. *)
Definition central (hi lo : idx) (f : T -> answer qvec) : answer qvec :=
  stored (gget (s_grid s) hi) (fun a =>
  stored (gget (s_grid s) lo) (fun b =>
    f (q_of A (q_ssub A a b) *: (q_one A /: (q_two A *: res))))).

(** signed_distance_field.hpp:974-1010, one axis at an edge of the grid, where
    [n] is the difference of the two indices of the axis. *)
Definition edge_axis (n : Z) (hi lo : idx) (f : T -> answer qvec) : answer qvec :=
  let increment := q_ofZ A n *: res in
  if q_ltb A (q_zero A) increment then
    stored (gget (s_grid s) hi) (fun a =>
    stored (gget (s_grid s) lo) (fun b =>
      f ((q_of A a -: q_of A b) *: (q_one A /: increment))))
  else f (q_zero A).

(** signed_distance_field.hpp:922-1025, GetGridAlignedIndexCoarseGradient. *)
Definition grid_gradient (i : idx) (edges : bool) : answer qvec :=
  let '(x, y, z) := i in
  let nx := g_nx (s_grid s) in let ny := g_ny (s_grid s) in let nz := g_nz (s_grid s) in
  if in_bounds (s_grid s) i then
    if (0 <? x) && (0 <? y) && (0 <? z) && (x <? nx - 1) && (y <? ny - 1) && (z <? nz - 1) then
      central (x + 1, y, z) (x - 1, y, z) (fun gx =>
      central (x, y + 1, z) (x, y - 1, z) (fun gy =>
      central (x, y, z + 1) (x, y, z - 1) (fun gz => Answer (gx, gy, gz))))
    else if edges then
      let lx := Z.max 0 (x - 1) in let hx := Z.min (nx - 1) (x + 1) in
      let ly := Z.max 0 (y - 1) in let hy := Z.min (ny - 1) (y + 1) in
      let lz := Z.max 0 (z - 1) in let hz := Z.min (nz - 1) (z + 1) in
      edge_axis (hx - lx) (hx, y, z) (lx, y, z) (fun gx =>
      edge_axis (hy - ly) (x, hy, z) (x, ly, z) (fun gy =>
      edge_axis (hz - lz) (x, y, hz) (x, y, lz) (fun gz => Answer (gx, gy, gz))))
    else Empty
  else Empty.

(** signed_distance_field.hpp:903-920, GetIndexCoarseGradient. *)
Definition index_gradient (i : idx) (edges : bool) : answer qvec :=
  match grid_gradient i edges with
  | Answer g => Answer (s_rotate s g)
  | r => r
  end.

(** signed_distance_field.hpp:879-893, GetLocationCoarseGradient4d. *)
Definition location_gradient (p : qvec4) (edges : bool) : answer qvec :=
  let i := location_index p in
  if in_bounds (s_grid s) i then index_gradient i edges else Empty.

(** ** Distance estimation *)

(** signed_distance_field.hpp:260-275, GetCorrectedCenterDistance; the stored value
    is read by the caller below. *)
Definition corrected (d : S) : T :=
  let offset := res *: q_half A in
  if q_leb A (q_zero A) (q_of A d) then q_of A d -: offset else q_of A d +: offset.

(** signed_distance_field.hpp:278-312, GetAxisInterpolationIndices. *)
Definition axis_indices (i n : Z) (offset : T) : Z * Z :=
  if q_leb A (q_zero A) offset then
    if n <=? i + 1 then (if i - 1 <? 0 then i else i - 1, i) else (i, i + 1)
  else
    if i - 1 <? 0 then (i, if n <=? i + 1 then i else i + 1) else (i - 1, i).

(** Cells in the order in which signed_distance_field.hpp:345-376 reads and passes
    them. *)
Definition corner_cells (px py pz : Z * Z) : list idx :=
  [(fst px, fst py, fst pz); (fst px, fst py, snd pz);
   (fst px, snd py, fst pz); (fst px, snd py, snd pz);
   (snd px, fst py, fst pz); (snd px, fst py, snd pz);
   (snd px, snd py, fst pz); (snd px, snd py, snd pz)].

Fixpoint read_corrected (cells : list idx) : option (list T) :=
  match cells with
  | [] => Some []
  | c :: t =>
    let* d := gget (s_grid s) c in
    let* r := read_corrected t in Some (corrected d :: r)
  end.

(** signed_distance_field.hpp:318-343, the pairs of indices used on the three axes. *)
Definition interpolation_pairs (p : qvec4) (i : idx) : (Z * Z) * (Z * Z) * (Z * Z) :=
  let offset := qmap2 (q_sub A) (s_to_grid s p) (centre i) in
  (axis_indices (ix i) (g_nx (s_grid s)) (qx offset),
   axis_indices (iy i) (g_ny (s_grid s)) (qy offset),
   axis_indices (iz i) (g_nz (s_grid s)) (qz offset)).

(** signed_distance_field.hpp:315-379, EstimateDistanceInterpolateFromNeighbors. *)
Definition interpolate (p : qvec4) (i : idx) : answer T :=
  let '(px, py, pz) := interpolation_pairs p i in
  let lower := centre (fst px, fst py, fst pz) in
  let upper := qmap (fun c => c +: res) lower in
  stored (read_corrected (corner_cells px py pz)) (fun values =>
    Answer (q_trilinear A lower upper values (s_to_grid s p))).

(** signed_distance_field.hpp:820-835, EstimateLocationDistance4d. *)
Definition estimate (p : qvec4) : answer T :=
  let i := location_index p in
  if in_bounds (s_grid s) i then interpolate p i else Empty.

(** signed_distance_field.hpp:837-848, EstimateIndexDistance. *)
Definition estimate_index (i : idx) : answer T := estimate (s_to_world s (centre i), q_one A).

(** ** Fine gradient *)

(** signed_distance_field.hpp:214-255, ComputeAxisFineGradient. *)
Definition fine_axis (here minus plus : answer T) (x xmin xmax : T) : answer T :=
  match here, minus, plus with
  | Answer _, Answer m, Answer p => Answer ((p -: m) /: (xmax -: xmin))
  | Answer h, Answer m, _ => Answer ((h -: m) /: (x -: xmin))
  | Answer h, _, Answer p => Answer ((p -: h) /: (xmax -: x))
  | _, _, _ => Throws
  end.

(** signed_distance_field.hpp:1051-1092, GetLocationFineGradient.  Simplification:
    an estimate that throws (none does, c18_estimate_total) counts as empty. *)
Definition fine_gradient (v : qvec) (window : T) : answer qvec :=
  let w := q_abs A window in
  let at_ (x y z : T) : answer T := estimate ((x, y, z), q_one A) in
  let '(x, y, z) := v in
  if in_bounds (s_grid s) (location_index (v, q_one A)) then
    value_of (fine_axis (at_ x y z) (at_ (x -: w) y z) (at_ (x +: w) y z) x (x -: w) (x +: w)) (fun gx =>
    value_of (fine_axis (at_ x y z) (at_ x (y -: w) z) (at_ x (y +: w) z) y (y -: w) (y +: w)) (fun gy =>
    value_of (fine_axis (at_ x y z) (at_ x y (z -: w)) (at_ x y (z +: w)) z (z -: w) (z +: w)) (fun gz =>
      Answer (gx, gy, gz))))
  else Empty.

(** ** Projection out of collision *)

(** signed_distance_field.hpp:108-157, ProjectedPosition: the constructors taking a
    Vector4d check w, the one taking three coordinates sets w to 0.0 (140-141). *)
Definition position_of (p : qvec4) : answer qvec4 :=
  if q_eqb A (snd p) (q_one A) then Answer p else Throws.
Definition position_of_xyz (x y z : T) : answer qvec4 := Answer ((x, y, z), q_zero A).

(** signed_distance_field.hpp:1172-1200, the loop.  [None] stands for fuel
    exhaustion, that is for a loop that is still running. *)
Fixpoint project_loop (fuel : nat) (minimum margin max_step : T) (p : qvec4) (d : T)
    : option (answer qvec4) :=
  if q_leb A d minimum then
    match fuel with
    | O => None
    | Datatypes.S fuel =>
      match location_gradient p true with
      | Answer g =>
        let n := q_norm A (qx g) (qy g) (qz g) in
        if q_ltb A (res *: q_quarter A) n then
          (* std::min *)
          let far := margin -: d in
          let step := if q_ltb A far max_step then far else max_step in
          let p' := (qmap2 (q_add A) (fst p) (qmap (fun c => (c /: n) *: step) g), snd p) in
          match estimate p' with
          | Answer d' => project_loop fuel minimum margin max_step p' d'
          | _ => Some Throws
          end
        else Some Empty
      | Empty => Some Empty
      | Throws => Some Throws
      end
    end
  else Some (position_of p).

(** signed_distance_field.hpp:1155-1203,
    ProjectLocationOutOfCollisionToMinimumDistance4d. *)
Definition project (fuel : nat) (p : qvec4) (minimum multiplier : T) : option (answer qvec4) :=
  if in_bounds (s_grid s) (location_index p) then
    let margin := minimum +: (res *: multiplier) *: q_milli A in
    let max_step := res *: multiplier in
    match estimate p with
    | Answer d => project_loop fuel minimum margin max_step p d
    | _ => Some Throws
    end
  else Some (position_of p).

(** ** Local extrema map *)

(** Values of the map: the initial -infinity, the centre of a cell, or +infinity. *)
Inductive extremum : Type := Unset | At (c : qvec) | OffGrid.

(** signed_distance_field.hpp:482-497, GradientIsEffectiveFlat. *)
Definition is_flat (g : qvec) : bool :=
  let r := res *: q_flat A in
  q_leb A (q_abs A (qx g)) r && q_leb A (q_abs A (qy g)) r && q_leb A (q_abs A (qz g)) r.

(** signed_distance_field.hpp:512-535, the step of one axis. *)
Definition axis_step (c : T) : Z :=
  let r := res *: q_flat A in
  if q_ltb A r c then 1 else if q_ltb A c (q_opp A r) then -1 else 0.

(** signed_distance_field.hpp:499-537, GetNextFromGradient. *)
Definition next_index (i : idx) (g : qvec) : option idx :=
  let* d := gget (s_grid s) i in
  let w := if q_ltb A (q_of A d) (q_zero A) then qmap (fun c => c *: q_opp A (q_one A)) g else g in
  Some (ix i + axis_step (qx w), iy i + axis_step (qy w), iz i + axis_step (qz w)).

(** Result of a computation with fuel. *)
Inductive run_result (X : Type) : Type := RunFuel | RunThrows | RunDone (x : X).
Arguments RunFuel {X}. Arguments RunThrows {X}. Arguments RunDone {X} _.

(** signed_distance_field.hpp:424-471, the loop: the extremum and the keys of
    [path].  [path\[current_index\]] inserts the index when it is missing. *)
Fixpoint follow (fuel : nat) (w : grid extremum) (path : list idx) (cur : idx) (g : qvec)
    : run_result (extremum * list idx) :=
  match fuel with
  | O => RunFuel
  | Datatypes.S fuel =>
    match next_index cur g with
    | None => RunThrows
    | Some nxt =>
      if existsb (idx_eqb nxt) path then RunDone (At (centre nxt), path)
      else if negb (in_bounds (s_grid s) nxt) then RunDone (OffGrid, nxt :: path)
      else
        match gget w nxt with
        | None => RunThrows
        | Some Unset =>
          match index_gradient nxt true with
          | Answer g' =>
            if is_flat g' then RunDone (At (centre nxt), nxt :: path)
            else follow fuel w (nxt :: path) nxt g'
          | _ => RunThrows
          end
        | Some e => RunDone (e, nxt :: path)
        end
    end
  end.

(** signed_distance_field.hpp:382-480, FollowGradientsToLocalExtremaUnsafe. *)
Definition follow_from (fuel : nat) (w : grid extremum) (i : idx) : run_result (grid extremum) :=
  match gget w i with
  | None => RunThrows
  | Some Unset =>
    match index_gradient i true with
    | Answer g =>
      if is_flat g then RunDone (gset w i (At (centre i)))
      else
        match follow fuel w [i] i g with
        | RunDone (e, path) => RunDone (fold_left (fun w j => gset w j e) path w)
        | RunFuel => RunFuel
        | RunThrows => RunThrows
        end
    | _ => RunThrows
    end
  | Some _ => RunDone w
  end.

(** signed_distance_field.hpp:1207-1231, ComputeLocalExtremaMap. *)
Fixpoint follow_all (fuel : nat) (w : grid extremum) (is : list idx) : run_result (grid extremum) :=
  match is with
  | [] => RunDone w
  | i :: t =>
    match follow_from fuel w i with
    | RunDone w' => follow_all fuel w' t
    | r => r
    end
  end.

Definition local_extrema (fuel : nat) : run_result (grid extremum) :=
  let nx := g_nx (s_grid s) in let ny := g_ny (s_grid s) in let nz := g_nz (s_grid s) in
  follow_all fuel (gconst nx ny nz Unset) (all_idx nx ny nz).
End Query.

Arguments RunFuel {X}. Arguments RunThrows {X}. Arguments RunDone {X} _.
Arguments Unset {A}. Arguments At {A} c. Arguments OffGrid {A}.
