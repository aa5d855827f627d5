(** Model of signed distance field generation,
    /repo/include/voxelized_geometry_tools/signed_distance_field_generation.hpp. *)
From Coq Require Import ZArith QArith Reals Qreals List Bool.
From Flocq Require BinarySingleNaN.
From Verif Require Import Util Grid Prog Schedule EdtModel ExactModel FloatModel Occ.
Import ListNotations.
Local Open Scope Z_scope.

Section Extract.
Variable A : arith.
(** [S]: the SDF scalar type; [combine filled free] is
    [static_cast<S>(sqrt(filled) * resolution - sqrt(free) * resolution)]. *)
Variables (S : Type) (combine : num A -> num A -> S) (oob : S).

(** signed_distance_field_generation.hpp:50-75: the two fields start infinite, each
    cell is marked 0 in one of them. *)
Definition mark_step (is_filled : idx -> bool) (fs : grid (num A) * grid (num A)) (i : idx)
    : grid (num A) * grid (num A) :=
  let '(filled, free) := fs in
  if is_filled i then (gset filled i (a_zero A), free) else (filled, gset free i (a_zero A)).

Definition mark_fields (nx ny nz : Z) (is_filled : idx -> bool)
    : grid (num A) * grid (num A) :=
  fold_left (mark_step is_filled) (all_idx nx ny nz)
    (gconst nx ny nz (a_inf A), gconst nx ny nz (a_inf A)).

(** signed_distance_field_generation.hpp:89-107: one cell of the result. *)
Definition sdf_cell_step (filled free : grid (num A)) (sdf : grid S) (i : idx) : option (grid S) :=
  let* a := gget filled i in
  let* b := gget free i in
  Some (gset sdf i (combine a b)).

(** signed_distance_field_generation.hpp:39-113, ExtractSignedDistanceField on a
    fill predicate.  Simplification: the grid's origin transform, frame and
    out-of-bounds value are carried through unchanged and not represented. *)
Definition extract (nx ny nz : Z) (is_filled : idx -> bool) : option (grid S) :=
  let '(filled0, free0) := mark_fields nx ny nz is_filled in
  let* filled := edt_3d filled0 in
  let* free := edt_3d free0 in
  ofold (sdf_cell_step filled free) (all_idx nx ny nz) (gconst nx ny nz oob).

(** Comparisons [value >= 0.0] and [value <= -0.0], and the literal 0.0. *)
Variables (ge0 le0 : S -> bool) (s0 : S).

(** signed_distance_field_generation.hpp:136-147: border sizes per axis. *)
Definition size_offset (n : Z) : Z := if 1 <? n then 2 else 0.
Definition query_offset (n : Z) : Z := if 1 <? n then 1 else 0.

(** signed_distance_field_generation.hpp:156-194 and 197-235: the two predicates,
    which differ in the answer on the border. *)
Definition bordered (nx ny nz : Z) (on_border : bool) (is_filled : idx -> bool) (i : idx) : bool :=
  let '(x, y, z) := i in
  let mx := nx + size_offset nx in
  let my := ny + size_offset ny in
  let mz := nz + size_offset nz in
  if (0 <? size_offset nx) && ((x =? 0) || (x =? mx - 1)) then on_border
  else if (0 <? size_offset ny) && ((y =? 0) || (y =? my - 1)) then on_border
  else if (0 <? size_offset nz) && ((z =? 0) || (z =? mz - 1)) then on_border
  else is_filled (x - query_offset nx, y - query_offset ny, z - query_offset nz).

(** signed_distance_field_generation.hpp:265-276, and the same combination in
    tagged_object_occupancy_component_map.hpp:520-533 (also
    tagged_object_occupancy_map.hpp). *)
Definition combine_signed (outside inside : S) : S :=
  if ge0 outside then outside else if le0 inside then inside else s0.

(** signed_distance_field_generation.hpp:252-278. *)
Definition border_cell_step (nx ny nz : Z) (free_sdf filled_sdf : grid S) (sdf : grid S) (i : idx)
    : option (grid S) :=
  let '(x, y, z) := i in
  let q := (x + query_offset nx, y + query_offset ny, z + query_offset nz) in
  let* a := gget free_sdf q in
  let* b := gget filled_sdf q in
  Some (gset sdf i (combine_signed a b)).

(** signed_distance_field_generation.hpp:115-285, the overload on a grid; the grid
    has uniform voxel sizes (otherwise the code throws invalid_argument, lines
    123-126). *)
Definition extract_border (nx ny nz : Z) (is_filled : idx -> bool) : option (grid S) :=
  let mx := nx + size_offset nx in
  let my := ny + size_offset ny in
  let mz := nz + size_offset nz in
  let* free_sdf := extract mx my mz (bordered nx ny nz true is_filled) in
  let* filled_sdf := extract mx my mz (bordered nx ny nz false is_filled) in
  ofold (border_cell_step nx ny nz free_sdf filled_sdf) (all_idx nx ny nz) (gconst nx ny nz oob).

Definition extract_grid (uniform add_virtual_border : bool) (nx ny nz : Z)
    (is_filled : idx -> bool) : option (grid S) :=
  if uniform then
    (if add_virtual_border then extract_border nx ny nz is_filled else extract nx ny nz is_filled)
  else None.

(** occupancy_map.hpp:181-205 (and the other map types): [is_filled_fn]. *)
Definition occ_filled (unknown_is_filled : bool) (b : occ) : bool :=
  occ_gt b || (unknown_is_filled && occ_eq b).

Definition map_filled {C} (g : grid C) (f : C -> bool) (i : idx) : bool :=
  match gget g i with Some c => f c | None => false end.

(** occupancy_map.hpp:174-210, OccupancyMap::ExtractSignedDistanceField; the same
    text appears in occupancy_component_map.hpp.  [is_filled_fn] throws out of
    bounds; it is only called for cells of the map. *)
Definition occupancy_sdf (unknown_is_filled border : bool) (g : grid occ) : option (grid S) :=
  extract_grid true border (g_nx g) (g_ny g) (g_nz g) (map_filled g (occ_filled unknown_is_filled)).

(** Tagged cells: occupancy and object id (the component fields play no role here).
    The code below is cited from tagged_object_occupancy_component_map.hpp:360-538; the
    same text is in tagged_object_occupancy_map.hpp:199-378. *)
Definition tcell : Type := (occ * Z)%type.

(** tagged_object_occupancy_component_map.hpp:365-398: [is_filled_fn]. *)
Definition tagged_filled (unknown_is_filled : bool) (objects : list Z) (c : tcell) : bool :=
  (existsb (Z.eqb (snd c)) objects || (match objects with [] => true | _ => false end))
  && occ_filled unknown_is_filled (fst c).

(** tagged_object_occupancy_component_map.hpp:349-405,
    ExtractSignedDistanceField(objects_to_use, parameters). *)
Definition tagged_sdf (unknown_is_filled border : bool) (objects : list Z) (g : grid tcell)
    : option (grid S) :=
  extract_grid true border (g_nx g) (g_ny g) (g_nz g)
    (map_filled g (tagged_filled unknown_is_filled objects)).

(** std::map with uint32 keys as an association list; [per_object_sdfs[id] = v]
    replaces or adds. *)
Fixpoint map_put {B} (m : list (Z * B)) (k : Z) (v : B) : list (Z * B) :=
  match m with
  | [] => [(k, v)]
  | (k', v') :: t => if k =? k' then (k, v) :: t else (k', v') :: map_put t k v
  end.
Fixpoint map_get {B} (m : list (Z * B)) (k : Z) : option B :=
  match m with
  | [] => None
  | (k', v') :: t => if k =? k' then Some v' else map_get t k
  end.

(** tagged_object_occupancy_component_map.hpp:408-421, MakeSeparateObjectSDFs. *)
Definition make_separate_sdfs (uf border : bool) (ids : list Z) (g : grid tcell)
    : option (list (Z * grid S)) :=
  ofold (fun m id => let* s := tagged_sdf uf border [id] g in Some (map_put m id s)) ids [].

(** std::set<uint32_t>::insert. *)
Definition set_insert (s : list Z) (v : Z) : list Z := if existsb (Z.eqb v) s then s else s ++ [v].

(** tagged_object_occupancy_component_map.hpp:424-452, MakeAllObjectSDFs. *)
Definition all_object_ids (g : grid tcell) : option (list Z) :=
  ofold (fun s i => let* c := gget g i in
                    Some (if 0 <? snd c then set_insert s (snd c) else s))
        (all_idx (g_nx g) (g_ny g) (g_nz g)) [].
Definition make_all_sdfs (uf border : bool) (g : grid tcell) : option (list (Z * grid S)) :=
  let* ids := all_object_ids g in make_separate_sdfs uf border ids g.

(** tagged_object_occupancy_component_map.hpp:460-474 and 483-501. *)
Definition free_sdf_filled (uf : bool) (c : tcell) : bool := occ_filled uf (fst c).
Definition named_filled (uf : bool) (c : tcell) : bool := (0 <? snd c) && occ_filled uf (fst c).

(** tagged_object_occupancy_component_map.hpp:508-537, the combining loop, which
    starts from a copy of the free-space field. *)
Definition named_cell_step (free_sdf named_sdf : grid S) (sdf : grid S) (i : idx) : option (grid S) :=
  let* a := gget free_sdf i in
  let* b := gget named_sdf i in
  Some (gset sdf i (combine_signed a b)).

(** tagged_object_occupancy_component_map.hpp:454-542,
    ExtractFreeAndNamedObjectsSignedDistanceField. *)
Definition free_and_named_sdf (uf border : bool) (g : grid tcell) : option (grid S) :=
  let* free_sdf := extract_grid true border (g_nx g) (g_ny g) (g_nz g)
                     (map_filled g (free_sdf_filled uf)) in
  let* named_sdf := extract_grid true border (g_nx g) (g_ny g) (g_nz g)
                     (map_filled g (named_filled uf)) in
  ofold (named_cell_step free_sdf named_sdf) (all_idx (g_nx g) (g_ny g) (g_nz g)) free_sdf.
End Extract.

(** ** Exact result values: reals with infinities and NaN *)

Inductive xr : Type := XNaN | XNInf | XFin (r : R) | XPInf.

Definition x_sub (a b : xr) : xr :=
  match a, b with
  | XNaN, _ | _, XNaN => XNaN
  | XPInf, XPInf | XNInf, XNInf => XNaN
  | XPInf, _ | _, XNInf => XPInf
  | XNInf, _ | _, XPInf => XNInf
  | XFin x, XFin y => XFin (x - y)
  end.

(** [std::sqrt(d) * resolution] for a positive resolution. *)
Definition x_scaled_sqrt (res : R) (d : ext) : xr :=
  match d with
  | Fin q => if Qle_bool 0 q then XFin (sqrt (Q2R q) * res) else XNaN
  | PInf => XPInf
  | _ => XNaN
  end.

(** signed_distance_field_generation.hpp:99-103.  Simplification: square root,
    product, difference and the cast to the scalar type are exact. *)
Definition x_combine (res : R) (filled free : ext) : xr :=
  x_sub (x_scaled_sqrt res filled) (x_scaled_sqrt res free).

Definition x_ge0 (a : xr) : bool :=
  match a with XPInf => true | XFin r => if Rle_dec 0 r then true else false | _ => false end.
Definition x_le0 (a : xr) : bool :=
  match a with XNInf => true | XFin r => if Rle_dec r 0 then true else false | _ => false end.

(** The exact signed distance field of a grid with resolution [res]. *)
Definition sdf_exact (res : R) (uniform border : bool) (nx ny nz : Z) (is_filled : idx -> bool)
    : option (grid xr) :=
  extract_grid exact xr (x_combine res) XNaN x_ge0 x_le0 (XFin 0) uniform border nx ny nz is_filled.

(** The same field with the arithmetic of the code, scalar type [double]:
    binary64 square root, product and difference. *)
Definition b64_combine (res filled free : b64) : b64 :=
  b64_sub (b64_mul (b64_sqrt filled) res) (b64_mul (b64_sqrt free) res).
Definition b64_zero : b64 := BinarySingleNaN.B754_zero false.
Definition b64_ge0 (a : b64) : bool := b64_leb b64_zero a.
Definition b64_le0 (a : b64) : bool := b64_leb a (BinarySingleNaN.B754_zero true).
Definition sdf_binary64 (res : b64) (oob : b64) (uniform border : bool) (nx ny nz : Z)
    (is_filled : idx -> bool) : option (grid b64) :=
  extract_grid binary64 b64 (b64_combine res) oob b64_ge0 b64_le0 b64_zero
    uniform border nx ny nz is_filled.

(** The map-level functions with exact values. *)
Definition occupancy_sdf_exact (res : R) (uf border : bool) (g : grid occ) : option (grid xr) :=
  occupancy_sdf exact xr (x_combine res) XNaN x_ge0 x_le0 (XFin 0) uf border g.
Definition tagged_sdf_exact (res : R) (uf border : bool) (objects : list Z) (g : grid tcell)
    : option (grid xr) :=
  tagged_sdf exact xr (x_combine res) XNaN x_ge0 x_le0 (XFin 0) uf border objects g.
Definition make_all_sdfs_exact (res : R) (uf border : bool) (g : grid tcell)
    : option (list (Z * grid xr)) :=
  make_all_sdfs exact xr (x_combine res) XNaN x_ge0 x_le0 (XFin 0) uf border g.
Definition free_and_named_sdf_exact (res : R) (uf border : bool) (g : grid tcell)
    : option (grid xr) :=
  free_and_named_sdf exact xr (x_combine res) XNaN x_ge0 x_le0 (XFin 0) uf border g.
