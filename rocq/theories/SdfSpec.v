(** What a signed distance field is, independently of how it is computed. *)
From Coq Require Import ZArith Reals.
From Verif Require Import EdtSpec SdfModel Grid.
Local Open Scope Z_scope.

(** Cells of an [nx * ny * nz] grid. *)
Definition in_box (nx ny nz : Z) (i : idx) : Prop :=
  let '(x, y, z) := i in 0 <= x < nx /\ 0 <= y < ny /\ 0 <= z < nz.

(** Metric distance of a squared voxel distance; infinite when there is no target. *)
Definition metric (res : R) (m : dist) : xr :=
  match m with Some d => XFin (res * sqrt (IZR d)) | None => XPInf end.

Definition xopp (a : xr) : xr :=
  match a with XNaN => XNaN | XNInf => XPInf | XPInf => XNInf | XFin r => XFin (- r) end.

(** [v] is [sign * res * (distance from i to the nearest element of T)], negative
    for filled [i]. *)
Definition is_signed_distance (res : R) (filled : bool) (T : idx -> Prop) (i : idx) (v : xr) : Prop :=
  exists m, is_nearest T i m /\ v = (if filled then xopp (metric res m) else metric res m).

(** Cells of the box whose fill state is the opposite of that of [i]. *)
Definition opposite (nx ny nz : Z) (filled : idx -> bool) (i : idx) (j : idx) : Prop :=
  in_box nx ny nz j /\ filled j <> filled i.

(** Every cell of the field holds its signed distance to the opposite cells. *)
Definition is_sdf (res : R) (nx ny nz : Z) (filled : idx -> bool) (f : idx -> option xr) : Prop :=
  forall i, in_box nx ny nz i ->
    exists v, f i = Some v /\
      is_signed_distance res (filled i) (opposite nx ny nz filled i) i v.

(** The shell of virtual cells around the box, one cell thick, only on axes with
    more than one voxel. *)
Definition in_shell (nx ny nz : Z) (j : idx) : Prop :=
  let lo n := if 1 <? n then -1 else 0 in
  let hi n := if 1 <? n then n else n - 1 in
  let '(x, y, z) := j in
  (lo nx <= x <= hi nx /\ lo ny <= y <= hi ny /\ lo nz <= z <= hi nz) /\ ~ in_box nx ny nz j.

(** With the border, the shell counts as opposite to every cell. *)
Definition is_bordered_sdf (res : R) (nx ny nz : Z) (filled : idx -> bool) (f : idx -> option xr) : Prop :=
  forall i, in_box nx ny nz i ->
    exists v, f i = Some v /\
      is_signed_distance res (filled i)
        (fun j => opposite nx ny nz filled i j \/ in_shell nx ny nz j) i v.

(** Order on extended reals; NaN is related to nothing. *)
Definition xle (a b : xr) : Prop :=
  match a, b with
  | XNaN, _ | _, XNaN => False
  | XNInf, _ | _, XPInf => True
  | XFin x, XFin y => (x <= y)%R
  | _, _ => False
  end.

(** Distance between two cell centres. *)
Definition cell_dist (res : R) (i j : idx) : R := (res * sqrt (IZR (sqdist i j)))%R.
