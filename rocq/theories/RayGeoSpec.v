(** Geometry of a ray in a grid of cubes, independently of how it is walked. *)
From Coq Require Import ZArith Reals.
From Verif Require Import Grid RealRayModel.
Local Open Scope R_scope.

Definition pt : Type := (R * R * R)%type.
Definition px (p : pt) : R := fst (fst p).
Definition py (p : pt) : R := snd (fst p).
Definition pz (p : pt) : R := snd p.

(** Points of the line through [a] and [b]; of the segment for [0 <= t <= 1]. *)
Definition along (a b : pt) (t : R) : pt :=
  (px a + t * (px b - px a), py a + t * (py b - py a), pz a + t * (pz b - pz a)).

Definition dist (a b : pt) : R :=
  sqrt ((px b - px a) * (px b - px a) + (py b - py a) * (py b - py a) +
        (pz b - pz a) * (pz b - pz a)).

(** [q] is in the closed cube, in the open cube, in the half-open cube of cell [i]. *)
Definition touches_voxel (v : R) (i : idx) (q : pt) : Prop :=
  IZR (ix i) * v <= px q <= (IZR (ix i) + 1) * v /\
  IZR (iy i) * v <= py q <= (IZR (iy i) + 1) * v /\
  IZR (iz i) * v <= pz q <= (IZR (iz i) + 1) * v.
Definition inside_voxel (v : R) (i : idx) (q : pt) : Prop :=
  IZR (ix i) * v < px q < (IZR (ix i) + 1) * v /\
  IZR (iy i) * v < py q < (IZR (iy i) + 1) * v /\
  IZR (iz i) * v < pz q < (IZR (iz i) + 1) * v.
Definition belongs_to_voxel (v : R) (i : idx) (q : pt) : Prop :=
  IZR (ix i) * v <= px q < (IZR (ix i) + 1) * v /\
  IZR (iy i) * v <= py q < (IZR (iy i) + 1) * v /\
  IZR (iz i) * v <= pz q < (IZR (iz i) + 1) * v.

(** [q] lies in the grid; in the closed box of the grid. *)
Definition in_grid_box (v : R) (nx ny nz : Z) (q : pt) : Prop :=
  0 <= px q < v * IZR nx /\ 0 <= py q < v * IZR ny /\ 0 <= pz q < v * IZR nz.
Definition in_closed_grid_box (v : R) (nx ny nz : Z) (q : pt) : Prop :=
  0 <= px q <= v * IZR nx /\ 0 <= py q <= v * IZR ny /\ 0 <= pz q <= v * IZR nz.

(** A maximum range: a non-negative number or no limit. *)
Definition range_ok (m : er) : Prop :=
  match m with Fin r => 0 <= r | PInf => True | _ => False end.
Definition within_range (m : er) (d : R) : Prop :=
  match m with Fin r => d <= r | _ => True end.

(** [e] is where the segment from [o] to [p] ends when cut at the range. *)
Definition cut_at (m : er) (o p e : pt) : Prop :=
  exists l, 0 <= l <= 1 /\ e = along o p l /\
    dist o e = match m with Fin r => Rmin (dist o p) r | _ => dist o p end.

(** The same point as a vector of the model. *)
Definition vec_of (p : pt) : (er * er * er)%type := (Fin (px p), Fin (py p), Fin (pz p)).
