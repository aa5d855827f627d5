(** Vocabulary of the statements about surfaces. *)
From Coq Require Import ZArith List Bool.
From Verif Require Import Util Grid Occ OccProofs ComponentSpec ComponentMapSpec SurfaceModel.
Import ListNotations.
Local Open Scope Z_scope.

(** One of the up to 26 cells around [i]. *)
Definition around (i j : idx) : Prop :=
  j <> i /\ Z.abs (ix j - ix i) <= 1 /\ Z.abs (iy j - iy i) <= 1 /\ Z.abs (iz j - iz i) <= 1.

(** How the occupancy of the cell compares with 0.5; [None] for NaN. *)
Definition side_is {C} (occ_of : C -> occ) (g : grid C) (i : idx) (r : option comparison) : Prop :=
  exists c, gget g i = Some c /\ cmp_half (occ_of c) = r.

Definition no_nans {C} (occ_of : C -> occ) (g : grid C) : Prop := forall i, ~ side_is occ_of g i None.

Definition different_number {C} (comp_of : C -> Z) (g : grid C) (i j : idx) : Prop :=
  in_grid g i /\ in_grid g j /\ label comp_of g i <> label comp_of g j.

(** The cell is at the border of the grid. *)
Definition on_border {C} (g : grid C) (i : idx) : Prop :=
  exists j, share_face i j /\ ~ in_grid g j.

Definition component_surface {C} (comp_of : C -> Z) (g : grid C) (i : idx) : Prop :=
  in_grid g i /\ (on_border g i \/ exists j, share_face i j /\ different_number comp_of g i j).

(** The kind of the cell is among the selected ones; NaN counts as unknown. *)
Definition selected {C} (occ_of : C -> occ) (k : kinds) (g : grid C) (i : idx) : Prop :=
  (side_is occ_of g i (Some Gt) /\ k_filled k = true) \/
  (side_is occ_of g i (Some Lt) /\ k_empty k = true) \/
  ((side_is occ_of g i (Some Eq) \/ side_is occ_of g i None) /\ k_unknown k = true).

(** Cell [i] is an active entry of the surface returned for [component]. *)
Definition in_surface (s : surfaces) (component : Z) (i : idx) : Prop :=
  exists m, In (component, m) s /\ In (i, 1) m.

(** The containers returned are maps: no key twice, every entry active. *)
Definition surfaces_are_maps (s : surfaces) : Prop :=
  NoDup (map fst s) /\
  forall c m, In (c, m) s -> NoDup (map fst m) /\ m <> [] /\ forall i v, In (i, v) m -> v = 1.

Definition numbers_ok {C} (comp_of : C -> Z) (g : grid C) : Prop :=
  forall i c, gget g i = Some c -> 0 <= comp_of c < 2 ^ 32.

(** ** Components of maps of one layer *)

(** The cell exists and carries the number [c]. *)
Definition carries {C} (comp_of : C -> Z) (g : grid C) (c x y : Z) : bool :=
  match gget g (x, y, 0) with Some cell => comp_of cell =? c | None => false end.

(** How many places (x, y) of the map satisfy [q]. *)
Definition places {C} (g : grid C) (q : Z -> Z -> bool) : Z :=
  zlen (filter (fun i => q (ix i) (iy i)) (all_idx (g_nx g) (g_ny g) 1)).

(** Cells, less pairs of cells sharing a side, plus squares of four cells: the Euler
    number of the component, two cells being adjacent when they share a side. *)
Definition euler_number {C} (comp_of : C -> Z) (g : grid C) (c : Z) : Z :=
  let h := carries comp_of g c in
  places g h
  - places g (fun x y => h x y && h (x + 1) y)
  - places g (fun x y => h x y && h x (y + 1))
  + places g (fun x y => h x y && h (x + 1) y && h x (y + 1) && h (x + 1) (y + 1)).

(** Squares of four cells of which exactly two opposite ones are in the component. *)
Definition diagonal_contacts {C} (comp_of : C -> Z) (g : grid C) (c : Z) : Z :=
  let h := carries comp_of g c in
  places g (fun x y => (h x y && h (x + 1) (y + 1) && negb (h (x + 1) y) && negb (h x (y + 1)))
                    || (h (x + 1) y && h x (y + 1) && negb (h x y) && negb (h (x + 1) (y + 1)))).

(** ** The boundary of a set of cells *)

(** A vertex is a corner of the cell with the same index; the cell is [above] it.  The
    cells with one corner at the vertex, and the four cells next to the lower ones. *)
Definition quad (i : idx) (dz : Z) : list idx :=
  let '(x, y, z) := i in
  [(x - 1, y - 1, z + dz); (x - 1, y, z + dz); (x, y - 1, z + dz); (x, y, z + dz)].
Definition above (v : idx) : list idx := quad v 0.
Definition below (v : idx) : list idx := quad v (-1).
Definition two_below (v : idx) : list idx := quad v (-2).

(** The four cells at the edge from [v] in the positive direction of an axis; the first
    and the last one are opposite. *)
Inductive axis : Type := Ax | Ay | Az.
Definition at_edge (a : axis) (v : idx) : list idx :=
  let '(x, y, z) := v in
  match a with
  | Ax => [(x, y - 1, z - 1); (x, y - 1, z); (x, y, z - 1); (x, y, z)]
  | Ay => [(x - 1, y, z - 1); (x - 1, y, z); (x, y, z - 1); (x, y, z)]
  | Az => [(x - 1, y - 1, z); (x - 1, y, z); (x, y - 1, z); (x, y, z)]
  end.
Definition step_along (a : axis) (v : idx) : idx :=
  let '(x, y, z) := v in
  match a with Ax => (x + 1, y, z) | Ay => (x, y + 1, z) | Az => (x, y, z + 1) end.
(** The two cells at the face below [v] in the direction of the axis. *)
Definition at_face (a : axis) (v : idx) : list idx :=
  let '(x, y, z) := v in
  match a with
  | Ax => [(x - 1, y, z); (x, y, z)]
  | Ay => [(x, y - 1, z); (x, y, z)]
  | Az => [(x, y, z - 1); (x, y, z)]
  end.

Section Boundary.
Variable q : idx -> bool.

Definition all_of (l : list idx) : bool := forallb q l.
Definition none_of (l : list idx) : bool := negb (existsb q l).
Definition mixed (l : list idx) : bool := negb (all_of l) && negb (none_of l).

Definition boundary_vertex (v : idx) : bool := mixed (below v ++ above v).
Definition boundary_edge (u w : idx) : Prop :=
  exists a, (w = step_along a u /\ mixed (at_edge a u) = true) \/
            (u = step_along a w /\ mixed (at_edge a w) = true).

(** Boundary vertices joined by boundary edges. *)
Inductive same_surface (u : idx) : idx -> Prop :=
| same_here : same_surface u u
| same_step w w' : same_surface u w -> boundary_edge w w' -> same_surface u w'.

(** The boundary falls into [n] surfaces: one representative of each. *)
Definition surface_number (n : Z) : Prop :=
  exists l : list idx, NoDup l /\ zlen l = n /\ (forall r, In r l -> boundary_vertex r = true) /\
    (forall v, boundary_vertex v = true -> exists r, In r l /\ same_surface r v) /\
    forall r r', In r l -> In r' l -> same_surface r r' -> r = r'.

(** A vertex in the middle of a flat top that is at least two cells thick. *)
Definition roof (v : idx) : bool := all_of (two_below v) && all_of (below v) && none_of (above v).

(** A vertex inside of the set whose lower cells are not all two cells thick. *)
Definition buried (v : idx) : bool := all_of (below v) && all_of (above v) && negb (all_of (two_below v)).

(** Edges at which exactly two cells, opposite ones, are in the set. *)
Definition edge_contact (a : axis) (v : idx) : bool :=
  match at_edge a v with
  | [i; j; k; l] => Bool.eqb (q i) (q l) && Bool.eqb (q j) (q k) && xorb (q i) (q j)
  | _ => false
  end.

Variables nx ny nz : Z.
Definition vertex_count (f : idx -> bool) : Z := zlen (filter f (all_idx (nx + 1) (ny + 1) (nz + 1))).

(** Vertices, less edges, plus faces of the boundary. *)
Definition boundary_euler : Z :=
  vertex_count boundary_vertex
  - (vertex_count (fun v => mixed (at_edge Ax v)) + vertex_count (fun v => mixed (at_edge Ay v))
     + vertex_count (fun v => mixed (at_edge Az v)))
  + (vertex_count (fun v => mixed (at_face Ax v)) + vertex_count (fun v => mixed (at_face Ay v))
     + vertex_count (fun v => mixed (at_face Az v))).
Definition edge_contacts : Z :=
  vertex_count (edge_contact Ax) + vertex_count (edge_contact Ay) + vertex_count (edge_contact Az).
Definition buried_vertices : Z := vertex_count buried.
End Boundary.

(** The cells with the number [c]. *)
Definition part_of {C} (comp_of : C -> Z) (g : grid C) (c : Z) (i : idx) : bool :=
  match gget g i with Some cell => comp_of cell =? c | None => false end.

(** The hole count of a component with [s] surfaces: handles when there are no edge
    contacts and no buried vertices. *)
Definition hole_number {C} (comp_of : C -> Z) (g : grid C) (c s : Z) : Z :=
  let q := part_of comp_of g c in
  s + buried_vertices q (g_nx g) (g_ny g) (g_nz g)
  + Z.quot (edge_contacts q (g_nx g) (g_ny g) (g_nz g) - 2 * boundary_euler q (g_nx g) (g_ny g) (g_nz g)) 4.
Definition void_number {C} (comp_of : C -> Z) (g : grid C) (c s : Z) : Z :=
  s - 1 + buried_vertices (part_of comp_of g c) (g_nx g) (g_ny g) (g_nz g).

(** Components for which ComputeComponentTopology throws. *)
Definition throws_on {C} (comp_of : C -> Z) (g : grid C) (c : Z) : Prop :=
  (exists v, roof (part_of comp_of g c) v = true) \/
  (exists s, surface_number (part_of comp_of g c) s /\ hole_number comp_of g c s < 0).
