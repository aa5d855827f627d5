(** Vocabulary of the statements about components whose boundary does not touch itself. *)
From Coq Require Import ZArith List Bool.
From Verif Require Import Util Grid ComponentSpec SurfaceSpec.
Import ListNotations.
Local Open Scope Z_scope.

Section Solid.
Variable q : idx -> bool.

(** Of the eight cells at the vertex exactly two, opposite ones, are in the set, or
    exactly two, opposite ones, are not. *)
Definition corner_contact (v : idx) : bool :=
  let l := map q (below v ++ above v) in
  existsb (fun b => (zlen (filter (Bool.eqb b) l) =? 2) &&
                    existsb (fun '(i, j) => Bool.eqb i b && Bool.eqb j b) (combine l (rev l))) [true; false].

(** The boundary does not touch itself, neither along an edge nor at a vertex. *)
Definition well_composed : Prop :=
  (forall a v, edge_contact q a v = false) /\ forall v, corner_contact v = false.

(** Cells outside of the set, of the grid or not, joined by faces. *)
Inductive same_region (i : idx) : idx -> Prop :=
| region_here : q i = false -> same_region i i
| region_step j k : same_region i j -> share_face j k -> q k = false -> same_region i k.

(** What is outside of the set falls into [n] regions: one cell of each. *)
Definition region_number (n : Z) : Prop :=
  exists l : list idx, NoDup l /\ zlen l = n /\ (forall r, In r l -> q r = false) /\
    (forall i, q i = false -> exists r, In r l /\ same_region r i) /\
    forall r r', In r l -> In r' l -> same_region r r' -> r = r'.

(** A cell outside of the set from which no cell of [X] can be reached without entering
    the set. *)
Definition enclosed (X : idx -> Prop) (i : idx) : Prop := q i = false /\ forall j, same_region i j -> ~ X j.

(** The enclosed cells form [n] cavities. *)
Definition cavity_number (X : idx -> Prop) (n : Z) : Prop :=
  exists l : list idx, NoDup l /\ zlen l = n /\ (forall r, In r l -> enclosed X r) /\
    (forall i, enclosed X i -> exists r, In r l /\ same_region r i) /\
    forall r r', In r l -> In r' l -> same_region r r' -> r = r'.

(** Cells of the set joined by faces. *)
Inductive same_piece (i : idx) : idx -> Prop :=
| piece_here : q i = true -> same_piece i i
| piece_step j k : same_piece i j -> share_face j k -> q k = true -> same_piece i k.

Variables nx ny nz : Z.
(** Vertices, less edges, plus faces, less cells of the union of the closed cells. *)
Definition solid_euler : Z :=
  vertex_count nx ny nz (fun v => existsb q (below v ++ above v))
  - (vertex_count nx ny nz (fun v => existsb q (at_edge Ax v)) + vertex_count nx ny nz (fun v => existsb q (at_edge Ay v))
     + vertex_count nx ny nz (fun v => existsb q (at_edge Az v)))
  + (vertex_count nx ny nz (fun v => existsb q (at_face Ax v)) + vertex_count nx ny nz (fun v => existsb q (at_face Ay v))
     + vertex_count nx ny nz (fun v => existsb q (at_face Az v)))
  - vertex_count nx ny nz q.
End Solid.
