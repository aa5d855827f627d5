(** What a correct labelling is, independently of how it is computed. *)
From Coq Require Import ZArith.
From Verif Require Import Grid.
Local Open Scope Z_scope.

(** Two cells that share a face: they differ by one in exactly one coordinate. *)
Definition share_face (i j : idx) : Prop :=
  Z.abs (ix i - ix j) + Z.abs (iy i - iy j) + Z.abs (iz i - iz j) = 1.

(** Cells [i] and [j] joined by a path of face-sharing cells of [X], consecutive
    ones being related by [conn]. *)
Inductive joined (X : idx -> Prop) (conn : idx -> idx -> Prop) : idx -> idx -> Prop :=
| joined_here i : X i -> joined X conn i i
| joined_step i j k : joined X conn i j -> share_face j k -> conn j k -> X k -> joined X conn i k.

(** Order of the nested loops over x, y, z. *)
Definition scanned_before (i j : idx) : Prop :=
  ix i < ix j \/ (ix i = ix j /\ (iy i < iy j \/ (iy i = iy j /\ iz i < iz j))).

(** [label] numbers the classes of [joined] on [X] from 1 to [n], in the order in
    which the first cells of the classes are scanned. *)
Definition is_labelling (X : idx -> Prop) (conn : idx -> idx -> Prop) (label : idx -> Z) (n : Z) : Prop :=
  (forall i, X i -> 1 <= label i <= n) /\
  (forall k, 1 <= k <= n -> exists i, X i /\ label i = k) /\
  (forall i j, X i -> X j -> (label i = label j <-> joined X conn i j)) /\
  (forall i k, X i -> 1 <= k < label i -> exists j, X j /\ label j = k /\ scanned_before j i).
