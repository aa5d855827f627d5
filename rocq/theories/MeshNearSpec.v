(** What is needed to say how near to a triangle a point is. *)
From Coq Require Import Reals.
From Verif Require Import MeshSpec.
Local Open Scope R_scope.

(** The cross product. *)
Definition rcross (u v : pt) : pt :=
  (py u * pz v - pz u * py v, pz u * px v - px u * pz v, px u * py v - py u * px v).

(** Two points differ by at most [d] in each coordinate. *)
Definition within_each (d : R) (p q : pt) : Prop :=
  Rabs (px p - px q) <= d /\ Rabs (py p - py q) <= d /\ Rabs (pz p - pz q) <= d.

(** The triangle is not too thin: its edges are at most [l] along each axis, and the square of
    twice its area is at least the fraction [v] of l^4. *)
Definition thick (l v : R) (a b c : pt) : Prop :=
  within_each l b a /\ within_each l c b /\ within_each l a c /\
  let n := rcross (minus b a) (minus c a) in v * (l * l * (l * l)) <= dot n n.
