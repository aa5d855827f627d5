(** What rasterization of a triangle should do, in exact arithmetic. *)
From Coq Require Import ZArith Reals List Bool.
From Flocq Require Import Core.
From Verif Require Import Util Grid SdfQueryModel SdfQueryArith MeshModel.
Import ListNotations.
Local Open Scope R_scope.

Definition pt : Type := (R * R * R)%type.
Definition px (p : pt) : R := fst (fst p).
Definition py (p : pt) : R := snd (fst p).
Definition pz (p : pt) : R := snd p.

Definition dot (u v : pt) : R := px u * px v + py u * py v + pz u * pz v.
Definition minus (u v : pt) : pt := (px u - px v, py u - py v, pz u - pz v).
(** The point a + s (b - a) + t (c - a). *)
Definition blend (a b c : pt) (s t : R) : pt :=
  (px a + s * (px b - px a) + t * (px c - px a),
   py a + s * (py b - py a) + t * (py c - py a),
   pz a + s * (pz b - pz a) + t * (pz c - pz a)).
Definition dist_sq (p q : pt) : R := dot (minus p q) (minus p q).

(** The closed triangle. *)
Definition in_triangle (a b c p : pt) : Prop :=
  exists s t, 0 <= s /\ 0 <= t /\ s + t <= 1 /\ p = blend a b c s t.

(** The corners are not on one line. *)
Definition proper (a b c : pt) : Prop :=
  forall k l, (k <> 0 \/ l <> 0) ->
    (k * (px b - px a) + l * (px c - px a), k * (py b - py a) + l * (py c - py a),
     k * (pz b - pz a) + l * (pz c - pz a)) <> (0, 0, 0).

(** The foot of the perpendicular from [q] on the plane of the triangle lies in the
    triangle. *)
Definition foot_inside (a b c q : pt) : Prop :=
  exists p, in_triangle a b c p /\ dot (minus q p) (minus b a) = 0 /\
    dot (minus q p) (minus c a) = 0.

(** The rasterizer without rounding errors. *)
Definition real_mesh : mesh_arith :=
  mkMeshArith real_query
    (fun r => (r * (1 / 2) * sqrt 3) ^ 2)
    (fun n v =>
       let k := dot n v / dot n n in
       (px v - px n * k, py v - py n * k, pz v - pz n * k))
    (fun x => Rmax 0 (Rmin 1 x))
    (fun size r => Zceil (size / r)).

(** A map of voxels of size [r] whose axes are those of the world; [o] is its corner. *)
Definition aligned_map (nx ny nz : Z) (r : R) (o : pt) : mmap real_mesh :=
  mkMmap real_mesh nx ny nz r (1 / r) (fun p => minus p o)
    (fun p => (px p + px o, py p + py o, pz p + pz o)).

(** The voxel [i] of a map with corner [o] and axes of the world, and its centre. *)
Definition in_voxel (r : R) (o : pt) (i : idx) (p : pt) : Prop :=
  r * IZR (ix i) <= px p - px o < r * (IZR (ix i) + 1) /\
  r * IZR (iy i) <= py p - py o < r * (IZR (iy i) + 1) /\
  r * IZR (iz i) <= pz p - pz o < r * (IZR (iz i) + 1).
Definition voxel_centre (r : R) (o : pt) (i : idx) : pt :=
  (px o + r * (IZR (ix i) + 1 / 2), py o + r * (IZR (iy i) + 1 / 2), pz o + r * (IZR (iz i) + 1 / 2)).

(** The rasterizer in binary64 (SpecFloat); the order of the operations inside
    VectorRejection is that of its definition, vector - base * (base . vector / base . base). *)
Definition sf_mesh : mesh_arith :=
  mkMeshArith sf_query
    (fun r => let x := sf_mul (sf_mul r (q_half sf_query)) (SpecFloat.SFsqrt 53 1024 (sf_ofZ 3)) in sf_mul x x)
    (fun n v =>
       let dot u w := sf_add (sf_mul (fst (fst u)) (fst (fst w)))
                        (sf_add (sf_mul (snd (fst u)) (snd (fst w))) (sf_mul (snd u) (snd w))) in
       let k := sf_div (dot n v) (dot n n) in
       let c (f : qvec sf_query -> sf) := sf_sub (f v) (sf_mul k (f n)) in
       (c (fun p => fst (fst p)), c (fun p => snd (fst p)), c snd))
    (fun x => if SpecFloat.SFltb x (q_zero sf_query) then q_zero sf_query
              else if SpecFloat.SFltb (q_one sf_query) x then q_one sf_query else x)
    (fun size r => (- sf_floor (SpecFloat.SFopp (sf_div size r)))%Z).
