(** The mesh rasterizer of MeshModel in binary64, round to nearest even (Flocq). *)
From Coq Require Import ZArith.
From Flocq Require Import Core BinarySingleNaN.
From Verif Require Import Util Grid FloatModel SdfQueryModel SdfDoubleModel MeshModel.
Local Open Scope Z_scope.

(** mesh_rasterizer.cpp:25-278 for doubles.  [fl] is floor with the conversion to int64_t;
    the ceil of FromGridSizes is computed from it.  VectorRejection is
    vector - base * (base . vector / base . base), with the sums in Eigen's order; pow(x, 2.0)
    is one multiplication; [tri] is not used here. *)
Definition double_mesh (fl : b64 -> Z)
    (tri : b64 * b64 * b64 -> b64 * b64 * b64 -> list b64 -> b64 * b64 * b64 -> b64) : mesh_arith :=
  mkMeshArith (double_query b64 b64_sub (fun x => x) fl tri)
    (fun r => let x := b64_mul (b64_mul r (b64_lit 1 (-1))) (b64_sqrt (b64_lit 3 0)) in b64_mul x x)
    (fun n v =>
       let dot (u w : b64 * b64 * b64) :=
         b64_add (b64_mul (fst (fst u)) (fst (fst w))) (b64_add (b64_mul (snd (fst u)) (snd (fst w))) (b64_mul (snd u) (snd w))) in
       let k := b64_div (dot n v) (dot n n) in
       let c (f : b64 * b64 * b64 -> b64) := b64_sub (f v) (b64_mul k (f n)) in
       (c (fun p => fst (fst p)), c (fun p => snd (fst p)), c snd))
    (fun x => if b64_ltb x (B754_zero false) then B754_zero false else if b64_ltb (b64_lit 1 0) x then b64_lit 1 0 else x)
    (fun size r => - fl (Bopp (b64_div size r))).
