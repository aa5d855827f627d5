(** Arithmetic of the queries of SdfQueryModel in binary64, round to nearest even (Flocq),
    for stored float and double values. *)
From Coq Require Import ZArith.
From Flocq Require Import Core BinarySingleNaN.
From Verif Require Import Util Grid FloatModel SdfQueryModel.
Local Open Scope Z_scope.

(** A double with value m * 2^e: the literals of signed_distance_field.hpp:266-267, 486, 1170
    and 1183. *)
Definition b64_lit (m e : Z) : b64 := binary_normalize 53 1024 _ _ mode_NE m e false.

(** signed_distance_field.hpp:264-265, static_cast<double> of a float. *)
Definition b64_of_b32 (x : b32) : b64 :=
  match x with
  | B754_zero s => B754_zero s
  | B754_infinity s => B754_infinity s
  | B754_nan => B754_nan
  | B754_finite s m e _ => binary_normalize 53 1024 _ _ mode_NE (cond_Zopp s (Zpos m)) e s
  end.

(** signed_distance_field.hpp:937-951, the difference of two stored floats. *)
Definition b32_sub (a b : b32) : b32 := Bminus mode_NE a b.

(** The arithmetic of signed_distance_field.hpp:257-400 and :486-1190 on stored values of type [V].  [fl] is floor
    with the conversion to int64_t and [tri] the external TrilinearInterpolate; the order
    of the additions in the norm is that of the coordinates. *)
Definition double_query (V : Type) (ssub : V -> V -> V) (of : V -> b64) (fl : b64 -> Z)
    (tri : b64 * b64 * b64 -> b64 * b64 * b64 -> list b64 -> b64 * b64 * b64 -> b64) : query_arith :=
  mkQuery V b64 ssub of
    (B754_zero false) (b64_lit 1 (-1)) (b64_lit 1 0) (b64_lit 2 0) (b64_lit 1 (-2))
    (b64_lit 8827055269646172 (-57)) (b64_lit 4611686018427388 (-62))
    b64_add b64_sub b64_mul b64_div (@Bopp 53 1024) (@Babs 53 1024)
    (fun x y z => b64_sqrt (b64_add (b64_add (b64_mul x x) (b64_mul y y)) (b64_mul z z)))
    b64_ltb b64_leb b64_eqb fl b64_ofZ tri.

(** A field as it is queried in signed_distance_field.hpp:820-835, with InverseVoxelSize as
    VoxelGridBase computes it (external): 1.0 / voxel size. *)
Definition double_field (V : Type) ssub of fl tri (g : grid V) (res : b64)
    (to_grid : (b64 * b64 * b64) * b64 -> b64 * b64 * b64) (to_world rotate : b64 * b64 * b64 -> b64 * b64 * b64)
    : qfield (double_query V ssub of fl tri) :=
  mkQField (double_query V ssub of fl tri) g res (b64_div (b64_lit 1 0) res) to_grid to_world rotate.

(** signed_distance_field.hpp:373-379 calls TrilinearInterpolate (external): one order of
    evaluation of its formula. *)
Definition b64_lerp (t a b : b64) : b64 := b64_add a (b64_mul (b64_sub b a) t).
Definition b64_trilinear (lo hi : b64 * b64 * b64) (v : list b64) (q : b64 * b64 * b64) : b64 :=
  let t (f : b64 * b64 * b64 -> b64) : b64 := b64_div (b64_sub (f q) (f lo)) (b64_sub (f hi) (f lo)) in
  let tx := t (fun p => fst (fst p)) in let ty := t (fun p => snd (fst p)) in let tz := t snd in
  match v with
  | (v000 :: v001 :: v010 :: v011 :: v100 :: v101 :: v110 :: v111 :: nil)%list =>
    b64_lerp tx (b64_lerp ty (b64_lerp tz v000 v001) (b64_lerp tz v010 v011))
                (b64_lerp ty (b64_lerp tz v100 v101) (b64_lerp tz v110 v111))
  | _ => B754_nan
  end.
