(** Model of signed distance field generation for the scalar type [float],
    /repo/include/voxelized_geometry_tools/signed_distance_field_generation.hpp. *)
From Coq Require Import ZArith.
From Flocq Require BinarySingleNaN.
From Verif Require Import Grid FloatModel FilterModel SdfModel.
Local Open Scope Z_scope.

(** signed_distance_field_generation.hpp:98-105: distances are computed in double and
    narrowed once.  Conversion is that of IEEE 754: it rounds to nearest and gives an
    infinity when the value is beyond the range of float. *)
Definition b32_combine (res filled free : b64) : b32 := b32_of_b64 (b64_combine res filled free).

(** signed_distance_field_generation.hpp:265, 269: comparison of a float with 0.0 and
    -0.0. *)
Definition b32_ge0 (a : b32) : bool := b32_leb (BinarySingleNaN.B754_zero false) a.
Definition b32_le0 (a : b32) : bool := b32_leb a (BinarySingleNaN.B754_zero true).

(** signed_distance_field_generation.hpp:115-285 for SDFScalarType = float. *)
Definition sdf_binary32 (res : b64) (oob : b32) (uniform border : bool) (nx ny nz : Z)
    (is_filled : idx -> bool) : option (grid b32) :=
  extract_grid binary64 b32 (b32_combine res) oob b32_ge0 b32_le0 (BinarySingleNaN.B754_zero false)
    uniform border nx ny nz is_filled.
