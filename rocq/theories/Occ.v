(** Occupancy values.  [OccupancyCell] and its relatives store a [float]
    (/repo/include/voxelized_geometry_tools/occupancy_map.hpp:33-54); the code only
    ever copies it, serialises it and compares it with 0.5.  It is modelled by its
    IEEE-754 binary32 bit pattern. *)
From Coq Require Import ZArith List Lia Bool ZifyBool.
Local Open Scope Z_scope.

Definition occ : Type := Z.

(** Bit pattern of 0.5f: exponent field 126, mantissa 0. *)
Definition half_bits : Z := 126 * 2 ^ 23.
Definition one_bits : Z := 127 * 2 ^ 23.
Definition zero_bits : Z := 0.

Definition is_occ (b : occ) : Prop := 0 <= b < 2 ^ 32.

(** A binary32 pattern is NaN when the exponent field is 255 and the mantissa is
    not zero. *)
Definition occ_nan (b : occ) : bool :=
  let m := b mod 2 ^ 31 in 255 * 2 ^ 23 <? m.

(** [occupancy > 0.5], [occupancy < 0.5], [occupancy == 0.5] of C++ (the float is
    promoted to double, exactly). *)
Definition occ_gt (b : occ) : bool := negb (occ_nan b) && (half_bits <? b) && (b <? 2 ^ 31).
Definition occ_lt (b : occ) : bool := negb (occ_nan b) && ((b <? half_bits) || (2 ^ 31 <=? b)).
Definition occ_eq (b : occ) : bool := b =? half_bits.
Definition occ_ge (b : occ) : bool := occ_gt b || occ_eq b.
Definition occ_le (b : occ) : bool := occ_lt b || occ_eq b.
