(** IEEE-754 binary64, round to nearest even (Flocq): the [double] of the code. *)
From Coq Require Import ZArith List Bool.
From Flocq Require Import Core BinarySingleNaN.
From Verif Require Import Util Grid Prog Schedule EdtModel.
Local Open Scope Z_scope.

Definition prec53 : Prec_gt_0 53 := eq_refl.
Definition emax1024 : Prec_lt_emax 53 1024 := eq_refl.
#[export] Existing Instance prec53.
#[export] Existing Instance emax1024.

Definition b64 : Type := binary_float 53 1024.

Definition b64_ofZ (z : Z) : b64 := binary_normalize 53 1024 _ _ mode_NE z 0 false.
Definition b64_add (a b : b64) : b64 := Bplus mode_NE a b.
Definition b64_sub (a b : b64) : b64 := Bminus mode_NE a b.
Definition b64_div (a b : b64) : b64 := Bdiv mode_NE a b.
Definition b64_ltb (a b : b64) : bool := Bltb a b.
Definition b64_leb (a b : b64) : bool := Bleb a b.
Definition b64_eqb (a b : b64) : bool := Beqb a b.

Definition binary64 : arith :=
  mkArith b64 b64_ofZ b64_add b64_sub b64_div b64_ltb b64_leb b64_eqb
    (B754_infinity false) (B754_infinity true) (B754_zero false).

Definition b64_mul (a b : b64) : b64 := Bmult mode_NE a b.
Definition b64_sqrt (a : b64) : b64 := Bsqrt mode_NE a.

(** binary32: the [float] of the code. *)
Definition prec24 : Prec_gt_0 24 := eq_refl.
Definition emax128 : Prec_lt_emax 24 128 := eq_refl.
#[export] Existing Instance prec24.
#[export] Existing Instance emax128.
Definition b32 : Type := binary_float 24 128.
Definition b32_ofZ (z : Z) : b32 := binary_normalize 24 128 _ _ mode_NE z 0 false.
