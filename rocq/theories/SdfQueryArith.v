(** Arithmetics for SdfQueryModel: exact reals, and binary64 as specified by
    Coq.Floats.SpecFloat. *)
From Coq Require Import ZArith Reals List Bool SpecFloat.
From Flocq Require Import Core.
From Verif Require Import Util Grid SdfQueryModel.
Import ListNotations.

(** Linear interpolation between [a] and [b]. *)
Definition lerp (t a b : R) : R := (a + (b - a) * t)%R.

(** The trilinear formula (external TrilinearInterpolate), values in the order of
    signed_distance_field.hpp:372-378; it extrapolates outside the cell. *)
Definition real_trilinear (lo hi : R * R * R) (v : list R) (q : R * R * R) : R :=
  let t (f : R * R * R -> R) : R := ((f q - f lo) / (f hi - f lo))%R in
  let tx := t (fun p => fst (fst p)) in let ty := t (fun p => snd (fst p)) in let tz := t snd in
  match v with
  | [v000; v001; v010; v011; v100; v101; v110; v111] =>
    lerp tx (lerp ty (lerp tz v000 v001) (lerp tz v010 v011))
            (lerp ty (lerp tz v100 v101) (lerp tz v110 v111))
  | _ => 0%R
  end.

Definition Rleb (a b : R) : bool := if Rle_dec a b then true else false.
Definition Rltb (a b : R) : bool := if Rlt_dec a b then true else false.
Definition Reqb (a b : R) : bool := if Req_EM_T a b then true else false.

(** The arithmetic of signed_distance_field.hpp without rounding errors. *)
Definition real_query : query_arith :=
  mkQuery R R Rminus (fun x => x) 0%R (1 / 2)%R 1%R 2%R (1 / 4)%R (6125 / 100000)%R (1 / 1000)%R
    Rplus Rminus Rmult Rdiv Ropp Rabs (fun x y z => sqrt (x * x + y * y + z * z)%R)
    Rltb Rleb Reqb Zfloor IZR real_trilinear.

(** Binary64, round to nearest even, for SignedDistanceField<double>. *)
Definition sf := spec_float.
Definition sf_add : sf -> sf -> sf := SFadd 53 1024.
Definition sf_sub : sf -> sf -> sf := SFsub 53 1024.
Definition sf_mul : sf -> sf -> sf := SFmul 53 1024.
Definition sf_div : sf -> sf -> sf := SFdiv 53 1024.
Definition sf_ofZ (z : Z) : sf := binary_normalize 53 1024 z 0 false.

(** floor and conversion to int64_t; 0 for values that are not numbers. *)
Definition sf_floor (x : sf) : Z :=
  match x with
  | S754_finite s m e =>
    let v := if s then Z.neg m else Z.pos m in
    if Z.leb 0 e then (v * 2 ^ e)%Z else (v / 2 ^ (- e))%Z
  | _ => 0%Z
  end.

Definition sf_lerp (t a b : sf) : sf := sf_add a (sf_mul (sf_sub b a) t).

(** One order of evaluation of the trilinear formula (external). *)
Definition sf_trilinear (lo hi : sf * sf * sf) (v : list sf) (q : sf * sf * sf) : sf :=
  let t (f : sf * sf * sf -> sf) : sf := sf_div (sf_sub (f q) (f lo)) (sf_sub (f hi) (f lo)) in
  let tx := t (fun p => fst (fst p)) in let ty := t (fun p => snd (fst p)) in let tz := t snd in
  match v with
  | [v000; v001; v010; v011; v100; v101; v110; v111] =>
    sf_lerp tx (sf_lerp ty (sf_lerp tz v000 v001) (sf_lerp tz v010 v011))
               (sf_lerp ty (sf_lerp tz v100 v101) (sf_lerp tz v110 v111))
  | _ => S754_nan
  end.

(** The arithmetic of signed_distance_field.hpp for ScalarType = double; the order
    of the additions in the norm is that of the coordinates. *)
Definition sf_query : query_arith :=
  mkQuery sf sf sf_sub (fun x => x)
    (S754_zero false) (S754_finite false 4503599627370496 (-53))
    (S754_finite false 4503599627370496 (-52)) (S754_finite false 4503599627370496 (-51))
    (S754_finite false 4503599627370496 (-54))
    (S754_finite false 8827055269646172 (-57)) (S754_finite false 4611686018427388 (-62))
    sf_add sf_sub sf_mul sf_div SFopp SFabs
    (fun x y z => SFsqrt 53 1024 (sf_add (sf_add (sf_mul x x) (sf_mul y y)) (sf_mul z z)))
    SFltb SFleb SFeqb sf_floor sf_ofZ sf_trilinear.
