(** What the double-precision signed distance field holds. *)
From Coq Require Import ZArith Reals.
From Flocq Require Import Core BinarySingleNaN.
From Verif Require Import Grid FloatModel EdtSpec SdfSpec.
Local Open Scope Z_scope.

(** Rounding to the nearest binary64 number, ties to even (unbounded exponent above). *)
Definition round64 (x : R) : R := round radix2 (SpecFloat.fexp 53 1024) ZnearestE x.

(** [res * sqrt d] computed with one rounding per operation. *)
Definition metric64 (res : R) (d : Z) : R := round64 (round64 (sqrt (IZR d)) * res).

(** [v] holds that value with the sign of the cell; infinite if there is no target
    or the product overflows. *)
Definition is_signed_distance64 (res : R) (filled : bool) (T : idx -> Prop) (i : idx) (v : b64) : Prop :=
  exists m, is_nearest T i m /\
    match m with
    | None => v = B754_infinity filled
    | Some d =>
        if Rlt_dec (metric64 res d) (bpow radix2 1024)
        then is_finite v = true /\ B2R v = (if filled then - metric64 res d else metric64 res d)%R
        else v = B754_infinity filled
    end.

Definition is_sdf64 (res : R) (nx ny nz : Z) (filled : idx -> bool) (X : idx -> Prop)
    (f : idx -> option b64) : Prop :=
  forall i, in_box nx ny nz i ->
    exists v, f i = Some v /\
      is_signed_distance64 res (filled i) (fun j => opposite nx ny nz filled i j \/ X j) i v.

(** Rounding to the nearest binary32 number, ties to even (unbounded exponent above). *)
Definition round32 (x : R) : R := round radix2 (SpecFloat.fexp 24 128) ZnearestE x.

(** The single-precision field: the double-precision value rounded once more. *)
Definition is_signed_distance32 (res : R) (filled : bool) (T : idx -> Prop) (i : idx) (v : b32) : Prop :=
  exists m, is_nearest T i m /\
    match m with
    | None => v = B754_infinity filled
    | Some d =>
        if Rlt_dec (round32 (metric64 res d)) (bpow radix2 128)
        then is_finite v = true /\ B2R v = (if filled then - round32 (metric64 res d) else round32 (metric64 res d))%R
        else v = B754_infinity filled
    end.

Definition is_sdf32 (res : R) (nx ny nz : Z) (filled : idx -> bool) (X : idx -> Prop)
    (f : idx -> option b32) : Prop :=
  forall i, in_box nx ny nz i ->
    exists v, f i = Some v /\
      is_signed_distance32 res (filled i) (fun j => opposite nx ny nz filled i j \/ X j) i v.
