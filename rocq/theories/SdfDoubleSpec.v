(** What is required of floor and of the interpolation of doubles. *)
From Coq Require Import ZArith Reals List.
From Flocq Require Import Core BinarySingleNaN.
From Verif Require Import Grid FloatModel SdfSpec SdfQueryModel SdfQueryArith.
Local Open Scope R_scope.

Definition finite3 (v : b64 * b64 * b64) : Prop :=
  is_finite (fst (fst v)) = true /\ is_finite (snd (fst v)) = true /\ is_finite (snd v) = true.
Definition reals3 (v : b64 * b64 * b64) : R * R * R := (B2R (fst (fst v)), B2R (snd (fst v)), B2R (snd v)).

(** floor and conversion to int64_t, defined for numbers that fit. *)
Definition floors (fl : b64 -> Z) : Prop :=
  forall x : b64, is_finite x = true -> Rabs (B2R x) < bpow radix2 63 -> fl x = Zfloor (B2R x).

(** Coordinates whose indices fit into int64_t. *)
Definition fits (r : R) (q : b64 * b64 * b64) : Prop :=
  Rabs (B2R (fst (fst q))) <= bpow radix2 62 * r /\ Rabs (B2R (snd (fst q))) <= bpow radix2 62 * r /\
  Rabs (B2R (snd q)) <= bpow radix2 62 * r.

(** On one axis: [q] is at most two lengths of the cell away from its lower end. *)
Definition at_cell (lo hi q : R) : Prop :=
  bpow radix2 (-901) <= hi - lo /\ Rabs lo <= bpow radix2 1000 /\ Rabs hi <= bpow radix2 1000 /\
  Rabs (q - lo) <= 2 * (hi - lo).

(** [tri] computes the trilinear formula up to [kappa] times the largest of the values. *)
Definition interpolates (kappa : R)
    (tri : b64 * b64 * b64 -> b64 * b64 * b64 -> list b64 -> b64 * b64 * b64 -> b64) : Prop :=
  forall B lo hi v q,
  bpow radix2 (-901) <= B <= bpow radix2 1001 -> finite3 lo -> finite3 hi -> finite3 q ->
  at_cell (B2R (fst (fst lo))) (B2R (fst (fst hi))) (B2R (fst (fst q))) ->
  at_cell (B2R (snd (fst lo))) (B2R (snd (fst hi))) (B2R (snd (fst q))) ->
  at_cell (B2R (snd lo)) (B2R (snd hi)) (B2R (snd q)) ->
  length v = 8%nat -> Forall (fun a => is_finite a = true /\ Rabs (B2R a) <= B) v ->
  is_finite (tri lo hi v q) = true /\
  Rabs (B2R (tri lo hi v q) - real_trilinear (reals3 lo) (reals3 hi) (map B2R v) (reals3 q)) <= kappa * B.

(** The difference of stored values up to [D] has relative error [eta]. *)
Definition subtracts {V} (eta D : R) (ssub : V -> V -> V) (of : V -> b64) : Prop :=
  forall a b, is_finite (of a) = true -> is_finite (of b) = true -> Rabs (B2R (of a)) <= D -> Rabs (B2R (of b)) <= D ->
  is_finite (of (ssub a b)) = true /\
  Rabs (B2R (of (ssub a b)) - (B2R (of a) - B2R (of b))) <= eta * Rabs (B2R (of a) - B2R (of b)).

(** [c] is, up to [tol] over the distance, the difference quotient of the exact estimates
    [X] between two of [x], [x - w] and [x + w]: as far apart as the estimates [E] in double
    are available. *)
Definition rounded_slope (E : b64 -> answer b64) (X : b64 -> answer R) (x w : b64) (tol : R) (c : b64) : Prop :=
  exists a b,
  (a = b64_sub x w \/ a = x /\ forall e, E (b64_sub x w) <> Answer e) /\
  (b = b64_add x w \/ b = x /\ forall e, E (b64_add x w) <> Answer e) /\
  B2R a < B2R b /\ (exists e, E a = Answer e) /\ (exists e, E b = Answer e) /\
  forall ea eb, X a = Answer ea -> X b = Answer eb ->
  is_finite c = true /\ Rabs (B2R c - (eb - ea) / (B2R b - B2R a)) <= tol / (B2R b - B2R a).

(** Every cell has a cell of the other kind, or of the virtual border, to be distant from. *)
Definition both_kinds (nx ny nz : Z) (filled : idx -> bool) (border : bool) : Prop :=
  ((exists a, in_box nx ny nz a /\ filled a = true) /\ exists b, in_box nx ny nz b /\ filled b = false) \/
  (border = true /\ exists j, in_shell nx ny nz j).
