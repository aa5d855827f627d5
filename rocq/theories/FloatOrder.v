(** Order of IEEE numbers (any precision): comparison agrees with the order of the
    real values extended by the infinities. *)
From Coq Require Import ZArith Reals Lia Lra Bool.
From Flocq Require Import Core BinarySingleNaN.
Local Open Scope Z_scope.

Section Order.
Context (prec emax : Z) {Hp : Prec_gt_0 prec} {He : Prec_lt_emax prec emax}.
Notation F := (binary_float prec emax).

(** Rank: minus infinity, finite, plus infinity. *)
Definition rank (x : F) : R :=
  match x with B754_infinity true => (-1)%R | B754_infinity false => 1%R | _ => 0%R end.

Lemma Bltb_iff (x y : F) : is_nan x = false -> is_nan y = false ->
  Bltb x y = true <-> (rank x < rank y \/ (rank x = rank y /\ B2R x < B2R y))%R.
Proof.
  intros Nx Ny.
  destruct (is_finite x) eqn:Fx; [destruct (is_finite y) eqn:Fy|].
  - rewrite Bltb_correct by assumption.
    assert (rank x = 0 /\ rank y = 0)%R as [-> ->] by (destruct x, y; try discriminate; now split).
    destruct (Rlt_bool_spec (B2R x) (B2R y)); split; intros; try lra; try easy.
  - destruct y as [| [|] | |]; try discriminate.
    + assert (rank x = 0)%R as -> by (destruct x; now try discriminate). cbn.
      destruct x as [| |  |sx mx ex e]; try discriminate; cbn; split; intros; try discriminate; lra.
    + assert (rank x = 0)%R as -> by (destruct x; now try discriminate). cbn.
      destruct x as [| |  |sx mx ex e]; try discriminate; cbn; split; intros; try lra; destruct sx; reflexivity.
  - destruct x as [| [|] | |]; try discriminate.
    + destruct y as [|[|]| |[|]]; try discriminate; cbn; split; intros; try discriminate; try lra; try reflexivity.
    + destruct y as [|[|]| |[|]]; try discriminate; cbn; split; intros; try discriminate; try lra; try reflexivity.
Qed.

Lemma Bltb_irrefl (x : F) : Bltb x x = false.
Proof.
  destruct (is_nan x) eqn:N; [destruct x; try discriminate; reflexivity|].
  destruct (Bltb x x) eqn:E; [|reflexivity]. apply Bltb_iff in E; [lra|assumption|assumption].
Qed.

Lemma Bltb_false_trans (x y z : F) : is_nan x = false -> is_nan y = false -> is_nan z = false ->
  Bltb x y = false -> Bltb y z = false -> Bltb x z = false.
Proof.
  intros Nx Ny Nz H1 H2. destruct (Bltb x z) eqn:E; [|reflexivity].
  apply Bltb_iff in E; [|assumption|assumption].
  assert (~ (rank x < rank y \/ rank x = rank y /\ B2R x < B2R y)%R)
    by (intros C; apply Bltb_iff in C; congruence).
  assert (~ (rank y < rank z \/ rank y = rank z /\ B2R y < B2R z)%R)
    by (intros C; apply Bltb_iff in C; congruence).
  exfalso. lra.
Qed.

Lemma Bleb_negb_Bltb (x y : F) : is_nan x = false -> is_nan y = false -> Bleb x y = negb (Bltb y x).
Proof.
  intros Nx Ny.
  destruct (is_finite x) eqn:Fx; [destruct (is_finite y) eqn:Fy|].
  - rewrite Bltb_correct, Bleb_correct by assumption.
    destruct (Rlt_bool_spec (B2R y) (B2R x)), (Rle_bool_spec (B2R x) (B2R y)); try reflexivity; lra.
  - destruct y as [| [|] | |]; try discriminate; destruct x as [|[|]| |[|]]; try discriminate; reflexivity.
  - destruct x as [| [|] | |]; try discriminate; destruct y as [|[|]| |[|]]; try discriminate; reflexivity.
Qed.
End Order.
