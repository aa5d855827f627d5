(** The bit-pattern comparisons of [Occ] are the IEEE-754 binary32 comparisons. *)
From Coq Require Import ZArith List Lia Bool ZifyBool.
From Flocq Require Import Core IEEE754.Binary IEEE754.Bits.
From Verif Require Import Occ.
Local Open Scope Z_scope.

(** Comparison of the stored float with 0.5, as Flocq defines it. *)
Definition cmp_half (b : occ) : option comparison :=
  Bcompare 24 128 (b32_of_bits b) (b32_of_bits half_bits).

Definition ff_sf (f : full_float) : SpecFloat.spec_float :=
  match f with
  | F754_zero s => SpecFloat.S754_zero s
  | F754_infinity s => SpecFloat.S754_infinity s
  | F754_nan _ _ => SpecFloat.S754_nan
  | F754_finite s m e => SpecFloat.S754_finite s m e
  end.

Lemma ff_sf_B2 prec emax (x : binary_float prec emax) :
  BinarySingleNaN.B2SF (B2BSN prec emax x) = ff_sf (B2FF prec emax x).
Proof. now destruct x. Qed.

Definition cmp_bits (b : Z) : option comparison :=
  if occ_nan b then None
  else if 2 ^ 31 <=? b then Some Lt
  else Some (b ?= half_bits).

Lemma Pcompare_Z m1 m2 : Pos.compare_cont Eq m1 m2 = (Zpos m1 ?= Zpos m2).
Proof. reflexivity. Qed.

Lemma cmp_half_bits b : is_occ b -> cmp_half b = cmp_bits b.
Proof.
  unfold is_occ. intros Hb. unfold cmp_half, Bcompare, BinarySingleNaN.Bcompare.
  rewrite !ff_sf_B2. unfold b32_of_bits, binary_float_of_bits. rewrite !B2FF_FF2B.
  replace (ff_sf (binary_float_of_bits_aux 23 8 half_bits))
    with (SpecFloat.S754_finite false 8388608 (-24)) by reflexivity.
  unfold binary_float_of_bits_aux, split_bits.
  set (ex := (b / 2 ^ 23) mod 2 ^ 8). set (mx := b mod 2 ^ 23).
  assert (Dm : b = 2 ^ 23 * (b / 2 ^ 23) + mx) by (apply Z.div_mod; lia).
  assert (De : b / 2 ^ 23 = 2 ^ 8 * (b / 2 ^ 23 / 2 ^ 8) + ex) by (apply Z.div_mod; lia).
  assert (Bm : 0 <= mx < 2 ^ 23) by (apply Z.mod_pos_bound; lia).
  assert (Be : 0 <= ex < 2 ^ 8) by (apply Z.mod_pos_bound; lia).
  set (sg := b / 2 ^ 23 / 2 ^ 8) in *.
  assert (E : b = 2 ^ 31 * sg + 2 ^ 23 * ex + mx) by (change (2 ^ 31) with (2 ^ 23 * 2 ^ 8); lia).
  clearbody sg ex mx. clear Dm De.
  assert (Sg : sg = 0 \/ sg = 1) by lia.
  assert (Em : b mod 2 ^ 31 = 2 ^ 23 * ex + mx).
  { symmetry. apply Z.mod_unique with sg; lia. }
  unfold cmp_bits, occ_nan. rewrite Em. unfold half_bits.
  replace (2 ^ 23 * 2 ^ 8) with (2 ^ 31) by reflexivity.
  change (SpecFloat.emin (23 + 1) (2 ^ (8 - 1))) with (-149).
  change (2 ^ 8 - 1) with 255. change (2 ^ 23) with 8388608 in *. change (2 ^ 31) with 2147483648 in *.
  change (2 ^ 8) with 256 in *.
  change (126 * 8388608) with 1056964608. change (255 * 8388608) with 2139095040.
  destruct (Zeq_bool ex 0) eqn:E0.
  - apply Zeq_bool_eq in E0. subst ex.
    destruct (Z.ltb_spec 2139095040 (8388608 * 0 + mx)); [lia|].
    destruct mx as [|m|m]; [| |lia]; cbn [ff_sf SpecFloat.SFcompare];
      destruct (Z.leb_spec 2147483648 b); try reflexivity; f_equal; symmetry; apply Z.compare_lt_iff; lia.
  - apply Zeq_bool_neq in E0.
    destruct (Zeq_bool ex 255) eqn:E1.
    + apply Zeq_bool_eq in E1. subst ex.
      destruct mx as [|m|m]; [| |lia]; cbn [ff_sf SpecFloat.SFcompare].
      * destruct (Z.ltb_spec 2139095040 (8388608 * 255 + 0)); [lia|].
        destruct (Z.leb_spec 2147483648 b); [reflexivity|]. f_equal. symmetry. apply Z.compare_gt_iff. lia.
      * destruct (Z.ltb_spec 2139095040 (8388608 * 255 + Z.pos m)); [reflexivity|lia].
    + apply Zeq_bool_neq in E1.
      destruct (Z.ltb_spec 2139095040 (8388608 * ex + mx)); [lia|].
      destruct (mx + 8388608) as [|m|m] eqn:Em'; [lia| |lia].
      cbn [ff_sf SpecFloat.SFcompare].
      destruct (Z.leb_spec 2147483648 b); [reflexivity|]. f_equal.
      rewrite Pcompare_Z. destruct (Z.compare_spec (ex + -149 - 1) (-24)); symmetry.
      * destruct (Z.compare_spec (Z.pos m) 8388608);
          [apply Z.compare_eq_iff|apply Z.compare_lt_iff|apply Z.compare_gt_iff]; lia.
      * apply Z.compare_lt_iff. lia.
      * apply Z.compare_gt_iff. lia.
Qed.

Lemma occ_gt_spec b : is_occ b -> (occ_gt b = true <-> cmp_half b = Some Gt).
Proof.
  intros H. rewrite cmp_half_bits by easy. unfold cmp_bits, occ_gt. unfold is_occ in H.
  destruct (occ_nan b); cbn [negb andb]; [easy|].
  destruct (Z.leb_spec (2 ^ 31) b); [split; [lia|easy]|].
  split.
  - intros G. f_equal. apply Z.compare_gt_iff. lia.
  - intros [= G]. apply Z.compare_gt_iff in G. lia.
Qed.

Lemma half_not_nan : occ_nan half_bits = false.
Proof. reflexivity. Qed.

Lemma occ_lt_spec b : is_occ b -> (occ_lt b = true <-> cmp_half b = Some Lt).
Proof.
  intros H. rewrite cmp_half_bits by easy. unfold cmp_bits, occ_lt. unfold is_occ in H.
  destruct (occ_nan b); cbn [negb andb]; [easy|].
  destruct (Z.leb_spec (2 ^ 31) b); [split; [easy|lia]|].
  split.
  - intros G. f_equal. apply Z.compare_lt_iff. lia.
  - intros [= G]. apply Z.compare_lt_iff in G. rewrite orb_false_r. now apply Z.ltb_lt.
Qed.

Lemma occ_eq_spec b : is_occ b -> (occ_eq b = true <-> cmp_half b = Some Eq).
Proof.
  intros H. rewrite cmp_half_bits by easy. unfold cmp_bits, occ_eq. unfold is_occ in H.
  split.
  - intros G. apply Z.eqb_eq in G. subst b. reflexivity.
  - destruct (occ_nan b); [easy|]. destruct (2 ^ 31 <=? b); [easy|].
    intros [= G]. apply Z.compare_eq_iff in G. lia.
Qed.
