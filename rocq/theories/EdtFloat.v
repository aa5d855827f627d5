(** Binary64 meets the conditions under which the transform is correct. *)
From Coq Require Import ZArith Reals List Lia Lra Bool Psatz.
From Flocq Require Import Core BinarySingleNaN.
From Verif Require Import Util Grid Prog Schedule EdtModel FloatModel EdtSpec EdtLineProofs EdtProofs.
Local Open Scope Z_scope.

(** Field values and the distances they stand for. *)
Definition b64_rep (a : b64) (x : dist) : Prop :=
  match x with
  | None => a = B754_infinity false
  | Some z => is_finite a = true /\ B2R a = IZR z
  end.

Definition b64_bp (a : b64) : Prop := is_nan a = false.

Notation fmt := (generic_format radix2 (SpecFloat.fexp 53 1024)).
Notation rnd := (round radix2 (SpecFloat.fexp 53 1024) ZnearestE).

Definition P53 : Z := 9007199254740992. (* 2^53 *)

Lemma fmt_scaled m e : Z.abs m < P53 -> -1074 <= e -> fmt (IZR m * bpow radix2 e).
Proof.
  intros Hm He. apply generic_format_FLT. exists (Float radix2 m e).
  - easy.
  - exact Hm.
  - exact He.
Qed.

Lemma fmt_Z z : Z.abs z < P53 -> fmt (IZR z).
Proof.
  intros H. replace (IZR z) with (IZR z * bpow radix2 0)%R by (cbn; lra).
  apply fmt_scaled; lia.
Qed.

Lemma bpow_1024_big : (IZR P53 <= bpow radix2 1024)%R.
Proof.
  replace (IZR P53) with (bpow radix2 53) by reflexivity. apply bpow_le. lia.
Qed.

Lemma small_no_overflow x : (Rabs x < IZR P53)%R -> Rlt_bool (Rabs x) (bpow radix2 1024) = true.
Proof. intros H. apply Rlt_bool_true. pose proof bpow_1024_big. lra. Qed.

Lemma abs_IZR_lt z : Z.abs z < P53 -> (Rabs (IZR z) < IZR P53)%R.
Proof. intros H. rewrite <- abs_IZR. now apply IZR_lt. Qed.

Lemma ofZ_exact z : Z.abs z < P53 -> is_finite (b64_ofZ z) = true /\ B2R (b64_ofZ z) = IZR z.
Proof.
  intros H. unfold b64_ofZ.
  generalize (binary_normalize_correct 53 1024 _ _ mode_NE z 0 false).
  cbv zeta. replace (F2R (Float radix2 z 0)) with (IZR z) by (unfold F2R; cbn; lra).
  change (round_mode mode_NE) with ZnearestE.
  rewrite round_generic; [|apply valid_rnd_N|now apply fmt_Z].
  rewrite small_no_overflow by now apply abs_IZR_lt. tauto.
Qed.

Lemma add_exact a b x y :
  is_finite a = true -> is_finite b = true -> B2R a = IZR x -> B2R b = IZR y ->
  Z.abs (x + y) < P53 ->
  is_finite (b64_add a b) = true /\ B2R (b64_add a b) = IZR (x + y).
Proof.
  intros Fa Fb Ea Eb H. generalize (Bplus_correct 53 1024 _ _ mode_NE a b Fa Fb).
  rewrite Ea, Eb, <- plus_IZR. change (round_mode mode_NE) with ZnearestE.
  rewrite round_generic; [|apply valid_rnd_N|now apply fmt_Z].
  rewrite small_no_overflow by now apply abs_IZR_lt. unfold b64_add. tauto.
Qed.

Lemma sub_exact a b x y :
  is_finite a = true -> is_finite b = true -> B2R a = IZR x -> B2R b = IZR y ->
  Z.abs (x - y) < P53 ->
  is_finite (b64_sub a b) = true /\ B2R (b64_sub a b) = IZR (x - y).
Proof.
  intros Fa Fb Ea Eb H. generalize (Bminus_correct 53 1024 _ _ mode_NE a b Fa Fb).
  rewrite Ea, Eb, <- minus_IZR. change (round_mode mode_NE) with ZnearestE.
  rewrite round_generic; [|apply valid_rnd_N|now apply fmt_Z].
  rewrite small_no_overflow by now apply abs_IZR_lt. unfold b64_sub. tauto.
Qed.

Lemma div_rounds a b x y :
  is_finite a = true -> B2R a = IZR x -> B2R b = IZR y ->
  Z.abs x < P53 -> 1 <= y ->
  is_finite (b64_div a b) = true /\ B2R (b64_div a b) = rnd (IZR x / IZR y).
Proof.
  intros Fa Ea Eb Hx Hy.
  assert (Hy' : (1 <= IZR y)%R) by (apply IZR_le; lia).
  generalize (Bdiv_correct 53 1024 _ _ mode_NE a b ltac:(rewrite Eb; lra)).
  rewrite Ea, Eb. change (round_mode mode_NE) with ZnearestE.
  assert (B : (Rabs (rnd (IZR x / IZR y)) < IZR P53)%R).
  { assert (HA : (Rabs (IZR x / IZR y) <= Rabs (IZR x))%R).
    { unfold Rdiv. rewrite Rabs_mult, <- (Rmult_1_r (Rabs (IZR x))) at 1.
      rewrite Rmult_1_r. rewrite <- (Rmult_1_r (Rabs (IZR x))) at 2.
      apply Rmult_le_compat_l; [apply Rabs_pos|].
      rewrite Rabs_right; [|apply Rle_ge; left; apply Rinv_0_lt_compat; lra].
      rewrite <- Rinv_1. apply Rinv_le; lra. }
    apply Rle_lt_trans with (Rabs (IZR x)); [|now apply abs_IZR_lt].
    rewrite <- abs_IZR in *.
    apply abs_round_le_generic; [apply FLT_exp_valid; easy|apply valid_rnd_N| |exact HA].
    apply fmt_Z. lia. }
  rewrite small_no_overflow by exact B. unfold b64_div. rewrite Fa. tauto.
Qed.

(** Comparisons involving infinities. *)
Lemma nonnan_cases (s : b64) : b64_bp s ->
  s = B754_infinity false \/ s = B754_infinity true \/ is_finite s = true.
Proof. destruct s as [s|[|]| |s m e H]; cbn; auto; discriminate. Qed.

Lemma ltb_pinf (t : b64) : b64_ltb (B754_infinity false) t = false.
Proof. destruct t as [s|[|]| |s m e H]; easy. Qed.
Lemma ltb_ninf (t : b64) : is_finite t = true -> b64_ltb (B754_infinity true) t = true.
Proof. destruct t as [s|[|]| |[|] m e H]; easy. Qed.
Lemma ltb_fin_pinf (t : b64) : is_finite t = true -> b64_ltb t (B754_infinity false) = true.
Proof. destruct t as [s|[|]| |[|] m e H]; easy. Qed.
Lemma leb_pinf_fin (t : b64) : is_finite t = true -> b64_leb (B754_infinity false) t = false.
Proof. destruct t as [s|[|]| |[|] m e H]; easy. Qed.
Lemma leb_fin_ninf (t : b64) : is_finite t = true -> b64_leb t (B754_infinity true) = false.
Proof. destruct t as [s|[|]| |[|] m e H]; easy. Qed.
Lemma leb_ninf (t : b64) : b64_bp t -> b64_leb (B754_infinity true) t = true.
Proof. destruct t as [s|[|]| |[|] m e H]; easy. Qed.
Lemma leb_pinf (t : b64) : b64_bp t -> b64_leb t (B754_infinity false) = true.
Proof. destruct t as [s|[|]| |[|] m e H]; easy. Qed.
Lemma eqb_fin_pinf (t : b64) : is_finite t = true -> b64_eqb t (B754_infinity false) = false.
Proof. destruct t as [s|[|]| |[|] m e H]; easy. Qed.

Lemma ltb_fin (s t : b64) : is_finite s = true -> is_finite t = true ->
  b64_ltb s t = Rlt_bool (B2R s) (B2R t).
Proof. apply Bltb_correct. Qed.
Lemma leb_fin (s t : b64) : is_finite s = true -> is_finite t = true ->
  b64_leb s t = Rle_bool (B2R s) (B2R t).
Proof. apply Bleb_correct. Qed.

Lemma Rlt_bool_iff x y : Rlt_bool x y = true <-> (x < y)%R.
Proof. destruct (Rlt_bool_spec x y); split; try easy; intros; lra. Qed.
Lemma Rlt_bool_niff x y : Rlt_bool x y = false <-> (y <= x)%R.
Proof. destruct (Rlt_bool_spec x y); split; try easy; intros; lra. Qed.
Lemma Rle_bool_iff x y : Rle_bool x y = true <-> (x <= y)%R.
Proof. destruct (Rle_bool_spec x y); split; try easy; intros; lra. Qed.
Lemma Rle_bool_niff x y : Rle_bool x y = false <-> (y < x)%R.
Proof. destruct (Rle_bool_spec x y); split; try easy; intros; lra. Qed.

(** The quotient of integers, rounded, stays on the right side of every integer. *)
Lemma rnd_div_ge top bottom t :
  1 <= bottom <= 2 ^ 26 -> 0 <= t < 2 ^ 25 ->
  (IZR t <= rnd (IZR top / IZR bottom))%R -> bottom * t <= top.
Proof.
  intros Hb Ht H. destruct (Z_le_gt_dec (bottom * t) top) as [|C]; [easy|exfalso].
  assert (Hb' : (1 <= IZR bottom)%R) by (apply IZR_le; lia).
  assert (Hb2 : (IZR bottom <= bpow radix2 26)%R).
  { replace (bpow radix2 26) with (IZR (2 ^ 26)) by reflexivity. apply IZR_le. lia. }
  set (y := (IZR (t * 2 ^ 26 - 1) * bpow radix2 (-26))%R).
  assert (Hy : fmt y) by (apply fmt_scaled; unfold P53; lia).
  assert (Ey : (y = IZR t - bpow radix2 (-26))%R).
  { unfold y. rewrite minus_IZR, mult_IZR. replace (IZR (2 ^ 26)) with (bpow radix2 26) by reflexivity.
    rewrite Rmult_minus_distr_r, Rmult_assoc, <- bpow_plus. cbn. lra. }
  assert (Hq : (IZR top / IZR bottom <= y)%R).
  { apply Rmult_le_reg_r with (IZR bottom); [lra|].
    unfold Rdiv. rewrite Rmult_assoc, Rinv_l, Rmult_1_r by lra. rewrite Ey.
    assert (C' : (IZR top <= IZR bottom * IZR t - 1)%R).
    { rewrite <- mult_IZR, <- minus_IZR. apply IZR_le. lia. }
    assert (P : (bpow radix2 (-26) * IZR bottom <= 1)%R).
    { apply Rle_trans with (bpow radix2 (-26) * bpow radix2 26)%R.
      - apply Rmult_le_compat_l; [apply bpow_ge_0|exact Hb2].
      - rewrite <- bpow_plus. cbn. lra. }
    lra. }
  assert (Hr : (rnd (IZR top / IZR bottom) <= y)%R).
  { apply round_le_generic; [apply FLT_exp_valid; easy|apply valid_rnd_N|exact Hy|exact Hq]. }
  pose proof (bpow_gt_0 radix2 (-26)). lra.
Qed.

Lemma rnd_div_lt top bottom t :
  1 <= bottom -> Z.abs t < P53 ->
  (rnd (IZR top / IZR bottom) < IZR t)%R -> top <= bottom * t.
Proof.
  intros Hb Ht H. destruct (Z_le_gt_dec top (bottom * t)) as [|C]; [easy|exfalso].
  assert (Hb' : (1 <= IZR bottom)%R) by (apply IZR_le; lia).
  assert (Hr : (IZR t <= rnd (IZR top / IZR bottom))%R).
  { apply round_ge_generic; [apply FLT_exp_valid; easy|apply valid_rnd_N|now apply fmt_Z|].
    apply Rmult_le_reg_r with (IZR bottom); [lra|].
    unfold Rdiv. rewrite Rmult_assoc, Rinv_l, Rmult_1_r by lra.
    rewrite <- mult_IZR. apply IZR_le. lia. }
  lra.
Qed.

Definition B25 : Z := 2 ^ 25.

Lemma parabola_ge x y p q t :
  (2 * q - 2 * p) * t <= x + q * q - (y + p * p) ->
  y + (t - p) * (t - p) <= x + (t - q) * (t - q).
Proof. intros H. lia. Qed.

Lemma parabola_le x y p q t :
  x + q * q - (y + p * p) <= (2 * q - 2 * p) * t ->
  x + (t - q) * (t - q) <= y + (t - p) * (t - p).
Proof. intros H. lia. Qed.

Lemma top_bound x y p q :
  0 <= x <= 2 * (B25 * B25) -> 0 <= y <= 2 * (B25 * B25) -> 0 <= p < q -> q < B25 ->
  Z.abs (x + q * q) < P53 /\ Z.abs (y + p * p) < P53 /\
  Z.abs (x + q * q - (y + p * p)) < P53 /\ 1 <= 2 * q - 2 * p <= 2 ^ 26 /\
  0 <= q * q < B25 * B25 /\ 0 <= p * p < B25 * B25.
Proof.
  intros Hx Hy Hp Hq.
  assert (Hsq : 0 <= q * q < B25 * B25) by nia.
  assert (Hsp : 0 <= p * p < B25 * B25) by nia.
  change (B25 * B25) with 1125899906842624 in *. change (2 ^ 26) with 67108864. unfold P53.
  assert (q < 33554432) by exact Hq.
  set (a := q * q) in *. set (b := p * p) in *. clearbody a b. lia.
Qed.

(** Lines of up to 2^25 samples whose finite values are at most 2^51. *)
Lemma binary64_ok : arith_ok binary64 b64_rep b64_bp B25 (2 * (B25 * B25)).
Proof.
  assert (HB : B25 = 33554432) by easy.
  assert (IV : forall t, 0 <= t < B25 -> is_finite (b64_ofZ t) = true /\ B2R (b64_ofZ t) = IZR t).
  { intros t Ht. apply ofZ_exact. unfold P53. lia. }
  split.
  - easy.
  - intros a x k R Bx Hk. cbn -[Z.mul]. unfold square. cbn -[Z.mul b64_ofZ b64_add].
    assert (HK : 0 <= k * k < B25 * B25) by nia.
    destruct (ofZ_exact (k * k)) as [Fk Ek]; [unfold P53; lia|].
    destruct x as [x|]; cbn -[Z.mul b64_ofZ b64_add] in *.
    + destruct R as [Fa Ea]. rewrite (Z.add_comm x). apply add_exact; try easy. unfold P53; lia.
    + subst a. destruct (b64_ofZ (k * k)); easy.
  - intros a x b y Ra Bx Rb By. cbn -[b64_ltb].
    destruct x as [x|], y as [y|]; cbn in Ra, Rb.
    + destruct Ra as [Fa Ea], Rb as [Fb Eb]. rewrite ltb_fin by easy. rewrite Ea, Eb. cbn.
      destruct (x <? y) eqn:E; [apply Rlt_bool_iff, IZR_lt; lia|apply Rlt_bool_niff, IZR_le; lia].
    + subst b. destruct Ra as [Fa _]. now apply ltb_fin_pinf.
    + subst a. apply ltb_pinf.
    + subst a. apply ltb_pinf.
  - intros a x b y p q Ra Bx Rb By Hp Hq. cbv zeta.
    assert (Hsq : 0 <= q * q < B25 * B25) by nia.
    assert (Hsp : 0 <= p * p < B25 * B25) by nia.
    destruct (ofZ_exact (q * q)) as [Fq Eq]; [unfold P53; lia|].
    destruct (ofZ_exact (p * p)) as [Fp Ep]; [unfold P53; lia|].
    destruct (ofZ_exact (2 * q - 2 * p)) as [Fb' Eb']; [unfold P53; lia|].
    assert (Pinf : forall u : b64, is_finite u = true -> b64_add (B754_infinity false) u = B754_infinity false).
    { intros u Hu. destruct u; easy. }
    assert (Hpos : (0 < B2R (b64_ofZ (2 * q - 2 * p)))%R) by (rewrite Eb'; apply IZR_lt; lia).
    assert (Dinf : forall sg, b64_div (B754_infinity sg) (b64_ofZ (2 * q - 2 * p)) = B754_infinity sg).
    { intros sg. destruct (b64_ofZ (2 * q - 2 * p)) as [s|s| |s m e Hme]; cbn in Hpos, Fb'; try discriminate; try lra.
      cbn. f_equal. destruct s; [|now destruct sg].
      exfalso. apply Rlt_not_le in Hpos. apply Hpos. apply F2R_le_0. easy. }
    unfold breakpoint, sub_no_nan, square.
    cbn -[Z.mul Z.sub b64_ofZ b64_add b64_sub b64_div b64_eqb b64_ltb cost].
    destruct x as [x|], y as [y|]; cbn -[Z.mul] in Ra, Rb, Bx, By.
    + destruct Ra as [Fa Ea], Rb as [Fb Eb].
      destruct (top_bound x y p q Bx By Hp Hq) as [T1 [T2 [T3 [T4 _]]]].
      destruct (add_exact a (b64_ofZ (q * q)) x (q * q) Fa Fq Ea Eq T1) as [F1 E1].
      destruct (add_exact b (b64_ofZ (p * p)) y (p * p) Fb Fp Eb Ep T2) as [F2 E2].
      rewrite !eqb_fin_pinf by easy. cbn [andb].
      destruct (sub_exact _ _ _ _ F1 F2 E1 E2 T3) as [F3 E3].
      destruct (div_rounds _ (b64_ofZ (2 * q - 2 * p)) _ _ F3 E3 Eb' T3 (proj1 T4)) as [F4 E4].
      split; [|split].
      * unfold b64_bp. destruct (b64_div _ _); easy.
      * intros t Ht. destruct (IV t Ht) as [Ft Et]. rewrite ltb_fin by easy. rewrite Rlt_bool_niff, E4, Et.
        intros H. apply rnd_div_ge in H; [|exact T4|exact Ht]. exact (parabola_ge _ _ _ _ _ H).
      * intros t Ht. destruct (IV t Ht) as [Ft Et]. rewrite ltb_fin by easy. rewrite Rlt_bool_iff, E4, Et.
        intros H. apply rnd_div_lt in H; [|exact (proj1 T4)|clear -Ht HB; unfold P53; lia]. exact (parabola_le _ _ _ _ _ H).
    + subst b. destruct Ra as [Fa Ea].
      destruct (add_exact a (b64_ofZ (q * q)) x (q * q)) as [F1 E1]; try easy; [unfold P53; lia|].
      rewrite Pinf by easy. rewrite !eqb_fin_pinf by easy. cbn [andb].
      change (b64_eqb (B754_infinity false) (B754_infinity false)) with true. cbv iota.
      rewrite Dinf. split; [easy|]. split; intros t Ht; [|easy].
      destruct (IV t Ht) as [Ft _]. rewrite ltb_ninf by easy. discriminate.
    + subst a. rewrite Pinf by easy. destruct Rb as [Fb Eb].
      destruct (add_exact b (b64_ofZ (p * p)) y (p * p)) as [F2 E2]; try easy; [unfold P53; lia|].
      rewrite (eqb_fin_pinf _ F2).
      change (b64_eqb (B754_infinity false) (B754_infinity false)) with true. cbn [andb].
      rewrite Dinf. split; [easy|]. split; intros t Ht.
      * easy.
      * rewrite ltb_pinf. discriminate.
    + subst a b. rewrite !Pinf by easy.
      change (b64_eqb (B754_infinity false) (B754_infinity false)) with true. cbn [andb].
      split; [|split; easy].
      destruct (b64_ofZ (2 * q - 2 * p)) as [s|s| |s m e Hme]; cbn in Hpos, Fb'; try discriminate; try lra.
      easy.
  - easy.
  - intros t Ht. apply ltb_pinf.
  - intros s s' t Bs Bs' Ht. destruct (IV t Ht) as [Ft Et]. cbn -[b64_ltb b64_leb b64_ofZ].
    destruct (nonnan_cases s Bs) as [-> |[-> |Fs]], (nonnan_cases s' Bs') as [-> |[-> |Fs']];
      rewrite ?ltb_pinf, ?ltb_ninf by easy; try easy.
    + rewrite leb_pinf_fin by easy. discriminate.
    + rewrite leb_fin_ninf by easy. discriminate.
    + rewrite leb_fin, !ltb_fin by easy. rewrite Rle_bool_iff, !Rlt_bool_iff. lra.
  - intros s s' t Bs Bs' Ht. destruct (IV t Ht) as [Ft Et]. cbn -[b64_ltb b64_leb b64_ofZ].
    destruct (nonnan_cases s Bs) as [-> |[-> |Fs]], (nonnan_cases s' Bs') as [-> |[-> |Fs']];
      rewrite ?ltb_pinf, ?ltb_ninf by easy; try easy.
    + rewrite leb_ninf by easy. discriminate.
    + rewrite leb_pinf by easy. discriminate.
    + rewrite leb_fin, !ltb_fin by easy. rewrite Rle_bool_niff, !Rlt_bool_iff. lra.
  - intros s t t' Bs Ht Ht'. destruct (IV t ltac:(lia)) as [Ft Et], (IV t' ltac:(lia)) as [Ft' Et'].
    cbn -[b64_ltb b64_leb b64_ofZ].
    destruct (nonnan_cases s Bs) as [-> |[-> |Fs]]; rewrite ?ltb_pinf, ?ltb_ninf by easy; try easy.
    rewrite !ltb_fin by easy. rewrite !Rlt_bool_iff, Et, Et'.
    intros H. assert (IZR t <= IZR t')%R by (apply IZR_le; lia). lra.
Qed.
