(** Colours of exported signed distance fields. *)
From Coq Require Import ZArith List Bool Lia Reals Lra.
From Flocq Require Import Core BinarySingleNaN.
From Verif Require Import Util Grid FloatModel EdtFloat FilterModel FilterFloatProofs DisplayModel.
Local Open Scope Z_scope.

(** ** Scaled channel *)

Definition c08 : R := (13421773 * bpow radix2 (-24))%R.
Definition c02 : R := (13421773 * bpow radix2 (-26))%R.

Lemma val_08 : B2R b32_08 = c08. Proof. reflexivity. Qed.
Lemma val_02 : B2R b32_02 = c02. Proof. reflexivity. Qed.
Lemma val_one32 : B2R b32_one = 1%R.
Proof. unfold b32_one, B2R, F2R. cbn. lra. Qed.

Lemma c08_range : (0 < c08 < 1)%R.
Proof. unfold c08. cbn. lra. Qed.
Lemma c02_range : (0 < c02 < 1)%R.
Proof. unfold c02. cbn. lra. Qed.
Lemma fmt_08 : fmt32 c08. Proof. apply (fmt32_scaled 13421773 (-24)); lia. Qed.
Lemma fmt_02 : fmt32 c02. Proof. apply (fmt32_scaled 13421773 (-26)); lia. Qed.

Lemma rnd_le x y : (x <= y)%R -> (rnd x <= rnd y)%R.
Proof. apply round_le; [apply FLT_exp_valid; easy|apply valid_rnd_N]. Qed.
Lemma rnd_0 : rnd 0 = 0%R. Proof. apply round_0, valid_rnd_N. Qed.
Lemma rnd_1 : rnd 1 = 1%R.
Proof.
  apply round_generic; [apply valid_rnd_N|]. replace 1%R with (IZR 1 * bpow radix2 0)%R by (cbn; lra).
  apply fmt_scaled; [unfold P53; lia|lia].
Qed.
Lemma rnd32_0 : rnd32 0 = 0%R. Proof. apply round_0, valid_rnd_N. Qed.
Lemma rnd32_1 : rnd32 1 = 1%R.
Proof. apply rnd32_id. apply (fmt32_bpow 0). lia. Qed.

(** 0.8f + 0.2f rounds to 1. *)
Lemma rnd32_top : (rnd32 (c08 + c02) <= 1)%R.
Proof.
  apply round_N_le_midp.
  - apply FLT_exp_valid; easy.
  - apply (fmt32_bpow 0). lia.
  - rewrite succ_eq_pos by lra. replace 1%R with (bpow radix2 0) at 3 by reflexivity. rewrite ulp_bpow.
    change (SpecFloat.fexp 24 128 (0 + 1)) with (-23). unfold c08, c02. cbn. lra.
Qed.

(** The value of the channel for a ratio of magnitude [x]. *)
Definition channel (x : R) : R := rnd32 (rnd32 (rnd32 x * c08) + c02).

Lemma channel_le x y : (x <= y)%R -> (channel x <= channel y)%R.
Proof.
  intros H. unfold channel. apply rnd32_le. apply Rplus_le_compat_r. apply rnd32_le.
  apply Rmult_le_compat_r; [pose proof c08_range; lra|]. now apply rnd32_le.
Qed.

Lemma channel_range x : (0 <= x <= 1)%R -> (c02 <= channel x <= 1)%R.
Proof.
  intros (H0 & H1). split.
  - apply Rle_trans with (channel 0); [|now apply channel_le]. unfold channel.
    rewrite rnd32_0, Rmult_0_l, rnd32_0, Rplus_0_l, (rnd32_id c02) by apply fmt_02. lra.
  - apply Rle_trans with (channel 1); [now apply channel_le|]. unfold channel.
    rewrite rnd32_1, Rmult_1_l, (rnd32_id c08) by apply fmt_08. apply rnd32_top.
Qed.

Lemma cast32_nonneg (p : b64) : is_finite p = true -> (0 <= B2R p <= 1)%R ->
  is_finite (b32_of_b64 p) = true /\ B2R (b32_of_b64 p) = rnd32 (B2R p).
Proof.
  intros F (H0 & H1). destruct (Rle_lt_or_eq_dec 0 (B2R p) H0) as [L|L].
  - apply cast32; [exact F|lra].
  - destruct p as [s| | |s m e He]; try easy.
    + cbn. split; [reflexivity|]. now rewrite rnd32_0.
    + exfalso. symmetry in L. cbn in L. apply eq_0_F2R in L. now destruct s.
Qed.

Lemma small32' x : (0 <= x <= 2)%R -> Rlt_bool (Rabs x) (bpow radix2 128) = true.
Proof.
  intros H. apply small32. split; [lra|]. apply Rle_trans with (bpow radix2 1); [cbn; lra|].
  apply bpow_le. lia.
Qed.

(** The magnitude of a quotient. *)
Definition ratio (d e : b64) : R := Rabs (rnd (B2R d / B2R e)).

Lemma quotient_range x y : y <> 0%R -> (Rabs x <= Rabs y)%R -> (-1 <= x / y <= 1)%R.
Proof.
  intros Hy H. assert (Rabs (x / y) <= 1)%R as A.
  { unfold Rdiv. rewrite Rabs_mult, Rabs_inv. apply Rabs_pos_lt in Hy.
    apply Rmult_le_reg_r with (Rabs y); [exact Hy|]. rewrite Rmult_assoc, Rinv_l by lra. lra. }
  now apply Rabs_le_inv.
Qed.

Lemma ratio_range d e : B2R e <> 0%R -> (Rabs (B2R d) <= Rabs (B2R e))%R -> (0 <= ratio d e <= 1)%R.
Proof.
  intros He H. destruct (quotient_range _ _ He H) as (A & B). unfold ratio. split; [apply Rabs_pos|].
  apply Rabs_le. apply rnd_le in A. apply rnd_le in B. rewrite rnd_1 in B.
  replace (rnd (-1)) with (-1)%R in A; [lra|]. symmetry. change (-1)%R with (- (1))%R.
  rewrite round_NE_opp. now rewrite rnd_1.
Qed.

Lemma scale_color_spec (d e : b64) : is_finite d = true -> is_finite e = true -> B2R e <> 0%R ->
  (Rabs (B2R d) <= Rabs (B2R e))%R ->
  is_finite (scale_color d e) = true /\ B2R (scale_color d e) = channel (ratio d e).
Proof.
  intros Fd Fe He H. pose proof (ratio_range d e He H) as RR. unfold scale_color.
  set (q := Babs (b64_div d e)).
  assert (is_finite q = true /\ B2R q = ratio d e) as (Fq & Eq).
  { unfold q. rewrite is_finite_Babs, B2R_Babs. unfold b64_div.
    generalize (Bdiv_correct 53 1024 _ _ mode_NE d e He). change (round_mode mode_NE) with ZnearestE.
    rewrite Rlt_bool_true.
    - intros (E & F & _). rewrite E, F. auto.
    - apply Rle_lt_trans with (bpow radix2 0); [exact (proj2 RR)|]. apply bpow_lt. lia. }
  clearbody q. rewrite <- Eq in RR |- *. destruct (cast32_nonneg q Fq RR) as (F1 & E1).
  set (r := b32_of_b64 q) in *. clearbody r. set (x := B2R q) in *. clearbody x. clear q Fq Eq.
  assert (0 <= rnd32 x <= 1)%R as R1.
  { destruct RR as (A & B). apply rnd32_le in A. apply rnd32_le in B. rewrite rnd32_0 in A. rewrite rnd32_1 in B. lra. }
  pose proof c08_range as C8. pose proof c02_range as C2.
  assert (0 <= rnd32 (rnd32 x * c08) <= 1)%R as R2.
  { assert (0 <= rnd32 x * c08 <= 1)%R as (A & B).
    { split; [apply Rmult_le_pos; lra|]. replace 1%R with (1 * 1)%R by lra. apply Rmult_le_compat; lra. }
    apply rnd32_le in A. apply rnd32_le in B. rewrite rnd32_0 in A. rewrite rnd32_1 in B. lra. }
  generalize (Bmult_correct 24 128 _ _ mode_NE r b32_08). change (round_mode mode_NE) with ZnearestE.
  rewrite val_08, E1, small32' by lra. intros (E2 & F2 & _). rewrite F1 in F2. change (is_finite b32_08) with true in F2.
  set (s := Bmult mode_NE r b32_08) in *. clearbody s.
  pose proof (channel_range x RR) as CR. unfold channel in CR.
  generalize (Bplus_correct 24 128 _ _ mode_NE s b32_02 F2 eq_refl). change (round_mode mode_NE) with ZnearestE.
  rewrite val_02, E2, small32' by lra. intros (E3 & F3 & _). split; [exact F3|]. exact E3.
Qed.

Lemma scale_color_range (d e : b64) : is_finite d = true -> is_finite e = true -> B2R e <> 0%R ->
  (Rabs (B2R d) <= Rabs (B2R e))%R ->
  Bleb b32_02 (scale_color d e) = true /\ Bleb (scale_color d e) b32_one = true.
Proof.
  intros Fd Fe He H. destruct (scale_color_spec d e Fd Fe He H) as (F & E).
  pose proof (channel_range _ (ratio_range d e He H)) as (A & B).
  rewrite !Bleb_correct by easy. rewrite E, val_02, val_one32.
  split; now apply Rle_bool_true.
Qed.

Lemma scale_color_mono (d d' e : b64) : is_finite d = true -> is_finite d' = true -> is_finite e = true ->
  B2R e <> 0%R -> (Rabs (B2R d) <= Rabs (B2R d'))%R -> (Rabs (B2R d') <= Rabs (B2R e))%R ->
  Bleb (scale_color d e) (scale_color d' e) = true.
Proof.
  intros Fd Fd' Fe He H H'. destruct (scale_color_spec d e Fd Fe He ltac:(lra)) as (F & E).
  destruct (scale_color_spec d' e Fd' Fe He H') as (F' & E').
  rewrite Bleb_correct by easy. rewrite E, E'. apply Rle_bool_true, channel_le. unfold ratio.
  rewrite <- !round_NE_abs by (apply FLT_exp_valid; easy). apply rnd_le.
  unfold Rdiv. rewrite !Rabs_mult. apply Rmult_le_compat_r; [apply Rabs_pos|exact H].
Qed.

(** ** Narrowing of a distance *)

Lemma narrowed_le (d : b64) :
  b32_leb (b32_of_b64 d) b32_zero = true <->
  d = B754_infinity true \/ (is_finite d = true /\ (B2R d <= bpow radix2 (-150))%R).
Proof.
  destruct d as [s|[]| |s m e He].
  - cbn [b32_of_b64]. split; [|now destruct s].
    intros _. right. split; [reflexivity|]. cbn [B2R]. apply bpow_ge_0.
  - cbn. split; auto.
  - cbn. split; [discriminate|]. intros [H|(H & _)]; discriminate.
  - cbn. split; [discriminate|]. intros [H|(H & _)]; discriminate.
  - set (d := B754_finite s m e He). assert (is_finite d = true) as Fd by reflexivity.
    transitivity (B2R d <= bpow radix2 (-150))%R; [|split; [auto|intros [H|(_ & H)]; [discriminate|exact H]]].
    cbn [b32_of_b64 d]. generalize (binary_normalize_correct 24 128 _ _ mode_NE (if s then Z.neg m else Z.pos m) e s).
    cbv zeta. replace (F2R (Float radix2 (if s then Z.neg m else Z.pos m) e)) with (B2R d) by (now destruct s).
    change (round_mode mode_NE) with ZnearestE. unfold b32_leb.
    set (r := binary_normalize 24 128 _ _ mode_NE _ e s). clearbody r.
    assert (if s then B2R d < 0 else 0 < B2R d)%R as Sg.
    { cbn [B2R d]. destruct s; [apply F2R_lt_0|apply F2R_gt_0]; reflexivity. }
    clearbody d. assert (0 < bpow radix2 (-150))%R as P by apply bpow_gt_0.
    case Rlt_bool_spec; intros Hb.
    + intros (E & F & _). rewrite Bleb_correct by easy. rewrite E. cbn [B2R b32_zero].
      case Rle_bool_spec; intros Hr.
      * split; [intros _|reflexivity]. apply Rnot_lt_le. intros L.
        (* beyond the midpoint of 0 and the least positive number *)
        assert (bpow radix2 (-149) <= rnd32 (B2R d))%R as G.
        { apply round_N_ge_midp; [apply FLT_exp_valid; easy|apply fmt32_bpow; lia|].
          replace (bpow radix2 (-149)) with (succ radix2 (SpecFloat.fexp 24 128) 0); [|rewrite succ_0; apply ulp_FLT_0; easy].
          rewrite pred_succ; [|apply FLT_exp_valid; easy|apply generic_format_0].
          rewrite succ_0. change (SpecFloat.fexp 24 128) with (FLT_exp (-149) 24). rewrite ulp_FLT_0 by easy.
          replace (bpow radix2 (-149)) with (2 * bpow radix2 (-150))%R; [lra|].
          change (-149) with (1 + -150). rewrite bpow_plus. reflexivity. }
        pose proof (bpow_gt_0 radix2 (-149)). lra.
      * split; [discriminate|]. intros L. exfalso. apply Rlt_not_le in Hr. apply Hr.
        apply Rle_trans with (rnd32 (bpow radix2 (-150))); [now apply rnd32_le|]. apply Req_le.
        unfold round, scaled_mantissa, cexp. change (SpecFloat.fexp 24 128) with (FLT_exp (-149) 24).
        rewrite mag_bpow. replace (FLT_exp (-149) 24 (-150 + 1)) with (-149) by reflexivity.
        rewrite <- bpow_plus. change (-150 + - -149) with (-1).
        replace (ZnearestE (bpow radix2 (-1))) with 0; [apply F2R_0|].
        symmetry. unfold Znearest. replace (Zfloor (bpow radix2 (-1))) with 0.
        -- rewrite Rcompare_Eq; [reflexivity|]. cbn. lra.
        -- symmetry. apply Zfloor_imp. cbn. lra.
    + intros E. destruct s.
      * rewrite Rlt_bool_true in E by exact Sg.
        split; [intros _; lra|intros _]. destruct r as [|[]| |]; cbn in E; try discriminate; reflexivity.
      * rewrite Rlt_bool_false in E by lra. split.
        -- intros X. destruct r as [|[]| |]; cbn in E; try discriminate; discriminate X.
        -- intros L. exfalso. apply Rle_not_lt in Hb. apply Hb.
           assert (0 <= rnd32 (B2R d) <= bpow radix2 0)%R as (A & B).
           { apply rnd32_range; [lia|]. split; [lra|]. apply Rle_trans with (1 := L). apply bpow_le. lia. }
           rewrite Rabs_right by lra. apply Rle_lt_trans with (1 := B). apply bpow_lt. lia.
Qed.
