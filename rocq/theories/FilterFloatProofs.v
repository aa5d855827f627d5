(** The share test in binary64 and in binary32. *)
From Coq Require Import ZArith Reals List Lia Lra Bool Psatz.
From Flocq Require Import Core BinarySingleNaN Relative.
From Verif Require Import Util Grid FloatModel Occ EdtFloat RaycastModel FilterModel FilterSpec.
Local Open Scope Z_scope.

Lemma share_pos f s : 0 < f -> 0 < s -> (0 < share f s < 1)%R.
Proof.
  intros Hf Hs. unfold share. assert (0 < IZR f)%R by (apply IZR_lt; lia).
  assert (0 < IZR s)%R by (apply IZR_lt; lia). rewrite plus_IZR. split.
  - apply Rdiv_lt_0_compat; lra.
  - apply Rmult_lt_reg_r with (IZR f + IZR s)%R; [lra|]. unfold Rdiv.
    rewrite Rmult_assoc, Rinv_l by lra. lra.
Qed.

Lemma share_low f s : 0 < f -> 0 < s -> f + s < 2 ^ 31 -> (bpow radix2 (-31) <= share f s)%R.
Proof.
  intros Hf Hs Ht. unfold share.
  assert (1 <= IZR f)%R by (apply IZR_le; lia).
  assert (0 < IZR (f + s))%R by (apply IZR_lt; lia).
  assert (IZR (f + s) <= bpow radix2 31)%R.
  { replace (bpow radix2 31) with (IZR (2 ^ 31)) by reflexivity. apply IZR_le. lia. }
  replace (bpow radix2 (-31)) with (/ bpow radix2 31)%R by reflexivity.
  apply Rle_trans with (1 * / IZR (f + s))%R.
  - rewrite Rmult_1_l. apply Rinv_le; lra.
  - unfold Rdiv. apply Rmult_le_compat_r; [left; now apply Rinv_0_lt_compat|lra].
Qed.

Lemma share_high f s n : 0 <= n -> 0 < f -> 0 < s -> f + s <= 2 ^ n ->
  (share f s <= 1 - bpow radix2 (-n))%R.
Proof.
  intros Hn Hf Hs Ht. unfold share.
  assert (Hb : IZR (2 ^ n) = bpow radix2 n) by exact (IZR_Zpower radix2 n Hn).
  assert (H1 : (0 < IZR (f + s))%R) by (apply IZR_lt; lia).
  assert (H2 : (IZR (f + s) <= bpow radix2 n)%R) by (rewrite <- Hb; apply IZR_le; lia).
  assert (H3 : (IZR f <= IZR (f + s) - 1)%R).
  { replace (IZR (f + s) - 1)%R with (IZR (f + s - 1)) by (rewrite minus_IZR; reflexivity).
    apply IZR_le. lia. }
  rewrite bpow_opp.
  apply Rle_trans with ((IZR (f + s) - 1) * / IZR (f + s))%R.
  { unfold Rdiv. apply Rmult_le_compat_r; [left; now apply Rinv_0_lt_compat|lra]. }
  rewrite Rmult_minus_distr_r, Rinv_r, Rmult_1_l by lra.
  assert (/ bpow radix2 n <= / IZR (f + s))%R by (apply Rinv_le; lra). lra.
Qed.

(** ** binary64 *)

Lemma cpu_enough_spec (p : b64) f s : is_finite p = true -> 0 < f -> 0 < s -> f + s < 2 ^ 31 ->
  cpu_enough p f (f + s) = Rle_bool (B2R p) (rnd (share f s)).
Proof.
  intros Fp Hf Hs Ht. unfold cpu_enough.
  destruct (ofZ_exact f) as (F1 & E1); [unfold P53; lia|].
  destruct (ofZ_exact (f + s)) as (F2 & E2); [unfold P53; lia|].
  destruct (div_rounds _ _ _ _ F1 E1 E2) as (F3 & E3); [unfold P53; lia|lia|].
  rewrite leb_fin by easy. now rewrite E3.
Qed.

Lemma rnd_share_ge (p : b64) x : (B2R p <= x)%R -> (B2R p <= rnd x)%R.
Proof.
  intros H. rewrite <- (round_generic radix2 (SpecFloat.fexp 53 1024) ZnearestE (B2R p)).
  - apply round_le; [apply FLT_exp_valid; easy|apply valid_rnd_N|easy].
  - apply generic_format_B2R.
Qed.

Lemma rnd_rel x : (bpow radix2 (-31) <= x)%R -> (rnd x <= x * (1 + bpow radix2 (-53)))%R.
Proof.
  intros H. assert (Hx : (0 < x)%R) by (pose proof (bpow_gt_0 radix2 (-31)); lra).
  destruct (relative_error_N_FLT_ex radix2 (-1074) 53 eq_refl (fun z => negb (Z.even z)) x)
    as (e & He & Ee).
  { rewrite Rabs_right by lra. apply Rle_trans with (2 := H). apply bpow_le. lia. }
  change (round radix2 (FLT_exp (-1074) 53) (Znearest (fun z => negb (Z.even z))) x) with (rnd x) in Ee.
  rewrite Ee. apply Rmult_le_compat_l; [lra|].
  apply Rle_trans with (1 + Rabs e)%R; [pose proof (Rle_abs e); lra|].
  change (Z.opp 53 + 1) with (-52) in He.
  replace (bpow radix2 (-53)) with (/ 2 * bpow radix2 (-52))%R; [lra|].
  change (-53) with (-1 + -52). rewrite bpow_plus. reflexivity.
Qed.

Lemma fmt_one_minus n : 0 <= n <= 53 -> fmt (1 - bpow radix2 (- n))%R.
Proof.
  intros Hn. replace (1 - bpow radix2 (- n))%R with (IZR (2 ^ n - 1) * bpow radix2 (- n))%R.
  - apply fmt_scaled; [|lia]. unfold P53. assert (2 ^ n <= 2 ^ 53) by (apply Z.pow_le_mono_r; lia).
    assert (0 < 2 ^ n) by (apply Z.pow_pos_nonneg; lia).
    change (2 ^ 53) with 9007199254740992 in *. lia.
  - rewrite minus_IZR. change (2 ^ n) with (radix2 ^ n). rewrite (IZR_Zpower radix2 n) by lia.
    rewrite Rmult_minus_distr_r, <- bpow_plus. replace (n + - n) with 0 by lia. cbn. lra.
Qed.

Lemma one_val : B2R b64_one = 1%R.
Proof. unfold b64_one, B2R, F2R. cbn. lra. Qed.

(** With the default percentage any counted filled observation wins. *)
Lemma cpu_enough_one f s : 0 < f -> 0 < s -> f + s < 2 ^ 31 -> cpu_enough b64_one f (f + s) = false.
Proof.
  intros Hf Hs Ht. rewrite cpu_enough_spec by easy. apply Rle_bool_niff. rewrite one_val.
  apply Rle_lt_trans with (1 - bpow radix2 (-31))%R.
  - rewrite <- (round_generic radix2 (SpecFloat.fexp 53 1024) ZnearestE (1 - bpow radix2 (-31))%R).
    + apply round_le; [apply FLT_exp_valid; easy|apply valid_rnd_N|]. apply (share_high f s 31); lia.
    + apply (fmt_one_minus 31). lia.
  - pose proof (bpow_gt_0 radix2 (-31)). lra.
Qed.

(** ** binary32 *)

Notation fmt32 := (generic_format radix2 (SpecFloat.fexp 24 128)).
Notation rnd32 := (round radix2 (SpecFloat.fexp 24 128) ZnearestE).

Lemma fmt32_scaled m e : Z.abs m < 2 ^ 24 -> -149 <= e -> fmt32 (IZR m * bpow radix2 e).
Proof. intros Hm He. apply generic_format_FLT. now exists (Float radix2 m e). Qed.

Lemma fmt32_bpow e : -149 <= e -> fmt32 (bpow radix2 e).
Proof. intros He. rewrite <- (Rmult_1_l (bpow radix2 e)). now apply fmt32_scaled. Qed.

Lemma rnd32_le x y : (x <= y)%R -> (rnd32 x <= rnd32 y)%R.
Proof. apply round_le; [apply FLT_exp_valid; easy|apply valid_rnd_N]. Qed.

Lemma rnd32_id x : fmt32 x -> rnd32 x = x.
Proof. apply round_generic, valid_rnd_N. Qed.

Lemma rnd32_rel x : (bpow radix2 (-126) <= x)%R ->
  exists e, (Rabs e <= bpow radix2 (-24))%R /\ rnd32 x = (x * (1 + e))%R.
Proof.
  intros H. assert (Hx : (0 < x)%R) by (pose proof (bpow_gt_0 radix2 (-126)); lra).
  destruct (relative_error_N_FLT_ex radix2 (-149) 24 eq_refl (fun z => negb (Z.even z)) x)
    as (e & He & Ee).
  { rewrite Rabs_right by lra. apply Rle_trans with (2 := H). apply bpow_le. lia. }
  change (round radix2 (FLT_exp (-149) 24) (Znearest (fun z => negb (Z.even z))) x) with (rnd32 x) in Ee.
  exists e. split; [|easy].
  change (Z.opp 24 + 1) with (-23) in He.
  replace (bpow radix2 (-24)) with (/ 2 * bpow radix2 (-23))%R; [lra|].
  change (-24) with (-1 + -23). rewrite bpow_plus. reflexivity.
Qed.

Lemma small32 x : (0 <= x <= bpow radix2 32)%R -> Rlt_bool (Rabs x) (bpow radix2 128) = true.
Proof.
  intros H. apply Rlt_bool_true. rewrite Rabs_right by lra.
  apply Rle_lt_trans with (1 := proj2 H). apply bpow_lt. lia.
Qed.

Lemma rnd32_range x n : -149 <= n -> (0 <= x <= bpow radix2 n)%R -> (0 <= rnd32 x <= bpow radix2 n)%R.
Proof.
  intros Hn H. split.
  - rewrite <- (round_0 radix2 (SpecFloat.fexp 24 128) ZnearestE). apply rnd32_le. lra.
  - rewrite <- (rnd32_id (bpow radix2 n)) by now apply fmt32_bpow. apply rnd32_le. lra.
Qed.

Lemma ofZ32 z : 0 <= z < 2 ^ 31 ->
  is_finite (b32_ofZ z) = true /\ B2R (b32_ofZ z) = rnd32 (IZR z).
Proof.
  intros H. unfold b32_ofZ.
  generalize (binary_normalize_correct 24 128 _ _ mode_NE z 0 false).
  cbv zeta. replace (F2R (Float radix2 z 0)) with (IZR z) by (unfold F2R; cbn; lra).
  change (round_mode mode_NE) with ZnearestE.
  rewrite small32; [tauto|]. apply rnd32_range; [lia|].
  split; [apply IZR_le; lia|]. replace (bpow radix2 32) with (IZR (2 ^ 32)) by reflexivity.
  apply IZR_le. lia.
Qed.

Lemma cast32 (p : b64) : is_finite p = true -> (0 < B2R p <= 1)%R ->
  is_finite (b32_of_b64 p) = true /\ B2R (b32_of_b64 p) = rnd32 (B2R p).
Proof.
  intros Fp Hp. destruct p as [s| | |s m e He]; try easy.
  { cbn in Hp. lra. }
  destruct s.
  { exfalso. cbn in Hp. unfold F2R in Hp. cbn in Hp. pose proof (bpow_gt_0 radix2 e).
    assert (IZR (Z.neg m) < 0)%R by (apply IZR_lt; lia). nra. }
  cbn [b32_of_b64]. generalize (binary_normalize_correct 24 128 _ _ mode_NE (Z.pos m) e false).
  cbv zeta. change (F2R (Float radix2 (Z.pos m) e)) with (B2R (B754_finite false m e He)).
  change (round_mode mode_NE) with ZnearestE.
  rewrite small32; [tauto|]. apply rnd32_range; [lia|].
  split; [lra|]. apply Rle_trans with (1 := proj2 Hp).
  replace 1%R with (bpow radix2 0) by reflexivity. apply bpow_le. lia.
Qed.

(** The device's share: three roundings. *)
Definition dev_share (f s : Z) : R := rnd32 (rnd32 (IZR f) / rnd32 (IZR (f + s))).

Lemma rnd32_pos z : 1 <= z -> (1 <= rnd32 (IZR z))%R.
Proof.
  intros H. rewrite <- (rnd32_id 1) at 1 by (apply (fmt32_bpow 0); lia).
  apply rnd32_le. now apply IZR_le.
Qed.

Lemma dev_quotient f s : 0 < f -> 0 < s -> f + s < 2 ^ 31 ->
  (0 <= rnd32 (IZR f) / rnd32 (IZR (f + s)) <= bpow radix2 0)%R.
Proof.
  intros Hf Hs Ht. pose proof (rnd32_pos f ltac:(lia)). pose proof (rnd32_pos (f + s) ltac:(lia)).
  assert (rnd32 (IZR f) <= rnd32 (IZR (f + s)))%R by (apply rnd32_le, IZR_le; lia).
  split.
  - apply Rlt_le, Rdiv_lt_0_compat; lra.
  - cbn. apply Rmult_le_reg_r with (rnd32 (IZR (f + s))); [lra|]. unfold Rdiv.
    rewrite Rmult_assoc, Rinv_l by lra. lra.
Qed.

Lemma dev_enough_spec (p : b64) f s : is_finite p = true -> (0 < B2R p <= 1)%R ->
  0 < f -> 0 < s -> f + s < 2 ^ 31 ->
  dev_enough (b32_of_b64 p) f (f + s) = Rle_bool (rnd32 (B2R p)) (dev_share f s).
Proof.
  intros Fp Hp Hf Hs Ht. unfold dev_enough, b32_leb, b32_div.
  destruct (cast32 p Fp Hp) as (F0 & E0).
  destruct (ofZ32 f) as (F1 & E1); [lia|]. destruct (ofZ32 (f + s)) as (F2 & E2); [lia|].
  pose proof (rnd32_pos (f + s) ltac:(lia)) as Hpos.
  generalize (Bdiv_correct 24 128 _ _ mode_NE (b32_ofZ f) (b32_ofZ (f + s)) ltac:(rewrite E2; lra)).
  rewrite E1, E2. change (round_mode mode_NE) with ZnearestE.
  rewrite small32.
  - intros (E3 & F3 & _). rewrite F1 in F3. rewrite Bleb_correct by easy. now rewrite E0, E3.
  - pose proof (rnd32_range _ 0 ltac:(lia) (dev_quotient f s Hf Hs Ht)).
    assert (bpow radix2 0 <= bpow radix2 32)%R by (apply bpow_le; lia). lra.
Qed.

Local Open Scope R_scope.

Lemma dev_share_rel f s : (0 < f)%Z -> (0 < s)%Z -> (f + s < 2 ^ 31)%Z ->
  exists e1 e2 e3, Rabs e1 <= bpow radix2 (-24) /\ Rabs e2 <= bpow radix2 (-24) /\
    Rabs e3 <= bpow radix2 (-24) /\
    dev_share f s = share f s * ((1 + e1) / (1 + e2)) * (1 + e3).
Proof.
  intros Hf Hs Ht.
  assert (H126 : bpow radix2 (-126) <= 1).
  { replace 1 with (bpow radix2 0) by reflexivity. apply bpow_le. lia. }
  assert (1 <= IZR f) by (apply IZR_le; lia). assert (1 <= IZR (f + s)) by (apply IZR_le; lia).
  destruct (rnd32_rel (IZR f)) as (e1 & B1 & E1); [lra|].
  destruct (rnd32_rel (IZR (f + s))) as (e2 & B2 & E2); [lra|].
  pose proof (rnd32_pos f ltac:(lia)) as P1. pose proof (rnd32_pos (f + s) ltac:(lia)) as P2.
  assert (Hn : bpow radix2 (-126) <= rnd32 (IZR f) / rnd32 (IZR (f + s))).
  { assert (Hr : 0 <= rnd32 (IZR (f + s)) <= bpow radix2 32).
    { apply rnd32_range; [lia|]. split; [lra|]. replace (bpow radix2 32) with (IZR (2 ^ 32)) by reflexivity.
      apply IZR_le. lia. }
    apply Rle_trans with (/ bpow radix2 32).
    - rewrite <- bpow_opp. apply bpow_le. lia.
    - apply Rle_trans with (1 * / rnd32 (IZR (f + s))).
      + rewrite Rmult_1_l. apply Rinv_le; lra.
      + unfold Rdiv. apply Rmult_le_compat_r; [left; apply Rinv_0_lt_compat; lra|lra]. }
  destruct (rnd32_rel _ Hn) as (e3 & B3 & E3).
  exists e1, e2, e3. split; [easy|]. split; [easy|]. split; [easy|].
  unfold dev_share. rewrite E3. f_equal. rewrite E1, E2. unfold share.
  assert (1 + e2 <> 0).
  { intros Hz. rewrite Hz in E2. rewrite E2 in P2. lra. }
  field. split; [easy|lra].
Qed.

Lemma u24 : bpow radix2 (-24) = / 16777216. Proof. reflexivity. Qed.
Lemma u21 : bpow radix2 (-21) = 8 * bpow radix2 (-24). Proof. cbn. lra. Qed.

Lemma abs_le_both e u : Rabs e <= u -> - u <= e <= u.
Proof. intros H. apply Rabs_le_inv in H. exact H. Qed.

Lemma dev_high f s P : (0 < f)%Z -> (0 < s)%Z -> (f + s < 2 ^ 31)%Z -> 0 < P <= 1 ->
  P * (1 + bpow radix2 (-21)) <= share f s -> rnd32 P <= dev_share f s.
Proof.
  intros Hf Hs Ht HP H. pose proof (share_pos f s Hf Hs) as Hsh.
  destruct (dev_share_rel f s Hf Hs Ht) as (e1 & e2 & e3 & B1 & B2 & B3 & ->).
  apply abs_le_both in B1, B2, B3. rewrite u21, u24 in *.
  set (u := / 16777216) in *. assert (Hu : 0 < u <= / 1000) by (unfold u; lra).
  assert (Hq : (1 - u) / (1 + u) <= (1 + e1) / (1 + e2)).
  { apply Rmult_le_reg_r with ((1 + u) * (1 + e2)); [nra|].
    replace ((1 - u) / (1 + u) * ((1 + u) * (1 + e2))) with ((1 - u) * (1 + e2)) by (field; lra).
    replace ((1 + e1) / (1 + e2) * ((1 + u) * (1 + e2))) with ((1 + e1) * (1 + u)) by (field; lra). nra. }
  assert (Hq0 : 0 < (1 - u) / (1 + u)) by (apply Rdiv_lt_0_compat; lra).
  assert (Hs1 : share f s * ((1 - u) / (1 + u)) * (1 - u) <= share f s * ((1 + e1) / (1 + e2)) * (1 + e3)).
  { apply Rmult_le_compat; [|lra| |lra].
    - apply Rmult_le_pos; lra.
    - apply Rmult_le_compat_l; lra. }
  apply Rle_trans with (2 := Hs1).
  assert (Hs2 : P * (1 + 8 * u) * ((1 - u) / (1 + u)) * (1 - u) <= share f s * ((1 - u) / (1 + u)) * (1 - u)).
  { apply Rmult_le_compat_r; [lra|]. apply Rmult_le_compat_r; lra. }
  assert (Hs3 : P * (1 + u) <= P * (1 + 8 * u) * ((1 - u) / (1 + u)) * (1 - u)).
  { replace (P * (1 + 8 * u) * ((1 - u) / (1 + u)) * (1 - u))
      with (P * ((1 + 8 * u) * (1 - u) * (1 - u) / (1 + u))) by (field; lra).
    apply Rmult_le_compat_l; [lra|]. apply Rmult_le_reg_r with (1 + u); [lra|].
    replace ((1 + 8 * u) * (1 - u) * (1 - u) / (1 + u) * (1 + u)) with ((1 + 8 * u) * (1 - u) * (1 - u)) by (field; lra).
    nra. }
  destruct (Rle_or_lt (bpow radix2 (-126)) P) as [Hn|Hn].
  - destruct (rnd32_rel P Hn) as (e & B & ->). apply abs_le_both in B. rewrite u24 in B. fold u in B.
    apply Rle_trans with (P * (1 + u)); [apply Rmult_le_compat_l; lra|]. lra.
  - apply Rle_trans with (bpow radix2 (-126)).
    + rewrite <- (rnd32_id (bpow radix2 (-126))) by (apply fmt32_bpow; lia). apply rnd32_le. lra.
    + pose proof (share_low f s Hf Hs Ht) as Hl.
      assert (Hh : / 2 <= (1 - u) / (1 + u) * (1 - u)).
      { apply Rmult_le_reg_r with (1 + u); [lra|].
        replace ((1 - u) / (1 + u) * (1 - u) * (1 + u)) with ((1 - u) * (1 - u)) by (field; lra). nra. }
      rewrite Rmult_assoc. apply Rle_trans with (bpow radix2 (-31) * / 2).
      * replace (/ 2) with (bpow radix2 (-1)) by reflexivity. rewrite <- bpow_plus. apply bpow_le. lia.
      * apply Rmult_le_compat; try lra. apply bpow_ge_0.
Qed.

Lemma dev_low f s P : (0 < f)%Z -> (0 < s)%Z -> (f + s < 2 ^ 31)%Z -> 0 < P <= 1 ->
  share f s <= P * (1 - bpow radix2 (-21)) -> dev_share f s < rnd32 P.
Proof.
  intros Hf Hs Ht HP H. pose proof (share_pos f s Hf Hs) as Hsh.
  pose proof (share_low f s Hf Hs Ht) as Hl.
  destruct (dev_share_rel f s Hf Hs Ht) as (e1 & e2 & e3 & B1 & B2 & B3 & ->).
  apply abs_le_both in B1, B2, B3.
  assert (Hn : bpow radix2 (-126) <= P).
  { apply Rle_trans with (bpow radix2 (-31)); [apply bpow_le; lia|].
    assert (0 < bpow radix2 (-21)) by apply bpow_gt_0. nra. }
  destruct (rnd32_rel P Hn) as (e & B & ->). apply abs_le_both in B.
  rewrite u21, u24 in *.
  set (u := / 16777216) in *. assert (Hu : 0 < u <= / 1000) by (unfold u; lra).
  assert (Hq : (1 + e1) / (1 + e2) <= (1 + u) / (1 - u)).
  { apply Rmult_le_reg_r with ((1 - u) * (1 + e2)); [nra|].
    replace ((1 + u) / (1 - u) * ((1 - u) * (1 + e2))) with ((1 + u) * (1 + e2)) by (field; lra).
    replace ((1 + e1) / (1 + e2) * ((1 - u) * (1 + e2))) with ((1 + e1) * (1 - u)) by (field; lra). nra. }
  assert (Hq0 : 0 < (1 + e1) / (1 + e2)) by (apply Rdiv_lt_0_compat; lra).
  apply Rlt_le_trans with (P * (1 - u)); [|apply Rmult_le_compat_l; lra].
  apply Rle_lt_trans with (P * (1 - 8 * u) * ((1 + u) / (1 - u)) * (1 + u)).
  { apply Rmult_le_compat; [| lra | |lra].
    - apply Rmult_le_pos; lra.
    - apply Rmult_le_compat; lra. }
  replace (P * (1 - 8 * u) * ((1 + u) / (1 - u)) * (1 + u))
    with (P * ((1 - 8 * u) * (1 + u) * (1 + u) / (1 - u))) by (field; lra).
  apply Rmult_lt_compat_l; [lra|]. apply Rmult_lt_reg_r with (1 - u); [lra|].
  replace ((1 - 8 * u) * (1 + u) * (1 + u) / (1 - u) * (1 - u)) with ((1 - 8 * u) * (1 + u) * (1 + u)) by (field; lra).
  nra.
Qed.

Lemma dev_one f s : (0 < f)%Z -> (0 < s)%Z -> (f + s <= 2 ^ 24)%Z -> dev_share f s < 1.
Proof.
  intros Hf Hs Ht.
  assert (F1 : rnd32 (IZR f) = IZR f).
  { apply rnd32_id. replace (IZR f) with (IZR f * bpow radix2 0) by (cbn; lra). apply fmt32_scaled; lia. }
  assert (F2 : rnd32 (IZR (f + s)) = IZR (f + s)).
  { apply rnd32_id. destruct (Z.eq_dec (f + s) (2 ^ 24)) as [->|Hne].
    - replace (IZR (2 ^ 24)) with (bpow radix2 24) by reflexivity. apply fmt32_bpow. lia.
    - replace (IZR (f + s)) with (IZR (f + s) * bpow radix2 0) by (cbn; lra). apply fmt32_scaled; lia. }
  unfold dev_share. rewrite F1, F2. change (IZR f / IZR (f + s)) with (share f s).
  apply Rle_lt_trans with (1 - bpow radix2 (-24)).
  - rewrite <- (rnd32_id (1 - bpow radix2 (-24))).
    + apply rnd32_le. apply (share_high f s 24); lia.
    + replace (1 - bpow radix2 (-24)) with (IZR (2 ^ 24 - 1) * bpow radix2 (-24)) by (cbn; lra).
      apply fmt32_scaled; lia.
  - pose proof (bpow_gt_0 radix2 (-24)). lra.
Qed.

(** Away from the rounding band, binary32 and binary64 decide alike. *)
Lemma enough_agree (p : b64) f s : is_finite p = true -> 0 < B2R p <= 1 ->
  (0 < f)%Z -> (0 < s)%Z -> (f + s < 2 ^ 31)%Z -> clear_cut p f s ->
  dev_enough (b32_of_b64 p) f (f + s) = cpu_enough p f (f + s).
Proof.
  intros Fp Hp Hf Hs Ht Hc. rewrite dev_enough_spec, cpu_enough_spec by easy.
  pose proof (share_low f s Hf Hs Ht) as Hl. pose proof (share_pos f s Hf Hs) as Hsh.
  destruct Hc as [Hc|[Hc|(Hc & Hc')]].
  - rewrite (proj2 (Rle_bool_iff _ _)) by now apply dev_high.
    symmetry. apply Rle_bool_iff. apply rnd_share_ge.
    pose proof (bpow_gt_0 radix2 (-21)). nra.
  - rewrite (proj2 (Rle_bool_niff _ _)) by now apply dev_low.
    symmetry. apply Rle_bool_niff. apply Rle_lt_trans with (1 := rnd_rel _ Hl).
    assert (H21 : bpow radix2 (-21) = / 2097152) by reflexivity. rewrite H21 in Hc.
    assert (H53 : bpow radix2 (-53) <= / 4194304).
    { replace (/ 4194304) with (bpow radix2 (-22)) by reflexivity. apply bpow_le. lia. }
    pose proof (bpow_gt_0 radix2 (-53)).
    apply Rle_lt_trans with (B2R p * (1 - / 2097152) * (1 + / 4194304)).
    + apply Rmult_le_compat; lra.
    + rewrite Rmult_assoc. rewrite <- (Rmult_1_r (B2R p)) at 2. apply Rmult_lt_compat_l; lra.
  - subst p. rewrite <- (cpu_enough_spec b64_one f s), cpu_enough_one by easy.
    apply Rle_bool_niff. rewrite one_val, rnd32_id by (apply (fmt32_bpow 0); lia). now apply dev_one.
Qed.
