(** IEEE formats meet the requirements on the arithmetic of rays. *)
From Coq Require Import ZArith Reals Bool Lia Lra Psatz.
From Flocq Require Import Core BinarySingleNaN Relative Plus_error.
From Verif Require Import Util Grid FloatModel FilterModel RaycastModel RayGeoSpec RayRoundSpec RayFloatModel SdfDoubleGradient.
Local Open Scope R_scope.

Section Format.
Variables (prec emax : Z) (Hp : Prec_gt_0 prec) (He : Prec_lt_emax prec emax) (fl : binary_float prec emax -> Z) (lx : Z).
Hypothesis Hprec : (3 <= prec)%Z.
Hypothesis Hl : (0 <= lx <= emax - 2)%Z.
Hypothesis Hfl : forall a, is_finite a = true -> Rabs (B2R a) <= bpow radix2 lx -> fl a = Zfloor (B2R a).
Notation F := (binary_float prec emax).
Notation emin := (3 - emax - prec)%Z.
Notation fe := (FLT_exp emin prec).
Notation rd := (round radix2 fe ZnearestE).
Notation u := (bpow radix2 (- prec)).
Notation eta := (bpow radix2 emin).
Notation M := (bpow radix2 (emax - 2)).

Lemma fe_eq : SpecFloat.fexp prec emax = fe.
Proof. reflexivity. Qed.
Instance fe_valid : Valid_exp fe := FLT_exp_valid emin prec.

Lemma exps : (prec < emax)%Z.
Proof. exact He. Qed.

Lemma fmt_bpow e : (emin <= e)%Z -> generic_format radix2 fe (bpow radix2 e).
Proof. intros H. apply generic_format_bpow. unfold FLT_exp. lia. Qed.

Lemma no_overflow x : Rabs x <= M -> Rlt_bool (Rabs (rd x)) (bpow radix2 emax) = true.
Proof.
  intros H. apply Rlt_bool_true. apply Rle_lt_trans with M; [|apply bpow_lt; lia].
  apply abs_round_le_generic; [apply fe_valid|apply valid_rnd_N| |exact H]. apply fmt_bpow. pose proof exps. lia.
Qed.

Lemma rd_error x : Rabs (rd x - x) <= u * Rabs x + eta.
Proof.
  destruct (error_N_FLT radix2 emin prec ltac:(lia) (fun z => negb (Z.even z)) x) as (e & t & H1 & H2 & _ & E).
  change (rd x) with (round radix2 (FLT_exp emin prec) (Znearest (fun z => negb (Z.even z))) x). rewrite E.
  replace (x * (1 + e) + t - x) with (x * e + t) by ring. eapply Rle_trans; [apply Rabs_triang|]. rewrite Rabs_mult.
  assert (Eu : / 2 * bpow radix2 (- prec + 1) = u) by (rewrite bpow_plus; change (bpow radix2 1) with 2; field).
  rewrite Eu in H1. pose proof (bpow_gt_0 radix2 emin). apply Rplus_le_compat; [|lra].
  rewrite Rmult_comm. apply Rmult_le_compat_r; [apply Rabs_pos|exact H1].
Qed.

Lemma rd_plus x y : generic_format radix2 fe x -> generic_format radix2 fe y ->
  Rabs (rd (x + y) - (x + y)) <= u * Rabs (x + y).
Proof.
  intros Fx Fy. replace (x + y) with (x - - y) by ring. apply plus_relative; [exact Hp|exact Fx|now apply generic_format_opp].
Qed.

Lemma rd_le x y : x <= y -> rd x <= rd y.
Proof. intros H. apply round_le; [apply fe_valid|apply valid_rnd_N|exact H]. Qed.
Lemma rd_id x : generic_format radix2 fe x -> rd x = x.
Proof. intros H. apply round_generic; [apply valid_rnd_N|exact H]. Qed.
Lemma fmt_B (a : F) : generic_format radix2 fe (B2R a).
Proof. apply generic_format_B2R. Qed.

Lemma plus_val (a b : F) : is_finite a = true -> is_finite b = true -> Rabs (B2R a + B2R b) <= M ->
  is_finite (Bplus mode_NE a b) = true /\ B2R (Bplus mode_NE a b) = rd (B2R a + B2R b).
Proof.
  intros Fa Fb H. generalize (Bplus_correct prec emax _ _ mode_NE a b Fa Fb).
  change (round_mode mode_NE) with ZnearestE. rewrite fe_eq, no_overflow by exact H. tauto.
Qed.
Lemma minus_val (a b : F) : is_finite a = true -> is_finite b = true -> Rabs (B2R a - B2R b) <= M ->
  is_finite (Bminus mode_NE a b) = true /\ B2R (Bminus mode_NE a b) = rd (B2R a - B2R b).
Proof.
  intros Fa Fb H. generalize (Bminus_correct prec emax _ _ mode_NE a b Fa Fb).
  change (round_mode mode_NE) with ZnearestE. rewrite fe_eq, no_overflow by exact H. tauto.
Qed.
Lemma mult_val (a b : F) : is_finite a = true -> is_finite b = true -> Rabs (B2R a * B2R b) <= M ->
  is_finite (Bmult mode_NE a b) = true /\ B2R (Bmult mode_NE a b) = rd (B2R a * B2R b).
Proof.
  intros Fa Fb H. generalize (Bmult_correct prec emax _ _ mode_NE a b).
  change (round_mode mode_NE) with ZnearestE. rewrite fe_eq, no_overflow by exact H. rewrite Fa, Fb. tauto.
Qed.
Lemma div_val (a b : F) : is_finite a = true -> is_finite b = true -> B2R b <> 0 -> Rabs (B2R a / B2R b) <= M ->
  is_finite (Bdiv mode_NE a b) = true /\ B2R (Bdiv mode_NE a b) = rd (B2R a / B2R b).
Proof.
  intros Fa Fb Nb H. generalize (Bdiv_correct prec emax _ _ mode_NE a b Nb).
  change (round_mode mode_NE) with ZnearestE. rewrite fe_eq, no_overflow by exact H. rewrite Fa. tauto.
Qed.
Lemma lit_val m e : Rabs (IZR m * bpow radix2 e) <= M ->
  is_finite (binary_normalize prec emax Hp He mode_NE m e false) = true /\
  B2R (binary_normalize prec emax Hp He mode_NE m e false) = rd (IZR m * bpow radix2 e).
Proof.
  intros H. generalize (binary_normalize_correct prec emax Hp He mode_NE m e false).
  change (round_mode mode_NE) with ZnearestE. unfold F2R. cbn [Fnum Fexp]. rewrite fe_eq, no_overflow by exact H. tauto.
Qed.

Lemma one_M : 1 <= M.
Proof. change 1 with (bpow radix2 0). apply bpow_le. pose proof exps. lia. Qed.

Lemma rounded_float : rounded_ray (float_ray prec emax Hp He fl) is_finite B2R u eta M (bpow radix2 lx).
Proof.
  pose proof exps as Ee. pose proof one_M as M1.
  split; cbn [float_ray rT r_zero r_half r_add r_sub r_mul r_div r_abs r_ltb r_leb r_inf r_floor r_ofZ].
  - easy.
  - destruct (lit_val 1 (-1)) as (Fh & Eh).
    { rewrite Rmult_1_l, Rabs_pos_eq by apply bpow_ge_0. apply bpow_le. lia. }
    split; [exact Fh|]. rewrite Eh, Rmult_1_l, rd_id; [reflexivity|]. apply fmt_bpow. lia.
  - intros a b Fa Fb H. destruct (plus_val a b Fa Fb H) as (Fs & Es). rewrite Es. split; [exact Fs|].
    split; [apply rd_plus; apply fmt_B|].
    split; intros Q; rewrite <- (rd_id (B2R a)) by apply fmt_B; apply rd_le; rewrite ?(rd_id (B2R a)) by apply fmt_B; lra.
  - intros a b Fa Fb H. destruct (minus_val a b Fa Fb H) as (Fs & Es). rewrite Es. split; [exact Fs|].
    apply plus_relative; [exact Hp|apply fmt_B|apply fmt_B].
  - intros a b Fa Fb H. destruct (mult_val a b Fa Fb H) as (Fs & Es). rewrite Es. split; [exact Fs|].
    split; [apply rd_error|]. split; intros Q; apply rd_le in Q; rewrite (rd_id 0) in Q by apply generic_format_0; exact Q.
  - intros a b c Fa Fb Fc H1 H2 Q. destruct (mult_val a c Fa Fc H1) as (_ & ->). destruct (mult_val b c Fb Fc H2) as (_ & ->).
    now apply rd_le.
  - intros a b Fa Fb Nb H. destruct (div_val a b Fa Fb Nb H) as (Fs & Es). rewrite Es. split; [exact Fs|apply rd_error].
  - intros a b Fa Pa Q. destruct (is_finite b) eqn:Fb.
    + rewrite Bltb_correct in Q by assumption. destruct (Rlt_bool_spec (B2R a) (B2R b)) as [Q'|]; [|easy].
      assert (D : 0 <= B2R a / B2R b <= 1).
      { split; [apply Rmult_le_pos; [exact Pa|left; apply Rinv_0_lt_compat; lra]|].
        apply Rmult_le_reg_r with (B2R b); [lra|]. unfold Rdiv. rewrite Rmult_assoc, Rinv_l, Rmult_1_r, Rmult_1_l by lra. lra. }
      destruct (div_val a b Fa Fb) as (Fs & Es); [lra|rewrite Rabs_pos_eq; lra|].
      split; [exact Fs|]. rewrite Es. destruct D as (D1 & D2). apply rd_le in D1, D2.
      rewrite (rd_id 0) in D1 by apply generic_format_0.
      rewrite (rd_id 1) in D2 by (change 1 with (bpow radix2 0); apply fmt_bpow; lia). lra.
    + destruct a as [sa| | |sa ma ea Ba]; try easy; destruct b as [?|sb| |? ? ? ?]; try easy;
        destruct sa; try destruct sb; try easy; cbn; (split; [reflexivity|]); lra.
  - intros a Fa. now rewrite is_finite_Babs, B2R_Babs.
  - intros a b Fa Fb. now apply Bltb_correct.
  - intros a b Fa Fb. now apply Bleb_correct.
  - intros a Fa. destruct a as [[]| | |[]]; easy.
  - intros a. destruct a as [[]|[]| |[]]; easy.
  - exact Hfl.
  - intros z Hz. assert (Bz : Rabs (IZR z * bpow radix2 0) <= M).
    { cbn [bpow]. rewrite Rmult_1_r, <- abs_IZR. eapply Rle_trans; [exact Hz|]. apply bpow_le. lia. }
    destruct (lit_val z 0 Bz) as (Fz & Ez). split; [exact Fz|]. rewrite Ez. cbn [bpow]. rewrite Rmult_1_r.
    destruct (Z.eq_dec z 0) as [->|Nz].
    + rewrite (rd_id 0) by apply generic_format_0. rewrite Rminus_0_r, Rabs_R0. lra.
    + assert (Eu : / 2 * bpow radix2 (- prec + 1) = u) by (rewrite bpow_plus; change (bpow radix2 1) with 2; field).
      rewrite <- Eu. apply relative_error_N_FLT; [lia|]. rewrite <- abs_IZR.
      apply Rle_trans with (bpow radix2 0); [apply bpow_le; lia|]. cbn [bpow]. apply IZR_le. lia.
Qed.

(** ** The norm *)

Lemma rd_normal x : x = 0 \/ bpow radix2 (emin + prec - 1) <= Rabs x -> Rabs (rd x - x) <= u * Rabs x.
Proof.
  intros [->|H].
  - rewrite (rd_id 0) by apply generic_format_0. rewrite Rminus_0_r, Rabs_R0. lra.
  - assert (Eu : / 2 * bpow radix2 (- prec + 1) = u) by (rewrite bpow_plus; change (bpow radix2 1) with 2; field).
    rewrite <- Eu. apply relative_error_N_FLT; [lia|exact H].
Qed.

Lemma u_small : 0 < u <= / 4.
Proof. split; [apply bpow_gt_0|]. change (/ 4) with (bpow radix2 (-2)). apply bpow_le. lia. Qed.

Variables (lo hi : Z).
Hypothesis Hlo : (emin + prec - 1 <= 2 * lo)%Z /\ (emin + prec - 1 <= lo - 1)%Z.
Hypothesis Hhi : (2 * hi + 4 <= emax - 2)%Z.

Definition scale (x : R) : Prop := x = 0 \/ bpow radix2 lo <= Rabs x <= bpow radix2 hi.

Lemma square_val (a : F) : is_finite a = true -> scale (B2R a) ->
  is_finite (Bmult mode_NE a a) = true /\
  Rabs (B2R (Bmult mode_NE a a) - B2R a * B2R a) <= u * (B2R a * B2R a) /\ B2R a * B2R a <= bpow radix2 (2 * hi) /\
  (B2R a * B2R a = 0 \/ bpow radix2 (2 * lo) <= B2R a * B2R a).
Proof.
  intros Fa S. assert (P : 0 <= B2R a * B2R a) by apply Rle_0_sqr.
  assert (E2 : forall e, bpow radix2 (2 * e) = bpow radix2 e * bpow radix2 e) by (intros e; rewrite <- bpow_plus; f_equal; lia).
  assert (B : B2R a * B2R a <= bpow radix2 (2 * hi)).
  { destruct S as [->|(_ & S)]; [rewrite Rmult_0_l; apply bpow_ge_0|]. rewrite E2, <- (Rabs_pos_eq (B2R a * B2R a)), Rabs_mult by exact P.
    apply Rmult_le_compat; try exact S; apply Rabs_pos. }
  assert (C : B2R a * B2R a = 0 \/ bpow radix2 (2 * lo) <= B2R a * B2R a).
  { destruct S as [->|(S & _)]; [left; ring|right]. rewrite E2, <- (Rabs_pos_eq (B2R a * B2R a)), Rabs_mult by exact P.
    apply Rmult_le_compat; try exact S; apply bpow_ge_0. }
  destruct (mult_val a a Fa Fa) as (Fm & Em).
  { rewrite Rabs_pos_eq by exact P. eapply Rle_trans; [exact B|]. apply bpow_le. lia. }
  split; [exact Fm|]. split; [|split; [exact B|exact C]]. rewrite Em. replace (u * (B2R a * B2R a)) with (u * Rabs (B2R a * B2R a)) by (now rewrite Rabs_pos_eq by exact P). apply rd_normal.
  destruct C as [C|C]; [now left|right]. rewrite Rabs_pos_eq by exact P. eapply Rle_trans; [|exact C]. apply bpow_le. lia.
Qed.

Lemma norm_val (x y z : F) : is_finite x = true -> is_finite y = true -> is_finite z = true ->
  scale (B2R x) -> scale (B2R y) -> scale (B2R z) ->
  let l := sqrt (B2R x * B2R x + B2R y * B2R y + B2R z * B2R z) in
  is_finite (r_norm (float_ray prec emax Hp He fl) x y z) = true /\
  Rabs (B2R (r_norm (float_ray prec emax Hp He fl) x y z) - l) <= 6 * u * l.
Proof.
  intros Fx Fy Fz Sx Sy Sz l. cbn [r_norm float_ray]. destruct u_small as (U0 & U1).
  destruct (square_val x Fx Sx) as (F1 & D1 & B1 & C1). destruct (square_val y Fy Sy) as (F2 & D2 & B2 & C2).
  destruct (square_val z Fz Sz) as (F3 & D3 & B3 & C3).
  set (xx := B2R x * B2R x) in *. set (yy := B2R y * B2R y) in *. set (zz := B2R z * B2R z) in *.
  assert (P1 : 0 <= xx) by apply Rle_0_sqr. assert (P2 : 0 <= yy) by apply Rle_0_sqr. assert (P3 : 0 <= zz) by apply Rle_0_sqr.
  set (X := Bmult mode_NE x x) in *. set (Y := Bmult mode_NE y y) in *. set (Z' := Bmult mode_NE z z) in *.
  set (H := bpow radix2 (2 * hi)) in *.
  assert (HM : 16 * H <= M).
  { unfold H. change 16 with (bpow radix2 4). rewrite <- bpow_plus. apply bpow_le. lia. }
  assert (Ux : u * xx <= / 4 * xx) by (apply Rmult_le_compat_r; lra). assert (Uy : u * yy <= / 4 * yy) by (apply Rmult_le_compat_r; lra).
  assert (Uz : u * zz <= / 4 * zz) by (apply Rmult_le_compat_r; lra).
  assert (UU : forall t, 0 <= t -> u * (u * t) <= / 4 * (u * t)).
  { intros t Ht. apply Rmult_le_compat_r; [apply Rmult_le_pos; lra|lra]. }
  apply Rabs_le_inv in D1, D2, D3.
  assert (Px : 0 <= u * xx) by (apply Rmult_le_pos; lra). assert (Py : 0 <= u * yy) by (apply Rmult_le_pos; lra).
  assert (Pz : 0 <= u * zz) by (apply Rmult_le_pos; lra).
  destruct (plus_val X Y F1 F2) as (F4 & E4); [rewrite Rabs_pos_eq; lra|].
  assert (D4 : Rabs (rd (B2R X + B2R Y) - (B2R X + B2R Y)) <= u * Rabs (B2R X + B2R Y)) by (apply rd_plus; apply fmt_B).
  rewrite <- E4 in D4. set (W := Bplus mode_NE X Y) in *. rewrite (Rabs_pos_eq (B2R X + B2R Y)) in D4 by lra.
  assert (u * (B2R X + B2R Y) <= u * (xx + yy + u * xx + u * yy)) by (apply Rmult_le_compat_l; lra).
  pose proof (UU xx P1). pose proof (UU yy P2). pose proof (UU zz P3).
  apply Rabs_le_inv in D4.
  assert (DW : Rabs (B2R W - (xx + yy)) <= 9 / 4 * (u * (xx + yy))) by (apply Rabs_le; lra).
  apply Rabs_le_inv in DW.
  destruct (plus_val W Z' F4 F3) as (F5 & E5); [rewrite Rabs_pos_eq; lra|].
  assert (D5 : Rabs (rd (B2R W + B2R Z') - (B2R W + B2R Z')) <= u * Rabs (B2R W + B2R Z')) by (apply rd_plus; apply fmt_B).
  rewrite <- E5 in D5. set (T := Bplus mode_NE W Z') in *. rewrite (Rabs_pos_eq (B2R W + B2R Z')) in D5 by lra.
  assert (u * (B2R W + B2R Z') <= u * (xx + yy + zz + 9 / 4 * (u * (xx + yy)) + u * zz)) by (apply Rmult_le_compat_l; lra).
  apply Rabs_le_inv in D5. set (S := xx + yy + zz).
  assert (DT : Rabs (B2R T - S) <= 4 * (u * S)) by (unfold S; apply Rabs_le; lra).
  apply Rabs_le_inv in DT. assert (S0 : 0 <= S) by (unfold S; lra).
  assert (T0 : 0 <= B2R T).
  { rewrite E5. rewrite <- (rd_id 0) by apply generic_format_0. apply rd_le. lra. }
  destruct (Bsqrt_correct prec emax Hp He mode_NE T) as (Er & Fr & _).
  assert (Fin : is_finite (Bsqrt mode_NE T) = true).
  { rewrite Fr. destruct T as [| | |[] mt et Bt]; try easy. exfalso. cbn [B2R cond_Zopp] in T0.
    assert (F2R (Float radix2 (Z.neg mt) et) < 0) by (apply F2R_lt_0; reflexivity). cbn in *. lra. }
  fold S in l.
  split; [exact Fin|]. rewrite Er. change (round_mode mode_NE) with ZnearestE. rewrite fe_eq.
  assert (Lp : 0 <= l) by apply sqrt_pos. assert (Sl : S = l * l) by (unfold l; symmetry; apply sqrt_sqrt; exact S0).
  assert (R1 : Rabs (sqrt (B2R T) - l) <= 4 * u * l).
  { assert (U4 : 0 <= 1 - 4 * u) by lra.
    apply Rabs_le. split.
    - cut (sqrt ((1 - 4 * u) * (1 - 4 * u) * (l * l)) <= sqrt (B2R T)).
      + intros Q. replace ((1 - 4 * u) * (1 - 4 * u) * (l * l)) with (((1 - 4 * u) * l) * ((1 - 4 * u) * l)) in Q by ring.
        rewrite sqrt_square in Q by (apply Rmult_le_pos; lra). lra.
      + apply sqrt_le_1_alt. rewrite <- Sl. apply Rle_trans with ((1 - 4 * u) * S); [|lra].
        apply Rmult_le_compat_r; [exact S0|]. rewrite <- (Rmult_1_r (1 - 4 * u)) at 3. apply Rmult_le_compat_l; lra.
    - cut (sqrt (B2R T) <= sqrt ((1 + 4 * u) * (1 + 4 * u) * (l * l))).
      + intros Q. replace ((1 + 4 * u) * (1 + 4 * u) * (l * l)) with (((1 + 4 * u) * l) * ((1 + 4 * u) * l)) in Q by ring.
        rewrite sqrt_square in Q by (apply Rmult_le_pos; lra). lra.
      + apply sqrt_le_1_alt. rewrite <- Sl. apply Rle_trans with ((1 + 4 * u) * S); [lra|].
        apply Rmult_le_compat_r; [exact S0|]. rewrite <- (Rmult_1_r (1 + 4 * u)) at 1. apply Rmult_le_compat_l; lra. }
  assert (R2 : Rabs (rd (sqrt (B2R T)) - sqrt (B2R T)) <= u * sqrt (B2R T)).
  { replace (u * sqrt (B2R T)) with (u * Rabs (sqrt (B2R T))) by (now rewrite Rabs_pos_eq by apply sqrt_pos). apply rd_normal.
    destruct (Req_dec S 0) as [Q|Q].
    - left. assert (B2R T = 0) as -> by (rewrite Q in DT; lra). apply sqrt_0.
    - right. rewrite Rabs_pos_eq by apply sqrt_pos.
      assert (S1 : bpow radix2 (2 * lo) <= S) by (unfold S in *; destruct C1 as [C1|C1]; [destruct C2 as [C2|C2]; [destruct C3 as [C3|C3]; [lra|lra]|lra]|lra]).
      assert (E2 : bpow radix2 (2 * lo) = bpow radix2 lo * bpow radix2 lo) by (rewrite <- bpow_plus; f_equal; clear; lia).
      assert (L1 : bpow radix2 lo <= l).
      { unfold l. rewrite <- (sqrt_square (bpow radix2 lo)) by apply bpow_ge_0. apply sqrt_le_1_alt. rewrite <- E2. exact S1. }
      apply Rle_trans with (bpow radix2 (lo - 1)); [apply bpow_le, Hlo|].
      unfold Z.sub. rewrite bpow_plus. change (bpow radix2 (Z.opp 1)) with (/ 2). apply Rabs_le_inv in R1.
      assert (B2R T >= / 4 * S \/ True) by auto.
      assert (U8 : u <= / 8).
      { change (/ 8) with (bpow radix2 (-3)). apply bpow_le. clear - Hprec. lia. }
      assert (4 * u * l <= 4 * / 8 * l) by (apply Rmult_le_compat_r; lra). lra. }
  replace (rd (sqrt (B2R T)) - l) with ((rd (sqrt (B2R T)) - sqrt (B2R T)) + (sqrt (B2R T) - l)) by ring.
  eapply Rle_trans; [apply Rabs_triang|]. pose proof R1 as R1'. apply Rabs_le_inv in R1'.
  assert (u * sqrt (B2R T) <= u * (l + 4 * u * l)) by (apply Rmult_le_compat_l; lra).
  assert (u * (4 * u * l) <= / 4 * (4 * u * l)) by (apply Rmult_le_compat_r; [apply Rmult_le_pos; [apply Rmult_le_pos; lra|lra]|lra]). lra.
Qed.
End Format.
