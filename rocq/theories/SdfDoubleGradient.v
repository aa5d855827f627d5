(** Gradients of signed distance fields in binary64. *)
From Coq Require Import ZArith Reals List Bool Lia Lra Psatz ZifyBool.
From Flocq Require Import Core BinarySingleNaN Relative Plus_error.
From Verif Require Import Util Grid EdtFloat FloatModel SdfQueryModel SdfQueryArith SdfQuerySpec SdfQueryProofs SdfEstimateProofs
  SdfDoubleModel SdfDoubleSpec ClearanceSpec SdfDoubleProofs SdfDoubleLerp.
Import ListNotations.
Local Open Scope R_scope.

Lemma plus_relative prec emin x y : Prec_gt_0 prec -> generic_format radix2 (FLT_exp emin prec) x ->
  generic_format radix2 (FLT_exp emin prec) y ->
  Rabs (round radix2 (FLT_exp emin prec) ZnearestE (x - y) - (x - y)) <= bpow radix2 (- prec) * Rabs (x - y).
Proof.
  intros Hp Fx Fy. destruct (FLT_plus_error_N_ex radix2 emin prec (fun z => negb (Z.even z)) x (- y) Fx) as (e & He & E).
  { now apply generic_format_opp. }
  change (Rabs (round radix2 (FLT_exp emin prec) (Znearest (fun z => negb (Z.even z))) (x + - y) - (x + - y))
    <= bpow radix2 (- prec) * Rabs (x + - y)). rewrite E.
  replace ((x + - y) * (1 + e) - (x + - y)) with (e * (x + - y)) by ring. rewrite Rabs_mult.
  apply Rmult_le_compat_r; [apply Rabs_pos|]. eapply Rle_trans; [exact He|].
  assert (U : u_ro radix2 prec = bpow radix2 (- prec)).
  { unfold u_ro. change (/ 2) with (bpow radix2 (-1)). rewrite <- bpow_plus. f_equal. lia. }
  rewrite U. pose proof (bpow_gt_0 radix2 (- prec)). apply Rmult_le_reg_r with (1 + bpow radix2 (- prec)); [lra|].
  unfold Rdiv. rewrite Rmult_assoc, Rinv_l by lra. nra.
Qed.

Lemma subtracts_double D : D <= bpow radix2 1000 -> subtracts u53 D b64_sub (fun v => v).
Proof.
  intros HD a b Fa Fb Ba Bb.
  assert (H : val (b64_sub a b) (rnd (B2R a - B2R b))).
  { apply sub_val; [now split|now split|]. apply Rle_trans with (2 * bpow radix2 1000); [|apply huge_times; [lra|lia]].
    apply Rabs_le_inv in Ba, Bb. apply Rabs_le. lra. }
  destruct H as (F & ->). split; [exact F|]. apply (plus_relative 53 (-1074)); [easy|apply generic_format_B2R..].
Qed.

Lemma finite_of_b32 (a : b32) : is_finite (b64_of_b32 a) = true -> is_finite a = true.
Proof. now destruct a. Qed.

Lemma subtracts_float D : D <= bpow radix2 126 -> subtracts (bpow radix2 (-24)) D b32_sub b64_of_b32.
Proof.
  intros HD a b Fa' Fb' Ba Bb. apply finite_of_b32 in Fa', Fb'.
  destruct (of_b32_val a Fa') as (_ & Ea). destruct (of_b32_val b Fb') as (_ & Eb). rewrite Ea in *. rewrite Eb in *.
  set (rnd32 := round radix2 (FLT_exp (-149) 24) ZnearestE).
  assert (Fm : forall c : b32, generic_format radix2 (FLT_exp (-149) 24) (B2R c)) by (intros c; apply generic_format_B2R).
  assert (R1 : Rabs (rnd32 (B2R a - B2R b) - (B2R a - B2R b)) <= bpow radix2 (-24) * Rabs (B2R a - B2R b))
    by (apply (plus_relative 24 (-149)); [easy|apply Fm..]).
  generalize (Bminus_correct 24 128 _ _ mode_NE a b Fa' Fb').
  change (round_mode mode_NE) with ZnearestE. change (SpecFloat.fexp 24 128) with (FLT_exp (-149) 24). fold (rnd32 (B2R a - B2R b)).
  assert (L : Rabs (rnd32 (B2R a - B2R b)) < bpow radix2 128).
  { apply Rle_lt_trans with (bpow radix2 127); [|apply bpow_lt; lia].
    apply abs_round_le_generic; [apply FLT_exp_valid; easy|apply valid_rnd_N|apply generic_format_bpow; unfold FLT_exp; lia|].
    change (bpow radix2 127) with (bpow radix2 (1 + 126)). rewrite bpow_plus. change (bpow radix2 1) with 2.
    apply Rabs_le_inv in Ba, Bb. apply Rabs_le. lra. }
  rewrite Rlt_bool_true by exact L. intros (E & F & _). fold (b32_sub a b) in E, F.
  destruct (of_b32_val _ F) as (F' & E'). split; [exact F'|]. rewrite E', E. exact R1.
Qed.

Section Gradient.
Variables (V : Type) (ssub : V -> V -> V) (of : V -> b64) (fl : b64 -> Z).
Variable tri : b64 * b64 * b64 -> b64 * b64 * b64 -> list b64 -> b64 * b64 * b64 -> b64.
Variables (res : b64) (r D eta : R).
Hypothesis Hres : val res r.
Hypothesis Hr : bpow radix2 (-900) <= r <= bpow radix2 900.
Hypothesis HD0 : 0 <= D.
Hypothesis HD : D <= bpow radix2 1000.
Hypothesis HDr : D <= bpow radix2 1000 * r.
Hypothesis Heta : u53 <= eta <= 1.
Hypothesis Sub : subtracts eta D ssub of.
Notation A := (double_query V ssub of fl tri).

Definition near (v : b64) (x : R) : Prop :=
  is_finite v = true /\ Rabs (B2R v - x) <= (2 * eta + bpow radix2 (-48)) * (D / r + 1).

Lemma r_pos' : 0 < r.
Proof using Hr. pose proof (bpow_gt_0 radix2 (-900)). lra. Qed.

Lemma ratio_pos : 0 <= D / r.
Proof using Hr HD0. pose proof r_pos'. apply Rmult_le_pos; [exact HD0|left; now apply Rinv_0_lt_compat]. Qed.

(** A difference [s] of two values over [k] cells. *)
Lemma quotient_near (d inc : b64) s k : val d (B2R d) -> Rabs (B2R d - s) <= eta * Rabs s -> Rabs s <= 2 * D ->
  1 <= k <= 2 -> val inc (rnd (k * r)) -> near (b64_mul d (b64_div (b64_lit 1 0) inc)) (s * (1 / (k * r))).
Proof using Hr HD0 HDr Heta.
  clear HD. intros Vd Hd Hs Hk Vi. pose proof r_pos' as Rp. pose proof u53_pos as Up. pose proof u53_val as Uv.
  set (q := D / r). assert (Q0 : 0 <= q) by exact ratio_pos.
  assert (KR : r <= k * r <= 2 * r) by (split; [rewrite <- (Rmult_1_l r) at 1|]; apply Rmult_le_compat_r; lra).
  assert (Smin : bpow radix2 (-1000) <= bpow radix2 (-900)) by (apply bpow_le; lia).
  pose proof (rnd_close (k * r) (k * r) ltac:(lra)) as R1. rewrite (Rabs_pos_eq (k * r)) in R1 by lra.
  set (i := rnd (k * r)) in *. clearbody i. set (c := k * r) in *.
  assert (R1' : Rabs (i - c) <= 2 * u53 * c) by lra. clear R1.
  assert (U1 : u53 * c <= / 1000 * c) by (apply Rmult_le_compat_r; lra).
  assert (Ib : 99 / 100 * c <= i) by (apply Rabs_le_inv in R1'; lra).
  assert (Ip : 0 < i) by lra.
  assert (Rinv_r' : / i <= 2 * / c).
  { apply Rmult_le_reg_r with (i * c); [apply Rmult_lt_0_compat; lra|]. replace (/ i * (i * c)) with c by (field; lra).
    replace (2 * / c * (i * c)) with (2 * i) by (field; lra). lra. }
  (* 1 / i *)
  assert (C1 : Rabs (/ i - / c) <= 21 / 10 * u53 * / c).
  { replace (/ i - / c) with ((c - i) * / i * / c) by (field; lra). rewrite !Rabs_mult.
    rewrite (Rabs_pos_eq (/ c)) by (left; apply Rinv_0_lt_compat; lra).
    rewrite (Rabs_pos_eq (/ i)) by (left; now apply Rinv_0_lt_compat).
    apply Rmult_le_compat_r; [left; apply Rinv_0_lt_compat; lra|].
    apply Rmult_le_reg_r with i; [exact Ip|]. rewrite Rmult_assoc, Rinv_l, Rmult_1_r by lra.
    rewrite Rabs_minus_sym. apply Rle_trans with (1 := R1').
    replace (21 / 10 * u53 * i) with (u53 * (21 / 10 * i)) by ring. replace (2 * u53 * c) with (u53 * (2 * c)) by ring.
    apply Rmult_le_compat_l; lra. }
  assert (Ic : 0 < / c) by (apply Rinv_0_lt_compat; lra).
  assert (Cl : bpow radix2 (-1000) <= / c).
  { apply Rmult_le_reg_r with c; [lra|]. rewrite Rinv_l by lra. apply Rle_trans with (bpow radix2 (-1000) * bpow radix2 901).
    - apply Rmult_le_compat_l; [apply bpow_ge_0|]. change 901%Z with (1 + 900)%Z. rewrite bpow_plus. change (bpow radix2 1) with 2. lra.
    - rewrite <- bpow_plus. change 1 with (bpow radix2 0). apply bpow_le. lia. }
  assert (Ch : / c <= bpow radix2 900).
  { apply Rmult_le_reg_r with c; [lra|]. rewrite Rinv_l by lra. apply Rle_trans with (bpow radix2 900 * bpow radix2 (-900)).
    - rewrite <- bpow_plus. apply Rle_refl.
    - apply Rmult_le_compat_l; [apply bpow_ge_0|lra]. }
  assert (V1 : val (b64_div (b64_lit 1 0) inc) (rnd (1 / i))).
  { apply div_val; [exact one_val|exact Vi|lra|]. unfold Rdiv. rewrite Rmult_1_l, Rabs_pos_eq by (left; now apply Rinv_0_lt_compat).
    apply Rle_trans with (2 * bpow radix2 900); [lra|]. apply huge_times; [lra|lia]. }
  pose proof (rnd_close (1 / i) (/ c) Cl) as R2. unfold Rdiv in R2 at 2 3. rewrite Rmult_1_l in R2.
  rewrite (Rabs_pos_eq (/ i)) in R2 by (left; now apply Rinv_0_lt_compat).
  set (j := rnd (1 / i)) in *. clearbody j.
  assert (UC : 0 <= u53 * / c) by (apply Rmult_le_pos; lra).
  assert (UC' : u53 * / c <= / 1000 * / c) by (apply Rmult_le_compat_r; lra).
  assert (R2' : Rabs (j - / c) <= 52 / 10 * u53 * / c).
  { replace (j - / c) with ((j - / i) + (/ i - / c)) by ring. eapply Rle_trans; [apply Rabs_triang|].
    assert (u53 * (/ i + / c) <= u53 * (3 * / c)) by (apply Rmult_le_compat_l; lra). lra. }
  assert (Jb : Rabs j <= 11 / 10 * / c) by (apply Rabs_le_inv in R2'; apply Rabs_le; lra).
  (* the difference *)
  set (d' := B2R d) in *. clearbody d'.
  assert (Ce : / c <= / r) by (apply Rinv_le; lra).
  assert (DQ : D * / c <= q) by (unfold q, Rdiv; apply Rmult_le_compat_l; lra).
  assert (S0 : Rabs s * / c <= 2 * q).
  { apply Rle_trans with (2 * D * / c); [apply Rmult_le_compat_r; lra|]. lra. }
  assert (Dd : Rabs d' <= 2 * Rabs s).
  { replace d' with (s + (d' - s)) by ring. eapply Rle_trans; [apply Rabs_triang|].
    assert (eta * Rabs s <= 1 * Rabs s) by (apply Rmult_le_compat_r; [apply Rabs_pos|lra]). lra. }
  assert (P1 : Rabs (d' * j) <= 44 / 10 * q).
  { rewrite Rabs_mult. apply Rle_trans with (2 * Rabs s * (11 / 10 * / c)).
    - apply Rmult_le_compat; try apply Rabs_pos; assumption.
    - lra. }
  assert (Qh : q <= bpow radix2 1000).
  { unfold q. apply Rmult_le_reg_r with r; [exact Rp|]. unfold Rdiv. rewrite Rmult_assoc, Rinv_l by lra. lra. }
  assert (V2 : val (b64_mul d (b64_div (b64_lit 1 0) inc)) (rnd (d' * j))).
  { apply mul_val; [exact Vd|exact V1|]. apply Rle_trans with (5 * bpow radix2 1000); [lra|apply huge_times; [lra|lia]]. }
  assert (S1 : bpow radix2 (-1000) <= 1) by (change 1 with (bpow radix2 0); apply bpow_le; lia).
  pose proof (rnd_close (d' * j) 1 S1) as R3. destruct V2 as (F2 & E2). split; [exact F2|]. rewrite E2.
  set (z := rnd (d' * j)) in *. clearbody z.
  assert (UQ : 0 <= u53 * q) by (apply Rmult_le_pos; lra).
  assert (EQ0 : 0 <= eta * q) by (apply Rmult_le_pos; lra).
  assert (E1 : Rabs ((d' - s) * j) <= 2 * (eta * q) + 12 * (u53 * q)).
  { rewrite Rabs_mult. apply Rle_trans with (eta * Rabs s * ((1 + 52 / 10 * u53) * / c)).
    - apply Rmult_le_compat; try apply Rabs_pos; [exact Hd|]. apply Rabs_le_inv in R2'. apply Rabs_le. split; [|lra].
      assert (0 <= / c) by lra. lra.
    - replace (eta * Rabs s * ((1 + 52 / 10 * u53) * / c)) with (eta * (Rabs s * / c) + 52 / 10 * u53 * (eta * (Rabs s * / c))) by ring.
      assert (W1 : eta * (Rabs s * / c) <= eta * (2 * q)) by (apply Rmult_le_compat_l; lra).
      assert (W2 : eta * (2 * q) <= 1 * (2 * q)) by (apply Rmult_le_compat_r; lra).
      assert (52 / 10 * u53 * (eta * (Rabs s * / c)) <= 52 / 10 * u53 * (2 * q)) by (apply Rmult_le_compat_l; lra). lra. }
  assert (E3 : Rabs (s * (j - / c)) <= 105 / 10 * (u53 * q)).
  { rewrite Rabs_mult. apply Rle_trans with (Rabs s * (52 / 10 * u53 * / c)); [apply Rmult_le_compat_l; [apply Rabs_pos|exact R2']|].
    replace (Rabs s * (52 / 10 * u53 * / c)) with (52 / 10 * u53 * (Rabs s * / c)) by ring.
    assert (52 / 10 * u53 * (Rabs s * / c) <= 52 / 10 * u53 * (2 * q)) by (apply Rmult_le_compat_l; lra). lra. }
  assert (U48 : bpow radix2 (-48) = 32 * u53).
  { unfold u53. change 32 with (bpow radix2 5). now rewrite <- bpow_plus. }
  rewrite U48. fold q. unfold Rdiv. rewrite Rmult_1_l.
  replace (z - s * / c) with ((z - d' * j) + (d' - s) * j + s * (j - / c)) by ring.
  eapply Rle_trans; [apply Rabs_triang|]. eapply Rle_trans; [apply Rplus_le_compat_r, Rabs_triang|].
  assert (u53 * (Rabs (d' * j) + 1) <= u53 * (44 / 10 * q + 1)) by (apply Rmult_le_compat_l; lra). lra.
Qed.

Variable g : grid V.
Variable f : grid R.
Variables (to_grid : (b64 * b64 * b64) * b64 -> b64 * b64 * b64) (to_world rotate : b64 * b64 * b64 -> b64 * b64 * b64).
Variables (to_grid' : (R * R * R) * R -> R * R * R) (to_world' rotate' : R * R * R -> R * R * R).
Hypothesis W : gwf g.
Hypothesis Vals : reals_of (fun v d => is_finite (of v) = true /\ d = B2R (of v)) g f.
Hypothesis Bound : forall i d, gget f i = Some d -> Rabs d <= D.
Notation fld := (double_field V ssub of fl tri g res to_grid to_world rotate).
Notation fld' := (real_field f r to_grid' to_world' rotate').

Lemma read_both c : in_bounds g c = true -> exists v, gget g c = Some v /\ gget f c = Some (B2R (of v)) /\
  is_finite (of v) = true /\ Rabs (B2R (of v)) <= D.
Proof using W Vals Bound.
  intros Hc. destruct (gget_some g c W Hc) as (v & Gv). destruct Vals as (_ & _ & _ & _ & H).
  destruct (H c v Gv) as (d & Gd & Fv & ->). exists v. do 3 (split; [assumption|]). exact (Bound c _ Gd).
Qed.

Lemma difference_small x y : Rabs x <= D -> Rabs y <= D -> Rabs (x - y) <= 2 * D.
Proof using. clear. intros H1 H2. apply Rabs_le_inv in H1, H2. apply Rabs_le. lra. Qed.

Lemma scaled_huge k : 0 <= k <= 2 -> Rabs (k * r) <= huge.
Proof using Hr.
  intros Hk. pose proof r_pos'. rewrite Rabs_mult, !Rabs_pos_eq by lra.
  apply Rle_trans with (k * bpow radix2 900); [apply Rmult_le_compat_l; lra|apply huge_times; [lra|lia]].
Qed.

Lemma two_val : val (b64_lit 2 0) 2.
Proof using. clear. replace 2 with (2 * bpow radix2 0) by (cbn; lra). apply lit_val; easy. Qed.

Lemma central_both hi lo : in_bounds g hi = true -> in_bounds g lo = true ->
  exists v x, near v x /\ (forall F, central A fld hi lo F = F v) /\ (forall F, central real_query fld' hi lo F = F x).
Proof using Hres Hr HD0 HDr Heta Sub W Vals Bound.
  intros Hh Hl. destruct (read_both hi Hh) as (a & Ga & Ra & Fa & Ba). destruct (read_both lo Hl) as (b & Gb & Rb & Fb & Bb).
  destruct (Sub a b Fa Fb Ba Bb) as (Fs & Es).
  eexists _, _. split; [|split; intros F; unfold central; cbn [s_grid double_field real_field];
    [rewrite (stored_some _ _ _ Ga), (stored_some _ _ _ Gb)|]; [reflexivity|]].
  2: { change (qS real_query) with R. rewrite (stored_some _ _ _ Ra), (stored_some _ _ _ Rb). reflexivity. }
  cbn [q_of q_ssub q_mul q_div q_one q_two s_res double_query double_field real_query real_field].
  apply quotient_near; [now split|exact Es|now apply difference_small|lra|].
  apply mul_val; [exact two_val|exact Hres|]. apply scaled_huge. lra.
Qed.

Lemma edge_both n hi lo : (0 <= n <= 2)%Z -> in_bounds g hi = true -> in_bounds g lo = true ->
  exists v x, near v x /\ (forall F, edge_axis A fld n hi lo F = F v) /\ (forall F, edge_axis real_query fld' n hi lo F = F x).
Proof using Hres Hr HD0 HD HDr Heta Sub W Vals Bound.
  intros Hn Hh Hl. destruct (read_both hi Hh) as (a & Ga & Ra & Fa & Ba). destruct (read_both lo Hl) as (b & Gb & Rb & Fb & Bb).
  pose proof r_pos' as Rp. destruct (ofZ_exact n) as (Fn & En); [unfold P53; lia|].
  assert (Kn : 0 <= IZR n <= 2) by (split; apply IZR_le; lia).
  assert (Vi : val (b64_mul (b64_ofZ n) res) (rnd (IZR n * r))).
  { apply mul_val; [now split|exact Hres|now apply scaled_huge]. }
  assert (Lt : b64_ltb (B754_zero false) (b64_mul (b64_ofZ n) res) = (1 <=? n)%Z).
  { destruct Vi as (Fi & Ei). rewrite ltb_fin by easy. rewrite Ei. cbn [B2R]. destruct (1 <=? n)%Z eqn:E.
    - apply Rlt_bool_true. assert (K1 : 1 <= IZR n) by (apply IZR_le; lia).
      assert (C : r <= IZR n * r) by (rewrite <- (Rmult_1_l r) at 1; apply Rmult_le_compat_r; lra).
      pose proof (rnd_close (IZR n * r) (IZR n * r)) as Q. rewrite (Rabs_pos_eq (IZR n * r)) in Q by lra.
      assert (S : bpow radix2 (-1000) <= IZR n * r).
      { apply Rle_trans with (bpow radix2 (-900)); [apply bpow_le; lia|lra]. }
      specialize (Q S). apply Rabs_le_inv in Q. pose proof u53_val.
      assert (u53 * (IZR n * r + IZR n * r) <= / 1000 * (IZR n * r + IZR n * r)) by (apply Rmult_le_compat_r; lra). lra.
    - apply Rlt_bool_false. replace n with 0%Z by lia. rewrite Rmult_0_l.
      assert (Z0 : rnd 0 = 0) by (apply round_0; apply valid_rnd_N). lra. }
  assert (Lt' : Rltb 0 (IZR n * r) = (1 <=? n)%Z).
  { unfold Rltb. destruct (Rlt_dec 0 (IZR n * r)) as [Q|Q], (1 <=? n)%Z eqn:E; try reflexivity; exfalso.
    - replace n with 0%Z in Q by lia. lra.
    - apply Q. assert (1 <= IZR n) by (apply IZR_le; lia). apply Rmult_lt_0_compat; lra. }
  unfold edge_axis. cbn [q_ltb q_zero q_mul q_ofZ q_of q_sub q_div q_one s_res s_grid double_query double_field real_query real_field].
  rewrite Lt, Lt'. destruct (1 <=? n)%Z eqn:E.
  - eexists _, _. split; [|split; intros F].
    2: rewrite (stored_some _ _ _ Ga), (stored_some _ _ _ Gb); reflexivity.
    2: { change (qS real_query) with R. rewrite (stored_some _ _ _ Ra), (stored_some _ _ _ Rb). reflexivity. }
    assert (Vd : val (b64_sub (of a) (of b)) (rnd (B2R (of a) - B2R (of b)))).
    { apply sub_val; [now split|now split|]. eapply Rle_trans; [now apply difference_small|].
      apply Rle_trans with (2 * bpow radix2 1000); [lra|apply huge_times; [lra|lia]]. }
    destruct (subtracts_double D HD (of a) (of b) Fa Fb Ba Bb) as (_ & Es).
    cbn beta. apply quotient_near; [split; [apply Vd|reflexivity]| |now apply difference_small| |exact Vi].
    + eapply Rle_trans; [exact Es|]. apply Rmult_le_compat_r; [apply Rabs_pos|lra].
    + split; [apply IZR_le; lia|lra].
  - eexists _, _. split; [|split; intros F; reflexivity]. split; [reflexivity|]. cbn [B2R]. rewrite Rminus_0_r, Rabs_R0.
    pose proof ratio_pos. pose proof u53_pos. pose proof (bpow_gt_0 radix2 (-48)). apply Rmult_le_pos; lra.
Qed.

Lemma gradient_both i edges :
  match grid_gradient A fld i edges, grid_gradient real_query fld' i edges with
  | Answer v, Answer x =>
    near (fst (fst v)) (fst (fst x)) /\ near (snd (fst v)) (snd (fst x)) /\ near (snd v) (snd x)
  | Empty, Empty => True
  | _, _ => False
  end.
Proof using Hres Hr HD0 HD HDr Heta Sub W Vals Bound.
  destruct i as [[x y] z]. unfold grid_gradient. cbn [s_grid double_field real_field].
  change (qS real_query) with R. change (qS A) with V.
  pose proof Vals as (_ & Fx & Fy & Fz & _).
  assert (Bf : in_bounds f (x, y, z) = in_bounds g (x, y, z)) by (unfold in_bounds; now rewrite Fx, Fy, Fz).
  rewrite Bf, Fx, Fy, Fz. destruct (in_bounds g (x, y, z)) eqn:Eb; [|exact I].
  pose proof Eb as Hb. rewrite in_bounds_iff in Hb.
  destruct (_ && _) eqn:Ei.
  - destruct (central_both (x + 1, y, z)%Z (x - 1, y, z)%Z) as (v1 & x1 & N1 & E1 & E1'); [rewrite in_bounds_iff; lia..|].
    destruct (central_both (x, y + 1, z)%Z (x, y - 1, z)%Z) as (v2 & x2 & N2 & E2 & E2'); [rewrite in_bounds_iff; lia..|].
    destruct (central_both (x, y, z + 1)%Z (x, y, z - 1)%Z) as (v3 & x3 & N3 & E3 & E3'); [rewrite in_bounds_iff; lia..|].
    rewrite E1, E1', E2, E2', E3, E3'. cbn [fst snd]. exact (conj N1 (conj N2 N3)).
  - destruct edges; [|exact I].
    destruct (edge_both (Z.min (g_nx g - 1) (x + 1) - Z.max 0 (x - 1))
      (Z.min (g_nx g - 1) (x + 1), y, z)%Z (Z.max 0 (x - 1), y, z)%Z) as (v1 & x1 & N1 & E1 & E1'); [lia|rewrite in_bounds_iff; lia..|].
    destruct (edge_both (Z.min (g_ny g - 1) (y + 1) - Z.max 0 (y - 1))
      (x, Z.min (g_ny g - 1) (y + 1), z)%Z (x, Z.max 0 (y - 1), z)%Z) as (v2 & x2 & N2 & E2 & E2'); [lia|rewrite in_bounds_iff; lia..|].
    destruct (edge_both (Z.min (g_nz g - 1) (z + 1) - Z.max 0 (z - 1))
      (x, y, Z.min (g_nz g - 1) (z + 1))%Z (x, y, Z.max 0 (z - 1))%Z) as (v3 & x3 & N3 & E3 & E3'); [lia|rewrite in_bounds_iff; lia..|].
    rewrite E1, E1', E2, E2', E3, E3'. cbn [fst snd]. exact (conj N1 (conj N2 N3)).
Qed.
End Gradient.
