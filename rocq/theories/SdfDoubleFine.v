(** Fine gradients of signed distance fields in binary64. *)
From Coq Require Import ZArith Reals List Bool Lia Lra Psatz ZifyBool.
From Flocq Require Import Core BinarySingleNaN Relative Plus_error.
From Verif Require Import Util Grid EdtFloat FloatModel SdfQueryModel SdfQueryArith SdfQuerySpec SdfQueryProofs SdfEstimateProofs
  SdfDoubleModel SdfDoubleSpec ClearanceSpec SdfDoubleProofs SdfDoubleLerp SdfDoubleEstimate SdfDoubleGradient.
Import ListNotations.
Local Open Scope R_scope.

Lemma fine_quotient (ea' eb' a b : b64) ea eb B t X :
  is_finite ea' = true -> is_finite eb' = true -> is_finite a = true -> is_finite b = true ->
  Rabs (B2R ea' - ea) <= t -> Rabs (B2R eb' - eb) <= t -> Rabs ea <= 8 * B -> Rabs eb <= 8 * B ->
  0 <= t <= B -> X = B2R b - B2R a -> 0 < X -> B <= bpow radix2 1001 -> X <= bpow radix2 1001 ->
  bpow radix2 (-1000) <= B / X <= bpow radix2 1000 ->
  is_finite (b64_div (b64_sub eb' ea') (b64_sub b a)) = true /\
  Rabs (B2R (b64_div (b64_sub eb' ea') (b64_sub b a)) - (eb - ea) / X) <= (2 * t + 64 * u53 * B) / X.
Proof.
  intros Fe Fe' Fa Fb Ha Hb Ba Bb Ht EX Xp Bh Xh (Q0 & Q1). pose proof u53_pos as Up. pose proof u53_val as Uv.
  apply Rabs_le_inv in Ha, Hb, Ba, Bb.
  set (x := B2R ea') in *. set (y := B2R eb') in *.
  assert (Dxy : Rabs (y - x) <= 18 * B) by (apply Rabs_le; lra).
  assert (V1 : val (b64_sub eb' ea') (rnd (y - x))).
  { apply sub_val; [now split|now split|]. apply Rle_trans with (18 * bpow radix2 1001); [lra|apply huge_times; [lra|lia]]. }
  assert (V2 : val (b64_sub b a) (rnd X)).
  { rewrite EX. apply sub_val; [now split|now split|]. rewrite <- EX, Rabs_pos_eq by lra.
    apply Rle_trans with (1 * bpow radix2 1001); [lra|apply huge_times; [lra|lia]]. }
  assert (R1 : Rabs (rnd (y - x) - (y - x)) <= u53 * Rabs (y - x)) by (apply (plus_relative 53 (-1074)); [easy|apply generic_format_B2R..]).
  assert (R2 : Rabs (rnd X - X) <= u53 * Rabs X).
  { rewrite EX. apply (plus_relative 53 (-1074)); [easy|apply generic_format_B2R..]. }
  rewrite (Rabs_pos_eq X) in R2 by lra.
  set (s := rnd (y - x)) in *. set (d := rnd X) in *. clearbody s d.
  assert (UX : u53 * X <= / 1000 * X) by (apply Rmult_le_compat_r; lra).
  assert (UX0 : 0 <= u53 * X) by (apply Rmult_le_pos; lra).
  assert (UB0 : 0 <= u53 * B) by (apply Rmult_le_pos; lra).
  assert (UB : u53 * B <= / 1000 * B) by (apply Rmult_le_compat_r; lra).
  assert (R1' : Rabs (s - (y - x)) <= 18 * (u53 * B)).
  { eapply Rle_trans; [exact R1|]. replace (18 * (u53 * B)) with (u53 * (18 * B)) by ring. apply Rmult_le_compat_l; lra. }
  apply Rabs_le_inv in R1', R2. assert (Db : 999 / 1000 * X <= d) by lra. assert (Dp : 0 < d) by lra.
  set (q := (eb - ea) / X). set (z := B / X) in *.
  assert (EB : B = z * X) by (unfold z; field; lra).
  assert (EE : eb - ea = q * X) by (unfold q; field; lra).
  assert (Zp : 0 < z) by (pose proof (bpow_gt_0 radix2 (-1000)); lra).
  assert (Qz : Rabs q <= 16 * z).
  { apply Rabs_le. split; apply Rmult_le_reg_r with X; try exact Xp; rewrite <- EE; [replace (- (16 * z) * X) with (- (16 * B)) by (rewrite EB; ring)
      |replace (16 * z * X) with (16 * B) by (rewrite EB; ring)]; lra. }
  set (tau := t / X). assert (ET : t = tau * X) by (unfold tau; field; lra).
  assert (T0 : 0 <= tau) by (apply Rmult_le_pos; [lra|left; now apply Rinv_0_lt_compat]).
  assert (T1 : tau <= z) by (unfold tau, z, Rdiv; apply Rmult_le_compat_r; [left; now apply Rinv_0_lt_compat|lra]).
  replace ((2 * t + 64 * u53 * B) / X) with (2 * tau + 64 * (u53 * z)) by (unfold tau, z; field; lra).
  assert (UZ : 0 <= u53 * z) by (apply Rmult_le_pos; lra).
  assert (N : Rabs (s / d - q) <= 2 * tau + 40 * (u53 * z)).
  { replace (s / d - q) with ((s - q * d) / d) by (field; lra). unfold Rdiv.
    rewrite Rabs_mult, (Rabs_pos_eq (/ d)) by (left; now apply Rinv_0_lt_compat).
    apply Rmult_le_reg_r with d; [exact Dp|]. rewrite Rmult_assoc, Rinv_l, Rmult_1_r by lra.
    replace (s - q * d) with ((s - (eb - ea)) + q * (X - d)) by (rewrite EE; ring).
    eapply Rle_trans; [apply Rabs_triang|].
    assert (N1 : Rabs (s - (eb - ea)) <= 2 * t + 18 * (u53 * B)) by (apply Rabs_le; lra).
    assert (N2 : Rabs (q * (X - d)) <= 16 * z * (u53 * X)).
    { rewrite Rabs_mult. apply Rmult_le_compat; try apply Rabs_pos; [exact Qz|]. apply Rabs_le. lra. }
    apply Rle_trans with (2 * t + 18 * (u53 * B) + 16 * z * (u53 * X)); [lra|].
    rewrite ET, EB.
    apply Rle_trans with ((2 * tau + 40 * (u53 * z)) * ((1 - u53) * X)).
    - replace (2 * (tau * X) + 18 * (u53 * (z * X)) + 16 * z * (u53 * X)) with ((2 * tau + 34 * (u53 * z)) * X) by ring.
      rewrite <- (Rmult_assoc _ (1 - u53) X). apply Rmult_le_compat_r; [lra|].
      replace ((2 * tau + 40 * (u53 * z)) * (1 - u53)) with (2 * tau + 40 * (u53 * z) - (2 * (u53 * tau) + 40 * u53 * (u53 * z))) by ring.
      assert (u53 * tau <= u53 * z) by (apply Rmult_le_compat_l; lra).
      assert (40 * u53 * (u53 * z) <= / 1000 * (u53 * z)) by (apply Rmult_le_compat_r; lra). lra.
    - apply Rmult_le_compat_l; [lra|]. lra. }
  assert (Sd : Rabs (s / d) <= 19 * z).
  { assert (U1 : u53 * z <= / 1000 * z) by (apply Rmult_le_compat_r; lra).
    apply Rabs_le_inv in N, Qz. apply Rabs_le. lra. }
  assert (V3 : val (b64_div (b64_sub eb' ea') (b64_sub b a)) (rnd (s / d))).
  { apply div_val; [exact V1|exact V2|lra|]. apply Rle_trans with (19 * bpow radix2 1000); [lra|apply huge_times; [lra|lia]]. }
  pose proof (rnd_close (s / d) z Q0) as R3. destruct V3 as (F3 & E3). split; [exact F3|]. rewrite E3.
  set (v := rnd (s / d)) in *. clearbody v.
  replace (v - q) with ((v - s / d) + (s / d - q)) by ring. eapply Rle_trans; [apply Rabs_triang|].
  assert (u53 * (Rabs (s / d) + z) <= u53 * (20 * z)) by (apply Rmult_le_compat_l; lra). lra.
Qed.

(** The locations of the window. *)
Lemma window_points (x w : b64) r : is_finite x = true -> is_finite w = true ->
  bpow radix2 (-900) <= r <= bpow radix2 900 ->
  bpow radix2 (-40) * r <= B2R w <= bpow radix2 40 * r -> Rabs (B2R x) <= bpow radix2 50 * B2R w ->
  let m := b64_sub x w in let p := b64_add x w in
  is_finite m = true /\ is_finite p = true /\
  Rabs (B2R m - (B2R x - B2R w)) <= / 4 * B2R w /\ Rabs (B2R p - (B2R x + B2R w)) <= / 4 * B2R w.
Proof.
  intros Fx Fw Hr Hw Hx m p. set (W := B2R w) in *. set (u := B2R x) in *.
  assert (Rp : 0 < r) by (pose proof (bpow_gt_0 radix2 (-900)); lra).
  assert (Wl : bpow radix2 (-940) <= W).
  { apply Rle_trans with (bpow radix2 (-40) * r); [|lra]. change (-940)%Z with (-40 + -900)%Z. rewrite bpow_plus.
    apply Rmult_le_compat_l; [apply bpow_ge_0|lra]. }
  assert (Wh : W <= bpow radix2 940).
  { apply Rle_trans with (bpow radix2 40 * r); [lra|]. change 940%Z with (40 + 900)%Z. rewrite bpow_plus.
    apply Rmult_le_compat_l; [apply bpow_ge_0|lra]. }
  assert (Wp : 0 < W) by (pose proof (bpow_gt_0 radix2 (-940)); lra).
  assert (Ws : bpow radix2 (-1000) <= W) by (apply Rle_trans with (bpow radix2 (-940)); [apply bpow_le; lia|exact Wl]).
  assert (Hs : bpow radix2 50 * W + W <= huge).
  { apply Rle_trans with (bpow radix2 51 * W).
    - change 51%Z with (1 + 50)%Z. rewrite bpow_plus. change (bpow radix2 1) with 2.
      assert (1 * W <= bpow radix2 50 * W) by (apply Rmult_le_compat_r; [lra|change 1 with (bpow radix2 0); apply bpow_le; lia]). lra.
    - apply Rle_trans with (bpow radix2 51 * bpow radix2 940); [apply Rmult_le_compat_l; [apply bpow_ge_0|exact Wh]|].
      rewrite <- bpow_plus. apply bpow_le. lia. }
  assert (Ue : u53 * (bpow radix2 50 * W) = / 8 * W).
  { rewrite <- Rmult_assoc. unfold u53. rewrite <- bpow_plus. reflexivity. }
  pose proof u53_pos as Up. pose proof u53_val as Uv.
  assert (UW : u53 * W <= / 1000 * W) by (apply Rmult_le_compat_r; lra).
  assert (K : forall c, Rabs c <= bpow radix2 50 * W + W -> Rabs (rnd c - c) <= / 4 * W).
  { intros c Hc. eapply Rle_trans; [apply (rnd_close c W Ws)|].
    apply Rle_trans with (u53 * (bpow radix2 50 * W + 2 * W)); [apply Rmult_le_compat_l; lra|]. lra. }
  apply Rabs_le_inv in Hx.
  assert (Hm : Rabs (u - W) <= bpow radix2 50 * W + W) by (apply Rabs_le; lra).
  assert (Hp : Rabs (u + W) <= bpow radix2 50 * W + W) by (apply Rabs_le; lra).
  assert (Vm : val m (rnd (u - W))) by (apply sub_val; [now split|now split|lra]).
  assert (Vp : val p (rnd (u + W))) by (apply add_val; [now split|now split|lra]).
  destruct Vm as (Fm & ->), Vp as (Fp & ->). split; [exact Fm|]. split; [exact Fp|]. split; now apply K.
Qed.

Lemma fine_axis_slope V ssub (of : V -> b64) fl tri (E : b64 -> answer b64) (X : b64 -> answer R) (x w : b64) r B t c :
  is_finite x = true -> is_finite w = true -> bpow radix2 (-900) <= r <= bpow radix2 900 ->
  bpow radix2 (-40) * r <= B2R w <= bpow radix2 40 * r -> Rabs (B2R x) <= bpow radix2 50 * B2R w ->
  r / 2 <= B <= bpow radix2 100 * r -> 0 <= t <= B ->
  (forall y ey xy, E y = Answer ey -> X y = Answer xy -> In y [x; b64_sub x w; b64_add x w] ->
     is_finite ey = true /\ Rabs (B2R ey - xy) <= t /\ Rabs xy <= 8 * B) ->
  fine_axis (double_query V ssub of fl tri)
    (E x) (E (b64_sub x w)) (E (b64_add x w)) x (b64_sub x w) (b64_add x w) = Answer c ->
  rounded_slope E X x w (2 * t + 64 * u53 * B) c.
Proof.
  intros Fx Fw Hr Hw Hx HB Ht HE Hc. destruct (window_points x w r Fx Fw Hr Hw Hx) as (Fm & Fp & Nm & Np).
  set (m := b64_sub x w) in *. set (p := b64_add x w) in *.
  assert (Rp : 0 < r) by (pose proof (bpow_gt_0 radix2 (-900)); lra).
  assert (Wp : 0 < B2R w).
  { apply Rlt_le_trans with (bpow radix2 (-40) * r); [apply Rmult_lt_0_compat; [apply bpow_gt_0|exact Rp]|lra]. }
  apply Rabs_le_inv in Nm, Np.
  assert (Q : forall a b ea' eb' ea eb, In a [x; m; p] -> In b [x; m; p] -> is_finite a = true -> is_finite b = true ->
    E a = Answer ea' -> E b = Answer eb' -> X a = Answer ea -> X b = Answer eb ->
    / 2 * B2R w <= B2R b - B2R a <= 3 * B2R w ->
    is_finite (b64_div (b64_sub eb' ea') (b64_sub b a)) = true /\
    Rabs (B2R (b64_div (b64_sub eb' ea') (b64_sub b a)) - (eb - ea) / (B2R b - B2R a)) <= (2 * t + 64 * u53 * B) / (B2R b - B2R a)).
  { intros a b ea' eb' ea eb Ia Ib Fa Fb Ea Eb Xa Xb Hab.
    destruct (HE a ea' ea Ea Xa Ia) as (Fe & De & Be). destruct (HE b eb' eb Eb Xb Ib) as (Fe' & De' & Be').
    set (d := B2R b - B2R a) in *.
    assert (Wh : B2R w <= bpow radix2 940).
    { apply Rle_trans with (bpow radix2 40 * r); [lra|]. change 940%Z with (40 + 900)%Z. rewrite bpow_plus.
      apply Rmult_le_compat_l; [apply bpow_ge_0|lra]. }
    apply fine_quotient; try assumption; try reflexivity; [lra| | |].
    - apply Rle_trans with (bpow radix2 100 * r); [lra|]. apply Rle_trans with (bpow radix2 100 * bpow radix2 900).
      + apply Rmult_le_compat_l; [apply bpow_ge_0|lra].
      + rewrite <- bpow_plus. apply bpow_le. lia.
    - apply Rle_trans with (bpow radix2 2 * bpow radix2 940); [change (bpow radix2 2) with 4; lra|].
      rewrite <- bpow_plus. apply bpow_le. lia.
    - split.
      + apply Rmult_le_reg_r with d; [lra|]. unfold Rdiv. rewrite Rmult_assoc, Rinv_l, Rmult_1_r by lra.
        apply Rle_trans with (bpow radix2 (-1000) * (3 * (bpow radix2 40 * r))).
        * apply Rmult_le_compat_l; [apply bpow_ge_0|lra].
        * apply Rle_trans with (bpow radix2 (-1000) * (bpow radix2 42 * r)).
          -- apply Rmult_le_compat_l; [apply bpow_ge_0|]. change 42%Z with (2 + 40)%Z. rewrite bpow_plus. change (bpow radix2 2) with 4.
             assert (0 <= bpow radix2 40 * r) by (apply Rmult_le_pos; [apply bpow_ge_0|lra]). lra.
          -- rewrite <- Rmult_assoc, <- bpow_plus. apply Rle_trans with (bpow radix2 (-1) * r); [|change (bpow radix2 (-1)) with (/ 2); lra].
             apply Rmult_le_compat_r; [lra|apply bpow_le; lia].
      + apply Rmult_le_reg_r with d; [lra|]. unfold Rdiv. rewrite Rmult_assoc, Rinv_l, Rmult_1_r by lra.
        apply Rle_trans with (bpow radix2 1000 * (bpow radix2 (-1) * (bpow radix2 (-40) * r))).
        * rewrite <- !Rmult_assoc, <- !bpow_plus. apply Rle_trans with (bpow radix2 100 * r); [lra|].
          apply Rmult_le_compat_r; [lra|apply bpow_le; lia].
        * apply Rmult_le_compat_l; [apply bpow_ge_0|]. change (bpow radix2 (-1)) with (/ 2). lra. }
  unfold rounded_slope. fold m p. unfold fine_axis in Hc. cbn [q_sub q_div double_query] in Hc.
  destruct (E x) as [| |eh] eqn:Eh; [destruct (E m), (E p); discriminate..|].
  destruct (E m) as [| |em] eqn:Em, (E p) as [| |ep] eqn:Ep; try discriminate; injection Hc as <-.
  - exists x, p. split; [right; split; [reflexivity|intros e; discriminate]|]. split; [now left|]. split; [lra|].
    split; [now exists eh|]. split; [now exists ep|]. intros ea eb Xa Xb. apply Q; try assumption; [cbn; tauto..|lra].
  - exists x, p. split; [right; split; [reflexivity|intros e; discriminate]|]. split; [now left|]. split; [lra|].
    split; [now exists eh|]. split; [now exists ep|]. intros ea eb Xa Xb. apply Q; try assumption; [cbn; tauto..|lra].
  - exists m, x. split; [now left|]. split; [right; split; [reflexivity|intros e; discriminate]|]. split; [lra|].
    split; [now exists em|]. split; [now exists eh|]. intros ea eb Xa Xb. apply Q; try assumption; [cbn; tauto..|lra].
  - exists m, x. split; [now left|]. split; [right; split; [reflexivity|intros e; discriminate]|]. split; [lra|].
    split; [now exists em|]. split; [now exists eh|]. intros ea eb Xa Xb. apply Q; try assumption; [cbn; tauto..|lra].
  - exists m, p. split; [now left|]. split; [now left|]. split; [lra|].
    split; [now exists em|]. split; [now exists ep|]. intros ea eb Xa Xb. apply Q; try assumption; [cbn; tauto..|lra].
Qed.
