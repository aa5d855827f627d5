(** Accuracy of one order of evaluation of the trilinear formula. *)
From Coq Require Import ZArith Reals List Bool Lia Lra Psatz.
From Flocq Require Import Core BinarySingleNaN.
From Verif Require Import Util EdtFloat FloatModel SdfQueryArith SdfEstimateProofs SdfDoubleModel SdfDoubleSpec SdfDoubleProofs.
Import ListNotations.
Local Open Scope R_scope.

Lemma huge_times c e : 0 <= c <= 1024 -> (e <= 1010)%Z -> c * bpow radix2 e <= huge.
Proof.
  intros Hc He. apply Rle_trans with (bpow radix2 10 * bpow radix2 e).
  - change (bpow radix2 10) with 1024. apply Rmult_le_compat_r; [apply bpow_ge_0|lra].
  - rewrite <- bpow_plus. apply bpow_le. lia.
Qed.

(** The weight of one axis. *)
Lemma weight_near (lo hi q : b64) : is_finite lo = true -> is_finite hi = true -> is_finite q = true ->
  at_cell (B2R lo) (B2R hi) (B2R q) ->
  let t := (B2R q - B2R lo) / (B2R hi - B2R lo) in
  Rabs t <= 2 /\
  exists t', val (b64_div (b64_sub q lo) (b64_sub hi lo)) t' /\ Rabs (t' - t) <= 11 * u53.
Proof.
  intros Fl Fh Fq (H1 & H2 & H3 & H4) t. set (l := B2R lo) in *. set (h := B2R hi) in *. set (x := B2R q) in *.
  set (w := h - l) in *. pose proof u53_pos as Up. pose proof u53_val as Uv.
  pose proof (bpow_gt_0 radix2 (-901)) as Bp. assert (Wp : 0 < w) by lra.
  assert (Ws : bpow radix2 (-1000) <= w) by (apply Rle_trans with (bpow radix2 (-901)); [apply bpow_le; lia|exact H1]).
  assert (Wh : w <= 2 * bpow radix2 1000) by (apply Rabs_le_inv in H2, H3; unfold w; lra).
  assert (Et : x - l = t * w) by (unfold t; field; lra).
  assert (Tt : Rabs t <= 2).
  { rewrite Et, Rabs_mult, (Rabs_pos_eq w) in H4 by lra. apply Rmult_le_reg_r with w; lra. }
  split; [exact Tt|]. apply Rabs_le_inv in Tt.
  assert (V1 : val (b64_sub q lo) (rnd (x - l))).
  { apply sub_val; [now split|now split|]. apply Rle_trans with (4 * bpow radix2 1000); [lra|apply huge_times; [lra|lia]]. }
  assert (V2 : val (b64_sub hi lo) (rnd w)).
  { apply sub_val; [now split|now split|]. fold l h. fold w. rewrite Rabs_pos_eq by lra.
    apply Rle_trans with (2 * bpow radix2 1000); [lra|apply huge_times; [lra|lia]]. }
  pose proof (rnd_close (x - l) w Ws) as R1. pose proof (rnd_close w w Ws) as R2. rewrite (Rabs_pos_eq w) in R2 by lra.
  set (a := rnd (x - l)) in *. set (b := rnd w) in *. clearbody a b.
  assert (R1' : Rabs (a - t * w) <= 3 * u53 * w).
  { rewrite <- Et. eapply Rle_trans; [exact R1|]. replace (3 * u53 * w) with (u53 * (2 * w + w)) by ring.
    apply Rmult_le_compat_l; lra. }
  assert (R2' : Rabs (b - w) <= 2 * u53 * w) by lra.
  assert (Sm : 2 * u53 * w <= / 100 * w) by (apply Rmult_le_compat_r; lra).
  assert (Bb : 99 / 100 * w <= b) by (apply Rabs_le_inv in R2'; lra).
  assert (Bp' : 0 < b) by lra.
  assert (Q : Rabs (a / b - t) <= 75 / 10 * u53).
  { replace (a / b - t) with ((a - t * b) / b) by (field; lra). unfold Rdiv.
    rewrite Rabs_mult, (Rabs_pos_eq (/ b)) by (left; now apply Rinv_0_lt_compat).
    apply Rmult_le_reg_r with b; [exact Bp'|]. rewrite Rmult_assoc, Rinv_l, Rmult_1_r by lra.
    replace (a - t * b) with ((a - t * w) - t * (b - w)) by ring. eapply Rle_trans; [apply Rabs_triang|]. rewrite Rabs_Ropp, Rabs_mult.
    assert (Rabs t * Rabs (b - w) <= 2 * (2 * u53 * w)).
    { apply Rmult_le_compat; try apply Rabs_pos; [apply Rabs_le; lra|exact R2']. }
    assert (u53 * (99 / 100 * w) <= u53 * b) by (apply Rmult_le_compat_l; lra).
    assert (0 <= u53 * w) by (apply Rmult_le_pos; lra). lra. }
  assert (Qa : Rabs (a / b) <= 21 / 10) by (apply Rabs_le_inv in Q; apply Rabs_le; lra).
  exists (rnd (a / b)). split.
  - apply div_val; [exact V1|exact V2|lra|]. eapply Rle_trans; [exact Qa|]. 
    apply Rle_trans with (3 * bpow radix2 0); [cbn; lra|apply huge_times; [lra|lia]].
  - assert (S1 : bpow radix2 (-1000) <= 1) by (change 1 with (bpow radix2 0); apply bpow_le; lia).
    pose proof (rnd_close (a / b) 1 S1) as R3.
    replace (rnd (a / b) - t) with ((rnd (a / b) - a / b) + (a / b - t)) by ring.
    eapply Rle_trans; [apply Rabs_triang|].
    assert (u53 * (Rabs (a / b) + 1) <= u53 * (31 / 10)) by (apply Rmult_le_compat_l; lra). lra.
Qed.

(** One linear interpolation. *)
Lemma lerp_near (t' a b : b64) t M : val t' (B2R t') -> Rabs (B2R t' - t) <= 11 * u53 -> Rabs t <= 2 ->
  bpow radix2 (-901) <= M <= 36 * bpow radix2 1001 ->
  val a (B2R a) -> val b (B2R b) -> Rabs (B2R a) <= M -> Rabs (B2R b) <= M ->
  is_finite (b64_lerp t' a b) = true /\
  Rabs (B2R (b64_lerp t' a b) - lerp t (B2R a) (B2R b)) <= 41 * u53 * M /\
  Rabs (B2R (b64_lerp t' a b)) <= 6 * M.
Proof.
  intros Vt Ht Tt (M0 & M1) Va Vb Ba Bb. set (T := B2R t') in *. set (x := B2R a) in *. set (y := B2R b) in *.
  pose proof u53_pos as Up. pose proof u53_val as Uv. pose proof (bpow_gt_0 radix2 (-901)) as Bp. assert (Mp : 0 < M) by lra.
  assert (Ms : bpow radix2 (-1000) <= M) by (apply Rle_trans with (bpow radix2 (-901)); [apply bpow_le; lia|exact M0]).
  assert (Hh : forall c, 0 <= c <= 10 -> c * M <= huge).
  { intros c Hc. apply Rle_trans with (c * (36 * bpow radix2 1001)); [apply Rmult_le_compat_l; lra|].
    rewrite <- Rmult_assoc. apply huge_times; [lra|lia]. }
  assert (UM : 0 <= u53 * M) by (apply Rmult_le_pos; lra).
  assert (UM' : u53 * M <= / 1000 * M) by (apply Rmult_le_compat_r; lra).
  assert (Dyx : Rabs (y - x) <= 2 * M) by (apply Rabs_le_inv in Ba, Bb; apply Rabs_le; lra).
  assert (V1 : val (b64_sub b a) (rnd (y - x))) by (apply sub_val; [exact Vb|exact Va|]; pose proof (Hh 2 ltac:(lra)); lra).
  pose proof (rnd_close (y - x) M Ms) as R1. set (s := rnd (y - x)) in *. clearbody s.
  assert (R1' : Rabs (s - (y - x)) <= 3 * (u53 * M)).
  { eapply Rle_trans; [exact R1|]. replace (3 * (u53 * M)) with (u53 * (2 * M + M)) by ring. apply Rmult_le_compat_l; lra. }
  assert (Bs : Rabs s <= 21 / 10 * M) by (apply Rabs_le_inv in R1', Dyx; apply Rabs_le; lra).
  assert (BT : Rabs T <= 21 / 10) by (apply Rabs_le_inv in Ht, Tt; apply Rabs_le; lra).
  assert (Bst : Rabs (s * T) <= 45 / 10 * M).
  { rewrite Rabs_mult. apply Rle_trans with (21 / 10 * M * (21 / 10)); [|lra].
    apply Rmult_le_compat; try apply Rabs_pos; assumption. }
  assert (V2 : val (b64_mul (b64_sub b a) t') (rnd (s * T))).
  { apply mul_val; [exact V1|exact Vt|]. pose proof (Hh (45 / 10) ltac:(lra)). lra. }
  pose proof (rnd_close (s * T) M Ms) as R2. set (p := rnd (s * T)) in *. clearbody p.
  assert (R2' : Rabs (p - s * T) <= 55 / 10 * (u53 * M)).
  { eapply Rle_trans; [exact R2|]. replace (55 / 10 * (u53 * M)) with (u53 * (45 / 10 * M + M)) by field.
    apply Rmult_le_compat_l; lra. }
  assert (E2 : Rabs (s * T - (y - x) * t) <= 283 / 10 * (u53 * M)).
  { replace (s * T - (y - x) * t) with ((s - (y - x)) * T + (y - x) * (T - t)) by ring.
    eapply Rle_trans; [apply Rabs_triang|]. rewrite !Rabs_mult.
    assert (Rabs (s - (y - x)) * Rabs T <= 3 * (u53 * M) * (21 / 10)) by (apply Rmult_le_compat; try apply Rabs_pos; assumption).
    assert (Rabs (y - x) * Rabs (T - t) <= 2 * M * (11 * u53)) by (apply Rmult_le_compat; try apply Rabs_pos; assumption). lra. }
  assert (Bsum : Rabs (x + p) <= 56 / 10 * M) by (apply Rabs_le_inv in Ba, R2', Bst; apply Rabs_le; lra).
  assert (V3 : val (b64_lerp t' a b) (rnd (x + p))).
  { apply add_val; [exact Va|exact V2|]. pose proof (Hh (56 / 10) ltac:(lra)). lra. }
  pose proof (rnd_close (x + p) M Ms) as R3. destruct V3 as (F3 & E3). rewrite E3. set (e := rnd (x + p)) in *. clearbody e.
  assert (R3' : Rabs (e - (x + p)) <= 66 / 10 * (u53 * M)).
  { eapply Rle_trans; [exact R3|]. replace (66 / 10 * (u53 * M)) with (u53 * (56 / 10 * M + M)) by field.
    apply Rmult_le_compat_l; lra. }
  split; [exact F3|]. apply Rabs_le_inv in R2', E2, R3'. split.
  - unfold lerp. apply Rabs_le. lra.
  - apply Rabs_le_inv in Bsum. apply Rabs_le. lra.
Qed.

Lemma trilinear_near : interpolates (4096 * u53) b64_trilinear.
Proof.
  intros B lo hi v q HB (Fl1 & Fl2 & Fl3) (Fh1 & Fh2 & Fh3) (Fq1 & Fq2 & Fq3) Ax Ay Az Hv Fv.
  destruct (weight_near _ _ _ Fl1 Fh1 Fq1 Ax) as (Tx & tx & Vx & Nx).
  destruct (weight_near _ _ _ Fl2 Fh2 Fq2 Ay) as (Ty & ty & Vy & Ny).
  destruct (weight_near _ _ _ Fl3 Fh3 Fq3 Az) as (Tz & tz & Vz & Nz).
  do 8 (destruct v as [|? v]; [discriminate|]). destruct v; [|discriminate].
  repeat (apply Forall_cons_iff in Fv; let H := fresh "C" in destruct Fv as [H Fv]). clear Fv.
  unfold b64_trilinear, real_trilinear, reals3. cbn [map fst snd].
  set (tx' := b64_div (b64_sub (fst (fst q)) _) _) in *. set (ty' := b64_div (b64_sub (snd (fst q)) _) _) in *.
  set (tz' := b64_div (b64_sub (snd q) _) _) in *.
  set (wx := (B2R (fst (fst q)) - _) / _) in *. set (wy := (B2R (snd (fst q)) - _) / _) in *. set (wz := (B2R (snd q) - _) / _) in *.
  destruct Vx as (Vx & <-), Vy as (Vy & <-), Vz as (Vz & <-). clearbody tx' ty' tz' wx wy wz.
  pose proof u53_pos as Up. pose proof u53_val as Uv. pose proof (bpow_gt_0 radix2 (-901)) as Bp.
  assert (UB : 0 <= u53 * B) by (apply Rmult_le_pos; lra).
  assert (W : forall t c d m, Rabs t <= 2 -> Rabs c <= m -> Rabs d <= m -> Rabs (lerp t c d) <= 5 * m).
  { intros t c d m Ht Hc Hd. apply lerp_weights; try assumption. apply Rabs_le_inv in Ht. unfold Rabs.
    destruct (Rcase_abs (1 - t)), (Rcase_abs t); lra. }
  (* z *)
  assert (LZ : forall x y : b64, is_finite x = true /\ Rabs (B2R x) <= B -> is_finite y = true /\ Rabs (B2R y) <= B ->
    is_finite (b64_lerp tz' x y) = true /\ Rabs (B2R (b64_lerp tz' x y) - lerp wz (B2R x) (B2R y)) <= 41 * (u53 * B) /\
    Rabs (B2R (b64_lerp tz' x y)) <= 6 * B).
  { intros x y (X1 & X2) (Y1 & Y2). rewrite <- Rmult_assoc. apply lerp_near; try (split; [assumption|reflexivity]); try assumption; lra. }
  (* y *)
  assert (LY : forall x y x' y' : b64, is_finite x = true /\ Rabs (B2R x) <= B -> is_finite y = true /\ Rabs (B2R y) <= B ->
    is_finite x' = true /\ Rabs (B2R x') <= B -> is_finite y' = true /\ Rabs (B2R y') <= B ->
    let e := b64_lerp ty' (b64_lerp tz' x y) (b64_lerp tz' x' y') in
    is_finite e = true /\
    Rabs (B2R e - lerp wy (lerp wz (B2R x) (B2R y)) (lerp wz (B2R x') (B2R y'))) <= 451 * (u53 * B) /\ Rabs (B2R e) <= 36 * B).
  { intros x y x' y' Hx Hy Hx' Hy'. destruct (LZ x y Hx Hy) as (A1 & A2 & A3). destruct (LZ x' y' Hx' Hy') as (A1' & A2' & A3').
    set (m := b64_lerp tz' x y) in *. set (m' := b64_lerp tz' x' y') in *. clearbody m m'. cbn zeta.
    destruct (lerp_near ty' m m' wy (6 * B) (conj Vy eq_refl) Ny Ty ltac:(lra) (conj A1 eq_refl) (conj A1' eq_refl) A3 A3') as (L1 & L2 & L3).
    split; [exact L1|]. split; [|lra].
    pose proof (W wy (B2R m - lerp wz (B2R x) (B2R y)) (B2R m' - lerp wz (B2R x') (B2R y')) _ Ty A2 A2') as L4.
    rewrite <- lerp_sub in L4.
    match goal with |- Rabs (?e - ?z) <= _ =>
      replace (e - z) with ((e - lerp wy (B2R m) (B2R m')) + (lerp wy (B2R m) (B2R m') - z)) by ring end.
    eapply Rle_trans; [apply Rabs_triang|]. lra. }
  match goal with |- is_finite (b64_lerp _ (b64_lerp _ (b64_lerp _ ?v0 ?v1) (b64_lerp _ ?v2 ?v3))
    (b64_lerp _ (b64_lerp _ ?v4 ?v5) (b64_lerp _ ?v6 ?v7))) = true /\ _ =>
    destruct (LY v0 v1 v2 v3) as (A1 & A2 & A3); try assumption;
    destruct (LY v4 v5 v6 v7) as (A1' & A2' & A3'); try assumption end.
  cbn zeta in *.
  match type of A1 with is_finite ?k = true => set (m := k) in *; clearbody m end.
  match type of A1' with is_finite ?k = true => set (m' := k) in *; clearbody m' end.
  destruct (lerp_near tx' m m' wx (36 * B) (conj Vx eq_refl) Nx Tx ltac:(lra) (conj A1 eq_refl) (conj A1' eq_refl) A3 A3') as (L1 & L2 & L3).
  split; [exact L1|].
  match type of A2 with Rabs (_ - ?k) <= _ => set (k0 := k) in * end.
  match type of A2' with Rabs (_ - ?k) <= _ => set (k1 := k) in * end. clearbody k0 k1.
  pose proof (W wx (B2R m - k0) (B2R m' - k1) _ Tx A2 A2') as L4. rewrite <- lerp_sub in L4.
  match goal with |- Rabs (?e - ?z) <= _ =>
    replace (e - z) with ((e - lerp wx (B2R m) (B2R m')) + (lerp wx (B2R m) (B2R m') - z)) by ring end.
  eapply Rle_trans; [apply Rabs_triang|]. lra.
Qed.
