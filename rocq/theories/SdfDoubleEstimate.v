(** Estimates of signed distance fields in binary64. *)
From Coq Require Import ZArith Reals List Bool Lia Lra Psatz ZifyBool.
From Flocq Require Import Core BinarySingleNaN.
From Verif Require Import Util Grid EdtFloat FloatModel SdfQueryModel SdfQueryArith SdfQuerySpec SdfQueryProofs SdfEstimateProofs
  SdfDoubleModel SdfDoubleSpec ClearanceSpec SdfDoubleProofs.
Import ListNotations.
Local Open Scope R_scope.

Section Double.
Variables (V : Type) (ssub : V -> V -> V) (of : V -> b64) (fl : b64 -> Z).
Variable tri : b64 * b64 * b64 -> b64 * b64 * b64 -> list b64 -> b64 * b64 * b64 -> b64.
Variables (res : b64) (r N : R).
Hypothesis Hfl : floors fl.
Hypothesis Hres : val res r.
Hypothesis Hr : bpow radix2 (-900) <= r <= bpow radix2 900.
Hypothesis HN : 1 <= N <= 33554432.
Notation A := (double_query V ssub of fl tri).
Notation inv := (b64_div (b64_lit 1 0) res).
Notation centre1 k := (b64_mul res (b64_add (b64_ofZ k) (b64_lit 1 (-1)))).

Lemma index_near q U : val q (U * r) -> Rabs U <= bpow radix2 62 ->
  exists p, fl (b64_mul q inv) = Zfloor p /\ Rabs (p - U) <= u53 * (4 * Rabs U + 1).
Proof using Hfl Hres Hr.
  intros Hq HU. destruct (inv_val res r Hres Hr) as (v & Hv & Hi).
  assert (Hv' : val inv (B2R inv)) by (split; [apply Hv|reflexivity]).
  assert (Ev : B2R inv = v) by apply Hv. rewrite <- Ev in Hi.
  destruct (product_val r Hr q U inv Hq HU Hv' Hi) as (p & Hp & Hd). exists p. split; [|exact Hd].
  destruct Hp as (Fp & Ep). rewrite Hfl; [now rewrite Ep|exact Fp|]. rewrite Ep.
  assert (T : Rabs p <= Rabs U + u53 * (4 * Rabs U + 1)).
  { replace p with (U + (p - U)) by ring. eapply Rle_trans; [apply Rabs_triang|]. lra. }
  eapply Rle_lt_trans; [exact T|]. pose proof (Rabs_pos U). pose proof u53_pos. pose proof u53_val.
  assert (bpow radix2 63 = 2 * bpow radix2 62) as -> by (change 2 with (bpow radix2 1); now rewrite <- bpow_plus).
  assert (8 <= bpow radix2 62) by (change 8 with (bpow radix2 3); apply bpow_le; lia). nra.
Qed.

Lemma index_slack q U n : val q (U * r) -> Rabs U <= bpow radix2 62 -> IZR n <= N ->
  let i := fl (b64_mul q inv) in
  ((0 <= i < n)%Z -> Rabs U <= 2 * N /\ IZR i - slack N <= U <= IZR i + 1 + slack N) /\
  (slack N <= U <= IZR n - slack N -> (0 <= i < n)%Z) /\
  ((0 <= i < n)%Z -> - slack N <= U <= IZR n + slack N).
Proof using Hfl Hres Hr HN.
  intros Hq HU Hn i. destruct (index_near q U Hq HU) as (p & Ei & Hd). fold i in Ei.
  pose proof (Zfloor_lb p) as Lb. pose proof (Zfloor_ub p) as Ub. rewrite <- Ei in Lb, Ub.
  pose proof u53_pos as Up. pose proof u53_val as Uv. pose proof (Rabs_pos U) as PU.
  pose proof (slack_pos N HN) as Sp. pose proof (slack_small N HN) as Ss.
  assert (Main : (0 <= i < n)%Z -> Rabs U <= 3 / 2 * N /\ Rabs (p - U) <= slack N).
  { intros (I0 & I1). apply IZR_le in I0. assert (I2 : (i + 1 <= n)%Z) by lia. apply IZR_le in I2. rewrite plus_IZR in I2.
    assert (T : Rabs U <= Rabs p + Rabs (p - U)).
    { replace U with (p + (U - p)) at 1 by ring. eapply Rle_trans; [apply Rabs_triang|].
      rewrite (Rabs_minus_sym p U). lra. }
    rewrite (Rabs_pos_eq p) in T by lra.
    assert (Hd' : u53 * (4 * Rabs U + 1) <= / 1000 * (4 * Rabs U + 1)) by (apply Rmult_le_compat_r; lra).
    assert (B1 : Rabs U <= 3 / 2 * N) by lra.
    split; [exact B1|]. eapply Rle_trans; [exact Hd|]. unfold slack.
    replace (8 * u53 * N) with (u53 * (8 * N)) by ring. apply Rmult_le_compat_l; lra. }
  split; [|split].
  - intros Hi. destruct (Main Hi) as (B1 & B2). split; [lra|]. apply Rabs_le_inv in B2. lra.
  - intros (U0 & U1). rewrite (Rabs_pos_eq U) in Hd by lra.
    assert (D : Rabs (p - U) < slack N).
    { eapply Rle_lt_trans; [exact Hd|]. unfold slack.
      replace (8 * u53 * N) with (u53 * (8 * N)) by ring. apply Rmult_lt_compat_l; lra. }
    apply Rabs_lt_inv in D. split.
    + rewrite Ei. apply Zfloor_lub. change (IZR 0) with 0. lra.
    + rewrite Ei. apply lt_IZR. rewrite <- Ei. lra.
  - intros Hi. destruct (Main Hi) as (_ & B2). apply Rabs_le_inv in B2. destruct Hi as (I0 & I1).
    apply IZR_le in I0. assert (I2 : (i + 1 <= n)%Z) by lia. apply IZR_le in I2. rewrite plus_IZR in I2. lra.
Qed.

Lemma axis_double q U n : val q (U * r) -> Rabs U <= bpow radix2 62 -> IZR n <= N ->
  let i := fl (b64_mul q inv) in (0 <= i < n)%Z ->
  let P := pair_of (b64_leb (B754_zero false) (b64_sub q (centre1 i))) i n in
  let lo := centre1 (fst P) in let hi := b64_add lo res in
  is_finite lo = true /\ is_finite hi = true /\ at_cell (B2R lo) (B2R hi) (U * r) /\
  axis_ok n U (8 * slack N) P ((U * r - B2R lo) / (B2R hi - B2R lo)).
Proof using Hfl Hres Hr HN.
  intros Hq HU Hn i Hi P lo hi. pose proof (slack_pos N HN) as Sp. pose proof (slack_small N HN) as Ss.
  pose proof (r_pos r Hr) as Rp.
  destruct (index_slack q U n Hq HU Hn) as (S1 & _ & _). specialize (S1 Hi). destruct S1 as (U2 & S1). fold i in S1.
  assert (Kin : forall k, (0 <= k < n)%Z -> 0 <= IZR k /\ IZR k + 1 <= N).
  { intros k (K0 & K1). apply IZR_le in K0. assert (K2 : (k + 1 <= n)%Z) by lia. apply IZR_le in K2. rewrite plus_IZR in K2. lra. }
  assert (C : forall k, (0 <= k < n)%Z -> val (centre1 k) (B2R (centre1 k)) /\
    Rabs (B2R (centre1 k) - r * (IZR k + 1 / 2)) <= slack N * (1 / 4) * r).
  { intros k Hk. destruct (Kin k Hk). destruct (centre_val res r N Hres Hr HN k ltac:(lia) ltac:(lra)) as (c & (Fc & Ec) & Hc).
    rewrite Ec. split; [split; [exact Fc|exact Ec]|exact Hc]. }
  destruct (C i Hi) as (Ci & Cin). destruct (Kin i Hi) as (Ki0 & Ki1).
  destruct (offset_near r N Hr HN q U (centre1 i) i Hq Ci U2 ltac:(lra) Cin) as (_ & O1 & O2).
  set (up := b64_leb (B754_zero false) (b64_sub q (centre1 i))) in *.
  pose proof (pair_near up i n U (slack N) Hi ltac:(lra) S1 O1 O2) as PN. cbn zeta in PN. fold P in PN.
  assert (R1 : (0 <= fst P < n)%Z /\ (0 <= snd P < n)%Z /\ -1 <= U - IZR (fst P) - 1 / 2 <= 2 /\
               -1 / 2 - slack N <= U - IZR (fst P) - 1 / 2 <= 3 / 2 + slack N).
  { destruct PN as [(E1 & -> & E3)|(E1 & E2 & E3 & E4 & E5 & _)]; cbn [fst snd] in *; repeat apply conj; try lia; lra. }
  destruct R1 as (R1 & R2 & R3 & R4).
  destruct (C (fst P) R1) as (Cl & Cln). fold lo in Cl, Cln. destruct (Kin _ R1) as (Kl0 & Kl1).
  destruct (place_near res r N Hres Hr HN lo U (fst P) Cl ltac:(lra) ltac:(lra) Cln R3) as (h & (Fh & Eh) & Hw & Ht).
  fold hi in Fh, Eh. rewrite Eh. set (l := B2R lo) in *. set (t := (U * r - l) / (h - l)) in *.
  set (t0 := U - IZR (fst P) - 1 / 2) in *.
  split; [apply Cl|]. split; [exact Fh|].
  assert (Tt : Rabs t <= 2) by (apply Rabs_le_inv in Ht; apply Rabs_le; lra).
  split.
  { assert (Bl : Rabs l <= (N + 1) * r) by (apply Rabs_le_inv in Cln; apply Rabs_le; nra).
    assert (Big : (N + 4) * r <= bpow radix2 1000).
    { apply Rle_trans with (bpow radix2 100 * bpow radix2 900).
      - pose proof big100. apply Rmult_le_compat; lra.
      - rewrite <- bpow_plus. apply bpow_le. lia. }
    assert (Ur : U * r - l = t * (h - l)) by (unfold t; field; lra).
    repeat apply conj.
    - apply Rle_trans with (r / 2); [|exact Hw].
      apply Rle_trans with (bpow radix2 (-900) / 2); [|lra].
      change (bpow radix2 (-900) / 2) with (bpow radix2 (-900) * bpow radix2 (-1)). rewrite <- bpow_plus. apply Rle_refl.
    - nra.
    - rewrite <- Eh. unfold hi.
      assert (Eh' : h = rnd (l + r)).
      { rewrite <- Eh. unfold hi. refine (proj2 (add_val lo res l r Cl Hres _)).
        apply Rle_trans with ((N + 2) * r); [apply Rabs_le; apply Rabs_le_inv in Bl; nra|].
        apply r_huge; [exact Hr|]. pose proof big100. lra. }
      fold hi. rewrite Eh, Eh'. pose proof (rnd_near r Hr (l + r) r ltac:(lra)) as X. rewrite <- Eh' in *.
      assert (Rabs (l + r) <= (N + 2) * r) by (apply Rabs_le; apply Rabs_le_inv in Bl; nra).
      pose proof u53_pos. pose proof u53_val.
      assert (Rabs (h - (l + r)) <= r).
      { eapply Rle_trans; [exact X|]. apply Rle_trans with (u53 * ((N + 3) * r)); [nra|].
        replace (u53 * ((N + 3) * r)) with (u53 * (N + 3) * r) by ring. rewrite <- (Rmult_1_l r) at 2.
        apply Rmult_le_compat_r; [lra|]. nra. }
      replace h with (l + r + (h - (l + r))) by ring. eapply Rle_trans; [apply Rabs_triang|]. nra.
    - rewrite Ur, Rabs_mult, (Rabs_pos_eq (h - l)) by lra. apply Rmult_le_compat_r; lra. }
  split; [exact R1|]. split; [exact R2|]. apply Rabs_le_inv in Ht. split.
  { unfold Rabs. destruct (Rcase_abs (1 - t)), (Rcase_abs t); lra. }
  intros HU0 f B Hf. assert (HB : 0 <= B) by (pose proof (Hf _ R1); pose proof (Rabs_pos (f (fst P))); lra).
  assert (D1 : Rabs (lerp t (f (fst P)) (f (snd P)) - lerp t0 (f (fst P)) (f (snd P))) <= 4 * slack N * B).
  { replace (lerp t (f (fst P)) (f (snd P)) - lerp t0 (f (fst P)) (f (snd P)))
      with ((t - t0) * (f (snd P) - f (fst P))) by (unfold lerp; ring).
    rewrite Rabs_mult. replace (4 * slack N * B) with (2 * slack N * (2 * B)) by ring.
    apply Rmult_le_compat; try apply Rabs_pos; [apply Rabs_le; lra|].
    pose proof (Hf _ R1) as F1. pose proof (Hf _ R2) as F2. apply Rabs_le_inv in F1, F2. apply Rabs_le. lra. }
  assert (D2 : Rabs (lerp t0 (f (fst P)) (f (snd P)) - blend n f U) <= 4 * slack N * B).
  { destruct PN as [(E1 & E2 & _)|(E1 & E2 & E3 & E4 & _ & E5)].
    - rewrite E2. cbn [fst snd]. unfold blend. rewrite E1. cbn [Z.eqb Pos.eqb]. rewrite lerp_same, Rminus_eq_0, Rabs_R0.
      apply Rmult_le_pos; lra.
    - rewrite E4. apply blend_near; try assumption; [lra|now apply E5]. }
  replace (lerp t (f (fst P)) (f (snd P)) - blend n f U)
    with ((lerp t (f (fst P)) (f (snd P)) - lerp t0 (f (fst P)) (f (snd P))) +
          (lerp t0 (f (fst P)) (f (snd P)) - blend n f U)) by ring.
  eapply Rle_trans; [apply Rabs_triang|]. lra.
Qed.

Variable g : grid V.
Variable f : grid R.
Variables (to_grid : (b64 * b64 * b64) * b64 -> b64 * b64 * b64) (to_world rotate : b64 * b64 * b64 -> b64 * b64 * b64).
Variables (D kappa : R).
Hypothesis W : gwf g.
Hypothesis Dims : IZR (g_nx g) <= N /\ IZR (g_ny g) <= N /\ IZR (g_nz g) <= N.
Hypothesis Vals : reals_of (fun v d => is_finite (of v) = true /\ d = B2R (of v)) g f.
Hypothesis Bound : forall i d, gget f i = Some d -> Rabs d <= D.
Hypothesis HD : D + r / 2 <= bpow radix2 1000.
Hypothesis Tri : interpolates kappa tri.
Notation fld := (double_field V ssub of fl tri g res to_grid to_world rotate).
Notation Bd := (D + r / 2).

Lemma D_pos : 0 <= D.
Proof using W Vals Bound.
  destruct W as (Nx & Ny & Nz & _).
  destruct (gget_some g (0, 0, 0)%Z W ltac:(apply in_bounds_iff; lia)) as (v & Ev).
  destruct Vals as (_ & _ & _ & _ & Vv). destruct (Vv _ _ Ev) as (d & Ed & _).
  pose proof (Bound _ _ Ed). pose proof (Rabs_pos d). lra.
Qed.

Definition cell_value (c : idx) : b64 :=
  match gget g c with Some v => corrected A fld v | None => B754_zero false end.

Lemma read_double cells : (forall c, In c cells -> in_bounds g c = true) ->
  read_corrected A fld cells = Some (map cell_value cells).
Proof using W.
  clear - W. induction cells as [|c t IH]; intros H; [easy|]. cbn [read_corrected map].
  destruct (gget_some g c W (H c (or_introl eq_refl))) as (d & Ed).
  cbn [s_grid double_field]. change (qS A) with V. rewrite Ed, IH by (intros; apply H; now right).
  cbn. unfold cell_value at 2. now rewrite Ed.
Qed.

Lemma corrected_near c : in_bounds g c = true ->
  is_finite (cell_value c) = true /\ Rabs (field_value f r c) <= Bd /\
  Rabs (B2R (cell_value c) - field_value f r c) <= 7 * u53 * Bd.
Proof using Hres Hr W Vals Bound HD.
  intros Hc. pose proof D_pos as Dp. pose proof (r_pos r Hr) as Rp. pose proof u53_pos as Up. pose proof u53_val as Uv.
  destruct (gget_some g c W Hc) as (v & Ev). destruct Vals as (_ & _ & _ & _ & Vv). destruct (Vv _ _ Ev) as (d & Ed & Fv & Ev').
  pose proof (Bound _ _ Ed) as Hd. unfold cell_value, field_value. rewrite Ev, Ed.
  unfold corrected. cbn [q_of q_mul q_half q_leb q_zero q_sub q_add double_query s_res double_field].
  assert (Vd : val (of v) d) by now split. pose proof (leb_zero _ _ Vd) as L.
  set (off := b64_mul res (b64_lit 1 (-1))).
  pose proof (rnd_near r Hr (r * (1 / 2)) r ltac:(lra)) as Ho. rewrite (Rabs_pos_eq (r * (1 / 2))) in Ho by lra.
  assert (Vo : val off (rnd (r * (1 / 2)))).
  { apply mul_val; [exact Hres|apply half_val|]. rewrite Rabs_pos_eq, Rmult_comm by lra. apply r_huge; [exact Hr|].
    pose proof big100. lra. }
  set (o := rnd (r * (1 / 2))) in *. clearbody o. apply Rabs_le_inv in Ho.
  assert (Ho' : Rabs (o - r / 2) <= 3 * u53 * Bd).
  { apply Rabs_le. assert (0 <= u53 * D) by (apply Rmult_le_pos; lra). assert (0 <= u53 * r) by (apply Rmult_le_pos; lra). lra. }
  assert (Bh : Bd + 2 * Bd <= huge).
  { apply Rle_trans with (bpow radix2 2 * bpow radix2 1000); [change (bpow radix2 2) with 4; lra|].
    rewrite <- bpow_plus. apply bpow_le. lia. }
  apply Rabs_le_inv in Hd. apply Rabs_le_inv in Ho'.
  assert (Small : 3 * u53 * Bd <= Bd) by (rewrite <- (Rmult_1_l Bd) at 2; apply Rmult_le_compat_r; lra).
  assert (Step : forall x y, Rabs y <= Bd -> Rabs (x - y) <= 3 * u53 * Bd ->
    Rabs x <= huge /\ Rabs (rnd x - y) <= 7 * u53 * Bd).
  { intros x y Hy Hxy. assert (Hx : Rabs x <= 2 * Bd).
    { replace x with (y + (x - y)) by ring. eapply Rle_trans; [apply Rabs_triang|]. lra. }
    split; [lra|]. pose proof (rnd_near r Hr x r ltac:(lra)) as H.
    replace (rnd x - y) with ((rnd x - x) + (x - y)) by ring. eapply Rle_trans; [apply Rabs_triang|].
    assert (u53 * (Rabs x + r) <= u53 * (4 * Bd)) by (apply Rmult_le_compat_l; lra). lra. }
  unfold shifted. destruct (b64_leb (B754_zero false) (of v)) eqn:El.
  - destruct (Rle_dec 0 d) as [H0|H0]; [|exfalso; apply H0; now apply L].
    assert (Y : Rabs (d - r / 2) <= Bd) by (apply Rabs_le; lra).
    destruct (Step (d - o) (d - r / 2) Y) as (S1 & S2).
    { apply Rabs_le. lra. }
    destruct (sub_val _ _ _ _ Vd Vo S1) as (Fx & Ex). rewrite Ex. now split; [|split].
  - destruct (Rle_dec 0 d) as [H0|H0]; [apply L in H0; congruence|].
    assert (Y : Rabs (d + r / 2) <= Bd) by (apply Rabs_le; lra).
    destruct (Step (d + o) (d + r / 2) Y) as (S1 & S2).
    { apply Rabs_le. lra. }
    destruct (add_val _ _ _ _ Vd Vo S1) as (Fx & Ex). rewrite Ex. now split; [|split].
Qed.

Lemma corner_inside px py pz c : (0 <= fst px < g_nx g)%Z -> (0 <= snd px < g_nx g)%Z ->
  (0 <= fst py < g_ny g)%Z -> (0 <= snd py < g_ny g)%Z -> (0 <= fst pz < g_nz g)%Z -> (0 <= snd pz < g_nz g)%Z ->
  In c (corner_cells px py pz) -> in_bounds g c = true.
Proof using.
  clear. intros X1 X2 Y1 Y2 Z1 Z2 Hc. apply corner_in in Hc. destruct c as [[cx cy] cz]. cbn [ix iy iz fst snd] in Hc.
  apply in_bounds_iff. lia.
Qed.

Lemma bound_range : bpow radix2 (-901) <= 2 * Bd <= bpow radix2 1001.
Proof using Hr W Vals Bound HD.
  pose proof D_pos as Dp. split.
  - apply Rle_trans with (bpow radix2 (-900)); [apply bpow_le; lia|]. lra.
  - apply Rle_trans with (bpow radix2 1 * bpow radix2 1000); [change (bpow radix2 1) with 2; lra|].
    rewrite <- bpow_plus. apply bpow_le. lia.
Qed.

Lemma coordinate q : is_finite q = true -> Rabs (B2R q) <= bpow radix2 62 * r ->
  val q (B2R q * / r * r) /\ Rabs (B2R q * / r) <= bpow radix2 62.
Proof using Hr.
  intros Fq Hq. pose proof (r_pos r Hr) as P. split.
  - split; [exact Fq|]. field. lra.
  - rewrite Rabs_mult, (Rabs_pos_eq (/ r)) by (left; now apply Rinv_0_lt_compat).
    apply Rmult_le_reg_r with r; [exact P|]. rewrite Rmult_assoc, Rinv_l, Rmult_1_r by lra. exact Hq.
Qed.

Notation fits := (fits r).

Lemma estimate_double p e : finite3 (to_grid p) -> fits (to_grid p) ->
  estimate A fld p = Answer e -> inside f r (reals3 (to_grid p)) ->
  is_finite e = true /\
  Rabs (B2R e - blend3 f r (voxels r (reals3 (to_grid p)))) <= (2 * kappa + 128 * slack N) * Bd.
Proof using Hfl Hres Hr HN W Dims Vals Bound HD Tri.
  intros (Fx & Fy & Fz) (Gx & Gy & Gz) Ee Hi.
  destruct (coordinate _ Fx Gx) as (Qx & Ux). destruct (coordinate _ Fy Gy) as (Qy & Uy).
  destruct (coordinate _ Fz Gz) as (Qz & Uz).
  destruct Dims as (Nx & Ny & Nz). pose proof D_pos as Dp. pose proof (r_pos r Hr) as Rp.
  pose proof (slack_pos N HN) as Sp. pose proof u53_pos as Up. pose proof u53_val as Uv.
  destruct Vals as (Wf & Ex & Ey & Ez & _).
  assert (One1 : (1 <= g_nx g)%Z) by (clear - W; destruct W; lia).
  assert (One2 : (1 <= g_ny g)%Z) by (clear - W; destruct W as (? & ? & _); lia).
  assert (One3 : (1 <= g_nz g)%Z) by (clear - W; destruct W as (? & ? & ? & _); lia).
  destruct Hi as (Ix & Iy & Iz). rewrite voxels_inside in Ix, Iy, Iz by exact Rp. rewrite Ex in Ix. rewrite Ey in Iy. rewrite Ez in Iz.
  unfold reals3 in Ix, Iy, Iz. cbn [fst snd] in Ix, Iy, Iz.
  unfold estimate in Ee. cbn [s_grid double_field] in Ee. change (qS A) with V in Ee.
  destruct (in_bounds g (location_index A fld p)) eqn:Hb; [|discriminate].
  unfold location_index in Hb. cbn [s_to_grid s_inv q_floor q_mul double_field double_query] in Hb. unfold qx, qy, qz in Hb.
  apply in_bounds_iff in Hb. destruct Hb as (Bx & By & Bz).
  unfold interpolate, interpolation_pairs, location_index, qmap2, centre, qmap in Ee.
  cbn [s_grid s_res s_inv s_to_grid q_floor q_mul q_add q_sub q_half q_ofZ q_trilinear double_field double_query] in Ee.
  unfold qx, qy, qz in Ee. cbn [fst snd ix iy iz] in Ee.
  destruct (to_grid p) as [[qx qy] qz]. cbn [fst snd] in *.
  rewrite !axis_indices_pair in Ee.
  destruct (axis_double qx (B2R qx * / r) (g_nx g) Qx Ux Nx Bx) as (X1 & X2 & X3 & X4).
  destruct (axis_double qy (B2R qy * / r) (g_ny g) Qy Uy Ny By) as (Y1 & Y2 & Y3 & Y4).
  destruct (axis_double qz (B2R qz * / r) (g_nz g) Qz Uz Nz Bz) as (Z1 & Z2 & Z3 & Z4).
  cbn zeta in *.
  change (qS A) with V in Ee.
  set (px := pair_of _ (fl (b64_mul qx inv)) _) in *. set (py := pair_of _ (fl (b64_mul qy inv)) _) in *.
  set (pz := pair_of _ (fl (b64_mul qz inv)) _) in *.
  rewrite read_double in Ee.
  2: { intros c Hc. exact (corner_inside px py pz c (proj1 X4) (proj1 (proj2 X4)) (proj1 Y4) (proj1 (proj2 Y4))
         (proj1 Z4) (proj1 (proj2 Z4)) Hc). }
  cbn [stored] in Ee. injection Ee as Ee.
  assert (Kx : B2R qx * / r * r = B2R qx) by (field; lra). assert (Ky : B2R qy * / r * r = B2R qy) by (field; lra).
  assert (Kz : B2R qz * / r * r = B2R qz) by (field; lra). rewrite Kx in X3, X4. rewrite Ky in Y3, Y4. rewrite Kz in Z3, Z4.
  assert (InB : forall a b c, (0 <= a < g_nx g)%Z -> (0 <= b < g_ny g)%Z -> (0 <= c < g_nz g)%Z -> in_bounds g (a, b, c) = true)
    by (clear; intros; apply in_bounds_iff; lia).
  assert (SB : slack N * Bd >= 0) by (apply Rle_ge, Rmult_le_pos; lra).
  assert (UB : 7 * u53 * Bd <= slack N * Bd).
  { apply Rmult_le_compat_r; [lra|]. unfold slack. nra. }
  assert (UB1 : 7 * u53 * Bd <= Bd) by (rewrite <- (Rmult_1_l Bd) at 2; apply Rmult_le_compat_r; lra).
  match type of Ee with tri ?lo ?hi ?v ?q = _ => destruct (Tri (2 * Bd) lo hi v q) as (T1 & T2) end.
  - exact bound_range.
  - split; [exact X1|split; [exact Y1|exact Z1]].
  - split; [exact X2|split; [exact Y2|exact Z2]].
  - split; [exact Fx|split; [exact Fy|exact Fz]].
  - exact X3.
  - exact Y3.
  - exact Z3.
  - reflexivity.
  - apply Forall_forall. intros a Ha.
    change (In a (map cell_value (corner_cells px py pz))) in Ha. apply in_map_iff in Ha. destruct Ha as (c & <- & Hc).
    apply corner_inside in Hc; [|apply X4|apply X4|apply Y4|apply Y4|apply Z4|apply Z4].
    destruct (corrected_near c Hc) as (C1 & C2 & C3).
    split; [exact C1|]. set (v := B2R (cell_value _)) in *. set (w := field_value _ _ _) in *.
    replace v with (w + (v - w)) by ring. eapply Rle_trans; [apply Rabs_triang|]. lra.
  - rewrite Ee in T1, T2. split; [exact T1|].
    unfold reals3, real_trilinear, corner_cells in T2. cbn [fst snd map] in T2.
    pose proof (near3 (g_nx g) (g_ny g) (g_nz g) (fun a b c => field_value f r (a, b, c)) (fun a b c => B2R (cell_value (a, b, c)))
      (8 * slack N) (7 * u53 * Bd) Bd px py pz _ _ _ _ _ _ ltac:(lra) ltac:(apply Rmult_le_pos; lra)
      One1 One2 One3 Ix Iy Iz X4 Y4 Z4) as H.
    cbn beta zeta in H.
    assert (Q : forall a b c, (0 <= a < g_nx g)%Z -> (0 <= b < g_ny g)%Z -> (0 <= c < g_nz g)%Z ->
      Rabs (field_value f r (a, b, c)) <= Bd /\ Rabs (B2R (cell_value (a, b, c)) - field_value f r (a, b, c)) <= 7 * u53 * Bd).
    { intros a b c Ha Hb Hc. destruct (corrected_near (a, b, c) (InB a b c Ha Hb Hc)) as (_ & C2 & C3). now split. }
    specialize (H Q). unfold blend3, voxels. cbn [fst snd reals3]. rewrite Ex, Ey, Ez.
    match type of T2 with Rabs (_ - ?a) <= _ => set (La := a) in * end.
    match goal with |- Rabs (_ - ?b) <= _ => set (Lb := b) in * end.
    assert (H' : Rabs (La - Lb) <= 13 * (8 * slack N) * Bd + 10 * (7 * u53 * Bd)) by exact H.
    replace (B2R e - Lb) with ((B2R e - La) + (La - Lb)) by ring. eapply Rle_trans; [apply Rabs_triang|]. lra.
Qed.

Lemma answers_double p : finite3 (to_grid p) -> fits (to_grid p) ->
  let within n q := slack N * r <= B2R q <= (IZR n - slack N) * r in
  let beyond n q := B2R q < - (slack N * r) \/ (IZR n + slack N) * r < B2R q in
  let q := to_grid p in
  (within (g_nx g) (fst (fst q)) -> within (g_ny g) (snd (fst q)) -> within (g_nz g) (snd q) ->
   exists e, estimate A fld p = Answer e) /\
  (beyond (g_nx g) (fst (fst q)) \/ beyond (g_ny g) (snd (fst q)) \/ beyond (g_nz g) (snd q) ->
   estimate A fld p = Empty).
Proof using Hfl Hres Hr HN W Dims.
  intros (Fx & Fy & Fz) (Gx & Gy & Gz) within beyond q.
  destruct (coordinate _ Fx Gx) as (Qx & Ux). destruct (coordinate _ Fy Gy) as (Qy & Uy).
  destruct (coordinate _ Fz Gz) as (Qz & Uz). fold q in Qx, Ux, Qy, Uy, Qz, Uz.
  destruct Dims as (Nx & Ny & Nz). pose proof (r_pos r Hr) as Rp.
  assert (Wi : forall n c, within n c -> slack N <= B2R c * / r <= IZR n - slack N).
  { intros n c (H1 & H2). split; apply Rmult_le_reg_r with r; try exact Rp;
      rewrite ?Rmult_assoc, ?Rinv_l, ?Rmult_1_r by lra; lra. }
  assert (Be : forall n c, beyond n c -> ~ (- slack N <= B2R c * / r <= IZR n + slack N)).
  { intros n c H (H1 & H2). apply (Rmult_le_compat_r r) in H1, H2; try lra. rewrite Rmult_assoc, Rinv_l, Rmult_1_r in H1, H2 by lra.
    destruct H; lra. }
  destruct (index_slack _ _ (g_nx g) Qx Ux Nx) as (_ & X2 & X3).
  destruct (index_slack _ _ (g_ny g) Qy Uy Ny) as (_ & Y2 & Y3).
  destruct (index_slack _ _ (g_nz g) Qz Uz Nz) as (_ & Z2 & Z3).
  split.
  - intros Hx Hy Hz. apply Wi in Hx, Hy, Hz. specialize (X2 Hx). specialize (Y2 Hy). specialize (Z2 Hz).
    unfold estimate. replace (in_bounds _ _) with true.
    + apply interpolate_some; [exact W|]. unfold location_index. apply in_bounds_iff.
      cbn [s_to_grid s_inv q_floor q_mul double_field double_query s_grid]. unfold SdfQueryModel.qx, SdfQueryModel.qy, SdfQueryModel.qz.
      fold q. now split; [|split].
    + symmetry. unfold location_index. apply in_bounds_iff.
      cbn [s_to_grid s_inv q_floor q_mul double_field double_query s_grid]. unfold SdfQueryModel.qx, SdfQueryModel.qy, SdfQueryModel.qz.
      fold q. now split; [|split].
  - intros H. unfold estimate. destruct (in_bounds _ _) eqn:E; [|reflexivity]. exfalso.
    unfold location_index in E. apply in_bounds_iff in E.
    cbn [s_to_grid s_inv q_floor q_mul double_field double_query s_grid] in E.
    unfold SdfQueryModel.qx, SdfQueryModel.qy, SdfQueryModel.qz in E. fold q in E. destruct E as (E1 & E2 & E3).
    destruct H as [H|[H|H]]; apply Be in H; apply H; auto.
Qed.
End Double.
