(** Rays of the CPU in binary64 and of the devices in binary32. *)
From Coq Require Import ZArith Reals List Bool Lia Lra Psatz ZifyBool.
From Flocq Require Import Core BinarySingleNaN Relative.
From Verif Require Import Util Grid SdfSpec FloatModel FilterModel RaycastModel RaycastSpec RaycastProofs RayGeoSpec RayRoundSpec
  RayRoundProofs RayFloatModel RayFloatProofs.
From Verif Require EdtFloat SdfDoubleProofs SdfDoubleSpec.
Local Open Scope R_scope.

Lemma in_grid_box A (g : ray_grid A) i : in_grid A g i = true <-> in_box (rg_nx A g) (rg_ny A g) (rg_nz A g) i.
Proof. destruct i as ((x, y), z). unfold in_grid, in_bounds3, in_box, ix, iy, iz. cbn [fst snd]. lia. Qed.

(** What is required of the grid and of the arithmetic. *)
Definition setup (A : ray_arith) (fin : rT A -> bool) (val : rT A -> R) (u eta M L K lam : R) (g : ray_grid A) (N : Z) : Prop :=
  rounded_ray A fin val u eta M L /\
  (fin (rg_voxel A g) = true /\ 0 < val (rg_voxel A g)) /\
  (fin (rg_inv A g) = true /\ Rabs (val (rg_inv A g) * val (rg_voxel A g) - 1) <= 4 * u) /\
  (1 <= N)%Z /\ 0 < u /\ IZR N * (IZR N + 128) * u <= 1 /\
  (0 <= eta /\ eta <= u /\ eta <= u * val (rg_voxel A g) /\ eta * L <= u) /\
  (1 <= K /\ 16 * K <= L /\ IZR N <= K) /\
  (L <= M /\ L * val (rg_voxel A g) <= M /\ 8 * IZR N <= lam * M /\ 0 < lam) /\
  ((rg_nx A g <= N)%Z /\ (rg_ny A g <= N)%Z /\ (rg_nz A g <= N)%Z).

Lemma cast_marks A fin val u eta M L K lam (g : ray_grid A) N m range o p bs :
  setup A fin val u eta M L K lam g N ->
  good_ray A fin val (K * val (rg_voxel A g)) (2 * lam * val (rg_voxel A g)) o p ->
  stands_for A fin val m range ->
  (let r := ray_of A o p in
   let l := sqrt (val (vx A r) * val (vx A r) + val (vy A r) * val (vy A r) + val (vz A r) * val (vz A r)) in
   fin (length_of A r) = true /\ Rabs (val (length_of A r) - l) <= 6 * u * l) ->
  in_grid A g (voxel_of A g o) = true ->
  cast_point A g m o (voxel_of A g o) p = Some bs ->
  exists s whole,
    marks_segment (val (rg_voxel A g)) (IZR N * (IZR N + 128) * u * val (rg_voxel A g)) s whole
      (rg_nx A g) (rg_ny A g) (rg_nz A g) (reals A val o) (reals A val p) bs /\
    cut_near (20 * u * dist (reals A val o) (reals A val p)) range (dist (reals A val o) (reals A val p)) s whole.
Proof.
  intros (RR & HV & HI & HN & Hu & Hs & He & HK & HM & Hn) Hg Hm Hl Hi Hc.
  assert (Hm' : m = r_inf A \/ (fin m = true /\ 0 <= val m)).
  { destruct range as [r|]; [right|now left]. destruct Hm as (F & P & <-). easy. }
  exists (ray_part A val m o p), (negb (is_clipped A m (ray_of A o p))).
  destruct (cast_round A fin val u eta M L K lam RR g N HV HI HN Hu Hs He HK HM m o p bs Hn Hg Hm' Hi Hc)
    as (S1 & S2 & S3 & S4 & S5 & S6).
  destruct (part_length A fin val u eta M L K lam RR g N HV HI HN Hu Hs He HK HM m o p) as (P1 & P2); try assumption.
  { intros f Hf. destruct (Hg f Hf) as (G1 & G2 & G3 & G4 & _). easy. }
  split.
  - split; [exact S1|]. split; [|split; [|split; [|split; [|split]]]].
    + intros Q. apply negb_true_iff in Q. unfold ray_part. now rewrite Q.
    + intros i b H. destruct (S2 i b H) as (T1 & T2). split; [now apply in_grid_box|exact T2].
    + intros i H. destruct (S3 i H) as (T1 & T2). now rewrite T1.
    + intros t i Ht H. apply S4; [exact Ht|now apply in_grid_box].
    + intros i Q H. apply negb_true_iff in Q. apply S5; [exact Q|now apply in_grid_box].
    + intros Q H. apply negb_true_iff in Q. now apply S6.
  - destruct range as [r|]; cbn [stands_for cut_near] in *.
    + destruct Hm as (F & _ & <-). destruct (P2 F) as (Q1 & Q2 & Q3). split; [exact Q1|].
      split; intros H; [now rewrite (Q2 H)|now rewrite (Q3 H)].
    + destruct (P1 Hm) as (Q1 & Q2). now rewrite Q2.
Qed.

(** The computed length of a ray whose coordinates are of moderate size. *)
Lemma ray_length prec emax (Hp : Prec_gt_0 prec) (He : Prec_lt_emax prec emax) fl lx lo hi (o p : vec (float_ray prec emax Hp He fl)) :
  (3 <= prec)%Z -> (0 <= lx <= emax - 2)%Z ->
  (forall a : binary_float prec emax, is_finite a = true -> Rabs (B2R a) <= bpow radix2 lx -> fl a = Zfloor (B2R a)) ->
  (3 - emax - prec + prec - 1 <= 2 * lo)%Z /\ (3 - emax - prec + prec - 1 <= lo - 1)%Z -> (2 * hi + 4 <= emax - 2)%Z -> (0 <= hi)%Z ->
  (forall f, f = vx _ \/ f = vy _ \/ f = vz (float_ray prec emax Hp He fl) ->
   is_finite (f o : binary_float prec emax) = true /\ is_finite (f p : binary_float prec emax) = true /\
   Rabs (B2R (f p : binary_float prec emax) - B2R (f o : binary_float prec emax)) <= bpow radix2 (hi - 1) /\
   not_tiny (bpow radix2 (lo + 1)) (B2R (f p : binary_float prec emax) - B2R (f o : binary_float prec emax))) ->
  let A := float_ray prec emax Hp He fl in
  let val := B2R : rT A -> R in
  let r := ray_of A o p in
  let l := sqrt (val (vx A r) * val (vx A r) + val (vy A r) * val (vy A r) + val (vz A r) * val (vz A r)) in
  is_finite (length_of A r : binary_float prec emax) = true /\ Rabs (val (length_of A r) - l) <= 6 * bpow radix2 (- prec) * l.
Proof.
  intros Hprec Hl Hfl Hlo Hhi Hp0 Hg A val r l.
  pose proof (rounded_float prec emax Hp He fl lx Hprec Hl Hfl) as RR.
  assert (Hd : forall f, f = vx A \/ f = vy A \/ f = vz A ->
    is_finite (r_sub A (f p) (f o) : binary_float prec emax) = true /\ scale lo hi (val (r_sub A (f p) (f o)))).
  { intros f Hf. destruct (Hg f Hf) as (F1 & F2 & Bd & T).
    destruct (rr_sub _ _ _ _ _ _ _ RR (f p) (f o) F2 F1) as (Fd & Dd).
    { eapply Rle_trans; [exact Bd|]. apply bpow_le. clear - Hhi Hp0. lia. }
    split; [exact Fd|].
    assert (U : bpow radix2 (- prec) <= / 2) by (change (/ 2) with (bpow radix2 (-1)); apply bpow_le; clear - Hprec; lia).
    change (Rabs (val (f p) - val (f o)) <= bpow radix2 (hi - 1)) in Bd. change (not_tiny (bpow radix2 (lo + 1)) (val (f p) - val (f o))) in T.
    change (Rabs (val (r_sub A (f p) (f o)) - (val (f p) - val (f o))) <= bpow radix2 (- prec) * Rabs (val (f p) - val (f o))) in Dd.
    assert (UD : bpow radix2 (- prec) * Rabs (val (f p) - val (f o)) <= / 2 * Rabs (val (f p) - val (f o)))
      by (apply Rmult_le_compat_r; [apply Rabs_pos|exact U]).
    set (d := val (f p) - val (f o)) in *. set (q := val (r_sub A (f p) (f o))) in *. clearbody d q.
    destruct T as [T|T].
    - left. change (q = 0). rewrite T, Rabs_R0 in Dd. apply Rabs_le_inv in Dd. clear - Dd. lra.
    - right. assert (R1 : Rabs d <= 2 * Rabs q /\ Rabs q <= 2 * Rabs d).
      { clear - Dd UD. apply Rabs_le_inv in Dd. unfold Rabs in *. destruct (Rcase_abs d), (Rcase_abs q); lra. }
      rewrite bpow_plus in T. change (bpow radix2 1) with 2 in T.
      replace hi with (hi - 1 + 1)%Z by (clear; lia). rewrite bpow_plus. change (bpow radix2 1) with 2. lra. }
  destruct (Hd _ (or_introl eq_refl)) as (X1 & X2). destruct (Hd _ (or_intror (or_introl eq_refl))) as (Y1 & Y2).
  destruct (Hd _ (or_intror (or_intror eq_refl))) as (Z1 & Z2).
  exact (norm_val prec emax Hp He fl lx Hprec Hl lo hi Hlo Hhi _ _ _ X1 Y1 Z1 X2 Y2 Z2).
Qed.

(** ** Binary64 *)

Lemma double_setup (fl : b64 -> Z) nx ny nz N (res : b64) :
  SdfDoubleSpec.floors fl -> is_finite res = true -> bpow radix2 (-300) <= B2R res <= bpow radix2 300 ->
  (1 <= N)%Z -> (N * (N + 128) <= 2 ^ 53)%Z -> (nx <= N)%Z -> (ny <= N)%Z -> (nz <= N)%Z ->
  setup (double_ray fl) is_finite B2R (bpow radix2 (-53)) (bpow radix2 (-1074)) (bpow radix2 1022) (bpow radix2 62)
    (bpow radix2 50) (bpow radix2 (-91)) (double_grid fl nx ny nz res) N.
Proof.
  intros Hfl Fr Hr HN Hs Nx Ny Nz.
  assert (Np : IZR N <= bpow radix2 50).
  { change (bpow radix2 50) with (IZR (2 ^ 50)). apply IZR_le. clear - HN Hs. nia. }
  assert (N1 : 1 <= IZR N) by (apply IZR_le; exact HN).
  assert (Rp : 0 < B2R res) by (pose proof (bpow_gt_0 radix2 (-300)); lra).
  pose proof (rounded_float 53 1024 prec53 emax1024 fl 62 ltac:(clear; lia) ltac:(clear; lia)) as RR.
  specialize (RR ltac:(intros a Fa Ba; apply Hfl; [exact Fa|]; eapply Rle_lt_trans; [exact Ba|apply bpow_lt; clear; lia])).
  change (3 - 1024 - 53)%Z with (-1074)%Z in RR. change (1024 - 2)%Z with 1022%Z in RR. change (- (53))%Z with (-53)%Z in RR.
  assert (B : forall a b c, (a + b <= c)%Z -> bpow radix2 a * bpow radix2 b <= bpow radix2 c)
    by (intros a b c Q; rewrite <- bpow_plus; now apply bpow_le).
  refine (conj RR (conj _ (conj _ (conj HN (conj (bpow_gt_0 _ _) (conj _ (conj _ (conj _ (conj _ _)))))))));
    cbn [double_grid rg_nx rg_ny rg_nz rg_voxel rg_inv].
  - split; [exact Fr|exact Rp].
  - destruct (SdfDoubleProofs.inv_val res (B2R res) (conj Fr eq_refl)) as (v & (Fv & Ev) & Dv).
    { split; [apply Rle_trans with (2 := proj1 Hr)|apply Rle_trans with (1 := proj2 Hr)]; apply bpow_le; clear; lia. }
    split; [exact Fv|]. change (b64_ofZ 1) with (SdfDoubleModel.b64_lit 1 0). rewrite Ev. unfold SdfDoubleProofs.u53 in Dv.
    pose proof (bpow_gt_0 radix2 (-53)). lra.
  - apply Rmult_le_reg_r with (bpow radix2 53); [apply bpow_gt_0|]. rewrite Rmult_assoc, <- bpow_plus. cbn [Z.add bpow].
    rewrite Rmult_1_r, Rmult_1_l. change (bpow radix2 53) with (IZR (2 ^ 53)). rewrite <- plus_IZR, <- mult_IZR. apply IZR_le. exact Hs.
  - split; [apply bpow_ge_0|]. split; [apply bpow_le; clear; lia|]. split; [|apply B; clear; lia].
    apply Rle_trans with (bpow radix2 (-53) * bpow radix2 (-300)); [rewrite <- bpow_plus; apply bpow_le; clear; lia|].
    apply Rmult_le_compat_l; [apply bpow_ge_0|apply Hr].
  - split; [change 1 with (bpow radix2 0); apply bpow_le; clear; lia|]. split; [|exact Np].
    change 16 with (bpow radix2 4). apply B. clear; lia.
  - split; [apply bpow_le; clear; lia|]. split; [|split; [|apply bpow_gt_0]].
    + apply Rle_trans with (bpow radix2 62 * bpow radix2 300); [apply Rmult_le_compat_l; [apply bpow_ge_0|apply Hr]|apply B; clear; lia].
    + rewrite <- bpow_plus. apply Rle_trans with (bpow radix2 3 * bpow radix2 50); [|apply B; clear; lia].
      change (bpow radix2 3) with 8. apply Rmult_le_compat_l; [lra|exact Np].
  - easy.
Qed.

Lemma marks_double (fl : b64 -> Z) nx ny nz N (res : b64) m range (o p : vec (double_ray fl)) bs :
  SdfDoubleSpec.floors fl -> is_finite res = true -> bpow radix2 (-300) <= B2R res <= bpow radix2 300 ->
  (1 <= N)%Z -> (N * (N + 128) <= 2 ^ 53)%Z -> (nx <= N)%Z -> (ny <= N)%Z -> (nz <= N)%Z ->
  good_ray (double_ray fl) is_finite B2R (bpow radix2 50 * B2R res) (bpow radix2 (-90) * B2R res) o p ->
  stands_for (double_ray fl) is_finite B2R m range ->
  let g := double_grid fl nx ny nz res in
  in_grid _ g (voxel_of _ g o) = true ->
  cast_point _ g m o (voxel_of _ g o) p = Some bs ->
  exists s whole,
    marks_segment (B2R res) (IZR N * (IZR N + 128) * bpow radix2 (-53) * B2R res) s whole nx ny nz
      (reals (double_ray fl) B2R o) (reals (double_ray fl) B2R p) bs /\
    cut_near (20 * bpow radix2 (-53) * dist (reals (double_ray fl) B2R o) (reals (double_ray fl) B2R p)) range
      (dist (reals (double_ray fl) B2R o) (reals (double_ray fl) B2R p)) s whole.
Proof.
  intros Hfl Fr Hr HN Hs Nx Ny Nz Hg Hm g Hi Hc.
  assert (ST := double_setup fl nx ny nz N res Hfl Fr Hr HN Hs Nx Ny Nz).
  refine (cast_marks (double_ray fl) is_finite B2R (bpow radix2 (-53)) (bpow radix2 (-1074)) (bpow radix2 1022) (bpow radix2 62)
    (bpow radix2 50) (bpow radix2 (-91)) g N m range o p bs ST _ Hm _ Hi Hc);
    cbn [g double_grid rg_nx rg_ny rg_nz rg_voxel rg_inv].
  - intros f Hf. replace (2 * bpow radix2 (-91)) with (bpow radix2 (-90)) by (change 2 with (bpow radix2 1); now rewrite <- bpow_plus).
    exact (Hg f Hf).
  - apply (ray_length 53 1024 prec53 emax1024 fl 62 (-511) 500); try (clear; lia).
    + intros a Fa Ba. apply Hfl; [exact Fa|]. eapply Rle_lt_trans; [exact Ba|]. apply bpow_lt. clear; lia.
    + intros f Hf. destruct (Hg f Hf) as (F1 & F2 & B1 & B2 & T). split; [exact F1|]. split; [exact F2|]. split.
      * assert (Q : bpow radix2 50 * B2R res <= bpow radix2 50 * bpow radix2 300)
          by (apply Rmult_le_compat_l; [apply bpow_ge_0|apply Hr]).
        apply Rle_trans with (2 * (bpow radix2 50 * bpow radix2 300)).
        { clear - Q B1 B2. apply Rabs_le_inv in B1, B2. apply Rabs_le. lra. }
        change 2 with (bpow radix2 1). rewrite <- !bpow_plus. apply bpow_le. clear; lia.
      * destruct T as [T|T]; [left; exact T|right]. eapply Rle_trans; [|exact T].
        apply Rle_trans with (bpow radix2 (-90) * bpow radix2 (-300)); [|apply Rmult_le_compat_l; [apply bpow_ge_0|apply Hr]].
        rewrite <- !bpow_plus. apply bpow_le; clear; lia.
Qed.

(** ** Binary32 *)

Lemma cast_val (p : b64) : is_finite p = true -> Rabs (B2R p) <= bpow radix2 127 ->
  is_finite (b32_of_b64 p) = true /\ B2R (b32_of_b64 p) = round radix2 (SpecFloat.fexp 24 128) ZnearestE (B2R p).
Proof.
  intros Fp Bp. destruct p as [s| | |s m e He]; try easy.
  { cbn. split; [reflexivity|]. symmetry. apply round_0. apply valid_rnd_N. }
  cbn [b32_of_b64]. generalize (binary_normalize_correct 24 128 _ _ mode_NE (if s then Z.neg m else Z.pos m) e s).
  cbv zeta. replace (F2R (Float radix2 (if s then Z.neg m else Z.pos m) e)) with (B2R (B754_finite s m e He)) by (destruct s; reflexivity).
  change (round_mode mode_NE) with ZnearestE.
  rewrite Rlt_bool_true; [tauto|]. eapply Rle_lt_trans; [|apply bpow_lt; instantiate (1 := 127%Z); clear; lia].
  apply abs_round_le_generic; [exact (fexp_correct 24 128 prec24)|apply valid_rnd_N| |exact Bp]. apply generic_format_bpow. cbn. clear; lia.
Qed.

Lemma cast_relative (p : b64) : is_finite p = true -> bpow radix2 (-100) <= Rabs (B2R p) <= bpow radix2 100 ->
  is_finite (b32_of_b64 p) = true /\ Rabs (B2R (b32_of_b64 p) - B2R p) <= bpow radix2 (-24) * Rabs (B2R p).
Proof.
  intros Fp Bp. destruct (cast_val p Fp) as (F & E).
  { eapply Rle_trans; [exact (proj2 Bp)|]. apply bpow_le; clear; lia. }
  split; [exact F|]. rewrite E.
  pose proof (relative_error_N_FLT radix2 (-149) 24 ltac:(clear; lia) (fun x => negb (Z.even x)) (B2R p)) as H.
  change (SpecFloat.fexp 24 128) with (FLT_exp (-149) 24). replace (bpow radix2 (-24)) with (/ 2 * bpow radix2 (- (24) + 1)).
  - apply H. eapply Rle_trans; [|exact (proj1 Bp)]. apply bpow_le; clear; lia.
  - change (/ 2) with (bpow radix2 (-1)). rewrite <- bpow_plus. reflexivity.
Qed.

(** Voxels of slightly different sizes. *)
Lemma marks_change v w e e' s whole nx ny nz N o p bs :
  (1 <= N)%Z -> 0 <= w -> 0 < e -> (nx <= N)%Z -> (ny <= N)%Z -> (nz <= N)%Z -> e + IZR N * Rabs (w - v) <= e' ->
  marks_segment v e s whole nx ny nz o p bs -> marks_segment w e' s whole nx ny nz o p bs.
Proof.
  intros HN Hw E0 Nx Ny Nz He (S1 & S2 & S3 & S4 & S5 & S6 & S7).
  assert (K : forall k, 0 <= IZR k <= IZR N -> Rabs (IZR k * w - IZR k * v) <= e' - e).
  { intros k Hk. replace (IZR k * w - IZR k * v) with (IZR k * (w - v)) by ring. rewrite Rabs_mult, (Rabs_pos_eq (IZR k)) by lra.
    apply Rle_trans with (IZR N * Rabs (w - v)); [apply Rmult_le_compat_r; [apply Rabs_pos|lra]|lra]. }
  assert (C : forall i, in_box nx ny nz i -> forall k, k = ix i \/ k = iy i \/ k = iz i ->
    Rabs (IZR k * w - IZR k * v) <= e' - e /\ Rabs ((IZR k + 1) * w - (IZR k + 1) * v) <= e' - e).
  { intros ((x, y), z) (X & Y & Z) k Hk.
    assert (Q : (0 <= k)%Z /\ (k + 1 <= N)%Z) by (cbn in Hk; destruct Hk as [ -> |[ -> | -> ]]; clear - X Y Z Nx Ny Nz; lia).
    split; [apply K; split; apply IZR_le; clear - Q; lia|]. rewrite <- plus_IZR. apply K. split; apply IZR_le; clear - Q; lia. }
  assert (Cn : forall i q, in_box nx ny nz i -> near_voxel v e i q -> near_voxel w e' i q).
  { intros i q Hi (X & Y & Z). destruct (C i Hi _ (or_introl eq_refl)) as (X1 & X2).
    destruct (C i Hi _ (or_intror (or_introl eq_refl))) as (Y1 & Y2). destruct (C i Hi _ (or_intror (or_intror eq_refl))) as (Z1 & Z2).
    apply Rabs_le_inv in X1, X2, Y1, Y2, Z1, Z2. split; [|split]; lra. }
  assert (Cd : forall i q, in_box nx ny nz i -> deep_in_voxel w e' i q -> deep_in_voxel v e i q).
  { intros i q Hi (X & Y & Z). destruct (C i Hi _ (or_introl eq_refl)) as (X1 & X2).
    destruct (C i Hi _ (or_intror (or_introl eq_refl))) as (Y1 & Y2). destruct (C i Hi _ (or_intror (or_intror eq_refl))) as (Z1 & Z2).
    apply Rabs_le_inv in X1, X2, Y1, Y2, Z1, Z2. split; [|split]; lra. }
  split; [exact S1|]. split; [exact S2|]. split; [|split; [|split; [|split]]].
  - intros i b H. destruct (S3 i b H) as (Hi & t & Ht & Hn). split; [exact Hi|]. exists t. split; [exact Ht|]. now apply Cn.
  - intros i H. destruct (S4 i H) as (W & Hn). split; [exact W|]. apply Cn; [exact (proj1 (S3 i true H))|exact Hn].
  - intros t i Ht Hi H. apply (S5 t i Ht Hi). now apply Cd.
  - intros i W Hi H. apply (S6 i W Hi). now apply Cd.
  - intros W (X & Y & Z). apply S7; [exact W|].
    assert (D0 : 0 <= IZR N * Rabs (w - v)) by (apply Rmult_le_pos; [apply IZR_le; clear - HN; lia|apply Rabs_pos]).
    assert (Q : forall k x, (k <= N)%Z -> e' <= x <= IZR k * w - e' -> e <= x <= IZR k * v - e).
    { intros k x Hk Hx. destruct (Z_le_gt_dec 0 k) as [Q|Q].
      - assert (B := K k ltac:(split; apply IZR_le; clear - Q Hk; lia)). apply Rabs_le_inv in B. lra.
      - assert (IZR k <= 0) by (apply IZR_le; clear - Q; lia). assert (IZR k * w <= 0 * w) by (apply Rmult_le_compat_r; lra). lra. }
    split; [|split]; apply Q; assumption.
Qed.

(** The inverse size and the size are cast separately. *)
Lemma inverse_cast u V w v j : 0 < u -> u <= / 1000000 -> 0 < V -> 0 < v -> Rabs (w - V) <= u * V ->
  Rabs (v * V - 1) <= u / 500 -> Rabs (j - v) <= u * v -> Rabs (j * w - 1) <= 4 * u.
Proof.
  intros U0 U1 Hv Hv' Dw Di Dj.
  replace (j * w - 1) with ((j - v) * w + v * (w - V) + (v * V - 1)) by ring.
  assert (P : v * V <= 1 + u / 500) by (apply Rabs_le_inv in Di; lra).
  assert (W : Rabs w <= (1 + u) * V) by (apply Rabs_le_inv in Dw; apply Rabs_le; lra).
  assert (X1 : Rabs ((j - v) * w) <= u * v * ((1 + u) * V)).
  { rewrite Rabs_mult. apply Rmult_le_compat; [apply Rabs_pos|apply Rabs_pos|exact Dj|exact W]. }
  assert (X2 : Rabs (v * (w - V)) <= v * (u * V)).
  { rewrite Rabs_mult, (Rabs_pos_eq v) by lra. apply Rmult_le_compat_l; [lra|exact Dw]. }
  assert (Q : u * (v * V) <= u * (1 + u / 500)) by (apply Rmult_le_compat_l; lra).
  assert (Q2 : u * (u * (v * V)) <= / 1000000 * (u * (1 + u / 500))).
  { apply Rmult_le_compat; try lra. apply Rmult_le_pos; [lra|]. apply Rmult_le_pos; lra. }
  assert (Q3 : u * u <= / 1000000 * u) by (apply Rmult_le_compat_r; lra).
  apply Rabs_le_inv in X1, X2, Di. apply Rabs_le. lra.
Qed.

Lemma wider u V w n : 0 < u <= / 1000000 -> 0 < V -> 1 <= n -> n * (n + 128) * u <= 1 -> Rabs (w - V) <= u * V ->
  n * (n + 128) * u * w + n * Rabs (V - w) <= n * (n + 130) * u * V.
Proof.
  intros U Hv Hn Hs Dw. rewrite (Rabs_minus_sym V w).
  assert (X1 : n * (n + 128) * u * w <= n * (n + 128) * u * (V + u * V)).
  { apply Rmult_le_compat_l; [|apply Rabs_le_inv in Dw; lra]. apply Rmult_le_pos; [|lra]. apply Rmult_le_pos; lra. }
  assert (X2 : n * Rabs (w - V) <= n * (u * V)) by (apply Rmult_le_compat_l; lra).
  assert (UV : 0 <= u * V) by (apply Rmult_le_pos; lra).
  assert (X3 : n * (n + 128) * u * (u * V) <= 1 * (u * V)) by (apply Rmult_le_compat_r; lra).
  assert (X4 : 1 * (u * V) <= n * (u * V)) by (apply Rmult_le_compat_r; lra).
  lra.
Qed.

Definition floors32 (fl : b32 -> Z) : Prop :=
  forall x : b32, is_finite x = true -> Rabs (B2R x) < bpow radix2 31 -> fl x = Zfloor (B2R x).

Lemma float_setup (fl : b32 -> Z) nx ny nz N (res : b64) : floors32 fl ->
  is_finite res = true -> bpow radix2 (-30) <= B2R res <= bpow radix2 30 ->
  (1 <= N)%Z -> (N * (N + 128) <= 2 ^ 24)%Z -> (nx <= N)%Z -> (ny <= N)%Z -> (nz <= N)%Z ->
  setup (float32_ray fl) is_finite B2R (bpow radix2 (-24)) (bpow radix2 (-149)) (bpow radix2 126) (bpow radix2 30)
    (bpow radix2 21) (bpow radix2 (-42)) (float32_grid fl nx ny nz res) N /\
  Rabs (B2R (b32_of_b64 res) - B2R res) <= bpow radix2 (-24) * B2R res.
Proof.
  intros Hfl Fr Hr HN Hs Nx Ny Nz.
  assert (Np : IZR N <= bpow radix2 20).
  { change (bpow radix2 20) with (IZR (2 ^ 20)). apply IZR_le. clear - HN Hs. nia. }
  assert (N1 : 1 <= IZR N) by (apply IZR_le; exact HN).
  assert (Rp : 0 < B2R res) by (pose proof (bpow_gt_0 radix2 (-30)); lra).
  assert (Hfl' : forall a : binary_float 24 128, is_finite a = true -> Rabs (B2R a) <= bpow radix2 30 -> fl a = Zfloor (B2R a)).
  { intros a Fa Ba. apply Hfl; [exact Fa|]. eapply Rle_lt_trans; [exact Ba|apply bpow_lt; clear; lia]. }
  pose proof (rounded_float 24 128 prec24 emax128 fl 30 ltac:(clear; lia) ltac:(clear; lia) Hfl') as RR.
  change (3 - 128 - 24)%Z with (-149)%Z in RR. change (128 - 2)%Z with 126%Z in RR. change (- (24))%Z with (-24)%Z in RR.
  assert (B : forall a b c, (a + b <= c)%Z -> bpow radix2 a * bpow radix2 b <= bpow radix2 c)
    by (intros a b c Q; rewrite <- bpow_plus; now apply bpow_le).
  assert (Hu : 0 < bpow radix2 (-24) <= / 1000000).
  { split; [apply bpow_gt_0|]. cbn. lra. }
  assert (Hr' : bpow radix2 (-100) <= Rabs (B2R res) <= bpow radix2 100).
  { rewrite Rabs_pos_eq by lra. split; [eapply Rle_trans; [|exact (proj1 Hr)]|eapply Rle_trans; [exact (proj2 Hr)|]]; apply bpow_le; clear; lia. }
  destruct (cast_relative res Fr Hr') as (Fv & Dv). rewrite (Rabs_pos_eq (B2R res)) in Dv by lra.
  assert (Hs' : IZR N * (IZR N + 128) * bpow radix2 (-24) <= 1).
  { apply Rmult_le_reg_r with (bpow radix2 24); [apply bpow_gt_0|]. rewrite Rmult_assoc, <- bpow_plus. cbn [Z.add bpow].
    rewrite Rmult_1_r, Rmult_1_l. change (bpow radix2 24) with (IZR (2 ^ 24)). rewrite <- plus_IZR, <- mult_IZR. apply IZR_le. exact Hs. }
  destruct (SdfDoubleProofs.inv_val res (B2R res) (conj Fr eq_refl)) as (v & (Fi & Ei) & Di).
  { split; [apply Rle_trans with (2 := proj1 Hr)|apply Rle_trans with (1 := proj2 Hr)]; apply bpow_le; clear; lia. }
  assert (Hu53 : SdfDoubleProofs.u53 <= bpow radix2 (-24) / 1000).
  { unfold SdfDoubleProofs.u53. apply Rle_trans with (bpow radix2 (-24) * bpow radix2 (-10)); [rewrite <- bpow_plus; apply bpow_le; clear; lia|].
    unfold Rdiv. apply Rmult_le_compat_l; [lra|]. cbn. lra. }
  assert (Hu53p : 0 < SdfDoubleProofs.u53) by apply bpow_gt_0.
  assert (Vi : / 2 <= v * B2R res <= 2) by (apply Rabs_le_inv in Di; lra).
  assert (Vp : 0 < v).
  { apply Rmult_lt_reg_r with (B2R res); [exact Rp|]. lra. }
  assert (Vb : bpow radix2 (-100) <= Rabs v <= bpow radix2 100).
  { rewrite Rabs_pos_eq by lra. split; apply Rmult_le_reg_r with (B2R res); try exact Rp.
    - apply Rle_trans with (bpow radix2 (-100) * bpow radix2 30); [apply Rmult_le_compat_l; [apply bpow_ge_0|apply Hr]|].
      eapply Rle_trans; [apply B; instantiate (1 := (-1)%Z); clear; lia|]. cbn. lra.
    - apply Rle_trans with (bpow radix2 1); [cbn; lra|]. apply Rle_trans with (bpow radix2 100 * bpow radix2 (-30)).
      + rewrite <- bpow_plus. apply bpow_le; clear; lia.
      + apply Rmult_le_compat_l; [apply bpow_ge_0|apply Hr]. }
  destruct (cast_relative (b64_div (b64_ofZ 1) res) Fi) as (Fj & Dj).
  { change (b64_ofZ 1) with (SdfDoubleModel.b64_lit 1 0). rewrite Ei. exact Vb. }
  change (B2R (b64_div (b64_ofZ 1) res)) with (B2R (b64_div (SdfDoubleModel.b64_lit 1 0) res)) in Dj. rewrite Ei, (Rabs_pos_eq v) in Dj by lra.
  set (V := B2R res) in *. set (w := B2R (b32_of_b64 res)) in *. set (j := B2R (b32_of_b64 (b64_div (b64_ofZ 1) res))) in *.
  set (u := bpow radix2 (-24)) in *.
  assert (Dv' := Dv). apply Rabs_le_inv in Dv'.
  assert (UV : u * V <= V / 1000000) by (replace (V / 1000000) with (/ 1000000 * V) by field; apply Rmult_le_compat_r; lra).
  assert (Wp : 0 < w) by lra.
  split; [|exact Dv].
  refine (conj RR (conj _ (conj _ (conj HN (conj (proj1 Hu) (conj Hs' (conj _ (conj _ (conj _ _)))))))));
    cbn [float32_grid rg_nx rg_ny rg_nz rg_voxel rg_inv]; fold w; fold j.
  - split; [exact Fv|exact Wp].
  - split; [exact Fj|]. apply (inverse_cast u V w v j); try assumption; lra.
  - split; [apply bpow_ge_0|]. split; [apply bpow_le; clear; lia|]. split; [|apply B; clear; lia].
    apply Rle_trans with (u * bpow radix2 (-31)); [unfold u; rewrite <- bpow_plus; apply bpow_le; clear; lia|].
    apply Rmult_le_compat_l; [lra|]. apply Rle_trans with (/ 2 * bpow radix2 (-30)); [|lra].
    change (/ 2) with (bpow radix2 (-1)). rewrite <- bpow_plus. apply Rle_refl.
  - split; [change 1 with (bpow radix2 0); apply bpow_le; clear; lia|]. split.
    + change 16 with (bpow radix2 4). apply B. clear; lia.
    + eapply Rle_trans; [exact Np|]. apply bpow_le; clear; lia.
  - split; [apply bpow_le; clear; lia|]. split; [|split; [|apply bpow_gt_0]].
    + apply Rle_trans with (bpow radix2 30 * bpow radix2 31); [|apply B; clear; lia].
      apply Rmult_le_compat_l; [apply bpow_ge_0|]. apply Rle_trans with (2 * bpow radix2 30); [lra|].
      change 2 with (bpow radix2 1). apply B. clear; lia.
    + rewrite <- bpow_plus. apply Rle_trans with (bpow radix2 3 * bpow radix2 20); [|apply B; clear; lia].
      change (bpow radix2 3) with 8. apply Rmult_le_compat_l; [lra|exact Np].
  - easy.
Qed.

Lemma marks_float_gen (fl : b32 -> Z) nx ny nz N (res : b64) x m range (o p : vec (float32_ray fl)) bs :
  floors32 fl -> bpow radix2 (-40) * B2R res <= x -> bpow radix2 (-62) <= x ->
  is_finite res = true -> bpow radix2 (-30) <= B2R res <= bpow radix2 30 ->
  (1 <= N)%Z -> (N * (N + 128) <= 2 ^ 24)%Z -> (nx <= N)%Z -> (ny <= N)%Z -> (nz <= N)%Z ->
  good_ray (float32_ray fl) is_finite B2R (bpow radix2 20 * B2R res) x o p ->
  stands_for (float32_ray fl) is_finite B2R m range ->
  let g := float32_grid fl nx ny nz res in
  in_grid _ g (voxel_of _ g o) = true ->
  cast_point _ g m o (voxel_of _ g o) p = Some bs ->
  exists s whole,
    marks_segment (B2R res) (IZR N * (IZR N + 130) * bpow radix2 (-24) * B2R res) s whole nx ny nz
      (reals (float32_ray fl) B2R o) (reals (float32_ray fl) B2R p) bs /\
    cut_near (20 * bpow radix2 (-24) * dist (reals (float32_ray fl) B2R o) (reals (float32_ray fl) B2R p)) range
      (dist (reals (float32_ray fl) B2R o) (reals (float32_ray fl) B2R p)) s whole.
Proof.
  intros Hfl Hx1 Hx2 Fr Hr HN Hs Nx Ny Nz Hg Hm g Hi Hc.
  destruct (float_setup fl nx ny nz N res Hfl Fr Hr HN Hs Nx Ny Nz) as (ST & Dv).
  assert (Hs' := proj1 (proj2 (proj2 (proj2 (proj2 (proj2 ST)))))).
  assert (N1 : 1 <= IZR N) by (apply IZR_le; exact HN).
  assert (Rp : 0 < B2R res) by (pose proof (bpow_gt_0 radix2 (-30)); lra).
  assert (Hfl' : forall a : binary_float 24 128, is_finite a = true -> Rabs (B2R a) <= bpow radix2 30 -> fl a = Zfloor (B2R a)).
  { intros a Fa Ba. apply Hfl; [exact Fa|]. eapply Rle_lt_trans; [exact Ba|apply bpow_lt; clear; lia]. }
  assert (Hu : 0 < bpow radix2 (-24) <= / 1000000).
  { split; [apply bpow_gt_0|]. cbn. lra. }
  set (V := B2R res) in *. set (w := B2R (b32_of_b64 res)) in *. set (u := bpow radix2 (-24)) in *.
  assert (Dv' := Dv). apply Rabs_le_inv in Dv'.
  assert (UV : u * V <= V / 1000000) by (replace (V / 1000000) with (/ 1000000 * V) by field; apply Rmult_le_compat_r; lra).
  assert (Wp : 0 < w) by lra.
  assert (Hmarks : exists s whole,
    marks_segment w (IZR N * (IZR N + 128) * u * w) s whole nx ny nz (reals (float32_ray fl) B2R o) (reals (float32_ray fl) B2R p) bs /\
    cut_near (20 * u * dist (reals (float32_ray fl) B2R o) (reals (float32_ray fl) B2R p)) range
      (dist (reals (float32_ray fl) B2R o) (reals (float32_ray fl) B2R p)) s whole).
  { refine (cast_marks (float32_ray fl) is_finite B2R u (bpow radix2 (-149)) (bpow radix2 126) (bpow radix2 30)
      (bpow radix2 21) (bpow radix2 (-42)) g N m range o p bs ST _ Hm _ Hi Hc);
      cbn [g float32_grid rg_nx rg_ny rg_nz rg_voxel rg_inv]; fold w.
    - intros f Hf. destruct (Hg f Hf) as (F1 & F2 & B1 & B2 & T).
      assert (Q : bpow radix2 20 * V <= bpow radix2 21 * w).
      { change (bpow radix2 21) with (bpow radix2 (20 + 1)). rewrite bpow_plus, Rmult_assoc.
        apply Rmult_le_compat_l; [apply bpow_ge_0|]. change (bpow radix2 1) with 2. lra. }
      split; [exact F1|]. split; [exact F2|]. split; [eapply Rle_trans; [exact B1|exact Q]|]. split; [eapply Rle_trans; [exact B2|exact Q]|].
      destruct T as [T|T]; [left; exact T|right]. eapply Rle_trans; [|exact T].
      eapply Rle_trans; [|exact Hx1].
      change (-42)%Z with (-40 + -2)%Z. rewrite bpow_plus. change (bpow radix2 (-2)) with (/ 4).
      replace (2 * (bpow radix2 (-40) * / 4) * w) with (bpow radix2 (-40) * (w / 2)) by field.
      apply Rmult_le_compat_l; [apply bpow_ge_0|]. lra.
    - apply (ray_length 24 128 prec24 emax128 fl 30 (-63) 61); try (clear; lia); [exact Hfl'|].
      intros f Hf. destruct (Hg f Hf) as (F1 & F2 & B1 & B2 & T). split; [exact F1|]. split; [exact F2|]. split.
      * assert (Q : bpow radix2 20 * V <= bpow radix2 20 * bpow radix2 30)
          by (apply Rmult_le_compat_l; [apply bpow_ge_0|apply Hr]).
        apply Rle_trans with (2 * (bpow radix2 20 * bpow radix2 30)).
        { clear - Q B1 B2. apply Rabs_le_inv in B1, B2. apply Rabs_le. lra. }
        change 2 with (bpow radix2 1). rewrite <- !bpow_plus. apply bpow_le. clear; lia.
      * destruct T as [T|T]; [left; exact T|right]. eapply Rle_trans; [|exact T].
        exact Hx2. }
  destruct Hmarks as (s & whole & S & C). exists s, whole. split; [|exact C].
  refine (marks_change w V _ _ s whole nx ny nz N _ _ bs HN (Rlt_le _ _ Rp) _ Nx Ny Nz _ S).
  { apply Rmult_lt_0_compat; [|exact Wp]. apply Rmult_lt_0_compat; [|apply Hu]. apply Rmult_lt_0_compat; lra. }
  apply (wider u V w (IZR N)); assumption.
Qed.

Lemma marks_float (fl : b32 -> Z) nx ny nz N (res : b64) m range (o p : vec (float32_ray fl)) bs :
  (forall x : b32, is_finite x = true -> Rabs (B2R x) < bpow radix2 31 -> fl x = Zfloor (B2R x)) ->
  is_finite res = true -> bpow radix2 (-30) <= B2R res <= bpow radix2 30 ->
  (1 <= N)%Z -> (N * (N + 128) <= 2 ^ 24)%Z -> (nx <= N)%Z -> (ny <= N)%Z -> (nz <= N)%Z ->
  good_ray (float32_ray fl) is_finite B2R (bpow radix2 20 * B2R res) (bpow radix2 (-30) * B2R res) o p ->
  stands_for (float32_ray fl) is_finite B2R m range ->
  let g := float32_grid fl nx ny nz res in
  in_grid _ g (voxel_of _ g o) = true ->
  cast_point _ g m o (voxel_of _ g o) p = Some bs ->
  exists s whole,
    marks_segment (B2R res) (IZR N * (IZR N + 130) * bpow radix2 (-24) * B2R res) s whole nx ny nz
      (reals (float32_ray fl) B2R o) (reals (float32_ray fl) B2R p) bs /\
    cut_near (20 * bpow radix2 (-24) * dist (reals (float32_ray fl) B2R o) (reals (float32_ray fl) B2R p)) range
      (dist (reals (float32_ray fl) B2R o) (reals (float32_ray fl) B2R p)) s whole.
Proof.
  intros Hfl Fr Hr HN Hs Nx Ny Nz Hg Hm g Hi Hc.
  apply (marks_float_gen fl nx ny nz N res (bpow radix2 (-30) * B2R res) m range o p bs); try assumption.
  - apply Rmult_le_compat_r; [|apply bpow_le; clear; lia]. eapply Rle_trans; [apply bpow_ge_0|apply Hr].
  - apply Rle_trans with (bpow radix2 (-30) * bpow radix2 (-30)); [rewrite <- bpow_plus; apply bpow_le; clear; lia|].
    apply Rmult_le_compat_l; [apply bpow_ge_0|apply Hr].
Qed.

(** ** Clouds *)

Lemma zlen_filter_pos {X} (f : X -> bool) l : (0 < zlen (filter f l))%Z <-> exists x, In x l /\ f x = true.
Proof.
  split.
  - intros H. destruct (filter f l) as [|x t] eqn:E; [unfold zlen in H; cbn in H; lia|]. exists x.
    apply filter_In. rewrite E. now left.
  - intros (x & H). apply filter_In in H. destruct (filter f l) as [|y t]; [easy|]. unfold zlen. cbn [length]. lia.
Qed.

Lemma counting_pos A (g : ray_grid A) c b :
  (0 < points_counting A g c b)%Z <->
  exists p bs, In p (filter (vfinite A) (c_points A c)) /\
    cast_point A g (c_max_range A c) (c_origin A c) (voxel_of A g (c_origin A c)) (c_to_grid A c p) = Some bs /\ In b bs.
Proof.
  rewrite points_counting_list, zlen_filter_pos. split.
  - intros (p & Hp & H). apply andb_true_iff in H. destruct H as (F & H).
    destruct (cast_point _ _ _ _ _ _) as [bs|] eqn:E; [|easy]. exists p, bs. split; [now apply filter_In|]. split; [exact E|].
    apply existsb_exists in H. destruct H as (b' & Hb & Eb). apply bump_eqb_eq in Eb. now subst.
  - intros (p & bs & Hp & E & H). apply filter_In in Hp. exists p. split; [apply Hp|]. rewrite (proj2 Hp), E. cbn [andb].
    apply existsb_exists. exists b. split; [exact H|]. now apply bump_eqb_eq.
Qed.

Lemma counting_bounds A (g : ray_grid A) c b : (0 <= points_counting A g c b <= zlen (c_points A c))%Z.
Proof.
  rewrite points_counting_list. generalize (fun p => vfinite A p &&
    match cast_point A g (c_max_range A c) (c_origin A c) (voxel_of A g (c_origin A c)) (c_to_grid A c p)
    with Some w => existsb (bump_eqb b) w | None => false end).
  intros h. induction (c_points A c) as [|p l IH]; unfold zlen in *; cbn [filter length]; [lia|].
  destruct (h p); cbn [length]; lia.
Qed.

Lemma dist_zero a b : dist a b = 0 -> a = b.
Proof.
  destruct a as ((a1, a2), a3), b as ((b1, b2), b3). unfold dist. cbn [px py pz fst snd]. intros H.
  set (x := b1 - a1) in *. set (y := b2 - a2) in *. set (z := b3 - a3) in *.
  pose proof (Rle_0_sqr x) as X. pose proof (Rle_0_sqr y) as Y. pose proof (Rle_0_sqr z) as Z. unfold Rsqr in *.
  apply sqrt_eq_0 in H; [|lra].
  assert (x = 0) by (apply Rsqr_0_uniq; unfold Rsqr; lra). assert (y = 0) by (apply Rsqr_0_uniq; unfold Rsqr; lra).
  assert (z = 0) by (apply Rsqr_0_uniq; unfold Rsqr; lra). unfold x, y, z in *.
  f_equal; [f_equal|]; lra.
Qed.

Lemma cloud_counts A val (g : ray_grid A) v e w range c t t' :
  tracking_for g t -> (forall i f s, gget t i = Some (f, s) -> f = 0%Z /\ s = 0%Z) -> (zlen (c_points A c) < 2 ^ 31)%Z -> 0 <= w ->
  (forall p bs, In p (filter (vfinite A) (c_points A c)) ->
   cast_point A g (c_max_range A c) (c_origin A c) (voxel_of A g (c_origin A c)) (c_to_grid A c p) = Some bs ->
   let o := reals A val (c_origin A c) in
   let q := reals A val (c_to_grid A c p) in
   exists s whole, marks_segment v e s whole (rg_nx A g) (rg_ny A g) (rg_nz A g) o q bs /\ cut_near (w * dist o q) range (dist o q) s whole) ->
  raycast_cloud A g c t t' ->
  counts_segments v e w range (reals A val (c_origin A c))
    (map (fun p => reals A val (c_to_grid A c p)) (filter (vfinite A) (c_points A c))) (gget t').
Proof.
  intros Ht Hz Hn Hw Hp Hr i f s Hi.
  destruct (raycast_cloud_result A g c t t' Ht Hr) as (Ht' & Hv).
  assert (Hbox : in_box (rg_nx A g) (rg_ny A g) (rg_nz A g) i).
  { apply in_grid_box. rewrite (tracking_in_bounds g t' i Ht'). eapply gget_in_bounds; eauto. }
  assert (E : f = points_counting A g c (i, false) /\ s = points_counting A g c (i, true)).
  { destruct (gget t i) as [(f0, s0)|] eqn:E0.
    - destruct (Hz i f0 s0 E0) as (-> & ->). rewrite (Hv i 0%Z 0%Z E0), !Z.add_0_l in Hi. injection Hi as <- <-.
      rewrite !wrap32_id; [easy| |].
      + pose proof (counting_bounds A g c (i, true)). lia.
      + pose proof (counting_bounds A g c (i, false)). lia.
    - exfalso. destruct Ht as (Hwf & Ht). destruct (gget_some t i Hwf) as (x & Ex); [|congruence].
      rewrite <- (tracking_in_bounds g t i (conj Hwf Ht)). now apply in_grid_box. }
  destruct E as (-> & ->). set (o := reals A val (c_origin A c)) in *.
  assert (Hd : forall q, 0 <= dist o q) by (intros q; apply sqrt_pos).
  split; [split; apply counting_bounds|]. split; [|split; [|split]].
  - intros H. apply counting_pos in H. destruct H as (p & bs & Hin & Ec & Hb).
    destruct (Hp p bs Hin Ec) as (k & whole & M & C). destruct M as (K & _ & S & _).
    destruct (S i false Hb) as (_ & t0 & T & Nr). exists (reals A val (c_to_grid A c p)), t0.
    split; [apply in_map_iff; now exists p|]. split; [lra|]. split; [|exact Nr].
    fold o in C. set (d := dist o (reals A val (c_to_grid A c p))) in *. assert (D := Hd (reals A val (c_to_grid A c p))). fold d in D.
    destruct range as [m|]; cbn [up_to cut_near] in *; [|easy]. destruct C as (C & _). apply Rabs_le_inv in C.
    assert (t0 * d <= k * d) by (apply Rmult_le_compat_r; lra). pose proof (Rmin_r d m). lra.
  - intros H. apply counting_pos in H. destruct H as (p & bs & Hin & Ec & Hb).
    destruct (Hp p bs Hin Ec) as (k & whole & M & C). destruct M as (K & _ & _ & S & _).
    destruct (S i Hb) as (W & Nr). exists (reals A val (c_to_grid A c p)).
    split; [apply in_map_iff; now exists p|]. split; [|exact Nr].
    destruct range as [m|]; cbn [up_to cut_near] in *; [|easy]. destruct C as (_ & _ & C). subst whole.
    fold o in C. set (d := dist o (reals A val (c_to_grid A c p))) in *. apply Rnot_lt_le. intros L.
    assert (true = false) by (apply C; lra). easy.
  - intros q t0 Hq T U D. apply in_map_iff in Hq. destruct Hq as (p & <- & Hin).
    destruct (cast_point_some A g (c_max_range A c) (c_origin A c) (voxel_of A g (c_origin A c)) (c_to_grid A c p)) as (bs & Ec & _).
    destruct (Hp p bs Hin Ec) as (k & whole & M & C). destruct M as (K & W & _ & _ & S & _). fold o in S, C.
    set (q := reals A val (c_to_grid A c p)) in *.
    assert (Hk : exists t1, 0 <= t1 <= k /\ deep_in_voxel v e i (along o q t1)).
    { destruct (Req_dec (dist o q) 0) as [Z|Z].
      - apply dist_zero in Z. exists 0. split; [lra|]. rewrite <- Z in *. revert D.
        unfold along. now replace (px o + t0 * (px o - px o)) with (px o + 0 * (px o - px o)) by ring;
          replace (py o + t0 * (py o - py o)) with (py o + 0 * (py o - py o)) by ring;
          replace (pz o + t0 * (pz o - pz o)) with (pz o + 0 * (pz o - pz o)) by ring.
      - exists t0. split; [|exact D]. split; [lra|]. specialize (Hd q). set (d := dist o q) in *.
        destruct range as [m|]; cbn [up_to cut_near] in *; [|destruct C; lra].
        destruct C as (C1 & C2 & _). destruct (Rle_lt_dec (d + w * d) m) as [L|L]; [rewrite (W (C2 L)); lra|].
        apply Rmult_le_reg_r with d; [lra|]. apply Rabs_le_inv in C1.
        assert (m - w * d <= Rmin d m) by (apply Rmin_glb; [lra|]; assert (0 <= w * d) by (apply Rmult_le_pos; lra); lra). lra. }
    destruct Hk as (t1 & T1 & D1). destruct (S t1 i T1 Hbox D1) as (b & Hb).
    destruct b; [right|left]; apply counting_pos; exists p, bs; easy.
  - intros q Hq U D. apply in_map_iff in Hq. destruct Hq as (p & <- & Hin).
    destruct (cast_point_some A g (c_max_range A c) (c_origin A c) (voxel_of A g (c_origin A c)) (c_to_grid A c p)) as (bs & Ec & _).
    destruct (Hp p bs Hin Ec) as (k & whole & M & C). destruct M as (_ & _ & _ & _ & _ & S). fold o in S, C.
    apply counting_pos. exists p, bs. split; [exact Hin|]. split; [exact Ec|]. apply S; [|exact Hbox|exact D].
    destruct range as [m|]; cbn [up_to cut_near] in *; [|apply C]. destruct C as (_ & C & _). now apply C.
Qed.
