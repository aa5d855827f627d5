(** Property theorems C80 and C81, and C08 for stored values: signed distance fields
    of float, and the accuracy of stored distances. *)
From Coq Require Import ZArith Reals List Lia Lra Bool.
From Flocq Require Import Core BinarySingleNaN.
From Verif Require Import Util Grid FloatModel EdtSpec EdtFloat SdfModel SdfSpec SdfProofs SdfLaws SdfFloatSpec
  SdfFloatProofs FilterModel FilterFloatProofs SdfSingleModel SdfSingleProofs.
Local Open Scope Z_scope.

(** C80: a field of float holds the distances of the field of double, rounded once.
    Missing: resolutions of 2^-150 and less, see [c80_tiny_refuted]. *)
Theorem c80_float_values_partial (res : b64) (oob : b32) nx ny nz (filled : idx -> bool) (border : bool) :
  is_finite res = true -> (bpow radix2 (-150) < B2R res)%R ->
  0 < nx <= B25 - 2 -> 0 < ny <= B25 - 2 -> 0 < nz <= B25 - 2 ->
  exists g, sdf_binary32 res oob true border nx ny nz filled = Some g /\ gwf g /\
    g_nx g = nx /\ g_ny g = ny /\ g_nz g = nz /\
    is_sdf32 (B2R res) nx ny nz filled (extra border nx ny nz) (gget g).
Proof.
  intros F P. apply sdf_binary32_ok; [exact F| |exact P]. pose proof (bpow_gt_0 radix2 (-150)). lra.
Qed.
Print Assumptions c80_float_values_partial.

Theorem c80_rounded_double_partial (res : b64) (oob : b32) (oob' : b64) nx ny nz (filled : idx -> bool)
    (border : bool) g g' i :
  is_finite res = true -> (bpow radix2 (-150) < B2R res)%R ->
  0 < nx <= B25 - 2 -> 0 < ny <= B25 - 2 -> 0 < nz <= B25 - 2 ->
  sdf_binary32 res oob true border nx ny nz filled = Some g ->
  sdf_binary64 res oob' true border nx ny nz filled = Some g' ->
  in_box nx ny nz i -> gget g i = option_map b32_of_b64 (gget g' i).
Proof. apply single_is_narrowed_double. Qed.
Print Assumptions c80_rounded_double_partial.

(** The sign of a value tells filled cells from free ones. *)
Theorem c80_sign_partial (res : b64) (oob : b32) nx ny nz (filled : idx -> bool) (border : bool) g i v :
  is_finite res = true -> (bpow radix2 (-150) < B2R res)%R ->
  0 < nx <= B25 - 2 -> 0 < ny <= B25 - 2 -> 0 < nz <= B25 - 2 ->
  sdf_binary32 res oob true border nx ny nz filled = Some g -> in_box nx ny nz i -> gget g i = Some v ->
  if filled i then Bltb v (B754_zero false) = true else Bltb (B754_zero false) v = true.
Proof. apply single_sign. Qed.
Print Assumptions c80_sign_partial.

(* 2^-200 *)
Definition res_tiny : b64 := @B754_finite 53 1024 false 4503599627370496 (-252) eq_refl.
Lemma res_tiny_value : B2R res_tiny = bpow radix2 (-200).
Proof.
  unfold res_tiny, B2R, F2R. cbn [Fnum Fexp SpecFloat.cond_Zopp].
  replace (IZR 4503599627370496) with (bpow radix2 52) by (cbn; lra). now rewrite <- bpow_plus.
Qed.

(** C80 is false of voxels smaller than floats can hold: a filled cell and a free one
    get equal values. *)
Theorem c80_tiny_refuted :
  exists (res : b64) oob nx ny nz filled g i j u v, is_finite res = true /\ (0 < B2R res)%R /\
    sdf_binary32 res oob true false nx ny nz filled = Some g /\
    gget g i = Some u /\ gget g j = Some v /\ filled i = true /\ filled j = false /\ Beqb u v = true.
Proof.
  set (filled := fun i : idx => iz i =? 0).
  assert (F : is_finite res_tiny = true) by reflexivity.
  assert (P : (0 < B2R res_tiny)%R) by (rewrite res_tiny_value; apply bpow_gt_0).
  destruct (sdf_binary32_plain res_tiny F P (B754_zero false) 1 1 2 filled)
    as (g & E & _ & _ & _ & _ & G); [unfold B25; lia..|].
  assert (M : metric64 (B2R res_tiny) 1 = bpow radix2 (-200)).
  { unfold metric64, round64. rewrite sqrt_1, res_tiny_value.
    rewrite (round_generic radix2 (SpecFloat.fexp 53 1024) ZnearestE 1);
      [|apply (fmt_Z 1); unfold P53; lia].
    rewrite Rmult_1_l, <- res_tiny_value. apply round_generic; [apply valid_rnd_N|apply generic_format_B2R]. }
  assert (Z0 : round32 (metric64 (B2R res_tiny) 1) = 0%R).
  { rewrite M. apply (round_N_small_pos radix2 (SpecFloat.fexp 24 128) _ _ (-199)); [|reflexivity].
    split; [apply Rle_refl|apply bpow_lt; lia]. }
  assert (V : forall i, in_box 1 1 2 i -> exists v, gget g i = Some v /\ is_finite v = true /\ B2R v = 0%R).
  { intros i Hi. destruct (G i Hi) as (v & Gv & m & Hm & Hv). exists v. split; [exact Gv|].
    assert (N : is_nearest (fun j => opposite 1 1 2 filled i j \/ extra false 1 1 2 j) i (Some 1)).
    { destruct i as [[x y] z]. unfold in_box in Hi. split.
      - exists (0, 0, 1 - z). split.
        + left. split; [unfold in_box; lia|]. unfold filled. cbn [iz snd].
          destruct (Z.eqb_spec (1 - z) 0), (Z.eqb_spec z 0); congruence || lia.
        + unfold sqdist. assert (H : z = 0 \/ z = 1) by lia. replace x with 0 by lia. replace y with 0 by lia.
          destruct H; subst z; reflexivity.
      - intros j [(Bj & Oj)|[X _]]; [|discriminate]. pose proof (sqdist_nonneg (x, y, z) j) as Q.
        destruct (Z.eq_dec (sqdist (x, y, z) j) 0) as [C|C]; [|lia]. apply sqdist_zero in C. now subst j. }
    rewrite (is_nearest_unique _ _ _ _ Hm N) in Hv. rewrite Z0 in Hv.
    destruct (Rlt_dec _ _) as [L|L]; [|exfalso; apply L, bpow_gt_0].
    destruct Hv as (Fv & Ev). split; [exact Fv|]. rewrite Ev. destruct (filled i); [apply Ropp_0|reflexivity]. }
  destruct (V (0, 0, 0) ltac:(unfold in_box; lia)) as (u & Gu & Fu & Eu).
  destruct (V (0, 0, 1) ltac:(unfold in_box; lia)) as (v & Gv & Fv & Ev).
  exists res_tiny, (B754_zero false), 1, 1, 2, filled, g, (0, 0, 0), (0, 0, 1), u, v.
  do 7 (split; [assumption || reflexivity|]).
  rewrite Beqb_correct by assumption. rewrite Eu, Ev. now apply Req_bool_true.
Qed.
Print Assumptions c80_tiny_refuted.

Definition ex_res32 : b64 := b64_ofZ 2.
Example c80_hypotheses : is_finite ex_res32 = true /\ (bpow radix2 (-126) <= B2R ex_res32)%R /\
  (bpow radix2 (-150) < B2R ex_res32)%R /\ 0 < 9 <= B25 - 2.
Proof.
  destruct (ofZ_exact 2) as [F E]; [unfold P53; lia|]. fold ex_res32 in F, E. split; [exact F|]. rewrite E.
  split; [|split; [|unfold B25; lia]].
  - change (IZR 2) with (bpow radix2 1). apply bpow_le. lia.
  - change (IZR 2) with (bpow radix2 1). apply bpow_lt. lia.
Qed.

(** C81: accuracy.  A finite stored value is the Euclidean distance to the nearest cell
    centre of the other kind, signed, with an error of at most 2^-51 of it. *)
Theorem c81_accuracy_double (res oob : b64) nx ny nz (filled : idx -> bool) (border : bool) g i v :
  is_finite res = true -> (bpow radix2 (-1022) <= B2R res)%R ->
  0 < nx <= B25 - 2 -> 0 < ny <= B25 - 2 -> 0 < nz <= B25 - 2 ->
  sdf_binary64 res oob true border nx ny nz filled = Some g -> in_box nx ny nz i -> gget g i = Some v ->
  is_finite v = true ->
  let target j := opposite nx ny nz filled i j \/ extra border nx ny nz j in
  exists j, target j /\ (forall k, target k -> (cell_dist (B2R res) i j <= cell_dist (B2R res) i k)%R) /\
    (Rabs (B2R v - (if filled i then - cell_dist (B2R res) i j else cell_dist (B2R res) i j))
       <= bpow radix2 (-51) * cell_dist (B2R res) i j)%R.
Proof.
  intros F P Hx Hy Hz E Hi Gv Fv target. assert (Pos : (0 < B2R res)%R) by (pose proof (bpow_gt_0 radix2 (-1022)); lra).
  destruct (sdf_binary64_ok res F Pos oob nx ny nz filled border Hx Hy Hz) as (g' & E' & _ & _ & _ & _ & G).
  rewrite E in E'. injection E' as <-. destruct (G i Hi) as (v' & Gv' & m & Hm & Hv).
  rewrite Gv in Gv'. injection Gv' as <-.
  assert (H1 : dle (Some 1) m) by exact (nearest_ge1 _ i m (not_target nx ny nz filled border i Hi) Hm).
  destruct m as [d|]; [|subst v; discriminate]. destruct (Rlt_dec _ _); [|subst v; discriminate].
  destruct Hv as (_ & Ev). destruct Hm as ((j & Tj & Dj) & Min). cbn in H1. exists j. split; [exact Tj|]. split.
  - intros k Tk. unfold cell_dist. apply Rmult_le_compat_l; [lra|]. apply sqrt_le_1_alt, IZR_le. rewrite Dj. now apply Min.
  - unfold cell_dist. rewrite Dj, Ev. pose proof (metric64_rel (B2R res) d P H1) as Q.
    set (t := (B2R res * sqrt (IZR d))%R) in *.
    assert (Pt : (0 < t)%R) by (apply Rmult_lt_0_compat; [lra|pose proof (sqrt_ge1 d H1); lra]).
    apply Rle_trans with ((2 * u64 + u64 * u64) * t)%R.
    + destruct (filled i); [|exact Q]. replace (- metric64 (B2R res) d - - t)%R with (- (metric64 (B2R res) d - t))%R by ring.
      now rewrite Rabs_Ropp.
    + apply Rmult_le_compat_r; [lra|]. assert (U1 : (u64 = / 9007199254740992)%R) by (unfold u64; cbn; reflexivity).
      rewrite U1. cbn. lra.
Qed.
Print Assumptions c81_accuracy_double.

Theorem c81_accuracy_float (res : b64) (oob : b32) nx ny nz (filled : idx -> bool) (border : bool) g i v :
  is_finite res = true -> (bpow radix2 (-126) <= B2R res)%R ->
  0 < nx <= B25 - 2 -> 0 < ny <= B25 - 2 -> 0 < nz <= B25 - 2 ->
  sdf_binary32 res oob true border nx ny nz filled = Some g -> in_box nx ny nz i -> gget g i = Some v ->
  is_finite v = true ->
  let target j := opposite nx ny nz filled i j \/ extra border nx ny nz j in
  exists j, target j /\ (forall k, target k -> (cell_dist (B2R res) i j <= cell_dist (B2R res) i k)%R) /\
    (Rabs (B2R v - (if filled i then - cell_dist (B2R res) i j else cell_dist (B2R res) i j))
       <= bpow radix2 (-23) * cell_dist (B2R res) i j)%R.
Proof.
  intros F P Hx Hy Hz E Hi Gv Fv target. assert (Pos : (0 < B2R res)%R) by (pose proof (bpow_gt_0 radix2 (-126)); lra).
  assert (P' : (bpow radix2 (-150) < B2R res)%R).
  { apply Rlt_le_trans with (2 := P). apply bpow_lt. lia. }
  destruct (sdf_binary32_ok res F Pos P' oob nx ny nz filled border Hx Hy Hz) as (g' & E' & _ & _ & _ & _ & G).
  rewrite E in E'. injection E' as <-. destruct (G i Hi) as (v' & Gv' & m & Hm & Hv).
  rewrite Gv in Gv'. injection Gv' as <-.
  assert (H1 : dle (Some 1) m) by exact (nearest_ge1 _ i m (not_target nx ny nz filled border i Hi) Hm).
  destruct m as [d|]; [|subst v; discriminate]. destruct (Rlt_dec _ _); [|subst v; discriminate].
  destruct Hv as (_ & Ev). destruct Hm as ((j & Tj & Dj) & Min). cbn in H1. exists j. split; [exact Tj|]. split.
  - intros k Tk. unfold cell_dist. apply Rmult_le_compat_l; [lra|]. apply sqrt_le_1_alt, IZR_le. rewrite Dj. now apply Min.
  - unfold cell_dist. rewrite Dj, Ev. pose proof (single_rel (B2R res) d P (generic_format_B2R _ _ res) H1) as Q.
    set (t := (B2R res * sqrt (IZR d))%R) in *.
    assert (Pt : (0 < t)%R) by (apply Rmult_lt_0_compat; [lra|pose proof (sqrt_ge1 d H1); lra]).
    apply Rle_trans with ((u32 + 3 * u64) * t)%R.
    + destruct (filled i); [|exact Q].
      replace (- round32 (metric64 (B2R res) d) - - t)%R with (- (round32 (metric64 (B2R res) d) - t))%R by ring.
      now rewrite Rabs_Ropp.
    + apply Rmult_le_compat_r; [lra|]. assert (U1 : (u64 = / 9007199254740992)%R) by (unfold u64; cbn; reflexivity).
      assert (U2 : (u32 = / 16777216)%R) by (unfold u32; cbn; reflexivity). rewrite U1, U2. cbn. lra.
Qed.
Print Assumptions c81_accuracy_float.

(** C08 for stored values: filling cells never raises a stored distance, roundings
    included. *)
Theorem c08_monotone_binary64 (res oob : b64) nx ny nz (a b : idx -> bool) (border : bool) ga gb i u v :
  is_finite res = true -> (0 < B2R res)%R ->
  0 < nx <= B25 - 2 -> 0 < ny <= B25 - 2 -> 0 < nz <= B25 - 2 ->
  sdf_binary64 res oob true border nx ny nz a = Some ga -> sdf_binary64 res oob true border nx ny nz b = Some gb ->
  (forall j, in_box nx ny nz j -> a j = true -> b j = true) ->
  in_box nx ny nz i -> gget ga i = Some u -> gget gb i = Some v -> b64_leb v u = true.
Proof.
  intros F P Hx Hy Hz Ea Eb AB Hi Hu Hv.
  destruct (sdf_binary64_ok res F P oob nx ny nz a border Hx Hy Hz) as (g & E & _ & _ & _ & _ & Fa).
  rewrite Ea in E. injection E as <-.
  destruct (sdf_binary64_ok res F P oob nx ny nz b border Hx Hy Hz) as (g & E & _ & _ & _ & _ & Fb).
  rewrite Eb in E. injection E as <-.
  apply (field_holds_mono (metric64 (B2R res)) nx ny nz a b (extra border nx ny nz) (gget ga) (gget gb) i); try assumption.
  - intros d. apply metric64_nonneg. lra.
  - intros d d'. apply metric64_le. lra.
Qed.
Print Assumptions c08_monotone_binary64.

Theorem c08_monotone_binary32 (res : b64) (oob : b32) nx ny nz (a b : idx -> bool) (border : bool) ga gb i u v :
  is_finite res = true -> (bpow radix2 (-150) < B2R res)%R ->
  0 < nx <= B25 - 2 -> 0 < ny <= B25 - 2 -> 0 < nz <= B25 - 2 ->
  sdf_binary32 res oob true border nx ny nz a = Some ga -> sdf_binary32 res oob true border nx ny nz b = Some gb ->
  (forall j, in_box nx ny nz j -> a j = true -> b j = true) ->
  in_box nx ny nz i -> gget ga i = Some u -> gget gb i = Some v -> b32_leb v u = true.
Proof.
  intros F P Hx Hy Hz Ea Eb AB Hi Hu Hv. assert (Pos : (0 < B2R res)%R) by (pose proof (bpow_gt_0 radix2 (-150)); lra).
  destruct (sdf_binary32_ok res F Pos P oob nx ny nz a border Hx Hy Hz) as (g & E & _ & _ & _ & _ & Fa).
  rewrite Ea in E. injection E as <-.
  destruct (sdf_binary32_ok res F Pos P oob nx ny nz b border Hx Hy Hz) as (g & E & _ & _ & _ & _ & Fb).
  rewrite Eb in E. injection E as <-.
  apply (field_holds_mono (fun d => round32 (metric64 (B2R res) d)) nx ny nz a b (extra border nx ny nz)
           (gget ga) (gget gb) i); try assumption.
  - intros d. apply round32_nonneg, metric64_nonneg. lra.
  - intros d d' H. apply round32_le, metric64_le; [lra|exact H].
Qed.
Print Assumptions c08_monotone_binary32.
