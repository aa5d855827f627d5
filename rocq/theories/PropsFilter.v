(** Filtering and voxelization: properties C44-C47, C60-C62. *)
From Coq Require Import ZArith Reals List Lia Lra Bool ZifyBool Permutation.
From Flocq Require Import Core BinarySingleNaN.
From Verif Require Import Util Grid Prog Schedule FloatModel Occ EdtFloat RaycastModel RaycastSpec
  RaycastProofs RealRayModel FilterModel FilterSpec FilterFloatProofs FilterProofs DeviceProofs.
Import ListNotations.
Local Open Scope Z_scope.

(** ** C44 *)

(** The class of one camera.  When both kinds of observations count, free is decided
    by the rounded share; the share itself decides it up to one part in 2^53. *)
Theorem c44_classification (o : filter_options) free filled :
  valid_options o -> counts_ok free filled ->
  exists s, counts_seen_as o free filled = Some s /\
    (s = SeenUnknown <-> free = 0 /\ filled < o_outlier o) /\
    (0 < free -> filled < o_outlier o -> s = SeenFree) /\
    (free = 0 -> o_outlier o <= filled -> s = SeenFilled) /\
    (0 < free -> o_outlier o <= filled ->
      (s = SeenFree <->
        (B2R (o_percent o) <= round radix2 (FLT_exp (-1074) 53) ZnearestE (share free filled))%R) /\
      ((B2R (o_percent o) <= share free filled)%R -> s = SeenFree) /\
      (s = SeenFree -> (B2R (o_percent o) <= share free filled * (1 + bpow radix2 (-53)))%R) /\
      (s <> SeenFree -> s = SeenFilled)).
Proof.
  intros (Fp & Hp & Ho & _) Hc. pose proof Hc as (Hf & Hs & Ht).
  unfold counts_seen_as. rewrite classify_some by easy.
  eexists. split; [reflexivity|]. destruct (o_outlier o <=? filled) eqn:Eo.
  - destruct (0 <? free) eqn:Ef.
    + rewrite cpu_enough_spec by (auto; lia).
      change (round radix2 (FLT_exp (-1074) 53) ZnearestE) with (rnd).
      pose proof (share_low free filled ltac:(lia) ltac:(lia) Ht) as Hl.
      destruct (Rle_bool_spec (B2R (o_percent o)) (rnd (share free filled))) as [Hr|Hr].
      * split; [split; [easy|lia]|]. split; [lia|]. split; [lia|]. intros _ _.
        split; [easy|]. split; [easy|]. split; [|easy]. intros _.
        apply Rle_trans with (1 := Hr). now apply rnd_rel.
      * split; [split; [easy|lia]|]. split; [lia|]. split; [lia|]. intros _ _.
        split; [split; [easy|intros; lra]|]. split; [|split; easy].
        intros H. apply rnd_share_ge in H. lra.
    + split; [split; [easy|lia]|]. split; [lia|]. split; [easy|lia].
  - destruct (0 <? free) eqn:Ef.
    + split; [split; [easy|lia]|]. split; [easy|]. split; lia.
    + split; [split; [lia|easy]|]. split; [lia|]. split; lia.
Qed.
Print Assumptions c44_classification.

(** With the default options one filled observation makes the voxel filled. *)
Theorem c44_default_filled free filled :
  counts_ok free filled -> 0 < filled -> counts_seen_as default_options free filled = Some SeenFilled.
Proof.
  intros Hc Hp. pose proof Hc as (Hf & Hs & Ht). unfold counts_seen_as.
  rewrite classify_some by easy. cbn [default_options o_outlier o_percent].
  replace (1 <=? filled) with true by lia. destruct (0 <? free) eqn:Ef; [|easy].
  now rewrite cpu_enough_one by lia.
Qed.
Print Assumptions c44_default_filled.

Example c44_case : valid_options default_options /\ counts_ok 3 1 /\
  make_options b64_one 1 1 = Some default_options.
Proof.
  split; [|split; [unfold counts_ok; lia|reflexivity]].
  split; [easy|]. split; [cbn [default_options o_percent]; rewrite one_val; lra|]. now split.
Qed.

(** ** C45 *)

(** Every execution of the parallel filter is free of data races, terminates, never
    gets stuck, and ends with the filtered map. *)
Theorem c45_filtering (o : filter_options) tgs (g : grid occ) :
  gwf g -> Forall (tracks g) tgs -> valid_options o ->
  Acc (fun b a => mstep a b) ([], g, [cpu_filter o tgs g]) /\
  forall s, msteps ([], g, [cpu_filter o tgs g]) s ->
    ~ racy (mthreads s) /\
    (mfinished s -> filtered (counts_seen_as o) (o_cameras o) tgs g (mgrid s)) /\
    (mfinished s \/ exists s', mstep s s').
Proof. intros W HT (_ & _ & Ho & _). now apply cpu_filter_result. Qed.
Print Assumptions c45_filtering.

Lemma filter_perm {X} (f : X -> bool) l l' : Permutation l l' -> length (filter f l) = length (filter f l').
Proof.
  induction 1 as [|x l l' _ IH|x y l|l1 l2 l3 _ IH1 _ IH2]; cbn; [easy| | |congruence].
  - destruct (f x); cbn; congruence.
  - now destruct (f x), (f y).
Qed.

Lemma cameras_seeing_perm cls w tgs tgs' i : Permutation tgs tgs' ->
  cameras_seeing cls w tgs i = cameras_seeing cls w tgs' i.
Proof. intros H. unfold cameras_seeing, zlen. f_equal. now apply filter_perm. Qed.

Theorem c45_camera_order (o : filter_options) tgs tgs' (g g1 g2 : grid occ) :
  gwf g -> Forall (tracks g) tgs -> valid_options o -> Permutation tgs tgs' ->
  executes (cpu_filter o tgs g) g g1 -> executes (cpu_filter o tgs' g) g g2 -> g1 = g2.
Proof.
  intros W HT (_ & _ & Ho & _) HP H1 H2.
  assert (HT' : Forall (tracks g) tgs').
  { apply Forall_forall. intros t Ht. rewrite Forall_forall in HT. apply HT.
    now apply (Permutation_in t (Permutation_sym HP)). }
  pose proof (executes_filtered _ _ _ _ _ _ (proj2 (cpu_filter_result o tgs g W HT Ho)) H1) as F1.
  pose proof (executes_filtered _ _ _ _ _ _ (proj2 (cpu_filter_result o tgs' g W HT' Ho)) H2) as F2.
  apply (filtered_unique _ _ tgs g g1 g2 W F1).
  unfold filtered in *. eapply filtered_by_ext; [|exact F2]. intros i _.
  now rewrite !(cameras_seeing_perm _ _ tgs tgs' i HP).
Qed.
Print Assumptions c45_camera_order.

(** Adding a camera leaves every cell above 0.5 as it is. *)
Theorem c45_more_cameras (o : filter_options) tgs t (g g1 g2 : grid occ) i b :
  gwf g -> Forall (tracks g) (t :: tgs) -> valid_options o ->
  executes (cpu_filter o tgs g) g g1 -> executes (cpu_filter o (t :: tgs) g) g g2 ->
  gget g1 i = Some b -> occ_gt b = true -> gget g2 i = Some b.
Proof.
  intros W HT (_ & _ & Ho & _) H1 H2 E1 Hgt. inversion HT as [|? ? Ht HT']; subst.
  pose proof (executes_filtered _ _ _ _ _ _ (proj2 (cpu_filter_result o tgs g W HT' Ho)) H1) as F1.
  pose proof (executes_filtered _ _ _ _ _ _ (proj2 (cpu_filter_result o (t :: tgs) g W HT Ho)) H2) as F2.
  assert (Hi : in_bounds g i = true).
  { rewrite <- (in_bounds_dims g1 g i (proj1 (proj2 F1))). eapply gget_in_bounds; eauto. }
  destruct (gget_some g i W Hi) as (b0 & Eb0).
  rewrite (filtered_values _ _ _ _ _ F2 i b0 Eb0). rewrite (filtered_values _ _ _ _ _ F1 i b0 Eb0) in E1.
  destruct (occ_le b0); [|easy].
  assert (Hp : 0 < cameras_seeing (counts_seen_as o) SeenFilled tgs i).
  { unfold filter_value in E1. destruct (0 <? _) eqn:E; [lia|].
    assert (Hb : b = zero_bits \/ b = half_bits) by (destruct (_ <=? _) in E1; [left|right]; congruence).
    destruct Hb as [-> | ->]; discriminate Hgt. }
  assert (Hp' : 0 < cameras_seeing (counts_seen_as o) SeenFilled (t :: tgs) i).
  { rewrite cameras_seeing_cons. destruct (gget t i) as [[f s]|]; [|lia].
    destruct (counts_seen_as o f s) as [v|]; [|lia]. destruct (seen_eqb SeenFilled v); lia. }
  unfold filter_value in *. replace (0 <? cameras_seeing _ SeenFilled tgs i) with true in E1 by lia.
  now replace (0 <? cameras_seeing _ SeenFilled (t :: tgs) i) with true by lia.
Qed.
Print Assumptions c45_more_cameras.

Lemma tracks_const nx ny nz b f s : 0 < nx -> 0 < ny -> 0 < nz -> counts_ok f s ->
  tracks (gconst nx ny nz b) (gconst nx ny nz (f, s)).
Proof.
  intros Hx Hy Hz Hc. split; [now apply gconst_wf|]. split; [apply same_dims_refl || easy|].
  intros i f' s' E. rewrite gget_gconst in E. destruct (in_bounds3 nx ny nz i); [|easy].
  assert (f' = f) as -> by congruence. now assert (s' = s) as -> by congruence.
Qed.

Example c45_case :
  Forall (tracks (gconst 4 5 6 half_bits)) [gconst 4 5 6 (3, 1); gconst 4 5 6 (0, 7)] /\
  exists g', executes (cpu_filter default_options [gconst 4 5 6 (3, 1); gconst 4 5 6 (0, 7)] (gconst 4 5 6 half_bits))
    (gconst 4 5 6 half_bits) g' /\ gget g' (1, 2, 3) = Some one_bits.
Proof.
  assert (HT : Forall (tracks (gconst 4 5 6 half_bits)) [gconst 4 5 6 (3, 1); gconst 4 5 6 (0, 7)]).
  { constructor; [|constructor; [|constructor]]; apply tracks_const; unfold counts_ok; lia. }
  split; [exact HT|].
  pose proof (gconst_wf 4 5 6 half_bits ltac:(lia) ltac:(lia) ltac:(lia)) as W.
  destruct (cpu_filter_result default_options _ _ W HT ltac:(easy)) as (HA & HR).
  destruct (executes_exists _ _ _ _ _ HA HR) as (g' & Hg'). exists g'. split; [exact Hg'|].
  pose proof (executes_filtered _ _ _ _ _ _ HR Hg') as F.
  rewrite (filtered_values _ _ _ _ _ F (1, 2, 3) half_bits) by reflexivity.
  replace (occ_le half_bits) with true by reflexivity. unfold filter_value.
  replace (0 <? _) with true; [easy|]. symmetry. apply Z.ltb_lt.
  rewrite cameras_seeing_cons. rewrite gget_gconst.
  replace (in_bounds3 4 5 6 (1, 2, 3)) with true by reflexivity.
  rewrite c44_default_filled by (unfold counts_ok; lia). cbn [seen_eqb].
  pose proof (cameras_seeing_nonneg (counts_seen_as default_options) SeenFilled [gconst 4 5 6 (0, 7)] (1, 2, 3)). lia.
Qed.

(** ** C46 *)

(** Full statement (false, see below). *)
Definition c46_full : Prop :=
  forall o tgs mem threads (g g1 g2 : grid occ),
    gwf g -> Forall (tracks g) tgs -> valid_options o -> 0 < threads ->
    holds (g_total g) mem tgs -> 2 * (g_total g * zlen tgs) <= 2 ^ 31 ->
    executes (cpu_filter o tgs g) g g1 -> executes (cuda_filter o threads mem (zlen tgs) g) g g2 -> g1 = g2.

Lemma classes_agree o f s : valid_options o -> counts_ok f s ->
  (0 < f -> o_outlier o <= s -> clear_cut (o_percent o) f s) ->
  dev_seen_as o f s = counts_seen_as o f s.
Proof.
  intros (Fp & Hp & Ho & _) Hc Hb. pose proof Hc as (Hf & Hs & Ht).
  unfold dev_seen_as, counts_seen_as. rewrite !classify_some by easy. f_equal.
  destruct (o_outlier o <=? s) eqn:Eo; [|easy]. destruct (0 <? f) eqn:Ef; [|easy].
  rewrite enough_agree; auto; try lia. apply Hb; lia.
Qed.

Lemma seeing_agree o w tgs (g : grid occ) i :
  valid_options o -> Forall (tracks g) tgs ->
  (forall t j f s, In t tgs -> gget t j = Some (f, s) -> 0 < f -> o_outlier o <= s ->
     clear_cut (o_percent o) f s) ->
  cameras_seeing (dev_seen_as o) w tgs i = cameras_seeing (counts_seen_as o) w tgs i.
Proof.
  intros Ho HT Hc. induction tgs as [|t tgs IH]; [reflexivity|]. inversion HT as [|? ? Ht HT']; subst.
  rewrite !cameras_seeing_cons, IH.
  - f_equal. destruct (gget t i) as [[f s]|] eqn:E; [|easy].
    rewrite classes_agree; auto.
    + now apply (proj2 (proj2 Ht) i).
    + apply (Hc t i f s (or_introl eq_refl) E).
  - easy.
  - intros u j f s Hu. apply Hc. now right.
Qed.

(** The backends agree when no share lies in the rounding band around the
    percentage: within a relative distance of 2^-21, or for the default percentage
    with at most 2^24 observations of a voxel.  (Missing from the full statement:
    shares inside the band.) *)
Theorem c46_backends_agree_partial (o : filter_options) tgs mem threads (g g1 g2 g3 : grid occ) :
  gwf g -> Forall (tracks g) tgs -> valid_options o -> 0 < threads ->
  holds (g_total g) mem tgs -> 2 * (g_total g * zlen tgs) <= 2 ^ 31 -> 2 * g_total g < 2 ^ 31 ->
  (forall t j f s, In t tgs -> gget t j = Some (f, s) -> 0 < f -> o_outlier o <= s ->
     clear_cut (o_percent o) f s) ->
  executes (cpu_filter o tgs g) g g1 ->
  executes (cuda_filter o threads mem (zlen tgs) g) g g2 ->
  executes (opencl_filter o mem (zlen tgs) g) g g3 -> g1 = g2 /\ g1 = g3.
Proof.
  intros W HT Hv Hth Hm Hsz Hsz2 Hc H1 H2 H3. pose proof Hv as (_ & _ & Ho & _).
  pose proof (executes_filtered _ _ _ _ _ _ (proj2 (cpu_filter_result o tgs g W HT Ho)) H1) as F1.
  pose proof (executes_filtered _ _ _ _ _ _ (proj2 (cuda_filter_result o threads mem tgs g W HT Ho Hth Hm Hsz)) H2) as F2.
  pose proof (executes_filtered _ _ _ _ _ _ (proj2 (opencl_filter_result o mem tgs g W HT Ho Hm Hsz Hsz2)) H3) as F3.
  split; apply (filtered_unique _ _ tgs g _ _ W F1); unfold filtered in *;
    (eapply filtered_by_ext; [|first [exact F2|exact F3]]); intros i _; now rewrite !(seeing_agree o _ tgs g).
Qed.
Print Assumptions c46_backends_agree_partial.

Lemma rnd32_below : rnd32 (IZR (2 ^ 26 + 1)) = IZR (2 ^ 26).
Proof.
  assert (Hb : IZR (2 ^ 26) = bpow radix2 26) by reflexivity.
  apply Rle_antisym.
  - rewrite Hb. apply round_N_le_midp; [apply FLT_exp_valid; easy|apply fmt32_bpow; lia|].
    rewrite succ_eq_pos by apply bpow_ge_0. rewrite ulp_bpow. cbn. lra.
  - rewrite <- (rnd32_id (IZR (2 ^ 26))) by (rewrite Hb; apply fmt32_bpow; lia).
    apply rnd32_le. apply IZR_le. lia.
Qed.

Lemma dev_enough_rounds : dev_enough (b32_of_b64 b64_one) (2 ^ 26) (2 ^ 26 + 1) = true.
Proof.
  rewrite dev_enough_spec; [|easy|rewrite one_val; lra|lia|lia|lia].
  apply Rle_bool_iff. unfold dev_share. rewrite rnd32_below.
  assert (Hb : IZR (2 ^ 26) = bpow radix2 26) by reflexivity.
  rewrite (rnd32_id (IZR (2 ^ 26))) by (rewrite Hb; apply fmt32_bpow; lia).
  rewrite one_val. replace (IZR (2 ^ 26) / IZR (2 ^ 26))%R with 1%R; [lra|].
  rewrite Hb. field. pose proof (bpow_gt_0 radix2 26). lra.
Qed.

(** Default options, one camera, one voxel with 2^26 free observations and one
    filled: the CPU calls it filled, the device free. *)
Theorem c46_backends_disagree_refuted :
  exists o tgs mem threads (g g1 g2 : grid occ) i,
    gwf g /\ Forall (tracks g) tgs /\ valid_options o /\ 0 < threads /\
    holds (g_total g) mem tgs /\ 2 * (g_total g * zlen tgs) <= 2 ^ 31 /\
    executes (cpu_filter o tgs g) g g1 /\ executes (cuda_filter o threads mem (zlen tgs) g) g g2 /\
    gget g1 i = Some one_bits /\ gget g2 i = Some zero_bits.
Proof.
  set (g := gconst 1 1 1 half_bits). set (t := gconst 1 1 1 (2 ^ 26, 1) : tgrid).
  set (mem := [2 ^ 26; 1]).
  assert (W : gwf g) by (apply gconst_wf; lia).
  assert (HT : Forall (tracks g) [t]).
  { constructor; [|constructor]. apply tracks_const; unfold counts_ok; lia. }
  assert (Hm : holds (g_total g) mem [t]).
  { split; [reflexivity|]. intros k u v c Ek Ec.
    assert (k = 0) as -> by (apply zget_range in Ek; unfold zlen in Ek; cbn in Ek; lia).
    assert (u = t) as -> by (unfold zget in Ek; cbn in Ek; congruence).
    change (g_cells t) with [(2 ^ 26, 1)] in Ec.
    assert (v = 0) as -> by (apply zget_range in Ec; unfold zlen in Ec; cbn [length] in Ec; lia).
    assert (c = (2 ^ 26, 1)) as -> by (change (zget [(2 ^ 26, 1)] 0) with (Some (2 ^ 26, 1)) in Ec; congruence).
    now split. }
  assert (Hsz : 2 * (g_total g * zlen [t]) <= 2 ^ 31) by (unfold g, g_total, zlen; cbn; lia).
  destruct (cpu_filter_result default_options [t] g W HT ltac:(easy)) as (A1 & R1).
  destruct (cuda_filter_result default_options 256 mem [t] g W HT ltac:(easy) ltac:(easy) Hm Hsz) as (A2 & R2).
  destruct (executes_exists _ _ _ _ _ A1 R1) as (g1 & H1).
  destruct (executes_exists _ _ _ _ _ A2 R2) as (g2 & H2).
  exists default_options, [t], mem, 256, g, g1, g2, (0, 0, 0).
  split; [easy|]. split; [easy|]. split; [apply c44_case|]. split; [easy|]. split; [easy|].
  split; [easy|]. split; [easy|]. split; [easy|].
  pose proof (executes_filtered _ _ _ _ _ _ R1 H1) as F1.
  pose proof (executes_filtered _ _ _ _ _ _ R2 H2) as F2.
  rewrite (filtered_values _ _ _ _ _ F1 (0, 0, 0) half_bits) by reflexivity.
  rewrite (filtered_values _ _ _ _ _ F2 (0, 0, 0) half_bits) by reflexivity.
  replace (occ_le half_bits) with true by reflexivity. unfold filter_value.
  rewrite !cameras_seeing_cons. unfold t. rewrite gget_gconst.
  replace (in_bounds3 1 1 1 (0, 0, 0)) with true by reflexivity.
  rewrite c44_default_filled by (unfold counts_ok; lia).
  unfold dev_seen_as. rewrite classify_some by (first [easy|unfold counts_ok; lia]).
  cbn [default_options o_outlier o_percent]. rewrite dev_enough_rounds.
  split; reflexivity.
Qed.
Print Assumptions c46_backends_disagree_refuted.

Example c46_case : clear_cut (o_percent default_options) 3 1.
Proof. right. right. split; [reflexivity|lia]. Qed.

(** ** C47 *)

(** Full statement for the CPU (false, see below). *)
Definition c47_full : Prop :=
  forall A rg o clouds (static output : grid occ) r1 r2,
    map_for rg static -> map_for rg output -> valid_options o -> few_points A clouds ->
    voxelize_new (cpu_voxelize A rg o clouds) static r1 ->
    voxelize_into (cpu_voxelize A rg o clouds) static output r2 -> r1 = r2.

Lemma same_size A (rg : ray_grid A) (g h : grid occ) : map_for rg g -> map_for rg h ->
  (g_nx g =? g_nx h) && (g_ny g =? g_ny h) && (g_nz g =? g_nz h) = true.
Proof. intros (_ & -> & -> & ->) (_ & -> & -> & ->). now rewrite !Z.eqb_refl. Qed.

Lemma filtered_by_unique filled free cameras (g g1 g2 : grid occ) : gwf g -> (forall i, 0 <= filled i) ->
  filtered_by filled free cameras g g1 -> filtered_by filled free cameras g g2 -> g1 = g2.
Proof.
  intros W Hn H1 H2.
  apply grid_ext; [apply H1|apply H2|eapply same_dims_trans; [apply H1|apply same_dims_sym, H2]|].
  intros i Hi. rewrite (in_bounds_dims g1 g i (proj1 (proj2 H1))) in Hi.
  destruct (gget_some g i W Hi) as (b & Eb).
  destruct (proj2 (proj2 H1) i b Eb) as (P1 & P2 & P3 & P4).
  destruct (proj2 (proj2 H2) i b Eb) as (Q1 & Q2 & Q3 & Q4). specialize (Hn i).
  destruct (occ_le b); [|rewrite P1, Q1; easy].
  destruct (Z.eq_dec (filled i) 0) as [Hz|Hz].
  - destruct (Z_lt_le_dec (free i) cameras) as [Hc|Hc]; [rewrite P4, Q4|rewrite P3, Q3]; auto.
  - rewrite P2, Q2; auto; lia.
Qed.

Lemma clouds_seeing_nonneg A (rg : ray_grid A) cls w clouds i : 0 <= clouds_seeing A rg cls w clouds i.
Proof. unfold clouds_seeing, zlen. lia. Qed.

(** The device backends ignore what the output contained. *)
Theorem c47_device (A : ray_arith) (rg : ray_grid A) o threads clouds (static output : grid occ) r1 r2 :
  map_for rg static -> map_for rg output -> valid_options o -> 0 < threads -> few_points A clouds ->
  2 * (g_total static * Z.max (zlen clouds) 1) <= 2 ^ 31 -> 2 * g_total static < 2 ^ 31 ->
  (voxelize_new (cuda_voxelize A rg o threads clouds) static r1 ->
   voxelize_into (cuda_voxelize A rg o threads clouds) static output r2 -> r1 = r2) /\
  (voxelize_new (opencl_voxelize A rg o clouds) static r1 ->
   voxelize_into (opencl_voxelize A rg o clouds) static output r2 -> r1 = r2).
Proof.
  intros Hs Hot (_ & _ & Ho & _) Hth Hf Hsz Hsz2. unfold voxelize_new, voxelize_into.
  rewrite (same_size A rg static static Hs Hs), (same_size A rg static output Hs Hot).
  split; intros (g1 & H1 & ->) (g2 & H2 & ->); f_equal.
  - eapply (filtered_by_unique _ _ _ static).
    + apply Hs.
    + intros i. apply (clouds_seeing_nonneg A rg (dev_seen_as o) SeenFilled clouds).
    + eapply (cuda_voxelize_result A rg static static); eauto.
    + eapply (cuda_voxelize_result A rg static output); eauto.
  - eapply (filtered_by_unique _ _ _ static).
    + apply Hs.
    + intros i. apply (clouds_seeing_nonneg A rg (dev_seen_as o) SeenFilled clouds).
    + eapply (opencl_voxelize_result A rg static static); eauto.
    + eapply (opencl_voxelize_result A rg static output); eauto.
Qed.
Print Assumptions c47_device.

(** The CPU backend gives the result for the static environment if the output holds
    the same cells above 0.5 as the static environment; what other cells hold does
    not matter.  (Missing from the full statement: outputs with other filled cells,
    for which it fails.) *)
Theorem c47_cpu_partial (A : ray_arith) (rg : ray_grid A) o clouds (static output : grid occ) r1 r2 :
  map_for rg static -> map_for rg output -> valid_options o -> few_points A clouds ->
  (forall i b b', gget static i = Some b -> gget output i = Some b' ->
     (occ_le b = true /\ occ_le b' = true) \/ b = b') ->
  voxelize_new (cpu_voxelize A rg o clouds) static r1 ->
  voxelize_into (cpu_voxelize A rg o clouds) static output r2 -> r1 = r2.
Proof.
  intros Hs Hot (_ & _ & Ho & _) Hf Hag. unfold voxelize_new, voxelize_into.
  rewrite (same_size A rg static static Hs Hs), (same_size A rg static output Hs Hot).
  intros (g1 & H1 & ->) (g2 & H2 & ->). f_equal.
  apply (cpu_voxelize_result A rg static static Hs Hs) in H1; auto.
  apply (cpu_voxelize_result A rg static output Hs Hot) in H2; auto.
  eapply (filtered_by_unique _ _ _ static); [apply Hs| |exact H1|].
  { intros i. apply (clouds_seeing_nonneg A rg (counts_seen_as o) SeenFilled clouds). }
  pose proof Hs as (Ws & Sx & Sy & Sz). pose proof Hot as (Wo & Ox & Oy & Oz).
  assert (Hd : same_dims output static) by (unfold same_dims; lia).
  split; [apply H2|]. split; [eapply same_dims_trans; [apply H2|easy]|].
  intros i b Eb. pose proof (gget_in_bounds _ _ _ Eb) as Hi.
  rewrite <- (in_bounds_dims output static i Hd) in Hi.
  destruct (gget_some output i Wo Hi) as (b' & Eb').
  destruct (proj2 (proj2 H2) i b' Eb') as (Q1 & Q2 & Q3 & Q4).
  destruct (Hag i b b' Eb Eb') as [(Hb & Hb')| ->].
  - rewrite Hb. split; [easy|]. now auto.
  - auto.
Qed.
Print Assumptions c47_cpu_partial.

(** An unknown voxel that an earlier call left filled in the output stays filled. *)
Theorem c47_stale_output_refuted :
  exists (A : ray_arith) (rg : ray_grid A) o clouds (static output : grid occ) g1 g2 i,
    map_for rg static /\ map_for rg output /\ valid_options o /\ few_points A clouds /\
    voxelize_new (cpu_voxelize A rg o clouds) static (Returns g1) /\
    voxelize_into (cpu_voxelize A rg o clouds) static output (Returns g2) /\
    gget g1 i = Some half_bits /\ gget g2 i = Some one_bits.
Proof.
  set (st := gconst 1 1 1 half_bits). set (out := gconst 1 1 1 one_bits).
  set (rg := exact_grid 1 1 1 1).
  assert (Hs : map_for rg st) by (split; [apply gconst_wf; lia|easy]).
  assert (Ho : map_for rg out) by (split; [apply gconst_wf; lia|easy]).
  assert (Hf : few_points exact_ray []) by constructor.
  destruct (cpu_voxelize_exists exact_ray rg st st Hs Hs default_options [] ltac:(easy) Hf) as (g1 & H1).
  destruct (cpu_voxelize_exists exact_ray rg st out Hs Ho default_options [] ltac:(easy) Hf) as (g2 & H2).
  exists exact_ray, rg, default_options, [], st, out, g1, g2, (0, 0, 0).
  split; [easy|]. split; [easy|]. split; [apply c44_case|]. split; [easy|].
  unfold voxelize_new, voxelize_into.
  rewrite (same_size exact_ray rg st st Hs Hs), (same_size exact_ray rg st out Hs Ho).
  split; [now exists g1|]. split; [now exists g2|].
  apply (cpu_voxelize_result exact_ray rg st st Hs Hs) in H1; [|easy|easy].
  apply (cpu_voxelize_result exact_ray rg st out Hs Ho) in H2; [|easy|easy].
  split.
  - destruct (proj2 (proj2 H1) (0, 0, 0) half_bits eq_refl) as (_ & _ & _ & P). now apply P.
  - destruct (proj2 (proj2 H2) (0, 0, 0) one_bits eq_refl) as (P & _). now apply P.
Qed.
Print Assumptions c47_stale_output_refuted.

Example c47_case :
  map_for (exact_grid 1 4 5 6) (gconst 4 5 6 half_bits) /\
  map_for (exact_grid 1 4 5 6) (gconst 4 5 6 zero_bits) /\
  forall i b b', gget (gconst 4 5 6 half_bits) i = Some b -> gget (gconst 4 5 6 zero_bits) i = Some b' ->
     (occ_le b = true /\ occ_le b' = true) \/ b = b'.
Proof.
  split; [split; [apply gconst_wf; lia|easy]|]. split; [split; [apply gconst_wf; lia|easy]|].
  intros i b b' E E'. left. rewrite gget_gconst in E, E'.
  destruct (in_bounds3 4 5 6 i); [|easy].
  assert (b = half_bits) as -> by congruence. now assert (b' = zero_bits) as -> by congruence.
Qed.

(** ** C60 *)

(** The filter kernels read the counters that the raycasting kernels of the same
    cloud incremented, as long as all counters fit in 2^31 elements.  [k] is the
    number of the cloud, [c] the cloud and [i] the voxel; the counters are the numbers of points
    of [c] counting voxel [i]. *)
Theorem c60_counters_partial (A : ray_arith) (rg : ray_grid A) clouds (static : grid occ) address items items' mem
    k c i :
  map_for rg static -> few_points A clouds ->
  2 * (g_total static * zlen clouds) <= 2 ^ 31 -> 2 * g_total static < 2 ^ 31 ->
  address = cuda_address \/ address = opencl_address ->
  cloud_items A rg (address (g_ny static) (g_nz static) (g_total static)) 0 clouds = Some items ->
  dsteps (items, repeat 0 (Z.to_nat (2 * (g_total static * Z.max (zlen clouds) 1)))) (items', mem) ->
  Forall (fun w => w = []) items' ->
  zget clouds k = Some c -> in_bounds static i = true ->
  let counters := Some (points_counting A rg c (i, false), points_counting A rg c (i, true)) in
  dev_read cuda_offset mem (g_total static) k (data_index static i) = counters /\
  dev_read opencl_offset mem (g_total static) k (data_index static i) = counters.
Proof.
  intros Hs Hf Hsz Hsz2 Had Hit Hst Hfin Hk Hi counters.
  pose proof Hs as (W & Ex & Ey & Ez). pose proof (total_pos static W) as Hp.
  pose proof (zget_range _ _ _ Hk) as Hr.
  assert (Hne : 1 <= zlen clouds) by lia.
  assert (Hok : address_ok address (rg_nx A rg) (rg_ny A rg) (rg_nz A rg) (zlen clouds)).
  { unfold g_total in *. rewrite Ex, Ey, Ez in *. destruct Had as [-> | ->].
    - apply cuda_address_ok. lia.
    - apply opencl_address_ok. lia. }
  pose proof (dev_memory A rg static Hs address clouds items items' mem Hf Hok Hit Hst Hfin) as (Hlen & Hold).
  assert (Hg : zget (dev_grids A rg clouds) k = Some (track_of A rg c)).
  { destruct clouds as [|c0 cs]; [unfold zlen in Hne; cbn in Hne; lia|].
    unfold dev_grids. rewrite zget_map. now rewrite Hk. }
  pose proof (gget_track A rg static Hs c i Hi) as Ht. unfold gget in Ht.
  destruct (in_bounds (track_of A rg c) i) eqn:Eb; [|easy].
  assert (Edi : data_index (track_of A rg c) i = data_index static i).
  { unfold data_index. destruct (track_dims A rg static Hs c) as (_ & -> & ->). reflexivity. }
  rewrite Edi in Ht. destruct (Hold k _ _ _ Hg Ht) as (H1 & H2). cbn [fst snd] in H1, H2.
  pose proof (data_index_range static i W Hi) as Hd. rewrite (proj2 (proj2 (proj2 W))) in Hd.
  assert (Hk2 : 2 * (g_total static * (k + 1)) <= 2 ^ 31) by nia.
  split; apply dev_read_ok; auto; try lia.
  - apply cuda_offset_ok. nia.
  - apply opencl_offset_ok; nia.
Qed.
Print Assumptions c60_counters_partial.

(** With five clouds and 2^28 voxels the filter kernels compute an address below
    the start of the counters for every voxel of the last cloud. *)
Theorem c60_counters_refuted :
  exists nx ny nz grids k, 0 < nx /\ 0 < ny /\ 0 < nz /\ 0 <= k < grids /\
    let cells := nx * ny * nz in
    forall mem v, zlen mem = 2 * (cells * grids) -> 0 <= v < cells ->
      dev_read cuda_offset mem cells k v = None /\ dev_read opencl_offset mem cells k v = None.
Proof.
  exists 1024, 512, 512, 5, 4. split; [lia|]. split; [lia|]. split; [lia|]. split; [lia|].
  intros cells mem v _ Hv. change cells with (2 ^ 28) in *. unfold dev_read. split.
  - replace (cuda_offset (2 ^ 28) 4) with (Some (- 2 ^ 31)) by reflexivity. cbn [obind].
    rewrite (chk32_some (v * 2)) by lia. cbn [obind].
    rewrite (chk32_some (- 2 ^ 31 + v * 2)) by lia. cbn [obind].
    rewrite (chk32_some (- 2 ^ 31 + v * 2 + 1)) by lia. cbn [obind].
    unfold zget. replace (- 2 ^ 31 + v * 2 <? 0) with true by lia. reflexivity.
  - now replace (opencl_offset (2 ^ 28) 4) with (@None Z) by reflexivity.
Qed.
Print Assumptions c60_counters_refuted.

Example c60_case : 2 * (g_total (gconst 4 5 6 half_bits) * 3) <= 2 ^ 31.
Proof. unfold g_total. cbn. lia. Qed.

(** ** C61 *)

(** For a percentage that is a number the constructor accepts exactly the options
    with a percentage in (0, 1] and positive thresholds. *)
Theorem c61_options_partial percent outlier cameras :
  is_nan percent = false ->
  (exists o, make_options percent outlier cameras = Some o /\
     o = mkOptions percent outlier cameras) <-> valid_options (mkOptions percent outlier cameras).
Proof.
  intros Hn. unfold make_options, valid_options. cbn [o_percent o_outlier o_cameras].
  assert (H : is_finite percent = true /\ (0 < B2R percent <= 1)%R <->
              b64_leb percent b64_zero || b64_ltb b64_one percent = false).
  { destruct (is_finite percent) eqn:Ef.
    - unfold b64_leb, b64_ltb. rewrite Bleb_correct, Bltb_correct by easy.
      rewrite one_val. cbn [b64_zero B2R].
      destruct (Rle_bool_spec (B2R percent) 0), (Rlt_bool_spec 1 (B2R percent)); cbn; split;
        intros; try easy; try lra; split; auto; lra.
    - split; [easy|]. destruct percent as [s|s| |s m e B]; try easy. now destruct s. }
  destruct (b64_leb percent b64_zero || b64_ltb b64_one percent).
  - split; [intros (o & E & _); easy|intros (A & B & _)]. exfalso.
    assert (true = false) by (apply H; auto). easy.
  - destruct (proj2 H eq_refl) as (H1 & H2).
    destruct (Z.leb_spec outlier 0); [split; [intros (o & E & _); easy|intros (_ & _ & C & _); lia]|].
    destruct (Z.leb_spec cameras 0); [split; [intros (o & E & _); easy|intros (_ & _ & _ & C); lia]|].
    split; [auto|]. intros _. eexists. split; reflexivity.
Qed.
Print Assumptions c61_options_partial.

(** NaN is accepted; a voxel seen both free and filled is then always filled. *)
Theorem c61_nan_percentage_refuted :
  exists o, make_options B754_nan 1 1 = Some o /\ ~ valid_options o /\
    forall free filled, counts_ok free filled -> 0 < filled ->
      counts_seen_as o free filled = Some SeenFilled.
Proof.
  exists (mkOptions B754_nan 1 1). split; [reflexivity|]. split; [intros (E & _); easy|].
  intros f s Hc Hs. unfold counts_seen_as. rewrite classify_some by easy. cbn [o_outlier o_percent].
  replace (1 <=? s) with true by lia. now destruct (0 <? f).
Qed.
Print Assumptions c61_nan_percentage_refuted.

Example c61_case : is_nan b64_one = false /\ valid_options (mkOptions b64_one 3 2).
Proof. split; [reflexivity|]. split; [easy|]. split; [cbn [o_percent]; rewrite one_val; lra|]. now split. Qed.

(** ** C62 *)

(** Voxelizing on the CPU: there is an execution, and every execution, whatever the
    schedule, produces the map whose cells are decided by the numbers of clouds whose
    points see them filled and free. *)
Theorem c62_cpu (A : ray_arith) (rg : ray_grid A) o clouds (static : grid occ) :
  map_for rg static -> valid_options o -> few_points A clouds ->
  (exists g, voxelize_new (cpu_voxelize A rg o clouds) static (Returns g)) /\
  forall r, voxelize_new (cpu_voxelize A rg o clouds) static r ->
    exists g, r = Returns g /\ voxelized A rg (counts_seen_as o) (o_cameras o) clouds static g.
Proof.
  intros Hs (_ & _ & Ho & _) Hf. unfold voxelize_new, voxelize_into.
  rewrite (same_size A rg static static Hs Hs). split.
  - destruct (cpu_voxelize_exists A rg static static Hs Hs o clouds Ho Hf) as (g & H). now exists g, g.
  - intros r (g & H & ->). exists g. split; [easy|]. now apply (cpu_voxelize_result A rg static static Hs Hs).
Qed.
Print Assumptions c62_cpu.

(** The same on the devices, for maps whose counters fit in 2^31 elements, with the
    binary32 classification. *)
Theorem c62_device (A : ray_arith) (rg : ray_grid A) o threads clouds (static output : grid occ) :
  map_for rg static -> map_for rg output -> valid_options o -> few_points A clouds -> 0 < threads ->
  2 * (g_total static * Z.max (zlen clouds) 1) <= 2 ^ 31 -> 2 * g_total static < 2 ^ 31 ->
  forall backend, backend = cuda_voxelize A rg o threads clouds \/ backend = opencl_voxelize A rg o clouds ->
  (exists g, voxelize_into backend static output (Returns g)) /\
  forall r, voxelize_into backend static output r ->
    exists g, r = Returns g /\ voxelized A rg (dev_seen_as o) (o_cameras o) clouds static g.
Proof.
  intros Hs Hot (_ & _ & Ho & _) Hf Hth Hsz Hsz2 backend Hb. unfold voxelize_into.
  rewrite (same_size A rg static output Hs Hot). destruct Hb as [-> | ->]; split.
  - destruct (cuda_voxelize_exists A rg static output Hs o threads clouds Ho Hth Hf Hsz) as (g & H). now exists g, g.
  - intros r (g & H & ->). exists g. split; [easy|]. now apply (cuda_voxelize_result A rg static output Hs) in H.
  - destruct (opencl_voxelize_exists A rg static output Hs o clouds Ho Hf Hsz Hsz2) as (g & H). now exists g, g.
  - intros r (g & H & ->). exists g. split; [easy|]. now apply (opencl_voxelize_result A rg static output Hs) in H.
Qed.
Print Assumptions c62_device.

(** Maps of other dimensions are rejected, on every backend. *)
Theorem c62_sizes backend (static output : grid occ) r :
  ~ same_dims static output -> voxelize_into backend static output r -> r = Throws.
Proof.
  intros Hd. unfold voxelize_into.
  destruct (_ && _) eqn:E; [|easy]. exfalso. apply Hd. unfold same_dims. lia.
Qed.
Print Assumptions c62_sizes.

Example c62_case : map_for (exact_grid 1 4 5 6) (gconst 4 5 6 half_bits) /\
  few_points exact_ray [mkCloud exact_ray [(Fin 1, Fin 2, Fin 3)] (fun v => v) PInf].
Proof.
  split; [split; [apply gconst_wf; lia|easy]|]. constructor; [unfold zlen; cbn; lia|constructor].
Qed.
