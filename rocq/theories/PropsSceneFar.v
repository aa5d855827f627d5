(** Property of voxelization with sensors anywhere (C94). *)
From Coq Require Import ZArith Reals List Bool Lia Lra.
From Flocq Require Import Core BinarySingleNaN.
From Verif Require Import Util Grid SdfSpec FloatModel Occ FilterModel FilterSpec FilterProofs RaycastModel RaycastSpec RayGeoSpec RayRoundSpec
  RayFarSpec RayFloatModel RayFloatTop PoseModel VoxelRoundSpec VoxelShowProofs PoseProofs VoxelRoundProofs SceneFarSpec SceneFarProofs
  PropsFilter PropsRayRound PropsVoxelRound PropsFar.
From Verif Require SdfDoubleSpec.
Import ListNotations.
Local Open Scope R_scope.

(** ** C94 *)

(** Voxelization on the CPU with sensors in the grid or outside of it: every execution
    returns a map, and it shows what the sensors saw, as long as no sensor outside of the
    grid has a view of a point that is cut right at a side of the grid. *)
Theorem c94_cpu fl fl32 nx ny nz N (res : b64) s b S o gw (clouds : list (wrapped fl fl32)) (static : grid occ) :
  SdfDoubleSpec.floors fl -> is_finite res = true -> bpow radix2 (-300) <= B2R res <= bpow radix2 300 ->
  (1 <= N)%Z -> (N * (N + 128) <= 2 ^ 53)%Z -> (1 <= nx <= N)%Z -> (1 <= ny <= N)%Z -> (1 <= nz <= N)%Z ->
  bpow radix2 (-300) <= s <= bpow radix2 44 * B2R res ->
  let A := double_ray fl in
  let rg := double_grid fl nx ny nz res in
  let u := bpow radix2 (-53) in
  let d := 500 * (u * s) in
  let e := far_error (IZR N) (B2R res) S in
  let sight c := sighting_of A A B2R B2R gw (w_pose fl fl32 c) (w_double fl fl32 c) (range_of (w_range fl fl32 c)) in
  IZR N * B2R res <= S -> / 10 ^ 9 <= S <= 2 ^ 11 -> S <= 2 ^ 21 * B2R res -> b + d <= S ->
  map_for rg static -> valid_options o -> tame A is_finite B2R s gw ->
  Forall (fun c => tame A is_finite B2R s (w_pose fl fl32 c) /\
    (forall p, In p (w_double fl fl32 c) -> vfinite A p = true -> within s (reals A B2R p)) /\
    good_range (w_range fl fl32 c) /\ (zlen (w_double fl fl32 c) < 2 ^ 31)%Z /\
    good_view (B2R res) (e + 2 * d) (16384 * (u * s)) (2 * d) (bpow radix2 (-30) * B2R res + d) b nx ny nz (sight c)) clouds ->
  let backend := cpu_voxelize A rg o (map (cpu_cloud fl fl32 gw) clouds) in
  (exists g, voxelize_new backend static (Returns g)) /\
  forall r, voxelize_new backend static r ->
    exists g, r = Returns g /\
      shows (B2R res) (e + d) (16384 * (u * s)) (o_outlier o) (o_cameras o) (map sight clouds) static g.
Proof.
  intros Hfl Fr Hr HN HNs Nx Ny Nz Hs A rg u d e sight HS Sb Sv Hb Hst Ho HG HC backend.
  assert (Hf : few_points A (map (cpu_cloud fl fl32 gw) clouds)).
  { clear - HC. induction HC as [|c l H _ IH]; [constructor|]. constructor; [apply H|exact IH]. }
  destruct (c62_cpu A rg o (map (cpu_cloud fl fl32 gw) clouds) static Hst Ho Hf) as (Ex & Hall). split; [exact Ex|].
  intros r Hr'. destruct (Hall r Hr') as (g & E & Hv). exists g. split; [exact E|].
  destruct Ho as (_ & _ & Ho1 & Ho2).
  apply (map_shows A rg (B2R res) (e + d) (slack u s) (counts_seen_as o) (o_outlier o) (o_cameras o)
    (fun f k => classify_good _ _ f k Ho1) Ho1 Ho2 (map (cpu_cloud fl fl32 gw) clouds)); [exact Hst| |exact Hv].
  clear - Hfl Fr Hr HN HNs Nx Ny Nz Hs HS Sb Sv Hb HG HC. induction HC as [|c l H _ IH]; [constructor|]. constructor; [|exact IH].
  destruct H as (H1 & H2 & H3 & _ & H5).
  exact (far_cloud_matches fl fl32 nx ny nz N res s b S gw c Hfl Fr Hr HN HNs Nx Ny Nz Hs HS Sb Sv Hb HG H1 H2 H3 H5).
Qed.
Print Assumptions c94_cpu.

(** A grid of two voxels of size 1 and a sensor a meter in front of it, with a range of 4,
    that sees one point in the middle of the second voxel and has a second, invalid point:
    the first voxel is free and the second filled. *)
Definition outside_pose : pose (double_ray floor64) :=
  mkPose (double_ray floor64) (half64 2, half64 0, half64 0) (half64 0, half64 2, half64 0) (half64 0, half64 0, half64 2)
    (half64 (-2), half64 1, half64 1).
Definition outside_sensor : wrapped floor64 floor32 :=
  mkWrapped floor64 floor32 outside_pose
    [(half64 5, half64 0, half64 0); (B754_nan, half64 0, half64 0)] [(half32 5, half32 0, half32 0); (B754_nan, half32 0, half32 0)] (half64 8).

Lemma outside_pose_tame : tame (double_ray floor64) is_finite B2R 4 outside_pose.
Proof.
  assert (Q : forall k, (Z.abs k <= 2)%Z -> is_finite (half64 k) = true /\ Rabs (B2R (half64 k)) <= 2).
  { intros k Hk. destruct (half64_val k ltac:(lia)) as (F & ->). split; [exact F|]. assert (-2 <= IZR k <= 2) by (split; apply IZR_le; lia). apply Rabs_le. lra. }
  assert (T : forall k, (Z.abs k <= 2)%Z -> is_finite (half64 k) = true /\ Rabs (B2R (half64 k)) <= 4).
  { intros k Hk. destruct (Q k Hk). split; [assumption|lra]. }
  intros f [ -> |[ -> | -> ]]; (split; [|apply T; lia]); intros a [ -> |[ -> | -> ]];
  cbn [outside_pose po_x po_y po_z vx vy vz fst snd]; apply Q; lia.
Qed.

Lemma outside_pose_placed q : placed (double_ray floor64) B2R outside_pose q = (px q - 1, py q + / 2, pz q + / 2).
Proof.
  destruct (half64_val 0 ltac:(lia)) as (_ & E0). destruct (half64_val 2 ltac:(lia)) as (_ & E2).
  destruct (half64_val (-2) ltac:(lia)) as (_ & Em). destruct (half64_val 1 ltac:(lia)) as (_ & E1).
  unfold placed, rdot, reals, outside_pose. cbn [po_x po_y po_z po_t vx vy vz px py pz fst snd].
  rewrite E0, E1, E2, Em. apply f_equal2; [apply f_equal2|]; lra.
Qed.

Lemma outside_sight : sighting_of (double_ray floor64) (double_ray floor64) B2R B2R (shift_pose 0) (w_pose _ _ outside_sensor) (w_double _ _ outside_sensor)
    (range_of (w_range _ _ outside_sensor)) = mkSighting (-1, / 2, / 2) [Some (3 / 2, / 2, / 2); None] (Some 4).
Proof.
  destruct (half64_val 0 ltac:(lia)) as (F0 & E0). destruct (half64_val 5 ltac:(lia)) as (F5 & E5).
  cbn [outside_sensor w_pose w_double w_range]. rewrite (proj2 one_sensor_range).
  unfold sighting_of. cbn [map].
  replace (vfinite (double_ray floor64) (half64 5, half64 0, half64 0)) with true by (unfold vfinite; cbn [vx vy vz fst snd]; change (r_finite (double_ray floor64)) with (@is_finite 53 1024); now rewrite F0, F5).
  change (vfinite (double_ray floor64) (B754_nan, half64 0, half64 0)) with false. cbv iota.
  rewrite !outside_pose_placed. rewrite !shift_pose_placed by lia.
  unfold reals. cbn [vx vy vz px py pz fst snd]. rewrite E0, E5.
  replace (0 - 1 + 0 / 2) with (-1) by lra. replace (5 / 2 - 1 + 0 / 2) with (3 / 2) by lra.
  replace (0 + / 2 + 0 / 2) with (/ 2) by lra. replace (0 / 2 + / 2 + 0 / 2) with (/ 2) by lra. reflexivity.
Qed.

Lemma outside_shown e w g : 0 < e <= / 8 -> 0 <= w <= 1 ->
  shows 1 e w 1 1 [mkSighting (-1, / 2, / 2) [Some (3 / 2, / 2, / 2); None] (Some 4)] (gconst 2 1 1 half_bits) g ->
  gget g (0, 0, 0)%Z = Some zero_bits /\ gget g (1, 0, 0)%Z = Some one_bits.
Proof.
  intros He Hw H.
  assert (D : dist (-1, / 2, / 2) (3 / 2, / 2, / 2) = 5 / 2).
  { unfold dist. cbn [px py pz fst snd]. replace (_ + _ + _) with ((5 / 2) * (5 / 2)) by lra. apply sqrt_square. lra. }
  split.
  - destruct (H (0, 0, 0)%Z half_bits ltac:(rewrite gget_gconst; reflexivity)) as (b' & Eb & _ & K). rewrite Eb. f_equal.
    destruct (K eq_refl) as (_ & _ & _ & _ & K5 & _). apply K5.
    + exists [0%Z]. split; [constructor; [easy|constructor]|]. split; [unfold zlen; cbn; lia|].
      intros k [ <- |[]]. eexists. split; [reflexivity|]. exists (3 / 2, / 2, / 2). split; [now left|].
      exists (3 / 5). split; [lra|]. cbn [sg_range sg_origin up_to]. rewrite D. split; [lra|].
      unfold deep_in_voxel, along. cbn [px py pz ix iy iz fst snd]. lra.
    + intros S p [ <- |[]] [E|[E|[]]]; [|discriminate]. injection E as <-. intros (_ & (X & _ & _)).
      cbn [px ix fst snd] in X. lra.
  - destruct (H (1, 0, 0)%Z half_bits ltac:(rewrite gget_gconst; reflexivity)) as (b' & Eb & _ & K). rewrite Eb. f_equal.
    destruct (K eq_refl) as (_ & _ & _ & K4 & _ & _). apply K4.
    assert (Q : surely_ends 1 e w (mkSighting (-1, / 2, / 2) [Some (3 / 2, / 2, / 2); None] (Some 4)) (1, 0, 0)%Z (3 / 2, / 2, / 2)).
    { split; [cbn [sg_range sg_origin up_to]; rewrite D; lra|]. unfold deep_in_voxel. cbn [px py pz ix iy iz fst snd]. lra. }
    eexists. split; [left; reflexivity|]. split.
    + exists [0%Z]. split; [constructor; [easy|constructor]|]. split; [unfold zlen; cbn; lia|].
      intros k [ <- |[]]. eexists. split; [reflexivity|]. eexists. split; [reflexivity|exact Q].
    + intros p [E|[E|[]]] _; [|discriminate]. injection E as <-. exact Q.
Qed.

Lemma outside_good a w d x : 0 < a <= / 8 -> 0 <= w <= / 8 -> d < 1 -> x <= / 2 ->
  good_view 1 a w d x 2 2 1 1 (mkSighting (-1, / 2, / 2) [Some (3 / 2, / 2, / 2); None] (Some 4)).
Proof.
  intros Ha Hw Hd Hx.
  assert (D : dist (-1, / 2, / 2) (3 / 2, / 2, / 2) = 5 / 2).
  { unfold dist. cbn [px py pz fst snd]. replace (_ + _ + _) with ((5 / 2) * (5 / 2)) by lra. apply sqrt_square. lra. }
  assert (P : Rabs (/ 2) = / 2) by (apply Rabs_pos_eq; lra). assert (M : Rabs (-1) = 1) by (rewrite Rabs_left; lra).
  split; [unfold within; cbn [sg_origin px py pz fst snd]; rewrite P, M; lra|].
  split; [cbn [sg_origin px py pz fst snd]; rewrite P, M; lra|].
  intros p [E|[E|[]]]; [|discriminate]. injection E as <-. split.
  { unfold within. cbn [px py pz fst snd]. rewrite P, (Rabs_pos_eq (3 / 2)) by lra. lra. }
  right. split; [left; cbn [sg_origin px fst snd]; rewrite Rabs_pos_eq; lra|].
  left. cbn [sg_origin sg_range]. intros t whole Ht (C & _ & _). rewrite D, Rmin_left in C by lra.
  apply Rabs_le_inv in C. unfold reaches, reaches_axis, along. cbn [px py pz fst snd]. repeat split; lra.
Qed.

Example c94_case (r : outcome) :
  voxelize_new (cpu_voxelize (double_ray floor64) (double_grid floor64 2 1 1 (half64 2)) default_options
    (map (cpu_cloud floor64 floor32 (shift_pose 0)) [outside_sensor])) (gconst 2 1 1 half_bits) r ->
  exists g, r = Returns g /\ gget g (0, 0, 0)%Z = Some zero_bits /\ gget g (1, 0, 0)%Z = Some one_bits.
Proof.
  destruct (half64_val 0 ltac:(lia)) as (F0 & E0). destruct (half64_val 2 ltac:(lia)) as (F2 & E2). destruct (half64_val 5 ltac:(lia)) as (F5 & E5).
  assert (Hr : B2R (half64 2) = 1) by (rewrite E2; lra).
  assert (U : 0 < bpow radix2 (-53) <= / 1000000000).
  { split; [apply bpow_gt_0|]. apply Rle_trans with (bpow radix2 (-30)); [apply bpow_le; lia|cbn; lra]. }
  assert (U3 : bpow radix2 (-30) <= / 8) by (apply Rle_trans with (bpow radix2 (-3)); [apply bpow_le; lia|cbn; lra]).
  pose proof far_case_error as FE.
  intros Hv.
  refine ((fun T => _) (c94_cpu floor64 floor32 2 1 1 2 (half64 2) 4 2 4 default_options (shift_pose 0) [outside_sensor] (gconst 2 1 1 half_bits)
    ltac:(intros x _ _; reflexivity) F2 _ ltac:(lia) ltac:(lia) ltac:(lia) ltac:(lia) ltac:(lia) _ _ _ _ _ _ (proj1 c44_case) _ _)).
  - cbv zeta in T. destruct (proj2 T r Hv) as (g & Eg & S). exists g. split; [exact Eg|]. clear T Hv.
    rewrite Hr in S. cbn [map] in S. rewrite outside_sight in S.
    revert S. apply outside_shown; lra.
  - rewrite Hr. change 1 with (bpow radix2 0). split; apply bpow_le; lia.
  - rewrite Hr, Rmult_1_r. change 4 with (bpow radix2 2). split; apply bpow_le; lia.
  - rewrite Hr. lra.
  - lra.
  - rewrite Hr. lra.
  - lra.
  - split; [apply gconst_wf; lia|repeat split].
  - apply shift_pose_tame; [lia|lra].
  - constructor; [|constructor]. split; [exact outside_pose_tame|]. split.
    { intros p [ <- |[ <- |[]]] F; [|discriminate]. unfold within, reals. cbn [vx vy vz px py pz fst snd]. rewrite E0, E5.
      repeat split; apply Rabs_le; lra. }
    split; [apply one_sensor_range|]. split; [reflexivity|]. rewrite outside_sight, Hr. apply outside_good; lra.
Qed.
