(** Property of voxelization with poses, ranges and rounding (C90). *)
From Coq Require Import ZArith Reals List Bool Lia Lra.
From Flocq Require Import Core BinarySingleNaN.
From Verif Require Import Util Grid SdfSpec FloatModel Occ FilterModel FilterSpec FilterProofs RaycastModel RaycastSpec RayGeoSpec RayRoundSpec
  RayFloatModel RayFloatTop PoseModel VoxelRoundSpec VoxelShowProofs PoseProofs VoxelRoundProofs PropsFilter PropsRayRound.
From Verif Require SdfDoubleSpec.
Import ListNotations.
Local Open Scope R_scope.

(** ** C90 *)

(** Voxelization on the CPU, from the poses and the clouds to the map: for moderate numbers
    and sensors in the grid it returns a map, in every execution, and the map shows what
    the sensors saw, up to a small multiple of the rounding unit 2^-53. *)
Theorem c90_cpu fl fl32 nx ny nz N (res : b64) s o gw (clouds : list (wrapped fl fl32)) (static : grid occ) :
  SdfDoubleSpec.floors fl -> is_finite res = true -> bpow radix2 (-300) <= B2R res <= bpow radix2 300 ->
  (1 <= N)%Z -> (N * (N + 128) <= 2 ^ 53)%Z -> (nx <= N)%Z -> (ny <= N)%Z -> (nz <= N)%Z ->
  bpow radix2 (-300) <= s <= bpow radix2 44 * B2R res ->
  let A := double_ray fl in
  let rg := double_grid fl nx ny nz res in
  let u := bpow radix2 (-53) in
  let e := IZR N * (IZR N + 128) * u * B2R res + 500 * (u * s) in
  map_for rg static -> valid_options o -> tame A is_finite B2R s gw ->
  Forall (fun c => good_sensor A A is_finite B2R B2R s (B2R res) (e + bpow radix2 (-30) * B2R res) nx ny nz gw (w_pose _ _ c) (w_double _ _ c) (w_range _ _ c)) clouds ->
  let backend := cpu_voxelize A rg o (map (cpu_cloud fl fl32 gw) clouds) in
  (exists g, voxelize_new backend static (Returns g)) /\
  forall r, voxelize_new backend static r ->
    exists g, r = Returns g /\
      shows (B2R res) e (16384 * (u * s)) (o_outlier o) (o_cameras o)
        (map (fun c => sighting_of A A B2R B2R gw (w_pose _ _ c) (w_double _ _ c) (range_of (w_range _ _ c))) clouds) static g.
Proof.
  intros Hfl Fr Hr HN HNs Nx Ny Nz Hs A rg u e Hst Ho HG HC backend.
  assert (Hf : few_points A (map (cpu_cloud fl fl32 gw) clouds)).
  { clear - HC. induction HC as [|c l H _ IH]; [constructor|]. constructor; [apply H|exact IH]. }
  destruct (c62_cpu A rg o (map (cpu_cloud fl fl32 gw) clouds) static Hst Ho Hf) as (Ex & Hall). split; [exact Ex|].
  intros r Hr'. destruct (Hall r Hr') as (g & E & Hv). exists g. split; [exact E|].
  destruct Ho as (_ & _ & Ho1 & Ho2).
  apply (map_shows A rg (B2R res) e (slack u s) (counts_seen_as o) (o_outlier o) (o_cameras o)
    (fun f k => classify_good _ _ f k Ho1) Ho1 Ho2 (map (cpu_cloud fl fl32 gw) clouds)); [exact Hst| |exact Hv].
  assert (Q : forall c, good_sensor A A is_finite B2R B2R s (B2R res) (e + bpow radix2 (-30) * B2R res) nx ny nz gw (w_pose _ _ c) (w_double _ _ c) (w_range _ _ c) ->
    cloud_matches A rg (B2R res) e (slack u s) (cpu_cloud fl fl32 gw c)
      (sighting_of A A B2R B2R gw (w_pose _ _ c) (w_double _ _ c) (range_of (w_range _ _ c)))).
  { intros c (H1 & H2 & H3 & _ & H5).
    exact (cpu_cloud_matches fl fl32 nx ny nz N res s gw c Hfl Fr Hr HN HNs Nx Ny Nz Hs HG H1 H2 H3 H5). }
  clear - HC Q. induction HC as [|c l H _ IH]; [constructor|]. constructor; [exact (Q c H)|exact IH].
Qed.
Print Assumptions c90_cpu.

(** The same on the devices, where the composed transform and the range are rounded to
    binary32 and points, grid and rays are in binary32. *)
Theorem c90_devices fl fl32 nx ny nz N (res : b64) s o gw threads (clouds : list (wrapped fl fl32)) (static output : grid occ) :
  SdfDoubleSpec.floors fl -> (forall x : b32, is_finite x = true -> Rabs (B2R x) < bpow radix2 31 -> fl32 x = Zfloor (B2R x)) ->
  is_finite res = true -> bpow radix2 (-20) <= B2R res <= bpow radix2 20 ->
  (1 <= N)%Z -> (N * (N + 128) <= 2 ^ 24)%Z -> (nx <= N)%Z -> (ny <= N)%Z -> (nz <= N)%Z ->
  bpow radix2 (-30) <= s <= bpow radix2 14 * B2R res ->
  let A := double_ray fl in
  let B := float32_ray fl32 in
  let rg := float32_grid fl32 nx ny nz res in
  let u := bpow radix2 (-24) in
  let e := IZR N * (IZR N + 130) * u * B2R res + 500 * (u * s) in
  map_for rg static -> map_for rg output -> valid_options o -> (0 < threads)%Z ->
  (2 * (g_total static * Z.max (zlen clouds) 1) <= 2 ^ 31)%Z -> (2 * g_total static < 2 ^ 31)%Z -> tame A is_finite B2R s gw ->
  Forall (fun c => good_sensor A B is_finite B2R B2R s (B2R res) (e + bpow radix2 (-15) * B2R res) nx ny nz gw (w_pose _ _ c) (w_float _ _ c) (w_range _ _ c)) clouds ->
  forall backend, backend = cuda_voxelize B rg o threads (map (dev_cloud fl fl32 gw) clouds) \/
    backend = opencl_voxelize B rg o (map (dev_cloud fl fl32 gw) clouds) ->
  (exists g, voxelize_into backend static output (Returns g)) /\
  forall r, voxelize_into backend static output r ->
    exists g, r = Returns g /\
      shows (B2R res) e (16384 * (u * s)) (o_outlier o) (o_cameras o)
        (map (fun c => sighting_of A B B2R B2R gw (w_pose _ _ c) (w_float _ _ c) (range_of (w_range _ _ c))) clouds) static g.
Proof.
  intros Hfl Hfl32 Fr Hr HN HNs Nx Ny Nz Hs A B rg u e Hst Hot Ho Hth Hz1 Hz2 HG HC backend Hb.
  assert (Hf : few_points B (map (dev_cloud fl fl32 gw) clouds)).
  { clear - HC. induction HC as [|c l H _ IH]; [constructor|]. constructor; [apply H|exact IH]. }
  assert (Hz : (2 * (g_total static * Z.max (zlen (map (dev_cloud fl fl32 gw) clouds)) 1) <= 2 ^ 31)%Z).
  { unfold zlen in *. rewrite map_length. exact Hz1. }
  destruct (c62_device B rg o threads (map (dev_cloud fl fl32 gw) clouds) static output Hst Hot Ho Hf Hth Hz Hz2 backend Hb) as (Ex & Hall).
  split; [exact Ex|].
  intros r Hr'. destruct (Hall r Hr') as (g & E & Hv). exists g. split; [exact E|].
  destruct Ho as (_ & _ & Ho1 & Ho2).
  apply (map_shows B rg (B2R res) e (slack u s) (dev_seen_as o) (o_outlier o) (o_cameras o)
    (fun f k => classify_good _ _ f k Ho1) Ho1 Ho2 (map (dev_cloud fl fl32 gw) clouds)); [exact Hst| |exact Hv].
  assert (Q : forall c, good_sensor A B is_finite B2R B2R s (B2R res) (e + bpow radix2 (-15) * B2R res) nx ny nz gw (w_pose _ _ c) (w_float _ _ c) (w_range _ _ c) ->
    cloud_matches B rg (B2R res) e (slack u s) (dev_cloud fl fl32 gw c)
      (sighting_of A B B2R B2R gw (w_pose _ _ c) (w_float _ _ c) (range_of (w_range _ _ c)))).
  { intros c (H1 & H2 & H3 & _ & H5).
    exact (dev_cloud_matches fl fl32 nx ny nz N res s gw c Hfl Hfl32 Fr Hr HN HNs Nx Ny Nz Hs HG H1 H2 H3 H5). }
  clear - HC Q. induction HC as [|c l H _ IH]; [constructor|]. constructor; [exact (Q c H)|exact IH].
Qed.
Print Assumptions c90_devices.

(** The kernels read the sensor's location from the translation of the composed transform;
    the model of the clouds applies the transform to zero, which is the same up to the sign
    of a zero. *)
Theorem c90_origin fl fl32 gw (c : wrapped fl fl32) :
  let B := float32_ray fl32 in
  let X := cast_pose fl fl32 (pose_mul _ gw (w_pose _ _ c)) in
  (forall f, f = vx B \/ f = vy B \/ f = vz B -> is_finite (f (po_x B X)) = true /\ is_finite (f (po_y B X)) = true /\ is_finite (f (po_z B X)) = true) ->
  forall f, f = vx B \/ f = vy B \/ f = vz B ->
  f (c_origin B (dev_cloud fl fl32 gw c)) = f (po_t B X) \/
  (f (c_origin B (dev_cloud fl fl32 gw c)) = B754_zero false /\ f (po_t B X) = B754_zero true).
Proof.
  intros B X HF.
  assert (Q : forall (a : vec B) (t : b32), is_finite (vx B a) = true -> is_finite (vy B a) = true -> is_finite (vz B a) = true ->
    let y := r_add B (dot3 B a (r_zero B, r_zero B, r_zero B)) t in y = t \/ (y = B754_zero false /\ t = B754_zero true)).
  { intros ((x, y), z) t. cbn [vx vy vz fst snd]. intros Fx Fy Fz. cbv zeta.
    destruct x as [[]| | |[]]; try discriminate Fx; destruct y as [[]| | |[]]; try discriminate Fy; destruct z as [[]| | |[]]; try discriminate Fz;
    destruct t as [[]|[]| |[]]; (left; reflexivity) || (right; split; reflexivity). }
  pose proof (HF _ (or_introl eq_refl)) as (X1 & X2 & X3). pose proof (HF _ (or_intror (or_introl eq_refl))) as (Y1 & Y2 & Y3).
  pose proof (HF _ (or_intror (or_intror eq_refl))) as (Z1 & Z2 & Z3).
  intros f [ -> |[ -> | -> ]]; [exact (Q _ _ X1 Y1 Z1)|exact (Q _ _ X2 Y2 Z2)|exact (Q _ _ X3 Y3 Z3)].
Qed.
Print Assumptions c90_origin.

(** A grid of two voxels of size 1 and a sensor in the middle of the first, with a range of
    4, that sees one point in the middle of the second and has a second, invalid point: the
    first voxel is free and the second filled, on every backend. *)
Definition shift_pose (t : Z) : pose (double_ray floor64) :=
  mkPose (double_ray floor64) (half64 2, half64 0, half64 0) (half64 0, half64 2, half64 0) (half64 0, half64 0, half64 2)
    (half64 t, half64 t, half64 t).
Definition one_sensor : wrapped floor64 floor32 :=
  mkWrapped floor64 floor32 (shift_pose 1)
    [(half64 2, half64 0, half64 0); (B754_nan, half64 0, half64 0)] [(half32 2, half32 0, half32 0); (B754_nan, half32 0, half32 0)] (half64 8).

Lemma two_cells_shown e w g : 0 < e <= / 8 -> 0 <= w <= 1 ->
  shows 1 e w 1 1 [mkSighting (/ 2, / 2, / 2) [Some (3 / 2, / 2, / 2); None] (Some 4)] (gconst 2 1 1 half_bits) g ->
  gget g (0, 0, 0)%Z = Some zero_bits /\ gget g (1, 0, 0)%Z = Some one_bits.
Proof.
  intros He Hw H.
  assert (D : dist (/ 2, / 2, / 2) (3 / 2, / 2, / 2) = 1).
  { unfold dist. cbn [px py pz fst snd]. replace (_ + _ + _) with (1 * 1) by lra. apply sqrt_square. lra. }
  split.
  - destruct (H (0, 0, 0)%Z half_bits ltac:(rewrite gget_gconst; reflexivity)) as (b' & Eb & _ & K). rewrite Eb. f_equal.
    destruct (K eq_refl) as (_ & _ & _ & _ & K5 & _). apply K5.
    + exists [0%Z]. split; [constructor; [easy|constructor]|]. split; [unfold zlen; cbn; lia|].
      intros k [ <- |[]]. eexists. split; [reflexivity|]. exists (3 / 2, / 2, / 2). split; [now left|].
      exists 0. split; [lra|]. cbn [sg_range sg_origin up_to]. rewrite D. split; [lra|].
      unfold deep_in_voxel, along. cbn [px py pz ix iy iz fst snd]. lra.
    + intros S p [ <- |[]] [E|[E|[]]]; [|discriminate]. injection E as <-. intros (_ & (X & _ & _)).
      cbn [px ix fst snd] in X. lra.
  - destruct (H (1, 0, 0)%Z half_bits ltac:(rewrite gget_gconst; reflexivity)) as (b' & Eb & _ & K). rewrite Eb. f_equal.
    destruct (K eq_refl) as (_ & _ & _ & K4 & _ & _). apply K4.
    assert (Q : surely_ends 1 e w (mkSighting (/ 2, / 2, / 2) [Some (3 / 2, / 2, / 2); None] (Some 4)) (1, 0, 0)%Z (3 / 2, / 2, / 2)).
    { split; [cbn [sg_range sg_origin up_to]; rewrite D; lra|]. unfold deep_in_voxel. cbn [px py pz ix iy iz fst snd]. lra. }
    eexists. split; [left; reflexivity|]. split.
    + exists [0%Z]. split; [constructor; [easy|constructor]|]. split; [unfold zlen; cbn; lia|].
      intros k [ <- |[]]. eexists. split; [reflexivity|]. eexists. split; [reflexivity|exact Q].
    + intros p [E|[E|[]]] _; [|discriminate]. injection E as <-. exact Q.
Qed.

Lemma shift_pose_tame t s : (0 <= t <= 2)%Z -> 1 <= s -> tame (double_ray floor64) is_finite B2R s (shift_pose t).
Proof.
  intros Ht Hs. destruct (half64_val 0 ltac:(lia)) as (F0 & E0). destruct (half64_val 2 ltac:(lia)) as (F2 & E2).
  destruct (half64_val t ltac:(lia)) as (Ft & Et). assert (0 <= IZR t <= 2) by (split; apply IZR_le; lia).
  assert (Q0 : is_finite (half64 0) = true /\ Rabs (B2R (half64 0)) <= 2) by (split; [exact F0|rewrite E0; apply Rabs_le; lra]).
  assert (Q2 : is_finite (half64 2) = true /\ Rabs (B2R (half64 2)) <= 2) by (split; [exact F2|rewrite E2; apply Rabs_le; lra]).
  assert (T : is_finite (half64 t) = true /\ Rabs (B2R (half64 t)) <= s).
  { split; [exact Ft|]. rewrite Et. apply Rabs_le. lra. }
  intros f [ -> |[ -> | -> ]]; (split; [|exact T]); intros a [ -> |[ -> | -> ]];
  cbn [shift_pose po_x po_y po_z vx vy vz fst snd]; match goal with |- is_finite (half64 0) = true /\ _ => exact Q0 | _ => exact Q2 end.
Qed.

Lemma shift_pose_placed t q : (0 <= t <= 2)%Z ->
  placed (double_ray floor64) B2R (shift_pose t) q = (px q + IZR t / 2, py q + IZR t / 2, pz q + IZR t / 2).
Proof.
  intros Ht. destruct (half64_val 0 ltac:(lia)) as (_ & E0). destruct (half64_val 2 ltac:(lia)) as (_ & E2).
  destruct (half64_val t ltac:(lia)) as (_ & Et). unfold placed, rdot, reals, shift_pose. cbn [po_x po_y po_z po_t vx vy vz px py pz fst snd].
  rewrite E0, E2, Et. f_equal; [f_equal|]; lra.
Qed.

Lemma one_sensor_range : good_range (half64 8) /\ range_of (half64 8) = Some 4.
Proof.
  destruct (half64_val 8 ltac:(lia)) as (F & E). split.
  - right. split; [exact F|]. rewrite E. split; [lra|]. apply Rle_trans with (bpow radix2 2); [cbn; lra|apply bpow_le; lia].
  - unfold range_of. rewrite F, E. f_equal. lra.
Qed.

Lemma one_sensor_inside a : a <= / 4 ->
  inside 1 a 2 1 1 (placed (double_ray floor64) B2R (shift_pose 0) (placed (double_ray floor64) B2R (shift_pose 1) (0, 0, 0))).
Proof.
  intros Ha. rewrite !shift_pose_placed by lia. unfold inside. cbn [px py pz fst snd]. lra.
Qed.

Example c90_cpu_case (r : outcome) :
  voxelize_new (cpu_voxelize (double_ray floor64) (double_grid floor64 2 1 1 (half64 2)) default_options
    (map (cpu_cloud floor64 floor32 (shift_pose 0)) [one_sensor])) (gconst 2 1 1 half_bits) r ->
  exists g, r = Returns g /\ gget g (0, 0, 0)%Z = Some zero_bits /\ gget g (1, 0, 0)%Z = Some one_bits.
Proof.
  destruct (half64_val 0 ltac:(lia)) as (F0 & E0). destruct (half64_val 2 ltac:(lia)) as (F2 & E2).
  assert (Hr : B2R (half64 2) = 1) by (rewrite E2; lra).
  assert (U : 0 < bpow radix2 (-53) <= / 1000000).
  { split; [apply bpow_gt_0|]. apply Rle_trans with (bpow radix2 (-20)); [apply bpow_le; lia|cbn; lra]. }
  assert (U3 : bpow radix2 (-30) <= / 8) by (apply Rle_trans with (bpow radix2 (-3)); [apply bpow_le; lia|cbn; lra]).
  intros Hv.
  refine ((fun T => _) (c90_cpu floor64 floor32 2 1 1 2 (half64 2) 1 default_options (shift_pose 0) [one_sensor] (gconst 2 1 1 half_bits)
    ltac:(intros x _ _; reflexivity) F2 _ ltac:(lia) ltac:(lia) ltac:(lia) ltac:(lia) ltac:(lia) _ _ (proj1 c44_case) _ _)).
  - cbv zeta in T. destruct (proj2 T r Hv) as (g & Eg & S). exists g. split; [exact Eg|]. clear T Hv.
    rewrite Hr in S. cbn [map one_sensor w_pose w_double w_range] in S. rewrite (proj2 one_sensor_range) in S.
    unfold sighting_of in S. cbn [map] in S. rewrite !shift_pose_placed in S by lia.
    replace (vfinite (double_ray floor64) (half64 2, half64 0, half64 0)) with true in S by (unfold vfinite; cbn [vx vy vz fst snd]; change (r_finite (double_ray floor64)) with (@is_finite 53 1024); now rewrite F0, F2).
    change (vfinite (double_ray floor64) (B754_nan, half64 0, half64 0)) with false in S. cbv iota in S.
    unfold reals in S. cbn [vx vy vz px py pz fst snd] in S. rewrite E0, E2 in S.
    replace (0 + 1 / 2 + 0 / 2) with (/ 2) in S by lra. replace (2 / 2 + 1 / 2 + 0 / 2) with (3 / 2) in S by lra.
    replace (0 / 2 + 1 / 2 + 0 / 2) with (/ 2) in S by lra.
    revert S. apply two_cells_shown; lra.
  - rewrite Hr. change 1 with (bpow radix2 0). split; apply bpow_le; lia.
  - rewrite Hr, Rmult_1_r. change 1 with (bpow radix2 0). split; apply bpow_le; lia.
  - split; [apply gconst_wf; lia|repeat split].
  - apply shift_pose_tame; [lia|lra].
  - constructor; [|constructor]. split; [apply shift_pose_tame; [lia|lra]|]. split.
    { intros p [ <- |[ <- |[]]] F; [|discriminate]. unfold within, reals. cbn [vx vy vz px py pz fst snd]. rewrite E0, E2.
      repeat split; apply Rabs_le; lra. }
    split; [apply one_sensor_range|]. split; [reflexivity|]. rewrite Hr. apply one_sensor_inside. lra.
Qed.

Example c90_devices_case backend (r : outcome) :
  (exists threads, (0 < threads)%Z /\ backend = cuda_voxelize (float32_ray floor32) (float32_grid floor32 2 1 1 (half64 2)) default_options threads
     (map (dev_cloud floor64 floor32 (shift_pose 0)) [one_sensor])) \/
  backend = opencl_voxelize (float32_ray floor32) (float32_grid floor32 2 1 1 (half64 2)) default_options
    (map (dev_cloud floor64 floor32 (shift_pose 0)) [one_sensor]) ->
  voxelize_new backend (gconst 2 1 1 half_bits) r ->
  exists g, r = Returns g /\ gget g (0, 0, 0)%Z = Some zero_bits /\ gget g (1, 0, 0)%Z = Some one_bits.
Proof.
  destruct (half64_val 2 ltac:(lia)) as (F2 & E2).
  destruct (half32_val 0 ltac:(lia)) as (F0' & E0'). destruct (half32_val 2 ltac:(lia)) as (F2' & E2').
  assert (Hr : B2R (half64 2) = 1) by (rewrite E2; lra).
  assert (U : 0 < bpow radix2 (-24) <= / 1000000).
  { split; [apply bpow_gt_0|]. apply Rle_trans with (bpow radix2 (-20)); [apply bpow_le; lia|cbn; lra]. }
  assert (U3 : bpow radix2 (-15) <= / 8) by (apply Rle_trans with (bpow radix2 (-3)); [apply bpow_le; lia|cbn; lra]).
  intros Hb Hv.
  assert (Hb' : exists threads, (0 < threads)%Z /\
    (backend = cuda_voxelize (float32_ray floor32) (float32_grid floor32 2 1 1 (half64 2)) default_options threads
       (map (dev_cloud floor64 floor32 (shift_pose 0)) [one_sensor]) \/
     backend = opencl_voxelize (float32_ray floor32) (float32_grid floor32 2 1 1 (half64 2)) default_options
       (map (dev_cloud floor64 floor32 (shift_pose 0)) [one_sensor]))).
  { destruct Hb as [(t & Ht & E)|E]; [exists t; split; [exact Ht|left; exact E]|exists 1%Z; split; [lia|right; exact E]]. }
  destruct Hb' as (threads & Hth & Hb').
  assert (Hm : map_for (float32_grid floor32 2 1 1 (half64 2)) (gconst 2 1 1 half_bits)) by (split; [apply gconst_wf; lia|repeat split]).
  refine ((fun T => _) (c90_devices floor64 floor32 2 1 1 2 (half64 2) 1 default_options (shift_pose 0) threads [one_sensor] (gconst 2 1 1 half_bits) (gconst 2 1 1 half_bits)
    ltac:(intros x _ _; reflexivity) ltac:(intros x _ _; reflexivity) F2 _ ltac:(lia) ltac:(lia) ltac:(lia) ltac:(lia) ltac:(lia) _ Hm Hm
    (proj1 c44_case) Hth ltac:(unfold zlen; cbn; lia) ltac:(cbn; lia) _ _ backend Hb')).
  - cbv zeta in T. destruct (proj2 T r Hv) as (g & Eg & S). exists g. split; [exact Eg|]. clear T Hv.
    rewrite Hr in S. cbn [map one_sensor w_pose w_float w_range] in S. rewrite (proj2 one_sensor_range) in S.
    unfold sighting_of in S. cbn [map] in S. rewrite !shift_pose_placed in S by lia.
    replace (vfinite (float32_ray floor32) (half32 2, half32 0, half32 0)) with true in S by (unfold vfinite; cbn [vx vy vz fst snd]; change (r_finite (float32_ray floor32)) with (@is_finite 24 128); now rewrite F0', F2').
    change (vfinite (float32_ray floor32) (B754_nan, half32 0, half32 0)) with false in S. cbv iota in S.
    unfold reals in S. cbn [vx vy vz px py pz fst snd] in S. rewrite E0', E2' in S.
    replace (0 + 1 / 2 + 0 / 2) with (/ 2) in S by lra. replace (2 / 2 + 1 / 2 + 0 / 2) with (3 / 2) in S by lra.
    replace (0 / 2 + 1 / 2 + 0 / 2) with (/ 2) in S by lra.
    revert S. apply two_cells_shown; lra.
  - rewrite Hr. change 1 with (bpow radix2 0). split; apply bpow_le; lia.
  - rewrite Hr, Rmult_1_r. change 1 with (bpow radix2 0). split; apply bpow_le; lia.
  - apply shift_pose_tame; [lia|lra].
  - constructor; [|constructor]. split; [apply shift_pose_tame; [lia|lra]|]. split.
    { intros p [ <- |[ <- |[]]] F; [|discriminate]. unfold within, reals. cbn [vx vy vz px py pz fst snd]. rewrite E0', E2'.
      repeat split; apply Rabs_le; lra. }
    split; [apply one_sensor_range|]. split; [reflexivity|]. rewrite Hr. apply one_sensor_inside. lra.
Qed.
