(** The backends agree on what the sensors saw (C92). *)
From Coq Require Import ZArith Reals List Bool Lia Lra.
From Flocq Require Import Core BinarySingleNaN.
From Verif Require Import Util Grid SdfSpec FloatModel Occ FilterModel FilterSpec FilterProofs RaycastModel RaycastSpec RayGeoSpec RayRoundSpec
  RayFloatModel RayFloatTop PoseModel VoxelRoundSpec VoxelShowProofs PoseProofs VoxelRoundProofs PropsFilter PropsRayRound PropsVoxelRound AgreeSpec AgreeProofs.
From Verif Require SdfDoubleSpec.
Import ListNotations.
Local Open Scope R_scope.

(** ** C92 *)

(** The clouds with their points rounded to floats are voxelized on a device, and with
    points in double precision on the CPU: in every execution of either, the maps agree on
    each cell that the sensors decide with a margin of a small multiple of 2^-24. *)
Theorem c92_agree fl fl32 nx ny nz N (res : b64) s o gw threads (clouds : list (wrapped fl fl32)) (static output : grid occ) :
  SdfDoubleSpec.floors fl -> (forall x : b32, is_finite x = true -> Rabs (B2R x) < bpow radix2 31 -> fl32 x = Zfloor (B2R x)) ->
  is_finite res = true -> bpow radix2 (-20) <= B2R res <= bpow radix2 20 ->
  (1 <= N)%Z -> (N * (N + 128) <= 2 ^ 24)%Z -> (nx <= N)%Z -> (ny <= N)%Z -> (nz <= N)%Z ->
  bpow radix2 (-30) <= s <= bpow radix2 14 * B2R res ->
  let A := double_ray fl in
  let B := float32_ray fl32 in
  let rgA := double_grid fl nx ny nz res in
  let rgB := float32_grid fl32 nx ny nz res in
  let u := bpow radix2 (-24) in
  let e := IZR N * (IZR N + 130) * u * B2R res + 572 * (u * s) in
  let w := 16672 * (u * s) in
  map_for rgA static -> map_for rgB output -> valid_options o -> (0 < threads)%Z ->
  (2 * (g_total static * Z.max (zlen clouds) 1) <= 2 ^ 31)%Z -> (2 * g_total static < 2 ^ 31)%Z -> tame A is_finite B2R s gw ->
  Forall (fun c => w_float _ _ c = map (cast_vec fl fl32) (w_double _ _ c) /\
    (forall p, In p (w_float _ _ c) -> vfinite B p = true -> within s (reals B B2R p)) /\
    good_sensor A A is_finite B2R B2R s (B2R res) (e + bpow radix2 (-15) * B2R res) nx ny nz gw (w_pose _ _ c) (w_double _ _ c) (w_range _ _ c)) clouds ->
  let seen := map (fun c => sighting_of A A B2R B2R gw (w_pose _ _ c) (w_double _ _ c) (range_of (w_range _ _ c))) clouds in
  forall device, device = cuda_voxelize B rgB o threads (map (dev_cloud fl fl32 gw) clouds) \/
    device = opencl_voxelize B rgB o (map (dev_cloud fl fl32 gw) clouds) ->
  forall r r', voxelize_new (cpu_voxelize A rgA o (map (cpu_cloud fl fl32 gw) clouds)) static r -> voxelize_into device static output r' ->
  exists g g', r = Returns g /\ r' = Returns g' /\
    forall i, in_box nx ny nz i -> clear_cut (B2R res) e w (o_outlier o) (o_cameras o) seen static i -> gget g i = gget g' i.
Proof.
  intros Hfl Hfl32 Fr Hr HN HNs Nx Ny Nz Hs A B rgA rgB u e w Hst Hot Ho Hth Hz1 Hz2 HG HC seen device Hb r r' Hr1 Hr2.
  pose proof (bpow_gt_0 radix2 (-30)) as B30. pose proof (bpow_gt_0 radix2 (-24)) as B24. pose proof (bpow_gt_0 radix2 (-20)) as B20.
  pose proof (bpow_gt_0 radix2 (-53)) as B53. pose proof (bpow_gt_0 radix2 (-15)) as B15.
  assert (U : bpow radix2 (-53) <= u) by (apply bpow_le; lia). assert (V1 : bpow radix2 (-30) <= bpow radix2 (-15)) by (apply bpow_le; lia).
  assert (Us : bpow radix2 (-53) * s <= u * s) by (apply Rmult_le_compat_r; lra).
  assert (us0 : 0 <= u * s) by (apply Rmult_le_pos; unfold u; lra).
  assert (N1 : 1 <= IZR N) by (apply IZR_le; exact HN).
  assert (E1 : IZR N * (IZR N + 128) * bpow radix2 (-53) * B2R res <= IZR N * (IZR N + 130) * u * B2R res).
  { apply Rmult_le_compat_r; [lra|]. apply Rmult_le_compat; [apply Rmult_le_pos; lra|lra|apply Rmult_le_compat_l; lra|exact U]. }
  assert (V2 : bpow radix2 (-30) * B2R res <= bpow radix2 (-15) * B2R res) by (apply Rmult_le_compat_r; lra).
  assert (Hr9 : bpow radix2 (-300) <= B2R res <= bpow radix2 300).
  { split; [eapply Rle_trans; [|apply Hr]|eapply Rle_trans; [apply Hr|]]; apply bpow_le; clear; lia. }
  assert (Hs9 : bpow radix2 (-300) <= s <= bpow radix2 44 * B2R res).
  { split; [eapply Rle_trans; [|apply Hs]; apply bpow_le; clear; lia|]. eapply Rle_trans; [apply Hs|]. apply Rmult_le_compat_r; [lra|apply bpow_le; clear; lia]. }
  assert (Hs34 : bpow radix2 (-30) <= s <= bpow radix2 34).
  { split; [apply Hs|]. eapply Rle_trans; [apply Hs|]. change (bpow radix2 34) with (bpow radix2 (14 + 20)). rewrite bpow_plus.
    apply Rmult_le_compat_l; [apply bpow_ge_0|apply Hr]. }
  assert (HN9 : (N * (N + 128) <= 2 ^ 53)%Z) by (clear - HNs; lia).
  assert (HstB : map_for rgB static) by exact Hst.
  assert (C1 : Forall (fun c => good_sensor A A is_finite B2R B2R s (B2R res) (IZR N * (IZR N + 128) * bpow radix2 (-53) * B2R res + 500 * (bpow radix2 (-53) * s) + bpow radix2 (-30) * B2R res)
    nx ny nz gw (w_pose _ _ c) (w_double _ _ c) (w_range _ _ c)) clouds).
  { refine (Forall_impl _ _ HC). intros c (_ & _ & T & P & R & Z & I). split; [exact T|]. split; [exact P|]. split; [exact R|]. split; [exact Z|].
    refine (inside_weaken _ _ _ _ _ _ _ _ 0 I _ _); [|unfold e; lra].
    unfold close. rewrite !Rminus_diag_eq, Rabs_R0 by reflexivity. repeat split; lra. }
  assert (C2 : Forall (fun c => good_sensor A B is_finite B2R B2R s (B2R res) (IZR N * (IZR N + 130) * u * B2R res + 500 * (u * s) + bpow radix2 (-15) * B2R res)
    nx ny nz gw (w_pose _ _ c) (w_float _ _ c) (w_range _ _ c)) clouds).
  { refine (Forall_impl _ _ HC). intros c (Ef & P & T & _ & R & Z & I). split; [exact T|]. split; [exact P|]. split; [exact R|].
    split; [rewrite Ef; unfold zlen in *; rewrite map_length; exact Z|].
    refine (inside_weaken _ _ _ _ _ _ _ _ 0 I _ _); [|unfold e; lra].
    unfold close. rewrite !Rminus_diag_eq, Rabs_R0 by reflexivity. repeat split; lra. }
  destruct (proj2 (c90_cpu fl fl32 nx ny nz N res s o gw clouds static Hfl Fr Hr9 HN HN9 Nx Ny Nz Hs9 Hst Ho HG C1) r Hr1) as (g & Eg & Sg).
  destruct (proj2 (c90_devices fl fl32 nx ny nz N res s o gw threads clouds static output Hfl Hfl32 Fr Hr HN HNs Nx Ny Nz Hs HstB Hot Ho Hth Hz1 Hz2 HG C2 device Hb) r' Hr2) as (g' & Eg' & Sg').
  exists g, g'. split; [exact Eg|]. split; [exact Eg'|]. intros i Hi Hc.
  assert (S1 : shows (B2R res) e w (o_outlier o) (o_cameras o) seen static g).
  { refine (shows_weaken _ _ _ _ _ _ _ _ _ _ _ _ Sg); unfold e, w; lra. }
  assert (S2 : shows (B2R res) e w (o_outlier o) (o_cameras o) seen static g').
  { refine (shows_moves _ _ _ _ _ (72 * (u * s)) _ _ _ _ _ _ _ _ _ Sg'); [clear; unfold e, u; lra|clear; unfold w, u; lra|].
    unfold seen. clear - HC HG Hs34. induction HC as [|c l (Ef & _ & T & P & _) _ IH]; cbn [map]; [constructor|]. constructor; [|exact IH].
    exact (cast_sighting fl fl32 gw c s (range_of (w_range _ _ c)) Hs34 Ef HG T P). }
  assert (Hb' : exists b, gget static i = Some b).
  { destruct Hst as (W & D1 & D2 & D3). apply gget_some; [exact W|]. unfold in_bounds. rewrite D1, D2, D3. destruct i as [[x y] z]. apply in_bounds3_iff. exact Hi. }
  destruct Hb' as (b & Eb). exact (shows_agree _ _ _ _ _ _ _ _ _ _ _ S1 S2 Eb Hc).
Qed.
Print Assumptions c92_agree.

(** The sensor of C90, with its points rounded to floats for the devices: both voxels of
    the grid are clear-cut, and every backend gives both the same value. *)
Lemma half_cast k : (k = 0 \/ k = 2)%Z -> b32_of_b64 (half64 k) = half32 k.
Proof. intros [ -> | -> ]; apply B2SF_inj; vm_compute; reflexivity. Qed.

Lemma two_cells_clear e w i : 0 < e <= / 8 -> 0 <= w <= 1 -> (i = (0, 0, 0) \/ i = (1, 0, 0))%Z ->
  clear_cut 1 e w 1 1 [mkSighting (/ 2, / 2, / 2) [Some (3 / 2, / 2, / 2); None] (Some 4)] (gconst 2 1 1 half_bits) i.
Proof.
  intros He Hw Hi.
  assert (D : dist (/ 2, / 2, / 2) (3 / 2, / 2, / 2) = 1).
  { unfold dist. cbn [px py pz fst snd]. replace (_ + _ + _) with (1 * 1) by lra. apply sqrt_square. lra. }
  destruct Hi as [ -> | -> ].
  - right; right; left. split.
    + exists [0%Z]. split; [constructor; [easy|constructor]|]. split; [unfold zlen; cbn; lia|].
      intros k [ <- |[]]. eexists. split; [reflexivity|]. exists (3 / 2, / 2, / 2). split; [now left|].
      exists 0. split; [lra|]. cbn [sg_range sg_origin up_to]. rewrite D. split; [lra|].
      unfold deep_in_voxel, along. cbn [px py pz ix iy iz fst snd]. lra.
    + intros S p [ <- |[]] [E|[E|[]]]; [|discriminate]. injection E as <-. intros (_ & (X & _ & _)).
      cbn [px ix fst snd] in X. lra.
  - right; left.
    assert (Q : surely_ends 1 e w (mkSighting (/ 2, / 2, / 2) [Some (3 / 2, / 2, / 2); None] (Some 4)) (1, 0, 0)%Z (3 / 2, / 2, / 2)).
    { split; [cbn [sg_range sg_origin up_to]; rewrite D; lra|]. unfold deep_in_voxel. cbn [px py pz ix iy iz fst snd]. lra. }
    eexists. split; [left; reflexivity|]. split.
    + exists [0%Z]. split; [constructor; [easy|constructor]|]. split; [unfold zlen; cbn; lia|].
      intros k [ <- |[]]. eexists. split; [reflexivity|]. eexists. split; [reflexivity|exact Q].
    + intros p [E|[E|[]]] _; [|discriminate]. injection E as <-. exact Q.
Qed.

Example c92_case (r r' : outcome) :
  voxelize_new (cpu_voxelize (double_ray floor64) (double_grid floor64 2 1 1 (half64 2)) default_options
    (map (cpu_cloud floor64 floor32 (shift_pose 0)) [one_sensor])) (gconst 2 1 1 half_bits) r ->
  voxelize_into (opencl_voxelize (float32_ray floor32) (float32_grid floor32 2 1 1 (half64 2)) default_options
    (map (dev_cloud floor64 floor32 (shift_pose 0)) [one_sensor])) (gconst 2 1 1 half_bits) (gconst 2 1 1 half_bits) r' ->
  exists g g', r = Returns g /\ r' = Returns g' /\ gget g (0, 0, 0)%Z = gget g' (0, 0, 0)%Z /\ gget g (1, 0, 0)%Z = gget g' (1, 0, 0)%Z.
Proof.
  destruct (half64_val 0 ltac:(lia)) as (F0 & E0). destruct (half64_val 2 ltac:(lia)) as (F2 & E2).
  destruct (half32_val 0 ltac:(lia)) as (F0' & E0'). destruct (half32_val 2 ltac:(lia)) as (F2' & E2').
  assert (Hr : B2R (half64 2) = 1) by (rewrite E2; lra).
  assert (U : 0 < bpow radix2 (-24) <= / 1000000).
  { split; [apply bpow_gt_0|]. apply Rle_trans with (bpow radix2 (-20)); [apply bpow_le; lia|cbn; lra]. }
  assert (U3 : bpow radix2 (-15) <= / 8) by (apply Rle_trans with (bpow radix2 (-3)); [apply bpow_le; lia|cbn; lra]).
  intros Hv Hv'.
  assert (Hm : map_for (double_grid floor64 2 1 1 (half64 2)) (gconst 2 1 1 half_bits)) by (split; [apply gconst_wf; lia|repeat split]).
  assert (Hm' : map_for (float32_grid floor32 2 1 1 (half64 2)) (gconst 2 1 1 half_bits)) by (split; [apply gconst_wf; lia|repeat split]).
  refine ((fun T => _) (c92_agree floor64 floor32 2 1 1 2 (half64 2) 1 default_options (shift_pose 0) 1 [one_sensor] (gconst 2 1 1 half_bits) (gconst 2 1 1 half_bits)
    ltac:(intros x _ _; reflexivity) ltac:(intros x _ _; reflexivity) F2 _ ltac:(lia) ltac:(lia) ltac:(lia) ltac:(lia) ltac:(lia) _ Hm Hm'
    (proj1 c44_case) ltac:(lia) ltac:(unfold zlen; cbn; lia) ltac:(cbn; lia) _ _ _ (or_intror eq_refl) r r' Hv Hv')).
  - cbv zeta in T. destruct T as (g & g' & Eg & Eg' & S). exists g, g'. split; [exact Eg|]. split; [exact Eg'|]. clear Hv Hv'.
    rewrite Hr in S. cbn [map one_sensor w_pose w_double w_range] in S. rewrite (proj2 one_sensor_range) in S.
    unfold sighting_of in S. cbn [map] in S. rewrite !shift_pose_placed in S by lia.
    replace (vfinite (double_ray floor64) (half64 2, half64 0, half64 0)) with true in S by (unfold vfinite; cbn [vx vy vz fst snd]; change (r_finite (double_ray floor64)) with (@is_finite 53 1024); now rewrite F0, F2).
    change (vfinite (double_ray floor64) (B754_nan, half64 0, half64 0)) with false in S. cbv iota in S.
    unfold reals in S. cbn [vx vy vz px py pz fst snd] in S. rewrite E0, E2 in S.
    replace (0 + 1 / 2 + 0 / 2) with (/ 2) in S by lra. replace (2 / 2 + 1 / 2 + 0 / 2) with (3 / 2) in S by lra.
    replace (0 / 2 + 1 / 2 + 0 / 2) with (/ 2) in S by lra.
    split; apply S; try (cbn; lia); apply two_cells_clear; try lra; [left|right]; reflexivity.
  - rewrite Hr. change 1 with (bpow radix2 0). split; apply bpow_le; lia.
  - rewrite Hr, Rmult_1_r. change 1 with (bpow radix2 0). split; apply bpow_le; lia.
  - apply shift_pose_tame; [lia|lra].
  - constructor; [|constructor]. split.
    { cbn [one_sensor w_float w_double map]. unfold cast_vec. cbn [vx vy vz fst snd]. rewrite !half_cast by lia. reflexivity. }
    split.
    { intros p [ <- |[ <- |[]]] F; [|discriminate]. unfold within, reals. cbn [vx vy vz px py pz fst snd]. rewrite E0', E2'.
      repeat split; apply Rabs_le; lra. }
    split; [apply shift_pose_tame; [lia|lra]|]. split.
    { intros p [ <- |[ <- |[]]] F; [|discriminate]. unfold within, reals. cbn [vx vy vz px py pz fst snd]. rewrite E0, E2.
      repeat split; apply Rabs_le; lra. }
    split; [apply one_sensor_range|]. split; [reflexivity|]. rewrite Hr. apply one_sensor_inside. lra.
Qed.
