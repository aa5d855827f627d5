(** Distances to what the sensors saw (C91). *)
From Coq Require Import ZArith Reals List Bool Lia Lra.
From Flocq Require Import Core BinarySingleNaN.
From Verif Require Import Util Grid SdfSpec FloatModel Occ EdtSpec EdtFloat SdfModel SdfFloatProofs SdfSingleModel SdfSingleProofs SdfQueryModel
  SdfQueryArith SdfQuerySpec ClearanceSpec ClearanceProofs SdfDoubleModel SdfDoubleSpec PropsDouble FilterModel FilterSpec FilterProofs
  DeviceProofs RaycastModel RaycastSpec RayGeoSpec RayRoundSpec RayFloatModel RayFloatTop PoseModel VoxelRoundSpec VoxelShowProofs
  PoseProofs VoxelRoundProofs PropsFilter PropsRayRound PropsVoxelRound SceneSpec SceneProofs.
Import ListNotations.
Local Open Scope R_scope.

(** ** C91 *)

(** With the default percentage and outlier threshold the map of the CPU reflects what the
    sensors saw. *)
Theorem c91_map_cpu fl fl32 nx ny nz N (res : b64) s cameras gw (clouds : list (wrapped fl fl32)) (static : grid occ) :
  floors fl -> is_finite res = true -> bpow radix2 (-300) <= B2R res <= bpow radix2 300 ->
  (1 <= N)%Z -> (N * (N + 128) <= 2 ^ 53)%Z -> (nx <= N)%Z -> (ny <= N)%Z -> (nz <= N)%Z ->
  bpow radix2 (-300) <= s <= bpow radix2 44 * B2R res ->
  let A := double_ray fl in
  let rg := double_grid fl nx ny nz res in
  let u := bpow radix2 (-53) in
  let e := IZR N * (IZR N + 128) * u * B2R res + 500 * (u * s) in
  map_for rg static -> (forall i b, gget static i = Some b -> occ_nan b = false) -> (0 < cameras)%Z -> tame A is_finite B2R s gw ->
  Forall (fun c => good_sensor A A is_finite B2R B2R s (B2R res) (e + bpow radix2 (-30) * B2R res) nx ny nz gw (w_pose _ _ c) (w_double _ _ c) (w_range _ _ c)) clouds ->
  let backend := cpu_voxelize A rg (mkOptions b64_one 1 cameras) (map (cpu_cloud fl fl32 gw) clouds) in
  (exists g, voxelize_new backend static (Returns g)) /\
  forall r, voxelize_new backend static r ->
    exists g, r = Returns g /\ gwf g /\ g_nx g = nx /\ g_ny g = ny /\ g_nz g = nz /\
      reflects (B2R res) e (16384 * (u * s)) nx ny nz
        (map (fun c => sighting_of A A B2R B2R gw (w_pose _ _ c) (w_double _ _ c) (range_of (w_range _ _ c))) clouds) static g.
Proof.
  intros Hfl Fr Hr HN HNs Nx Ny Nz Hs A rg u e Hst Hnan Hc HG HC backend.
  assert (Ho : valid_options (mkOptions b64_one 1 cameras)).
  { split; [reflexivity|]. split; [cbn [o_percent]; rewrite FilterFloatProofs.one_val; lra|]. now split. }
  assert (Hf : few_points A (map (cpu_cloud fl fl32 gw) clouds)).
  { clear - HC. induction HC as [|c l H _ IH]; [constructor|]. constructor; [apply H|exact IH]. }
  destruct (c62_cpu A rg _ (map (cpu_cloud fl fl32 gw) clouds) static Hst Ho Hf) as (Ex & Hall). split; [exact Ex|].
  intros r Hr'. destruct (Hall r Hr') as (g & E & Hv). exists g. split; [exact E|].
  destruct (c90_cpu fl fl32 nx ny nz N res s _ gw clouds static Hfl Fr Hr HN HNs Nx Ny Nz Hs Hst Ho HG HC) as (_ & Sh).
  destruct (Sh r Hr') as (g' & E' & Sg). rewrite E in E'. injection E' as <-. cbn [o_outlier o_cameras] in Sg.
  pose proof Hv as (Wg & (D1 & D2 & D3) & _). pose proof Hst as (_ & S1 & S2 & S3).
  split; [exact Wg|]. split; [exact (eq_trans D1 S1)|]. split; [exact (eq_trans D2 S2)|]. split; [exact (eq_trans D3 S3)|].
  assert (Q : forall c, good_sensor A A is_finite B2R B2R s (B2R res) (e + bpow radix2 (-30) * B2R res) nx ny nz gw (w_pose _ _ c) (w_double _ _ c) (w_range _ _ c) ->
    cloud_matches A rg (B2R res) e (slack u s) (cpu_cloud fl fl32 gw c)
      (sighting_of A A B2R B2R gw (w_pose _ _ c) (w_double _ _ c) (range_of (w_range _ _ c)))).
  { intros c (H1 & H2 & H3 & _ & H5).
    exact (cpu_cloud_matches fl fl32 nx ny nz N res s gw c Hfl Fr Hr HN HNs Nx Ny Nz Hs HG H1 H2 H3 H5). }
  apply (map_reflects A rg (B2R res) e (slack u s) (counts_seen_as (mkOptions b64_one 1 cameras)) cameras (map (cpu_cloud fl fl32 gw) clouds)).
  - exact Hst.
  - exact Hnan.
  - clear - HC Q. induction HC as [|c l H _ IH]; [constructor|]. constructor; [exact (Q c H)|exact IH].
  - exact Hv.
  - exact Sg.
  - intros c i Hin Hp. pose proof (proj1 (Forall_forall _ _) Hf c Hin) as Hfc. cbv beta in Hfc. pose proof (points_counting_sum A rg c i) as Su.
    apply default_filled; [apply points_counting_nonneg|exact Hp|]. clear - Su Hfc. lia.
Qed.
Print Assumptions c91_map_cpu.

(** ... and so does that of the devices, for clouds of at most 2^24 points. *)
Theorem c91_map_devices fl fl32 nx ny nz N (res : b64) s cameras gw threads (clouds : list (wrapped fl fl32)) (static output : grid occ) :
  floors fl -> (forall x : b32, is_finite x = true -> Rabs (B2R x) < bpow radix2 31 -> fl32 x = Zfloor (B2R x)) ->
  is_finite res = true -> bpow radix2 (-20) <= B2R res <= bpow radix2 20 ->
  (1 <= N)%Z -> (N * (N + 128) <= 2 ^ 24)%Z -> (nx <= N)%Z -> (ny <= N)%Z -> (nz <= N)%Z ->
  bpow radix2 (-30) <= s <= bpow radix2 14 * B2R res ->
  let A := double_ray fl in
  let B := float32_ray fl32 in
  let rg := float32_grid fl32 nx ny nz res in
  let u := bpow radix2 (-24) in
  let e := IZR N * (IZR N + 130) * u * B2R res + 500 * (u * s) in
  map_for rg static -> map_for rg output -> (forall i b, gget static i = Some b -> occ_nan b = false) -> (0 < cameras)%Z -> (0 < threads)%Z ->
  (2 * (g_total static * Z.max (zlen clouds) 1) <= 2 ^ 31)%Z -> (2 * g_total static < 2 ^ 31)%Z -> tame A is_finite B2R s gw ->
  Forall (fun c => good_sensor A B is_finite B2R B2R s (B2R res) (e + bpow radix2 (-15) * B2R res) nx ny nz gw (w_pose _ _ c) (w_float _ _ c) (w_range _ _ c) /\
    (zlen (w_float _ _ c) <= 2 ^ 24)%Z) clouds ->
  forall backend, backend = cuda_voxelize B rg (mkOptions b64_one 1 cameras) threads (map (dev_cloud fl fl32 gw) clouds) \/
    backend = opencl_voxelize B rg (mkOptions b64_one 1 cameras) (map (dev_cloud fl fl32 gw) clouds) ->
  (exists g, voxelize_into backend static output (Returns g)) /\
  forall r, voxelize_into backend static output r ->
    exists g, r = Returns g /\ gwf g /\ g_nx g = nx /\ g_ny g = ny /\ g_nz g = nz /\
      reflects (B2R res) e (16384 * (u * s)) nx ny nz
        (map (fun c => sighting_of A B B2R B2R gw (w_pose _ _ c) (w_float _ _ c) (range_of (w_range _ _ c))) clouds) static g.
Proof.
  intros Hfl Hfl32 Fr Hr HN HNs Nx Ny Nz Hs A B rg u e Hst Hot Hnan Hc Hth Hz1 Hz2 HG HC' backend Hb.
  assert (Ho : valid_options (mkOptions b64_one 1 cameras)).
  { split; [reflexivity|]. split; [cbn [o_percent]; rewrite FilterFloatProofs.one_val; lra|]. now split. }
  assert (HC : Forall (fun c => good_sensor A B is_finite B2R B2R s (B2R res) (e + bpow radix2 (-15) * B2R res) nx ny nz gw (w_pose _ _ c) (w_float _ _ c) (w_range _ _ c)) clouds).
  { clear - HC'. induction HC' as [|c l H _ IH]; [constructor|]. constructor; [apply H|exact IH]. }
  assert (Hf : few_points B (map (dev_cloud fl fl32 gw) clouds)).
  { clear - HC. induction HC as [|c l H _ IH]; [constructor|]. constructor; [apply H|exact IH]. }
  assert (Hf2 : Forall (fun c => zlen (c_points B c) <= 2 ^ 24)%Z (map (dev_cloud fl fl32 gw) clouds)).
  { clear - HC'. induction HC' as [|c l H _ IH]; [constructor|]. constructor; [apply H|exact IH]. }
  assert (Hz : (2 * (g_total static * Z.max (zlen (map (dev_cloud fl fl32 gw) clouds)) 1) <= 2 ^ 31)%Z).
  { unfold zlen in *. rewrite map_length. exact Hz1. }
  destruct (c62_device B rg _ threads (map (dev_cloud fl fl32 gw) clouds) static output Hst Hot Ho Hf Hth Hz Hz2 backend Hb) as (Ex & Hall).
  split; [exact Ex|].
  intros r Hr'. destruct (Hall r Hr') as (g & E & Hv). exists g. split; [exact E|].
  destruct (c90_devices fl fl32 nx ny nz N res s _ gw threads clouds static output Hfl Hfl32 Fr Hr HN HNs Nx Ny Nz Hs Hst Hot Ho Hth Hz1 Hz2 HG HC backend Hb) as (_ & Sh).
  destruct (Sh r Hr') as (g' & E' & Sg). rewrite E in E'. injection E' as <-. cbn [o_outlier o_cameras] in Sg.
  pose proof Hv as (Wg & (D1 & D2 & D3) & _). pose proof Hst as (_ & S1 & S2 & S3).
  split; [exact Wg|]. split; [exact (eq_trans D1 S1)|]. split; [exact (eq_trans D2 S2)|]. split; [exact (eq_trans D3 S3)|].
  assert (Q : forall c, good_sensor A B is_finite B2R B2R s (B2R res) (e + bpow radix2 (-15) * B2R res) nx ny nz gw (w_pose _ _ c) (w_float _ _ c) (w_range _ _ c) ->
    cloud_matches B rg (B2R res) e (slack u s) (dev_cloud fl fl32 gw c)
      (sighting_of A B B2R B2R gw (w_pose _ _ c) (w_float _ _ c) (range_of (w_range _ _ c)))).
  { intros c (H1 & H2 & H3 & _ & H5).
    exact (dev_cloud_matches fl fl32 nx ny nz N res s gw c Hfl Hfl32 Fr Hr HN HNs Nx Ny Nz Hs HG H1 H2 H3 H5). }
  apply (map_reflects B rg (B2R res) e (slack u s) (dev_seen_as (mkOptions b64_one 1 cameras)) cameras (map (dev_cloud fl fl32 gw) clouds)).
  - exact Hst.
  - exact Hnan.
  - clear - HC Q. induction HC as [|c l H _ IH]; [constructor|]. constructor; [exact (Q c H)|exact IH].
  - exact Hv.
  - exact Sg.
  - intros c i Hin Hp. pose proof (proj1 (Forall_forall _ _) Hf2 c Hin) as Hfc. cbv beta in Hfc. pose proof (points_counting_sum B rg c i) as Su.
    apply default_filled_dev; [exact Hc|apply points_counting_nonneg|exact Hp|]. clear - Su Hfc. lia.
Qed.
Print Assumptions c91_map_devices.

(** A location in reach: its computed counterpart is within the margins of the field. *)
Lemma reach_computed r m0 m1 n x y : 0 < r -> m1 <= r / 4 -> 0 <= m0 -> Rabs (y - x) <= m0 -> (0 < n)%Z -> in_reach r (m0 + m1) n x -> 0 < m1 ->
  inside_axis r n y /\ within_centres r n y /\ m1 <= y <= IZR n * r - m1.
Proof.
  intros Hr H1 H0 Hy Hn Hx Hm. apply Rabs_le_inv in Hy. unfold inside_axis, within_centres. destruct Hx as [( -> & Hx)|Hx].
  - split; [lra|]. split; [now left|lra].
  - split; [lra|]. split; [right; lra|lra].
Qed.

Lemma located fl nx ny nz N (res : b64) s gw (x : b64 * b64 * b64) :
  floors fl -> let r := B2R res in is_finite res = true -> bpow radix2 (-300) <= r <= bpow radix2 300 ->
  (0 < nx <= N)%Z -> (0 < ny <= N)%Z -> (0 < nz <= N)%Z -> (N <= 2 ^ 25 - 2)%Z ->
  bpow radix2 (-300) <= s <= bpow radix2 44 * r ->
  let A := double_ray fl in
  tame A is_finite B2R s gw -> finite3 x -> within s (reals A B2R x) ->
  let delta := 260 * (bpow radix2 (-53) * s) in
  let q := placed A B2R gw (reals A B2R x) in in_reach3 r (delta + IZR N * bpow radix2 (-50) * r) nx ny nz q ->
  let l := locate fl gw (x, b64_lit 1 0) in
  finite3 l /\ close delta (reals3 l) q /\ fits r l /\
  (inside_axis r nx (fst (fst (reals3 l))) /\ inside_axis r ny (snd (fst (reals3 l))) /\ inside_axis r nz (snd (reals3 l))) /\
  (within_centres r nx (fst (fst (reals3 l))) /\ within_centres r ny (snd (fst (reals3 l))) /\ within_centres r nz (snd (reals3 l))) /\
  let m := IZR N * bpow radix2 (-50) * r in
  m <= fst (fst (reals3 l)) <= IZR nx * r - m /\ m <= snd (fst (reals3 l)) <= IZR ny * r - m /\ m <= snd (reals3 l) <= IZR nz * r - m.
Proof.
  intros Hfl r Fr Hr Nx Ny Nz HN Hs A HG Fx Wx delta q (Rx & Ry & Rz) l.
  destruct (double_numbers r s Hr Hs) as (Hu & _ & E2 & _ & M2 & Sp & Rp & _).
  assert (RR : rounded_ray A is_finite B2R (bpow radix2 (-53)) (bpow radix2 (-1074)) (bpow radix2 1022) (bpow radix2 62)).
  { refine (proj1 (double_setup fl 0 0 0 1 res Hfl Fr Hr _ _ _ _ _)); clear; lia. }
  destruct (pose_places A is_finite B2R _ _ _ _ s RR Hu (bpow_ge_0 _ _) E2 M2 Sp gw x HG Fx Wx) as (Fq & Cq).
  change (finite3 l) in Fq. change (close delta (reals3 l) q) in Cq.
  assert (D0 : 0 <= delta) by (unfold delta; apply Rmult_le_pos; [lra|]; apply Rmult_le_pos; [apply bpow_ge_0|lra]).
  assert (N2 : 1 <= IZR N <= 33554432) by (change (2 ^ 25)%Z with 33554432%Z in HN; split; apply IZR_le; lia).
  set (m := IZR N * bpow radix2 (-50) * r) in *.
  assert (Hm : 0 < m <= r / 4).
  { unfold m. pose proof (bpow_gt_0 radix2 (-50)) as B0. split; [apply Rmult_lt_0_compat; [apply Rmult_lt_0_compat; lra|exact Rp]|].
    replace (r / 4) with (/ 4 * r) by field. apply Rmult_le_compat_r; [lra|].
    apply Rle_trans with (bpow radix2 25 * bpow radix2 (-50)); [apply Rmult_le_compat_r; [lra|]; change (bpow radix2 25) with 33554432; lra|].
    rewrite <- bpow_plus. change (/ 4) with (bpow radix2 (-2)). apply bpow_le. clear; lia. }
  clearbody m delta q l. destruct l as ((a, b), c). destruct q as ((x0, y0), z0). unfold reals3 in *. cbn [fst snd px py pz] in *.
  destruct Cq as (Cx & Cy & Cz). cbn [fst snd px py pz] in Cx, Cy, Cz.
  destruct (reach_computed r delta m nx x0 (B2R a) Rp (proj2 Hm) D0 Cx (proj1 Nx) Rx (proj1 Hm)) as (I1 & W1 & M1).
  destruct (reach_computed r delta m ny y0 (B2R b) Rp (proj2 Hm) D0 Cy (proj1 Ny) Ry (proj1 Hm)) as (I2 & W2 & M3).
  destruct (reach_computed r delta m nz z0 (B2R c) Rp (proj2 Hm) D0 Cz (proj1 Nz) Rz (proj1 Hm)) as (I3 & W3 & M4).
  split; [exact Fq|]. split; [split; [exact Cx|split; [exact Cy|exact Cz]]|]. split.
  { destruct Nx as (_ & Nx), Ny as (_ & Ny), Nz as (_ & Nz). apply IZR_le in Nx, Ny, Nz.
    split; [|split]; cbn [fst snd]; eapply inside_fits; [exact Rp|exact Nx|apply N2|exact I1|exact Rp|exact Ny|apply N2|exact I2|exact Rp|exact Nz|apply N2|exact I3]. }
  auto 10.
Qed.

(** The distance that the field of such a map reports at a location: it never exceeds the
    distance to anything in the way by more than 1.24 voxels and small errors, and
    something is as close as reported, up to 2.6 voxels.  For stored doubles ... *)
Theorem c91_distance_double fl tri kappa (res oob : b64) nx ny nz N s gw e w seen (static g : grid occ) (uf border : bool) to_world rotate (x : b64 * b64 * b64) :
  floors fl -> interpolates kappa tri -> 0 <= kappa ->
  let r := B2R res in is_finite res = true -> bpow radix2 (-300) <= r <= bpow radix2 300 ->
  (0 < nx <= N)%Z -> (0 < ny <= N)%Z -> (0 < nz <= N)%Z -> (N <= 2 ^ 25 - 2)%Z ->
  bpow radix2 (-300) <= s <= bpow radix2 44 * r -> 0 <= e ->
  gwf g -> g_nx g = nx -> g_ny g = ny -> g_nz g = nz -> reflects r e w nx ny nz seen static g ->
  let filled := map_filled g (occ_filled uf) in both_kinds nx ny nz filled border ->
  let A := double_ray fl in
  tame A is_finite B2R s gw -> finite3 x -> within s (reals A B2R x) ->
  let delta := 260 * (bpow radix2 (-53) * s) in
  let q := placed A B2R gw (reals A B2R x) in in_reach3 r (delta + IZR N * bpow radix2 (-50) * r) nx ny nz q ->
  let eps := bpow radix2 (-51) in
  let t := 3 * IZR N * (2 * kappa + IZR N * bpow radix2 (-43)) * r in
  exists f d, sdf_binary64 res oob true border nx ny nz filled = Some f /\
    estimate (double_query b64 b64_sub (fun v => v) fl tri)
      (double_field b64 b64_sub (fun v => v) fl tri f res (locate fl gw) to_world rotate) (x, b64_lit 1 0) = Answer d /\
    is_finite d = true /\
    brackets eps ((1 + eps) * (sqrt 3 * r) - r / 2 + t + (1 + eps) * (sqrt 3 * (e + delta))) (sqrt 3 / 2 * r + t + sqrt 3 * (r + e + delta))
      (surely_blocks r e w nx ny nz seen static border)
      (fun y => may_block r e w nx ny nz seen static border y \/ (uf = true /\ unknown_at r g y)) (B2R d) q.
Proof.
  intros Hfl Htri Hk r Fr Hr Nx Ny Nz HN Hs He Wg Gx Gy Gz HR filled Both A HG Fx Wx delta q Rq eps t.
  destruct (located fl nx ny nz N res s gw x Hfl Fr Hr Nx Ny Nz HN Hs HG Fx Wx Rq) as (Fq & Cq & Ft & (I1 & I2 & I3) & (W1 & W2 & W3) & (M1 & M2 & M3)).
  fold r in Ft, I1, I2, I3, W1, W2, W3, M1, M2, M3. fold delta A q in Cq.
  assert (Rp : 0 < r) by (pose proof (bpow_gt_0 radix2 (-300)); lra).
  assert (Hr9 : bpow radix2 (-900) <= r <= bpow radix2 900).
  { split; [eapply Rle_trans; [|apply Hr]|eapply Rle_trans; [apply Hr|]]; apply bpow_le; clear; lia. }
  assert (HB : (B25 - 2 = 2 ^ 25 - 2)%Z) by reflexivity.
  assert (Nx' : (0 < nx <= B25 - 2)%Z) by (clear - Nx HN HB; lia). assert (Ny' : (0 < ny <= B25 - 2)%Z) by (clear - Ny HN HB; lia).
  assert (Nz' : (0 < nz <= B25 - 2)%Z) by (clear - Nz HN HB; lia).
  destruct (sdf_binary64_ok res Fr Rp oob nx ny nz filled border Nx' Ny' Nz') as (f & Ef & Wf & Fx' & Fy' & Fz' & _).
  destruct (proj1 (c87_answers b64 b64_sub (fun v => v) fl tri res f N (locate fl gw) to_world rotate (x, b64_lit 1 0) Hfl Fr Hr9 Wf
    ltac:(rewrite Fx'; apply Nx) ltac:(rewrite Fy'; apply Ny) ltac:(rewrite Fz'; apply Nz) ltac:(clear - HN; lia) Fq Ft)) as (d & Ed).
  { rewrite Fx'. exact M1. }
  { rewrite Fy'. exact M2. }
  { rewrite Fz'. exact M3. }
  exists f, d. split; [exact Ef|]. split; [exact Ed|].
  destruct (c87_clearance_double fl tri kappa res oob nx ny nz N filled border f (locate fl gw) to_world rotate (x, b64_lit 1 0) d
    Hfl Htri Hk Fr Hr9 Nx Ny Nz HN Both Ef Fq I1 I2 I3 W1 W2 W3 Ed) as (Fd & Cl).
  split; [exact Fd|].
  apply (scene_brackets r e w nx ny nz seen static g Rp He HR (conj Gx (conj Gy Gz)) eps uf border _ _ _ q (reals3 (locate fl gw (x, b64_lit 1 0))) delta); [|exact Cl|exact Cq].
  unfold eps. split; [apply bpow_ge_0|]. cbn. lra.
Qed.
Print Assumptions c91_distance_double.

(** ... and for stored floats. *)
Theorem c91_distance_float ssub fl tri kappa (res : b64) (oob : b32) nx ny nz N s gw e w seen (static g : grid occ) (uf border : bool) to_world rotate
    (x : b64 * b64 * b64) :
  floors fl -> interpolates kappa tri -> 0 <= kappa ->
  let r := B2R res in is_finite res = true -> bpow radix2 (-126) <= r <= bpow radix2 90 ->
  (0 < nx <= N)%Z -> (0 < ny <= N)%Z -> (0 < nz <= N)%Z -> (N <= 2 ^ 25 - 2)%Z ->
  bpow radix2 (-300) <= s <= bpow radix2 44 * r -> 0 <= e ->
  gwf g -> g_nx g = nx -> g_ny g = ny -> g_nz g = nz -> reflects r e w nx ny nz seen static g ->
  let filled := map_filled g (occ_filled uf) in both_kinds nx ny nz filled border ->
  let A := double_ray fl in
  tame A is_finite B2R s gw -> finite3 x -> within s (reals A B2R x) ->
  let delta := 260 * (bpow radix2 (-53) * s) in
  let q := placed A B2R gw (reals A B2R x) in in_reach3 r (delta + IZR N * bpow radix2 (-50) * r) nx ny nz q ->
  let eps := bpow radix2 (-23) in
  let t := 3 * IZR N * (2 * kappa + IZR N * bpow radix2 (-43)) * r in
  exists f d, sdf_binary32 res oob true border nx ny nz filled = Some f /\
    estimate (double_query b32 ssub b64_of_b32 fl tri)
      (double_field b32 ssub b64_of_b32 fl tri f res (locate fl gw) to_world rotate) (x, b64_lit 1 0) = Answer d /\
    is_finite d = true /\
    brackets eps ((1 + eps) * (sqrt 3 * r) - r / 2 + t + (1 + eps) * (sqrt 3 * (e + delta))) (sqrt 3 / 2 * r + t + sqrt 3 * (r + e + delta))
      (surely_blocks r e w nx ny nz seen static border)
      (fun y => may_block r e w nx ny nz seen static border y \/ (uf = true /\ unknown_at r g y)) (B2R d) q.
Proof.
  intros Hfl Htri Hk r Fr Hr Nx Ny Nz HN Hs He Wg Gx Gy Gz HR filled Both A HG Fx Wx delta q Rq eps t.
  assert (Hr3 : bpow radix2 (-300) <= r <= bpow radix2 300).
  { split; [eapply Rle_trans; [|apply Hr]|eapply Rle_trans; [apply Hr|]]; apply bpow_le; clear; lia. }
  destruct (located fl nx ny nz N res s gw x Hfl Fr Hr3 Nx Ny Nz HN Hs HG Fx Wx Rq) as (Fq & Cq & Ft & (I1 & I2 & I3) & (W1 & W2 & W3) & (M1 & M2 & M3)).
  fold r in Ft, I1, I2, I3, W1, W2, W3, M1, M2, M3. fold delta A q in Cq.
  assert (Rp : 0 < r) by (pose proof (bpow_gt_0 radix2 (-126)); lra).
  assert (Hr9 : bpow radix2 (-900) <= r <= bpow radix2 900).
  { split; [eapply Rle_trans; [|apply Hr]|eapply Rle_trans; [apply Hr|]]; apply bpow_le; clear; lia. }
  assert (HB : (B25 - 2 = 2 ^ 25 - 2)%Z) by reflexivity.
  assert (Nx' : (0 < nx <= B25 - 2)%Z) by (clear - Nx HN HB; lia). assert (Ny' : (0 < ny <= B25 - 2)%Z) by (clear - Ny HN HB; lia).
  assert (Nz' : (0 < nz <= B25 - 2)%Z) by (clear - Nz HN HB; lia).
  assert (R32 : bpow radix2 (-150) < r) by (eapply Rlt_le_trans; [|apply Hr]; apply bpow_lt; clear; lia).
  destruct (sdf_binary32_ok res Fr Rp R32 oob nx ny nz filled border Nx' Ny' Nz') as (f & Ef & Wf & Fx' & Fy' & Fz' & _).
  destruct (proj1 (c87_answers b32 ssub b64_of_b32 fl tri res f N (locate fl gw) to_world rotate (x, b64_lit 1 0) Hfl Fr Hr9 Wf
    ltac:(rewrite Fx'; apply Nx) ltac:(rewrite Fy'; apply Ny) ltac:(rewrite Fz'; apply Nz) ltac:(clear - HN; lia) Fq Ft)) as (d & Ed).
  { rewrite Fx'. exact M1. }
  { rewrite Fy'. exact M2. }
  { rewrite Fz'. exact M3. }
  exists f, d. split; [exact Ef|]. split; [exact Ed|].
  destruct (c87_clearance_float ssub fl tri kappa res oob nx ny nz N filled border f (locate fl gw) to_world rotate (x, b64_lit 1 0) d
    Hfl Htri Hk Fr Hr Nx Ny Nz HN Both Ef Fq I1 I2 I3 W1 W2 W3 Ed) as (Fd & Cl).
  split; [exact Fd|].
  apply (scene_brackets r e w nx ny nz seen static g Rp He HR (conj Gx (conj Gy Gz)) eps uf border _ _ _ q (reals3 (locate fl gw (x, b64_lit 1 0))) delta); [|exact Cl|exact Cq].
  unfold eps. split; [apply bpow_ge_0|]. cbn. lra.
Qed.
Print Assumptions c91_distance_float.

(** From the points to the distance on the CPU, with a field of doubles ... *)
Theorem c91_cpu fl fl32 tri kappa nx ny nz N (res oob : b64) s cameras gw (clouds : list (wrapped fl fl32)) (static : grid occ) (uf border : bool) to_world rotate
    (x : b64 * b64 * b64) :
  floors fl -> interpolates kappa tri -> 0 <= kappa -> is_finite res = true -> bpow radix2 (-300) <= B2R res <= bpow radix2 300 ->
  (0 < nx <= N)%Z -> (0 < ny <= N)%Z -> (0 < nz <= N)%Z -> (N <= 2 ^ 25 - 2)%Z ->
  bpow radix2 (-300) <= s <= bpow radix2 44 * B2R res ->
  let r := B2R res in
  let A := double_ray fl in
  let rg := double_grid fl nx ny nz res in
  let u := bpow radix2 (-53) in
  let e := IZR N * (IZR N + 128) * u * r + 500 * (u * s) in
  let w := 16384 * (u * s) in
  map_for rg static -> (forall i b, gget static i = Some b -> occ_nan b = false) -> (0 < cameras)%Z -> tame A is_finite B2R s gw ->
  Forall (fun c => good_sensor A A is_finite B2R B2R s r (e + bpow radix2 (-30) * r) nx ny nz gw (w_pose _ _ c) (w_double _ _ c) (w_range _ _ c)) clouds ->
  let seen := map (fun c => sighting_of A A B2R B2R gw (w_pose _ _ c) (w_double _ _ c) (range_of (w_range _ _ c))) clouds in
  finite3 x -> within s (reals A B2R x) ->
  let delta := 260 * (u * s) in
  let q := placed A B2R gw (reals A B2R x) in in_reach3 r (delta + IZR N * bpow radix2 (-50) * r) nx ny nz q ->
  let eps := bpow radix2 (-51) in
  let t := 3 * IZR N * (2 * kappa + IZR N * bpow radix2 (-43)) * r in
  forall o, voxelize_new (cpu_voxelize A rg (mkOptions b64_one 1 cameras) (map (cpu_cloud fl fl32 gw) clouds)) static o ->
  exists g, o = Returns g /\
    let filled := map_filled g (occ_filled uf) in
    (both_kinds nx ny nz filled border ->
     exists f d, sdf_binary64 res oob true border nx ny nz filled = Some f /\
       estimate (double_query b64 b64_sub (fun v => v) fl tri)
         (double_field b64 b64_sub (fun v => v) fl tri f res (locate fl gw) to_world rotate) (x, b64_lit 1 0) = Answer d /\
       is_finite d = true /\
       brackets eps ((1 + eps) * (sqrt 3 * r) - r / 2 + t + (1 + eps) * (sqrt 3 * (e + delta))) (sqrt 3 / 2 * r + t + sqrt 3 * (r + e + delta))
         (surely_blocks r e w nx ny nz seen static border)
         (fun y => may_block r e w nx ny nz seen static border y \/ (uf = true /\ unknown_at r g y)) (B2R d) q).
Proof.
  intros Hfl Htri Hk Fr Hr Nx Ny Nz HN Hs r A rg u e w Hst Hnan Hc HG HC seen Fx Wx delta q Rq eps t o Ho.
  assert (HN1 : (1 <= N)%Z) by (clear - Nx; lia).
  assert (HN2 : (N * (N + 128) <= 2 ^ 53)%Z) by (clear - HN HN1; nia).
  destruct (c91_map_cpu fl fl32 nx ny nz N res s cameras gw clouds static Hfl Fr Hr HN1 HN2 (proj2 Nx) (proj2 Ny) (proj2 Nz) Hs Hst Hnan Hc HG HC) as (_ & M).
  destruct (M o Ho) as (g & Eg & Wg & Gx & Gy & Gz & HR). exists g. split; [exact Eg|]. intros filled Both.
  assert (He : 0 <= e).
  { unfold e, u. pose proof (bpow_ge_0 radix2 (-53)) as B0. pose proof (bpow_ge_0 radix2 (-300)) as B3. apply IZR_le in HN1.
    apply Rplus_le_le_0_compat; [|apply Rmult_le_pos; [lra|apply Rmult_le_pos; [exact B0|clear - Hs B3; lra]]].
    apply Rmult_le_pos; [|unfold r; clear - Hr B3; lra]. apply Rmult_le_pos; [|exact B0]. apply Rmult_le_pos; clear - HN1; lra. }
  exact (c91_distance_double fl tri kappa res oob nx ny nz N s gw e w seen static g uf border to_world rotate x
    Hfl Htri Hk Fr Hr Nx Ny Nz HN Hs He Wg Gx Gy Gz HR Both HG Fx Wx Rq).
Qed.
Print Assumptions c91_cpu.

(** ... and on a device, with a field of floats. *)
Theorem c91_devices ssub fl fl32 tri kappa nx ny nz N (res : b64) (oob : b32) s cameras gw threads (clouds : list (wrapped fl fl32)) (static output : grid occ) (uf border : bool)
    to_world rotate (x : b64 * b64 * b64) :
  floors fl -> (forall x : b32, is_finite x = true -> Rabs (B2R x) < bpow radix2 31 -> fl32 x = Zfloor (B2R x)) ->
  interpolates kappa tri -> 0 <= kappa -> is_finite res = true -> bpow radix2 (-20) <= B2R res <= bpow radix2 20 ->
  (0 < nx <= N)%Z -> (0 < ny <= N)%Z -> (0 < nz <= N)%Z -> (N * (N + 128) <= 2 ^ 24)%Z ->
  bpow radix2 (-30) <= s <= bpow radix2 14 * B2R res ->
  let r := B2R res in
  let A := double_ray fl in
  let B := float32_ray fl32 in
  let rg := float32_grid fl32 nx ny nz res in
  let u := bpow radix2 (-24) in
  let e := IZR N * (IZR N + 130) * u * r + 500 * (u * s) in
  let w := 16384 * (u * s) in
  map_for rg static -> map_for rg output -> (forall i b, gget static i = Some b -> occ_nan b = false) -> (0 < cameras)%Z -> (0 < threads)%Z ->
  (2 * (g_total static * Z.max (zlen clouds) 1) <= 2 ^ 31)%Z -> (2 * g_total static < 2 ^ 31)%Z -> tame A is_finite B2R s gw ->
  Forall (fun c => good_sensor A B is_finite B2R B2R s r (e + bpow radix2 (-15) * r) nx ny nz gw (w_pose _ _ c) (w_float _ _ c) (w_range _ _ c) /\
    (zlen (w_float _ _ c) <= 2 ^ 24)%Z) clouds ->
  let seen := map (fun c => sighting_of A B B2R B2R gw (w_pose _ _ c) (w_float _ _ c) (range_of (w_range _ _ c))) clouds in
  finite3 x -> within s (reals A B2R x) ->
  let delta := 260 * (bpow radix2 (-53) * s) in
  let q := placed A B2R gw (reals A B2R x) in in_reach3 r (delta + IZR N * bpow radix2 (-50) * r) nx ny nz q ->
  let eps := bpow radix2 (-23) in
  let t := 3 * IZR N * (2 * kappa + IZR N * bpow radix2 (-43)) * r in
  forall backend, backend = cuda_voxelize B rg (mkOptions b64_one 1 cameras) threads (map (dev_cloud fl fl32 gw) clouds) \/
    backend = opencl_voxelize B rg (mkOptions b64_one 1 cameras) (map (dev_cloud fl fl32 gw) clouds) ->
  forall o, voxelize_into backend static output o ->
  exists g, o = Returns g /\
    let filled := map_filled g (occ_filled uf) in
    (both_kinds nx ny nz filled border ->
     exists f d, sdf_binary32 res oob true border nx ny nz filled = Some f /\
       estimate (double_query b32 ssub b64_of_b32 fl tri)
         (double_field b32 ssub b64_of_b32 fl tri f res (locate fl gw) to_world rotate) (x, b64_lit 1 0) = Answer d /\
       is_finite d = true /\
       brackets eps ((1 + eps) * (sqrt 3 * r) - r / 2 + t + (1 + eps) * (sqrt 3 * (e + delta))) (sqrt 3 / 2 * r + t + sqrt 3 * (r + e + delta))
         (surely_blocks r e w nx ny nz seen static border)
         (fun y => may_block r e w nx ny nz seen static border y \/ (uf = true /\ unknown_at r g y)) (B2R d) q).
Proof.
  intros Hfl Hfl32 Htri Hk Fr Hr Nx Ny Nz HN Hs r A B rg u e w Hst Hot Hnan Hc Hth Hz1 Hz2 HG HC seen Fx Wx delta q Rq eps t backend Hb o Ho.
  assert (HN1 : (1 <= N)%Z) by (clear - Nx; lia).
  assert (HN2 : (N <= 2 ^ 25 - 2)%Z) by (clear - HN HN1; nia).
  destruct (c91_map_devices fl fl32 nx ny nz N res s cameras gw threads clouds static output Hfl Hfl32 Fr Hr HN1 HN (proj2 Nx) (proj2 Ny) (proj2 Nz) Hs Hst Hot Hnan Hc Hth Hz1 Hz2 HG HC backend Hb) as (_ & M).
  destruct (M o Ho) as (g & Eg & Wg & Gx & Gy & Gz & HR). exists g. split; [exact Eg|]. intros filled Both.
  assert (He : 0 <= e).
  { unfold e, u. pose proof (bpow_ge_0 radix2 (-24)) as B0. pose proof (bpow_ge_0 radix2 (-30)) as B3. pose proof (bpow_ge_0 radix2 (-20)) as B4. apply IZR_le in HN1.
    apply Rplus_le_le_0_compat; [|apply Rmult_le_pos; [lra|apply Rmult_le_pos; [exact B0|clear - Hs B3; lra]]].
    apply Rmult_le_pos; [|unfold r; clear - Hr B4; lra]. apply Rmult_le_pos; [|exact B0]. apply Rmult_le_pos; clear - HN1; lra. }
  assert (Hr9 : bpow radix2 (-126) <= B2R res <= bpow radix2 90).
  { split; [eapply Rle_trans; [|apply Hr]|eapply Rle_trans; [apply Hr|]]; apply bpow_le; clear; lia. }
  assert (Hs9 : bpow radix2 (-300) <= s <= bpow radix2 44 * B2R res).
  { split; [eapply Rle_trans; [|apply Hs]; apply bpow_le; clear; lia|]. eapply Rle_trans; [apply Hs|]. apply Rmult_le_compat_r; [|apply bpow_le; clear; lia].
    pose proof (bpow_ge_0 radix2 (-20)) as B4. clear - Hr B4; lra. }
  exact (c91_distance_float ssub fl tri kappa res oob nx ny nz N s gw e w seen static g uf border to_world rotate x
    Hfl Htri Hk Fr Hr9 Nx Ny Nz HN2 Hs9 He Wg Gx Gy Gz HR Both HG Fx Wx Rq).
Qed.
Print Assumptions c91_devices.

(** The two voxels and the sensor of C90, asked at the border between the voxels, in single
    and in double precision: everything that is assumed above holds, and the distance that
    is reported is finite and at most 2. *)
Lemma two_cells_bound eps t e w d0 (d : R) sg static may b : 0 <= eps <= / 1000 -> 0 <= t <= / 10 -> 0 <= e <= / 100 -> 0 <= w <= 1 -> 0 <= d0 <= / 100 ->
  sg = mkSighting (/ 2, / 2, / 2) [Some (3 / 2, / 2, / 2); None] (Some 4) ->
  brackets eps ((1 + eps) * (sqrt 3 * 1) - 1 / 2 + t + (1 + eps) * (sqrt 3 * (e + d0))) b
    (surely_blocks 1 e w 2 1 1 [sg] static false) may d (1, / 2, / 2) -> d <= 2.
Proof.
  intros H1 H2 H3 H4 H5 -> (H & _). specialize (H (3 / 2, / 2, / 2)).
  assert (D : dist (/ 2, / 2, / 2) (3 / 2, / 2, / 2) = 1).
  { unfold dist. cbn [px py pz fst snd]. replace (_ + _ + _) with (1 * 1) by lra. apply sqrt_square. lra. }
  assert (D' : dist (1, / 2, / 2) (3 / 2, / 2, / 2) = / 2).
  { unfold dist. cbn [px py pz fst snd]. replace (_ + _ + _) with (/ 2 * / 2) by lra. apply sqrt_square. lra. }
  assert (S3 : 0 <= sqrt 3 <= 18 / 10).
  { split; [apply sqrt_pos|]. rewrite <- (sqrt_square (18 / 10)) by lra. apply sqrt_le_1_alt. lra. }
  rewrite D' in H. eapply Rle_trans; [apply H|].
  - left. eexists. split; [left; reflexivity|]. split; [left; reflexivity|]. split.
    + cbn [sg_range sg_origin up_to]. rewrite D. lra.
    + unfold inside. cbn [px py pz fst snd]. lra.
  - assert (sqrt 3 * (e + d0) <= 18 / 10 * (2 / 100)) by (apply Rmult_le_compat; lra).
    assert (0 <= sqrt 3 * (e + d0)) by (apply Rmult_le_pos; lra).
    assert (P : forall a c, 0 <= a <= c -> (1 + eps) * a <= (1 + / 1000) * c) by (intros a c Hac; apply Rmult_le_compat; lra).
    pose proof (P (sqrt 3 * 1) (18 / 10) ltac:(lra)). pose proof (P (sqrt 3 * (e + d0)) (18 / 10 * (2 / 100)) ltac:(lra)). pose proof (P (/ 2) (/ 2) ltac:(lra)).
    lra.
Qed.

Example c91_cpu_case oob (o : outcome) : let x := (half64 2, half64 1, half64 1) in
  voxelize_new (cpu_voxelize (double_ray floor64) (double_grid floor64 2 1 1 (half64 2)) default_options
    (map (cpu_cloud floor64 floor32 (shift_pose 0)) [one_sensor])) (gconst 2 1 1 half_bits) o ->
  exists g f d, o = Returns g /\ sdf_binary64 (half64 2) oob true false 2 1 1 (map_filled g (occ_filled true)) = Some f /\
    estimate (double_query b64 b64_sub (fun v => v) floor64 b64_trilinear)
      (double_field b64 b64_sub (fun v => v) floor64 b64_trilinear f (half64 2) (locate floor64 (shift_pose 0)) (fun v => v) (fun v => v)) (x, b64_lit 1 0) = Answer d /\
    is_finite d = true /\ B2R d <= 2.
Proof.
  intros x Hv. destruct (c90_cpu_case o Hv) as (g' & Eg' & G0 & G1).
  destruct (half64_val 0 ltac:(lia)) as (F0 & E0). destruct (half64_val 2 ltac:(lia)) as (F2 & E2). destruct (half64_val 1 ltac:(lia)) as (F1 & E1).
  assert (Hr : B2R (half64 2) = 1) by (rewrite E2; lra).
  assert (U : 0 < bpow radix2 (-53) <= / 1000000).
  { split; [apply bpow_gt_0|]. apply Rle_trans with (bpow radix2 (-20)); [apply bpow_le; lia|cbn; lra]. }
  assert (U3 : 0 < bpow radix2 (-30) <= / 8) by (split; [apply bpow_gt_0|]; apply Rle_trans with (bpow radix2 (-3)); [apply bpow_le; lia|cbn; lra]).
  assert (U4 : 0 < bpow radix2 (-50) <= / 1000) by (split; [apply bpow_gt_0|]; apply Rle_trans with (bpow radix2 (-10)); [apply bpow_le; lia|cbn; lra]).
  assert (U5 : 0 < bpow radix2 (-51) <= / 1000) by (split; [apply bpow_gt_0|]; apply Rle_trans with (bpow radix2 (-10)); [apply bpow_le; lia|cbn; lra]).
  assert (U6 : 0 < bpow radix2 (-41) <= / 1000) by (split; [apply bpow_gt_0|]; apply Rle_trans with (bpow radix2 (-10)); [apply bpow_le; lia|cbn; lra]).
  assert (U7 : 0 < bpow radix2 (-43) <= / 1000) by (split; [apply bpow_gt_0|]; apply Rle_trans with (bpow radix2 (-10)); [apply bpow_le; lia|cbn; lra]).
  assert (Qx : placed (double_ray floor64) B2R (shift_pose 0) (reals (double_ray floor64) B2R x) = (1, / 2, / 2)).
  { rewrite shift_pose_placed by lia. unfold reals, x. cbn [vx vy vz px py pz fst snd]. rewrite E1, E2. f_equal; [f_equal|]; lra. }
  refine ((fun T => _) (c91_cpu floor64 floor32 b64_trilinear (bpow radix2 (-41)) 2 1 1 2 (half64 2) oob 1 1 (shift_pose 0) [one_sensor] (gconst 2 1 1 half_bits) true false (fun v => v) (fun v => v) x
    ltac:(intros y _ _; reflexivity) c87_trilinear (bpow_ge_0 _ _) F2 _ ltac:(lia) ltac:(lia) ltac:(lia) ltac:(lia) _ _ _ ltac:(lia) _ _ _ _ _ o Hv)).
  - destruct T as (g & Eg & T). rewrite Eg in Eg'. injection Eg' as <-. cbv zeta in T.
    destruct T as (f & d & Ef & Ed & Fd & Bd).
    { left. split; [exists (1, 0, 0)%Z|exists (0, 0, 0)%Z]; (split; [cbn; lia|]); unfold map_filled; rewrite ?G0, ?G1; reflexivity. }
    exists g, f, d. split; [exact Eg|]. split; [exact Ef|]. split; [exact Ed|]. split; [exact Fd|]. clear Ef Ed Fd Hv.
    rewrite Hr in Bd. cbn [map one_sensor w_pose w_double w_range] in Bd. rewrite (proj2 one_sensor_range) in Bd.
    rewrite Qx in Bd.
    revert Bd. apply two_cells_bound; try lra.
    unfold sighting_of. cbn [map]. rewrite !shift_pose_placed by lia.
    replace (vfinite (double_ray floor64) (half64 2, half64 0, half64 0)) with true by (unfold vfinite; cbn [vx vy vz fst snd]; change (r_finite (double_ray floor64)) with (@is_finite 53 1024); now rewrite F0, F2).
    change (vfinite (double_ray floor64) (B754_nan, half64 0, half64 0)) with false. cbv iota.
    unfold reals. cbn [vx vy vz px py pz fst snd]. rewrite E0, E2.
    replace (0 + 1 / 2 + 0 / 2) with (/ 2) by lra. replace (2 / 2 + 1 / 2 + 0 / 2) with (3 / 2) by lra.
    replace (0 / 2 + 1 / 2 + 0 / 2) with (/ 2) by lra. reflexivity.
  - rewrite Hr. change 1 with (bpow radix2 0). split; apply bpow_le; lia.
  - rewrite Hr, Rmult_1_r. change 1 with (bpow radix2 0). split; apply bpow_le; lia.
  - split; [apply gconst_wf; lia|repeat split].
  - intros i b H. rewrite gget_gconst in H. destruct (in_bounds3 2 1 1 i); [injection H as <-; reflexivity|discriminate H].
  - apply shift_pose_tame; [lia|lra].
  - constructor; [|constructor]. split; [apply shift_pose_tame; [lia|lra]|]. split.
    { intros p [ <- |[ <- |[]]] F; [|discriminate]. unfold within, reals. cbn [vx vy vz px py pz fst snd]. rewrite E0, E2.
      repeat split; apply Rabs_le; lra. }
    split; [apply one_sensor_range|]. split; [reflexivity|]. rewrite Hr. apply one_sensor_inside. lra.
  - exact (conj F2 (conj F1 F1)).
  - unfold within, reals, x. cbn [vx vy vz px py pz fst snd]. rewrite E1, E2. repeat split; apply Rabs_le; lra.
  - rewrite Qx, Hr. unfold in_reach3. cbn [px py pz fst snd]. split; [right; lra|]. split; left; (split; [reflexivity|lra]).
Qed.

Example c91_devices_case ssub oob backend (o : outcome) : let x := (half64 2, half64 1, half64 1) in
  (exists threads, (0 < threads)%Z /\ backend = cuda_voxelize (float32_ray floor32) (float32_grid floor32 2 1 1 (half64 2)) default_options threads
     (map (dev_cloud floor64 floor32 (shift_pose 0)) [one_sensor])) \/
  backend = opencl_voxelize (float32_ray floor32) (float32_grid floor32 2 1 1 (half64 2)) default_options
    (map (dev_cloud floor64 floor32 (shift_pose 0)) [one_sensor]) ->
  voxelize_new backend (gconst 2 1 1 half_bits) o ->
  exists g f d, o = Returns g /\ sdf_binary32 (half64 2) oob true false 2 1 1 (map_filled g (occ_filled true)) = Some f /\
    estimate (double_query b32 ssub b64_of_b32 floor64 b64_trilinear)
      (double_field b32 ssub b64_of_b32 floor64 b64_trilinear f (half64 2) (locate floor64 (shift_pose 0)) (fun v => v) (fun v => v)) (x, b64_lit 1 0) = Answer d /\
    is_finite d = true /\ B2R d <= 2.
Proof.
  intros x Hb Hv. destruct (c90_devices_case backend o Hb Hv) as (g' & Eg' & G0 & G1).
  destruct (half64_val 0 ltac:(lia)) as (F0 & E0). destruct (half64_val 2 ltac:(lia)) as (F2 & E2). destruct (half64_val 1 ltac:(lia)) as (F1 & E1).
  destruct (half32_val 0 ltac:(lia)) as (F0' & E0'). destruct (half32_val 2 ltac:(lia)) as (F2' & E2').
  assert (Hb' : exists threads, (0 < threads)%Z /\
    (backend = cuda_voxelize (float32_ray floor32) (float32_grid floor32 2 1 1 (half64 2)) default_options threads
       (map (dev_cloud floor64 floor32 (shift_pose 0)) [one_sensor]) \/
     backend = opencl_voxelize (float32_ray floor32) (float32_grid floor32 2 1 1 (half64 2)) default_options
       (map (dev_cloud floor64 floor32 (shift_pose 0)) [one_sensor]))).
  { destruct Hb as [(t & Ht & E)|E]; [exists t; split; [exact Ht|left; exact E]|exists 1%Z; split; [lia|right; exact E]]. }
  destruct Hb' as (threads & Hth & Hb').
  assert (Hm : map_for (float32_grid floor32 2 1 1 (half64 2)) (gconst 2 1 1 half_bits)) by (split; [apply gconst_wf; lia|repeat split]).
  assert (Hr : B2R (half64 2) = 1) by (rewrite E2; lra).
  assert (U0 : 0 < bpow radix2 (-24) <= / 1000000).
  { split; [apply bpow_gt_0|]. apply Rle_trans with (bpow radix2 (-20)); [apply bpow_le; lia|cbn; lra]. }
  assert (U : 0 < bpow radix2 (-53) <= / 1000000).
  { split; [apply bpow_gt_0|]. apply Rle_trans with (bpow radix2 (-20)); [apply bpow_le; lia|cbn; lra]. }
  assert (U3 : 0 < bpow radix2 (-15) <= / 8) by (split; [apply bpow_gt_0|]; apply Rle_trans with (bpow radix2 (-3)); [apply bpow_le; lia|cbn; lra]).
  assert (U4 : 0 < bpow radix2 (-50) <= / 1000) by (split; [apply bpow_gt_0|]; apply Rle_trans with (bpow radix2 (-10)); [apply bpow_le; lia|cbn; lra]).
  assert (U5 : 0 < bpow radix2 (-23) <= / 1000) by (split; [apply bpow_gt_0|]; apply Rle_trans with (bpow radix2 (-10)); [apply bpow_le; lia|cbn; lra]).
  assert (U6 : 0 < bpow radix2 (-41) <= / 1000) by (split; [apply bpow_gt_0|]; apply Rle_trans with (bpow radix2 (-10)); [apply bpow_le; lia|cbn; lra]).
  assert (U7 : 0 < bpow radix2 (-43) <= / 1000) by (split; [apply bpow_gt_0|]; apply Rle_trans with (bpow radix2 (-10)); [apply bpow_le; lia|cbn; lra]).
  assert (Qx : placed (double_ray floor64) B2R (shift_pose 0) (reals (double_ray floor64) B2R x) = (1, / 2, / 2)).
  { rewrite shift_pose_placed by lia. unfold reals, x. cbn [vx vy vz px py pz fst snd]. rewrite E1, E2. f_equal; [f_equal|]; lra. }
  refine ((fun T => _) (c91_devices ssub floor64 floor32 b64_trilinear (bpow radix2 (-41)) 2 1 1 2 (half64 2) oob 1 1 (shift_pose 0) threads [one_sensor] (gconst 2 1 1 half_bits) (gconst 2 1 1 half_bits)
    true false (fun v => v) (fun v => v) x
    ltac:(intros y _ _; reflexivity) ltac:(intros y _ _; reflexivity) c87_trilinear (bpow_ge_0 _ _) F2 _ ltac:(lia) ltac:(lia) ltac:(lia) ltac:(lia) _ Hm Hm _ ltac:(lia) Hth
    ltac:(unfold zlen; cbn; lia) ltac:(cbn; lia) _ _ _ _ _ backend Hb' o Hv)).
  - destruct T as (g & Eg & T). rewrite Eg in Eg'. injection Eg' as <-. cbv zeta in T.
    destruct T as (f & d & Ef & Ed & Fd & Bd).
    { left. split; [exists (1, 0, 0)%Z|exists (0, 0, 0)%Z]; (split; [cbn; lia|]); unfold map_filled; rewrite ?G0, ?G1; reflexivity. }
    exists g, f, d. split; [exact Eg|]. split; [exact Ef|]. split; [exact Ed|]. split; [exact Fd|]. clear Ef Ed Fd Hv.
    rewrite Hr in Bd. cbn [map one_sensor w_pose w_float w_range] in Bd. rewrite (proj2 one_sensor_range) in Bd.
    rewrite Qx in Bd.
    revert Bd. apply two_cells_bound; try lra.
    unfold sighting_of. cbn [map]. rewrite !shift_pose_placed by lia.
    replace (vfinite (float32_ray floor32) (half32 2, half32 0, half32 0)) with true by (unfold vfinite; cbn [vx vy vz fst snd]; change (r_finite (float32_ray floor32)) with (@is_finite 24 128); now rewrite F0', F2').
    change (vfinite (float32_ray floor32) (B754_nan, half32 0, half32 0)) with false. cbv iota.
    unfold reals. cbn [vx vy vz px py pz fst snd]. rewrite E0', E2'.
    replace (0 + 1 / 2 + 0 / 2) with (/ 2) by lra. replace (2 / 2 + 1 / 2 + 0 / 2) with (3 / 2) by lra.
    replace (0 / 2 + 1 / 2 + 0 / 2) with (/ 2) by lra. reflexivity.
  - rewrite Hr. change 1 with (bpow radix2 0). split; apply bpow_le; lia.
  - rewrite Hr, Rmult_1_r. change 1 with (bpow radix2 0). split; apply bpow_le; lia.
  - intros i b H. rewrite gget_gconst in H. destruct (in_bounds3 2 1 1 i); [injection H as <-; reflexivity|discriminate H].
  - apply shift_pose_tame; [lia|lra].
  - constructor; [|constructor]. split; [|unfold zlen; cbn; lia]. split; [apply shift_pose_tame; [lia|lra]|]. split.
    { intros p [ <- |[ <- |[]]] F; [|discriminate]. unfold within, reals. cbn [vx vy vz px py pz fst snd]. rewrite E0', E2'.
      repeat split; apply Rabs_le; lra. }
    split; [apply one_sensor_range|]. split; [reflexivity|]. rewrite Hr. apply one_sensor_inside. lra.
  - exact (conj F2 (conj F1 F1)).
  - unfold within, reals, x. cbn [vx vy vz px py pz fst snd]. rewrite E1, E2. repeat split; apply Rabs_le; lra.
  - rewrite Qx, Hr. unfold in_reach3. cbn [px py pz fst snd]. split; [right; lra|]. split; left; (split; [reflexivity|lra]).
Qed.
