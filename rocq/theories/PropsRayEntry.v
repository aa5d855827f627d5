(** Sensors outside the grid and points far away: properties C75, C76. *)
From Coq Require Import ZArith Reals List Lia Lra Bool ZifyBool SpecFloat.
From Verif Require Import Util Grid Occ RaycastModel RaycastSpec RealRayModel RayGeoSpec RayGeoProofs
  RaycastProofs RayEntryProofs SfRayModel FilterModel FilterSpec FilterProofs PropsFilter.
Import ListNotations.
Local Open Scope R_scope.

(** ** C75 *)

(** Full statement, for an arithmetic [A] that computes with [grid v nx ny nz] and
    [vec]: a voxel of the grid whose interior the segment crosses is marked free,
    unless it is the voxel of the end point. *)
Definition c75_full (A : ray_arith) (grid : R -> Z -> Z -> Z -> ray_grid A)
    (vec : pt -> vec A) (range : er -> rT A) : Prop :=
  forall v nx ny nz o p e m bs t i, 0 < v -> range_ok m -> cut_at m o p e ->
    cast_point A (grid v nx ny nz) (range m) (vec o) (voxel_of A (grid v nx ny nz) (vec o)) (vec p) =
      Some bs ->
    0 <= t <= 1 -> in_bounds3 nx ny nz i = true -> inside_voxel v i (along o e t) ->
    ~ belongs_to_voxel v i e -> In (i, false) bs.

(** Proved part, in exact arithmetic: a sensor outside the grid marks every voxel
    whose interior the ray crosses at least 1e-10 after some point of the grid.  On
    every axis the sensor is between the planes of the grid or the direction is at
    least 1e-10.  Missing: the first 1e-10 in the grid, rays that are nearly parallel
    to an axis and cross its plane, and rounding (see below). *)
Theorem c75_entered_partial v nx ny nz o p e m bs t t1 i :
  0 < v -> range_ok m -> cut_at m o p e -> ~ in_grid_box v nx ny nz o ->
  (0 <= px o < v * IZR nx \/ / 10000000000 <= Rabs ((px p - px o) / dist o p)) ->
  (0 <= py o < v * IZR ny \/ / 10000000000 <= Rabs ((py p - py o) / dist o p)) ->
  (0 <= pz o < v * IZR nz \/ / 10000000000 <= Rabs ((pz p - pz o) / dist o p)) ->
  cast_point exact_ray (exact_grid v nx ny nz) m (vec_of o)
    (voxel_of exact_ray (exact_grid v nx ny nz) (vec_of o)) (vec_of p) = Some bs ->
  0 <= t1 <= t -> t <= 1 -> in_bounds3 nx ny nz i = true ->
  in_closed_grid_box v nx ny nz (along o e t1) ->
  inside_voxel v i (along o e t) -> / 10000000000 <= dist (along o e t1) (along o e t) ->
  ~ belongs_to_voxel v i e -> In (i, false) bs.
Proof.
  intros Hv Hm Hc Ho Fx Fy Fz E H1 Ht Hi Hb Hin Hg Hne.
  exact (cast_complete_outside v nx ny nz o p e m Hv Hm Hc bs t t1 i Ho Fx Fy Fz E H1 Ht Hi Hin Hb Hg Hne).
Qed.
Print Assumptions c75_entered_partial.

(** A sensor two voxels beyond the upper end of a row of four. *)
Definition sensor : pt := (6, /2, /2).
Definition seen_point : pt := (5/2, /2, /2).

Lemma sensor_dist : dist sensor seen_point = 7/2.
Proof.
  unfold dist, sensor, seen_point. cbn [px py pz fst snd].
  replace (_ + _ + _) with (7/2 * (7/2)) by lra. apply sqrt_square. lra.
Qed.

Lemma sensor_cut : cut_at PInf sensor seen_point seen_point.
Proof.
  exists 1. split; [lra|]. split; [|easy]. unfold along, sensor, seen_point.
  cbn [px py pz fst snd]. f_equal; [f_equal|]; lra.
Qed.

(** The last voxel of the row is crossed, and marked in exact arithmetic. *)
Lemma sensor_crosses : inside_voxel 1 (3, 0, 0)%Z (along sensor seen_point (5/7)).
Proof. unfold inside_voxel, along, sensor, seen_point. cbn [px py pz ix iy iz fst snd]. lra. Qed.

Example c75_case :
  exists bs,
    cast_point exact_ray (exact_grid 1 4 1 1) PInf (vec_of sensor)
      (voxel_of exact_ray (exact_grid 1 4 1 1) (vec_of sensor)) (vec_of seen_point) = Some bs /\
    In ((3, 0, 0)%Z, false) bs.
Proof.
  destruct (cast_point_some exact_ray (exact_grid 1 4 1 1) PInf (vec_of sensor)
    (voxel_of exact_ray (exact_grid 1 4 1 1) (vec_of sensor)) (vec_of seen_point)) as (bs & E & _).
  exists bs. split; [exact E|].
  apply (c75_entered_partial 1 4 1 1 sensor seen_point seen_point PInf bs (5/7) (4/7)); try easy; try lra.
  - apply sensor_cut.
  - intros ((_ & H) & _). unfold sensor in H. cbn [px fst] in H. lra.
  - right. rewrite sensor_dist. unfold sensor, seen_point. cbn [px fst].
    rewrite Rabs_left by lra. lra.
  - left. unfold sensor. cbn [py fst snd]. lra.
  - left. unfold sensor. cbn [pz snd]. lra.
  - unfold in_closed_grid_box, along, sensor, seen_point. cbn [px py pz fst snd]. lra.
  - apply sensor_crosses.
  - rewrite dist_between by lra. rewrite sensor_dist. lra.
  - intros ((H & _) & _). unfold seen_point in H. cbn [px ix fst] in H. lra.
Qed.

Local Open Scope Z_scope.

(** The same sensor and point as a cloud, in the arithmetic of the CPU and of the
    devices; the default options and an unknown map. *)
Definition row_cloud (prec emax : Z) : cloud (sf_ray prec emax) :=
  sensor_cloud prec emax (24, 2, 2) [quarters prec emax (-14, 0, 0)] (S754_infinity false).
Definition row_grid (prec emax : Z) : ray_grid (sf_ray prec emax) := unit_grid prec emax 4 1 1.
Definition row_map : grid occ := gconst 4 1 1 half_bits.

Lemma seen_by_one A rg cls w c i f s v :
  points_counting A rg c (i, false) = f -> points_counting A rg c (i, true) = s -> cls f s = Some v ->
  clouds_seeing A rg cls w [c] i = if seen_eqb w v then 1 else 0.
Proof. intros E1 E2 E3. unfold clouds_seeing. cbn [filter]. rewrite E1, E2, E3. now destruct (seen_eqb w v). Qed.

Lemma row_map_for prec emax : map_for (row_grid prec emax) row_map.
Proof. split; [apply gconst_wf; lia|easy]. Qed.

Lemma row_few prec emax : few_points (sf_ray prec emax) [row_cloud prec emax].
Proof. constructor; [unfold zlen; cbn; lia|constructor]. Qed.

Section OneCloud.
Variables (c64 : cloud ray64) (c32 : cloud ray32) (i : idx).
Let cpu := cpu_voxelize ray64 (row_grid 53 1024) default_options [c64].
Let cuda threads := cuda_voxelize ray32 (row_grid 24 128) default_options threads [c32].
Let opencl := opencl_voxelize ray32 (row_grid 24 128) default_options [c32].

(** Every execution on the CPU finds cell [i] free, every one on a device leaves it
    unknown; there are executions. *)
Definition free_on_cpu_only : Prop :=
  (exists g, voxelize_new cpu row_map (Returns g)) /\
  (forall r, voxelize_new cpu row_map r ->
     exists g, r = Returns g /\ gget g i = Some zero_bits) /\
  forall threads backend, 0 < threads -> backend = cuda threads \/ backend = opencl ->
    (exists g, voxelize_new backend row_map (Returns g)) /\
    forall r, voxelize_new backend row_map r ->
      exists g, r = Returns g /\ gget g i = Some half_bits.

Lemma free_on_cpu_only_intro :
  few_points ray64 [c64] -> few_points ray32 [c32] -> gget row_map i = Some half_bits ->
  points_counting ray64 (row_grid 53 1024) c64 (i, false) = 1 ->
  points_counting ray64 (row_grid 53 1024) c64 (i, true) = 0 ->
  points_counting ray32 (row_grid 24 128) c32 (i, false) = 0 ->
  points_counting ray32 (row_grid 24 128) c32 (i, true) = 0 ->
  free_on_cpu_only.
Proof.
  intros F64 F32 Hi E1 E2 E3 E4.
  assert (Ho : valid_options default_options) by apply c44_case.
  destruct (c62_cpu ray64 (row_grid 53 1024) default_options [c64] row_map
    (row_map_for 53 1024) Ho F64) as (Ex & Hc).
  split; [exact Ex|]. split.
  - intros r Hr. destruct (Hc r Hr) as (g & -> & H). exists g. split; [easy|].
    destruct H as (_ & _ & H). destruct (H i half_bits Hi) as (_ & _ & H3 & _).
    assert (E : counts_seen_as default_options 1 0 = Some SeenFree).
    { unfold counts_seen_as. rewrite classify_some; [reflexivity|easy|unfold counts_ok; lia]. }
    apply H3; [reflexivity|exact (seen_by_one _ _ _ SeenFilled _ _ _ _ _ E1 E2 E)|].
    apply Z.eq_le_incl, eq_sym. exact (seen_by_one _ _ _ SeenFree _ _ _ _ _ E1 E2 E).
  - intros threads backend Ht Hb.
    destruct (c62_device ray32 (row_grid 24 128) default_options threads [c32] row_map row_map
      (row_map_for 24 128) (row_map_for 24 128) Ho F32 Ht ltac:(unfold zlen; cbn; lia)
      ltac:(cbn; lia) backend Hb) as (Ex' & Hd).
    split; [exact Ex'|]. intros r Hr. destruct (Hd r Hr) as (g & -> & H). exists g. split; [easy|].
    destruct H as (_ & _ & H). destruct (H i half_bits Hi) as (_ & _ & _ & H4).
    assert (E : dev_seen_as default_options 0 0 = Some SeenUnknown).
    { unfold dev_seen_as. rewrite classify_some; [reflexivity|easy|unfold counts_ok; lia]. }
    apply H4; [reflexivity|exact (seen_by_one _ _ _ SeenFilled _ _ _ _ _ E3 E4 E)|].
    apply (Z.le_lt_trans _ 0); [|easy].
    apply Z.eq_le_incl. exact (seen_by_one _ _ _ SeenFree _ _ _ _ _ E3 E4 E).
Qed.

End OneCloud.

(** The devices lose the 1e-10 by which the start is moved into the grid: the crossed
    voxel is found free by the CPU and stays unknown on the devices. *)
Theorem c75_devices_refuted :
  inside_voxel 1 (3, 0, 0) (along sensor seen_point (5/7)) /\
  free_on_cpu_only (row_cloud 53 1024) (row_cloud 24 128) (3, 0, 0).
Proof.
  split; [apply sensor_crosses|].
  apply free_on_cpu_only_intro; try apply row_few; vm_compute; reflexivity.
Qed.
Print Assumptions c75_devices_refuted.

(** The CPU loses it too for a sensor 2^21 voxels away: only the voxel of the point is
    counted, on the same row seen from the same side. *)
Theorem c75_far_sensor_refuted :
  inside_voxel 1 (3, 0, 0) (along (IZR (2 ^ 21 + 4), /2, /2)%R seen_point (IZR (2 ^ 21) / IZR (2 ^ 21 + 1))%R) /\
  point_work ray64 (row_grid 53 1024)
    (sensor_cloud 53 1024 (4 * (2 ^ 21 + 4), 2, 2) [quarters 53 1024 (10 - 4 * (2 ^ 21 + 4), 0, 0)]
       (S754_infinity false)) 0 =
    Some [((2, 0, 0), true)].
Proof.
  split; [|vm_compute; reflexivity].
  unfold inside_voxel, along, seen_point. cbn [px py pz ix iy iz fst snd].
  change (2 ^ 21 + 4) with 2097156. change (2 ^ 21 + 1) with 2097153. change (2 ^ 21) with 2097152.
  lra.
Qed.
Print Assumptions c75_far_sensor_refuted.

(** ** C76 *)

(** Exact arithmetic is c41_crossed_voxels_marked: points beyond the range mark every
    voxel up to the range.  In binary32 the squared length of a ray of 2^127 overflows
    and the ray collapses to the sensor: the row in front of a sensor inside the grid,
    with a range of three units, is free on the CPU and stays unknown on the devices. *)
Definition no_return (prec emax : Z) : cloud (sf_ray prec emax) :=
  sensor_cloud prec emax (2, 2, 2) [(sf_of prec emax (2 ^ 127), S754_zero false, S754_zero false)]
    (sf_of prec emax 3).

Theorem c76_far_point_refuted :
  inside_voxel 1 (1, 0, 0) (along (/2, /2, /2)%R (7/2, /2, /2)%R (/3)%R) /\
  cut_at (Fin 3) (/2, /2, /2)%R (IZR (2 ^ 127) + /2, /2, /2)%R (7/2, /2, /2)%R /\
  forallb (vfinite ray32) (c_points ray32 (no_return 24 128)) = true /\
  free_on_cpu_only (no_return 53 1024) (no_return 24 128) (1, 0, 0).
Proof.
  split; [unfold inside_voxel, along; cbn [px py pz ix iy iz fst snd]; lra|].
  split; [|split; [vm_compute; reflexivity|]].
  - assert (Hx : (3 < IZR (2 ^ 127))%R) by (apply IZR_lt; reflexivity).
    assert (Hd : forall x, (0 <= x)%R -> dist (/2, /2, /2)%R (x + /2, /2, /2)%R = x).
    { intros x H. unfold dist. cbn [px py pz fst snd].
      replace (_ + _ + _)%R with (x * x)%R by lra. now apply sqrt_square. }
    exists (3 / IZR (2 ^ 127))%R. split; [|split].
    + split; [apply Rmult_le_pos; [lra|apply Rlt_le, Rinv_0_lt_compat; lra]|].
      apply (Rmult_le_reg_r (IZR (2 ^ 127))); [lra|].
      unfold Rdiv. rewrite Rmult_assoc, Rinv_l; lra.
    + unfold along. cbn [px py pz fst snd]. f_equal; [f_equal|]; [|lra|lra].
      field_simplify; lra.
    + replace (7/2)%R with (3 + /2)%R by lra. rewrite !Hd by lra.
      rewrite Rmin_right; lra.
  - apply free_on_cpu_only_intro; [| |vm_compute; reflexivity ..];
      (constructor; [unfold zlen; cbn; lia|constructor]).
Qed.
Print Assumptions c76_far_point_refuted.
