(** Property of casting rays with rounded arithmetic (C89). *)
From Coq Require Import ZArith Reals List Bool Lia Lra.
From Flocq Require Import Core BinarySingleNaN.
From Verif Require Import Util Grid SdfSpec FloatModel FilterModel RaycastModel RaycastSpec RaycastProofs RayGeoSpec RayRoundSpec
  RayFloatModel RayFloatProofs RayFloatTop.
From Verif Require SdfDoubleSpec SdfDoubleProofs.
Import ListNotations.
Local Open Scope R_scope.

(** ** C89 *)

(** One ray on the CPU, with the sensor in the grid: every marked voxel is within a small
    multiple of the rounding unit of the segment, and every voxel that the segment enters
    deeper than that is marked; the segment is cut at the maximum range up to a few units. *)
Theorem c89_double (fl : b64 -> Z) nx ny nz N (res : b64) m range (o p : vec (double_ray fl)) bs :
  SdfDoubleSpec.floors fl -> is_finite res = true -> bpow radix2 (-300) <= B2R res <= bpow radix2 300 ->
  (1 <= N)%Z -> (N * (N + 128) <= 2 ^ 53)%Z -> (nx <= N)%Z -> (ny <= N)%Z -> (nz <= N)%Z ->
  good_ray (double_ray fl) is_finite B2R (bpow radix2 50 * B2R res) (bpow radix2 (-90) * B2R res) o p ->
  stands_for (double_ray fl) is_finite B2R m range ->
  let g := double_grid fl nx ny nz res in
  in_grid _ g (voxel_of _ g o) = true ->
  cast_point _ g m o (voxel_of _ g o) p = Some bs ->
  let a := reals (double_ray fl) B2R o in
  let b := reals (double_ray fl) B2R p in
  exists s whole,
    marks_segment (B2R res) (IZR N * (IZR N + 128) * bpow radix2 (-53) * B2R res) s whole nx ny nz a b bs /\
    cut_near (20 * bpow radix2 (-53) * dist a b) range (dist a b) s whole.
Proof. intros. now apply marks_double with (m := m). Qed.
Print Assumptions c89_double.

(** One ray on the devices, in binary32; the size of the map's voxels is a double. *)
Theorem c89_float (fl : b32 -> Z) nx ny nz N (res : b64) m range (o p : vec (float32_ray fl)) bs :
  (forall x : b32, is_finite x = true -> Rabs (B2R x) < bpow radix2 31 -> fl x = Zfloor (B2R x)) ->
  is_finite res = true -> bpow radix2 (-30) <= B2R res <= bpow radix2 30 ->
  (1 <= N)%Z -> (N * (N + 128) <= 2 ^ 24)%Z -> (nx <= N)%Z -> (ny <= N)%Z -> (nz <= N)%Z ->
  good_ray (float32_ray fl) is_finite B2R (bpow radix2 20 * B2R res) (bpow radix2 (-30) * B2R res) o p ->
  stands_for (float32_ray fl) is_finite B2R m range ->
  let g := float32_grid fl nx ny nz res in
  in_grid _ g (voxel_of _ g o) = true ->
  cast_point _ g m o (voxel_of _ g o) p = Some bs ->
  let a := reals (float32_ray fl) B2R o in
  let b := reals (float32_ray fl) B2R p in
  exists s whole,
    marks_segment (B2R res) (IZR N * (IZR N + 130) * bpow radix2 (-24) * B2R res) s whole nx ny nz a b bs /\
    cut_near (20 * bpow radix2 (-24) * dist a b) range (dist a b) s whole.
Proof. intros. now apply marks_float with (m := m). Qed.
Print Assumptions c89_float.

(** A cloud on the CPU, cast into fresh counters by any number of threads. *)
Theorem c89_double_cloud (fl : b64 -> Z) nx ny nz N (res : b64) range (c : cloud (double_ray fl)) t t' :
  SdfDoubleSpec.floors fl -> is_finite res = true -> bpow radix2 (-300) <= B2R res <= bpow radix2 300 ->
  (1 <= N)%Z -> (N * (N + 128) <= 2 ^ 53)%Z -> (nx <= N)%Z -> (ny <= N)%Z -> (nz <= N)%Z ->
  let A := double_ray fl in
  let g := double_grid fl nx ny nz res in
  let seen := filter (vfinite A) (c_points A c) in
  (forall p, In p seen ->
   good_ray A is_finite B2R (bpow radix2 50 * B2R res) (bpow radix2 (-90) * B2R res) (c_origin A c) (c_to_grid A c p)) ->
  stands_for A is_finite B2R (c_max_range A c) range ->
  in_grid A g (voxel_of A g (c_origin A c)) = true ->
  tracking_for g t -> (forall i f s, gget t i = Some (f, s) -> f = 0%Z /\ s = 0%Z) -> (zlen (c_points A c) < 2 ^ 31)%Z ->
  raycast_cloud A g c t t' ->
  counts_segments (B2R res) (IZR N * (IZR N + 128) * bpow radix2 (-53) * B2R res) (20 * bpow radix2 (-53)) range
    (reals A B2R (c_origin A c)) (map (fun p => reals A B2R (c_to_grid A c p)) seen) (gget t').
Proof.
  intros Hfl Fr Hr HN Hs Nx Ny Nz A g seen Hg Hm Hi Ht Hz Hn Hc.
  apply (cloud_counts A B2R g _ _ _ range c t t' Ht Hz Hn); [|intros p bs Hp E|exact Hc].
  - apply Rmult_le_pos; [lra|apply bpow_ge_0].
  - apply (marks_double fl nx ny nz N res (c_max_range A c) range (c_origin A c) (c_to_grid A c p) bs); try assumption.
    now apply Hg.
Qed.
Print Assumptions c89_double_cloud.

(** The same on the devices. *)
Theorem c89_float_cloud (fl : b32 -> Z) nx ny nz N (res : b64) range (c : cloud (float32_ray fl)) t t' :
  (forall x : b32, is_finite x = true -> Rabs (B2R x) < bpow radix2 31 -> fl x = Zfloor (B2R x)) ->
  is_finite res = true -> bpow radix2 (-30) <= B2R res <= bpow radix2 30 ->
  (1 <= N)%Z -> (N * (N + 128) <= 2 ^ 24)%Z -> (nx <= N)%Z -> (ny <= N)%Z -> (nz <= N)%Z ->
  let A := float32_ray fl in
  let g := float32_grid fl nx ny nz res in
  let seen := filter (vfinite A) (c_points A c) in
  (forall p, In p seen ->
   good_ray A is_finite B2R (bpow radix2 20 * B2R res) (bpow radix2 (-30) * B2R res) (c_origin A c) (c_to_grid A c p)) ->
  stands_for A is_finite B2R (c_max_range A c) range ->
  in_grid A g (voxel_of A g (c_origin A c)) = true ->
  tracking_for g t -> (forall i f s, gget t i = Some (f, s) -> f = 0%Z /\ s = 0%Z) -> (zlen (c_points A c) < 2 ^ 31)%Z ->
  raycast_cloud A g c t t' ->
  counts_segments (B2R res) (IZR N * (IZR N + 130) * bpow radix2 (-24) * B2R res) (20 * bpow radix2 (-24)) range
    (reals A B2R (c_origin A c)) (map (fun p => reals A B2R (c_to_grid A c p)) seen) (gget t').
Proof.
  intros Hfl Fr Hr HN Hs Nx Ny Nz A g seen Hg Hm Hi Ht Hz Hn Hc.
  apply (cloud_counts A B2R g _ _ _ range c t t' Ht Hz Hn); [|intros p bs Hp E|exact Hc].
  - apply Rmult_le_pos; [lra|apply bpow_ge_0].
  - apply (marks_float fl nx ny nz N res (c_max_range A c) range (c_origin A c) (c_to_grid A c p) bs); try assumption.
    now apply Hg.
Qed.
Print Assumptions c89_float_cloud.

(** A grid of two voxels of size 1, a sensor in the middle of the first and a point in the
    middle of the second: the first voxel is marked free and the second filled, with and
    without a range of 4. *)
Definition floor64 (x : b64) : Z := Zfloor (B2R x).
Definition half64 (k : Z) : b64 := binary_normalize 53 1024 prec53 emax1024 mode_NE k (-1) false.

Lemma half64_val k : (Z.abs k <= 8)%Z -> is_finite (half64 k) = true /\ B2R (half64 k) = IZR k / 2.
Proof.
  intros Hk. unfold half64. generalize (binary_normalize_correct 53 1024 prec53 emax1024 mode_NE k (-1) false). cbv zeta.
  replace (F2R (Float radix2 k (-1))) with (IZR k / 2) by (unfold F2R; cbn; lra).
  change (round_mode mode_NE) with ZnearestE. rewrite round_generic; [|apply valid_rnd_N|].
  2:{ replace (IZR k / 2) with (F2R (Float radix2 k (-1))) by (unfold F2R; cbn; lra).
      apply (generic_format_FLT radix2 (-1074) 53). exists (Float radix2 k (-1)); [reflexivity| |cbn; lia].
      cbn [Fnum]. apply Z.le_lt_trans with 8%Z; [exact Hk|reflexivity]. }
  rewrite Rlt_bool_true; [tauto|]. apply Rle_lt_trans with (bpow radix2 3); [|apply bpow_lt; lia].
  apply Rabs_le. assert (-8 <= IZR k <= 8) by (split; apply IZR_le; lia). cbn. lra.
Qed.

Example c89_case range m : (range = None /\ m = B754_infinity false) \/ (range = Some 4 /\ m = half64 8) ->
  exists bs, let g := double_grid floor64 2 1 1 (half64 2) in
  let o : vec (double_ray floor64) := (half64 1, half64 1, half64 1) in
  let p : vec (double_ray floor64) := (half64 3, half64 1, half64 1) in
  cast_point _ g m o (voxel_of _ g o) p = Some bs /\ (exists b, In ((0, 0, 0)%Z, b) bs) /\ In ((1, 0, 0)%Z, true) bs.
Proof.
  intros Hm.
  set (g := double_grid floor64 2 1 1 (half64 2)).
  set (o := (half64 1, half64 1, half64 1) : vec (double_ray floor64)).
  set (p := (half64 3, half64 1, half64 1) : vec (double_ray floor64)).
  destruct (half64_val 1 ltac:(lia)) as (F1 & E1). destruct (half64_val 2 ltac:(lia)) as (F2 & E2).
  destruct (half64_val 3 ltac:(lia)) as (F3 & E3). destruct (half64_val 8 ltac:(lia)) as (F8 & E8).
  assert (Hfl : SdfDoubleSpec.floors floor64) by (intros x _ _; reflexivity).
  assert (Hr : B2R (half64 2) = 1) by (rewrite E2; lra).
  assert (B : bpow radix2 (-300) <= 1 <= bpow radix2 300) by (change 1 with (bpow radix2 0); split; apply bpow_le; lia).
  assert (B50 : 4 <= bpow radix2 50) by (change 4 with (bpow radix2 2); apply bpow_le; lia).
  assert (B90 : bpow radix2 (-90) <= 1) by (change 1 with (bpow radix2 0); apply bpow_le; lia).
  assert (Hi : in_grid _ g (voxel_of _ g o) = true).
  { assert (Q : Zfloor (B2R (b64_mul (half64 1) (b64_div (b64_ofZ 1) (half64 2)))) = 0%Z).
    { destruct (SdfDoubleProofs.inv_val (half64 2) (B2R (half64 2)) (conj F2 eq_refl)) as (v & (Fv & Ev) & Dv).
      { rewrite Hr. change 1 with (bpow radix2 0). split; apply bpow_le; lia. }
      change (SdfDoubleModel.b64_lit 1 0) with (b64_ofZ 1) in Fv, Ev. rewrite Hr, Rmult_1_r in Dv.
      pose proof (rounded_float 53 1024 prec53 emax1024 floor64 62 ltac:(lia) ltac:(lia) ltac:(intros; reflexivity)) as RR.
      assert (U : bpow radix2 (-53) <= / 1000) by (cbn; lra). unfold SdfDoubleProofs.u53 in Dv.
      assert (Dv' : Rabs (v - 1) <= / 500) by (eapply Rle_trans; [exact Dv|]; lra). apply Rabs_le_inv in Dv'.
      destruct (rr_mul _ _ _ _ _ _ _ RR (half64 1) (b64_div (b64_ofZ 1) (half64 2)) F1 Fv) as (_ & Dm & _).
      { rewrite Ev, E1. apply Rle_trans with (bpow radix2 0); [|apply bpow_le; lia]. apply Rabs_le. cbn. lra. }
      rewrite Ev, E1 in Dm. apply Zfloor_imp. cbn [Z.add].
      change (B2R (r_mul (float_ray 53 1024 prec53 emax1024 floor64) (half64 1) (b64_div (b64_ofZ 1) (half64 2))))
        with (B2R (b64_mul (half64 1) (b64_div (b64_ofZ 1) (half64 2)))) in Dm.
      assert (Eta : bpow radix2 (3 - 1024 - 53) <= / 1000).
      { apply Rle_trans with (bpow radix2 (-53)); [apply bpow_le; lia|exact U]. }
      rewrite (Rabs_pos_eq (1 / 2 * v)) in Dm by lra.
      assert (bpow radix2 (- (53)) * (1 / 2 * v) <= / 1000 * 1) by (apply Rmult_le_compat; [apply bpow_ge_0|lra|exact U|lra]).
      apply Rabs_le_inv in Dm. lra. }
    assert (V : voxel_of _ g o = (0, 0, 0)%Z).
    { change (voxel_of _ g o) with (let q := Zfloor (B2R (b64_mul (half64 1) (b64_div (b64_ofZ 1) (half64 2)))) in (q, q, q)).
      cbv zeta. now rewrite Q. }
    rewrite V. reflexivity. }
  destruct (cast_point_some (double_ray floor64) g m o (voxel_of _ g o) p) as (bs & Ec & _).
  exists bs. split; [exact Ec|].
  assert (Hg : good_ray (double_ray floor64) is_finite B2R (bpow radix2 50 * B2R (half64 2)) (bpow radix2 (-90) * B2R (half64 2)) o p).
  { rewrite Hr. intros f [ -> |[ -> | -> ]]; cbn [vx vy vz o p fst snd]; rewrite E1, ?E3.
    - split; [exact F1|]. split; [exact F3|]. split; [apply Rabs_le; lra|]. split; [apply Rabs_le; lra|].
      right. rewrite Rabs_pos_eq by lra. lra.
    - split; [exact F1|]. split; [exact F1|]. split; [apply Rabs_le; lra|]. split; [apply Rabs_le; lra|]. left. lra.
    - split; [exact F1|]. split; [exact F1|]. split; [apply Rabs_le; lra|]. split; [apply Rabs_le; lra|]. left. lra. }
  assert (Hm' : stands_for (double_ray floor64) is_finite B2R m range).
  { destruct Hm as [( -> & -> )|( -> & -> )]; [reflexivity|]. split; [exact F8|]. split; [lra|]. rewrite E8. lra. }
  destruct (c89_double floor64 2 1 1 2 (half64 2) m range o p bs Hfl F2 ltac:(rewrite Hr; exact B) ltac:(lia) ltac:(lia) ltac:(lia)
    ltac:(lia) ltac:(lia) Hg Hm' Hi Ec) as (s & whole & (S0 & S1 & _ & _ & S2 & S3) & C).
  assert (Eo : reals (double_ray floor64) B2R o = (/ 2, / 2, / 2)).
  { unfold reals, o. cbn [vx vy vz fst snd]. rewrite E1. f_equal; [f_equal|]; lra. }
  assert (Ep : reals (double_ray floor64) B2R p = (3 / 2, / 2, / 2)).
  { unfold reals, p. cbn [vx vy vz fst snd]. rewrite E1, E3. f_equal; [f_equal|]; lra. }
  rewrite Eo, Ep in *. rewrite Hr in *.
  assert (Ee : IZR 2 * (IZR 2 + 128) * bpow radix2 (-53) * 1 <= / 8).
  { assert (bpow radix2 (-53) <= bpow radix2 (-20)) by (apply bpow_le; lia). assert (bpow radix2 (-20) <= / 1000000) by (cbn; lra). lra. }
  set (e := IZR 2 * (IZR 2 + 128) * bpow radix2 (-53) * 1) in *. clearbody e.
  assert (W : whole = true).
  { destruct Hm as [( -> & _ )|( -> & _ )]; cbn [cut_near] in C; [apply C|]. apply C.
    assert (D : dist (/ 2, / 2, / 2) (3 / 2, / 2, / 2) = 1).
    { unfold dist. cbn [px py pz fst snd]. replace (_ + _ + _) with (1 * 1) by lra. apply sqrt_square. lra. }
    rewrite D. assert (bpow radix2 (-53) <= bpow radix2 (-5)) by (apply bpow_le; lia).
    assert (bpow radix2 (-5) = / 32) by (cbn; lra). lra. }
  split.
  - apply (S2 0); [lra|cbn; lia|]. unfold deep_in_voxel, along. cbn [px py pz ix iy iz fst snd]. lra.
  - apply S3; [exact W|cbn; lia|]. unfold deep_in_voxel. cbn [px py pz ix iy iz fst snd]. lra.
Qed.

(** The same grid on a device, with the sensor in the corner of the first voxel. *)
Definition floor32 (x : b32) : Z := Zfloor (B2R x).
Definition half32 (k : Z) : b32 := binary_normalize 24 128 prec24 emax128 mode_NE k (-1) false.

Lemma half32_val k : (Z.abs k <= 8)%Z -> is_finite (half32 k) = true /\ B2R (half32 k) = IZR k / 2.
Proof.
  intros Hk. unfold half32. generalize (binary_normalize_correct 24 128 prec24 emax128 mode_NE k (-1) false). cbv zeta.
  replace (F2R (Float radix2 k (-1))) with (IZR k / 2) by (unfold F2R; cbn; lra).
  change (round_mode mode_NE) with ZnearestE. rewrite round_generic; [|apply valid_rnd_N|].
  2:{ replace (IZR k / 2) with (F2R (Float radix2 k (-1))) by (unfold F2R; cbn; lra).
      apply (generic_format_FLT radix2 (-149) 24). exists (Float radix2 k (-1)); [reflexivity| |cbn; lia].
      cbn [Fnum]. apply Z.le_lt_trans with 8%Z; [exact Hk|reflexivity]. }
  rewrite Rlt_bool_true; [tauto|]. apply Rle_lt_trans with (bpow radix2 3); [|apply bpow_lt; lia].
  apply Rabs_le. assert (-8 <= IZR k <= 8) by (split; apply IZR_le; lia). cbn. lra.
Qed.

Lemma zero_voxel prec emax (Hp : Prec_gt_0 prec) (He : Prec_lt_emax prec emax) (inv : binary_float prec emax) :
  is_finite inv = true -> Zfloor (B2R (Bmult mode_NE (B754_zero false) inv : binary_float prec emax)) = 0%Z.
Proof.
  intros F. destruct inv as [s|s| |s m e H]; try easy; apply (Zfloor_IZR 0).
Qed.

(** A cloud with one point and one invalid point. *)
Example c89_cloud_case :
  let A := double_ray floor64 in
  let g := double_grid floor64 2 1 1 (half64 2) in
  let c := mkCloud A [(half64 3, half64 1, half64 1); (B754_nan, half64 1, half64 1)] (fun p => p) (B754_infinity false) in
  exists t', raycast_cloud A g c (gconst 2 1 1 (0, 0)%Z) t' /\ exists f s, gget t' (1, 0, 0)%Z = Some (f, s) /\ (0 < s)%Z.
Proof.
  intros A g c.
  destruct (half64_val 1 ltac:(lia)) as (F1 & E1). destruct (half64_val 2 ltac:(lia)) as (F2 & E2).
  destruct (half64_val 3 ltac:(lia)) as (F3 & E3).
  assert (Hfl : SdfDoubleSpec.floors floor64) by (intros x _ _; reflexivity).
  assert (Hr : B2R (half64 2) = 1) by (rewrite E2; lra).
  assert (Ht : tracking_for g (gconst 2 1 1 (0, 0)%Z)).
  { split; [now apply gconst_wf|]. split; [easy|]. split; [easy|]. split; [easy|].
    intros i f s H. rewrite gget_gconst in H. destruct (in_bounds3 2 1 1 i); [|easy]. injection H as <- <-. now split. }
  assert (Hz : forall i f s, gget (gconst 2 1 1 (0, 0)%Z) i = Some (f, s) -> f = 0%Z /\ s = 0%Z).
  { intros i f s H. rewrite gget_gconst in H. destruct (in_bounds3 2 1 1 i); [|easy]. now injection H as <- <-. }
  destruct (raycast_cloud_finishes A g c (gconst 2 1 1 (0, 0)%Z) [[1; 0]]%Z Ht) as (ws & Ew & Hw).
  { apply Permutation.perm_swap. }
  destruct (Hw _ (tsteps_refl _)) as (ws' & t' & Hst & Hd).
  assert (Hc : raycast_cloud A g c (gconst 2 1 1 (0, 0)%Z) t').
  { exists [[1; 0]]%Z, ws, ws'. split; [apply Permutation.perm_swap|easy]. }
  exists t'. split; [exact Hc|].
  destruct (raycast_cloud_result A g c _ t' Ht Hc) as (_ & Hv).
  assert (E0 : gget (gconst 2 1 1 (0, 0)%Z) (1, 0, 0)%Z = Some (0, 0)%Z) by reflexivity.
  specialize (Hv (1, 0, 0)%Z 0%Z 0%Z E0). eexists _, _. split; [exact Hv|].
  assert (Hs : filter (vfinite A) (c_points A c) = [(half64 3, half64 1, half64 1)]).
  { cbn [c c_points filter]. unfold vfinite. cbn [A double_ray float_ray r_finite vx vy vz fst snd]. rewrite F1, F3. reflexivity. }
  refine (proj2 (proj2 (proj2 (proj2 (c89_double_cloud floor64 2 1 1 2 (half64 2) None c _ t' Hfl F2 _ _ _ _ _ _ _ _ _ Ht Hz _ Hc
    (1, 0, 0)%Z _ _ Hv)))) (3 / 2, / 2, / 2) _ I _); try lia.
  - rewrite Hr. change 1 with (bpow radix2 0). split; apply bpow_le; lia.
  - fold A. rewrite Hs. intros p [ <- |[]]. rewrite Hr.
    assert (B50 : 4 <= bpow radix2 50) by (change 4 with (bpow radix2 2); apply bpow_le; lia).
    assert (B90 : bpow radix2 (-90) <= / 4) by (change (/ 4) with (bpow radix2 (-2)); apply bpow_le; lia).
    intros f [ -> |[ -> | -> ]]; cbn [c c_origin c_to_grid vx vy vz fst snd]; rewrite ?E1, ?E3;
      change (B2R (r_zero A)) with 0; (split; [reflexivity|]).
    + split; [exact F3|]. split; [apply Rabs_le; lra|]. split; [apply Rabs_le; lra|]. right. rewrite Rabs_pos_eq; lra.
    + split; [exact F1|]. split; [apply Rabs_le; lra|]. split; [apply Rabs_le; lra|]. right. rewrite Rabs_pos_eq; lra.
    + split; [exact F1|]. split; [apply Rabs_le; lra|]. split; [apply Rabs_le; lra|]. right. rewrite Rabs_pos_eq; lra.
  - reflexivity.
  - destruct (SdfDoubleProofs.inv_val (half64 2) (B2R (half64 2)) (conj F2 eq_refl)) as (v & (Fv & _) & _).
    { rewrite Hr. change 1 with (bpow radix2 0). split; apply bpow_le; lia. }
    pose proof (zero_voxel 53 1024 prec53 emax1024 _ Fv) as Q.
    assert (V : voxel_of A g (c_origin A c) = (0, 0, 0)%Z).
    { change (voxel_of A g (c_origin A c)) with
        (let q := Zfloor (B2R (b64_mul (B754_zero false) (b64_div (b64_ofZ 1) (half64 2)))) in (q, q, q)).
      cbv zeta. change (b64_ofZ 1) with (SdfDoubleModel.b64_lit 1 0). unfold b64_mul. now rewrite Q. }
    change (in_grid A g (voxel_of A g (c_origin A c)) = true). rewrite V. reflexivity.
  - reflexivity.
  - change (In (3 / 2, / 2, / 2) (map (fun p => reals A B2R (c_to_grid A c p)) (filter (vfinite A) (c_points A c)))).
    rewrite Hs. left. unfold reals. cbn [c c_to_grid vx vy vz fst snd]. rewrite E1, E3. f_equal; [f_equal|]; lra.
  - rewrite Hr. assert (Ee : IZR 2 * (IZR 2 + 128) * bpow radix2 (-53) * 1 <= / 8).
    { assert (bpow radix2 (-53) <= bpow radix2 (-20)) by (apply bpow_le; lia). assert (bpow radix2 (-20) <= / 1000000) by (cbn; lra). lra. }
    unfold deep_in_voxel. cbn [px py pz ix iy iz fst snd]. lra.
Qed.

Example c89_float_cloud_case :
  let A := float32_ray floor32 in
  let g := float32_grid floor32 2 1 1 (half64 2) in
  let c := mkCloud A [(half32 3, half32 1, half32 1); (B754_nan, half32 1, half32 1)] (fun p => p) (B754_infinity false) in
  exists t', raycast_cloud A g c (gconst 2 1 1 (0, 0)%Z) t' /\ exists f s, gget t' (1, 0, 0)%Z = Some (f, s) /\ (0 < s)%Z.
Proof.
  intros A g c.
  destruct (half32_val 1 ltac:(lia)) as (F1 & E1). destruct (half64_val 2 ltac:(lia)) as (F2 & E2).
  destruct (half32_val 3 ltac:(lia)) as (F3 & E3).
  assert (Hr : B2R (half64 2) = 1) by (rewrite E2; lra).
  assert (Ht : tracking_for g (gconst 2 1 1 (0, 0)%Z)).
  { split; [now apply gconst_wf|]. split; [easy|]. split; [easy|]. split; [easy|].
    intros i f s H. rewrite gget_gconst in H. destruct (in_bounds3 2 1 1 i); [|easy]. injection H as <- <-. now split. }
  assert (Hz : forall i f s, gget (gconst 2 1 1 (0, 0)%Z) i = Some (f, s) -> f = 0%Z /\ s = 0%Z).
  { intros i f s H. rewrite gget_gconst in H. destruct (in_bounds3 2 1 1 i); [|easy]. now injection H as <- <-. }
  destruct (raycast_cloud_finishes A g c (gconst 2 1 1 (0, 0)%Z) [[1; 0]]%Z Ht) as (ws & Ew & Hw).
  { apply Permutation.perm_swap. }
  destruct (Hw _ (tsteps_refl _)) as (ws' & t' & Hst & Hd).
  assert (Hc : raycast_cloud A g c (gconst 2 1 1 (0, 0)%Z) t').
  { exists [[1; 0]]%Z, ws, ws'. split; [apply Permutation.perm_swap|easy]. }
  exists t'. split; [exact Hc|].
  destruct (raycast_cloud_result A g c _ t' Ht Hc) as (_ & Hv).
  assert (E0 : gget (gconst 2 1 1 (0, 0)%Z) (1, 0, 0)%Z = Some (0, 0)%Z) by reflexivity.
  specialize (Hv (1, 0, 0)%Z 0%Z 0%Z E0). eexists _, _. split; [exact Hv|].
  assert (Hs : filter (vfinite A) (c_points A c) = [(half32 3, half32 1, half32 1)]).
  { cbn [c c_points filter]. unfold vfinite. cbn [A float32_ray float_ray r_finite vx vy vz fst snd]. rewrite F1, F3. reflexivity. }
  refine (proj2 (proj2 (proj2 (proj2 (c89_float_cloud floor32 2 1 1 2 (half64 2) None c _ t' _ F2 _ _ _ _ _ _ _ _ _ Ht Hz _ Hc
    (1, 0, 0)%Z _ _ Hv)))) (3 / 2, / 2, / 2) _ I _); try lia.
  - intros x _ _. reflexivity.
  - rewrite Hr. change 1 with (bpow radix2 0). split; apply bpow_le; lia.
  - fold A. rewrite Hs. intros p [ <- |[]]. rewrite Hr.
    assert (B20 : 4 <= bpow radix2 20) by (change 4 with (bpow radix2 2); apply bpow_le; lia).
    assert (B30 : bpow radix2 (-30) <= / 4) by (change (/ 4) with (bpow radix2 (-2)); apply bpow_le; lia).
    intros f [ -> |[ -> | -> ]]; cbn [c c_origin c_to_grid vx vy vz fst snd]; rewrite ?E1, ?E3;
      change (B2R (r_zero A)) with 0; (split; [reflexivity|]).
    + split; [exact F3|]. split; [apply Rabs_le; lra|]. split; [apply Rabs_le; lra|]. right. rewrite Rabs_pos_eq; lra.
    + split; [exact F1|]. split; [apply Rabs_le; lra|]. split; [apply Rabs_le; lra|]. right. rewrite Rabs_pos_eq; lra.
    + split; [exact F1|]. split; [apply Rabs_le; lra|]. split; [apply Rabs_le; lra|]. right. rewrite Rabs_pos_eq; lra.
  - reflexivity.
  - destruct (SdfDoubleProofs.inv_val (half64 2) (B2R (half64 2)) (conj F2 eq_refl)) as (v & (Fv & Ev) & Dv).
    { rewrite Hr. change 1 with (bpow radix2 0). split; apply bpow_le; lia. }
    destruct (cast_relative _ Fv) as (Fc & _).
    { rewrite Ev. rewrite Hr, Rmult_1_r in Dv. unfold SdfDoubleProofs.u53 in Dv. assert (U : bpow radix2 (-53) <= / 1000) by (cbn; lra).
      apply Rabs_le_inv in Dv. assert (Vv : / 2 <= v <= 2) by lra. rewrite Rabs_pos_eq by lra.
      split; [apply Rle_trans with (bpow radix2 (-1)); [apply bpow_le; lia|cbn; lra]|
              apply Rle_trans with (bpow radix2 1); [cbn; lra|apply bpow_le; lia]]. }
    pose proof (zero_voxel 24 128 prec24 emax128 _ Fc) as Q.
    assert (V : voxel_of A g (c_origin A c) = (0, 0, 0)%Z).
    { change (voxel_of A g (c_origin A c)) with
        (let q := Zfloor (B2R (Bmult mode_NE (B754_zero false) (b32_of_b64 (b64_div (SdfDoubleModel.b64_lit 1 0) (half64 2))) : b32)) in (q, q, q)).
      cbv zeta. now rewrite Q. }
    change (in_grid A g (voxel_of A g (c_origin A c)) = true). rewrite V. reflexivity.
  - reflexivity.
  - change (In (3 / 2, / 2, / 2) (map (fun p => reals A B2R (c_to_grid A c p)) (filter (vfinite A) (c_points A c)))).
    rewrite Hs. left. unfold reals. cbn [c c_to_grid vx vy vz fst snd]. rewrite E1, E3. f_equal; [f_equal|]; lra.
  - rewrite Hr. assert (Ee : IZR 2 * (IZR 2 + 130) * bpow radix2 (-24) * 1 <= / 8).
    { assert (bpow radix2 (-24) <= bpow radix2 (-20)) by (apply bpow_le; lia). assert (bpow radix2 (-20) <= / 1000000) by (cbn; lra). lra. }
    unfold deep_in_voxel. cbn [px py pz ix iy iz fst snd]. lra.
Qed.
