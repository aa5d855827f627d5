(** Property of casting rays from a sensor anywhere, with rounding (C93). *)
From Coq Require Import ZArith Reals List Bool Lia Lra.
From Flocq Require Import Core BinarySingleNaN.
From Verif Require Import Util Grid SdfSpec FloatModel FilterModel RaycastModel RaycastSpec RaycastProofs RayGeoSpec RayRoundSpec
  RayFarSpec RayFloatModel RayFloatProofs RayFloatTop RayFarTop PropsRayRound.
From Verif Require SdfDoubleSpec.
Import ListNotations.
Local Open Scope R_scope.

(** ** C93 *)

(** One ray on the CPU, with the sensor in the grid or outside of it: all voxels that the
    segment enters deeply are marked, only the voxel near the point is marked filled; a
    segment that gets in front of the grid on every axis marks only voxels near it, and a ray
    that passes by the grid marks nothing. *)
Theorem c93_ray (fl : b64 -> Z) nx ny nz N (res : b64) S m range (o p : vec (double_ray fl)) bs :
  SdfDoubleSpec.floors fl -> is_finite res = true -> bpow radix2 (-300) <= B2R res <= bpow radix2 300 ->
  (1 <= N)%Z -> (N * (N + 128) <= 2 ^ 53)%Z -> (1 <= nx <= N)%Z -> (1 <= ny <= N)%Z -> (1 <= nz <= N)%Z ->
  IZR N * B2R res <= S -> / 10 ^ 9 <= S <= 2 ^ 11 -> S <= 2 ^ 21 * B2R res ->
  good_ray (double_ray fl) is_finite B2R S (bpow radix2 (-90) * B2R res) o p ->
  let a := reals (double_ray fl) B2R o in
  let b := reals (double_ray fl) B2R p in
  let e := far_error (IZR N) (B2R res) S in
  a <> b ->
  stands_for (double_ray fl) is_finite B2R m range ->
  let g := double_grid fl nx ny nz res in
  cast_point _ g m o (voxel_of _ g o) p = Some bs ->
  exists s whole,
    marks_at_least (B2R res) e s whole nx ny nz a b bs /\
    (reaches (B2R res) e nx ny nz a (along a b s) -> marks_segment (B2R res) e s whole nx ny nz a b bs) /\
    (passes_by (B2R res) e nx ny nz a b -> bs = []) /\
    cut_near (20 * bpow radix2 (-53) * dist a b) range (dist a b) s whole.
Proof. exact (marks_far fl nx ny nz N res S m range o p bs). Qed.
Print Assumptions c93_ray.

(** A cloud cast into fresh counters by any number of threads. *)
Theorem c93_cloud (fl : b64 -> Z) nx ny nz N (res : b64) S range (c : cloud (double_ray fl)) t t' :
  SdfDoubleSpec.floors fl -> is_finite res = true -> bpow radix2 (-300) <= B2R res <= bpow radix2 300 ->
  (1 <= N)%Z -> (N * (N + 128) <= 2 ^ 53)%Z -> (1 <= nx <= N)%Z -> (1 <= ny <= N)%Z -> (1 <= nz <= N)%Z ->
  IZR N * B2R res <= S -> / 10 ^ 9 <= S <= 2 ^ 11 -> S <= 2 ^ 21 * B2R res ->
  let A := double_ray fl in
  let g := double_grid fl nx ny nz res in
  let seen := filter (vfinite A) (c_points A c) in
  let e := far_error (IZR N) (B2R res) S in
  let a := reals A B2R (c_origin A c) in
  (forall p, In p seen -> good_ray A is_finite B2R S (bpow radix2 (-90) * B2R res) (c_origin A c) (c_to_grid A c p)) ->
  (forall p, In p seen -> let b := reals A B2R (c_to_grid A c p) in a <> b /\
   forall s whole, cut_near (20 * bpow radix2 (-53) * dist a b) range (dist a b) s whole ->
   reaches (B2R res) e nx ny nz a (along a b s)) ->
  stands_for A is_finite B2R (c_max_range A c) range ->
  tracking_for g t -> (forall i f s, gget t i = Some (f, s) -> f = 0%Z /\ s = 0%Z) -> (zlen (c_points A c) < 2 ^ 31)%Z ->
  raycast_cloud A g c t t' ->
  counts_segments (B2R res) e (20 * bpow radix2 (-53)) range a (map (fun p => reals A B2R (c_to_grid A c p)) seen) (gget t').
Proof.
  intros Hfl Fr Hr HN Hs Nx Ny Nz HS Sb Sv A g seen e a Hg Hd Hm Ht Hz Hn Hc.
  apply (cloud_counts A B2R g _ _ _ range c t t' Ht Hz Hn); [|intros p bs Hp E|exact Hc].
  - apply Rmult_le_pos; [lra|apply bpow_ge_0].
  - destruct (Hd p Hp) as (Ne & Re).
    destruct (marks_far fl nx ny nz N res S (c_max_range A c) range (c_origin A c) (c_to_grid A c p) bs
      Hfl Fr Hr HN Hs Nx Ny Nz HS Sb Sv (Hg p Hp) Ne Hm E) as (s & whole & _ & M & _ & C).
    exists s, whole. split; [exact (M (Re s whole C))|exact C].
Qed.
Print Assumptions c93_cloud.

(** A cloud whose rays pass by the grid leaves all counters as they are. *)
Theorem c93_missed (fl : b64 -> Z) nx ny nz N (res : b64) S range (c : cloud (double_ray fl)) t t' :
  SdfDoubleSpec.floors fl -> is_finite res = true -> bpow radix2 (-300) <= B2R res <= bpow radix2 300 ->
  (1 <= N)%Z -> (N * (N + 128) <= 2 ^ 53)%Z -> (1 <= nx <= N)%Z -> (1 <= ny <= N)%Z -> (1 <= nz <= N)%Z ->
  IZR N * B2R res <= S -> / 10 ^ 9 <= S <= 2 ^ 11 -> S <= 2 ^ 21 * B2R res ->
  let A := double_ray fl in
  let g := double_grid fl nx ny nz res in
  let seen := filter (vfinite A) (c_points A c) in
  let e := far_error (IZR N) (B2R res) S in
  let a := reals A B2R (c_origin A c) in
  (forall p, In p seen -> good_ray A is_finite B2R S (bpow radix2 (-90) * B2R res) (c_origin A c) (c_to_grid A c p)) ->
  (forall p, In p seen -> let b := reals A B2R (c_to_grid A c p) in a <> b /\ passes_by (B2R res) e nx ny nz a b) ->
  stands_for A is_finite B2R (c_max_range A c) range ->
  tracking_for g t -> raycast_cloud A g c t t' ->
  forall i, gget t' i = gget t i.
Proof.
  intros Hfl Fr Hr HN Hs Nx Ny Nz HS Sb Sv A g seen e a Hg Hd Hm Ht Hc.
  apply (cloud_unchanged A g c t t' Ht); [|exact Hc]. intros p bs Hp E. destruct (Hd p Hp) as (Ne & Pb).
  destruct (marks_far fl nx ny nz N res S (c_max_range A c) range (c_origin A c) (c_to_grid A c p) bs
    Hfl Fr Hr HN Hs Nx Ny Nz HS Sb Sv (Hg p Hp) Ne Hm E) as (s & whole & _ & _ & M & _).
  exact (M Pb).
Qed.
Print Assumptions c93_missed.

(** A grid of two voxels of size 1, a sensor a meter in front of it and a point in the middle
    of the second voxel: the first voxel is marked free and the second filled. *)
Lemma far_case_error : 0 < far_error 2 1 4 <= / 100.
Proof. unfold far_error. lra. Qed.

Lemma far_case_good k l : (Z.abs k <= 8)%Z -> (Z.abs l <= 8)%Z -> (k = l \/ (1 <= Z.abs (l - k))%Z) ->
  is_finite (half64 k) = true /\ is_finite (half64 l) = true /\ Rabs (B2R (half64 k)) <= 4 /\ Rabs (B2R (half64 l)) <= 4 /\
  not_tiny (bpow radix2 (-90) * 1) (B2R (half64 l) - B2R (half64 k)).
Proof.
  intros Hk Hl Hd. destruct (half64_val k Hk) as (F1 & ->). destruct (half64_val l Hl) as (F2 & ->).
  assert (Bk : -8 <= IZR k <= 8) by (split; apply IZR_le; lia). assert (Bl : -8 <= IZR l <= 8) by (split; apply IZR_le; lia).
  split; [exact F1|]. split; [exact F2|]. split; [apply Rabs_le; lra|]. split; [apply Rabs_le; lra|].
  destruct Hd as [ -> |Hd]; [left; lra|right].
  assert (B : bpow radix2 (-90) <= / 2) by (change (/ 2) with (bpow radix2 (-1)); apply bpow_le; lia).
  replace (IZR l / 2 - IZR k / 2) with (IZR (l - k) / 2) by (rewrite minus_IZR; lra).
  assert (Q : 1 <= Rabs (IZR (l - k))) by (rewrite <- abs_IZR; apply IZR_le; lia).
  unfold Rdiv. rewrite Rabs_mult, (Rabs_pos_eq (/ 2)) by lra. lra.
Qed.

Example c93_case :
  exists bs, let g := double_grid floor64 2 1 1 (half64 2) in
  let o : vec (double_ray floor64) := (half64 (-2), half64 1, half64 1) in
  let p : vec (double_ray floor64) := (half64 3, half64 1, half64 1) in
  cast_point _ g (B754_infinity false) o (voxel_of _ g o) p = Some bs /\
  (exists b, In ((0, 0, 0)%Z, b) bs) /\ In ((1, 0, 0)%Z, true) bs /\
  forall i b, In (i, b) bs -> in_box 2 1 1 i.
Proof.
  set (g := double_grid floor64 2 1 1 (half64 2)).
  set (o := (half64 (-2), half64 1, half64 1) : vec (double_ray floor64)).
  set (p := (half64 3, half64 1, half64 1) : vec (double_ray floor64)).
  destruct (half64_val 1 ltac:(lia)) as (F1 & E1). destruct (half64_val 2 ltac:(lia)) as (F2 & E2).
  destruct (half64_val 3 ltac:(lia)) as (F3 & E3). destruct (half64_val (-2) ltac:(lia)) as (F4 & E4).
  assert (Hfl : SdfDoubleSpec.floors floor64) by (intros x _ _; reflexivity).
  assert (Hr : B2R (half64 2) = 1) by (rewrite E2; lra).
  assert (B : bpow radix2 (-300) <= 1 <= bpow radix2 300) by (change 1 with (bpow radix2 0); split; apply bpow_le; lia).
  destruct (cast_point_some (double_ray floor64) g (B754_infinity false) o (voxel_of _ g o) p) as (bs & Ec & _).
  exists bs. split; [exact Ec|].
  assert (Eo : reals (double_ray floor64) B2R o = (-1, / 2, / 2)).
  { unfold reals, o. cbn [vx vy vz fst snd]. rewrite E1, E4. apply f_equal2; [apply f_equal2|]; lra. }
  assert (Ep : reals (double_ray floor64) B2R p = (3 / 2, / 2, / 2)).
  { unfold reals, p. cbn [vx vy vz fst snd]. rewrite E1, E3. apply f_equal2; [apply f_equal2|]; lra. }
  assert (Hg : good_ray (double_ray floor64) is_finite B2R 4 (bpow radix2 (-90) * B2R (half64 2)) o p).
  { rewrite Hr. intros f [ -> |[ -> | -> ]]; cbn [vx vy vz o p fst snd]; apply far_case_good; lia. }
  destruct (c93_ray floor64 2 1 1 2 (half64 2) 4 (B754_infinity false) None o p bs Hfl F2 ltac:(rewrite Hr; exact B) ltac:(lia) ltac:(lia) ltac:(lia)
    ltac:(lia) ltac:(lia) ltac:(rewrite Hr; lra) ltac:(lra) ltac:(rewrite Hr; lra) Hg ltac:(rewrite Eo, Ep; intros H; injection H; lra) eq_refl Ec)
    as (s & whole & _ & Mk & _ & (C1 & C2)).
  rewrite Eo, Ep in Mk. rewrite Hr in Mk. destruct far_case_error as (e0 & e1). set (e := far_error 2 1 4) in *. clearbody e.
  subst s whole. destruct Mk as (_ & _ & S0 & _ & S2 & S3 & _).
  { unfold reaches, reaches_axis, along. cbn [px py pz fst snd]. repeat split; lra. }
  split; [|split].
  - apply (S2 (3 / 5)); [lra|cbn; lia|]. unfold deep_in_voxel, along. cbn [px py pz ix iy iz fst snd]. lra.
  - apply S3; [reflexivity|cbn; lia|]. unfold deep_in_voxel. cbn [px py pz ix iy iz fst snd]. lra.
  - intros i b Hi. exact (proj1 (S0 i b Hi)).
Qed.

(** The sensor above the grid, looking along it: nothing is marked. *)
Example c93_missed_case : let g := double_grid floor64 2 1 1 (half64 2) in
  let o : vec (double_ray floor64) := (half64 (-2), half64 7, half64 1) in
  let p : vec (double_ray floor64) := (half64 3, half64 7, half64 1) in
  cast_point _ g (B754_infinity false) o (voxel_of _ g o) p = Some [].
Proof.
  intros g o p.
  destruct (half64_val 1 ltac:(lia)) as (F1 & E1). destruct (half64_val 2 ltac:(lia)) as (F2 & E2).
  destruct (half64_val 3 ltac:(lia)) as (F3 & E3). destruct (half64_val (-2) ltac:(lia)) as (F4 & E4).
  destruct (half64_val 7 ltac:(lia)) as (F7 & E7).
  assert (Hfl : SdfDoubleSpec.floors floor64) by (intros x _ _; reflexivity).
  assert (Hr : B2R (half64 2) = 1) by (rewrite E2; lra).
  assert (B : bpow radix2 (-300) <= 1 <= bpow radix2 300) by (change 1 with (bpow radix2 0); split; apply bpow_le; lia).
  destruct (cast_point_some (double_ray floor64) g (B754_infinity false) o (voxel_of _ g o) p) as (bs & Ec & _).
  assert (Eo : reals (double_ray floor64) B2R o = (-1, 7 / 2, / 2)).
  { unfold reals, o. cbn [vx vy vz fst snd]. rewrite E1, E4, E7. apply f_equal2; [apply f_equal2|]; lra. }
  assert (Ep : reals (double_ray floor64) B2R p = (3 / 2, 7 / 2, / 2)).
  { unfold reals, p. cbn [vx vy vz fst snd]. rewrite E1, E3, E7. apply f_equal2; [apply f_equal2|]; lra. }
  assert (Hg : good_ray (double_ray floor64) is_finite B2R 4 (bpow radix2 (-90) * B2R (half64 2)) o p).
  { rewrite Hr. intros f [ -> |[ -> | -> ]]; cbn [vx vy vz o p fst snd]; apply far_case_good; lia. }
  destruct (c93_ray floor64 2 1 1 2 (half64 2) 4 (B754_infinity false) None o p bs Hfl F2 ltac:(rewrite Hr; exact B) ltac:(lia) ltac:(lia) ltac:(lia)
    ltac:(lia) ltac:(lia) ltac:(rewrite Hr; lra) ltac:(lra) ltac:(rewrite Hr; lra) Hg ltac:(rewrite Eo, Ep; intros H; injection H; lra) eq_refl Ec)
    as (s & whole & _ & _ & Mk & _).
  rewrite Eo, Ep in Mk. rewrite Hr in Mk. destruct far_case_error as (e0 & e1). set (e := far_error 2 1 4) in *. clearbody e.
  rewrite Mk in Ec; [exact Ec|]. intros t ((x, y), z) Ht (X & Y & Z) (NX & NY & _).
  cbn [ix iy iz px py pz along fst snd] in X, Y, NX, NY.
  assert (Qx : IZR x <= 1) by (apply IZR_le; lia). assert (Qy : IZR y <= 0) by (apply IZR_le; lia).
  assert (T : e * (1 + t) <= / 100 * (1 + t)) by (apply Rmult_le_compat_r; lra). lra.
Qed.
