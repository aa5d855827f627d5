(** * Small triangles in binary64 *)
From Coq Require Import ZArith Reals List Bool Lia Lra.
From Flocq Require Import Core BinarySingleNaN.
From Verif Require Import Util Grid Occ Prog Schedule EdtFloat FloatModel SdfQueryModel SdfQueryArith SdfDoubleModel SdfDoubleSpec SdfDoubleProofs MeshModel MeshProofs MeshGeoProofs
  MeshSpec MeshNearSpec MeshDoubleModel MeshNearTop MeshSmallProofs RayFloatModel PropsRayRound PropsMeshNear.
From Verif Require RayGeoSpec.
Import ListNotations.
Local Open Scope R_scope.

(** *** C97, small triangles: a voxel of the index box of a triangle whose three corners are all
    within the radius of the sphere around the centre of the voxel, by a small margin, is filled,
    wherever the centre projects to. *)
Theorem c97_small fl tri (m : mmap (double_mesh fl tri)) (vertices : list (b64 * b64 * b64)) triangles tr i j k (v1 v2 v3 : b64 * b64 * b64)
    enforce (g g' : grid occ) x l h b v :
  let M := double_mesh fl tri in
  let q : b64 * b64 * b64 := mm_centre M m x in
  let r := B2R (mm_res M m) in
  gwf g -> g_nx g = mm_nx _ m -> g_ny g = mm_ny _ m -> g_nz g = mm_nz _ m -> in_bounds g x = true ->
  zget triangles tr = Some (i, j, k) -> zget vertices i = Some v1 -> zget vertices j = Some v2 -> zget vertices k = Some v3 ->
  finite3 v1 -> finite3 v2 -> finite3 v3 -> finite3 q -> is_finite (mm_res M m : b64) = true ->
  bpow radix2 (-100) <= r <= bpow radix2 100 -> bpow radix2 (-100) <= l <= bpow radix2 100 ->
  l <= h <= bpow radix2 20 * l -> l <= b <= bpow radix2 120 -> / 1024 <= v <= 1 ->
  thick l v (reals3 v1) (reals3 v2) (reals3 v3) ->
  (forall w, In w [v1; v2; v3] -> within_each b (reals3 w) (0, 0, 0) /\ within_each h (reals3 q) (reals3 w) /\
     RayGeoSpec.dist (reals3 q) (reals3 w) + bpow radix2 (-38) * (h / (v * v) + b + r) <= sqrt 3 / 2 * r) ->
  (let lo := mm_index M m (vmin3 M v1 v2 v3) in let hi := mm_index M m (vmax3 M v1 v2 v3) in
   (ix lo <= ix x <= ix hi)%Z /\ (iy lo <= iy x <= iy hi)%Z /\ (iz lo <= iz x <= iz hi)%Z) ->
  run (triangle_task M m vertices triangles enforce tr) g = Some (tt, g') ->
  gget g' x = Some one_bits.
Proof.
  intros M q r W Dx Dy Dz Bx Ht Hi Hj Hk F1 F2 F3 Fq Fr Hr Hl Hh Hb Hv T B Box R.
  pose proof (corners_some M vertices triangles tr i j k v1 v2 v3 Ht Hi Hj Hk) as Co.
  destruct (task_contained _ _ _ _ _ _ _ _ R) as (C & E).
  destruct (task_result M m vertices triangles enforce g tr W C E) as (g1 & R1 & _ & _ & O).
  assert (g' = g1) as -> by congruence. apply O; [|exact Bx]. apply filter_In. split.
  2:{ unfold inb. unfold in_bounds in Bx. now rewrite Dx, Dy, Dz in Bx. }
  unfold voxels_of. rewrite Co. unfold triangle_voxels. apply filter_In. split; [now apply in_index_box|].
  assert (X38 : bpow radix2 (-38) = 32768 * u53) by (change 32768 with (bpow radix2 15); change u53 with (bpow radix2 (-53)); now rewrite <- bpow_plus).
  rewrite X38, Rmult_assoc in B.
  destruct (small_hits fl tri v1 v2 v3 q (mm_res M m) l h b v Hl Hh Hb Hv F1 F2 F3 Fq Fr Hr T B) as (H0 & H1 & H2 & H3).
  exact (hit_all M m v1 v2 v3 _ x H0 H1 H2 H3).
Qed.
Print Assumptions c97_small.

(** The triangle with corners (1, 1, 1/2), (2, 1, 1/2) and (1, 2, 1/2): the centre of the voxel
    (1, 1, 0) is on its long edge, where the side tests may go either way. *)
Definition small_triangle : list (b64 * b64 * b64) :=
  [(half64 2, half64 2, half64 1); (half64 4, half64 2, half64 1); (half64 2, half64 4, half64 1)].

Example c97_small_case tri : exists g',
  run (triangle_task _ (flat_map64 tri) small_triangle [(0, 1, 2)%Z] true 0) flat_grid = Some (tt, g') /\ gget g' (1, 1, 0)%Z = Some one_bits.
Proof.
  assert (Y : match run (triangle_task _ (flat_map64 tri) small_triangle [(0, 1, 2)%Z] true 0) flat_grid with Some _ => true | None => false end = true) by (vm_compute; reflexivity).
  destruct (run (triangle_task _ (flat_map64 tri) small_triangle [(0, 1, 2)%Z] true 0) flat_grid) as [([], g')|] eqn:Er; [|discriminate Y].
  exists g'. split; [reflexivity|].
  destruct (half64_val 1 ltac:(lia)) as (F1 & E1). destruct (half64_val 2 ltac:(lia)) as (F2 & E2). destruct (half64_val 3 ltac:(lia)) as (F3 & E3).
  destruct (half64_val 4 ltac:(lia)) as (F4 & E4).
  assert (C : mm_centre _ (flat_map64 tri) (1, 1, 0)%Z = (half64 3, half64 3, half64 1)).
  { assert (U : forall a b c x y z : b64, B2SF a = B2SF x -> B2SF b = B2SF y -> B2SF c = B2SF z -> (a, b, c) = (x, y, z)) by (intros; apply f_equal2; [apply f_equal2|]; apply B2SF_inj; assumption).
    apply U; vm_compute; reflexivity. }
  assert (B38 : 0 < bpow radix2 (-38) <= / 1000) by (split; [apply bpow_gt_0|]; change (bpow radix2 (-38)) with (/ 274877906944); lra).
  eapply (c97_small cut64 tri (flat_map64 tri) small_triangle [(0, 1, 2)%Z] 0 0 1 2
    (half64 2, half64 2, half64 1) (half64 4, half64 2, half64 1) (half64 2, half64 4, half64 1) true flat_grid g' (1, 1, 0)%Z 1 1 2 1).
  - apply gconst_wf; lia.
  - reflexivity.
  - reflexivity.
  - reflexivity.
  - reflexivity.
  - reflexivity.
  - reflexivity.
  - reflexivity.
  - reflexivity.
  - split; [exact F2|split; [exact F2|exact F1]].
  - split; [exact F4|split; [exact F2|exact F1]].
  - split; [exact F2|split; [exact F4|exact F1]].
  - rewrite C. split; [exact F3|split; [exact F3|exact F1]].
  - exact F2.
  - change (mm_res _ (flat_map64 tri)) with (half64 2). rewrite E2. replace (2 / 2) with (bpow radix2 0) by (cbn; lra). split; apply bpow_le; lia.
  - change 1 with (bpow radix2 0). split; apply bpow_le; lia.
  - change (bpow radix2 20) with 1048576. lra.
  - split; [lra|]. change 2 with (bpow radix2 1). apply bpow_le; lia.
  - lra.
  - unfold thick, within_each, rcross, minus, dot, px, py, pz, reals3. cbn [fst snd]. rewrite E1, E2, E4. repeat split; try (apply Rabs_le; lra). lra.
  - rewrite C. change (mm_res _ (flat_map64 tri)) with (half64 2). intros w Hw.
    assert (Q : 17 / 10 <= sqrt 3) by (replace (17 / 10) with (sqrt ((17 / 10) * (17 / 10))) by (apply sqrt_square; lra); apply sqrt_le_1_alt; lra).
    assert (P : forall X, X <= 16 / 25 -> sqrt X <= 8 / 10) by (intros X HX; rewrite <- (sqrt_square (8 / 10)) by lra; apply sqrt_le_1_alt; lra).
    unfold within_each, RayGeoSpec.dist, RayGeoSpec.px, RayGeoSpec.py, RayGeoSpec.pz, px, py, pz, reals3.
    destruct Hw as [ <- |[ <- |[ <- |[]]]]; cbn [fst snd]; rewrite ?E1, ?E2, ?E3, ?E4;
      (split; [repeat split; apply Rabs_le; lra|split; [repeat split; apply Rabs_le; lra|]]);
      match goal with |- sqrt ?X + _ <= _ => pose proof (P X ltac:(lra)) end; lra.
  - vm_compute. repeat split; discriminate.
  - exact Er.
Qed.
