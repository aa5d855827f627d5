(** Properties of the mesh rasterizer in double (C96, C97). *)
From Coq Require Import ZArith Reals List Bool Lia Lra.
From Flocq Require Import Core BinarySingleNaN.
From Verif Require Import Util Grid Occ Prog Schedule EdtFloat FloatModel SdfQueryModel SdfQueryArith SdfDoubleModel SdfDoubleSpec SdfDoubleProofs MeshModel MeshProofs MeshGeoProofs
  MeshSpec MeshNearSpec MeshDoubleModel MeshNearTop RayFloatModel PropsRayRound.
From Verif Require RayGeoSpec.
Import ListNotations.
Local Open Scope R_scope.

(** ** C96 *)

(** Every voxel that RasterizeTriangle changes, in binary64, has a point of the triangle within
    the radius of its circumscribed sphere, up to rounding: [b] bounds the coordinates, [h] the
    distances of the centre of the voxel from the corners, and [v] is how thick the triangle is. *)
Theorem c96_only_near fl tri (m : mmap (double_mesh fl tri)) (vertices : list (b64 * b64 * b64)) triangles t i j k (v1 v2 v3 : b64 * b64 * b64)
    enforce (g g' : grid occ) x l h b v :
  let M := double_mesh fl tri in
  let q : b64 * b64 * b64 := mm_centre M m x in
  let r := B2R (mm_res M m) in
  gwf g -> g_nx g = mm_nx _ m -> g_ny g = mm_ny _ m -> g_nz g = mm_nz _ m ->
  zget triangles t = Some (i, j, k) -> zget vertices i = Some v1 -> zget vertices j = Some v2 -> zget vertices k = Some v3 ->
  finite3 v1 -> finite3 v2 -> finite3 v3 -> finite3 q -> is_finite (mm_res M m : b64) = true ->
  bpow radix2 (-100) <= r <= bpow radix2 100 -> bpow radix2 (-100) <= l <= bpow radix2 100 ->
  l <= h <= bpow radix2 20 * l -> l <= b <= bpow radix2 120 -> / 1024 <= v <= 1 ->
  thick l v (reals3 v1) (reals3 v2) (reals3 v3) ->
  (forall w, In w [v1; v2; v3] -> within_each b (reals3 w) (0, 0, 0) /\ within_each h (reals3 q) (reals3 w)) ->
  run (triangle_task M m vertices triangles enforce t) g = Some (tt, g') ->
  gget g' x <> gget g x ->
  gget g' x = Some one_bits /\
  exists p, in_triangle (reals3 v1) (reals3 v2) (reals3 v3) p /\
    RayGeoSpec.dist (reals3 q) p <= sqrt 3 / 2 * r + bpow radix2 (-38) * (h / (v * v) + b + r).
Proof.
  intros M q r W Dx Dy Dz Ht Hi Hj Hk F1 F2 F3 Fq Fr Hr Hl Hh Hb Hv T B R N.
  pose proof (corners_some M vertices triangles t i j k v1 v2 v3 Ht Hi Hj Hk) as Co.
  destruct (task_contained _ _ _ _ _ _ _ _ R) as (C & E).
  destruct (task_result M m vertices triangles enforce g t W C E) as (g1 & R1 & _ & _ & O).
  assert (g' = g1) as -> by congruence. destruct (O x) as (O1 & O2).
  destruct (in_dec idx_eq_dec x (filter (inb M m) (voxels_of M m vertices triangles t))) as [I|I].
  2:{ exfalso. apply N. now apply O2. }
  assert (Bx : in_bounds g x = true) by (apply filter_In in I as (_ & I); unfold inb in I; unfold in_bounds; now rewrite Dx, Dy, Dz).
  split; [now apply O1|]. apply filter_In in I as (I & _).
  unfold voxels_of in I. rewrite Co in I. apply filter_In in I as (_ & I).
  pose proof (hit_cases M m v1 v2 v3 _ x I) as HC.
  destruct (B v1 ltac:(cbn; auto)) as (B1 & Q1). destruct (B v2 ltac:(cbn; auto)) as (B2 & Q2). destruct (B v3 ltac:(cbn; auto)) as (B3 & Q3).
  destruct (mesh_voxel_near fl tri v1 v2 v3 q (mm_res M m) l h b v Hl Hh Hb Hv F1 F2 F3 Fq Fr Hr T B1 B2 B3 Q1 Q2 Q3 HC) as (p & Ip & Dp).
  exists p. split; [exact Ip|]. replace (bpow radix2 (-38)) with (32768 * u53); [rewrite Rmult_assoc; exact Dp|].
  change 32768 with (bpow radix2 15). change u53 with (bpow radix2 (-53)). rewrite <- bpow_plus. reflexivity.
Qed.
Print Assumptions c96_only_near.

(** A triangle with corners (1/2, 1/2, 1/2), (5/2, 1/2, 1/2) and (1/2, 5/2, 1/2) in a map of 4 by
    4 by 1 voxels of size 1: the voxel (1, 0, 0) is filled, and it is near the triangle. *)
Definition cut64 (x : b64) : Z :=
  match x with B754_finite s mm e _ => Z.shiftl (if s then Z.neg mm else Z.pos mm) e | _ => 0%Z end.
Definition flat_triangle : list (b64 * b64 * b64) :=
  [(half64 1, half64 1, half64 1); (half64 5, half64 1, half64 1); (half64 1, half64 5, half64 1)].
Definition flat_map64 tri : mmap (double_mesh cut64 tri) :=
  mkMmap (double_mesh cut64 tri) 4 4 1 (half64 2) (half64 2) (fun p => p) (fun p => p).
Definition flat_grid : grid occ := gconst 4 4 1 zero_bits.

Example c96_case tri : exists g' p,
  run (triangle_task _ (flat_map64 tri) flat_triangle [(0, 1, 2)%Z] true 0) flat_grid = Some (tt, g') /\
  gget g' (1, 0, 0)%Z = Some one_bits /\ in_triangle (1 / 2, 1 / 2, 1 / 2) (5 / 2, 1 / 2, 1 / 2) (1 / 2, 5 / 2, 1 / 2) p /\
  RayGeoSpec.dist (3 / 2, 1 / 2, 1 / 2) p <= sqrt 3 / 2 * 1 + bpow radix2 (-38) * (2 / (1 * 1) + 3 + 1).
Proof.
  assert (Y : match run (triangle_task _ (flat_map64 tri) flat_triangle [(0, 1, 2)%Z] true 0) flat_grid with
    | Some (_, g') => gget g' (1, 0, 0)%Z | None => None end = Some one_bits) by (vm_compute; reflexivity).
  destruct (run (triangle_task _ (flat_map64 tri) flat_triangle [(0, 1, 2)%Z] true 0) flat_grid) as [([], g')|] eqn:Er; [|discriminate Y].
  destruct (half64_val 1 ltac:(lia)) as (F1 & E1). destruct (half64_val 2 ltac:(lia)) as (F2 & E2). destruct (half64_val 3 ltac:(lia)) as (F3 & E3).
  destruct (half64_val 5 ltac:(lia)) as (F5 & E5).
  assert (C : mm_centre _ (flat_map64 tri) (1, 0, 0)%Z = (half64 3, half64 1, half64 1)).
  { assert (U : forall a b c x y z : b64, B2SF a = B2SF x -> B2SF b = B2SF y -> B2SF c = B2SF z -> (a, b, c) = (x, y, z)) by (intros; apply f_equal2; [apply f_equal2|]; apply B2SF_inj; assumption).
    apply U; vm_compute; reflexivity. }
  destruct (c96_only_near cut64 tri (flat_map64 tri) flat_triangle [(0, 1, 2)%Z] 0 0 1 2
    (half64 1, half64 1, half64 1) (half64 5, half64 1, half64 1) (half64 1, half64 5, half64 1) true flat_grid g' (1, 0, 0)%Z 2 2 3 1) as (_ & p & Ip & Dp).
  - apply gconst_wf; lia.
  - reflexivity.
  - reflexivity.
  - reflexivity.
  - reflexivity.
  - reflexivity.
  - reflexivity.
  - reflexivity.
  - split; [exact F1|split; [exact F1|exact F1]].
  - split; [exact F5|split; [exact F1|exact F1]].
  - split; [exact F1|split; [exact F5|exact F1]].
  - rewrite C. split; [exact F3|split; [exact F1|exact F1]].
  - exact F2.
  - change (mm_res _ (flat_map64 tri)) with (half64 2). rewrite E2. replace (2 / 2) with (bpow radix2 0) by (cbn; lra). split; apply bpow_le; lia.
  - change 2 with (bpow radix2 1). split; apply bpow_le; lia.
  - change (bpow radix2 20) with 1048576. lra.
  - split; [lra|]. apply Rle_trans with (bpow radix2 2); [change (bpow radix2 2) with 4; lra|apply bpow_le; lia].
  - lra.
  - unfold thick, within_each, rcross, minus, dot, px, py, pz, reals3. cbn [fst snd]. rewrite E1, E5. repeat split; try (apply Rabs_le; lra). lra.
  - rewrite C. intros w Hw. unfold within_each, px, py, pz, reals3.
    destruct Hw as [ <- |[ <- |[ <- |[]]]]; cbn [fst snd]; rewrite ?E1, ?E3, ?E5; repeat split; apply Rabs_le; lra.
  - exact Er.
  - rewrite Y. intros X. vm_compute in X. discriminate X.
  - exists g', p. split; [reflexivity|]. split; [exact Y|].
    rewrite C in Dp. change (mm_res _ (flat_map64 tri)) with (half64 2) in Dp. unfold reals3 in Ip, Dp. cbn [fst snd] in Ip, Dp. rewrite E1, E3, E2 in Dp. rewrite E1, E5 in Ip.
    split; [exact Ip|]. replace (2 / 2) with 1 in Dp by lra. exact Dp.
Qed.

(** ** C97 *)

(** RasterizeTriangle in binary64 fills a voxel of the box that the loops run over if the foot of
    the perpendicular from its centre is clearly inside of the triangle, and clearly within the
    radius of the circumscribed sphere: [s], [t] and 1 - s - t are the weights of the corners at
    the foot, and [c] scales the normal. *)
Theorem c97_covers fl tri (m : mmap (double_mesh fl tri)) (vertices : list (b64 * b64 * b64)) triangles tr i j k (v1 v2 v3 : b64 * b64 * b64)
    enforce (g g' : grid occ) x l h b v s t c :
  let M := double_mesh fl tri in
  let q : b64 * b64 * b64 := mm_centre M m x in
  let r := B2R (mm_res M m) in
  gwf g -> g_nx g = mm_nx _ m -> g_ny g = mm_ny _ m -> g_nz g = mm_nz _ m -> in_bounds g x = true ->
  zget triangles tr = Some (i, j, k) -> zget vertices i = Some v1 -> zget vertices j = Some v2 -> zget vertices k = Some v3 ->
  finite3 v1 -> finite3 v2 -> finite3 v3 -> finite3 q -> is_finite (mm_res M m : b64) = true ->
  bpow radix2 (-100) <= r <= bpow radix2 100 -> bpow radix2 (-100) <= l <= bpow radix2 100 ->
  l <= h <= bpow radix2 20 * l -> l <= b <= bpow radix2 120 -> / 1024 <= v <= 1 ->
  thick l v (reals3 v1) (reals3 v2) (reals3 v3) ->
  (forall w, In w [v1; v2; v3] -> within_each b (reals3 w) (0, 0, 0) /\ within_each h (reals3 q) (reals3 w)) ->
  (let lo := mm_index M m (vmin3 M v1 v2 v3) in let hi := mm_index M m (vmax3 M v1 v2 v3) in
   (ix lo <= ix x <= ix hi)%Z /\ (iy lo <= iy x <= iy hi)%Z /\ (iz lo <= iz x <= iz hi)%Z) ->
  let p := blend (reals3 v1) (reals3 v2) (reals3 v3) s t in
  let n := rcross (minus (reals3 v2) (reals3 v1)) (minus (reals3 v3) (reals3 v1)) in
  let e := bpow radix2 (-44) * (h / (l * v)) in
  e <= s -> e <= t -> s + t <= 1 - e ->
  reals3 q = (px p + c * px n, py p + c * py n, pz p + c * pz n) ->
  RayGeoSpec.dist (reals3 q) p + bpow radix2 (-38) * (h / (v * v) + b + r) <= sqrt 3 / 2 * r ->
  run (triangle_task M m vertices triangles enforce tr) g = Some (tt, g') ->
  gget g' x = Some one_bits.
Proof.
  intros M q r W Dx Dy Dz Bx Ht Hi Hj Hk F1 F2 F3 Fq Fr Hr Hl Hh Hb Hv T B Box p n e Es Et Est Eq Dist R.
  pose proof (corners_some M vertices triangles tr i j k v1 v2 v3 Ht Hi Hj Hk) as Co.
  destruct (task_contained _ _ _ _ _ _ _ _ R) as (C & E).
  destruct (task_result M m vertices triangles enforce g tr W C E) as (g1 & R1 & _ & _ & O).
  assert (g' = g1) as -> by congruence. apply O; [|exact Bx]. apply filter_In. split.
  2:{ unfold inb. unfold in_bounds in Bx. now rewrite Dx, Dy, Dz in Bx. }
  unfold voxels_of. rewrite Co. unfold triangle_voxels. apply filter_In. split; [now apply in_index_box|].
  apply hit_plane.
  destruct (B v1 ltac:(cbn; auto)) as (B1 & Q1). destruct (B v2 ltac:(cbn; auto)) as (_ & Q2). destruct (B v3 ltac:(cbn; auto)) as (_ & Q3).
  assert (X38 : bpow radix2 (-38) = 32768 * u53) by (change 32768 with (bpow radix2 15); change u53 with (bpow radix2 (-53)); now rewrite <- bpow_plus).
  assert (X44 : bpow radix2 (-44) = 512 * u53) by (change 512 with (bpow radix2 9); change u53 with (bpow radix2 (-53)); now rewrite <- bpow_plus).
  unfold e in Es, Et, Est. rewrite X44 in Es, Et, Est. rewrite X38, Rmult_assoc in Dist.
  exact (plane_hit fl tri v1 v2 v3 q (mm_res M m) l h b v s t c Hl Hh Hb Hv F1 F2 F3 Fq Fr Hr T B1 Q1 Q2 Q3 Es Et Est Eq Dist).
Qed.
Print Assumptions c97_covers.

(** The triangle with corners (1/2, 1/2, 1/2), (7/2, 1/2, 1/2) and (1/2, 7/2, 1/2) in the same map:
    the centre of the voxel (1, 1, 0) is inside of it, and the voxel is filled. *)
Definition wide_triangle : list (b64 * b64 * b64) :=
  [(half64 1, half64 1, half64 1); (half64 7, half64 1, half64 1); (half64 1, half64 7, half64 1)].

Example c97_case tri : exists g',
  run (triangle_task _ (flat_map64 tri) wide_triangle [(0, 1, 2)%Z] true 0) flat_grid = Some (tt, g') /\ gget g' (1, 1, 0)%Z = Some one_bits.
Proof.
  assert (Y : match run (triangle_task _ (flat_map64 tri) wide_triangle [(0, 1, 2)%Z] true 0) flat_grid with Some _ => true | None => false end = true) by (vm_compute; reflexivity).
  destruct (run (triangle_task _ (flat_map64 tri) wide_triangle [(0, 1, 2)%Z] true 0) flat_grid) as [([], g')|] eqn:Er; [|discriminate Y].
  exists g'. split; [reflexivity|].
  destruct (half64_val 1 ltac:(lia)) as (F1 & E1). destruct (half64_val 2 ltac:(lia)) as (F2 & E2). destruct (half64_val 3 ltac:(lia)) as (F3 & E3).
  destruct (half64_val 7 ltac:(lia)) as (F7 & E7).
  assert (C : mm_centre _ (flat_map64 tri) (1, 1, 0)%Z = (half64 3, half64 3, half64 1)).
  { assert (U : forall a b c x y z : b64, B2SF a = B2SF x -> B2SF b = B2SF y -> B2SF c = B2SF z -> (a, b, c) = (x, y, z)) by (intros; apply f_equal2; [apply f_equal2|]; apply B2SF_inj; assumption).
    apply U; vm_compute; reflexivity. }
  assert (B44 : 0 < bpow radix2 (-44) <= / 1000) by (split; [apply bpow_gt_0|]; change (bpow radix2 (-44)) with (/ 17592186044416); lra).
  assert (B38 : 0 < bpow radix2 (-38) <= / 1000) by (split; [apply bpow_gt_0|]; change (bpow radix2 (-38)) with (/ 274877906944); lra).
  eapply (c97_covers cut64 tri (flat_map64 tri) wide_triangle [(0, 1, 2)%Z] 0 0 1 2
    (half64 1, half64 1, half64 1) (half64 7, half64 1, half64 1) (half64 1, half64 7, half64 1) true flat_grid g' (1, 1, 0)%Z 3 3 4 1 (1 / 3) (1 / 3) 0).
  - apply gconst_wf; lia.
  - reflexivity.
  - reflexivity.
  - reflexivity.
  - reflexivity.
  - reflexivity.
  - reflexivity.
  - reflexivity.
  - reflexivity.
  - split; [exact F1|split; [exact F1|exact F1]].
  - split; [exact F7|split; [exact F1|exact F1]].
  - split; [exact F1|split; [exact F7|exact F1]].
  - rewrite C. split; [exact F3|split; [exact F3|exact F1]].
  - exact F2.
  - change (mm_res _ (flat_map64 tri)) with (half64 2). rewrite E2. replace (2 / 2) with (bpow radix2 0) by (cbn; lra). split; apply bpow_le; lia.
  - split; [apply Rle_trans with (bpow radix2 1)|apply Rle_trans with (bpow radix2 2)]; try (apply bpow_le; lia); [change (bpow radix2 1) with 2|change (bpow radix2 2) with 4]; lra.
  - change (bpow radix2 20) with 1048576. lra.
  - split; [lra|]. change 4 with (bpow radix2 2). apply bpow_le; lia.
  - lra.
  - unfold thick, within_each, rcross, minus, dot, px, py, pz, reals3. cbn [fst snd]. rewrite E1, E7. repeat split; try (apply Rabs_le; lra). lra.
  - rewrite C. intros w Hw. unfold within_each, px, py, pz, reals3.
    destruct Hw as [ <- |[ <- |[ <- |[]]]]; cbn [fst snd]; rewrite ?E1, ?E3, ?E7; repeat split; apply Rabs_le; lra.
  - vm_compute. repeat split; discriminate.
  - lra.
  - lra.
  - lra.
  - rewrite C. unfold blend, rcross, minus, px, py, pz, reals3. cbn [fst snd]. rewrite E1, E3, E7. apply f_equal2; [apply f_equal2|]; lra.
  - rewrite C. change (mm_res _ (flat_map64 tri)) with (half64 2). unfold RayGeoSpec.dist, RayGeoSpec.px, RayGeoSpec.py, RayGeoSpec.pz, blend, px, py, pz, reals3. cbn [fst snd].
    rewrite E1, E2, E3, E7. replace (_ + _ + _) with 0 at 1 by lra. rewrite sqrt_0.
    assert (Q : 17 / 10 <= sqrt 3) by (replace (17 / 10) with (sqrt ((17 / 10) * (17 / 10))) by (apply sqrt_square; lra); apply sqrt_le_1_alt; lra).
    lra.
  - exact Er.
Qed.
