(** Properties of rasterization near the edges of a triangle (C98). *)
From Coq Require Import ZArith Reals List Bool Lia Lra.
From Verif Require Import Util Grid Occ Prog Schedule SdfQueryModel SdfQueryArith MeshModel MeshSpec
  MeshProofs MeshGeoProofs MeshEdgeProofs.
Import ListNotations.
Local Open Scope R_scope.

(** *** C98: RasterizeTriangle in exact arithmetic and a map with the axes of the world fills every
    voxel that has a point of the triangle and, for each of the three edges, a point of the edge
    within the radius of its circumscribed sphere, wherever its centre projects to and however far
    away the corners are. *)
Theorem c98_edges nx ny nz r o vertices triangles t i j k (a b c : pt) enforce (g g' : grid occ) v p k1 k2 k3 :
  0 < r -> gwf g -> g_nx g = nx -> g_ny g = ny -> g_nz g = nz ->
  zget triangles t = Some (i, j, k) -> zget vertices i = Some a -> zget vertices j = Some b -> zget vertices k = Some c ->
  proper a b c -> in_triangle a b c p -> in_voxel r o v p -> in_bounds g v = true ->
  let near x := dist_sq x (voxel_centre r o v) <= 3 / 4 * (r * r) in
  0 <= k1 <= 1 -> 0 <= k2 <= 1 -> 0 <= k3 <= 1 ->
  near (blend a b a k1 0) -> near (blend b c b k2 0) -> near (blend c a c k3 0) ->
  run (triangle_task real_mesh (aligned_map nx ny nz r o) vertices triangles enforce t) g = Some (tt, g') ->
  gget g' v = Some one_bits.
Proof.
  intros Hr W Dx Dy Dz Ht Hi Hj Hk P I V B near K1 K2 K3 N1 N2 N3 R.
  set (m := aligned_map nx ny nz r o) in *.
  pose proof (corners_some real_mesh vertices triangles t i j k a b c Ht Hi Hj Hk) as Co.
  destruct (task_contained _ _ _ _ _ _ _ _ R) as (N & E).
  destruct (task_result real_mesh m vertices triangles enforce g t W N E) as (g1 & R1 & _ & _ & O).
  assert (g' = g1) as -> by congruence. apply O; [|exact B]. apply filter_In. split.
  2:{ unfold inb. cbn [m mm_nx mm_ny mm_nz aligned_map]. unfold in_bounds in B. now rewrite Dx, Dy, Dz in B. }
  unfold voxels_of. rewrite Co. unfold triangle_voxels. apply filter_In.
  apply (index_in_voxel nx ny nz r o p v Hr) in V. fold m in V. split.
  - rewrite <- V. now apply point_in_box.
  - apply (hit_edges m a b c v k1 k2 k3 P K1 K2 K3); unfold m; rewrite centre_eq; assumption.
Qed.
Print Assumptions c98_edges.

(** The triangle with corners (1, 3/4, 1/2), (7/2, 3/4, 1/2) and (1, 5/4, 1/2): the centre of the
    voxel (1, 0, 0) projects outside of it and its second corner is two voxels away. *)
Example c98_case : let a : pt := (1, 3 / 4, 1 / 2) in let b : pt := (7 / 2, 3 / 4, 1 / 2) in let c : pt := (1, 5 / 4, 1 / 2) in
  exists g', run (triangle_task real_mesh (aligned_map 4 4 1 1 (0, 0, 0)) [a; b; c] [(0, 1, 2)%Z] false 0) (gconst 4 4 1 zero_bits) = Some (tt, g') /\
    gget g' (1, 0, 0)%Z = Some one_bits.
Proof.
  intros a b c.
  destruct (task_result real_mesh (aligned_map 4 4 1 1 (0, 0, 0)) [a; b; c] [(0, 1, 2)%Z] false (gconst 4 4 1 zero_bits) 0) as (g' & R & _).
  - apply gconst_wf; lia.
  - discriminate.
  - discriminate.
  - exists g'. split; [exact R|].
    apply (c98_edges 4 4 1 1 (0, 0, 0) [a; b; c] [(0, 1, 2)%Z] 0 0 1 2 a b c false (gconst 4 4 1 zero_bits) g' (1, 0, 0)%Z (3 / 2, 3 / 4, 1 / 2) (1 / 5) (4 / 5) 1);
      try reflexivity; try lra; try exact R.
    + apply gconst_wf; lia.
    + intros x y N E. unfold a, b, c, px, py, pz in E. cbn [fst snd] in E. injection E as E1 E2 E3. destruct N as [N|N]; apply N; lra.
    + exists (1 / 5), 0. split; [lra|]. split; [lra|]. split; [lra|]. unfold a, b, c, blend, px, py, pz. cbn [fst snd]. apply pt_eq; lra.
    + unfold in_voxel, px, py, pz, ix, iy, iz. cbn [fst snd]. lra.
    + unfold a, b, c, dist_sq, dot, minus, blend, voxel_centre, px, py, pz, ix, iy, iz. cbn [fst snd]. lra.
    + unfold a, b, c, dist_sq, dot, minus, blend, voxel_centre, px, py, pz, ix, iy, iz. cbn [fst snd]. lra.
    + unfold a, b, c, dist_sq, dot, minus, blend, voxel_centre, px, py, pz, ix, iy, iz. cbn [fst snd]. lra.
Qed.
