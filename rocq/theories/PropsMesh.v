(** Properties of the mesh rasterizer (C49, C50, C51, C68). *)
From Coq Require Import ZArith Reals List Bool Lia Lra Permutation SpecFloat.
From Flocq Require Import Core.
From Verif Require Import Util Grid Occ Prog Schedule SdfQueryModel SdfQueryArith MeshModel MeshSpec
  MeshProofs MeshGeoProofs.
Import ListNotations.
Local Open Scope Z_scope.

(** ** C49 *)

(** RasterizeMesh, for every arithmetic, every map and grid pose, every way of handing
    out the triangles to threads and every interleaving of their accesses: the call
    never gets stuck, it ends, and then the cells that some triangle alone would have
    changed are filled and all other cells are as before.  Missing: the accesses of
    different threads may race, see the refutation; the theorem is about executions in
    which single accesses are atomic. *)
Theorem c49_union_partial (M : mesh_arith) (m : mmap M) vertices triangles enforce (g : grid occ) sched :
  let task := triangle_task M m vertices triangles enforce in
  let count := zlen triangles in
  gwf g -> g_nx g = mm_nx M m -> g_ny g = mm_ny M m -> g_nz g = mm_nz M m ->
  (forall t, 0 <= t < count -> exists g1, run (task t) g = Some (tt, g1)) ->
  schedules sched count ->
  Acc (fun b a => cstep a b) (threads task sched, g) /\
  forall ps' g', csteps (threads task sched, g) (ps', g') ->
    (done ps' \/ exists s, cstep (ps', g') s) /\
    (done ps' -> same_dims g' g /\ forall i,
      ((exists t g1, 0 <= t < count /\ run (task t) g = Some (tt, g1) /\ gget g1 i <> gget g i) ->
         gget g' i = Some one_bits) /\
      ((forall t g1, 0 <= t < count -> run (task t) g = Some (tt, g1) -> gget g1 i = gget g i) ->
         gget g' i = gget g i)).
Proof.
  intros task count W Dx Dy Dz H S. split; [apply cstep_wf|]. intros ps' g' Cs.
  assert (forall t, 0 <= t < count -> corners_of M vertices triangles t <> None /\
    (enforce = true -> forall i, In i (voxels_of M m vertices triangles t) -> inb M m i = true)) as H2.
  { intros t Ht. destruct (H t Ht) as (g1 & R). eapply task_contained; exact R. }
  assert (forall i, in_bounds g i = inb M m i) as B.
  { intros i. unfold inb, in_bounds. now rewrite Dx, Dy, Dz. }
  assert (forall t i, 0 <= t < count -> exists g1, run (task t) g = Some (tt, g1) /\
    (In i (voxels_of M m vertices triangles t) -> in_bounds g i = true -> gget g1 i = Some one_bits) /\
    (~ In i (voxels_of M m vertices triangles t) -> gget g1 i = gget g i) /\
    (in_bounds g i = false -> gget g1 i = gget g i)) as One.
  { intros t i Ht. destruct (H2 t Ht) as (C & E).
    destruct (task_result M m vertices triangles enforce g t W C E) as (g1 & R & _ & D & O).
    exists g1. split; [exact R|]. destruct (O i) as (O1 & O2). split; [|split].
    - intros I Bi. apply O1; [|exact Bi]. apply filter_In. split; [exact I|]. now rewrite <- B.
    - intros I. apply O2. rewrite filter_In. tauto.
    - intros Bi. apply O2. rewrite filter_In, <- B, Bi. intros (_ & ?). discriminate. }
  destruct (parallel_result M m vertices triangles enforce g sched W (eq_sym Dx) (eq_sym Dy) (eq_sym Dz)
    H2 S ps' g' Cs) as (P & W' & D' & F).
  split; [exact P|]. intros Dn. split; [exact D'|]. intros i. destruct (F Dn i) as (F1 & F2). split.
  - intros (t & g1 & Ht & R & N). destruct (One t i Ht) as (g2 & R2 & O1 & O2 & O3).
    assert (g1 = g2) as -> by (unfold task in *; congruence).
    destruct (in_bounds g i) eqn:Bi; [|exfalso; apply N; auto].
    apply F1; [|reflexivity]. exists t. split; [exact Ht|].
    destruct (in_dec idx_eq_dec i (voxels_of M m vertices triangles t)) as [I|I]; [exact I|].
    exfalso. apply N. auto.
  - intros U. destruct (in_bounds g i) eqn:Bi.
    2:{ rewrite !gget_none; [reflexivity|exact Bi|]. rewrite (in_bounds_dims g' g) by exact D'. exact Bi. }
    assert ((exists t, 0 <= t < count /\ In i (voxels_of M m vertices triangles t)) \/
            ~ (exists t, 0 <= t < count /\ In i (voxels_of M m vertices triangles t))) as [(t & Ht & I)|N].
    { destruct (existsb (fun t => if in_dec idx_eq_dec i (voxels_of M m vertices triangles t) then true else false)
        (zrange 0 count)) eqn:X.
      - left. apply existsb_exists in X as (t & Ht & X). exists t. split; [now apply in_zrange|].
        destruct (in_dec _ _ _); [assumption|discriminate].
      - right. intros (t & Ht & I). apply not_true_iff_false in X. apply X. apply existsb_exists.
        exists t. split; [now apply in_zrange|]. destruct (in_dec _ _ _); [reflexivity|contradiction]. }
    + destruct (One t i Ht) as (g1 & R & O1 & _). rewrite F1 by eauto. rewrite <- (U t g1 Ht R).
      symmetry. now apply O1.
    + now apply F2.
Qed.
Print Assumptions c49_union_partial.

(** A map of 4 x 4 x 1 voxels of size 1 at the origin. *)
Definition unit_map (nx ny nz : Z) : mmap sf_mesh :=
  mkMmap sf_mesh nx ny nz (sf_ofZ 1) (sf_ofZ 1) (fun p => p) (fun p => p).
Definition q4 (n : Z) : sf := sf_div (sf_ofZ n) (sf_ofZ 4).

(** A square of two triangles; its corners are centres of voxels. *)
Definition square : list (qvec sf_query) :=
  [(q4 2, q4 2, q4 2); (q4 10, q4 2, q4 2); (q4 10, q4 10, q4 2); (q4 2, q4 10, q4 2)].
Definition square_triangles : list (Z * Z * Z) := [(0, 1, 2); (0, 2, 3)].

(** Two threads write the occupancy of the same voxel without synchronisation, already
    for two triangles that share an edge. *)
Theorem c49_race_refuted :
  exists (m : mmap sf_mesh) vertices triangles sched,
    schedules sched (zlen triangles) /\
    racy (threads (triangle_task sf_mesh m vertices triangles true) sched).
Proof.
  exists (unit_map 4 4 1), square, square_triangles, [[0]; [1]].
  split; [apply Permutation_refl|].
  exists [], (pseq (map (triangle_task sf_mesh (unit_map 4 4 1) square square_triangles true) [0])),
    [], (pseq (map (triangle_task sf_mesh (unit_map 4 4 1) square square_triangles true) [1])), [],
    (0, 0, 0), true, true.
  split; [reflexivity|]. split; [vm_compute; reflexivity|]. split; [vm_compute; reflexivity|reflexivity].
Qed.
Print Assumptions c49_race_refuted.

(** The occupancy of a voxel after rasterizing one triangle into an empty map. *)
Definition after (m : mmap sf_mesh) vertices triangles (t : Z) (i : idx) : option occ :=
  match run (triangle_task sf_mesh m vertices triangles true t)
          (gconst (mm_nx _ m) (mm_ny _ m) (mm_nz _ m) zero_bits) with
  | Some (_, g) => gget g i
  | None => None
  end.

(** Both triangles of the square can be rasterized, each fills voxels the other does not. *)
Example c49_case :
  after (unit_map 4 4 1) square square_triangles 0 (2, 0, 0) = Some one_bits /\
  after (unit_map 4 4 1) square square_triangles 1 (2, 0, 0) = Some zero_bits /\
  after (unit_map 4 4 1) square square_triangles 0 (0, 2, 0) = Some zero_bits /\
  after (unit_map 4 4 1) square square_triangles 1 (0, 2, 0) = Some one_bits.
Proof. split; [|split; [|split]]; vm_compute; reflexivity. Qed.

(** ** C50 *)

(** RasterizeTriangle in exact arithmetic, on a map with the axes of the world: the
    voxel of a point of the triangle is filled if the foot of the perpendicular from its
    centre lies in the triangle, or if the triangle is small.  Missing: voxels that meet
    the triangle elsewhere, and rotated maps; both fail, see the refutations. *)
Theorem c50_covers_partial nx ny nz r o vertices triangles t i j k (a b c : pt) enforce (g g' : grid occ) v p :
  (0 < r)%R -> gwf g -> g_nx g = nx -> g_ny g = ny -> g_nz g = nz ->
  zget triangles t = Some (i, j, k) ->
  zget vertices i = Some a -> zget vertices j = Some b -> zget vertices k = Some c ->
  proper a b c -> in_triangle a b c p -> in_voxel r o v p -> in_bounds g v = true ->
  foot_inside a b c (voxel_centre r o v) \/
    (forall w, In w [a; b; c] -> dist_sq w (voxel_centre r o v) <= 3 / 4 * (r * r))%R ->
  run (triangle_task real_mesh (aligned_map nx ny nz r o) vertices triangles enforce t) g = Some (tt, g') ->
  gget g' v = Some one_bits.
Proof.
  intros Hr W Dx Dy Dz Ht Hi Hj Hk P I V B C R.
  set (m := aligned_map nx ny nz r o) in *.
  assert (corners_of real_mesh vertices triangles t = Some (a, b, c)) as Co.
  { exact (corners_some real_mesh vertices triangles t i j k a b c Ht Hi Hj Hk). }
  destruct (task_contained _ _ _ _ _ _ _ _ R) as (N & E).
  destruct (task_result real_mesh m vertices triangles enforce g t W N E) as (g1 & R1 & _ & _ & O).
  assert (g' = g1) as -> by congruence. apply O; [|exact B]. apply filter_In. split.
  2:{ unfold inb. cbn [m mm_nx mm_ny mm_nz aligned_map]. unfold in_bounds in B. now rewrite Dx, Dy, Dz in B. }
  unfold voxels_of. rewrite Co. unfold triangle_voxels. apply filter_In.
  apply (index_in_voxel nx ny nz r o p v Hr) in V. fold m in V. split.
  - rewrite <- V. now apply point_in_box.
  - destruct C as [C|C].
    + apply (hit_foot m a b c v p P); [|exact I|].
      * unfold m. rewrite centre_eq. exact C.
      * rewrite <- V. now apply point_near_centre.
    + apply (hit_small m a b c v P). intros w Iw. unfold m. rewrite centre_eq. now apply C.
Qed.
Print Assumptions c50_covers_partial.

(** A triangle, the middle voxel of one of its edges, and a triangle within one voxel. *)
Definition flat_a : pt := (1 / 2, 1 / 2, 1 / 2)%R.
Definition flat_b : pt := (5 / 2, 1 / 2, 1 / 2)%R.
Definition flat_c : pt := (1 / 2, 5 / 2, 1 / 2)%R.
Definition tiny_b : pt := (3 / 4, 1 / 2, 1 / 2)%R.
Definition tiny_c : pt := (1 / 2, 3 / 4, 1 / 2)%R.

Example c50_case :
  proper flat_a flat_b flat_c /\ in_triangle flat_a flat_b flat_c (3 / 2, 1 / 2, 1 / 2)%R /\
  in_voxel 1 (0, 0, 0)%R (1, 0, 0) (3 / 2, 1 / 2, 1 / 2)%R /\
  foot_inside flat_a flat_b flat_c (voxel_centre 1 (0, 0, 0)%R (1, 0, 0)) /\
  proper flat_a tiny_b tiny_c /\
  (forall w, In w [flat_a; tiny_b; tiny_c] -> dist_sq w (voxel_centre 1 (0, 0, 0) (0, 0, 0)%Z) <= 3 / 4 * (1 * 1))%R /\
  exists g', run (triangle_task real_mesh (aligned_map 4 4 1 1 (0, 0, 0)%R) [flat_a; flat_b; flat_c]
                    [(0, 1, 2)] false 0) (gconst 4 4 1 zero_bits) = Some (tt, g').
Proof.
  unfold flat_a, flat_b, flat_c, tiny_b, tiny_c.
  split. { intros k l N E. unfold px, py, pz in E. cbn [fst snd] in E. injection E as E1 E2 E3.
    destruct N as [N|N]; apply N; lra. }
  split. { exists (1 / 2)%R, 0%R. split; [lra|]. split; [lra|]. split; [lra|].
    unfold blend, px, py, pz. cbn [fst snd]. apply pt_eq; lra. }
  split. { unfold in_voxel, px, py, pz, ix, iy, iz. cbn [fst snd]. lra. }
  split. { exists (3 / 2, 1 / 2, 1 / 2)%R. split.
    - exists (1 / 2)%R, 0%R. split; [lra|]. split; [lra|]. split; [lra|].
      unfold blend, px, py, pz. cbn [fst snd]. apply pt_eq; lra.
    - unfold dot, minus, voxel_centre, px, py, pz, ix, iy, iz. cbn [fst snd]. lra. }
  split. { intros k l N E. unfold px, py, pz in E. cbn [fst snd] in E. injection E as E1 E2 E3.
    destruct N as [N|N]; apply N; lra. }
  split. { intros w [<-|[<-|[<-|[]]]]; unfold dist_sq, dot, minus, voxel_centre, px, py, pz, ix, iy, iz; cbn [fst snd]; lra. }
  destruct (task_result real_mesh (aligned_map 4 4 1 1 (0, 0, 0)%R)
    [(1 / 2, 1 / 2, 1 / 2); (5 / 2, 1 / 2, 1 / 2); (1 / 2, 5 / 2, 1 / 2)]%R [(0, 1, 2)] false
    (gconst 4 4 1 zero_bits) 0) as (g' & R & _).
  - apply gconst_wf; lia.
  - discriminate.
  - discriminate.
  - exists g'. exact R.
Qed.

(** A triangle in an unrotated map, all of whose corners are inside: the voxel of a
    corner is not filled.  (The closest point is chosen among three candidates by the
    distance from the origin of the world instead of the distance from the voxel.) *)
Definition long_triangle : list (qvec sf_query) :=
  [(q4 2, q4 1, q4 2); (q4 13, q4 13, q4 2); (q4 1, q4 2, q4 2)].

Theorem c50_covers_refuted :
  exists (m : mmap sf_mesh) vertices corner v,
    zget vertices 1 = Some corner /\ mm_index sf_mesh m corner = v /\
    in_bounds3 (mm_nx _ m) (mm_ny _ m) (mm_nz _ m) v = true /\
    after m vertices [(0, 1, 2)] 0 v = Some zero_bits.
Proof.
  exists (unit_map 4 4 1), long_triangle, (q4 13, q4 13, q4 2), (3, 3, 0).
  split; [reflexivity|]. split; [vm_compute; reflexivity|]. split; [reflexivity|].
  vm_compute. reflexivity.
Qed.
Print Assumptions c50_covers_refuted.

(** In a map turned by 90 degrees about the z axis, the corners of the bounding box swap
    their order on one axis and no voxel is filled. *)
Definition turned_map (nx ny nz : Z) : mmap sf_mesh :=
  mkMmap sf_mesh nx ny nz (sf_ofZ 1) (sf_ofZ 1)
    (fun p => (snd (fst p), SFopp (fst (fst p)), snd p))
    (fun p => (SFopp (snd (fst p)), fst (fst p), snd p)).
Definition turned_triangle : list (qvec sf_query) :=
  [(q4 (-2), q4 2, q4 2); (q4 (-2), q4 10, q4 2); (q4 (-10), q4 2, q4 2)].

Theorem c50_rotated_refuted :
  exists (m : mmap sf_mesh) vertices,
    (forall w, In w vertices -> mm_to_world _ m (mm_to_grid _ m w) = w /\
       in_bounds3 (mm_nx _ m) (mm_ny _ m) (mm_nz _ m) (mm_index sf_mesh m w) = true) /\
    length vertices = 3%nat /\
    let g := gconst (mm_nx _ m) (mm_ny _ m) (mm_nz _ m) zero_bits in
    run (triangle_task sf_mesh m vertices [(0, 1, 2)] true 0) g = Some (tt, g).
Proof.
  exists (turned_map 4 4 1), turned_triangle. split; [|split; [reflexivity|vm_compute; reflexivity]].
  intros w [<-|[<-|[<-|[]]]]; (split; [vm_compute; reflexivity|vm_compute; reflexivity]).
Qed.
Print Assumptions c50_rotated_refuted.

(** ** C68 *)

(** Every voxel that RasterizeTriangle changes has a point of the triangle within the
    radius of its circumscribed sphere; exact arithmetic, every pose of the map. *)
Theorem c68_only_near (m : mmap real_mesh) vertices triangles t i j k (a b c : pt) enforce (g g' : grid occ) v :
  gwf g -> g_nx g = mm_nx _ m -> g_ny g = mm_ny _ m -> g_nz g = mm_nz _ m ->
  zget triangles t = Some (i, j, k) ->
  zget vertices i = Some a -> zget vertices j = Some b -> zget vertices k = Some c ->
  proper a b c ->
  run (triangle_task real_mesh m vertices triangles enforce t) g = Some (tt, g') ->
  gget g' v <> gget g v ->
  gget g' v = Some one_bits /\
  exists p, in_triangle a b c p /\
    let r := mm_res _ m in
    let at_ z := (r * (IZR z + 1 / 2))%R in
    (dist_sq p (mm_to_world _ m (at_ (ix v), at_ (iy v), at_ (iz v))) <= 3 / 4 * (r * r))%R.
Proof.
  intros W Dx Dy Dz Ht Hi Hj Hk P R N.
  assert (corners_of real_mesh vertices triangles t = Some (a, b, c)) as Co.
  { exact (corners_some real_mesh vertices triangles t i j k a b c Ht Hi Hj Hk). }
  destruct (task_contained _ _ _ _ _ _ _ _ R) as (C & E).
  destruct (task_result real_mesh m vertices triangles enforce g t W C E) as (g1 & R1 & _ & _ & O).
  assert (g' = g1) as -> by congruence. destruct (O v) as (O1 & O2).
  destruct (in_dec idx_eq_dec v (filter (inb real_mesh m) (voxels_of real_mesh m vertices triangles t))) as [I|I].
  2:{ exfalso. apply N. now apply O2. }
  assert (in_bounds g v = true) as B.
  { apply filter_In in I as (_ & B). unfold inb in B. unfold in_bounds. now rewrite Dx, Dy, Dz. }
  split; [now apply O1|]. apply filter_In in I as (I & _).
  unfold voxels_of in I. rewrite Co in I. apply filter_In in I as (_ & I).
  apply voxel_hit_spec in I. eexists. split; [|exact I]. now apply closest_in_triangle.
Qed.
Print Assumptions c68_only_near.

Example c68_case : after (unit_map 4 4 1) square square_triangles 0 (2, 0, 0) <> Some zero_bits.
Proof. intros H. vm_compute in H. discriminate H. Qed.

(** ** C51 *)

(** RasterizeMeshIntoOccupancyMap in exact arithmetic: every vertex is strictly inside
    the grid, and the parallel rasterization never throws.  Missing: rounding, which can
    move the grid by a whole voxel, see the refutation. *)
Theorem c51_contains_partial (vertices : list pt) triangles r :
  (0 < r)%R -> vertices <> [] ->
  (forall i j k, In (i, j, k) triangles -> forall n, In n [i; j; k] -> 0 <= n < zlen vertices) ->
  exists m g, rasterize_into_map real_mesh vertices triangles r = Some (m, g) /\ mm_res _ m = r /\
    (forall v, In v vertices ->
       let q := mm_to_grid _ m v in
       0 < px q < r * IZR (mm_nx _ m) /\ 0 < py q < r * IZR (mm_ny _ m) /\ 0 < pz q < r * IZR (mm_nz _ m))%R /\
    forall sched ps' g', schedules sched (zlen triangles) ->
      csteps (threads (triangle_task real_mesh m vertices triangles true) sched,
              gconst (mm_nx _ m) (mm_ny _ m) (mm_nz _ m) zero_bits) (ps', g') ->
      done ps' \/ exists s, cstep (ps', g') s.
Proof.
  intros Hr N Hv. destruct (map_for_mesh_spec vertices r Hr N) as (lo & hi & B & E).
  set (m := aligned_map (voxel_count (px lo) (px hi) r) (voxel_count (py lo) (py hi) r)
    (voxel_count (pz lo) (pz hi) r) r (px lo - r, py lo - r, pz lo - r)%R) in *.
  assert (forall v, In v vertices ->
    let q := mm_to_grid _ m v in
    0 < px q < r * IZR (mm_nx _ m) /\ 0 < py q < r * IZR (mm_ny _ m) /\ 0 < pz q < r * IZR (mm_nz _ m))%R as In_.
  { intros v Iv. cbn zeta. destruct (B v Iv) as ((L1 & L2 & L3) & U1 & U2 & U3).
    split; [|split].
    - exact (proj1 (axis_bounds (px lo) (px hi) r (px v) Hr (conj L1 U1))).
    - exact (proj1 (axis_bounds (py lo) (py hi) r (py v) Hr (conj L2 U2))).
    - exact (proj1 (axis_bounds (pz lo) (pz hi) r (pz v) Hr (conj L3 U3))). }
  assert (forall t, 0 <= t < zlen triangles -> corners_of real_mesh vertices triangles t <> None /\
    (true = true -> forall i, In i (voxels_of real_mesh m vertices triangles t) -> inb real_mesh m i = true)) as H.
  { intros t Ht. unfold voxels_of.
    destruct (proj2 (zget_some_iff triangles t) Ht) as ([[i j] k] & Et).
    pose proof (zget_In _ _ _ Et) as It. specialize (Hv i j k It).
    destruct (proj2 (zget_some_iff vertices i)) as (a & Ea); [apply Hv; cbn; auto|].
    destruct (proj2 (zget_some_iff vertices j)) as (b & Eb); [apply Hv; cbn; auto|].
    destruct (proj2 (zget_some_iff vertices k)) as (c & Ec); [apply Hv; cbn; auto|].
    pose proof (corners_some real_mesh vertices triangles t i j k a b c Et Ea Eb Ec) as Co.
    rewrite Co. split; [discriminate|]. intros _ x Ix. unfold triangle_voxels in Ix.
    apply filter_In in Ix as (Ix & _).
    apply (box_contained lo hi r a b c x Hr); [|exact Ix].
    intros w [<-|[<-|[<-|[]]]]; apply B; eapply zget_In; eauto. }
  assert (0 < mm_nx _ m /\ 0 < mm_ny _ m /\ 0 < mm_nz _ m) as (Nx & Ny & Nz).
  { destruct vertices as [|v l]; [congruence|]. destruct (In_ v (or_introl eq_refl)) as (X & Y & Z').
    assert (forall q n, (0 < q < r * IZR n)%R -> 0 < n) as K.
    { clear - Hr. intros q n Q. apply lt_IZR. apply Rmult_lt_reg_l with r; [exact Hr|]. lra. }
    split; [|split]; eapply K; eauto. }
  assert (gwf (gconst (mm_nx _ m) (mm_ny _ m) (mm_nz _ m) zero_bits)) as W by (apply gconst_wf; assumption).
  set (g0 := gconst (mm_nx _ m) (mm_ny _ m) (mm_nz _ m) zero_bits) in *.
  assert (only_writes (V:=occ) one_bits (mesh_task real_mesh m vertices triangles true)) as OW.
  { apply only_writes_pseq. apply Forall_forall. intros p P. apply in_map_iff in P as (t & <- & It).
    apply in_zrange in It. destruct (H t It) as (C & E'). apply (task_writes real_mesh m vertices triangles true t C E'). }
  destruct (run_writes (V:=occ) one_bits _ OW g0 g0 [] (overwritten_nil (V:=occ) _ g0 W)) as (g & R & _).
  exists m, g. split.
  { unfold rasterize_into_map. rewrite E. cbn [obind]. fold m. change (gconst _ _ _ zero_bits) with g0. rewrite R. reflexivity. }
  split; [reflexivity|]. split; [exact In_|]. intros sched ps' g' S Cs.
  exact (proj1 (parallel_result real_mesh m vertices triangles true g0 sched W eq_refl eq_refl eq_refl H S ps' g' Cs)).
Qed.
Print Assumptions c51_contains_partial.

(** Non-positive resolutions are refused, in every arithmetic. *)
Theorem c51_resolution (M : mesh_arith) vertices triangles resolution :
  q_leb (m_query M) resolution (q_zero (m_query M)) = true ->
  rasterize_into_map M vertices triangles resolution = None.
Proof. intros H. unfold rasterize_into_map, map_for_mesh. now rewrite H. Qed.
Print Assumptions c51_resolution.

(** Binary64: a triangle at x = 2^53 + 2 with voxels of size 1.  The corner of the grid,
    one voxel below, is rounded to one more voxel below, the triangle is in the voxel
    after the last one, and the call throws. *)
Definition far_triangle : list (qvec sf_query) :=
  let x := sf_ofZ (2 ^ 53 + 2) in
  [(x, sf_ofZ 0, sf_ofZ 0); (x, sf_ofZ 1, sf_ofZ 0); (x, sf_ofZ 0, sf_ofZ 1)].

Theorem c51_rounding_refuted :
  exists (vertices : list (qvec sf_query)) resolution,
    SFltb (sf_ofZ 0) resolution = true /\ length vertices = 3%nat /\
    match map_for_mesh sf_mesh vertices resolution with
    | Some m => forallb (fun v =>
        negb (in_bounds3 (mm_nx _ m) (mm_ny _ m) (mm_nz _ m) (mm_index sf_mesh m v))) vertices
    | None => false
    end = true /\
    match rasterize_into_map sf_mesh vertices [(0, 1, 2)] resolution with Some _ => false | None => true end = true.
Proof.
  exists far_triangle, (sf_ofZ 1). split; [vm_compute; reflexivity|]. split; [reflexivity|].
  split; vm_compute; reflexivity.
Qed.
Print Assumptions c51_rounding_refuted.

Example c51_case : match rasterize_into_map sf_mesh square square_triangles (sf_ofZ 1) with
  | Some (m, g) => (mm_nx _ m, mm_ny _ m, mm_nz _ m, gget g (1, 1, 1), gget g (0, 0, 0))
  | None => (0, 0, 0, None, None)
  end = (4, 4, 2, Some one_bits, Some zero_bits).
Proof. vm_compute. reflexivity. Qed.
