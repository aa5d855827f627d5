(** Property of the maps made for meshes, in double (C95). *)
From Coq Require Import ZArith Reals List Bool Lia Lra.
From Flocq Require Import Core BinarySingleNaN.
From Verif Require Import Util Grid Occ Prog Schedule FloatModel SdfQueryModel SdfQueryArith SdfDoubleModel SdfDoubleSpec MeshModel MeshProofs
  MeshGeoProofs MeshDoubleModel MeshDoubleProofs RayFloatModel PropsRayRound.
Import ListNotations.
Local Open Scope R_scope.

(** ** C95 *)

(** RasterizeMeshIntoOccupancyMap in binary64, with vertices at most 2^48 voxels from the
    origin: the call returns a map; every vertex has its voxel in the map and is at least
    half a voxel away from the sides; the map is at most four voxels larger than the mesh;
    and however the triangles are handed out to threads, none of them throws and they leave
    the same map. *)
Theorem c95_contains fl tri (vertices : list (b64 * b64 * b64)) triangles (res : b64) :
  floors fl -> is_finite res = true ->
  let M := double_mesh fl tri in
  let r := B2R res in
  bpow radix2 (-300) <= r <= bpow radix2 300 -> vertices <> [] ->
  (forall v, In v vertices -> finite3 v /\ Rabs (B2R (fst (fst v))) <= 2 ^ 48 * r /\ Rabs (B2R (snd (fst v))) <= 2 ^ 48 * r /\ Rabs (B2R (snd v)) <= 2 ^ 48 * r) ->
  (forall i j k, In (i, j, k) triangles -> forall n, In n [i; j; k] -> (0 <= n < zlen vertices)%Z) ->
  exists (m : mmap M) g, rasterize_into_map M vertices triangles res = Some (m, g) /\ mm_res _ m = res /\
    (forall v, In v vertices ->
       let q := mm_to_grid _ m v in
       finite3 q /\ r / 2 <= B2R (fst (fst q)) <= r * IZR (mm_nx _ m) - r / 2 /\ r / 2 <= B2R (snd (fst q)) <= r * IZR (mm_ny _ m) - r / 2 /\
       r / 2 <= B2R (snd q) <= r * IZR (mm_nz _ m) - r / 2 /\
       in_bounds3 (mm_nx _ m) (mm_ny _ m) (mm_nz _ m) (mm_index M m v) = true) /\
    (exists v w, In v vertices /\ In w vertices /\ r * IZR (mm_nx _ m) <= B2R (fst (fst w)) - B2R (fst (fst v)) + 4 * r) /\
    (exists v w, In v vertices /\ In w vertices /\ r * IZR (mm_ny _ m) <= B2R (snd (fst w)) - B2R (snd (fst v)) + 4 * r) /\
    (exists v w, In v vertices /\ In w vertices /\ r * IZR (mm_nz _ m) <= B2R (snd w) - B2R (snd v) + 4 * r) /\
    forall sched ps' g', schedules sched (zlen triangles) ->
      csteps (threads (triangle_task M m vertices triangles true) sched, gconst (mm_nx _ m) (mm_ny _ m) (mm_nz _ m) zero_bits) (ps', g') ->
      (done ps' \/ exists s, cstep (ps', g') s) /\ (done ps' -> forall i, gget g' i = gget g i).
Proof.
  intros Hfl Fr M r Hr N F Hv. assert (Rp : 0 < r) by (pose proof (bpow_gt_0 radix2 (-300)); lra).
  replace (2 ^ 48) with 281474976710656 in F by ring.
  destruct (map_for_mesh_double fl tri res vertices N Fr Rp F) as (lx & ly & lz & hx & hy & hz & SX & SY & SZ & E). cbv zeta in E.
  set (m := mkMmap (double_mesh fl tri) (corner_count fl res lx hx) (corner_count fl res ly hy) (corner_count fl res lz hz) res (b64_div (b64_lit 1 0) res)
        (fun p => vsub (double_mesh fl tri) p (b64_sub lx res, b64_sub ly res, b64_sub lz res))
        (fun p => vadd (double_mesh fl tri) p (b64_sub lx res, b64_sub ly res, b64_sub lz res))) in *.
  destruct SX as (Flx & Fhx & Blx & Bhx & (vx & wx & Ivx & Iwx & Evx & Ewx) & LX).
  destruct SY as (Fly & Fhy & Bly & Bhy & (vy & wy & Ivy & Iwy & Evy & Ewy) & LY).
  destruct SZ as (Flz & Fhz & Blz & Bhz & (vz & wz & Ivz & Iwz & Evz & Ewz) & LZ).
  assert (DX := fun v Fv Bv => axis_double fl res lx hx v Hfl Fr Flx Fhx Fv Hr Blx Bhx Bv).
  assert (DY := fun v Fv Bv => axis_double fl res ly hy v Hfl Fr Fly Fhy Fv Hr Bly Bhy Bv).
  assert (DZ := fun v Fv Bv => axis_double fl res lz hz v Hfl Fr Flz Fhz Fv Hr Blz Bhz Bv). cbv zeta in DX, DY, DZ.
  change (- fl (Bopp (b64_div (b64_add (b64_sub hx lx) (b64_mul res (b64_lit 2 0))) res)))%Z with (mm_nx _ m) in DX.
  change (- fl (Bopp (b64_div (b64_add (b64_sub hy ly) (b64_mul res (b64_lit 2 0))) res)))%Z with (mm_ny _ m) in DY.
  change (- fl (Bopp (b64_div (b64_add (b64_sub hz lz) (b64_mul res (b64_lit 2 0))) res)))%Z with (mm_nz _ m) in DZ.
  assert (In_ : forall v, In v vertices ->
       let q := mm_to_grid _ m v in
       finite3 q /\ r / 2 <= B2R (fst (fst q)) <= r * IZR (mm_nx _ m) - r / 2 /\ r / 2 <= B2R (snd (fst q)) <= r * IZR (mm_ny _ m) - r / 2 /\
       r / 2 <= B2R (snd q) <= r * IZR (mm_nz _ m) - r / 2 /\
       in_bounds3 (mm_nx _ m) (mm_ny _ m) (mm_nz _ m) (mm_index M m v) = true).
  { intros v Iv. cbv zeta. destruct (LX v Iv) as (X1 & X2). destruct (LY v Iv) as (Y1 & Y2). destruct (LZ v Iv) as (Z1 & Z2).
    destruct (DX _ X1 X2) as (XF & XB & XI & _). destruct (DY _ Y1 Y2) as (YF & YB & YI & _). destruct (DZ _ Z1 Z2) as (ZF & ZB & ZI & _).
    split; [split; [exact XF|split; [exact YF|exact ZF]]|]. split; [exact XB|]. split; [exact YB|]. split; [exact ZB|].
    apply in_bounds3_iff. split; [exact XI|]. split; [exact YI|exact ZI]. }
  assert (H : forall t, (0 <= t < zlen triangles)%Z -> corners_of M vertices triangles t <> None /\
    (true = true -> forall i, In i (voxels_of M m vertices triangles t) -> inb M m i = true)).
  { intros t Ht. unfold voxels_of.
    destruct (proj2 (zget_some_iff triangles t) Ht) as ([[i j] k] & Et).
    pose proof (zget_In _ _ _ Et) as It. specialize (Hv i j k It).
    destruct (proj2 (zget_some_iff vertices i)) as (a & Ea); [apply Hv; cbn; auto|].
    destruct (proj2 (zget_some_iff vertices j)) as (b & Eb); [apply Hv; cbn; auto|].
    destruct (proj2 (zget_some_iff vertices k)) as (c & Ec); [apply Hv; cbn; auto|].
    pose proof (corners_some M vertices triangles t i j k a b c Et Ea Eb Ec) as Co.
    rewrite Co. split; [discriminate|]. intros _ x Ix. unfold triangle_voxels in Ix.
    apply filter_In in Ix as (Ix & _). apply in_index_box in Ix as (X & Y & Z').
    apply zget_In in Ea, Eb, Ec.
    pose proof (LX a Ea) as Ax. pose proof (LX b Eb) as Bx. pose proof (LX c Ec) as Cx.
    pose proof (LY a Ea) as Ay. pose proof (LY b Eb) as By. pose proof (LY c Ec) as Cy.
    pose proof (LZ a Ea) as Az. pose proof (LZ b Eb) as Bz. pose proof (LZ c Ec) as Cz.
    set (Px := fun x : b64 => is_finite x = true /\ B2R lx <= B2R x <= B2R hx).
    set (Py := fun x : b64 => is_finite x = true /\ B2R ly <= B2R x <= B2R hy).
    set (Pz := fun x : b64 => is_finite x = true /\ B2R lz <= B2R x <= B2R hz).
    destruct (min3_one fl tri Px _ _ _ Ax Bx Cx) as (F1 & G1). destruct (max3_one fl tri Px _ _ _ Ax Bx Cx) as (F2 & G2).
    destruct (min3_one fl tri Py _ _ _ Ay By Cy) as (F3 & G3). destruct (max3_one fl tri Py _ _ _ Ay By Cy) as (F4 & G4).
    destruct (min3_one fl tri Pz _ _ _ Az Bz Cz) as (F5 & G5). destruct (max3_one fl tri Pz _ _ _ Az Bz Cz) as (F6 & G6).
    destruct (DX _ F1 G1) as (_ & _ & I1 & _). destruct (DX _ F2 G2) as (_ & _ & I2 & _).
    destruct (DY _ F3 G3) as (_ & _ & I3 & _). destruct (DY _ F4 G4) as (_ & _ & I4 & _).
    destruct (DZ _ F5 G5) as (_ & _ & I5 & _). destruct (DZ _ F6 G6) as (_ & _ & I6 & _).
    unfold inb. apply in_bounds3_iff. split; [exact (conj (Z.le_trans _ _ _ (proj1 I1) (proj1 X)) (Z.le_lt_trans _ _ _ (proj2 X) (proj2 I2)))|].
    split; [exact (conj (Z.le_trans _ _ _ (proj1 I3) (proj1 Y)) (Z.le_lt_trans _ _ _ (proj2 Y) (proj2 I4)))|].
    exact (conj (Z.le_trans _ _ _ (proj1 I5) (proj1 Z')) (Z.le_lt_trans _ _ _ (proj2 Z') (proj2 I6))). }
  assert (P : (0 < mm_nx _ m)%Z /\ (0 < mm_ny _ m)%Z /\ (0 < mm_nz _ m)%Z).
  { destruct vertices as [|v l]; [congruence|]. destruct (In_ v (or_introl eq_refl)) as (_ & _ & _ & _ & B).
    apply in_bounds3_iff in B. clear - B. lia. }
  assert (W : gwf (gconst (mm_nx _ m) (mm_ny _ m) (mm_nz _ m) zero_bits)) by (apply gconst_wf; apply P).
  set (g0 := gconst (mm_nx _ m) (mm_ny _ m) (mm_nz _ m) zero_bits) in *.
  destruct (mesh_result M m vertices triangles true g0 W H) as (g & R & (_ & _ & O)).
  exists m, g. split.
  { change (map_for_mesh M vertices res = Some m) in E. unfold rasterize_into_map. rewrite E. cbn [obind]. change (gconst _ _ _ zero_bits) with g0. rewrite R. reflexivity. }
  split; [reflexivity|]. split; [exact In_|].
  split. { exists vx, wx. split; [exact Ivx|]. split; [exact Iwx|]. destruct (LX _ Ivx) as (X1 & X2). pose proof (proj2 (proj2 (proj2 (DX _ X1 X2)))) as T. rewrite <- Evx, <- Ewx in T. exact T. }
  split. { exists vy, wy. split; [exact Ivy|]. split; [exact Iwy|]. destruct (LY _ Ivy) as (X1 & X2). pose proof (proj2 (proj2 (proj2 (DY _ X1 X2)))) as T. rewrite <- Evy, <- Ewy in T. exact T. }
  split. { exists vz, wz. split; [exact Ivz|]. split; [exact Iwz|]. destruct (LZ _ Ivz) as (X1 & X2). pose proof (proj2 (proj2 (proj2 (DZ _ X1 X2)))) as T. rewrite <- Evz, <- Ewz in T. exact T. }
  intros sched ps' g' S Cs.
  destruct (parallel_result M m vertices triangles true g0 sched W eq_refl eq_refl eq_refl H S ps' g' Cs) as (Pr & W' & D' & Hd).
  split; [exact Pr|]. intros Dn i. destruct (Hd Dn i) as (Y1 & Y2).
  set (l := flat_map (fun t => filter (inb M m) (voxels_of M m vertices triangles t)) (zrange 0 (zlen triangles))) in *.
  assert (L : In i l <-> exists t, (0 <= t < zlen triangles)%Z /\ In i (voxels_of M m vertices triangles t)).
  { unfold l. rewrite in_flat_map. split.
    - intros (t & It & I). apply in_zrange in It. apply filter_In in I as (I & _). exists t. now split.
    - intros (t & Ht & I). exists t. split; [now apply in_zrange|]. apply filter_In. split; [exact I|]. exact (proj2 (H t Ht) eq_refl i I). }
  destruct (O i) as (Z1 & Z2). destruct (in_dec idx_eq_dec i l) as [I|I].
  - pose proof (proj1 L I) as X. assert (B : in_bounds g0 i = true) by (destruct X as (t & Ht & J); exact (proj2 (H t Ht) eq_refl i J)).
    now rewrite (Y1 X B), (Z1 I B).
  - rewrite (Z2 I). apply Y2. intros X. apply I. now apply L.
Qed.
Print Assumptions c95_contains.

(** A triangle with corners (0, 0, 0), (2, 0, 1/2) and (-1, 3, 0) and voxels of size 1: its
    corners are in the map, which has at most 7 voxels on the x-axis. *)
Definition small_triangle : list (b64 * b64 * b64) :=
  [(half64 0, half64 0, half64 0); (half64 4, half64 0, half64 1); (half64 (-2), half64 6, half64 0)].

Example c95_case tri : let M := double_mesh floor64 tri in
  exists (m : mmap M) g, rasterize_into_map M small_triangle [(0, 1, 2)%Z] (half64 2) = Some (m, g) /\ (mm_nx _ m <= 7)%Z /\
    forall v, In v small_triangle -> in_bounds3 (mm_nx _ m) (mm_ny _ m) (mm_nz _ m) (mm_index M m v) = true.
Proof.
  intros M. destruct (half64_val 2 ltac:(lia)) as (F2 & E2). assert (Hr : B2R (half64 2) = 1) by (rewrite E2; lra).
  assert (Q : forall k, (Z.abs k <= 6)%Z -> is_finite (half64 k) = true /\ Rabs (B2R (half64 k)) <= 2 ^ 48 * B2R (half64 2)).
  { intros k Hk. destruct (half64_val k ltac:(lia)) as (Fk & ->). split; [exact Fk|]. rewrite Hr.
    assert (-6 <= IZR k <= 6) by (split; apply IZR_le; lia). apply Rabs_le. lra. }
  destruct (c95_contains floor64 tri small_triangle [(0, 1, 2)%Z] (half64 2)) as (m & g & E & _ & V & (a & b & Ia & Ib & Hx) & _).
  - intros x _ _. reflexivity.
  - exact F2.
  - rewrite Hr. change 1 with (bpow radix2 0). split; apply bpow_le; lia.
  - discriminate.
  - intros v [ <- |[ <- |[ <- |[]]]]; cbn [fst snd]; (split; [split; [|split]; apply Q; lia|split; [|split]; apply Q; lia]).
  - intros i j k [H|[]] n Hn. injection H as <- <- <-. cbn in Hn |- *. lia.
  - exists m, g. split; [exact E|]. split; [|intros v I; apply (V v I)].
    apply le_IZR. rewrite Hr in Hx.
    assert (P : forall v, In v small_triangle -> -1 <= B2R (fst (fst v)) <= 2).
    { destruct (half64_val 0 ltac:(lia)) as (_ & E0). destruct (half64_val 4 ltac:(lia)) as (_ & E4). destruct (half64_val (-2) ltac:(lia)) as (_ & Em).
      intros v [ <- |[ <- |[ <- |[]]]]; cbn [fst snd]; rewrite ?E0, ?E4, ?Em; lra. }
    rewrite Rmult_1_l in Hx. eapply Rle_trans; [exact Hx|]. pose proof (P a Ia) as Pa. pose proof (P b Ib) as Pb.
    clear - Pa Pb. set (x := B2R (fst (fst a))) in *. set (y := B2R (fst (fst b))) in *. change (y - x + 4 * 1 <= 7). lra.
Qed.
