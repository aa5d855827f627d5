(** Properties of casting point clouds (C39 to C43). *)
From Coq Require Import ZArith Reals List Bool Lia Lra ZifyBool Permutation.
From Flocq Require Import Core.
From Verif Require Import Util Grid ComponentSpec Schedule RaycastModel RaycastSpec RaycastProofs
  RealRayModel RayGeoSpec RayGeoProofs.
Import ListNotations.
Local Open Scope Z_scope.

(** ** C39 *)

(** For every arithmetic: the increments of one ray exist (the loop ends), concern
    different cells of the grid, and are the last voxel followed by a face-connected
    chain that starts at the first voxel and stays in the box of the two. *)
Theorem c39_ray_walk (A : ray_arith) (g : ray_grid A) (m : rT A) (o : vec A) (oi : idx) (p : vec A) :
  exists bs, cast_point A g m o oi p = Some bs /\
    NoDup (map fst bs) /\ (forall b, In b bs -> in_grid A g (fst b) = true) /\
    ((in_grid A g oi = false /\ bs = []) \/
     exists first path, (in_grid A g oi = true -> first = voxel_of A g o) /\
       let last := voxel_of A g (final_point A m o p) in
       bs = (if in_grid A g last then [(last, negb (r_ltb A m (length_of A (ray_of A o p))))] else [])
            ++ map (fun i => (i, false)) path /\
       starts_at first path /\ face_chain path /\
       (first <> last -> in_grid A g first = true -> path <> []) /\
       forall i, In i path -> in_index_box first last i /\ i <> last).
Proof.
  destruct (cast_point_some A g m o oi p) as (bs & E & Hnd & Hin).
  exists bs. split; [easy|]. split; [easy|]. split; [easy|].
  destruct (cast_point_props A g m o oi p) as [(Es & E')|(ps & path & bs' & Es & E' & H)].
  - left. split; [|congruence]. unfold start_point in Es. now destruct (in_grid A g oi).
  - right. assert (bs' = bs) as -> by congruence.
    destruct H as (Hb & Hs & Hc & Hp & _).
    exists (voxel_of A g ps), path. split.
    { intros Hg. unfold start_point in Es. rewrite Hg in Es. congruence. }
    split; [exact Hb|]. split; [easy|]. split; [easy|]. split; [|intros i Hi; now apply Hp].
    intros Hne Hg ->. unfold cast_point in E'. rewrite Es in E'. cbn [walk_fuel walk] in E'.
    rewrite (proj2 (idx_eqb_neq _ _) Hne), Hg in E'.
    match type of E' with context [obind (if ?c1 then ?a else if ?c2 then ?b else ?d)] =>
      destruct (if c1 then a else if c2 then b else d) as [rest|] end; [|discriminate E'].
    cbn [obind] in E'. assert (E2 := eq_trans E' (f_equal Some Hb)).
    injection E2 as E2. apply (f_equal (@length _)) in E2. rewrite !app_length in E2.
    cbn [map length] in E2. destruct (in_grid A g (voxel_of A g (final_point A m o p))); cbn [length] in E2; lia.
Qed.
Print Assumptions c39_ray_walk.

(** ** C42 *)

(** Casting a cloud ends under every assignment of points to threads and every
    interleaving, and every execution leaves the same counters: the previous ones
    plus the number of points that mark the cell (in 32 bit arithmetic). *)
Theorem c42_schedule_independence (A : ray_arith) (g : ray_grid A) (c : cloud A) (t : tgrid) :
  tracking_for g t ->
  (forall sched, schedules sched (zlen (c_points A c)) ->
     exists ws, cloud_threads A g c sched = Some ws /\
       forall s, tsteps (ws, t) s -> exists ws' t', tsteps s (ws', t') /\ all_done ws') /\
  (forall t1 t2, raycast_cloud A g c t t1 -> raycast_cloud A g c t t2 -> t1 = t2) /\
  (forall t' i f s, raycast_cloud A g c t t' -> gget t i = Some (f, s) ->
     gget t' i = Some (wrap32 (f + points_counting A g c (i, false)),
                       wrap32 (s + points_counting A g c (i, true)))).
Proof.
  intros Ht. split; [|split].
  - intros sched Hs. now apply raycast_cloud_finishes.
  - intros t1 t2. now apply raycast_cloud_unique.
  - intros t' i f s Hr. now apply (raycast_cloud_result A g c t t' Ht Hr).
Qed.
Print Assumptions c42_schedule_independence.

Example c42_case :
  tracking_for (exact_grid 1 2 3 4) (gconst 2 3 4 (0, 0)) /\
  schedules [[2; 0]; []; [1]] 3.
Proof.
  split.
  - split; [now apply gconst_wf|]. split; [easy|]. split; [easy|]. split; [easy|].
    intros i f s H. pose proof (gget_in_bounds _ _ _ H) as Hi. rewrite gget_gconst in H.
    destruct (in_bounds3 2 3 4 i); [|easy]. injection H as <- <-. now split.
  - apply (Permutation_trans (perm_swap 0 2 [1])). constructor. apply perm_swap.
Qed.

(** ** C43 *)

(** [l'] is [l] without some of its non-finite points. *)
Inductive without_non_finite (A : ray_arith) : list (vec A) -> list (vec A) -> Prop :=
| wnf_nil : without_non_finite A [] []
| wnf_keep p l l' : without_non_finite A l l' -> without_non_finite A (p :: l) (p :: l')
| wnf_drop p l l' :
    (r_finite A (vx A p) = false \/ r_finite A (vy A p) = false \/ r_finite A (vz A p) = false) ->
    without_non_finite A l l' -> without_non_finite A (p :: l) l'.

Lemma without_non_finite_filter A (f : vec A -> bool) l l' :
  without_non_finite A l l' -> (forall p, vfinite A p = false -> f p = false) ->
  filter f l = filter f l'.
Proof.
  intros Hl Hf. induction Hl as [|p l l' _ IH|p l l' Hp _ IH]; cbn [filter]; [easy| |].
  - now rewrite IH.
  - rewrite Hf; [exact IH|].
    unfold vfinite. destruct Hp as [->|[->| ->]]; rewrite ?andb_false_r; reflexivity.
Qed.

Theorem c43_non_finite_ignored (A : ray_arith) (g : ray_grid A) (c : cloud A) l' t t1 t2 :
  tracking_for g t -> without_non_finite A (c_points A c) l' ->
  raycast_cloud A g c t t1 ->
  raycast_cloud A g (mkCloud A l' (c_to_grid A c) (c_max_range A c)) t t2 -> t1 = t2.
Proof.
  intros Ht Hl H1 H2. set (c' := mkCloud A l' (c_to_grid A c) (c_max_range A c)) in *.
  assert (Hc : forall b, points_counting A g c b = points_counting A g c' b).
  { intros b. rewrite !points_counting_list.
    change (c_points A c') with l'. change (c_max_range A c') with (c_max_range A c).
    change (c_origin A c') with (c_origin A c). change (c_to_grid A c') with (c_to_grid A c).
    apply f_equal, without_non_finite_filter; [easy|]. intros p ->. reflexivity. }
  destruct (raycast_cloud_result A g c t t1 Ht H1) as ((W1 & X1 & Y1 & Z1 & _) & V1).
  destruct (raycast_cloud_result A g c' t t2 Ht H2) as ((W2 & X2 & Y2 & Z2 & _) & V2).
  apply grid_ext; [easy|easy|split; [congruence|split; congruence]|].
  intros i Hi. destruct Ht as (W & X & Y & Zz & _).
  destruct (gget_some t i W) as ([f s] & Ei).
  { rewrite <- Hi. apply in_bounds_dims. split; [congruence|split; congruence]. }
  now rewrite (V1 i f s Ei), (V2 i f s Ei), !Hc.
Qed.
Print Assumptions c43_non_finite_ignored.

(** The entry point for a single point rejects non-finite input. *)
Theorem c43_single_point_rejected (A : ray_arith) (g : ray_grid A) (m : rT A) (o p : vec A) :
  raycast_single_point A g m o p = None <->
  (r_finite A (vx A o) = false \/ r_finite A (vy A o) = false \/ r_finite A (vz A o) = false \/
   r_finite A (vx A p) = false \/ r_finite A (vy A p) = false \/ r_finite A (vz A p) = false).
Proof.
  unfold raycast_single_point, vfinite.
  destruct (cast_point_some A g m o (voxel_of A g o) p) as (bs & -> & _).
  destruct (r_finite A (vx A o)), (r_finite A (vy A o)), (r_finite A (vz A o)),
    (r_finite A (vx A p)), (r_finite A (vy A p)), (r_finite A (vz A p));
    cbn; split; intros H; try easy; try (repeat destruct H as [H|H]; easy); tauto.
Qed.
Print Assumptions c43_single_point_rejected.

Example c43_case :
  without_non_finite exact_ray [(Fin 1, NaN, Fin 2); (Fin 1, Fin 1, Fin 1); (PInf, NaN, Fin 2)]
    [(Fin 1, Fin 1, Fin 1)].
Proof.
  apply wnf_drop; [right; now left|]. apply wnf_keep. apply wnf_drop; [now left|]. constructor.
Qed.

(** ** C40 *)
Local Open Scope R_scope.

(** Full statement (false, see below): for every origin, point and range, every
    voxel marked free is touched by the segment. *)
Definition c40_full : Prop :=
  forall v nx ny nz o p e m bs i, 0 < v -> range_ok m -> cut_at m o p e ->
    cast_point exact_ray (exact_grid v nx ny nz) m (vec_of o)
      (voxel_of exact_ray (exact_grid v nx ny nz) (vec_of o)) (vec_of p) = Some bs ->
    In (i, false) bs -> exists t, 0 <= t <= 1 /\ touches_voxel v i (along o e t).

(** Proved part: the segment starts in the grid, or is in the (closed) box of the
    grid at a point at least 1e-10 before its end. Missing: segments that end before
    they reach the grid, for which it is false. *)
Theorem c40_marked_on_ray_partial v nx ny nz o p e m bs i :
  0 < v -> range_ok m -> cut_at m o p e ->
  (in_grid_box v nx ny nz o \/
   exists t, 0 <= t <= 1 /\ in_closed_grid_box v nx ny nz (along o e t) /\
     / 10000000000 <= dist (along o e t) e) ->
  cast_point exact_ray (exact_grid v nx ny nz) m (vec_of o)
    (voxel_of exact_ray (exact_grid v nx ny nz) (vec_of o)) (vec_of p) = Some bs ->
  (In (i, false) bs -> exists t, 0 <= t <= 1 /\ touches_voxel v i (along o e t)) /\
  (In (i, true) bs -> within_range m (dist o p) /\ belongs_to_voxel v i e).
Proof. intros Hv Hm Hc Hs E. exact (cast_sound v nx ny nz o p e m Hv Hm Hc bs i Hs E). Qed.
Print Assumptions c40_marked_on_ray_partial.

(** A sensor in front of the grid whose ray ends half a voxel later, still one and
    a half voxels before the grid, marks the first voxel of the grid as free. *)
Theorem c40_free_before_grid_refuted :
  exists v nx ny nz o p m bs i, 0 < v /\ range_ok m /\ cut_at m o p p /\
    cast_point exact_ray (exact_grid v nx ny nz) m (vec_of o)
      (voxel_of exact_ray (exact_grid v nx ny nz) (vec_of o)) (vec_of p) = Some bs /\
    In (i, false) bs /\ forall t, 0 <= t <= 1 -> ~ touches_voxel v i (along o p t).
Proof.
  exists 1, 1%Z, 1%Z, 1%Z, (-2, /2, /2), (-3/2, /2, /2), PInf, [((0, 0, 0)%Z, false)], (0, 0, 0)%Z.
  assert (Hd : dist (-2, /2, /2) (-3/2, /2, /2) = /2).
  { unfold dist. cbn [px py pz fst snd].
    replace (_ + _ + _) with (/2 * /2) by lra. apply sqrt_square. lra. }
  split; [lra|]. split; [easy|]. split.
  { exists 1. split; [lra|]. split; [|easy].
    unfold along. cbn [px py pz fst snd]. f_equal; [f_equal|]; lra. }
  split; [|split; [now left|]].
  2:{ intros t Ht ((H & _) & _). unfold along in H. cbn [px py pz ix fst snd] in H. lra. }
  set (g := exact_grid 1 1 1 1).
  assert (Hf : forall x k, IZR k <= x < IZR k + 1 -> Zfloor (x * / 1) = k).
  { intros x k Hk. rewrite Rinv_1, Rmult_1_r. apply Zfloor_imp. now rewrite plus_IZR. }
  assert (Ho : voxel_of exact_ray g (vec_of (-2, /2, /2)) = (-2, 0, 0)%Z).
  { unfold voxel_of, vx, vy, vz. cbn. rewrite (Hf (-2) (-2)%Z), (Hf (/2) 0%Z) by lra. reflexivity. }
  assert (Hp : voxel_of exact_ray g (vec_of (-3/2, /2, /2)) = (-2, 0, 0)%Z).
  { unfold voxel_of, vx, vy, vz. cbn. rewrite (Hf (-3/2) (-2)%Z), (Hf (/2) 0%Z) by lra. reflexivity. }
  set (q := (/ 10000000000, /2, /2) : pt).
  assert (Hq : voxel_of exact_ray g (vec_of q) = (0, 0, 0)%Z).
  { unfold voxel_of, vx, vy, vz. cbn. rewrite (Hf (/ 10000000000) 0%Z), (Hf (/2) 0%Z) by lra. reflexivity. }
  set (o := (-2, /2, /2) : pt) in *. set (p := (-3/2, /2, /2) : pt) in *.
  assert (Hst : start_point exact_ray g PInf (vec_of o) (-2, 0, 0)%Z (vec_of (psub p o)) = Some (vec_of q)).
  { unfold start_point. change (in_grid exact_ray g (-2, 0, 0)%Z) with false. cbv iota.
    rewrite length_of_exact, Hd.
    assert (Ev : vmap exact_ray (fun x => r_div exact_ray x (Fin (/2))) (vec_of (psub p o)) =
                 vec_of (1, 0, 0)).
    { unfold vmap, vx, vy, vz. cbn. destruct (Req_EM_T (/2) 0); [lra|].
      unfold vec_of. cbn. f_equal; [f_equal|]; f_equal; lra. }
    rewrite Ev.
    assert (S1 : slab_axis exact_ray (Fin 0, PInf) (Fin 1, Fin (-2), Fin (1 * 1)) = Some (Fin 2, PInf)).
    { unfold slab_axis. cbn. rewrite Rabs_R1. destruct (Rlt_dec 1 (/ 10000000000)); [lra|].
      destruct (Req_EM_T 1 0); [lra|]. cbn.
      destruct (Rle_dec ((0 + - -2) * (1 / 1)) ((1 * 1 + - -2) * (1 / 1))); [|lra].
      destruct (Rlt_dec 0 ((0 + - -2) * (1 / 1))); [|lra]. repeat f_equal. lra. }
    assert (S2 : slab_axis exact_ray (Fin 2, PInf) (Fin 0, Fin (/2), Fin (1 * 1)) = Some (Fin 2, PInf)).
    { unfold slab_axis. cbn. rewrite Rabs_R0. destruct (Rlt_dec 0 (/ 10000000000)); [|lra].
      destruct (Rle_dec 0 (/ 2)); [|lra]. destruct (Rlt_dec (/2) (1 * 1)); [|lra]. reflexivity. }
    cbn [ofold]. change (slab_axis exact_ray (r_zero exact_ray, PInf) _) with
      (slab_axis exact_ray (Fin 0, PInf) (Fin 1, Fin (-2), Fin (1 * 1))).
    rewrite S1. cbn [obind].
    change (slab_axis exact_ray (Fin 2, PInf) _) with
      (slab_axis exact_ray (Fin 2, PInf) (Fin 0, Fin (/2), Fin (1 * 1))).
    rewrite S2. cbn [obind].
    change (slab_axis exact_ray (Fin 2, PInf) _) with
      (slab_axis exact_ray (Fin 2, PInf) (Fin 0, Fin (/2), Fin (1 * 1))).
    rewrite S2. cbn [obind fst]. f_equal. unfold vmap2, vmap, vx, vy, vz, vec_of, q. cbn.
    f_equal; [f_equal|]; f_equal; lra. }
  unfold cast_point. rewrite ray_of_exact, Ho, Hst.
  assert (Hfin : final_point exact_ray PInf (vec_of o) (vec_of p) = vec_of p) by reflexivity.
  rewrite Hfin, Hp, Hq. change (in_grid exact_ray g (-2, 0, 0)%Z) with false. cbv iota.
  assert (Ty : first_t exact_ray g (vy exact_ray (vec_of q)) (vy exact_ray (vec_of (psub p o))) 0 = PInf).
  { unfold first_t, axis_t. cbn. destruct (Rlt_dec 0 (/ 2 - / 2)); [lra|].
    destruct (Rlt_dec (/ 2 - / 2) 0); [lra|]. reflexivity. }
  assert (Tx : exists x, first_t exact_ray g (vx exact_ray (vec_of q)) (vx exact_ray (vec_of (psub p o))) 0 = Fin x).
  { unfold first_t, axis_t. cbn. destruct (Rlt_dec 0 (-3/2 - -2)); [|lra]. cbn.
    destruct (Req_EM_T (-3/2 - -2) 0); [lra|]. cbn. eauto. }
  destruct Tx as (x & Tx). cbn [ix iy iz fst snd]. rewrite Tx.
  change (vz exact_ray (vec_of q)) with (vy exact_ray (vec_of q)).
  change (vz exact_ray (vec_of (psub p o))) with (vy exact_ray (vec_of (psub p o))).
  rewrite Ty. reflexivity.
Qed.
Print Assumptions c40_free_before_grid_refuted.

(** ** C41 *)

(** A ray that starts in the grid marks every voxel of the grid whose interior it
    crosses: free along the way; the voxel of the end point is counted filled if
    the point is within range and free if the ray was cut. *)
Theorem c41_crossed_voxels_marked v nx ny nz o p e m bs t i b :
  0 < v -> range_ok m -> cut_at m o p e -> in_grid_box v nx ny nz o ->
  cast_point exact_ray (exact_grid v nx ny nz) m (vec_of o)
    (voxel_of exact_ray (exact_grid v nx ny nz) (vec_of o)) (vec_of p) = Some bs ->
  0 <= t <= 1 -> in_bounds3 nx ny nz i = true ->
  (inside_voxel v i (along o e t) -> ~ belongs_to_voxel v i e -> In (i, false) bs) /\
  (belongs_to_voxel v i e -> (b = true <-> within_range m (dist o p)) -> In (i, b) bs).
Proof.
  intros Hv Hm Hc Hb E Ht Hi. exact (cast_complete v nx ny nz o p e m Hv Hm Hc bs t i b Hb E Ht Hi).
Qed.
Print Assumptions c41_crossed_voxels_marked.

(** A ray across two voxels: both are marked. *)
Example c40_c41_case :
  exists bs,
    cast_point exact_ray (exact_grid 1 2 1 1) PInf (vec_of (/2, /2, /2))
      (voxel_of exact_ray (exact_grid 1 2 1 1) (vec_of (/2, /2, /2))) (vec_of (3/2, /2, /2)) = Some bs /\
    In ((0, 0, 0)%Z, false) bs /\ In ((1, 0, 0)%Z, true) bs.
Proof.
  destruct (cast_point_some exact_ray (exact_grid 1 2 1 1) PInf (vec_of (/2, /2, /2))
    (voxel_of exact_ray (exact_grid 1 2 1 1) (vec_of (/2, /2, /2))) (vec_of (3/2, /2, /2))) as (bs & E & _).
  exists bs. split; [exact E|].
  assert (Hc : cut_at PInf (/2, /2, /2) (3/2, /2, /2) (3/2, /2, /2)).
  { exists 1. split; [lra|]. split; [|easy]. unfold along. cbn [px py pz fst snd].
    f_equal; [f_equal|]; lra. }
  assert (Hb : in_grid_box 1 2 1 1 (/2, /2, /2)).
  { unfold in_grid_box. cbn [px py pz fst snd]. lra. }
  split.
  - apply (c41_crossed_voxels_marked 1 2 1 1 (/2, /2, /2) (3/2, /2, /2) (3/2, /2, /2) PInf bs
      (/4) (0, 0, 0)%Z true); try easy; try lra.
    + unfold inside_voxel, along. cbn [px py pz ix iy iz fst snd]. lra.
    + intros ((_ & H) & _). cbn [px ix fst snd] in H. lra.
  - apply (c41_crossed_voxels_marked 1 2 1 1 (/2, /2, /2) (3/2, /2, /2) (3/2, /2, /2) PInf bs
      1 (1, 0, 0)%Z true); try easy; try lra.
    unfold belongs_to_voxel. cbn [px py pz ix iy iz fst snd]. lra.
Qed.
