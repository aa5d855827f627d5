(** Property theorems C26 to C32 and C58: connected components and spatial segments. *)
From Coq Require Import ZArith List Lia Bool.
From Flocq Require Import Core BinarySingleNaN.
From Verif Require Import Util Grid Occ OccProofs FloatModel TopologyModel ComponentSpec TopologyProofs
  LabelProofs ComponentMapModel ComponentMapSpec ComponentMapProofs TaggedMapProofs.
Import ListNotations.
Local Open Scope Z_scope.

(** C26.  Fewer than 2^32 cells: the component number is a uint32_t. *)
Theorem c26_components_are_classes m :
  gwf (cm_grid m) -> occs_ok c_occ (cm_grid m) -> g_total (cm_grid m) < 2 ^ 32 -> cm_valid m = false ->
  exists m' n, cm_update m = Some (m', n) /\ same_cells c_occ (cm_grid m') (cm_grid m) /\
    forall i j, in_grid (cm_grid m) i -> in_grid (cm_grid m) j ->
      (label c_comp (cm_grid m') i = label c_comp (cm_grid m') j <->
       joined (in_grid (cm_grid m)) (same_side c_occ (cm_grid m)) i j).
Proof.
  intros W O T V. destruct (cm_update_labels m W O T V) as (m' & n & E & _ & S & _ & (_ & _ & L & _)).
  exists m', n. auto.
Qed.
Print Assumptions c26_components_are_classes.

(** C27. *)
Theorem c27_numbers_without_gaps m :
  gwf (cm_grid m) -> occs_ok c_occ (cm_grid m) -> g_total (cm_grid m) < 2 ^ 32 -> cm_valid m = false ->
  exists m' n, cm_update m = Some (m', n) /\ cm_num_components m' = Some n /\
    (forall i, in_grid (cm_grid m) i -> 1 <= label c_comp (cm_grid m') i <= n) /\
    (forall k, 1 <= k <= n -> exists i, in_grid (cm_grid m) i /\ label c_comp (cm_grid m') i = k) /\
    (forall i k, in_grid (cm_grid m) i -> 1 <= k < label c_comp (cm_grid m') i ->
       exists j, in_grid (cm_grid m) j /\ label c_comp (cm_grid m') j = k /\ scanned_before j i).
Proof.
  intros W O T V. destruct (cm_update_labels m W O T V) as (m' & n & E & _ & _ & N & (L1 & L2 & _ & L4)).
  exists m', n. auto 6.
Qed.
Print Assumptions c27_numbers_without_gaps.

Definition ex_filled (o : Z) : ccell := mkCcell one_bits o.
Definition ex_empty (o : Z) : ccell := mkCcell zero_bits o.
(* 3 x 2 x 1: filled, empty / filled, empty / empty, unknown *)
Definition ex_map : cmap :=
  mkCmap (mkGrid 3 2 1 [ex_filled 7; ex_empty 0; ex_filled 9; ex_empty 3; ex_empty 1; mkCcell half_bits 2]) 5 false.
Lemma ex_map_hypotheses :
  gwf (cm_grid ex_map) /\ occs_ok c_occ (cm_grid ex_map) /\ g_total (cm_grid ex_map) < 2 ^ 32 /\
  cm_valid ex_map = false.
Proof.
  split; [repeat split; vm_compute; easy|]. split; [|split; reflexivity].
  intros i c. unfold gget. destruct (in_bounds (cm_grid ex_map) i); [|discriminate].
  unfold zget. destruct (_ <? 0); [discriminate|]. intros E. apply nth_error_In in E.
  cbn [ex_map cm_grid g_cells] in E.
  repeat (destruct E as [<-|E]; [vm_compute; easy|]). destruct E.
Qed.
Example c26_c27_example :
  gwf (cm_grid ex_map) /\ occs_ok c_occ (cm_grid ex_map) /\ g_total (cm_grid ex_map) < 2 ^ 32 /\
  cm_valid ex_map = false /\
  exists m', cm_update ex_map = Some (m', 4) /\ map c_comp (g_cells (cm_grid m')) = [1; 2; 1; 2; 3; 4].
Proof.
  destruct ex_map_hypotheses as (H1 & H2 & H3 & H4). do 4 (split; [assumption|]).
  eexists. split; vm_compute; reflexivity.
Qed.

(** C28: for grids of any size the call returns, whatever the occupancies. *)
Theorem c28_labelling_total m :
  gwf (cm_grid m) ->
  exists m' n, cm_update m = Some (m', n) /\ same_cells c_occ (cm_grid m') (cm_grid m) /\
    cm_num_components m' = Some n.
Proof.
  intros W. destruct (cm_update_total m W) as (m' & n & E & _ & S & N). exists m', n. auto.
Qed.
Print Assumptions c28_labelling_total.

(** C28, one sweep: the cells marked, and counted, are exactly the unlabelled cells
    joined to the start, each of them once. *)
Theorem c28_each_cell_once m start z :
  gwf (cm_grid m) -> (forall i c, gget (cm_grid m) i = Some c -> ccell_ok c) -> cm_valid m = false ->
  1 <= z < 2 ^ 32 -> in_grid (cm_grid m) start -> label c_comp (cm_grid m) start = 0 ->
  exists m' L, mark_connected_component cm_connected cm_component cm_mark (g_total (cm_grid m)) m start z
                 = Some (m', zlen L) /\
    NoDup L /\
    (forall i, In i L <-> joined (fun i => in_grid (cm_grid m) i /\ label c_comp (cm_grid m) i = 0)
                            (same_side c_occ (cm_grid m)) start i) /\
    same_cells c_occ (cm_grid m') (cm_grid m) /\
    (forall i, In i L -> label c_comp (cm_grid m') i = z) /\
    (forall i, ~ In i L -> label c_comp (cm_grid m') i = label c_comp (cm_grid m) i).
Proof. exact (cm_mark_component_ok m start z). Qed.
Print Assumptions c28_each_cell_once.

Definition ex_partial : cmap :=
  mkCmap (mkGrid 3 1 1 [ex_filled 0; ex_filled 0; ex_filled 4]) 0 false.
Example c28_example :
  gwf (cm_grid ex_partial) /\ in_grid (cm_grid ex_partial) (1, 0, 0) /\
  label c_comp (cm_grid ex_partial) (1, 0, 0) = 0 /\
  exists m', mark_connected_component cm_connected cm_component cm_mark 3 ex_partial (1, 0, 0) 6 = Some (m', 2) /\
    map c_comp (g_cells (cm_grid m')) = [6; 6; 4].
Proof.
  split; [repeat split; vm_compute; easy|]. split; [reflexivity|]. split; [reflexivity|].
  eexists. split; vm_compute; reflexivity.
Qed.

(** C29: careful histories, that is, no mutable reference is kept across an update
    (see C58). *)
Theorem c29_valid_components_are_right nx ny nz d ops :
  0 < nx -> 0 < ny -> 0 < nz -> nx * ny * nz < 2 ^ 32 -> is_occ (c_occ d) ->
  all_along cstep c_careful (cm_construct nx ny nz d, []) ops ->
  exists m refs, crun (cm_construct nx ny nz d, []) ops = Some (m, refs) /\
    (cm_valid m = true -> exists n, cm_num_components m = Some n /\
       is_labelling (in_grid (cm_grid m)) (same_side c_occ (cm_grid m)) (label c_comp (cm_grid m)) n) /\
    (cm_valid m = false -> cm_num_components m = None).
Proof. exact (component_history nx ny nz d ops). Qed.
Print Assumptions c29_valid_components_are_right.

Definition ex_cops : list cop :=
  [CSet (0, 0, 0) (ex_filled 5); CUpdate; CRead (0, 0, 0); CAcquire (1, 0, 0); CRefSet 0 (ex_filled 0);
   CDropRefs; CRawSet 2 (ex_filled 0); CUpdate].
Example c29_hypotheses :
  all_along cstep c_careful (cm_construct 3 1 1 (ex_empty 0), []) ex_cops /\
  option_map (fun s => (cm_valid (fst s), cm_n (fst s))) (crun (cm_construct 3 1 1 (ex_empty 0), []) ex_cops)
  = Some (true, 1).
Proof.
  split; [|vm_compute; reflexivity].
  unfold ex_cops.
  repeat (split; [split; [vm_compute; try exact I; split; easy|cbn; try reflexivity; exact I]|
                  let s := fresh in let H := fresh in intros s H; vm_compute in H; injection H as <-]).
  exact I.
Qed.

(** C58 fails: a reference obtained before the update still writes, and the map
    goes on reporting its components as valid. *)
Theorem c58_kept_reference_refuted :
  exists nx ny nz d ops m refs n,
    0 < nx /\ 0 < ny /\ 0 < nz /\ is_occ (c_occ d) /\ Forall c_writes_ok ops /\
    crun (cm_construct nx ny nz d, []) ops = Some (m, refs) /\
    cm_valid m = true /\ cm_num_components m = Some n /\
    ~ is_labelling (in_grid (cm_grid m)) (same_side c_occ (cm_grid m)) (label c_comp (cm_grid m)) n.
Proof.
  exists 2, 1, 1, (ex_empty 0), [CAcquire (0, 0, 0); CUpdate; CRefSet 0 (ex_filled 1)].
  exists (mkCmap (mkGrid 2 1 1 [ex_filled 1; ex_empty 1]) 1 true), [(0, 0, 0)], 1.
  do 3 (split; [lia|]). split; [vm_compute; easy|].
  split; [repeat constructor; vm_compute; easy|].
  split; [vm_compute; reflexivity|]. split; [reflexivity|]. split; [reflexivity|].
  intros (_ & _ & L & _). specialize (L (0, 0, 0) (1, 0, 0) eq_refl eq_refl).
  assert (J : joined (in_grid (mkGrid 2 1 1 [ex_filled 1; ex_empty 1]))
                (same_side c_occ (mkGrid 2 1 1 [ex_filled 1; ex_empty 1])) (0, 0, 0) (1, 0, 0))
    by (apply L; reflexivity).
  clear L. assert (G : (1, 0, 0) = (0, 0, 0) :> idx); [|discriminate].
  revert J. generalize (1, 0, 0) as j. intros j J.
  remember (0, 0, 0) as i eqn:Hi. revert Hi.
  induction J as [i _|i j k J IH F (a & b & r & Ea & Eb & Ra & Rb) Xk]; intros Hi; [reflexivity|].
  specialize (IH Hi). subst j i. injection Ea as <-.
  destruct k as [[x y] z]. unfold in_grid in Xk. rewrite in_bounds_iff in Xk. cbn in Xk.
  assert (x = 1 /\ y = 0 /\ z = 0) as (-> & -> & ->)
    by (unfold share_face, ix, iy, iz in F; cbn in F; lia).
  injection Eb as <-. vm_compute in Ra, Rb. congruence.
Qed.
Print Assumptions c58_kept_reference_refuted.

(** C30, positive part: on a map whose components are not valid, the labels are the
    classes asked for. *)
Theorem c30_tagged_components_partial across m :
  gwf (tm_grid m) -> occs_ok t_occ (tm_grid m) -> g_total (tm_grid m) < 2 ^ 32 -> tm_valid m = false ->
  exists m' n, tm_update across m = Some (m', n) /\
    same_cells (fun c => (t_occ c, t_obj c, t_seg c)) (tm_grid m') (tm_grid m) /\
    tm_num_components m' = Some n /\
    is_labelling (in_grid (tm_grid m)) (tm_classes across (tm_grid m)) (label t_comp (tm_grid m')) n.
Proof.
  intros W O T V. destruct (tm_update_labels across m W O T V) as (m' & n & E & _ & S & N & _ & L).
  exists m', n. auto.
Qed.
Print Assumptions c30_tagged_components_partial.

(** C30, histories: whenever the components are reported valid they are the classes
    for the flag of some earlier UpdateConnectedComponents call, and so the ones asked
    for if the history uses one flag only. *)
Theorem c30_valid_for_some_flag_partial nx ny nz d ops :
  0 < nx -> 0 < ny -> 0 < nz -> nx * ny * nz < 2 ^ 32 -> is_occ (t_occ d) ->
  all_along tstep t_careful (tm_construct nx ny nz d, []) ops ->
  exists m refs, trun (tm_construct nx ny nz d, []) ops = Some (m, refs) /\
    (tm_valid m = true -> exists across n, In (TUpdate across) ops /\ tm_num_components m = Some n /\
       right_components across m n).
Proof.
  intros Hx Hy Hz T O A. destruct (tagged_history nx ny nz d ops Hx Hy Hz T O A) as (m & refs & E & I).
  exists m, refs. split; [exact E|]. intros V. destruct I as (_ & _ & _ & V1 & _).
  destruct (V1 V) as (_ & a & Ha & L). exists a, (tm_n m). unfold tm_num_components. rewrite V. auto.
Qed.
Print Assumptions c30_valid_for_some_flag_partial.

Definition ex_tagged (object : Z) : tccell := mkTccell one_bits object 0 0.
Definition ex_tops : list top := [TSet (1, 0, 0) (ex_tagged 2); TUpdate true].

Lemma joined_keeps {B} (f : idx -> B) X (conn : idx -> idx -> Prop) i j :
  (forall a b, conn a b -> f a = f b) -> joined X conn i j -> f i = f j.
Proof. intros H. induction 1 as [|i j k J IH F Cn Xk]; [reflexivity|]. rewrite IH. now apply H. Qed.

(** C30 fails for histories: the second call returns the cached result of the first. *)
Theorem c30_cached_flag_refuted :
  exists nx ny nz d ops across m refs n,
    0 < nx /\ 0 < ny /\ 0 < nz /\ is_occ (t_occ d) /\
    all_along tstep t_careful (tm_construct nx ny nz d, []) (ops ++ [TUpdate across]) /\
    trun (tm_construct nx ny nz d, []) (ops ++ [TUpdate across]) = Some (m, refs) /\
    tm_num_components m = Some n /\ ~ right_components across m n.
Proof.
  exists 2, 1, 1, (ex_tagged 1), ex_tops, false.
  exists (mkTmap (mkGrid 2 1 1 [mkTccell one_bits 1 1 0; mkTccell one_bits 2 1 0]) 1 0 true false), [], 1.
  do 3 (split; [lia|]). split; [vm_compute; easy|]. split; [|split; [vm_compute; reflexivity|]].
  - unfold ex_tops.
    repeat (split; [split; [vm_compute; try exact I; split; easy|cbn; try reflexivity; exact I]|
                  let s := fresh in let H := fresh in intros s H; vm_compute in H; injection H as <-]).
    exact I.
  - split; [reflexivity|]. intros (_ & _ & L & _). specialize (L (0, 0, 0) (1, 0, 0) eq_refl eq_refl).
    set (g := tm_grid _) in *.
    assert (J : joined (in_grid g) (tm_classes false g) (0, 0, 0) (1, 0, 0)) by (apply L; reflexivity).
    apply (joined_keeps (fun i => option_map t_obj (gget g i))) in J; [discriminate J|].
    intros a b (_ & [H|(ca & cb & Ea & Eb & E)]); [discriminate|]. rewrite Ea, Eb. cbn. now rewrite E.
Qed.
Print Assumptions c30_cached_flag_refuted.

(** C31, what holds: each update makes its own result valid. *)
Theorem c31_last_update_valid_partial m :
  gwf (tm_grid m) -> occs_ok t_occ (tm_grid m) -> g_total (tm_grid m) < 2 ^ 32 ->
  tm_valid m = false -> tm_seg_valid m = false ->
  (forall across, exists m' n, tm_update across m = Some (m', n) /\ tm_num_components m' = Some n) /\
  (forall extrema threshold, exists m' n, tm_update_segments extrema threshold m = Some (m', n) /\
     tm_num_segments m' = Some n).
Proof.
  intros W O T V S. split.
  - intros a. destruct (tm_update_labels a m W O T V) as (m' & n & E & _ & _ & N & _). exists m', n. auto.
  - intros e th. destruct (tm_segment_labels e th m W O T S) as (m' & n & E & _ & _ & N & _). exists m', n. auto.
Qed.
Print Assumptions c31_last_update_valid_partial.

(** C31 fails, in every history: the two results are never valid together. *)
Theorem c31_never_both_valid nx ny nz d ops :
  0 < nx -> 0 < ny -> 0 < nz -> nx * ny * nz < 2 ^ 32 -> is_occ (t_occ d) ->
  all_along tstep t_careful (tm_construct nx ny nz d, []) ops ->
  exists m refs, trun (tm_construct nx ny nz d, []) ops = Some (m, refs) /\
    ~ (exists n k, tm_num_components m = Some n /\ tm_num_segments m = Some k).
Proof.
  intros Hx Hy Hz T O A. destruct (tagged_history nx ny nz d ops Hx Hy Hz T O A) as (m & refs & E & I).
  exists m, refs. split; [exact E|]. destruct I as (_ & _ & _ & _ & _ & N).
  intros (n & k & H1 & H2). apply N. unfold tm_num_components, tm_num_segments in *.
  destruct (tm_valid m), (tm_seg_valid m); try discriminate. now split.
Qed.
Print Assumptions c31_never_both_valid.

Definition ex_origin : grid vec3 := gconst 2 1 1 (B754_zero false, B754_zero false, B754_zero false).
Definition ex_one64 : b64 := @B754_finite 53 1024 false 4503599627370496 (-52) eq_refl.

Theorem c31_both_valid_refuted :
  exists nx ny nz d across extrema threshold m refs n,
    0 < nx /\ 0 < ny /\ 0 < nz /\ is_occ (t_occ d) /\
    trun (tm_construct nx ny nz d, []) [TUpdate across; TSegments extrema threshold] = Some (m, refs) /\
    tm_num_segments m = Some n /\ tm_num_components m = None.
Proof.
  exists 2, 1, 1, (ex_tagged 1), true, ex_origin, ex_one64.
  exists (mkTmap (mkGrid 2 1 1 [mkTccell one_bits 1 1 1; mkTccell one_bits 1 1 1]) 1 1 false true), [], 1.
  do 3 (split; [lia|]). split; [vm_compute; easy|]. split; [vm_compute; reflexivity|]. split; reflexivity.
Qed.
Print Assumptions c31_both_valid_refuted.

(** C32, positive part, for any local extrema map. *)
Theorem c32_segments_are_classes_partial extrema threshold m :
  gwf (tm_grid m) -> occs_ok t_occ (tm_grid m) -> g_total (tm_grid m) < 2 ^ 32 -> tm_seg_valid m = false ->
  exists m' n, tm_update_segments extrema threshold m = Some (m', n) /\
    same_cells (fun c => (t_occ c, t_obj c, t_comp c)) (tm_grid m') (tm_grid m) /\
    tm_num_segments m' = Some n /\
    is_labelling (segmented extrema (tm_grid m)) (seg_classes extrema threshold (tm_grid m))
      (label t_seg (tm_grid m')) n /\
    (forall i, ~ segmented extrema (tm_grid m) i -> label t_seg (tm_grid m') i = 0).
Proof.
  intros W O T V.
  destruct (tm_segment_labels extrema threshold m W O T V) as (m' & n & E & _ & S & N & _ & L).
  exists m', n. auto.
Qed.
Print Assumptions c32_segments_are_classes_partial.

(** C32, histories: valid segments are right for the arguments of some earlier call. *)
Theorem c32_valid_for_some_call_partial nx ny nz d ops :
  0 < nx -> 0 < ny -> 0 < nz -> nx * ny * nz < 2 ^ 32 -> is_occ (t_occ d) ->
  all_along tstep t_careful (tm_construct nx ny nz d, []) ops ->
  exists m refs, trun (tm_construct nx ny nz d, []) ops = Some (m, refs) /\
    (tm_seg_valid m = true -> exists extrema threshold n, In (TSegments extrema threshold) ops /\
       tm_num_segments m = Some n /\ right_segments extrema threshold m n).
Proof.
  intros Hx Hy Hz T O A. destruct (tagged_history nx ny nz d ops Hx Hy Hz T O A) as (m & refs & E & I).
  exists m, refs. split; [exact E|]. intros V. destruct I as (_ & _ & _ & _ & V2 & _).
  destruct (V2 V) as (_ & e & th & Ha & L). exists e, th, (tm_nseg m). unfold tm_num_segments. rewrite V. auto.
Qed.
Print Assumptions c32_valid_for_some_call_partial.

Definition ex_segment_ops : list top :=
  [TSet (1, 0, 0) (mkTccell zero_bits 0 5 5); TUpdate false; TSegments ex_origin ex_one64].
Lemma ex_origin_ok : gwf ex_origin.
Proof. apply gconst_wf; lia. Qed.
Example tagged_history_hypotheses :
  all_along tstep t_careful (tm_construct 2 1 1 (mkTccell one_bits 1 0 0), []) ex_segment_ops /\
  option_map (fun s => map t_seg (g_cells (tm_grid (fst s))))
    (trun (tm_construct 2 1 1 (mkTccell one_bits 1 0 0), []) ex_segment_ops) = Some [1; 2].
Proof.
  split; [|vm_compute; reflexivity]. unfold ex_segment_ops.
  split; [split; [vm_compute; split; easy|exact I]|]. intros s1 H1. vm_compute in H1. injection H1 as <-.
  split; [split; [exact I|reflexivity]|]. intros s2 H2. vm_compute in H2. injection H2 as <-.
  split; [split; [exact I|]|intros; exact I].
  split; [reflexivity|]. split; [exact ex_origin_ok|]. repeat split.
Qed.

(** C32 fails for histories: the second threshold is ignored. *)
Theorem c32_cached_threshold_refuted :
  exists nx ny nz d extrema threshold1 threshold2 m refs n,
    0 < nx /\ 0 < ny /\ 0 < nz /\ is_occ (t_occ d) /\ gwf extrema /\
    trun (tm_construct nx ny nz d, []) [TSegments extrema threshold1; TSegments extrema threshold2]
      = Some (m, refs) /\
    tm_num_segments m = Some n /\ ~ right_segments extrema threshold2 m n.
Proof.
  exists 2, 1, 1, (ex_tagged 1), ex_origin, ex_one64, (B754_zero false).
  exists (mkTmap (mkGrid 2 1 1 [mkTccell one_bits 1 0 1; mkTccell one_bits 1 0 1]) 0 1 false true), [], 1.
  do 3 (split; [lia|]). split; [vm_compute; easy|]. split; [exact ex_origin_ok|].
  split; [vm_compute; reflexivity|]. split; [reflexivity|].
  intros ((_ & _ & L & _) & _).
  set (m := tm_grid _) in L.
  assert (X : forall i, in_grid m i -> segmented ex_origin m i).
  { intros [[x y] z] H. unfold in_grid in H. rewrite in_bounds_iff in H. cbn in H.
    assert ((x = 0 \/ x = 1) /\ y = 0 /\ z = 0) as (Hx & -> & ->) by lia.
    exists (mkTccell one_bits 1 0 1), (B754_zero false), (B754_zero false), (B754_zero false).
    destruct Hx as [-> | ->]; (split; [reflexivity|]); (split; [reflexivity|]);
      (split; [right; reflexivity|]); intros b; (split; [discriminate|]); split; discriminate. }
  specialize (L (0, 0, 0) (1, 0, 0) (X (0, 0, 0) eq_refl) (X (1, 0, 0) eq_refl)).
  assert (J : joined (segmented ex_origin m) (seg_classes ex_origin (B754_zero false) m) (0, 0, 0) (1, 0, 0))
    by (apply L; reflexivity).
  inversion J as [|? j ? Jj F (_ & ax & ay & az & bx & by_ & bz & Ea & Eb & Lt) Xk]; subst.
  assert (Z0 : forall i e, gget ex_origin i = Some e -> e = (B754_zero false, B754_zero false, B754_zero false)).
  { intros i e. unfold ex_origin. rewrite gget_gconst. destruct (in_bounds3 2 1 1 i); [now intros [= <-]|discriminate]. }
  apply Z0 in Ea, Eb. injection Ea as -> -> ->. injection Eb as -> -> ->. vm_compute in Lt. discriminate.
Qed.
Print Assumptions c32_cached_threshold_refuted.
