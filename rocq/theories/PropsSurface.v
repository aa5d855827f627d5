(** Property theorems C33 to C38: surface queries, surface extraction, topology. *)
From Coq Require Import ZArith List Lia Bool Permutation.
From Verif Require Import Util Grid Occ OccProofs TopologyModel ComponentSpec ComponentMapModel ComponentMapSpec
  ComponentMapProofs SurfaceModel SurfaceSpec SurfaceProofs HolesProofs.
Import ListNotations.
Local Open Scope Z_scope.

(** C33, for any cell type with an occupancy (the four map types). *)
Theorem c33_surface_index {C} (occ_of : C -> occ) (g : grid C) i :
  gwf g -> occs_ok occ_of g -> no_nans occ_of g ->
  (~ in_grid g i -> is_surface_index occ_of g i = Some None) /\
  (in_grid g i -> exists b, is_surface_index occ_of g i = Some (Some b) /\
     (b = true <-> exists j, around i j /\ in_grid g j /\ ~ same_side occ_of g i j)).
Proof.
  intros W O NN. split.
  - intros NI. apply is_surface_index_out. unfold in_grid in NI. now destruct (in_bounds g i).
  - intros I. destruct (is_surface_index_in occ_of g i W O I) as (b & E & B).
    exists b. split; [exact E|]. rewrite B. split.
    + intros (j & r & r' & A & Si & (d & Hd & Hr') & (q & -> & N & _)). exists j. split; [exact A|].
      split; [eapply gget_in_bounds; exact Hd|]. intros (a & b' & q' & Ha & Hb & Qa & Qb).
      destruct Si as (c & Hc & Hq). congruence.
    + intros (j & A & J & N).
      destruct (gget_some g i W I) as (c & Hc), (gget_some g j W J) as (d & Hd).
      exists j, (cmp_half (occ_of c)), (cmp_half (occ_of d)). split; [exact A|].
      split; [exists c; auto|]. split; [exists d; auto|].
      destruct (cmp_half (occ_of c)) as [r|] eqn:Rc; [|elim (NN i); exists c; auto].
      destruct (cmp_half (occ_of d)) as [r'|] eqn:Rd; [|elim (NN j); exists d; auto].
      exists r. split; [reflexivity|]. split; [|left; discriminate].
      intros [= ->]. apply N. exists c, d, r. auto.
Qed.
Print Assumptions c33_surface_index.

(** C33 without the restriction on NaN: a NaN cell is never a surface cell, and a NaN
    neighbour makes a surface cell of an unknown one only. *)
Theorem c33_surface_index_nan {C} (occ_of : C -> occ) (g : grid C) i :
  gwf g -> occs_ok occ_of g -> in_grid g i ->
  exists b, is_surface_index occ_of g i = Some (Some b) /\
    (b = true <-> exists j r r', around i j /\ side_is occ_of g i (Some r) /\ side_is occ_of g j r' /\
                    r' <> Some r /\ (r' = None -> r = Eq)).
Proof.
  intros W O I. destruct (is_surface_index_in occ_of g i W O I) as (b & E & B).
  exists b. split; [exact E|]. rewrite B. split.
  - intros (j & r & r' & A & Si & Sj & (q & -> & N & D)). exists j, q, r'.
    do 3 (split; [assumption|]). split; [assumption|]. intros ->. destruct D; [congruence|assumption].
  - intros (j & r & r' & A & Si & Sj & N & D). exists j, (Some r), r'.
    do 3 (split; [assumption|]). exists r. split; [reflexivity|]. split; [assumption|].
    destruct r'; [left; discriminate|right; auto].
Qed.
Print Assumptions c33_surface_index_nan.

(* 3 x 2 x 1, with a NaN cell *)
Definition ex_surf : grid ccell :=
  mkGrid 3 2 1 [mkCcell one_bits 1; mkCcell one_bits 1; mkCcell one_bits 1; mkCcell zero_bits 2;
                mkCcell half_bits 3; mkCcell half_bits 3].
Lemma ex_surf_cells i c : gget ex_surf i = Some c -> In c (g_cells ex_surf).
Proof.
  unfold gget. destruct (in_bounds ex_surf i); [|discriminate]. unfold zget.
  destruct (_ <? 0); [discriminate|]. apply nth_error_In.
Qed.
Lemma ex_surf_hypotheses :
  gwf ex_surf /\ occs_ok c_occ ex_surf /\ no_nans c_occ ex_surf /\ numbers_ok c_comp ex_surf.
Proof.
  split; [repeat split; vm_compute; easy|]. split; [|split].
  - intros i c E. apply ex_surf_cells in E. cbn [ex_surf g_cells] in E.
    repeat (destruct E as [<-|E]; [vm_compute; easy|]). destruct E.
  - intros i (c & E & N). apply ex_surf_cells in E. cbn [ex_surf g_cells] in E.
    repeat (destruct E as [<-|E]; [vm_compute in N; discriminate|]). destruct E.
  - intros i c E. apply ex_surf_cells in E. cbn [ex_surf g_cells] in E.
    repeat (destruct E as [<-|E]; [vm_compute; easy|]). destruct E.
Qed.
Example c33_example :
  gwf ex_surf /\ occs_ok c_occ ex_surf /\ no_nans c_occ ex_surf /\ in_grid ex_surf (0, 0, 0) /\
  is_surface_index c_occ ex_surf (0, 0, 0) = Some (Some true) /\
  is_surface_index c_occ ex_surf (3, 0, 0) = Some None /\
  is_surface_index c_occ (gconst 2 2 2 (mkCcell half_bits 0)) (1, 1, 1) = Some (Some false) /\
  is_surface_index c_occ (mkGrid 2 1 1 [mkCcell half_bits 0; mkCcell 2143289344 0]) (0, 0, 0) = Some (Some true) /\
  is_surface_index c_occ (mkGrid 2 1 1 [mkCcell half_bits 0; mkCcell 2143289344 0]) (1, 0, 0) = Some (Some false).
Proof.
  destruct ex_surf_hypotheses as (A & B & D & _). do 3 (split; [assumption|]).
  repeat split; vm_compute; reflexivity.
Qed.

(** C34. *)
Theorem c34_component_surface_index {C} (comp_of : C -> Z) (g : grid C) i :
  gwf g ->
  (~ in_grid g i -> is_component_surface_index comp_of g i = Some None) /\
  (in_grid g i -> exists b, is_component_surface_index comp_of g i = Some (Some b) /\
     (b = true <-> on_border g i \/
        exists j, share_face i j /\ in_grid g j /\ label comp_of g i <> label comp_of g j)).
Proof.
  intros W. split.
  - intros NI. apply is_component_surface_index_out. unfold in_grid in NI. now destruct (in_bounds g i).
  - intros I. destruct (is_component_surface_index_in comp_of g i W I) as (b & E & B).
    exists b. split; [exact E|]. rewrite B. unfold component_surface, different_number. split.
    + intros (_ & [H|(j & F & _ & J & D)]); [auto|]. right. exists j. auto.
    + intros [H|(j & F & J & D)]; (split; [exact I|]); [auto|]. right. exists j. auto.
Qed.
Print Assumptions c34_component_surface_index.
Example c34_example :
  let g := gset (gconst 3 3 3 (mkCcell one_bits 1)) (1, 1, 0) (mkCcell zero_bits 2) in
  gwf g /\ in_grid g (1, 1, 1) /\ is_component_surface_index c_comp g (1, 1, 1) = Some (Some true) /\
  is_component_surface_index c_comp (gconst 3 3 3 (mkCcell one_bits 1)) (1, 1, 1) = Some (Some false) /\
  is_component_surface_index c_comp g (1, 2, 1) = Some (Some true) /\
  is_component_surface_index c_comp g (1, 3, 1) = Some None.
Proof. repeat split; vm_compute; (reflexivity || discriminate). Qed.

(** C36. *)
Theorem c36_candidate_corner {C} (comp_of : C -> Z) (g : grid C) i :
  gwf g ->
  (~ in_grid g i -> candidate_corner comp_of g i = None) /\
  (in_grid g i -> exists b, candidate_corner comp_of g i = Some b /\
     (b = true <-> exists j k, j <> k /\ share_face i j /\ share_face i k /\ in_grid g j /\ in_grid g k /\
                     label comp_of g i <> label comp_of g j /\ label comp_of g i <> label comp_of g k)).
Proof.
  intros W. split.
  - intros NI. apply candidate_corner_out. unfold in_grid in NI. now destruct (in_bounds g i).
  - intros I. destruct (candidate_corner_in comp_of g i W I) as (b & E & B).
    exists b. split; [exact E|]. rewrite B. unfold different_number.
    split; intros (j & k & H); exists j, k; tauto.
Qed.
Print Assumptions c36_candidate_corner.
Example c36_example :
  gwf ex_surf /\ in_grid ex_surf (1, 0, 0) /\ candidate_corner c_comp ex_surf (1, 0, 0) = Some true /\
  candidate_corner c_comp ex_surf (0, 0, 0) = Some false /\ candidate_corner c_comp ex_surf (0, -1, 0) = None.
Proof. repeat split; vm_compute; (reflexivity || discriminate). Qed.

(** C35 claims that only surface cells are returned.  What holds: the call returns,
    for each component, every cell of the component that is of a selected kind, hence
    every surface cell, and no cell of another component.  Missing: that interior
    cells are left out; see the refutation below. *)
Theorem c35_all_selected_cells_partial {C} (occ_of : C -> occ) (comp_of : C -> Z) k (g : grid C) :
  gwf g -> occs_ok occ_of g -> numbers_ok comp_of g ->
  exists s, extract_surfaces occ_of comp_of k g = Some s /\ surfaces_are_maps s /\
    forall c i, in_surface s c i <-> in_grid g i /\ selected occ_of k g i /\ label comp_of g i = c.
Proof. exact (extract_surfaces_spec occ_of comp_of k g). Qed.
Print Assumptions c35_all_selected_cells_partial.

(** The components of the witness are the ones computed by UpdateConnectedComponents. *)
Theorem c35_interior_cell_refuted :
  exists m n s i, cm_update (cm_construct 3 3 3 (mkCcell one_bits 0)) = Some (m, n) /\
    extract_surfaces c_occ c_comp (mkKinds true true true) (cm_grid m) = Some s /\
    in_surface s 1 i /\ ~ component_surface c_comp (cm_grid m) i.
Proof.
  destruct (cm_update (cm_construct 3 3 3 (mkCcell one_bits 0))) as [[m n]|] eqn:E;
    [|vm_compute in E; discriminate].
  vm_compute in E. injection E as <- <-.
  eexists _, _, _, (1, 1, 1). split; [reflexivity|]. split; [vm_compute; reflexivity|]. split.
  - eexists. split; [now left|]. vm_compute. tauto.
  - cbn [cm_grid]. set (g := mkGrid 3 3 3 _).
    assert (W : gwf g) by (repeat split; vm_compute; easy).
    destruct (is_component_surface_index_in c_comp g (1, 1, 1) W) as (b & E & B); [reflexivity|].
    vm_compute in E. injection E as <-. intros H. apply B in H. discriminate.
Qed.
Print Assumptions c35_interior_cell_refuted.
Example c35_example :
  gwf ex_surf /\ occs_ok c_occ ex_surf /\ numbers_ok c_comp ex_surf /\
  extract_surfaces c_occ c_comp (mkKinds true false true) ex_surf =
    Some [(1, [((0, 0, 0), 1); ((0, 1, 0), 1); ((1, 0, 0), 1)]); (3, [((2, 0, 0), 1); ((2, 1, 0), 1)])].
Proof.
  destruct ex_surf_hypotheses as (A & B & _ & D). do 3 (split; [assumption|]). vm_compute. reflexivity.
Qed.

(** C37: the call fails on the filled 2 x 2 x 2 map, whatever the order in which the
    hash containers are traversed. *)
Theorem c37_topology_throws_refuted :
  exists m n, cm_update (cm_construct 2 2 2 (mkCcell one_bits 0)) = Some (m, n) /\
    forall order, (forall l, Permutation (order l) l) ->
      component_topology c_occ c_comp order (mkKinds true true true) (cm_grid m) = None.
Proof.
  destruct (cm_update (cm_construct 2 2 2 (mkCcell one_bits 0))) as [[m n]|] eqn:E;
    [|vm_compute in E; discriminate].
  vm_compute in E. injection E as <- <-. eexists _, _. split; [reflexivity|].
  intros order OP. cbn [cm_grid]. set (g := mkGrid 2 2 2 _).
  unfold component_topology.
  destruct (extract_surfaces c_occ c_comp (mkKinds true true true) g) as [s|] eqn:S; [|reflexivity].
  vm_compute in S. injection S as <-. cbn [obind]. unfold topology_of_surfaces. cbn [ofold].
  match goal with |- context [holes_and_voids _ _ _ ?M] => set (sm := M) end.
  enough (count_surfaces order (surface_vertices (component_fn c_comp g) 1 sm)
            (vertex_edges (component_fn c_comp g) 1) = None) as H
    by (unfold holes_and_voids; rewrite H; reflexivity).
  set (V := surface_vertices (component_fn c_comp g) 1 sm).
  set (edges := vertex_edges (component_fn c_comp g) 1).
  assert (A : forall v, In v V -> walk (S (length V)) V edges [v] [v] = None \/ v = (1, 1, 1)).
  { assert (A : forallb (fun v => match walk (S (length V)) V edges [v] [v] with
                                  | None => true | Some _ => idx_eqb v (1, 1, 1) end) V = true)
      by (vm_compute; reflexivity).
    rewrite forallb_forall in A. intros v I. specialize (A v I). cbv beta in A.
    match type of A with match ?w with _ => _ end = _ => destruct w eqn:W end;
      [right; apply idx_eqb_eq; exact A|left; first [exact W|reflexivity]]. }
  assert (A1 : forall u : idx, u = (1, 1, 1) -> walk (S (length V)) V edges [u] [u] = Some [u])
    by (intros u ->; vm_compute; reflexivity).
  assert (I : forall v, In v (order V) -> In v V) by (intros v; apply Permutation_in, OP).
  assert (ND : NoDup (order V)).
  { eapply Permutation_NoDup; [apply Permutation_sym, OP|].
    change V with (surface_vertices (component_fn c_comp g) 1 sm). apply surface_vertices_nodup. }
  assert (L : length (order V) = 26%nat) by (apply (Permutation_length (OP V))).
  unfold count_surfaces. destruct (order V) as [|v [|w t]]; [discriminate L..|]. clear L.
  cbn [ofold existsb]. destruct (A v (I v (or_introl eq_refl))) as [->|Ev]; [reflexivity|].
  rewrite (A1 v Ev). cbn [obind app]. change (0 + zlen [v] =? zlen V) with false. cbn [ofold existsb].
  assert (N : w <> v) by (apply NoDup_cons_iff in ND; destruct ND as (ND & _); intros ->; apply ND; now left).
  destruct (idx_eqb w v) eqn:E; [apply idx_eqb_eq in E; contradiction|]. cbn [orb].
  destruct (A w (I w (or_intror (or_introl eq_refl)))) as [->|Ew]; [reflexivity|congruence].
Qed.
Print Assumptions c37_topology_throws_refuted.

(** C37, what holds of any numbering of a map of a single layer in which equally
    numbered cells have one kind: the walk over the surface vertices succeeds for
    every component, in every traversal order.  Missing: maps of several layers
    (refuted above); the whole call is in PropsLayer.v, for numbers computed by the
    map. *)
Theorem c37_one_layer_walk_partial {C} (occ_of : C -> occ) (comp_of : C -> Z) k (g : grid C) s c m order :
  gwf g -> occs_ok occ_of g -> numbers_ok comp_of g -> g_nz g = 1 ->
  (forall i j, in_grid g i -> in_grid g j -> label comp_of g i = label comp_of g j ->
     selected occ_of k g i -> selected occ_of k g j) ->
  extract_surfaces occ_of comp_of k g = Some s -> In (c, m) s ->
  (forall l, Permutation (order l) l) ->
  exists n, count_surfaces order (surface_vertices (component_fn comp_of g) c m)
              (vertex_edges (component_fn comp_of g) c) = Some n /\ 1 <= n.
Proof. exact (one_layer_walk occ_of comp_of k g s c m order). Qed.
Print Assumptions c37_one_layer_walk_partial.

(* a ring around a hole: one hole, no void; the centre is a second component *)
Definition ex_ring : grid ccell :=
  gset (gconst 3 3 1 (mkCcell one_bits 1)) (1, 1, 0) (mkCcell zero_bits 2).
Lemma ex_ring_hypotheses :
  gwf ex_ring /\ occs_ok c_occ ex_ring /\ numbers_ok c_comp ex_ring /\
  forall i, in_grid ex_ring i -> selected c_occ (mkKinds true true true) ex_ring i.
Proof.
  assert (W : gwf ex_ring) by (repeat split; vm_compute; easy).
  assert (A : forall i c, gget ex_ring i = Some c -> c = mkCcell one_bits 1 \/ c = mkCcell zero_bits 2).
  { intros i c E. unfold ex_ring in E. rewrite gget_gset in E by (apply gconst_wf; lia).
    destruct (_ && _); [injection E; auto|]. rewrite gget_gconst in E.
    destruct (in_bounds3 _ _ _ _); [injection E; auto|discriminate]. }
  split; [exact W|]. split; [|split].
  - intros i c E. destruct (A i c E) as [-> | ->]; vm_compute; easy.
  - intros i c E. destruct (A i c E) as [-> | ->]; vm_compute; easy.
  - intros i I. destruct (gget_some _ _ W I) as (c & E). unfold selected, side_is.
    destruct (cmp_half (c_occ c)) as [[]|] eqn:R;
      [right; right; split; [left|]|right; left; split|left; split|right; right; split; [right|]];
      try reflexivity; exists c; auto.
Qed.
Example c37_example :
  gwf ex_ring /\ occs_ok c_occ ex_ring /\ numbers_ok c_comp ex_ring /\ g_nz ex_ring = 1 /\
  component_topology c_occ c_comp (fun l => l) (mkKinds true true true) ex_ring
    = Some [(1, (1, 0)); (2, (0, 0))] /\
  component_topology c_occ c_comp (@rev idx) (mkKinds true true true) ex_ring
    = Some [(1, (1, 0)); (2, (0, 0))].
Proof.
  destruct ex_ring_hypotheses as (A & B & D & _). do 3 (split; [assumption|]).
  repeat split; vm_compute; reflexivity.
Qed.

(** C38: whatever the traversal order of the hash maps. *)
Theorem c38_static_of_dynamic m m' :
  NoDup (map fst m) -> Permutation m' m ->
  NoDup (extract_static m') /\ (forall i, In i (extract_static m') <-> In (i, 1) m).
Proof.
  intros ND P. split.
  - apply nodup_extract_static. eapply Permutation_NoDup; [|exact ND].
    apply Permutation_map, Permutation_sym, P.
  - intros i. rewrite in_extract_static. split; apply Permutation_in; [exact P|apply Permutation_sym, P].
Qed.
Print Assumptions c38_static_of_dynamic.

Theorem c38_static_round_trip l m' :
  Permutation m' (to_dynamic l) ->
  (forall i v, In (i, v) m' <-> In i l /\ v = 1) /\ NoDup (map fst m') /\
  (forall i, In i (extract_static m') <-> In i l) /\
  (NoDup l -> Permutation (extract_static m') l).
Proof.
  intros P. destruct (to_dynamic_spec l) as (ND & D).
  destruct (c38_static_of_dynamic _ _ ND P) as (N1 & N2).
  assert (S : forall i, In i (extract_static m') <-> In i l).
  { intros i. rewrite N2, D. tauto. }
  split; [|split; [|split; [exact S|]]].
  - intros i v. rewrite <- D. split; apply Permutation_in; [exact P|apply Permutation_sym, P].
  - eapply Permutation_NoDup; [|exact ND]. apply Permutation_map, Permutation_sym, P.
  - intros NL. now apply NoDup_Permutation.
Qed.
Print Assumptions c38_static_round_trip.

(** With repetitions the last position is found. *)
Theorem c38_index_map l i k :
  smap_get (build_index_map l) i = Some k <->
  zget l k = Some i /\ forall k', k < k' -> zget l k' <> Some i.
Proof.
  destruct (build_index_map_spec l) as (ND & B). rewrite smap_get_in by exact ND. apply B.
Qed.
Print Assumptions c38_index_map.
Example c38_example :
  extract_static (rev (to_dynamic [(1, 2, 3); (0, 0, 0); (1, 2, 3)])) = [(0, 0, 0); (1, 2, 3)] /\
  extract_static [((0, 0, 1), 2); ((0, 0, 2), 1)] = [(0, 0, 2)] /\
  smap_get (build_index_map [(1, 2, 3); (0, 0, 0); (4, 4, 4)]) (0, 0, 0) = Some 1 /\
  smap_get (build_index_map [(1, 2, 3); (0, 0, 0); (4, 4, 4)]) (0, 1, 0) = None.
Proof. repeat split; reflexivity. Qed.
