(** Property theorems C37 and C82: components whose boundary does not touch itself. *)
From Coq Require Import ZArith List Lia Bool Permutation.
From Verif Require Import Util Grid Occ OccProofs TopologyModel ComponentSpec ComponentMapModel ComponentMapSpec
  ComponentMapProofs TaggedMapProofs SurfaceModel SurfaceSpec SurfaceProofs HolesProofs PlaneProofs LayerProofs
  BoundaryProofs ManifoldSpec ManifoldChecks ManifoldProofs PropsLayer PropsTopology.
Import ListNotations.
Local Open Scope Z_scope.

Lemma update_labelling {C} (comp_of : C -> Z) (g g' : grid C) conn n :
  same_dims g' g -> is_labelling (in_grid g) conn (label comp_of g') n -> is_labelling (in_grid g') conn (label comp_of g') n.
Proof.
  intros D L. eapply is_labelling_ext; [| | |exact L]; try reflexivity. intros a. apply in_grid_dims. now apply same_dims_sym.
Qed.

(** C37, what holds: the call returns when no selected component touches itself along an
    edge or at a vertex and none has a flat top two cells thick.  Missing: components that
    touch themselves; flat tops always throw (c37_flat_top_throws). *)
Theorem c37_well_composed_partial m m' n k order :
  gwf (cm_grid m) -> occs_ok c_occ (cm_grid m) -> g_total (cm_grid m) < 2 ^ 32 -> cm_valid m = false ->
  (forall l, Permutation (order l) l) -> cm_update m = Some (m', n) ->
  (forall i, in_grid (cm_grid m) i -> selected c_occ k (cm_grid m) i ->
     let q := part_of c_comp (cm_grid m') (label c_comp (cm_grid m') i) in
     well_composed q /\ forall v, roof q v = false) ->
  exists r, component_topology c_occ c_comp order k (cm_grid m') = Some r.
Proof.
  intros W O T V OP U H. destruct (component_topology c_occ c_comp order k (cm_grid m')) as [r|] eqn:E; [now exists r|].
  exfalso. apply (c37_throws_exactly m m' n k order W O T V OP U) in E. destruct E as (i & Gi & Si & Th).
  destruct (H i Gi Si) as (WC & NR). destruct (cm_update_labels m W O T V) as (m2 & n2 & E & W' & _).
  rewrite U in E. injection E as <- <-. destruct Th as [(v & Rv)|(s & Ss & Hs)].
  - rewrite NR in Rv. discriminate Rv.
  - destruct (component_holes c_comp (cm_grid m') _ W' WC s Ss) as (E1 & E2). rewrite E1 in Hs.
    unfold buried_vertices, vertex_count, zlen in Hs. lia.
Qed.
Print Assumptions c37_well_composed_partial.

Theorem c37_well_composed_tagged_partial across m m' n k order :
  gwf (tm_grid m) -> occs_ok t_occ (tm_grid m) -> g_total (tm_grid m) < 2 ^ 32 -> tm_valid m = false ->
  (forall l, Permutation (order l) l) -> tm_update across m = Some (m', n) ->
  (forall i, in_grid (tm_grid m) i -> selected t_occ k (tm_grid m) i ->
     let q := part_of t_comp (tm_grid m') (label t_comp (tm_grid m') i) in
     well_composed q /\ forall v, roof q v = false) ->
  exists r, component_topology t_occ t_comp order k (tm_grid m') = Some r.
Proof.
  intros W O T V OP U H. destruct (component_topology t_occ t_comp order k (tm_grid m')) as [r|] eqn:E; [now exists r|].
  exfalso. apply (c37_throws_exactly_tagged across m m' n k order W O T V OP U) in E. destruct E as (i & Gi & Si & Th).
  destruct (H i Gi Si) as (WC & NR). destruct (tm_update_labels across m W O T V) as (m2 & n2 & E & W' & _).
  rewrite U in E. injection E as <- <-. destruct Th as [(v & Rv)|(s & Ss & Hs)].
  - rewrite NR in Rv. discriminate Rv.
  - destruct (component_holes t_comp (tm_grid m') _ W' WC s Ss) as (E1 & E2). rewrite E1 in Hs.
    unfold buried_vertices, vertex_count, zlen in Hs. lia.
Qed.
Print Assumptions c37_well_composed_tagged_partial.

Lemma result_counts {C} (comp_of : C -> Z) (g : grid C) conn n c h v s :
  gwf g -> is_labelling (in_grid g) conn (label comp_of g) n ->
  (exists i, in_grid g i /\ label comp_of g i = c) -> surface_number (part_of comp_of g c) s ->
  h = hole_number comp_of g c s -> v = void_number comp_of g c s ->
  let q := part_of comp_of g c in
  well_composed q -> (forall u, all_of q (below u ++ above u) = false) ->
  cavity_number q (fun i => ~ in_grid g i) v /\ 1 - h + v = solid_euler q (g_nx g) (g_ny g) (g_nz g).
Proof.
  intros W L NE S Hh Hv q WC NC. destruct (component_holes comp_of g c W WC s S) as (E1 & _).
  assert (B0 : buried_vertices q (g_nx g) (g_ny g) (g_nz g) = 0).
  { unfold buried_vertices, vertex_count. rewrite zlen_filter. apply zsum_zero. intros u _.
    unfold buried. specialize (NC u). unfold all_of in *. rewrite forallb_app in NC. rewrite NC. reflexivity. }
  rewrite <- Hh in E1. unfold void_number in Hv. fold q in E1, Hv. rewrite B0 in E1, Hv. split; [|lia].
  replace v with (s - 1) by lia. apply (component_cavities comp_of g conn n c L W); auto.
  destruct NE as (i & Gi & Li). exists i. now apply part_iff.
Qed.

(** C82, what holds.  For components that do not touch themselves and have no cube of
    eight cells: the void count is the number of cavities, that is, of regions from which
    the outside of the grid cannot be reached without entering the component; and one,
    less the hole count, plus the void count is the Euler number of the component, so
    that the hole count is its number of independent tunnels.  Missing: components that
    touch themselves, and those with cubes (refuted below). *)
Theorem c82_holes_and_voids_partial m m' n k order r c h v :
  gwf (cm_grid m) -> occs_ok c_occ (cm_grid m) -> g_total (cm_grid m) < 2 ^ 32 -> cm_valid m = false ->
  (forall l, Permutation (order l) l) -> cm_update m = Some (m', n) ->
  component_topology c_occ c_comp order k (cm_grid m') = Some r -> In (c, (h, v)) r ->
  let g := cm_grid m' in let q := part_of c_comp g c in
  well_composed q -> (forall u, all_of q (below u ++ above u) = false) ->
  cavity_number q (fun i => ~ in_grid g i) v /\ 1 - h + v = solid_euler q (g_nx g) (g_ny g) (g_nz g).
Proof.
  intros W O T V OP U E I g q WC NC.
  destruct (c78_counts_exactly m m' n k order r W O T V OP U E) as (_ & F & G).
  destruct (G c h v I) as (_ & s & S1 & _ & Hh & Hv).
  destruct (cm_update_labels m W O T V) as (m2 & n2 & E2 & W' & S & _ & L). rewrite U in E2. injection E2 as <- <-.
  assert (D : same_dims g (cm_grid m)) by apply S.
  apply (result_counts c_comp g _ n c h v s W' (update_labelling _ _ _ _ _ D L)); auto.
  destruct (proj1 (F c)) as (i & Gi & _ & Li); [apply in_map_iff; now exists (c, (h, v))|].
  exists i. split; [|exact Li]. now apply (in_grid_dims g (cm_grid m)).
Qed.
Print Assumptions c82_holes_and_voids_partial.

Theorem c82_holes_and_voids_tagged_partial across m m' n k order r c h v :
  gwf (tm_grid m) -> occs_ok t_occ (tm_grid m) -> g_total (tm_grid m) < 2 ^ 32 -> tm_valid m = false ->
  (forall l, Permutation (order l) l) -> tm_update across m = Some (m', n) ->
  component_topology t_occ t_comp order k (tm_grid m') = Some r -> In (c, (h, v)) r ->
  let g := tm_grid m' in let q := part_of t_comp g c in
  well_composed q -> (forall u, all_of q (below u ++ above u) = false) ->
  cavity_number q (fun i => ~ in_grid g i) v /\ 1 - h + v = solid_euler q (g_nx g) (g_ny g) (g_nz g).
Proof.
  intros W O T V OP U E I g q WC NC.
  destruct (c78_counts_exactly_tagged across m m' n k order r W O T V OP U E) as (_ & F & G).
  destruct (G c h v I) as (_ & s & S1 & _ & Hh & Hv).
  destruct (tm_update_labels across m W O T V) as (m2 & n2 & E2 & W' & S & _ & _ & L).
  rewrite U in E2. injection E2 as <- <-. apply tview_cells in S. destruct S as (S & _).
  assert (D : same_dims g (tm_grid m)) by apply S.
  apply (result_counts t_comp g _ n c h v s W' (update_labelling _ _ _ _ _ D L)); auto.
  destruct (proj1 (F c)) as (i & Gi & _ & Li); [apply in_map_iff; now exists (c, (h, v))|].
  exists i. split; [|exact Li]. now apply (in_grid_dims g (tm_grid m)).
Qed.
Print Assumptions c82_holes_and_voids_tagged_partial.

(** ** Concrete cases *)

Definition composed_at (q : idx -> bool) (v : idx) : bool :=
  negb (corner_contact q v) && negb (edge_contact q Ax v) && negb (edge_contact q Ay v) && negb (edge_contact q Az v).

Lemma composed {C} (comp_of : C -> Z) (g : grid C) c : gwf g ->
  forallb (composed_at (part_of comp_of g c)) (all_idx (g_nx g + 1) (g_ny g + 1) (g_nz g + 1)) = true ->
  well_composed (part_of comp_of g c).
Proof.
  intros W F. set (q := part_of comp_of g c).
  assert (H : forall v, composed_at q v = true).
  { intros [[x y] z]. destruct (in_bounds3 (g_nx g + 1) (g_ny g + 1) (g_nz g + 1) (x, y, z)) eqn:B.
    - rewrite forallb_forall in F. apply F. now apply in_all_idx.
    - assert (N : forall a b d, x - 1 <= a <= x -> y - 1 <= b <= y -> z - 1 <= d <= z -> q (a, b, d) = false).
      { intros a b d Ha Hb Hd. apply not_true_iff_false. intros Q. apply part_bounded in Q; [|exact W].
        apply not_true_iff_false in B. apply B, in_bounds3_iff. lia. }
      unfold composed_at, corner_contact, below, above, quad, edge_contact, at_edge. cbn [app map].
      rewrite !N by lia. reflexivity. }
  split.
  - intros a v. specialize (H v). unfold composed_at in H. rewrite !andb_true_iff, !negb_true_iff in H.
    destruct a; tauto.
  - intros v. specialize (H v). unfold composed_at in H. rewrite !andb_true_iff, !negb_true_iff in H. tauto.
Qed.

(** C82 is false of components with cubes: one without a cavity is reported with a void. *)
Theorem c82_cube_refuted :
  exists m m' n, gwf (cm_grid m) /\ occs_ok c_occ (cm_grid m) /\ cm_update m = Some (m', n) /\
    forall order, (forall l, Permutation (order l) l) ->
      exists r c h v, component_topology c_occ c_comp order ex_filled (cm_grid m') = Some r /\ In (c, (h, v)) r /\
        cavity_number (part_of c_comp (cm_grid m') c) (fun i => ~ in_grid (cm_grid m') i) 0 /\ v = 1.
Proof.
  assert (W : gwf (cm_grid ex_capped)) by (repeat split; vm_compute; easy).
  assert (O : occs_ok c_occ (cm_grid ex_capped)) by (apply ex_cells_occs; vm_compute; reflexivity).
  destruct (cm_update ex_capped) as [[m' n]|] eqn:U; [|vm_compute in U; discriminate].
  exists ex_capped, m', n. do 2 (split; [assumption|]). split; [exact U|].
  intros order OP.
  assert (R : component_topology c_occ c_comp order ex_filled (cm_grid m') = Some [(1, (1, 1))]).
  { rewrite (cm_order ex_capped m' n ex_filled order (fun l => l) W O eq_refl eq_refl OP (@Permutation_refl idx) U).
    vm_compute in U. injection U as <- _. vm_compute. reflexivity. }
  exists [(1, (1, 1))], 1, 1, 1. split; [exact R|]. split; [now left|]. split; [|reflexivity].
  destruct (c78_counts_exactly ex_capped m' n ex_filled order _ W O ltac:(reflexivity) eq_refl OP U R) as (_ & _ & F).
  destruct (F 1 1 1 (or_introl eq_refl)) as (_ & s & S1 & _ & _ & Hv). unfold void_number in Hv.
  assert (B : buried_vertices (part_of c_comp (cm_grid m') 1) (g_nx (cm_grid m')) (g_ny (cm_grid m')) (g_nz (cm_grid m')) = 1).
  { vm_compute in U. injection U as <- _. vm_compute. reflexivity. }
  rewrite B in Hv. replace 0 with (s - 1) by lia.
  destruct (cm_update_labels ex_capped W O ltac:(reflexivity) eq_refl) as (m2 & n2 & E2 & W' & S & _ & L).
  rewrite U in E2. injection E2 as <- <-. assert (D : same_dims (cm_grid m') (cm_grid ex_capped)) by apply S.
  apply (component_cavities c_comp (cm_grid m') _ n 1 (update_labelling _ _ _ _ _ D L) W'); [| |exact S1].
  - exists (0, 0, 0). vm_compute in U. injection U as <- _. vm_compute. reflexivity.
  - apply (composed c_comp (cm_grid m') 1 W'). vm_compute in U. injection U as <- _. vm_compute. reflexivity.
Qed.
Print Assumptions c82_cube_refuted.

(* a frame: twelve bars along the edges of a cube of three cells *)
Definition ex_frame : cmap :=
  mkCmap (gtab 3 3 3 (fun '(x, y, z) =>
    if 2 <=? Z.b2z (x =? 1) + Z.b2z (y =? 1) + Z.b2z (z =? 1) then ex_e else ex_f)) 0 false.

(** Concrete cases: the frame has five tunnels and no void; the hollow cube has no tunnel
    and one void. *)
Example c82_frame :
  gwf (cm_grid ex_frame) /\ occs_ok c_occ (cm_grid ex_frame) /\ cm_valid ex_frame = false /\
  exists m', cm_update ex_frame = Some (m', 2) /\
    component_topology c_occ c_comp (@rev idx) ex_filled (cm_grid m') = Some [(1, (5, 0))] /\
    well_composed (part_of c_comp (cm_grid m') 1) /\
    (forall u, all_of (part_of c_comp (cm_grid m') 1) (below u ++ above u) = false) /\
    (forall v, roof (part_of c_comp (cm_grid m') 1) v = false) /\
    solid_euler (part_of c_comp (cm_grid m') 1) 3 3 3 = -4.
Proof.
  split; [repeat split; vm_compute; easy|]. split; [apply ex_cells_occs; vm_compute; reflexivity|]. split; [reflexivity|].
  eexists. split; [vm_compute; reflexivity|]. split; [vm_compute; reflexivity|].
  match goal with |- context [part_of c_comp ?g 1] =>
    assert (NC : forall u, all_of (part_of c_comp g 1) (below u ++ above u) = false) by
      exact (no_cube c_comp g ltac:(vm_compute; reflexivity) 1);
    assert (NR : forall v, roof (part_of c_comp g 1) v = false)
  end.
  { intros v. apply not_true_iff_false. intros R. unfold roof in R. rewrite !andb_true_iff in R. destruct R as ((R1 & R2) & _).
    destruct v as [[x y] z]. specialize (NC (x, y, z - 1)). unfold all_of in *. apply not_true_iff_false in NC. apply NC.
    rewrite forallb_forall in *. intros i I. apply in_app_iff in I. destruct I as [I|I]; [apply R1|apply R2];
      unfold two_below, below, above, quad in *;
      replace (z - 1 + -1) with (z + -2) in * by lia; replace (z - 1 + 0) with (z + -1) in * by lia; exact I. }
  split; [|split; [exact NC|split; [exact NR|vm_compute; reflexivity]]].
  apply composed; [repeat split; vm_compute; easy|]. vm_compute. reflexivity.
Qed.

Example c82_hollow :
  exists m', cm_update ex_hollow = Some (m', 2) /\
    component_topology c_occ c_comp (@rev idx) ex_filled (cm_grid m') = Some [(1, (0, 1))] /\
    well_composed (part_of c_comp (cm_grid m') 1) /\ solid_euler (part_of c_comp (cm_grid m') 1) 3 3 3 = 2.
Proof.
  eexists. split; [vm_compute; reflexivity|]. split; [vm_compute; reflexivity|].
  split; [|vm_compute; reflexivity]. apply composed; [repeat split; vm_compute; easy|]. vm_compute. reflexivity.
Qed.
