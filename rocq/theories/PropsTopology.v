(** Property theorems C37, C78 and C79: the topology of components of maps of any
    height. *)
From Coq Require Import ZArith List Lia Bool Permutation.
From Verif Require Import Util Grid Occ OccProofs TopologyModel ComponentSpec ComponentMapModel ComponentMapSpec
  ComponentMapProofs TaggedMapProofs SurfaceModel SurfaceSpec SurfaceProofs HolesProofs PlaneProofs LayerProofs
  BoundaryProofs PropsLayer.
Import ListNotations.
Local Open Scope Z_scope.

(** C37, exactly when ComputeComponentTopology throws, in every traversal order: when a
    selected component has a flat top two cells thick, or when the sum that gives the
    hole count is negative. *)
Theorem c37_throws_exactly m m' n k order :
  gwf (cm_grid m) -> occs_ok c_occ (cm_grid m) -> g_total (cm_grid m) < 2 ^ 32 -> cm_valid m = false ->
  (forall l, Permutation (order l) l) -> cm_update m = Some (m', n) ->
  component_topology c_occ c_comp order k (cm_grid m') = None <->
  exists i, in_grid (cm_grid m) i /\ selected c_occ k (cm_grid m) i /\
    throws_on c_comp (cm_grid m') (label c_comp (cm_grid m') i).
Proof. intros W O T V OP U. exact (proj1 (cm_topology m m' n k order W O T V OP U)). Qed.
Print Assumptions c37_throws_exactly.

Theorem c37_throws_exactly_tagged across m m' n k order :
  gwf (tm_grid m) -> occs_ok t_occ (tm_grid m) -> g_total (tm_grid m) < 2 ^ 32 -> tm_valid m = false ->
  (forall l, Permutation (order l) l) -> tm_update across m = Some (m', n) ->
  component_topology t_occ t_comp order k (tm_grid m') = None <->
  exists i, in_grid (tm_grid m) i /\ selected t_occ k (tm_grid m) i /\
    throws_on t_comp (tm_grid m') (label t_comp (tm_grid m') i).
Proof. intros W O T V OP U. exact (proj1 (tm_topology across m m' n k order W O T V OP U)). Qed.
Print Assumptions c37_throws_exactly_tagged.

(** C37 is false of every map with a component that has, anywhere, eight cells in a cube
    with no cell of the component on top of them. *)
Theorem c37_flat_top_throws m m' n k order x y z c :
  gwf (cm_grid m) -> occs_ok c_occ (cm_grid m) -> g_total (cm_grid m) < 2 ^ 32 -> cm_valid m = false ->
  (forall l, Permutation (order l) l) -> cm_update m = Some (m', n) ->
  (forall a b d, x - 1 <= a <= x -> y - 1 <= b <= y -> z - 2 <= d <= z - 1 ->
     selected c_occ k (cm_grid m) (a, b, d) /\ in_grid (cm_grid m) (a, b, d) /\ label c_comp (cm_grid m') (a, b, d) = c) ->
  (forall a b, x - 1 <= a <= x -> y - 1 <= b <= y -> in_grid (cm_grid m) (a, b, z) ->
     label c_comp (cm_grid m') (a, b, z) <> c) ->
  component_topology c_occ c_comp order k (cm_grid m') = None.
Proof.
  intros W O T V OP U A B. apply (c37_throws_exactly m m' n k order W O T V OP U).
  destruct (A x y (z - 1)) as (S & I & L); try lia. exists (x, y, z - 1). split; [exact I|]. split; [exact S|].
  rewrite L. left. exists (x, y, z).
  destruct (cm_update_labels m W O T V) as (m2 & n2 & E & W' & Sm & _ & _).
  rewrite U in E. injection E as <- <-. assert (D : same_dims (cm_grid m') (cm_grid m)) by apply Sm.
  assert (P : forall i, part_of c_comp (cm_grid m') c i = true <->
    in_grid (cm_grid m) i /\ label c_comp (cm_grid m') i = c).
  { intros i. rewrite <- (in_grid_dims (cm_grid m') (cm_grid m) i D). unfold part_of, label, in_grid.
    destruct (gget (cm_grid m') i) as [w|] eqn:G.
    - apply gget_in_bounds in G. rewrite Z.eqb_eq. tauto.
    - split; [discriminate|]. intros (H & _). destruct (gget_some _ _ W' H) as (w & Hw). congruence. }
  unfold roof. rewrite !andb_true_iff. unfold all_of, none_of. split; [split|].
  - apply forallb_forall. intros i H. apply P. unfold two_below, quad in H. cbn [In] in H.
    repeat (destruct H as [<-|H]; [apply A; lia|]). destruct H.
  - apply forallb_forall. intros i H. apply P. unfold below, quad in H. cbn [In] in H.
    repeat (destruct H as [<-|H]; [apply A; lia|]). destruct H.
  - apply negb_true_iff, not_true_iff_false. intros H. apply existsb_exists in H. destruct H as (i & H & Q).
    apply P in Q. destruct Q as (Q1 & Q2). unfold above, quad in H. rewrite Z.add_0_r in H. cbn [In] in H.
    repeat (destruct H as [<-|H]; [revert Q2; apply B; [lia|lia|exact Q1]|]). destruct H.
Qed.
Print Assumptions c37_flat_top_throws.

(* two cavities that touch the outside at one corner each; no cube of eight cells *)
Definition ex_pinched : cmap :=
  mkCmap (gtab 3 3 5 (fun i => if existsb (idx_eqb i) [(1, 1, 1); (1, 1, 3); (2, 2, 2)] then ex_e else ex_f)) 0 false.
(* a hollow cube *)
Definition ex_hollow : cmap :=
  mkCmap (gtab 3 3 3 (fun i => if idx_eqb i (1, 1, 1) then ex_e else ex_f)) 0 false.
(* a cube of eight cells with one more cell on top *)
Definition ex_capped : cmap :=
  mkCmap (gtab 2 2 3 (fun i => if existsb (idx_eqb i) [(0, 1, 2); (1, 0, 2); (1, 1, 2)] then ex_e else ex_f)) 0 false.
(* a cube of eight cells *)
Definition ex_cube : cmap := mkCmap (gconst 2 2 2 ex_f) 0 false.

Definition ex_filled : kinds := mkKinds true false false.

Definition cube_at {C} (comp_of : C -> Z) (g : grid C) (c : Z) (v : idx) : bool :=
  all_of (part_of comp_of g c) (below v ++ above v).

Lemma no_cube {C} (comp_of : C -> Z) (g : grid C) :
  forallb (fun v => negb (cube_at comp_of g (label comp_of g v) v)) (all_idx (g_nx g) (g_ny g) (g_nz g)) = true ->
  forall c v, cube_at comp_of g c v = false.
Proof.
  intros F c [[x y] z]. apply not_true_iff_false. intros H.
  assert (P : part_of comp_of g c (x, y, z) = true).
  { unfold cube_at, all_of in H. rewrite forallb_forall in H. apply H. unfold below, above, quad.
    rewrite Z.add_0_r. cbn [app In]. tauto. }
  assert (L : label comp_of g (x, y, z) = c /\ in_grid g (x, y, z)).
  { unfold part_of in P. unfold label, in_grid. destruct (gget g (x, y, z)) eqn:G; [|discriminate P].
    apply Z.eqb_eq in P. split; [exact P|]. eapply gget_in_bounds, G. }
  destruct L as (L & I). rewrite forallb_forall in F. specialize (F (x, y, z)). rewrite L, H in F.
  discriminate F. now apply in_all_idx.
Qed.

(** C37 is false without such cubes as well: the hole count can come out negative. *)
Theorem c37_pinched_refuted :
  exists m m' n, gwf (cm_grid m) /\ occs_ok c_occ (cm_grid m) /\ cm_update m = Some (m', n) /\
    (forall c v, all_of (part_of c_comp (cm_grid m') c) (below v ++ above v) = false) /\
    forall order, (forall l, Permutation (order l) l) ->
      component_topology c_occ c_comp order ex_filled (cm_grid m') = None.
Proof.
  assert (W : gwf (cm_grid ex_pinched)) by (repeat split; vm_compute; easy).
  assert (O : occs_ok c_occ (cm_grid ex_pinched)) by (apply ex_cells_occs; vm_compute; reflexivity).
  destruct (cm_update ex_pinched) as [[m' n]|] eqn:U; [|vm_compute in U; discriminate].
  exists ex_pinched, m', n. do 2 (split; [assumption|]). split; [exact U|]. split.
  - apply (no_cube c_comp (cm_grid m')). vm_compute in U. injection U as <- _. vm_compute. reflexivity.
  - intros order OP. rewrite (cm_order ex_pinched m' n ex_filled order (fun l => l) W O eq_refl eq_refl OP (@Permutation_refl idx) U).
    vm_compute in U. injection U as <- _. vm_compute. reflexivity.
Qed.
Print Assumptions c37_pinched_refuted.

Lemma counts_no_cube {C} (comp_of : C -> Z) (g : grid C) c s h v :
  let q := part_of comp_of g c in
  h = hole_number comp_of g c s -> v = void_number comp_of g c s ->
  (forall u, all_of q (below u ++ above u) = false) ->
  v = s - 1 /\
  ((forall a u, edge_contact q a u = false) -> h = s + Z.quot (- boundary_euler q (g_nx g) (g_ny g) (g_nz g)) 2).
Proof.
  intros q Hh Hv NC. unfold void_number in Hv. unfold hole_number in Hh. fold q in Hh, Hv.
  assert (B0 : buried_vertices q (g_nx g) (g_ny g) (g_nz g) = 0).
  { unfold buried_vertices, vertex_count. rewrite zlen_filter. apply zsum_zero. intros u _.
    unfold buried. specialize (NC u). unfold all_of in *. rewrite forallb_app in NC. rewrite NC. reflexivity. }
  rewrite B0 in Hv, Hh. split; [lia|]. intros NE.
  assert (C0 : edge_contacts q (g_nx g) (g_ny g) (g_nz g) = 0).
  { unfold edge_contacts, vertex_count. rewrite !zlen_filter, !zsum_zero; [reflexivity|..];
      intros u _; now rewrite NE. }
  rewrite C0 in Hh. rewrite Hh.
  replace (0 - 2 * boundary_euler q (g_nx g) (g_ny g) (g_nz g)) with (2 * - boundary_euler q (g_nx g) (g_ny g) (g_nz g)) by lia.
  change 4 with (2 * 2). rewrite Z.quot_mul_cancel_l by lia. lia.
Qed.

(** C78, what holds.  Without cubes of eight cells, the void count is the number of
    surfaces of the boundary less one.  If moreover no two cells meet only in an edge,
    the hole count is the number of surfaces less half of the Euler number of the
    boundary.  Missing: components with cubes (refuted below) and with edge contacts
    (c78_counts_exactly tells what is returned). *)
Theorem c78_counts_partial m m' n k order r c h v :
  gwf (cm_grid m) -> occs_ok c_occ (cm_grid m) -> g_total (cm_grid m) < 2 ^ 32 -> cm_valid m = false ->
  (forall l, Permutation (order l) l) -> cm_update m = Some (m', n) ->
  component_topology c_occ c_comp order k (cm_grid m') = Some r -> In (c, (h, v)) r ->
  let g := cm_grid m' in let q := part_of c_comp g c in
  (forall u, all_of q (below u ++ above u) = false) ->
  exists s, surface_number q s /\ v = s - 1 /\
    ((forall a u, edge_contact q a u = false) ->
     h = s + Z.quot (- boundary_euler q (g_nx g) (g_ny g) (g_nz g)) 2).
Proof.
  intros W O T V OP U E I g q NC. destruct (cm_topology m m' n k order W O T V OP U) as (_ & F).
  destruct (F r E) as (_ & _ & G). destruct (G c h v I) as (_ & s & S1 & _ & Hh & Hv).
  exists s. split; [exact S1|]. exact (counts_no_cube c_comp g c s h v Hh Hv NC).
Qed.
Print Assumptions c78_counts_partial.

Theorem c78_counts_tagged_partial across m m' n k order r c h v :
  gwf (tm_grid m) -> occs_ok t_occ (tm_grid m) -> g_total (tm_grid m) < 2 ^ 32 -> tm_valid m = false ->
  (forall l, Permutation (order l) l) -> tm_update across m = Some (m', n) ->
  component_topology t_occ t_comp order k (tm_grid m') = Some r -> In (c, (h, v)) r ->
  let g := tm_grid m' in let q := part_of t_comp g c in
  (forall u, all_of q (below u ++ above u) = false) ->
  exists s, surface_number q s /\ v = s - 1 /\
    ((forall a u, edge_contact q a u = false) ->
     h = s + Z.quot (- boundary_euler q (g_nx g) (g_ny g) (g_nz g)) 2).
Proof.
  intros W O T V OP U E I g q NC. destruct (tm_topology across m m' n k order W O T V OP U) as (_ & F).
  destruct (F r E) as (_ & _ & G). destruct (G c h v I) as (_ & s & S1 & _ & Hh & Hv).
  exists s. split; [exact S1|]. exact (counts_no_cube t_comp g c s h v Hh Hv NC).
Qed.
Print Assumptions c78_counts_tagged_partial.

(** What is returned for any component. *)
Theorem c78_counts_exactly m m' n k order r :
  gwf (cm_grid m) -> occs_ok c_occ (cm_grid m) -> g_total (cm_grid m) < 2 ^ 32 -> cm_valid m = false ->
  (forall l, Permutation (order l) l) -> cm_update m = Some (m', n) ->
  component_topology c_occ c_comp order k (cm_grid m') = Some r ->
  NoDup (map fst r) /\
  (forall c, In c (map fst r) <->
     exists i, in_grid (cm_grid m) i /\ selected c_occ k (cm_grid m) i /\ label c_comp (cm_grid m') i = c) /\
  forall c h v, In (c, (h, v)) r -> 0 <= h /\
    exists s, surface_number (part_of c_comp (cm_grid m') c) s /\ 1 <= s /\
      h = hole_number c_comp (cm_grid m') c s /\ v = void_number c_comp (cm_grid m') c s.
Proof. intros W O T V OP U. exact (proj2 (cm_topology m m' n k order W O T V OP U) r). Qed.
Print Assumptions c78_counts_exactly.

Theorem c78_counts_exactly_tagged across m m' n k order r :
  gwf (tm_grid m) -> occs_ok t_occ (tm_grid m) -> g_total (tm_grid m) < 2 ^ 32 -> tm_valid m = false ->
  (forall l, Permutation (order l) l) -> tm_update across m = Some (m', n) ->
  component_topology t_occ t_comp order k (tm_grid m') = Some r ->
  NoDup (map fst r) /\
  (forall c, In c (map fst r) <->
     exists i, in_grid (tm_grid m) i /\ selected t_occ k (tm_grid m) i /\ label t_comp (tm_grid m') i = c) /\
  forall c h v, In (c, (h, v)) r -> 0 <= h /\
    exists s, surface_number (part_of t_comp (tm_grid m') c) s /\ 1 <= s /\
      h = hole_number t_comp (tm_grid m') c s /\ v = void_number t_comp (tm_grid m') c s.
Proof. intros W O T V OP U. exact (proj2 (tm_topology across m m' n k order W O T V OP U) r). Qed.
Print Assumptions c78_counts_exactly_tagged.

(** C78 is false of components with cubes: one is reported with a void although its
    boundary is one surface, in every traversal order. *)
Theorem c78_void_count_refuted :
  exists m m' n, gwf (cm_grid m) /\ occs_ok c_occ (cm_grid m) /\ cm_update m = Some (m', n) /\
    forall order, (forall l, Permutation (order l) l) ->
      exists r c h v s, component_topology c_occ c_comp order ex_filled (cm_grid m') = Some r /\ In (c, (h, v)) r /\
        surface_number (part_of c_comp (cm_grid m') c) s /\ s = 1 /\ v = 1.
Proof.
  assert (W : gwf (cm_grid ex_capped)) by (repeat split; vm_compute; easy).
  assert (O : occs_ok c_occ (cm_grid ex_capped)) by (apply ex_cells_occs; vm_compute; reflexivity).
  destruct (cm_update ex_capped) as [[m' n]|] eqn:U; [|vm_compute in U; discriminate].
  exists ex_capped, m', n. do 2 (split; [assumption|]). split; [exact U|].
  intros order OP.
  assert (R : component_topology c_occ c_comp order ex_filled (cm_grid m') = Some [(1, (1, 1))]).
  { rewrite (cm_order ex_capped m' n ex_filled order (fun l => l) W O eq_refl eq_refl OP (@Permutation_refl idx) U).
    vm_compute in U. injection U as <- _. vm_compute. reflexivity. }
  destruct (c78_counts_exactly ex_capped m' n ex_filled order _ W O ltac:(reflexivity) eq_refl OP U R) as (_ & _ & F).
  destruct (F 1 1 1 (or_introl eq_refl)) as (_ & s & S1 & _ & _ & Hv).
  exists [(1, (1, 1))], 1, 1, 1, s. split; [exact R|]. split; [now left|]. split; [exact S1|]. split; [|reflexivity].
  unfold void_number in Hv.
  assert (B : buried_vertices (part_of c_comp (cm_grid m') 1) (g_nx (cm_grid m')) (g_ny (cm_grid m')) (g_nz (cm_grid m')) = 1).
  { vm_compute in U. injection U as <- _. vm_compute. reflexivity. }
  rewrite B in Hv. lia.
Qed.
Print Assumptions c78_void_count_refuted.

(** C79: the result of ComputeComponentTopology does not depend on the order in which
    the hash containers are traversed. *)
Theorem c79_order_irrelevant m m' n k order order' :
  gwf (cm_grid m) -> occs_ok c_occ (cm_grid m) -> g_total (cm_grid m) < 2 ^ 32 -> cm_valid m = false ->
  (forall l, Permutation (order l) l) -> (forall l, Permutation (order' l) l) -> cm_update m = Some (m', n) ->
  component_topology c_occ c_comp order k (cm_grid m') = component_topology c_occ c_comp order' k (cm_grid m').
Proof. apply cm_order. Qed.
Print Assumptions c79_order_irrelevant.

Theorem c79_order_irrelevant_tagged across m m' n k order order' :
  gwf (tm_grid m) -> occs_ok t_occ (tm_grid m) -> g_total (tm_grid m) < 2 ^ 32 -> tm_valid m = false ->
  (forall l, Permutation (order l) l) -> (forall l, Permutation (order' l) l) -> tm_update across m = Some (m', n) ->
  component_topology t_occ t_comp order k (tm_grid m') = component_topology t_occ t_comp order' k (tm_grid m').
Proof. apply tm_order. Qed.
Print Assumptions c79_order_irrelevant_tagged.

(** Concrete cases: the hollow cube has two surfaces, no handle and one void; the cube of
    eight cells has a flat top. *)
Example c78_hollow :
  gwf (cm_grid ex_hollow) /\ occs_ok c_occ (cm_grid ex_hollow) /\ g_total (cm_grid ex_hollow) < 2 ^ 32 /\
  cm_valid ex_hollow = false /\
  exists m', cm_update ex_hollow = Some (m', 2) /\
    component_topology c_occ c_comp (@rev idx) ex_filled (cm_grid m') = Some [(1, (0, 1))] /\
    (forall u, all_of (part_of c_comp (cm_grid m') 1) (below u ++ above u) = false) /\
    boundary_euler (part_of c_comp (cm_grid m') 1) 3 3 3 = 4 /\ edge_contacts (part_of c_comp (cm_grid m') 1) 3 3 3 = 0.
Proof.
  split; [repeat split; vm_compute; easy|]. split; [apply ex_cells_occs; vm_compute; reflexivity|].
  do 2 (split; [reflexivity|]). eexists. split; [vm_compute; reflexivity|]. split; [vm_compute; reflexivity|].
  split; [|split; vm_compute; reflexivity].
  match goal with |- context [part_of c_comp ?g 1] => exact (no_cube c_comp g ltac:(vm_compute; reflexivity) 1) end.
Qed.

Example c37_cube :
  exists m', cm_update ex_cube = Some (m', 1) /\
    roof (part_of c_comp (cm_grid m') 1) (1, 1, 2) = true /\
    component_topology c_occ c_comp (fun l => l) ex_filled (cm_grid m') = None /\
    forall a b d, 0 <= a <= 1 -> 0 <= b <= 1 -> 0 <= d <= 1 ->
      selected c_occ ex_filled (cm_grid ex_cube) (a, b, d) /\ in_grid (cm_grid ex_cube) (a, b, d) /\
      label c_comp (cm_grid m') (a, b, d) = 1.
Proof.
  eexists. split; [vm_compute; reflexivity|]. split; [vm_compute; reflexivity|]. split; [vm_compute; reflexivity|].
  intros a b d A B D.
  assert (HA : a = 0 \/ a = 1) by lia. assert (HB : b = 0 \/ b = 1) by lia. assert (HD : d = 0 \/ d = 1) by lia.
  destruct HA as [->| ->], HB as [->| ->], HD as [->| ->];
    (split; [left; split; [exists ex_f; split; reflexivity|reflexivity]|split; reflexivity]).
Qed.
