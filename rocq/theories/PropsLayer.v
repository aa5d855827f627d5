(** Property theorems C37 and C77 on maps of one layer: the topology of components. *)
From Coq Require Import ZArith List Lia Bool Permutation.
From Verif Require Import Util Grid Occ OccProofs TopologyModel ComponentSpec ComponentMapModel ComponentMapSpec
  ComponentMapProofs TaggedMapProofs SurfaceModel SurfaceSpec SurfaceProofs HolesProofs PlaneProofs LayerProofs.
Import ListNotations.
Local Open Scope Z_scope.

(** C37, what holds: on every map of one layer ComputeComponentTopology succeeds, in
    every traversal order of the hash containers; it reports exactly the components
    with a selected cell, each once, with a hole count that is not negative and no
    voids.  Missing: maps of several layers (c37_topology_throws_refuted). *)
Theorem c37_one_layer_partial m k order :
  gwf (cm_grid m) -> occs_ok c_occ (cm_grid m) -> g_total (cm_grid m) < 2 ^ 32 -> cm_valid m = false ->
  g_nz (cm_grid m) = 1 -> (forall l, Permutation (order l) l) ->
  exists m' n r, cm_update m = Some (m', n) /\
    component_topology c_occ c_comp order k (cm_grid m') = Some r /\ NoDup (map fst r) /\
    (forall c, In c (map fst r) <->
       exists i, in_grid (cm_grid m) i /\ selected c_occ k (cm_grid m) i /\ label c_comp (cm_grid m') i = c) /\
    forall c h v, In (c, (h, v)) r -> v = 0 /\ 0 <= h.
Proof.
  intros W O T V Z OP. destruct (cm_layer_topology m k order W O T V Z OP) as (m' & n & r & A & B & D & E & F).
  exists m', n, r. do 4 (split; [assumption|]). intros c h v I. destruct (F c h v I) as (F1 & F2 & _). auto.
Qed.
Print Assumptions c37_one_layer_partial.

Theorem c37_one_layer_tagged_partial across m k order :
  gwf (tm_grid m) -> occs_ok t_occ (tm_grid m) -> g_total (tm_grid m) < 2 ^ 32 -> tm_valid m = false ->
  g_nz (tm_grid m) = 1 -> (forall l, Permutation (order l) l) ->
  exists m' n r, tm_update across m = Some (m', n) /\
    component_topology t_occ t_comp order k (tm_grid m') = Some r /\ NoDup (map fst r) /\
    (forall c, In c (map fst r) <->
       exists i, in_grid (tm_grid m) i /\ selected t_occ k (tm_grid m) i /\ label t_comp (tm_grid m') i = c) /\
    forall c h v, In (c, (h, v)) r -> v = 0 /\ 0 <= h.
Proof.
  intros W O T V Z OP. destruct (tm_layer_topology across m k order W O T V Z OP) as (m' & n & r & A & B & D & E & F).
  exists m', n, r. do 4 (split; [assumption|]). intros c h v I. destruct (F c h v I) as (F1 & F2 & _). auto.
Qed.
Print Assumptions c37_one_layer_tagged_partial.

(** C77: on a map of one layer a component whose cells nowhere touch only at a corner
    is reported with 1 - X holes, X its Euler number: the number of independent loops
    around it.  Missing: components with such contacts (refuted below) and maps of
    several layers. *)
Theorem c77_hole_count_partial m m' n k order r c h v :
  gwf (cm_grid m) -> occs_ok c_occ (cm_grid m) -> g_total (cm_grid m) < 2 ^ 32 -> cm_valid m = false ->
  g_nz (cm_grid m) = 1 -> (forall l, Permutation (order l) l) ->
  cm_update m = Some (m', n) -> component_topology c_occ c_comp order k (cm_grid m') = Some r ->
  In (c, (h, v)) r -> diagonal_contacts c_comp (cm_grid m') c = 0 ->
  h = 1 - euler_number c_comp (cm_grid m') c /\ v = 0.
Proof.
  intros W O T V Z OP U E I D.
  destruct (cm_layer_topology m k order W O T V Z OP) as (m2 & n2 & r2 & U2 & E2 & _ & _ & F).
  rewrite U in U2. injection U2 as <- <-. rewrite E in E2. injection E2 as <-.
  destruct (F c h v I) as (-> & _ & ->). rewrite D. split; [|reflexivity].
  replace (6 * 0 - 8 * euler_number c_comp (cm_grid m') c) with ((- euler_number c_comp (cm_grid m') c) * 8) by lia.
  rewrite Z.quot_mul by lia. lia.
Qed.
Print Assumptions c77_hole_count_partial.

(* two rings of 3 x 3 cells side by side, each with a corner removed: a component
   without loops that touches itself at two corners *)
Definition ex_e := mkCcell zero_bits 0.
Definition ex_f := mkCcell one_bits 0.
Definition ex_rings : cmap :=
  mkCmap (mkGrid 6 3 1 [ex_e; ex_f; ex_f;  ex_f; ex_e; ex_f;  ex_f; ex_f; ex_f;
                        ex_f; ex_f; ex_f;  ex_f; ex_e; ex_f;  ex_e; ex_f; ex_f]) 0 false.
(* the same with closed rings *)
Definition ex_closed : cmap :=
  mkCmap (mkGrid 6 3 1 [ex_f; ex_f; ex_f;  ex_f; ex_e; ex_f;  ex_f; ex_f; ex_f;
                        ex_f; ex_f; ex_f;  ex_f; ex_e; ex_f;  ex_f; ex_f; ex_f]) 0 false.

Lemma ex_cells_occs {C} (f : C -> occ) l nx ny nz :
  forallb (fun c => (f c =? one_bits) || (f c =? zero_bits)) l = true ->
  occs_ok f (mkGrid nx ny nz l).
Proof.
  intros F i c. unfold gget. destruct (in_bounds _ i); [|discriminate].
  unfold zget. destruct (_ <? 0); [discriminate|]. intros E. apply nth_error_In in E.
  cbn [g_cells] in E. rewrite forallb_forall in F. apply F in E. apply orb_prop in E.
  destruct E as [E|E]; apply Z.eqb_eq in E; rewrite E; vm_compute; easy.
Qed.

(** C77 is false of components that touch themselves at corners: the count reported
    is neither the number of loops of the cells joined by sides (0 here), nor that of
    the cells joined by sides and corners (2 here), in any traversal order. *)
Theorem c77_hole_count_refuted :
  exists m m' n, gwf (cm_grid m) /\ occs_ok c_occ (cm_grid m) /\ g_nz (cm_grid m) = 1 /\ cm_update m = Some (m', n) /\
    forall order, (forall l, Permutation (order l) l) ->
      exists r c h v, component_topology c_occ c_comp order (mkKinds true false false) (cm_grid m') = Some r /\
        In (c, (h, v)) r /\
        h <> 1 - euler_number c_comp (cm_grid m') c /\
        h <> 1 - (euler_number c_comp (cm_grid m') c - diagonal_contacts c_comp (cm_grid m') c).
Proof.
  assert (W : gwf (cm_grid ex_rings)) by (repeat split; vm_compute; easy).
  assert (O : occs_ok c_occ (cm_grid ex_rings)) by (apply ex_cells_occs; reflexivity).
  destruct (cm_update ex_rings) as [[m' n]|] eqn:U; [|vm_compute in U; discriminate].
  exists ex_rings, m', n. do 2 (split; [assumption|]). split; [reflexivity|]. split; [exact U|].
  intros order OP.
  destruct (cm_layer_topology ex_rings (mkKinds true false false) order W O ltac:(reflexivity) eq_refl eq_refl OP)
    as (m2 & n2 & r & U2 & E2 & _ & D & F).
  rewrite U in U2. injection U2 as <- <-.
  assert (X : euler_number c_comp (cm_grid m') 2 = 1 /\ diagonal_contacts c_comp (cm_grid m') 2 = 2 /\
              label c_comp (cm_grid m') (1, 0, 0) = 2).
  { vm_compute in U. injection U as <- _. repeat split; vm_compute; reflexivity. }
  destruct X as (X1 & X2 & X3).
  assert (I : In 2 (map fst r)).
  { apply D. exists (1, 0, 0). split; [reflexivity|]. split; [|exact X3].
    left. split; [|reflexivity]. exists ex_f. split; reflexivity. }
  apply in_map_iff in I. destruct I as ([c [h v]] & Ec & I). cbn [fst] in Ec. subst c.
  exists r, 2, h, v. split; [exact E2|]. split; [exact I|].
  destruct (F _ _ _ I) as (_ & _ & ->). rewrite X1, X2. split; vm_compute; discriminate.
Qed.
Print Assumptions c77_hole_count_refuted.

Example c37_c77_example :
  gwf (cm_grid ex_closed) /\ occs_ok c_occ (cm_grid ex_closed) /\ g_total (cm_grid ex_closed) < 2 ^ 32 /\
  cm_valid ex_closed = false /\ g_nz (cm_grid ex_closed) = 1 /\
  exists m', cm_update ex_closed = Some (m', 3) /\
    component_topology c_occ c_comp (@rev idx) (mkKinds true true true) (cm_grid m')
      = Some [(1, (2, 0)); (2, (0, 0)); (3, (0, 0))] /\
    diagonal_contacts c_comp (cm_grid m') 1 = 0 /\ euler_number c_comp (cm_grid m') 1 = -1.
Proof.
  split; [repeat split; vm_compute; easy|]. split; [apply ex_cells_occs; reflexivity|].
  do 3 (split; [reflexivity|]). eexists. split; [vm_compute; reflexivity|].
  split; [vm_compute; reflexivity|]. split; vm_compute; reflexivity.
Qed.

(* two objects side by side in one filled layer are two components *)
Example c37_tagged_example :
  let m := mkTmap (mkGrid 2 2 1 [mkTccell one_bits 1 0 0; mkTccell one_bits 1 0 0;
                                 mkTccell one_bits 2 0 0; mkTccell one_bits 2 0 0]) 0 0 false false in
  gwf (tm_grid m) /\ occs_ok t_occ (tm_grid m) /\ g_total (tm_grid m) < 2 ^ 32 /\ tm_valid m = false /\
  g_nz (tm_grid m) = 1 /\
  exists m', tm_update false m = Some (m', 2) /\
    component_topology t_occ t_comp (fun l => l) (mkKinds true true true) (tm_grid m')
      = Some [(1, (0, 0)); (2, (0, 0))].
Proof.
  cbv zeta. split; [repeat split; vm_compute; easy|]. split; [apply ex_cells_occs; reflexivity|]. do 3 (split; [reflexivity|]).
  eexists. split; [vm_compute; reflexivity|]. vm_compute; reflexivity.
Qed.
