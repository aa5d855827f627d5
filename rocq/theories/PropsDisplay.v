(** Property theorems C52, C53 and C69 to C74: exports for display. *)
From Coq Require Import ZArith List Bool Lia Reals Lra.
From Flocq Require Import Core BinarySingleNaN.
From Verif Require Import Util Grid Occ OccProofs FloatModel FilterModel TopologyModel ComponentMapModel
  ComponentMapSpec SurfaceModel SurfaceSpec SdfStateModel SdfStateSpec SdfStateProofs MeshProofs DisplayModel DisplaySpec
  DisplayProofs DisplayFloatProofs.
Import ListNotations.
Local Open Scope Z_scope.

(** ** C69 *)

(** The export of a map has one cube at the centre of each cell whose kind has a visible
    colour, in that colour, and no other; the separate export has the same, a marker for
    each kind.  Any of the four maps ([occ_of] reads the occupancy of a cell). *)
Theorem c69_for_display {P C} (centre : idx -> P) (occ_of : C -> occ) (g : grid C) collision free unknown :
  gwf g -> occs_ok occ_of g ->
  exists m, export_for_display P centre occ_of g collision free unknown = Some m /\
    shows centre m (fun i c => opaque c /\ kind_color occ_of g collision free unknown i c).
Proof. exact (for_display_shows centre occ_of g collision free unknown). Qed.
Print Assumptions c69_for_display.

Theorem c69_separate_display {P C} (centre : idx -> P) (occ_of : C -> occ) (g : grid C) collision free unknown :
  gwf g -> occs_ok occ_of g ->
  exists m1 m2 m3, export_for_separate_display P centre occ_of g collision free unknown = Some (m1, m2, m3) /\
    shows centre m1 (fun i c => opaque c /\ c = collision /\ side_is occ_of g i (Some Gt)) /\
    shows centre m2 (fun i c => opaque c /\ c = free /\ side_is occ_of g i (Some Lt)) /\
    shows centre m3 (fun i c => opaque c /\ c = unknown /\
      (side_is occ_of g i (Some Eq) \/ side_is occ_of g i None)).
Proof.
  intros W O. unfold export_for_separate_display.
  destruct (for_display_shows centre occ_of g collision no_color no_color W O) as (m1 & -> & S1).
  destruct (for_display_shows centre occ_of g no_color free no_color W O) as (m2 & -> & S2).
  destruct (for_display_shows centre occ_of g no_color no_color unknown W O) as (m3 & -> & S3).
  exists m1, m2, m3. split; [reflexivity|].
  assert (~ opaque no_color) as N by discriminate.
  split; [|split]; [revert S1|revert S2|revert S3]; apply shows_ext; intros i c; unfold kind_color;
    (split; [intros (V & [(A & ->)|[(A & ->)|(A & ->)]]); try contradiction; auto|intros (V & -> & A); split; [exact V|]; auto]).
Qed.
Print Assumptions c69_separate_display.

Definition red : color := mkColor b32_one b32_zero b32_zero b32_one.
Definition green : color := mkColor b32_zero b32_one b32_zero b32_one.
Definition blue : color := mkColor b32_zero b32_zero b32_one b32_one.
(** A filled, an unknown, an empty and a filled cell. *)
Definition row : grid occ := mkGrid 4 1 1 [one_bits; half_bits; zero_bits; one_bits].
Lemma row_ok : gwf row /\ occs_ok (fun o => o) row.
Proof.
  split; [unfold gwf; cbn; lia|]. intros i v H. unfold gget in H. destruct (in_bounds row i); [|discriminate].
  unfold zget in H. destruct (_ <? 0); [discriminate|]. unfold is_occ, one_bits, half_bits, zero_bits in *.
  apply nth_error_In in H. cbn [In g_cells row] in H. unfold one_bits, half_bits, zero_bits in H.
  destruct H as [<-|[<-|[<-|[<-|[]]]]]; lia.
Qed.
Example c69_case : gwf row /\ occs_ok (fun o => o) row /\
  export_for_display idx (fun i => i) (fun o => o) row red no_color blue =
    Some (mkMarker idx [(0,0,0); (1,0,0); (3,0,0)] [red; blue; red]) /\
  export_for_separate_display idx (fun i => i) (fun o => o) row red green blue =
    Some (mkMarker idx [(0,0,0); (3,0,0)] [red; red], mkMarker idx [(2,0,0)] [green], mkMarker idx [(1,0,0)] [blue]).
Proof. split; [apply row_ok|]. split; [apply row_ok|]. split; reflexivity. Qed.

(** ** C52 *)

(** A colour map with entries that give every object of the map its default colour is
    honoured.  Missing: every other colour map; see [c52_ignored_refuted] and
    [c52_empty_refuted]. *)
Theorem c52_default_colors_partial {P C} (centre : idx -> P) lookup (obj_of : C -> Z) (g : grid C) colors :
  gwf g -> NoDup (map fst colors) -> colors <> [] ->
  (forall i v, cell_is g i v -> In (obj_of v, lookup (obj_of v)) colors) ->
  exists m, export_objects_for_display P centre lookup obj_of g colors = Some m /\
    shows centre m (fun i c => opaque c /\ exists v, cell_is g i v /\ asked_color colors lookup (obj_of v) c).
Proof.
  intros W N NE D. destruct (objects_shown centre lookup obj_of g colors W) as (m & E & S).
  exists m. split; [exact E|]. revert S. apply shows_ext. intros i c. unfold cell_is, asked_color in *.
  assert (forall o c c', In (o, c) colors -> In (o, c') colors -> c = c') as U.
  { clear - N. induction colors as [|[o1 c1] l IH]; intros o c c' I I'; [destruct I|]. cbn [map fst] in N.
    inversion N as [|? ? N1 N2]; subst.
    assert (forall k, In (o1, k) l -> False) as X by (intros k J; apply N1; change o1 with (fst (o1, k)); now apply in_map).
    destruct I as [I|I], I' as [I'|I'].
    - congruence.
    - injection I as -> ->. exfalso. eauto.
    - injection I' as -> ->. exfalso. eauto.
    - eauto. }
  split.
  - intros (V & _ & v & Hv & ->). split; [exact V|]. exists v. split; [exact Hv|]. left. eauto.
  - intros (V & v & Hv & [(_ & I)|(X & _)]); [|contradiction]. split; [exact V|]. split; [exact NE|].
    exists v. split; [exact Hv|]. eapply U; eauto.
Qed.
Print Assumptions c52_default_colors_partial.

(** Whatever the default colours are, if they are visible: there are a map and a colour
    map such that the export does not show the listed object in its colour; and an
    empty colour map hides every object. *)
Theorem c52_ignored_refuted {P} (centre : idx -> P) lookup : (forall o, opaque (lookup o)) ->
  exists (g : grid Z) colors m, gwf g /\ colors <> [] /\
    export_objects_for_display P centre lookup (fun o => o) g colors = Some m /\
    ~ shows centre m (fun i c => opaque c /\ exists v, cell_is g i v /\ asked_color colors lookup v c).
Proof.
  intros V. exists (gconst 1 1 1 1), [(2, red)]. destruct (objects_shown centre lookup (fun o : Z => o) (gconst 1 1 1 1) [(2, red)])
    as (m & E & S); [apply gconst_wf; lia|].
  exists m. split; [apply gconst_wf; lia|]. split; [discriminate|]. split; [exact E|].
  intros (l & _ & Ep & _ & L). destruct S as (l' & _ & Ep' & _ & L').
  assert (In ((0,0,0), lookup 1) l') as I.
  { apply L'. split; [apply V|]. split; [discriminate|]. exists 1. auto. }
  assert (l <> []) as NE.
  { intros ->. rewrite Ep in Ep'. destruct l'; [destruct I|discriminate]. }
  destruct l as [|[i c] l]; [congruence|]. destruct (L i c) as (A & _).
  destruct (A (or_introl eq_refl)) as (_ & v & Hv & [(_ & H)|(H & _)]); [|discriminate].
  assert (v = 1) as -> by (unfold cell_is in Hv; rewrite gget_gconst in Hv by lia; destruct (in_bounds3 1 1 1 i); congruence).
  destruct H as [H|[]]. discriminate.
Qed.
Print Assumptions c52_ignored_refuted.

Theorem c52_empty_refuted {P} (centre : idx -> P) lookup : (forall o, opaque (lookup o)) ->
  exists (g : grid Z) m, gwf g /\
    export_objects_for_display P centre lookup (fun o => o) g [] = Some m /\
    ~ shows centre m (fun i c => opaque c /\ exists v, cell_is g i v /\ asked_color [] lookup v c).
Proof.
  intros V. exists (gconst 1 1 1 1). destruct (objects_shown centre lookup (fun o : Z => o) (gconst 1 1 1 1) [])
    as (m & E & S); [apply gconst_wf; lia|].
  exists m. split; [apply gconst_wf; lia|]. split; [exact E|].
  intros (l & _ & Ep & _ & L). destruct S as (l' & _ & Ep' & _ & L').
  assert (In ((0,0,0), lookup 1) l) as I.
  { apply L. split; [apply V|]. exists 1. split; [reflexivity|]. right. auto. }
  destruct l' as [|[i c] l'].
  - rewrite Ep' in Ep. destruct l; [destruct I|discriminate].
  - destruct (L' i c) as (A & _). destruct (A (or_introl eq_refl)) as (_ & X & _). now apply X.
Qed.
Print Assumptions c52_empty_refuted.

Definition objects : grid Z := mkGrid 3 1 1 [1; 2; 1].
Definition defaults (o : Z) : color := if o =? 1 then red else green.
Example c52_case : gwf objects /\ (forall o, opaque (defaults o)) /\
  (forall i v, cell_is objects i v -> In (v, defaults v) [(1, red); (2, green)]) /\
  export_objects_for_display idx (fun i => i) defaults (fun o => o) objects [(1, red); (2, green)] =
    Some (mkMarker idx [(0,0,0); (1,0,0); (2,0,0)] [red; green; red]) /\
  export_objects_for_display idx (fun i => i) defaults (fun o => o) objects [(1, blue)] =
    Some (mkMarker idx [(0,0,0); (1,0,0); (2,0,0)] [red; green; red]) /\
  export_objects_for_display idx (fun i => i) defaults (fun o => o) objects [] = Some (mkMarker idx [] []).
Proof.
  split; [unfold gwf; cbn; lia|]. split; [intros o; unfold defaults; now destruct (o =? 1)|]. split.
  - intros i v H. unfold cell_is, gget in H. destruct (in_bounds objects i); [|discriminate]. unfold zget in H.
    destruct (_ <? 0); [discriminate|]. apply nth_error_In in H. cbn [In g_cells objects] in H.
    destruct H as [<-|[<-|[<-|[]]]]; cbn; auto.
  - repeat split; reflexivity.
Qed.

(** ** C53 *)

(** Every surface cell of visible colour is shown, once and in its colour; every cube is
    that of a cell in its colour; and exactly the surface cells are shown when no other
    cell has a visible colour.  Missing: cells that are not on a surface are shown too,
    see [c53_interior_refuted]. *)
Theorem c53_surfaces_partial {P C} (centre : idx -> P) (occ_of : C -> occ) (g : grid C) collision free unknown :
  gwf g -> occs_ok occ_of g ->
  exists m, export_surfaces_for_display P centre occ_of g collision free unknown = Some m /\
    (exists S, shows centre m S /\
       (forall i c, surface_cell occ_of g i -> opaque c -> kind_color occ_of g collision free unknown i c -> S i c) /\
       (forall i c, S i c -> opaque c /\ kind_color occ_of g collision free unknown i c)) /\
    ((forall i c, opaque c -> kind_color occ_of g collision free unknown i c -> surface_cell occ_of g i) ->
     shows centre m (fun i c => surface_cell occ_of g i /\ opaque c /\ kind_color occ_of g collision free unknown i c)).
Proof.
  intros W O. rewrite surfaces_all by assumption.
  destruct (for_display_shows centre occ_of g collision free unknown W O) as (m & E & S).
  exists m. split; [exact E|]. split.
  - eexists. split; [exact S|]. split; [auto|]. intros i c H. exact H.
  - intros H. revert S. apply shows_ext. intros i c. split; [|tauto]. intros (V & K). split; eauto.
Qed.
Print Assumptions c53_surfaces_partial.

Theorem c53_object_surfaces_partial {P C} (centre : idx -> P) lookup (occ_of : C -> occ) (obj_of : C -> Z) (g : grid C) colors :
  gwf g -> occs_ok occ_of g -> colors <> [] ->
  exists m S, export_object_surfaces_for_display P centre lookup occ_of obj_of g colors = Some m /\ shows centre m S /\
    (forall i v, surface_cell occ_of g i -> cell_is g i v -> opaque (lookup (obj_of v)) -> S i (lookup (obj_of v))) /\
    (forall i c, S i c -> exists v, cell_is g i v /\ c = lookup (obj_of v)).
Proof.
  intros W O NE. rewrite object_surfaces_all by assumption.
  destruct (objects_shown centre lookup obj_of g colors W) as (m & E & S). eexists m, _.
  split; [exact E|]. split; [exact S|]. split.
  - intros i v _ Hv V. split; [exact V|]. split; [exact NE|]. exists v. auto.
  - intros i c (_ & _ & H). exact H.
Qed.
Print Assumptions c53_object_surfaces_partial.

(** Two filled cells and an empty one: the first is not on a surface and is shown. *)
Theorem c53_interior_refuted {P} (centre : idx -> P) :
  exists (g : grid occ) collision free unknown m S i c, gwf g /\ occs_ok (fun o => o) g /\ no_nans (fun o => o) g /\
    export_surfaces_for_display P centre (fun o => o) g collision free unknown = Some m /\
    shows centre m S /\ S i c /\ in_bounds g i = true /\ ~ surface_cell (fun o => o) g i.
Proof.
  set (g := mkGrid 3 1 1 [one_bits; one_bits; zero_bits] : grid occ).
  assert (forall i v, gget g i = Some v -> v = one_bits \/ v = zero_bits) as Vals.
  { intros i v H. unfold gget in H. destruct (in_bounds g i); [|discriminate]. unfold zget in H.
    destruct (_ <? 0); [discriminate|]. apply nth_error_In in H. cbn [In g_cells g] in H.
    destruct H as [<-|[<-|[<-|[]]]]; auto. }
  assert (gwf g) as W by (unfold gwf; cbn; lia).
  assert (occs_ok (fun o => o) g) as O.
  { intros i v H. destruct (Vals i v H) as [->| ->]; unfold is_occ, one_bits, zero_bits; lia. }
  assert (is_occ one_bits) as O1 by (unfold is_occ, one_bits; lia).
  assert (is_occ zero_bits) as O0 by (unfold is_occ, zero_bits; lia).
  assert (cmp_half one_bits = Some Gt) as C1 by (now apply occ_gt_spec).
  assert (cmp_half zero_bits = Some Lt) as C0 by (now apply occ_lt_spec).
  destruct (c53_surfaces_partial centre (fun o => o) g red green blue W O) as (m & E & _).
  rewrite surfaces_all in E by assumption.
  destruct (for_display_shows centre (fun o => o) g red green blue W O) as (m' & E' & S).
  rewrite E in E'. injection E' as <-.
  exists g, red, green, blue, m. eexists. exists (0, 0, 0), red. split; [exact W|]. split; [exact O|]. split.
  { intros i (c & Hc & H). destruct (Vals i c Hc) as [->| ->]; congruence. }
  split; [rewrite surfaces_all by assumption; exact E|]. split; [exact S|]. split.
  { split; [reflexivity|]. left. split; [|reflexivity]. exists one_bits. split; [reflexivity|exact C1]. }
  split; [reflexivity|]. intros ([[x y] z] & r & r' & (NE & A1 & A2 & A3) & (c & Hc & R) & (c' & Hc' & R') & D).
  cbn [ix iy iz fst snd] in *. injection Hc as <-. pose proof (gget_in_bounds _ _ _ Hc') as B.
  unfold in_bounds in B. apply in_bounds3_iff in B. cbn [g_nx g_ny g_nz g] in B.
  assert (x = 0 \/ x = 1) as X by lia. assert (y = 0) as -> by lia. assert (z = 0) as -> by lia.
  assert (c' = one_bits) as -> by (destruct X as [->| ->]; injection Hc' as <-; reflexivity). congruence.
Qed.
Print Assumptions c53_interior_refuted.

(** A map where every cell is on a surface. *)
Example c53_case : gwf row /\ occs_ok (fun o => o) row /\
  export_surfaces_for_display idx (fun i => i) (fun o => o) row red no_color no_color =
    Some (mkMarker idx [(0,0,0); (3,0,0)] [red; red]) /\
  surface_cell (fun o => o) row (0,0,0) /\ surface_cell (fun o => o) row (3,0,0).
Proof.
  split; [apply row_ok|]. split; [apply row_ok|]. split; [reflexivity|].
  assert (is_occ one_bits /\ is_occ half_bits /\ is_occ zero_bits) as (O1 & O2 & O3)
    by (unfold is_occ, one_bits, half_bits, zero_bits; lia).
  split.
  - exists (1,0,0), Gt, Eq. split; [split; [discriminate|cbn; lia]|]. split; [|split; [|discriminate]].
    + exists one_bits. split; [reflexivity|]. now apply occ_gt_spec.
    + exists half_bits. split; [reflexivity|]. now apply occ_eq_spec.
  - exists (2,0,0), Gt, Lt. split; [split; [discriminate|cbn; lia]|]. split; [|split; [|discriminate]].
    + exists one_bits. split; [reflexivity|]. now apply occ_gt_spec.
    + exists zero_bits. split; [reflexivity|]. now apply occ_lt_spec.
Qed.

(** ** C70 *)

(** Index maps: exactly the cells of the active entries are shown; an active entry
    outside of the map throws. *)
Theorem c70_index_map {P C} (centre : idx -> P) (g : grid C) entries surface :
  gwf g -> NoDup (map fst entries) ->
  (forall i v, In (i, v) entries -> 0 < v -> in_bounds g i = true) ->
  exists m, export_index_map_for_display P centre g entries surface = Some m /\
    shows centre m (fun i c => opaque c /\ c = surface /\ exists v, In (i, v) entries /\ 0 < v).
Proof. exact (export_index_map_shows centre g entries surface). Qed.
Print Assumptions c70_index_map.

Theorem c70_index_map_throws {P C} (centre : idx -> P) (g : grid C) entries surface i v :
  In (i, v) entries -> 0 < v -> in_bounds g i = false ->
  export_index_map_for_display P centre g entries surface = None.
Proof. exact (export_index_map_throws centre g entries surface i v). Qed.
Print Assumptions c70_index_map_throws.

(** Index vectors: a cube for each index, in order, also for repeated ones; an index
    outside of the map throws. *)
Theorem c70_indices {P C} (centre : idx -> P) (g : grid C) indices surface :
  gwf g -> Forall (fun i => in_bounds g i = true) indices -> opaque surface ->
  export_indices_for_display P centre g indices surface =
  Some (mkMarker P (map centre indices) (repeat surface (length indices))).
Proof. exact (export_indices_points centre g indices surface). Qed.
Print Assumptions c70_indices.

Theorem c70_indices_throws {P C} (centre : idx -> P) (g : grid C) indices surface i :
  In i indices -> in_bounds g i = false -> export_indices_for_display P centre g indices surface = None.
Proof. exact (export_indices_throws centre g indices surface i). Qed.
Print Assumptions c70_indices_throws.

Example c70_case :
  NoDup (map fst [((3,0,0), 1); ((7,0,0), 0); ((1,0,0), 1)] : list idx) /\
  (forall i v, In (i, v) [((3,0,0), 1); ((7,0,0), 0); ((1,0,0), 1)] -> 0 < v -> in_bounds row i = true) /\
  export_index_map_for_display idx (fun i => i) row [((3,0,0), 1); ((7,0,0), 0); ((1,0,0), 1)] red =
    Some (mkMarker idx [(3,0,0); (1,0,0)] [red; red]) /\
  Forall (fun i => in_bounds row i = true) [(3,0,0); (1,0,0); (3,0,0)] /\
  in_bounds row (7,0,0) = false.
Proof.
  split; [repeat constructor; cbn; intuition discriminate|]. split.
  - intros i v [E|[E|[E|[]]]] V; injection E as <- <-; reflexivity || lia.
  - split; [reflexivity|]. split; [repeat constructor|reflexivity].
Qed.

(** ** C71 *)

(** Every cell is shown, in the colour of its component; those of occupancy 0.5 in grey
    unless the flag is given. *)
Theorem c71_components {P C} (centre : idx -> P) lookup (occ_of : C -> occ) (comp_of : C -> Z) (g : grid C) color_unknown :
  gwf g -> occs_ok occ_of g -> (forall n, opaque (lookup n)) ->
  exists m, export_components_for_display P centre lookup occ_of comp_of g color_unknown = Some m /\
    shows centre m (fun i c => exists v, cell_is g i v /\
      ((c = lookup (comp_of v) /\ (color_unknown = true \/ cmp_half (occ_of v) <> Some Eq)) \/
       (c = grey /\ color_unknown = false /\ cmp_half (occ_of v) = Some Eq))).
Proof.
  intros W O V. unfold export_components_for_display.
  destruct (export_values_shows centre g (fun v => if negb (occ_eq (occ_of v)) then lookup (comp_of v)
    else if color_unknown then lookup (comp_of v) else grey) W) as (m & E & S).
  exists m. split; [exact E|]. revert S. apply shows_ext. intros i c. unfold cell_is. split.
  - intros (_ & v & Hv & ->). exists v. split; [exact Hv|]. pose proof (occ_eq_spec _ (O i v Hv)) as Q.
    destruct (occ_eq (occ_of v)); cbn [negb].
    + destruct color_unknown; [left; auto|right]. split; [reflexivity|]. split; [reflexivity|]. now apply Q.
    + left. split; [reflexivity|]. right. intros X. apply Q in X. discriminate.
  - intros (v & Hv & H). pose proof (occ_eq_spec _ (O i v Hv)) as Q.
    assert (c = (if negb (occ_eq (occ_of v)) then lookup (comp_of v)
      else if color_unknown then lookup (comp_of v) else grey)) as Ec.
    { destruct H as [(-> & [->|N])|(-> & -> & X)].
      - now destruct (occ_eq (occ_of v)).
      - destruct (occ_eq (occ_of v)); [|reflexivity]. exfalso. now apply N, Q.
      - apply Q in X. now rewrite X. }
    split; [|eauto]. destruct H as [(-> & _)|(-> & _)]; [apply V|reflexivity].
Qed.
Print Assumptions c71_components.

(** Exactly the cells of the object and segment are shown, in one colour; without
    computed segments the export throws. *)
Theorem c71_segment {P} (centre : idx -> P) lookup hot_to_cold m object segment n :
  gwf (tm_grid m) -> tm_num_segments m = Some n ->
  opaque (lookup segment) -> opaque (hot_to_cold segment n) ->
  exists mk c, export_segment_for_display P centre lookup hot_to_cold m object segment = Some mk /\
    (c = lookup segment \/ c = hot_to_cold segment n) /\
    shows centre mk (fun i c' => c' = c /\ exists v, cell_is (tm_grid m) i v /\ t_obj v = object /\ t_seg v = segment).
Proof.
  intros W N V1 V2. unfold export_segment_for_display. rewrite N. cbn [obind].
  destruct (export_values_shows centre (tm_grid m) (fun v => if (t_obj v =? object) && (t_seg v =? segment)
    then if n <? 22 then lookup (t_seg v) else hot_to_cold (t_seg v) n else no_color) W) as (mk & E & S).
  exists mk, (if n <? 22 then lookup segment else hot_to_cold segment n). split; [exact E|].
  split; [destruct (n <? 22); auto|]. revert S. apply shows_ext. intros i c. unfold cell_is. split.
  - intros (V & v & Hv & ->). destruct (_ && _) eqn:Q; [|discriminate V]. apply andb_true_iff in Q as (Q1 & Q2).
    apply Z.eqb_eq in Q1, Q2. rewrite Q2. split; [reflexivity|]. exists v. auto.
  - intros (-> & v & Hv & Q1 & Q2). split; [now destruct (n <? 22)|]. exists v. split; [exact Hv|].
    rewrite Q1, Q2, !Z.eqb_refl. reflexivity.
Qed.
Print Assumptions c71_segment.

Theorem c71_segment_throws {P} (centre : idx -> P) lookup hot_to_cold m object segment :
  tm_num_segments m = None -> export_segment_for_display P centre lookup hot_to_cold m object segment = None.
Proof. intros H. unfold export_segment_for_display. now rewrite H. Qed.
Print Assumptions c71_segment_throws.

Definition ex_tmap : tmap :=
  mkTmap (mkGrid 3 1 1 [mkTccell one_bits 1 0 1; mkTccell one_bits 1 0 2; mkTccell half_bits 1 0 1]) 0 2 false true.
Example c71_case : gwf (tm_grid ex_tmap) /\ tm_num_segments ex_tmap = Some 2 /\
  export_segment_for_display idx (fun i => i) defaults (fun _ _ => blue) ex_tmap 1 1 =
    Some (mkMarker idx [(0,0,0); (2,0,0)] [red; red]) /\
  export_components_for_display idx (fun i => i) defaults t_occ t_seg (tm_grid ex_tmap) false =
    Some (mkMarker idx [(0,0,0); (1,0,0); (2,0,0)] [red; green; grey]).
Proof. split; [unfold gwf; cbn; lia|]. repeat split; reflexivity. Qed.

(** ** C72 *)

(** Fields of finite distances: every cell is shown, by sign green, red or blue; the
    channel of a positive or negative distance is between 0.2f and 1 and does not
    decrease with the distance. *)
Theorem c72_sdf_partial {P} (centre : idx -> P) (s : field_state b64) (alpha : b32) :
  gwf (f_grid s) -> (forall i d, cell_is (f_grid s) i d -> is_finite d = true) ->
  (f_locked s = true -> is_minmax (g_cells (f_grid s)) (f_minmax s)) ->
  opaque (mkColor b32_zero b32_zero b32_zero alpha) ->
  exists m (col : b64 -> color), export_sdf_for_display P centre s alpha = Some m /\
    shows centre m (fun i c => exists d, cell_is (f_grid s) i d /\ c = col d) /\
    (forall i d, cell_is (f_grid s) i d ->
       ca (col d) = (if Bltb b32_one alpha then b32_one else alpha) /\
       ((0 < B2R d)%R -> cr (col d) = b32_zero /\ cb (col d) = b32_zero /\
          Bleb b32_02 (cg (col d)) = true /\ Bleb (cg (col d)) b32_one = true) /\
       ((B2R d < 0)%R -> cg (col d) = b32_zero /\ cb (col d) = b32_zero /\
          Bleb b32_02 (cr (col d)) = true /\ Bleb (cr (col d)) b32_one = true) /\
       (B2R d = 0%R -> col d = mkColor b32_zero b32_zero b32_one (ca (col d)))) /\
    (forall i d i' d', cell_is (f_grid s) i d -> cell_is (f_grid s) i' d' ->
       ((0 < B2R d <= B2R d')%R -> Bleb (cg (col d)) (cg (col d')) = true) /\
       ((B2R d' <= B2R d < 0)%R -> Bleb (cr (col d)) (cr (col d')) = true)).
Proof.
  intros W F L Va.
  assert (forall d, In d (g_cells (f_grid s)) -> exists i, cell_is (f_grid s) i d) as Cells.
  { intros d I. unfold cell_is. now apply gget_of_In. }
  assert (Forall (fun d : b64 => is_nan d = false) (g_cells (f_grid s))) as Nan.
  { apply Forall_forall. intros d I. destruct (Cells d I) as (i & H). specialize (F i d H). now destruct d. }
  destruct (get_minmax_extremes s W Nan L) as (mm & E & (I1 & I2 & B)).
  assert (is_finite (fst mm) = true) as F1 by (destruct (Cells _ I1) as (i & H); eauto).
  assert (is_finite (snd mm) = true) as F2 by (destruct (Cells _ I2) as (i & H); eauto).
  assert (forall i d, cell_is (f_grid s) i d -> (B2R (fst mm) <= B2R d <= B2R (snd mm))%R) as Ext.
  { intros i d H. destruct (B d) as (A1 & A2); [eapply cell_In; exact H|].
    rewrite Bleb_correct in A1 by eauto. rewrite Bleb_correct in A2 by eauto.
    split; [revert A1|revert A2]; (case Rle_bool_spec; [auto|discriminate]). }
  assert (clamp01_b32 alpha = (if Bltb b32_one alpha then b32_one else alpha)) as Ca.
  { unfold clamp01_b32, b32_ltb. unfold opaque in Va. cbn [ca] in Va. now rewrite (positive_not_negative _ Va). }
  assert (forall d, ca (sdf_color alpha mm d) = clamp01_b32 alpha) as Al.
  { intros d. unfold sdf_color. destruct (b64_ltb _ d); [reflexivity|]. now destruct (b64_ltb d _). }
  unfold export_sdf_for_display. rewrite E. cbn [obind].
  destruct (export_values_shows centre (f_grid s) (sdf_color alpha mm) W) as (m & Em & S).
  assert (forall d, is_finite d = true -> (0 < B2R d)%R ->
    sdf_color alpha mm d = mkColor b32_zero (scale_color d (snd mm)) b32_zero (clamp01_b32 alpha)) as Pos.
  { intros d Fd H. unfold sdf_color, b64_ltb. rewrite Bltb_correct by easy. now rewrite Rlt_bool_true. }
  assert (forall d, is_finite d = true -> (B2R d < 0)%R ->
    sdf_color alpha mm d = mkColor (scale_color d (fst mm)) b32_zero b32_zero (clamp01_b32 alpha)) as Neg.
  { intros d Fd H. unfold sdf_color, b64_ltb. rewrite !Bltb_correct by easy.
    rewrite Rlt_bool_false by (cbn; lra). now rewrite Rlt_bool_true. }
  exists m, (sdf_color alpha mm). split; [exact Em|]. split; [|split].
  - revert S. apply shows_ext. intros i c. split; [tauto|]. intros (d & H & ->). split; [|eauto].
    unfold opaque in *. rewrite Al, Ca. destruct (Bltb b32_one alpha); [reflexivity|exact Va].
  - intros i d H. pose proof (F i d H) as Fd. pose proof (Ext i d H) as Ed. rewrite Al.
    split; [exact Ca|]. split; [|split].
    + intros H0. rewrite (Pos d Fd H0). cbn [cr cg cb]. split; [reflexivity|]. split; [reflexivity|].
      apply scale_color_range; try easy; [lra|]. rewrite !Rabs_right by lra. lra.
    + intros H0. rewrite (Neg d Fd H0). cbn [cr cg cb]. split; [reflexivity|]. split; [reflexivity|].
      apply scale_color_range; try easy; [lra|]. rewrite !Rabs_left by lra. lra.
    + intros H0. unfold sdf_color, b64_ltb. rewrite !Bltb_correct by easy.
      rewrite !Rlt_bool_false by (cbn; lra). reflexivity.
  - intros i d i' d' H H'. pose proof (F i d H) as Fd. pose proof (F i' d' H') as Fd'.
    pose proof (Ext i d H) as Ed. pose proof (Ext i' d' H') as Ed'. split.
    + intros H0. rewrite (Pos d Fd), (Pos d' Fd') by lra. cbn [cg].
      apply scale_color_mono; try easy; [lra| |]; rewrite !Rabs_right by lra; lra.
    + intros H0. rewrite (Neg d Fd), (Neg d' Fd') by lra. cbn [cr].
      apply scale_color_mono; try easy; [lra| |]; rewrite !Rabs_left by lra; lra.
Qed.
Print Assumptions c72_sdf_partial.

(** The field of a map without obstacles, where every distance is infinite: the colour
    is not a number. *)
Theorem c72_infinite_refuted {P} (centre : idx -> P) :
  exists (s : field_state b64) m S i c, gwf (f_grid s) /\ Forall (fun d : b64 => is_nan d = false) (g_cells (f_grid s)) /\
    export_sdf_for_display P centre s b32_one = Some m /\ shows centre m S /\ S i c /\
    is_nan (cg c) = true.
Proof.
  set (inf := B754_infinity false : b64).
  exists (f_construct (B754_zero false) 2 1 1 inf).
  assert (gwf (gconst 2 1 1 inf)) as W by (apply gconst_wf; lia).
  destruct (export_values_shows centre (gconst 2 1 1 inf) (sdf_color b32_one (inf, inf)) W) as (m & E & S).
  exists m. eexists. exists (1,0,0), (sdf_color b32_one (inf, inf) inf). split; [exact W|].
  split; [repeat constructor|]. split; [exact E|]. split; [exact S|]. split; [|reflexivity].
  split; [reflexivity|]. exists inf. split; reflexivity.
Qed.
Print Assumptions c72_infinite_refuted.

Definition d_one : b64 := @B754_finite 53 1024 false 4503599627370496 (-52) eq_refl.
Definition d_neg : b64 := @B754_finite 53 1024 true 4503599627370496 (-51) eq_refl.
Definition d_tiny : b64 := @B754_finite 53 1024 false 4503599627370496 (-252) eq_refl.
Definition ex_field : field_state b64 :=
  mkField (mkGrid 3 1 1 [d_one; d_neg; B754_zero false]) false (B754_zero false, B754_zero false) [].
Example c72_case : gwf (f_grid ex_field) /\ Forall (fun d : b64 => is_finite d = true) (g_cells (f_grid ex_field)) /\
  get_minmax b64_ltb ex_field = Some (d_neg, d_one) /\ (0 < B2R d_one)%R /\ (B2R d_neg < 0)%R.
Proof.
  split; [unfold gwf; cbn; lia|]. split; [repeat constructor|]. split; [reflexivity|].
  split; [apply F2R_gt_0|apply F2R_lt_0]; reflexivity.
Qed.

(** ** C73 *)

(** The collision export shows every cell of distance at most zero; distances above
    2^-150 are not shown.  Missing: positive distances up to 2^-150, see
    [c73_tiny_refuted]. *)
Theorem c73_collision_partial {P} (centre : idx -> P) (s : field_state b64) (alpha : b32) :
  gwf (f_grid s) -> (forall i d, cell_is (f_grid s) i d -> is_finite d = true) ->
  (forall i d, cell_is (f_grid s) i d -> (B2R d <= 0 \/ bpow radix2 (-150) < B2R d)%R) ->
  opaque (mkColor b32_zero b32_zero b32_zero alpha) ->
  exists m c, export_collision_for_display P centre s alpha = Some m /\
    c = mkColor b32_one b32_zero b32_zero (if Bltb b32_one alpha then b32_one else alpha) /\
    shows centre m (fun i c' => c' = c /\ exists d, cell_is (f_grid s) i d /\ (B2R d <= 0)%R).
Proof.
  intros W F D Va.
  assert (clamp01_b32 alpha = (if Bltb b32_one alpha then b32_one else alpha)) as Ca.
  { unfold clamp01_b32, b32_ltb. unfold opaque in Va. cbn [ca] in Va. now rewrite (positive_not_negative _ Va). }
  destruct (export_values_shows centre (f_grid s) (collision_color alpha) W) as (m & E & S).
  exists m. eexists. split; [exact E|]. split; [reflexivity|]. revert S. apply shows_ext. intros i c.
  rewrite <- Ca. unfold collision_color. split.
  - intros (V & d & H & ->). destruct (b32_leb _ _) eqn:Q; [|discriminate V]. split; [reflexivity|].
    exists d. split; [exact H|]. apply narrowed_le in Q as [->|(_ & Q)]; [now specialize (F i _ H)|].
    destruct (D i d H); lra.
  - intros (-> & d & H & H0).
    assert (b32_leb (b32_of_b64 d) b32_zero = true) as Q.
    { apply narrowed_le. right. split; [eauto|]. pose proof (bpow_ge_0 radix2 (-150)). lra. }
    split; [|exists d; now rewrite Q]. unfold opaque. cbn [ca]. rewrite Ca.
    destruct (Bltb b32_one alpha); [reflexivity|exact Va].
Qed.
Print Assumptions c73_collision_partial.

Theorem c73_tiny_refuted {P} (centre : idx -> P) :
  exists (s : field_state b64) m S i c d, gwf (f_grid s) /\
    export_collision_for_display P centre s b32_one = Some m /\ shows centre m S /\ S i c /\
    cell_is (f_grid s) i d /\ is_finite d = true /\ (0 < B2R d)%R.
Proof.
  exists (f_construct (B754_zero false) 1 1 1 d_tiny).
  assert (gwf (gconst 1 1 1 d_tiny)) as W by (apply gconst_wf; lia).
  destruct (export_values_shows centre (gconst 1 1 1 d_tiny) (collision_color b32_one) W) as (m & E & S).
  exists m. eexists. exists (0,0,0). eexists. exists d_tiny. split; [exact W|]. split; [exact E|].
  split; [exact S|]. split; [|split; [reflexivity|]].
  - assert (b32_leb (b32_of_b64 d_tiny) b32_zero = true) as Q.
    { apply narrowed_le. right. split; [reflexivity|]. unfold d_tiny, B2R, F2R. cbn [Fnum Fexp SpecFloat.cond_Zopp].
      replace (IZR 4503599627370496) with (bpow radix2 52) by (cbn; lra).
      rewrite <- bpow_plus. apply bpow_le. lia. }
    split; [|exists d_tiny; split; [reflexivity|unfold collision_color; rewrite Q; reflexivity]]. reflexivity.
  - split; [reflexivity|]. apply F2R_gt_0. reflexivity.
Qed.
Print Assumptions c73_tiny_refuted.

Example c73_case : forall i d, cell_is (f_grid ex_field) i d ->
  is_finite d = true /\ (B2R d <= 0 \/ bpow radix2 (-150) < B2R d)%R.
Proof.
  intros i d H. unfold cell_is, gget in H. destruct (in_bounds _ i); [|discriminate]. unfold zget in H.
  destruct (_ <? 0); [discriminate|]. apply nth_error_In in H. cbn [In g_cells f_grid ex_field] in H.
  destruct H as [<-|[<-|[<-|[]]]]; (split; [reflexivity|]).
  - right. unfold d_one, B2R, F2R. cbn [Fnum Fexp SpecFloat.cond_Zopp].
    replace (IZR 4503599627370496) with (bpow radix2 52) by (cbn; lra). rewrite <- bpow_plus. apply bpow_lt. lia.
  - left. apply Rlt_le. apply F2R_lt_0. reflexivity.
  - left. cbn. lra.
Qed.

(** ** C74 *)

(** Every voxel of every allocated chunk of a dynamic spatial hashed map is shown once,
    at its own place, when its kind has a visible colour.  Chunks lie at multiples of
    their size. *)
Theorem c74_hashed_map {P} (centre : idx -> P) n (chunks : list (idx * list occ)) collision free unknown :
  0 < ix n -> 0 < iy n -> 0 < iz n -> NoDup (map fst chunks) ->
  (forall base cells, In (base, cells) chunks -> zlen cells = ix n * iy n * iz n /\
     (ix n | ix base) /\ (iy n | iy base) /\ (iz n | iz base)) ->
  (forall base cells v, In (base, cells) chunks -> In v cells -> is_occ v) ->
  exists m, export_chunks_for_display P centre n chunks collision free unknown = Some m /\
    shows centre m (fun i c => opaque c /\
      exists base cells x y z v, In (base, cells) chunks /\
        0 <= x < ix n /\ 0 <= y < iy n /\ 0 <= z < iz n /\
        i = (x + ix base, y + iy base, z + iz base) /\
        zget cells ((x * iy n + y) * iz n + z) = Some v /\
        ((cmp_half v = Some Gt /\ c = collision) \/ (cmp_half v = Some Lt /\ c = free) \/
         ((cmp_half v = Some Eq \/ cmp_half v = None) /\ c = unknown))).
Proof.
  intros Nx Ny Nz ND H O. unfold export_chunks_for_display.
  destruct (export_chunks_shows centre n chunks (occupancy_color collision free unknown) Nx Ny Nz ND) as (m & E & S).
  { intros base cells I. destruct (H base cells I) as (A & B). split; [exact B|exact A]. }
  exists m. split; [exact E|]. revert S. apply shows_ext. intros i c.
  assert (forall v, is_occ v -> (c = occupancy_color collision free unknown v <->
    ((cmp_half v = Some Gt /\ c = collision) \/ (cmp_half v = Some Lt /\ c = free) \/
         ((cmp_half v = Some Eq \/ cmp_half v = None) /\ c = unknown)))) as K.
  { intros v Ov. destruct (occupancy_color_cases collision free unknown v Ov) as [(A & ->)|[(A & ->)|(A & ->)]].
    - rewrite A. intuition congruence.
    - rewrite A. intuition congruence.
    - intuition congruence. }
  split.
  - intros (V & base & cells & [[x y] z] & v & I & B & -> & Hv & Hc). split; [exact V|].
    apply in_bounds3_iff in B. exists base, cells, x, y, z, v. split; [exact I|]. split; [tauto|]. split; [tauto|].
    split; [tauto|]. split; [reflexivity|]. split.
    + exact Hv.
    + apply K; [|exact Hc]. eapply O; [exact I|]. eapply zget_In. exact Hv.
  - intros (V & base & cells & x & y & z & v & I & B1 & B2 & B3 & -> & Hv & Hc). split; [exact V|].
    exists base, cells, (x, y, z), v. split; [exact I|]. split; [now apply in_bounds3_iff|]. split; [reflexivity|]. split.
    + exact Hv.
    + apply K; [|exact Hc]. eapply O; [exact I|]. eapply zget_In. exact Hv.
Qed.
Print Assumptions c74_hashed_map.

Example c74_case :
  let chunks := [((0,0,0), [one_bits; half_bits]); ((-2,0,0), [zero_bits; one_bits])] : list (idx * list occ) in
  NoDup (map fst chunks) /\
  (forall base cells, In (base, cells) chunks -> zlen cells = 2 /\ (2 | ix base) /\ (1 | iy base) /\ (1 | iz base)) /\
  export_chunks_for_display idx (fun i => i) (2,1,1) chunks red green blue =
    Some (mkMarker idx [(0,0,0); (1,0,0); (-2,0,0); (-1,0,0)] [red; blue; green; red]).
Proof.
  split; [repeat constructor; cbn; intuition discriminate|]. split; [|reflexivity].
  intros base cells [E|[E|[]]]; injection E as <- <-; cbn; repeat split; try apply Z.divide_1_l.
  - exists 0. reflexivity.
  - exists (-1). reflexivity.
Qed.
