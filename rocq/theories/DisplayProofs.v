(** Proofs about exports for display. *)
From Coq Require Import ZArith List Bool Lia Reals Lra.
From Flocq Require Import Core BinarySingleNaN.
From Verif Require Import Util Grid Occ OccProofs FloatModel FilterModel TopologyModel ComponentMapModel
  ComponentMapSpec SerialModel SurfaceModel SurfaceSpec SurfaceProofs SdfStateModel SdfStateSpec SdfStateProofs DisplayModel DisplaySpec.
Import ListNotations.
Local Open Scope Z_scope.

(** ** Loops *)

Lemma ofold_flat_map {A B E} (f : A -> E -> option A) (h : B -> list E) l a :
  ofold f (flat_map h l) a = ofold (fun a b => ofold f (h b) a) l a.
Proof.
  revert a. induction l as [|b l IH]; intros a; [reflexivity|]. cbn [flat_map ofold].
  assert (forall l1 l2 a, ofold f (l1 ++ l2) a = let* a' := ofold f l1 a in ofold f l2 a') as App.
  { clear. induction l1 as [|e l1 IH]; intros l2 a; [reflexivity|]. cbn [app ofold].
    destruct (f a e) as [a'|]; cbn [obind]; [apply IH|reflexivity]. }
  rewrite App. destruct (ofold f (h b) a) as [a'|]; cbn [obind]; [apply IH|reflexivity].
Qed.

Lemma ofold_ext {A E} (f f' : A -> E -> option A) l a :
  (forall a e, In e l -> f a e = f' a e) -> ofold f l a = ofold f' l a.
Proof.
  revert a. induction l as [|e l IH]; intros a H; [reflexivity|]. cbn [ofold].
  rewrite H by now left. destruct (f' a e) as [a'|]; [|reflexivity]. cbn [obind].
  apply IH. intros a0 e0 I. apply H. now right.
Qed.

Lemma ofold_map {A B E} (f : A -> E -> option A) (h : B -> E) l a :
  ofold f (map h l) a = ofold (fun a b => f a (h b)) l a.
Proof.
  revert a. induction l as [|b l IH]; intros a; [reflexivity|]. cbn [map ofold].
  destruct (f a (h b)); [apply IH|reflexivity].
Qed.

Section Markers.
Context {P : Type} (centre : idx -> P).
Notation show := (show P centre).

Definition shown_pairs (l : list (idx * color)) : list (idx * color) := filter (fun e => visible (snd e)) l.

Lemma ofold_show {E} (f : marker P -> E -> option (marker P)) (pos : E -> idx) (col : E -> color) es :
  (forall m e, In e es -> f m e = Some (show m (pos e) (col e))) ->
  forall m, exists m', ofold f es m = Some m' /\
    let l := shown_pairs (map (fun e => (pos e, col e)) es) in
    mk_points P m' = mk_points P m ++ map (fun e => centre (fst e)) l /\
    mk_colors P m' = mk_colors P m ++ map snd l.
Proof.
  induction es as [|e es IH]; intros H m.
  - exists m. cbn. rewrite !app_nil_r. auto.
  - cbn [ofold]. rewrite H by now left. cbn [obind].
    destruct (IH (fun m e I => H m e (or_intror I)) (show m (pos e) (col e))) as (m' & E1 & P1 & C1).
    exists m'. split; [exact E1|]. cbn zeta in *. rewrite P1, C1. unfold show, shown_pairs. cbn [map filter snd].
    destruct (visible (col e)); [|auto]. cbn [map fst snd mk_points mk_colors]. rewrite <- !app_assoc. auto.
Qed.

Lemma filter_map_NoDup (l : list (idx * color)) f : NoDup (map fst l) -> NoDup (map fst (filter f l)).
Proof.
  induction l as [|e l IH]; [auto|]. cbn [map filter]. intros N. inversion N as [|? ? N1 N2]; subst.
  destruct (f e); [|auto]. cbn [map]. constructor; [|auto].
  intros I. apply N1. apply in_map_iff in I as (x & <- & I). apply filter_In in I as (I & _). now apply in_map.
Qed.

(** A loop over distinct indices. *)
Lemma show_loop {E} (f : marker P -> E -> option (marker P)) (pos : E -> idx) (col : E -> color) es :
  (forall m e, In e es -> f m e = Some (show m (pos e) (col e))) -> NoDup (map pos es) ->
  exists m, ofold f es (empty_marker P) = Some m /\
    shows centre m (fun i c => opaque c /\ exists e, In e es /\ pos e = i /\ col e = c).
Proof.
  intros H N. destruct (ofold_show f pos col es H (empty_marker P)) as (m & E1 & P1 & C1).
  exists m. split; [exact E1|]. cbn zeta in *. cbn [empty_marker mk_points mk_colors app] in *.
  exists (shown_pairs (map (fun e => (pos e, col e)) es)). split.
  { apply filter_map_NoDup. rewrite map_map. exact N. }
  split; [exact P1|]. split; [exact C1|]. intros i c. unfold shown_pairs. rewrite filter_In, in_map_iff.
  cbn [snd]. split.
  - intros ((e & Ee & I) & V). injection Ee as <- <-. split; [exact V|]. exists e. auto.
  - intros (V & e & I & <- & <-). split; [exists e; auto|exact V].
Qed.

Lemma shows_ext m (S S' : idx -> color -> Prop) :
  (forall i c, S i c <-> S' i c) -> shows centre m S -> shows centre m S'.
Proof.
  intros H (l & N & Ep & Ec & L). exists l. split; [exact N|]. split; [exact Ep|]. split; [exact Ec|].
  intros i c. rewrite L. apply H.
Qed.

(** ** Dense grids *)

Lemma export_grid_shows {C} (g : grid C) (color_fn : C -> idx -> option color) :
  gwf g -> (forall i v, gget g i = Some v -> color_fn v i <> None) ->
  exists m, export_grid P centre g color_fn = Some m /\
    shows centre m (fun i c => opaque c /\ exists v, gget g i = Some v /\ color_fn v i = Some c).
Proof.
  intros W H. unfold export_grid.
  set (col := fun i => match gget g i with
                       | Some v => match color_fn v i with Some c => c | None => no_color end
                       | None => no_color end).
  assert (forall i, In i (all_idx (g_nx g) (g_ny g) (g_nz g)) <-> in_bounds g i = true) as IA.
  { intros i. apply in_all_idx. }
  match goal with |- context [ofold ?f _ _] => destruct (show_loop f (fun i => i) col
    (all_idx (g_nx g) (g_ny g) (g_nz g))) as (m & E & S) end.
  - intros m i I. apply IA in I. destruct (gget_some g i W I) as (v & Hv). unfold col. rewrite Hv. cbn [obind].
    specialize (H i v Hv). destruct (color_fn v i) as [c|]; [reflexivity|congruence].
  - rewrite map_id. apply NoDup_all_idx.
  - exists m. split; [exact E|]. revert S. apply shows_ext. intros i c. split.
    + intros (V & j & I & <- & <-). split; [exact V|]. apply IA in I. destruct (gget_some g j W I) as (v & Hv).
      exists v. split; [exact Hv|]. unfold col. rewrite Hv. specialize (H j v Hv).
      destruct (color_fn v j); congruence.
    + intros (V & v & Hv & Hc). split; [exact V|]. exists i. split; [apply IA; eapply gget_in_bounds; eauto|].
      split; [reflexivity|]. unfold col. now rewrite Hv, Hc.
Qed.

(** A colour function that does not depend on the index and always answers. *)
Lemma export_values_shows {C} (g : grid C) (col : C -> color) : gwf g ->
  exists m, export_grid P centre g (fun v _ => Some (col v)) = Some m /\
    shows centre m (fun i c => opaque c /\ exists v, gget g i = Some v /\ c = col v).
Proof.
  intros W. destruct (export_grid_shows g (fun v _ => Some (col v)) W) as (m & E & S); [discriminate|].
  exists m. split; [exact E|]. revert S. apply shows_ext. intros i c. split.
  - intros (V & v & Hv & Hc). split; [exact V|]. exists v. split; [exact Hv|congruence].
  - intros (V & v & Hv & ->). split; [exact V|]. exists v. auto.
Qed.

Lemma occupancy_color_cases a b c o : is_occ o ->
  (cmp_half o = Some Gt /\ occupancy_color a b c o = a) \/
  (cmp_half o = Some Lt /\ occupancy_color a b c o = b) \/
  ((cmp_half o = Some Eq \/ cmp_half o = None) /\ occupancy_color a b c o = c).
Proof.
  intros H. unfold occupancy_color. pose proof (occ_gt_spec o H) as G. pose proof (occ_lt_spec o H) as L.
  destruct (occ_gt o); [left; split; [now apply G|reflexivity]|].
  destruct (occ_lt o); [right; left; split; [now apply L|reflexivity]|].
  right; right. split; [|reflexivity]. destruct (cmp_half o) as [[]|]; auto.
  - destruct L as (_ & L). now discriminate L.
  - destruct G as (_ & G). now discriminate G.
Qed.

(** ** Surfaces *)

Lemma surface_condition_in {C} (occ_of : C -> occ) (g : grid C) i :
  gwf g -> occs_ok occ_of g -> in_bounds g i = true -> surface_condition occ_of g i = Some true.
Proof.
  intros W O B. unfold surface_condition.
  destruct (is_surface_index_in occ_of g i W O B) as (b & -> & _). reflexivity.
Qed.

(** The surface exports are the exports of the whole map. *)
Lemma surfaces_all {C} (occ_of : C -> occ) (g : grid C) a b c :
  gwf g -> occs_ok occ_of g ->
  export_surfaces_for_display P centre occ_of g a b c = export_for_display P centre occ_of g a b c.
Proof.
  intros W O. unfold export_surfaces_for_display, export_for_display, export_grid. apply ofold_ext.
  intros m i I. apply in_all_idx in I. destruct (gget g i) as [v|] eqn:Hv; [|reflexivity]. cbn [obind].
  rewrite (surface_condition_in occ_of g i W O I). reflexivity.
Qed.

Lemma object_surfaces_all {C} lookup (occ_of : C -> occ) (obj_of : C -> Z) (g : grid C) m :
  gwf g -> occs_ok occ_of g ->
  export_object_surfaces_for_display P centre lookup occ_of obj_of g m =
  export_objects_for_display P centre lookup obj_of g m.
Proof.
  intros W O. unfold export_object_surfaces_for_display, export_objects_for_display, export_grid. apply ofold_ext.
  intros k i I. apply in_all_idx in I. destruct (gget g i) as [v|] eqn:Hv; [|reflexivity]. cbn [obind].
  rewrite (surface_condition_in occ_of g i W O I). reflexivity.
Qed.

(** ** Lists of indices *)

Lemma export_index_map_shows {C} (g : grid C) entries surface : gwf g -> NoDup (map fst entries) ->
  (forall i v, In (i, v) entries -> 0 < v -> in_bounds g i = true) ->
  exists m, export_index_map_for_display P centre g entries surface = Some m /\
    shows centre m (fun i c => opaque c /\ c = surface /\ exists v, In (i, v) entries /\ 0 < v).
Proof.
  intros W N H. unfold export_index_map_for_display, export_index_map.
  match goal with |- context [ofold ?f _ _] => destruct (show_loop f fst
    (fun e => if 0 <? snd e then surface else no_color) entries) as (m & E & S) end.
  - intros m [i v] I. cbn [fst snd]. destruct (0 <? v) eqn:V; [|reflexivity].
    destruct (gget_some g i W) as (x & ->); [apply (H i v I); lia|]. reflexivity.
  - exact N.
  - exists m. split; [exact E|]. revert S. apply shows_ext. intros i c. split.
    + intros (V & [j v] & I & <- & Hc). cbn [fst snd] in *. destruct (0 <? v) eqn:X.
      * split; [exact V|]. split; [congruence|]. exists v. split; [exact I|lia].
      * subst c. discriminate V.
    + intros (V & -> & v & I & X). split; [exact V|]. exists (i, v). split; [exact I|]. split; [reflexivity|].
      cbn [snd]. now replace (0 <? v) with true by lia.
Qed.

Lemma export_index_map_throws {C} (g : grid C) entries surface i v :
  In (i, v) entries -> 0 < v -> in_bounds g i = false ->
  export_index_map_for_display P centre g entries surface = None.
Proof.
  intros I V B. unfold export_index_map_for_display, export_index_map.
  generalize (empty_marker P). induction entries as [|[j w] l IH]; intros m; [destruct I|]. cbn [ofold].
  destruct I as [E|I].
  - injection E as -> ->. replace (0 <? v) with true by lia. rewrite (gget_none g i B). reflexivity.
  - destruct (0 <? w); [|apply IH; exact I]. destruct (gget g j); [cbn [obind]; apply IH; exact I|reflexivity].
Qed.

Lemma export_indices_points {C} (g : grid C) indices surface : gwf g ->
  Forall (fun i => in_bounds g i = true) indices -> opaque surface ->
  export_indices_for_display P centre g indices surface =
  Some (mkMarker P (map centre indices) (repeat surface (length indices))).
Proof.
  intros W F V. unfold export_indices_for_display, export_indices.
  match goal with |- context [ofold ?f _ _] => destruct (ofold_show f (fun i => i) (fun _ => surface) indices)
    with (m := empty_marker P) as (m & E & Ep & Ec) end.
  - intros m i I. rewrite Forall_forall in F. destruct (gget_some g i W (F i I)) as (x & ->). reflexivity.
  - rewrite E. destruct m as [p c]. cbn zeta in *. cbn [mk_points mk_colors empty_marker app] in *. subst p c. clear E F.
    unfold shown_pairs. f_equal.
    assert (filter (fun e => visible (snd e)) (map (fun i => (i, surface)) indices) = map (fun i => (i, surface)) indices) as ->.
    { induction indices as [|i l IH]; [reflexivity|]. cbn [map filter snd]. change (visible surface) with (Bltb (B754_zero false) (ca surface)).
      unfold opaque in V. rewrite V. now rewrite IH. }
    rewrite !map_map. cbn [fst snd]. f_equal. clear. induction indices as [|i l IH]; [reflexivity|]. cbn. now rewrite IH.
Qed.

Lemma export_indices_throws {C} (g : grid C) indices surface i :
  In i indices -> in_bounds g i = false -> export_indices_for_display P centre g indices surface = None.
Proof.
  intros I B. unfold export_indices_for_display, export_indices. generalize (empty_marker P).
  induction indices as [|j l IH]; intros m; [destruct I|]. cbn [ofold]. destruct I as [->|I].
  - rewrite (gget_none g i B). reflexivity.
  - destruct (gget g j); [cbn [obind]; apply IH; exact I|reflexivity].
Qed.

(** ** Chunks *)

Definition aligned_to (n base : idx) : Prop :=
  (ix n | ix base) /\ (iy n | iy base) /\ (iz n | iz base).

Lemma same_chunk n b b' k k' : 0 < n -> (n | b) -> (n | b') -> 0 <= k < n -> 0 <= k' < n ->
  k + b = k' + b' -> b = b' /\ k = k'.
Proof.
  intros N (q & ->) (q' & ->) K K' E. assert (q = q') as ->; [|lia].
  destruct (Z.lt_trichotomy q q') as [L|[L|L]]; [|exact L|]; exfalso; nia.
Qed.

Lemma NoDup_map_inj {A B} (f : A -> B) l : NoDup l ->
  (forall a b, In a l -> In b l -> f a = f b -> a = b) -> NoDup (map f l).
Proof.
  induction 1 as [|a l Na N IH]; intros H; [constructor|]. cbn [map]. constructor.
  - intros I. apply in_map_iff in I as (b & E & I). assert (a = b) as -> by (apply H; cbn; auto). contradiction.
  - apply IH. intros x y X Y. apply H; now right.
Qed.

Lemma export_chunks_shows {C} (n : idx) (chunks : list (idx * list C)) (col : C -> color) :
  0 < ix n -> 0 < iy n -> 0 < iz n -> NoDup (map fst chunks) ->
  (forall base cells, In (base, cells) chunks -> aligned_to n base /\ zlen cells = ix n * iy n * iz n) ->
  exists m, export_chunks P centre n chunks (fun v _ => Some (col v)) = Some m /\
    shows centre m (fun i c => opaque c /\ exists base cells k v, In (base, cells) chunks /\
      in_bounds3 (ix n) (iy n) (iz n) k = true /\ i = (ix k + ix base, iy k + iy base, iz k + iz base) /\
      zget cells (data_index3 (iy n) (iz n) k) = Some v /\ c = col v).
Proof.
  intros Nx Ny Nz ND H. unfold export_chunks.
  set (es := flat_map (fun ch : idx * list C => map (fun k => (ch, k)) (all_idx (ix n) (iy n) (iz n))) chunks).
  set (pos := fun e : (idx * list C) * idx => let '((base, _), k) := e in
    (ix k + ix base, iy k + iy base, iz k + iz base) : idx).
  set (colr := fun e : (idx * list C) * idx => let '((_, cells), k) := e in
    match zget cells (data_index3 (iy n) (iz n) k) with Some v => col v | None => no_color end).
  set (f := fun (m : marker P) (e : (idx * list C) * idx) => let '((base, cells), k) := e in
    let i := (ix k + ix base, iy k + iy base, iz k + iz base) : idx in
    let* v := zget cells (data_index3 (iy n) (iz n) k) in
    let* c := Some (col v) in Some (show m i c)).
  assert (forall e, In e es <-> In (fst e) chunks /\ in_bounds3 (ix n) (iy n) (iz n) (snd e) = true) as Ies.
  { intros [ch k]. unfold es. rewrite in_flat_map. cbn [fst snd]. split.
    - intros (ch' & I & J). apply in_map_iff in J as (k' & E & J). injection E as -> ->.
      apply in_all_idx in J. auto.
    - intros (I & J). exists ch. split; [exact I|]. apply in_map_iff. exists k.
      split; [reflexivity|]. now apply in_all_idx. }
  assert (forall base cells k, In (base, cells) chunks -> in_bounds3 (ix n) (iy n) (iz n) k = true ->
    exists v, zget cells (data_index3 (iy n) (iz n) k) = Some v) as Cell.
  { intros base cells k I B. apply zget_some_iff. destruct (H base cells I) as (_ & ->).
    apply data_index3_range in B. lia. }
  destruct (show_loop f pos colr es) as (m & E & S).
  - intros m [[base cells] k] I. apply Ies in I as (I & B). cbn [fst snd] in *.
    destruct (Cell base cells k I B) as (v & Hv). unfold f, pos, colr. now rewrite Hv.
  - assert (NoDup es) as NE.
    { apply NoDup_flat_map.
      - eapply NoDup_map_inv; exact ND.
      - intros ch _. apply NoDup_map_inj; [apply NoDup_all_idx|]. congruence.
      - intros a b x _ _ Ia Ib. apply in_map_iff in Ia as (k & <- & _). apply in_map_iff in Ib as (k' & E & _). congruence. }
    apply NoDup_map_inj; [exact NE|]. intros [[b1 c1] k1] [[b2 c2] k2] I1 I2 E.
    apply Ies in I1 as (I1 & B1). apply Ies in I2 as (I2 & B2). cbn [fst snd] in *.
    destruct (H b1 c1 I1) as ((D1 & D2 & D3) & _). destruct (H b2 c2 I2) as ((D4 & D5 & D6) & _).
    destruct k1 as [[x1 y1] z1], k2 as [[x2 y2] z2]. apply in_bounds3_iff in B1. apply in_bounds3_iff in B2.
    destruct b1 as [[bx1 by1] bz1], b2 as [[bx2 by2] bz2]. unfold pos in E.
    cbn [ix iy iz fst snd] in *. injection E as E1 E2 E3.
    destruct (same_chunk (ix n) bx1 bx2 x1 x2 Nx D1 D4 ltac:(tauto) ltac:(tauto) E1) as (-> & ->).
    destruct (same_chunk (iy n) by1 by2 y1 y2 Ny D2 D5 ltac:(tauto) ltac:(tauto) E2) as (-> & ->).
    destruct (same_chunk (iz n) bz1 bz2 z1 z2 Nz D3 D6 ltac:(tauto) ltac:(tauto) E3) as (-> & ->).
    assert (c1 = c2) as ->; [|reflexivity]. clear - ND I1 I2.
    induction chunks as [|[b c] l IH]; [destruct I1|]. cbn [map fst] in ND. inversion ND as [|? ? N1 N2]; subst.
    destruct I1 as [E1|I1], I2 as [E2|I2].
    + congruence.
    + exfalso. apply N1. injection E1 as -> ->. change (bx2, by2, bz2) with (fst ((bx2, by2, bz2), c2)). now apply in_map.
    + exfalso. apply N1. injection E2 as -> ->. change (bx2, by2, bz2) with (fst ((bx2, by2, bz2), c1)). now apply in_map.
    + now apply IH.
  - exists m. split.
    + rewrite <- E. unfold es. rewrite ofold_flat_map. apply ofold_ext. intros m0 [base cells] _.
      rewrite ofold_map. reflexivity.
    + revert S. apply shows_ext. intros i c. split.
      * intros (V & [[base cells] k] & I & <- & <-). split; [exact V|]. apply Ies in I as (I & B). cbn [fst snd] in *.
        destruct (Cell base cells k I B) as (v & Hv). exists base, cells, k, v. split; [exact I|]. split; [exact B|].
        split; [reflexivity|]. split; [exact Hv|]. unfold colr. now rewrite Hv.
      * intros (V & base & cells & k & v & I & B & -> & Hv & ->). split; [exact V|]. exists ((base, cells), k).
        split; [apply Ies; auto|]. split; [reflexivity|]. unfold colr. now rewrite Hv.
Qed.

(** ** Statements about whole exports *)

Lemma for_display_shows {C} (occ_of : C -> occ) (g : grid C) a b c : gwf g -> occs_ok occ_of g ->
  exists m, export_for_display P centre occ_of g a b c = Some m /\
    shows centre m (fun i k => opaque k /\ kind_color occ_of g a b c i k).
Proof.
  intros W O. destruct (export_values_shows g (fun v => occupancy_color a b c (occ_of v)) W) as (m & E & S).
  exists m. split; [exact E|]. revert S. apply shows_ext. intros i k.
  assert ((exists v, gget g i = Some v /\ k = occupancy_color a b c (occ_of v)) <-> kind_color occ_of g a b c i k) as X;
    [|rewrite X; reflexivity].
  unfold kind_color, side_is. split.
  - intros (v & Hv & ->). destruct (occupancy_color_cases a b c (occ_of v) (O i v Hv)) as [(H & ->)|[(H & ->)|(H & ->)]].
    + left. eauto.
    + right; left. eauto.
    + right; right. split; [|reflexivity]. destruct H; [left|right]; eauto.
  - assert (forall r, (exists v, gget g i = Some v /\ cmp_half (occ_of v) = r) -> exists v, gget g i = Some v /\
      cmp_half (occ_of v) = r /\ is_occ (occ_of v)) as Y.
    { intros r (v & Hv & Hr). exists v. split; [exact Hv|]. split; [exact Hr|]. exact (O i v Hv). }
    intros [(H & ->)|[(H & ->)|([H|H] & ->)]]; apply Y in H as (v & Hv & Hr & Ho); exists v; (split; [exact Hv|]);
      destruct (occupancy_color_cases a b c (occ_of v) Ho) as [(H & ->)|[(H & ->)|(H & ->)]]; try reflexivity;
      try congruence; destruct H; congruence.
Qed.

Lemma objects_shown {C} lookup (obj_of : C -> Z) (g : grid C) cm : gwf g ->
  exists m, export_objects_for_display P centre lookup obj_of g cm = Some m /\
    shows centre m (fun i k => opaque k /\ cm <> [] /\ exists v, gget g i = Some v /\ k = lookup (obj_of v)).
Proof.
  intros W. destruct (export_values_shows g (fun v => object_color lookup cm (obj_of v)) W) as (m & E & S).
  exists m. split; [exact E|]. revert S. apply shows_ext. intros i k. unfold object_color. destruct cm as [|e cm].
  - cbn [specifies_colors cmap_find]. split.
    + intros (V & v & _ & ->). discriminate V.
    + intros (_ & X & _). congruence.
  - cbn [specifies_colors]. split.
    + intros (V & v & Hv & ->). split; [exact V|]. split; [discriminate|]. eauto.
    + intros (V & _ & H). split; assumption.
Qed.
End Markers.

(** ** Fields *)

Lemma cell_In {A} (g : grid A) i v : gget g i = Some v -> In v (g_cells g).
Proof.
  unfold gget. destruct (in_bounds g i); [|discriminate]. unfold zget. destruct (_ <? 0); [discriminate|].
  apply nth_error_In.
Qed.

Lemma gget_of_In {A} (g : grid A) v : gwf g -> In v (g_cells g) -> exists i, gget g i = Some v.
Proof.
  intros (Hx & Hy & Hz & Hl) I. apply In_nth_error in I as (k & Hk).
  assert (Z.of_nat k < zlen (g_cells g)) as K.
  { unfold zlen. assert (k < length (g_cells g))%nat by (apply nth_error_Some; congruence). lia. }
  rewrite Hl in K. unfold g_total in K.
  destruct (data_index_surj (g_nx g) (g_ny g) (g_nz g) (Z.of_nat k)) as (i & B & D); try lia.
  exists i. unfold gget, in_bounds. rewrite B. unfold data_index. rewrite D. unfold zget.
  replace (Z.of_nat k <? 0) with false by (symmetry; apply Z.ltb_ge; lia). now rewrite Nat2Z.id.
Qed.

Lemma get_minmax_extremes (s : field_state b64) : gwf (f_grid s) ->
  Forall (fun d : b64 => is_nan d = false) (g_cells (f_grid s)) ->
  (f_locked s = true -> is_minmax (g_cells (f_grid s)) (f_minmax s)) ->
  exists m, get_minmax b64_ltb s = Some m /\ is_minmax (g_cells (f_grid s)) m.
Proof.
  intros W N L. unfold get_minmax. destruct (f_locked s) eqn:E.
  - exists (f_minmax s). split; [reflexivity|]. now apply L.
  - destruct (minmax_element_ok 53 1024 (g_cells (f_grid s)) (gwf_nonempty _ W) N) as (m & H1 & H2 & H3).
    change (@Bltb 53 1024) with b64_ltb in H1, H2. change (binary_float 53 1024) with b64 in H1, H2.
    exists m. rewrite H1. cbn. auto.
Qed.

Lemma positive_not_negative (a : b32) : Bltb (B754_zero false) a = true -> Bltb a b32_zero = false.
Proof. destruct a as [[]|[]| |[]]; cbn; auto; discriminate. Qed.
