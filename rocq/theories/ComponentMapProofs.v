(** Connected components and spatial segments of the map types. *)
From Coq Require Import ZArith Reals List Lia Bool ZifyBool.
From Flocq Require Import Core BinarySingleNaN.
From Verif Require Import Util Grid Occ OccProofs EdtModel FloatModel TopologyModel ComponentSpec
  TopologyProofs LabelProofs ComponentMapModel ComponentMapSpec.
Import ListNotations.
Local Open Scope Z_scope.

Lemma joined_ext (X Y : idx -> Prop) (c d : idx -> idx -> Prop) i j :
  (forall a, X a <-> Y a) -> (forall a b, X a -> X b -> (c a b <-> d a b)) ->
  (joined X c i j <-> joined Y d i j).
Proof.
  intros HX Hc. split; apply joined_mono.
  - intros a. apply HX.
  - intros a b Ha Hb. now apply Hc.
  - intros a. apply HX.
  - intros a b Ha Hb. apply Hc; now apply HX.
Qed.

Lemma is_labelling_ext (X Y : idx -> Prop) (c d : idx -> idx -> Prop) l l' n :
  (forall a, X a <-> Y a) -> (forall a b, X a -> X b -> (c a b <-> d a b)) ->
  (forall a, X a -> l a = l' a) -> is_labelling X c l n -> is_labelling Y d l' n.
Proof.
  intros HX Hc Hl (H1 & H2 & H3 & H4). split; [|split; [|split]].
  - intros i Yi. apply HX in Yi. rewrite <- Hl by assumption. now apply H1.
  - intros k Hk. destruct (H2 k Hk) as (i & Xi & Li). exists i. split; [now apply HX|]. now rewrite <- Hl.
  - intros i j Yi Yj. apply HX in Yi, Yj. rewrite <- !Hl by assumption. rewrite H3 by assumption.
    now apply joined_ext.
  - intros i k Yi Hk. apply HX in Yi. rewrite <- Hl in Hk by assumption.
    destruct (H4 i k Yi Hk) as (j & Xj & Lj & Sj). exists j. split; [now apply HX|]. split; [|assumption].
    now rewrite <- Hl.
Qed.

(** ** Sides of the threshold *)

Lemma same_kind_spec a b : is_occ a -> is_occ b ->
  (same_kind a b = true <-> exists r, cmp_half a = Some r /\ cmp_half b = Some r).
Proof.
  intros Ha Hb. unfold same_kind.
  pose proof (occ_gt_spec a Ha). pose proof (occ_gt_spec b Hb).
  pose proof (occ_lt_spec a Ha). pose proof (occ_lt_spec b Hb).
  pose proof (occ_eq_spec a Ha). pose proof (occ_eq_spec b Hb).
  split.
  - destruct (occ_gt a && occ_gt b) eqn:E1; [intros _; exists Gt; split; lia || (apply H || apply H0; lia)|].
    destruct (occ_lt a && occ_lt b) eqn:E2; [intros _; exists Lt; split; (apply H1 || apply H2; lia)|].
    destruct (occ_eq a && occ_eq b) eqn:E3; [intros _; exists Eq; split; (apply H3 || apply H4; lia)|].
    discriminate.
  - intros ([] & Ra & Rb).
    + apply H3 in Ra. apply H4 in Rb. rewrite Ra, Rb. cbn.
      destruct (occ_gt a && occ_gt b), (occ_lt a && occ_lt b); reflexivity.
    + apply H1 in Ra. apply H2 in Rb. rewrite Ra, Rb. cbn. destruct (occ_gt a && occ_gt b); reflexivity.
    + apply H in Ra. apply H0 in Rb. now rewrite Ra, Rb.
Qed.

Lemma same_kind_sym a b : same_kind a b = true -> same_kind b a = true.
Proof.
  unfold same_kind. rewrite (andb_comm (occ_gt b)), (andb_comm (occ_lt b)), (andb_comm (occ_eq b)). trivial.
Qed.

(** ** OccupancyComponentMap *)

Definition cput (c : ccell) (z : Z) : ccell := mkCcell (c_occ c) z.
Definition cact (_ : idx) (_ : occ) : bool := true.
Definition cconn (_ _ : idx) (a b : occ) : bool := same_kind a b.
Definition cF (m : cmap) : Prop := cm_valid m = false.

Lemma cm_mark_grid m i z :
  cm_grid (cm_mark m i z) =
  match gget (cm_grid m) i with Some c => gset (cm_grid m) i (cput c z) | None => cm_grid m end.
Proof.
  unfold cm_mark. destruct (gget (cm_grid m) i) eqn:E; [|reflexivity].
  unfold cm_set. rewrite (gget_in_bounds _ _ _ E). reflexivity.
Qed.

Lemma cm_mark_F m i z c : gget (cm_grid m) i = Some c -> cF (cm_mark m i z).
Proof.
  intros E. unfold cm_mark. rewrite E. unfold cm_set. rewrite (gget_in_bounds _ _ _ E). reflexivity.
Qed.

Lemma cm_component_spec m i :
  cm_component m i =
  match gget (cm_grid m) i with Some c => if cact i (c_occ c) then c_comp c else -1 | None => -1 end.
Proof. unfold cm_component, cact. destruct (gget _ _); reflexivity. Qed.

Lemma cm_connected_spec m i j a b :
  gget (cm_grid m) i = Some a -> gget (cm_grid m) j = Some b ->
  cm_connected m i j = Some (cconn i j (c_occ a) (c_occ b)).
Proof. intros Ea Eb. unfold cm_connected. now rewrite Ea, Eb. Qed.

Lemma cm_LW0 m n v : gwf (cm_grid m) -> LW0 cm_grid c_occ (cm_grid m) (mkCmap (cm_grid m) n v).
Proof. intros W. split; [assumption|]. split; [apply same_dims_refl|reflexivity]. Qed.

Lemma cm_active m i : act c_occ cact (cm_grid m) i = true <-> exists c, gget (cm_grid m) i = Some c.
Proof.
  unfold act, V, cact. destruct (gget (cm_grid m) i) eqn:E; cbn.
  - split; [intros _; eauto|reflexivity].
  - split; [discriminate|intros (? & ?); discriminate].
Qed.

Lemma in_grid_cell {C} (g : grid C) i : gwf g -> (in_grid g i <-> exists c, gget g i = Some c).
Proof.
  intros W. split; [now apply gget_some|]. intros (c & H). now apply gget_in_bounds in H.
Qed.

Lemma conn_same_side (g : grid ccell) a b : occs_ok c_occ g ->
  (conn c_occ cconn g a b = true <-> same_side c_occ g a b).
Proof.
  intros O. unfold conn, V, cconn, same_side.
  destruct (gget g a) as [ca|] eqn:Ea; cbn; [|split; [discriminate|intros (? & ? & ? & ? & _); discriminate]].
  destruct (gget g b) as [cb|] eqn:Eb; cbn; [|split; [discriminate|intros (? & ? & ? & _ & ? & _); discriminate]].
  rewrite same_kind_spec by eauto. split.
  - intros (r & H1 & H2). exists ca, cb, r. auto.
  - intros (? & ? & r & [= <-] & [= <-] & H1 & H2). now exists r.
Qed.

Lemma LW0_same {M C D} (grid_of : M -> grid C) (view : C -> D) g0 m :
  LW0 grid_of view g0 m -> same_cells view (grid_of m) g0.
Proof. intros (_ & H1 & H2). now split. Qed.

Lemma cm_update_total m : gwf (cm_grid m) ->
  exists m' n, cm_update m = Some (m', n) /\ gwf (cm_grid m') /\ same_cells c_occ (cm_grid m') (cm_grid m) /\
    cm_num_components m' = Some n.
Proof.
  intros W. unfold cm_update, cm_num_components. destruct (cm_valid m) eqn:Hv.
  - exists m, (cm_n m). rewrite Hv. split; [reflexivity|]. split; [assumption|]. split; [|reflexivity].
    split; [apply same_dims_refl|reflexivity].
  - destruct (label_total cm_grid cput c_comp c_occ cm_connected cm_component cm_mark cact cconn cF
      (fun _ _ => eq_refl) (fun _ _ => eq_refl) cm_mark_grid cm_mark_F cm_component_spec
      (fun m i j a b H1 H2 _ _ => cm_connected_spec m i j a b H1 H2)
      (cm_grid m) W (mkCmap (cm_grid m) (cm_n m) false)) as (m' & n & E & L); [now apply cm_LW0|].
    rewrite E. cbn. eexists _, _. split; [reflexivity|]. cbn. destruct L as (L & _).
    split; [apply L|]. split; [now apply LW0_same|reflexivity].
Qed.

Lemma same_side_cells {C} (f : C -> occ) (g h : grid C) i j : same_cells f g h ->
  (same_side f g i j <-> same_side f h i j).
Proof.
  intros (_ & H).
  assert (G : forall g h, (forall i, option_map f (gget g i) = option_map f (gget h i)) ->
    same_side f g i j -> same_side f h i j).
  { clear. intros g h H (a & b & r & Ea & Eb & Ra & Rb).
    pose proof (H i) as Hi. pose proof (H j) as Hj. rewrite Ea in Hi. rewrite Eb in Hj. cbn in Hi, Hj.
    destruct (gget h i) as [a'|] eqn:Ea'; [|discriminate]. destruct (gget h j) as [b'|] eqn:Eb'; [|discriminate].
    cbn in Hi, Hj. injection Hi as Hi. injection Hj as Hj.
    exists a', b', r. rewrite <- Hi, <- Hj. auto. }
  split; apply G; [exact H|intros k; symmetry; apply H].
Qed.

Lemma in_grid_dims {C} (g h : grid C) i : same_dims g h -> (in_grid g i <-> in_grid h i).
Proof. intros H. unfold in_grid. now rewrite (in_bounds_dims _ _ i H). Qed.

(** The labelling of a map whose components are not valid; the classes are those of
    the new map, equivalently of the old one. *)
Lemma cm_update_labels m : gwf (cm_grid m) -> occs_ok c_occ (cm_grid m) -> g_total (cm_grid m) < 2 ^ 32 ->
  cm_valid m = false ->
  exists m' n, cm_update m = Some (m', n) /\ gwf (cm_grid m') /\ same_cells c_occ (cm_grid m') (cm_grid m) /\
    cm_num_components m' = Some n /\
    is_labelling (in_grid (cm_grid m)) (same_side c_occ (cm_grid m)) (label c_comp (cm_grid m')) n.
Proof.
  intros W O Sm Hv. unfold cm_update, cm_num_components. rewrite Hv.
  destruct (label_ok cm_grid cput c_comp c_occ cm_connected cm_component cm_mark cact cconn cF
      (fun _ _ => eq_refl) (fun _ _ => eq_refl) cm_mark_grid cm_mark_F cm_component_spec
      (fun m i j a b H1 H2 _ _ => cm_connected_spec m i j a b H1 H2)
      (fun _ _ a b => same_kind_sym a b)
      (cm_grid m) W (mkCmap (cm_grid m) (cm_n m) false)) as (m' & n & E & L & _ & Lb);
    [assumption|now apply cm_LW0|].
  rewrite E. cbn. eexists _, _. split; [reflexivity|]. cbn. destruct L as (L & _).
  split; [apply L|]. split; [now apply LW0_same|]. split; [reflexivity|].
  eapply is_labelling_ext; [| | |exact Lb].
  - intros a. unfold active. rewrite cm_active. symmetry. now apply in_grid_cell.
  - intros a b _ _. unfold connected. now apply conn_same_side.
  - intros a Ha. unfold active in Ha. destruct (act_cell cm_grid c_occ cact _ m' a L Ha) as (c & Ec & _).
    unfold label, cm_component. now rewrite Ec.
Qed.

Lemma cm_mark_component_ok m start z :
  gwf (cm_grid m) -> (forall i c, gget (cm_grid m) i = Some c -> ccell_ok c) -> cm_valid m = false ->
  1 <= z < 2 ^ 32 -> in_grid (cm_grid m) start -> label c_comp (cm_grid m) start = 0 ->
  exists m' L, mark_connected_component cm_connected cm_component cm_mark (g_total (cm_grid m)) m start z
                 = Some (m', zlen L) /\
    NoDup L /\
    (forall i, In i L <-> joined (fun i => in_grid (cm_grid m) i /\ label c_comp (cm_grid m) i = 0)
                            (same_side c_occ (cm_grid m)) start i) /\
    same_cells c_occ (cm_grid m') (cm_grid m) /\
    (forall i, In i L -> label c_comp (cm_grid m') i = z) /\
    (forall i, ~ In i L -> label c_comp (cm_grid m') i = label c_comp (cm_grid m) i).
Proof.
  intros W O Hv Hz Gs Ls.
  assert (LW_m : LW cm_grid c_comp c_occ cact cF (cm_grid m) m).
  { split; [|split; [assumption|]].
    - split; [assumption|]. split; [apply same_dims_refl|reflexivity].
    - intros i c _ H. discriminate H. }
  assert (get_label : forall m' i, LW cm_grid c_comp c_occ cact cF (cm_grid m) m' -> in_grid (cm_grid m) i ->
    cm_component m' i = label c_comp (cm_grid m') i).
  { intros m' i (Lm & _) Hi. unfold cm_component, label. destruct (gget_some (cm_grid m') i) as (c & ->); [apply Lm| |reflexivity].
    apply (in_grid_dims _ (cm_grid m)); [apply Lm|assumption]. }
  destruct (component_ok cm_grid cput c_comp c_occ cm_connected cm_component cm_mark cact cconn cF
      (fun _ _ => eq_refl) (fun _ _ => eq_refl) cm_mark_grid cm_mark_F cm_component_spec
      (fun m i j a b H1 H2 _ _ => cm_connected_spec m i j a b H1 H2)
      (cm_grid m) W m start z) as (m' & L & E & Lm & ND & HL & G); try assumption.
  - intros i c E. now apply (O i c).
  - apply cm_active. now apply in_grid_cell.
  - now rewrite (get_label m).
  - exists m', L. split; [exact E|]. split; [assumption|].
    assert (HL' : forall i, In i L <-> joined (fun i => in_grid (cm_grid m) i /\ label c_comp (cm_grid m) i = 0)
                            (same_side c_occ (cm_grid m)) start i).
    { intros i. rewrite HL. apply joined_ext.
      - intros a. rewrite cm_active, <- in_grid_cell by assumption. split; intros [H1 H2]; (split; [assumption|]).
        + now rewrite <- (get_label m).
        + now rewrite (get_label m).
      - intros a b _ _. apply conn_same_side. intros i' c Hc. now apply (O i' c). }
    split; [assumption|]. split; [apply LW0_same, Lm|]. split.
    + intros i Hi. rewrite <- get_label; [|assumption|].
      * rewrite G. apply mem_idx_In in Hi. now rewrite Hi.
      * apply HL' in Hi. apply joined_X in Hi. apply Hi.
    + intros i Hi. destruct (in_bounds (cm_grid m) i) eqn:B.
      * rewrite <- !get_label by assumption. rewrite G. destruct (existsb (idx_eqb i) L) eqn:M; [|reflexivity].
        apply mem_idx_In in M. contradiction.
      * unfold label. rewrite !gget_none; [reflexivity|assumption|].
        rewrite (in_bounds_dims _ (cm_grid m)); [assumption|apply Lm].
Qed.

(** ** Histories of an OccupancyComponentMap *)

Lemma gset_occs {C} (f : C -> occ) (g : grid C) i c :
  gwf g -> occs_ok f g -> is_occ (f c) -> occs_ok f (gset g i c).
Proof.
  intros W O Hc j d. rewrite gget_gset by assumption.
  destruct (in_bounds g i && idx_eqb j i); [intros [= <-]; assumption|apply O].
Qed.

Lemma raw_set_index {C} (g : grid C) k c l : gwf g -> zset (g_cells g) k c = Some l ->
  exists i, mkGrid (g_nx g) (g_ny g) (g_nz g) l = gset g i c.
Proof.
  intros (Hx & Hy & Hz & HL) E.
  assert (R : 0 <= k < g_nx g * g_ny g * g_nz g).
  { rewrite <- (HL : zlen _ = _ * _ * _). now apply zset_range in E. }
  destruct (data_index_surj (g_nx g) (g_ny g) (g_nz g) k) as (i & Bi & Di); try assumption.
  exists i. unfold gset, in_bounds, data_index. now rewrite Bi, Di, E.
Qed.

Lemma same_cells_occs {C} (f : C -> occ) (g h : grid C) : same_cells f g h -> occs_ok f h -> occs_ok f g.
Proof.
  intros (_ & H) O i c E. specialize (H i). rewrite E in H. cbn in H.
  destruct (gget h i) as [d|] eqn:D; [|discriminate]. injection H as ->. now apply (O i).
Qed.

Definition cinv (s : cstate) : Prop :=
  let '(m, refs) := s in
  gwf (cm_grid m) /\ g_total (cm_grid m) < 2 ^ 32 /\ occs_ok c_occ (cm_grid m) /\
  (cm_valid m = true -> refs = [] /\
    is_labelling (in_grid (cm_grid m)) (same_side c_occ (cm_grid m)) (label c_comp (cm_grid m)) (cm_n m)).

Lemma total_dims {A B} (g : grid A) (h : grid B) : same_dims g h -> g_total g = g_total h.
Proof. intros (H1 & H2 & H3). unfold g_total. now rewrite H1, H2, H3. Qed.

Lemma cinv_gset m i c (refs : list idx) n v : gwf (cm_grid m) -> g_total (cm_grid m) < 2 ^ 32 ->
  occs_ok c_occ (cm_grid m) -> is_occ (c_occ c) ->
  (v = true -> False) -> cinv (mkCmap (gset (cm_grid m) i c) n v, refs).
Proof.
  intros W T O Oc F. cbn. split; [now apply gset_wf|]. split; [now rewrite (total_dims _ (cm_grid m) (gset_same_dims _ _ _))|].
  split; [now apply gset_occs|]. intros H. destruct (F H).
Qed.

Lemma cstep_inv s o : cinv s -> c_careful s o -> exists s', cstep s o = Some s' /\ cinv s'.
Proof.
  destruct s as [m refs]. intros (W & T & O & V) (Wr & Cf). destruct o as [i c|i|k c| |k c| | |i]; cbn [cstep].
  - eexists. split; [reflexivity|]. unfold cm_set. destruct (in_bounds (cm_grid m) i).
    + apply cinv_gset; try assumption. discriminate.
    + split; [assumption|]. split; [assumption|]. split; assumption.
  - destruct (in_bounds (cm_grid m) i); (eexists; split; [reflexivity|]).
    + split; [assumption|]. split; [assumption|]. split; [assumption|discriminate].
    + split; [assumption|]. split; [assumption|]. split; assumption.
  - destruct (nth_error refs k) as [i|] eqn:E; (eexists; split; [reflexivity|]).
    + apply cinv_gset; try assumption. intros H. destruct (V H) as [-> _]. destruct k; discriminate.
    + split; [assumption|]. split; [assumption|]. split; assumption.
  - eexists. split; [reflexivity|]. split; [assumption|]. split; [assumption|]. split; [assumption|].
    intros H. split; [reflexivity|]. now apply V.
  - destruct (zset (g_cells (cm_grid m)) k c) as [l|] eqn:E; (eexists; split; [reflexivity|]).
    + destruct (raw_set_index _ _ _ _ W E) as (i & ->). apply cinv_gset; try assumption. discriminate.
    + split; [assumption|]. split; [assumption|]. split; [assumption|discriminate].
  - destruct (cm_valid m) eqn:Hv.
    + unfold cm_update. rewrite Hv. cbn. eexists. split; [reflexivity|].
      split; [assumption|]. split; [assumption|]. split; [assumption|]. intros _. now apply V.
    + destruct (cm_update_labels m W O T Hv) as (m' & n & E & W' & S & N & L). rewrite E. cbn.
      eexists. split; [reflexivity|]. split; [assumption|].
      split; [now rewrite (total_dims _ (cm_grid m)) by apply S|].
      split; [now apply same_cells_occs with (cm_grid m)|]. intros Hv'. split; [exact Cf|].
      unfold cm_num_components in N. rewrite Hv' in N. injection N as ->.
      eapply is_labelling_ext; [| | |exact L].
      * intros a. apply in_grid_dims. apply same_dims_sym, S.
      * intros a b _ _. symmetry. now apply same_side_cells.
      * reflexivity.
  - eexists. split; [reflexivity|]. split; [assumption|]. split; [assumption|]. split; [assumption|discriminate].
  - eexists. split; [reflexivity|]. split; [assumption|]. split; [assumption|]. split; assumption.
Qed.

Lemma crun_inv ops : forall s, cinv s -> all_along cstep c_careful s ops ->
  exists s', crun s ops = Some s' /\ cinv s'.
Proof.
  induction ops as [|o ops IH]; intros s I A; cbn [crun].
  - exists s. now split.
  - destruct A as [Ho A]. destruct (cstep_inv s o I Ho) as (s1 & E & I1). rewrite E. cbn [obind].
    apply IH; [assumption|now apply A].
Qed.

Lemma cm_construct_inv nx ny nz d : 0 < nx -> 0 < ny -> 0 < nz -> nx * ny * nz < 2 ^ 32 -> is_occ (c_occ d) ->
  cinv (cm_construct nx ny nz d, []).
Proof.
  intros Hx Hy Hz T O. cbn. split; [now apply gconst_wf|]. split; [exact T|]. split; [|discriminate].
  intros i c. rewrite gget_gconst. destruct (in_bounds3 nx ny nz i); [intros [= <-]; assumption|discriminate].
Qed.

Lemma component_history nx ny nz d ops :
  0 < nx -> 0 < ny -> 0 < nz -> nx * ny * nz < 2 ^ 32 -> is_occ (c_occ d) ->
  all_along cstep c_careful (cm_construct nx ny nz d, []) ops ->
  exists m refs, crun (cm_construct nx ny nz d, []) ops = Some (m, refs) /\
    (cm_valid m = true -> exists n, cm_num_components m = Some n /\
       is_labelling (in_grid (cm_grid m)) (same_side c_occ (cm_grid m)) (label c_comp (cm_grid m)) n) /\
    (cm_valid m = false -> cm_num_components m = None).
Proof.
  intros Hx Hy Hz T O A. destruct (crun_inv ops _ (cm_construct_inv nx ny nz d Hx Hy Hz T O) A) as ([m refs] & E & I).
  exists m, refs. split; [exact E|]. destruct I as (_ & _ & _ & V). unfold cm_num_components. split.
  - intros H. exists (cm_n m). rewrite H. split; [reflexivity|]. now apply V.
  - intros ->. reflexivity.
Qed.
