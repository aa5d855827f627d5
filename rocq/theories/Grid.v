(** Dense voxel grid, the part of common_robotics_utilities' VoxelGridBase the
    models rely on (dependency behaviour, not code of /repo; see DESIGN.md).
    Row-major storage, x slowest and z fastest; access outside the bounds gives
    no value. *)
From Coq Require Import ZArith List Lia Bool ZifyBool FinFun.
From Verif Require Import Util.
Import ListNotations.
Local Open Scope Z_scope.

(** GridIndex: three signed 64-bit coordinates. *)
Definition idx : Type := (Z * Z * Z)%type.
Definition ix (i : idx) : Z := fst (fst i).
Definition iy (i : idx) : Z := snd (fst i).
Definition iz (i : idx) : Z := snd i.

Definition idx_eqb (a b : idx) : bool :=
  (ix a =? ix b) && (iy a =? iy b) && (iz a =? iz b).

Record grid (A : Type) : Type := mkGrid {
  g_nx : Z; g_ny : Z; g_nz : Z;
  g_cells : list A }.
Arguments mkGrid {A}. Arguments g_nx {A}. Arguments g_ny {A}. Arguments g_nz {A}.
Arguments g_cells {A}.

(** CheckGridIndexInBounds. *)
Definition in_bounds3 (nx ny nz : Z) (i : idx) : bool :=
  (0 <=? ix i) && (ix i <? nx) && (0 <=? iy i) && (iy i <? ny)
  && (0 <=? iz i) && (iz i <? nz).
Definition in_bounds {A} (g : grid A) (i : idx) : bool :=
  in_bounds3 (g_nx g) (g_ny g) (g_nz g) i.

(** GridIndexToDataIndex. *)
Definition data_index3 (ny nz : Z) (i : idx) : Z := (ix i * ny + iy i) * nz + iz i.
Definition data_index {A} (g : grid A) (i : idx) : Z := data_index3 (g_ny g) (g_nz g) i.

(** GetIndexImmutable: empty when out of bounds. *)
Definition gget {A} (g : grid A) (i : idx) : option A :=
  if in_bounds g i then zget (g_cells g) (data_index g i) else None.

(** SetIndex on a grid whose mutable access is allowed; out of bounds it has no
    effect (the status it returns is ignored by all modelled callers). *)
Definition gset {A} (g : grid A) (i : idx) (v : A) : grid A :=
  if in_bounds g i then
    match zset (g_cells g) (data_index g i) v with
    | Some c => mkGrid (g_nx g) (g_ny g) (g_nz g) c
    | None => g
    end
  else g.

Definition g_total {A} (g : grid A) : Z := g_nx g * g_ny g * g_nz g.

(** Grids that constructors can produce: positive voxel counts, dense data. *)
Definition gwf {A} (g : grid A) : Prop :=
  0 < g_nx g /\ 0 < g_ny g /\ 0 < g_nz g /\ zlen (g_cells g) = g_total g.

(** A grid with all cells equal (VoxelGrid constructor). *)
Definition gconst {A} (nx ny nz : Z) (v : A) : grid A :=
  mkGrid nx ny nz (repeat v (Z.to_nat (nx * ny * nz))).

(** All indices in the order of the nested x, y, z loops. *)
Definition all_idx (nx ny nz : Z) : list idx :=
  flat_map (fun x => flat_map (fun y => map (fun z => (x, y, z)) (zrange 0 nz))
                              (zrange 0 ny)) (zrange 0 nx).

(** Grid whose cell [i] is [f i]. *)
Definition gtab {A} (nx ny nz : Z) (f : idx -> A) : grid A :=
  mkGrid nx ny nz (map f (all_idx nx ny nz)).

Definition same_dims {A B} (g : grid A) (h : grid B) : Prop :=
  g_nx g = g_nx h /\ g_ny g = g_ny h /\ g_nz g = g_nz h.

(** ** Lemmas *)

Lemma idx_eqb_eq a b : idx_eqb a b = true <-> a = b.
Proof.
  unfold idx_eqb, ix, iy, iz. destruct a as [[a1 a2] a3], b as [[b1 b2] b3]; cbn.
  rewrite !andb_true_iff, !Z.eqb_eq. split; [intros [[-> ->] ->]; easy|intros [= -> -> ->]; easy].
Qed.

Lemma idx_eqb_refl a : idx_eqb a a = true.
Proof. now apply idx_eqb_eq. Qed.

Lemma idx_eqb_neq a b : idx_eqb a b = false <-> a <> b.
Proof.
  rewrite <- idx_eqb_eq. destruct (idx_eqb a b); split; congruence.
Qed.

Lemma idx_eq_dec (a b : idx) : {a = b} + {a <> b}.
Proof. destruct (idx_eqb a b) eqn:E; [left; now apply idx_eqb_eq|right; now apply idx_eqb_neq]. Qed.

Lemma in_bounds3_iff nx ny nz x y z :
  in_bounds3 nx ny nz (x, y, z) = true <-> 0 <= x < nx /\ 0 <= y < ny /\ 0 <= z < nz.
Proof. unfold in_bounds3, ix, iy, iz; cbn. lia. Qed.

Lemma in_bounds_iff {A} (g : grid A) x y z :
  in_bounds g (x, y, z) = true <-> 0 <= x < g_nx g /\ 0 <= y < g_ny g /\ 0 <= z < g_nz g.
Proof. apply in_bounds3_iff. Qed.

Lemma data_index3_range nx ny nz i :
  in_bounds3 nx ny nz i = true -> 0 <= data_index3 ny nz i < nx * ny * nz.
Proof.
  destruct i as [[x y] z]. rewrite in_bounds3_iff. unfold data_index3, ix, iy, iz; cbn.
  intros [Hx [Hy Hz]].
  assert (0 <= x * ny) by nia.
  assert (x * ny + y + 1 <= nx * ny) by nia.
  assert (0 <= x * ny + y) by lia.
  set (a := x * ny + y) in *. set (b := nx * ny) in *. clearbody a b.
  split; nia.
Qed.

Lemma data_index3_inj nx ny nz i j :
  in_bounds3 nx ny nz i = true -> in_bounds3 nx ny nz j = true ->
  data_index3 ny nz i = data_index3 ny nz j -> i = j.
Proof.
  destruct i as [[x y] z], j as [[x' y'] z']. rewrite !in_bounds3_iff.
  unfold data_index3, ix, iy, iz; cbn. intros [Hx [Hy Hz]] [Hx' [Hy' Hz']] E.
  set (a := x * ny + y) in *. set (b := x' * ny + y') in *.
  assert (E1 : a = b) by (clearbody a b; nia). assert (E0 : z = z') by nia.
  subst z'. unfold a, b in E1.
  assert (E2 : x = x') by nia. subst x'. assert (E3 : y = y') by lia. now subst y'.
Qed.

Lemma data_index_range {A} (g : grid A) i :
  gwf g -> in_bounds g i = true -> 0 <= data_index g i < zlen (g_cells g).
Proof.
  intros [_ [_ [_ HL]]] H. rewrite HL. unfold g_total.
  now apply data_index3_range.
Qed.

Lemma gget_some {A} (g : grid A) i : gwf g -> in_bounds g i = true -> exists v, gget g i = Some v.
Proof.
  intros W H. unfold gget. rewrite H. apply zget_some_iff. now apply data_index_range.
Qed.

Lemma gget_none {A} (g : grid A) i : in_bounds g i = false -> gget g i = None.
Proof. intros H. unfold gget. now rewrite H. Qed.

Lemma gget_in_bounds {A} (g : grid A) i v : gget g i = Some v -> in_bounds g i = true.
Proof. unfold gget. destruct (in_bounds g i); congruence. Qed.

Lemma gset_dims {A} (g : grid A) i v :
  g_nx (gset g i v) = g_nx g /\ g_ny (gset g i v) = g_ny g /\ g_nz (gset g i v) = g_nz g.
Proof.
  unfold gset. destruct (in_bounds g i); [|easy]. destruct (zset _ _ _); easy.
Qed.

Lemma gset_same_dims {A} (g : grid A) i v : same_dims (gset g i v) g.
Proof. exact (gset_dims g i v). Qed.

Lemma in_bounds_dims {A B} (g : grid A) (h : grid B) i :
  same_dims g h -> in_bounds g i = in_bounds h i.
Proof. intros [H1 [H2 H3]]. unfold in_bounds. now rewrite H1, H2, H3. Qed.

Lemma gset_in_bounds {A} (g : grid A) i v j : in_bounds (gset g i v) j = in_bounds g j.
Proof. apply in_bounds_dims, gset_same_dims. Qed.

Lemma gset_wf {A} (g : grid A) i v : gwf g -> gwf (gset g i v).
Proof.
  unfold gset. destruct (in_bounds g i) eqn:E; [|easy].
  destruct (zset _ _ _) eqn:Z; [|easy]. unfold gwf, g_total; cbn.
  apply zset_length in Z. now rewrite Z.
Qed.

Lemma gget_gset {A} (g : grid A) i v j :
  gwf g ->
  gget (gset g i v) j = if in_bounds g i && idx_eqb j i then Some v else gget g j.
Proof.
  intros W. unfold gget at 1. rewrite gset_in_bounds. unfold gset.
  destruct (in_bounds g i) eqn:Ei; cbn [andb].
  - destruct (zset_some (g_cells g) (data_index g i) v) as [c Hc]; [now apply data_index_range|].
    rewrite Hc. cbn. unfold gget.
    destruct (idx_eqb j i) eqn:Eji.
    + apply idx_eqb_eq in Eji. subst j. rewrite Ei. unfold data_index; cbn.
      eapply zget_zset_same. exact Hc.
    + destruct (in_bounds g j) eqn:Ej; [|easy]. unfold data_index; cbn.
      eapply zget_zset_other; [exact Hc|]. intros HD.
      apply idx_eqb_neq in Eji. apply Eji.
      eapply data_index3_inj; [exact Ej|exact Ei|exact HD].
  - destruct (in_bounds g j) eqn:Ej; unfold gget; now rewrite Ej.
Qed.

Lemma gget_gset_same {A} (g : grid A) i v :
  gwf g -> in_bounds g i = true -> gget (gset g i v) i = Some v.
Proof. intros W H. rewrite gget_gset by easy. now rewrite H, idx_eqb_refl. Qed.

Lemma gget_gset_other {A} (g : grid A) i v j :
  gwf g -> j <> i -> gget (gset g i v) j = gget g j.
Proof.
  intros W H. rewrite gget_gset by easy. apply idx_eqb_neq in H. rewrite H.
  now rewrite andb_false_r.
Qed.

Lemma in_all_idx nx ny nz i : In i (all_idx nx ny nz) <-> in_bounds3 nx ny nz i = true.
Proof.
  destruct i as [[x y] z]. rewrite in_bounds3_iff. unfold all_idx.
  rewrite in_flat_map. split.
  - intros [x' [Hx H]]. apply in_flat_map in H. destruct H as [y' [Hy H]].
    apply in_map_iff in H. destruct H as [z' [E Hz]]. inversion E; subst.
    rewrite in_zrange in *. lia.
  - intros [Hx [Hy Hz]]. exists x. split; [now apply in_zrange|].
    apply in_flat_map. exists y. split; [now apply in_zrange|].
    apply in_map_iff. exists z. split; [easy|now apply in_zrange].
Qed.

Lemma NoDup_flat_map {A B} (f : A -> list B) l :
  NoDup l -> (forall a, In a l -> NoDup (f a)) ->
  (forall a b x, In a l -> In b l -> In x (f a) -> In x (f b) -> a = b) ->
  NoDup (flat_map f l).
Proof.
  induction l as [|a t IH]; intros HN HF HD; cbn; [constructor|].
  inversion HN as [|? ? Ha Ht]; subst.
  assert (G : forall x, In x (f a) -> ~ In x (flat_map f t)).
  { intros x Hx Hc. apply in_flat_map in Hc. destruct Hc as [b [Hb Hxb]].
    assert (a = b) by (eapply HD; eauto; [now left|now right]). subst. easy. }
  assert (NDt : NoDup (flat_map f t)).
  { apply IH; [easy| |]; intros; [apply HF; now right|eapply HD; eauto; now right]. }
  assert (NDa : NoDup (f a)) by (apply HF; now left).
  clear -G NDt NDa. induction (f a) as [|x l IH]; cbn; [easy|].
  inversion NDa; subst. constructor.
  - rewrite in_app_iff. intros [H|H]; [easy|]. eapply G; [now left|easy].
  - apply IH; [|easy]. intros y Hy. apply G. now right.
Qed.

Lemma NoDup_all_idx nx ny nz : NoDup (all_idx nx ny nz).
Proof.
  unfold all_idx. apply NoDup_flat_map; [apply NoDup_zrange| |].
  - intros x _. apply NoDup_flat_map; [apply NoDup_zrange| |].
    + intros y _. apply Injective_map_NoDup; [|apply NoDup_zrange].
      intros a b [= ->]; easy.
    + intros a b i _ _ Ha Hb. apply in_map_iff in Ha, Hb.
      destruct Ha as [? [<- _]], Hb as [? [[= -> ->] _]]. easy.
  - intros a b i _ _ Ha Hb. apply in_flat_map in Ha, Hb.
    destruct Ha as [? [_ Ha]], Hb as [? [_ Hb]]. apply in_map_iff in Ha, Hb.
    destruct Ha as [? [<- _]], Hb as [? [[= -> -> ->] _]]. easy.
Qed.

Lemma length_flat_map_const {A B} (f : A -> list B) l n :
  (forall a, length (f a) = n) -> length (flat_map f l) = (length l * n)%nat.
Proof.
  intros H. induction l as [|a t IH]; cbn; [easy|]. rewrite app_length, H, IH. easy.
Qed.

Lemma all_idx_length nx ny nz :
  0 <= nx -> 0 <= ny -> 0 <= nz -> zlen (all_idx nx ny nz) = nx * ny * nz.
Proof.
  intros Hx Hy Hz. unfold zlen, all_idx.
  rewrite (length_flat_map_const _ _ (Z.to_nat ny * Z.to_nat nz)).
  - rewrite zrange_length. rewrite Z.sub_0_r. nia.
  - intros x. rewrite (length_flat_map_const _ _ (Z.to_nat nz)).
    + rewrite zrange_length. now rewrite Z.sub_0_r.
    + intros y. rewrite map_length, zrange_length. now rewrite Z.sub_0_r.
Qed.

Lemma nth_error_flat_map_const {A B} (f : A -> list B) l n i j a :
  (forall a, length (f a) = n) -> (j < n)%nat ->
  nth_error l i = Some a -> nth_error (flat_map f l) (i * n + j) = nth_error (f a) j.
Proof.
  intros HL Hj. revert i. induction l as [|h t IH]; intros i Hi; [destruct i; discriminate|].
  destruct i as [|i]; cbn in *.
  - injection Hi as ->. rewrite nth_error_app1; [easy|]. rewrite HL; lia.
  - rewrite nth_error_app2; [|rewrite HL; lia]. rewrite HL.
    replace (n + i * n + j - n)%nat with (i * n + j)%nat by lia. now apply IH.
Qed.

Lemma nth_error_zseq a n k : (k < n)%nat -> nth_error (zseq a n) k = Some (a + Z.of_nat k).
Proof.
  revert a k; induction n as [|n IH]; intros a k H; [lia|].
  destruct k as [|k]; cbn [zseq nth_error]; [f_equal; lia|].
  rewrite IH by lia. f_equal; lia.
Qed.

Lemma nth_error_zrange b k : 0 <= k < b -> nth_error (zrange 0 b) (Z.to_nat k) = Some k.
Proof.
  intros H. unfold zrange. rewrite nth_error_zseq by lia. f_equal; lia.
Qed.

Lemma nth_all_idx nx ny nz i :
  in_bounds3 nx ny nz i = true -> zget (all_idx nx ny nz) (data_index3 ny nz i) = Some i.
Proof.
  intros Hb. pose proof (data_index3_range _ _ _ _ Hb) as R.
  destruct i as [[x y] z]. rewrite in_bounds3_iff in Hb. destruct Hb as [Hx [Hy Hz]].
  unfold zget. destruct (_ <? 0) eqn:E; [lia|]. clear E.
  unfold data_index3, ix, iy, iz in *; cbn in *.
  set (fz := fun x y : Z => map (fun z => (x, y, z) : idx) (zrange 0 nz)).
  set (fy := fun x => flat_map (fz x) (zrange 0 ny)).
  assert (LZ : forall x y, length (fz x y) = Z.to_nat nz).
  { intros; unfold fz. rewrite map_length, zrange_length. now rewrite Z.sub_0_r. }
  assert (LY : forall x, length (fy x) = (Z.to_nat ny * Z.to_nat nz)%nat).
  { intros; unfold fy. rewrite (length_flat_map_const _ _ (Z.to_nat nz)) by apply LZ.
    rewrite zrange_length. now rewrite Z.sub_0_r. }
  replace (Z.to_nat ((x * ny + y) * nz + z))
    with (Z.to_nat x * (Z.to_nat ny * Z.to_nat nz) + (Z.to_nat y * Z.to_nat nz + Z.to_nat z))%nat
    by nia.
  unfold all_idx. fold (fz : Z -> Z -> list idx).
  change (nth_error (flat_map fy (zrange 0 nx))
            (Z.to_nat x * (Z.to_nat ny * Z.to_nat nz) + (Z.to_nat y * Z.to_nat nz + Z.to_nat z))
          = Some (x, y, z)).
  rewrite (nth_error_flat_map_const fy _ _ _ _ x LY); [|nia|now apply nth_error_zrange].
  unfold fy. rewrite (nth_error_flat_map_const (fz x) _ _ _ _ y (LZ x)); [|lia|now apply nth_error_zrange].
  unfold fz. rewrite nth_error_map, nth_error_zrange by lia. easy.
Qed.

Lemma gget_gtab {A} nx ny nz (f : idx -> A) i :
  gget (gtab nx ny nz f) i = if in_bounds3 nx ny nz i then Some (f i) else None.
Proof.
  unfold gget, gtab, in_bounds; cbn. destruct (in_bounds3 nx ny nz i) eqn:E; [|easy].
  pose proof (nth_all_idx _ _ _ _ E) as H.
  unfold data_index; cbn. unfold zget in *.
  destruct (_ <? 0); [discriminate|]. rewrite nth_error_map, H. easy.
Qed.

Lemma gtab_wf {A} nx ny nz (f : idx -> A) : 0 < nx -> 0 < ny -> 0 < nz -> gwf (gtab nx ny nz f).
Proof.
  intros Hx Hy Hz. unfold gwf, gtab, g_total; cbn. repeat split; try easy.
  unfold zlen. rewrite map_length. fold (zlen (all_idx nx ny nz)).
  rewrite all_idx_length; lia.
Qed.

Lemma gconst_wf {A} nx ny nz (v : A) : 0 < nx -> 0 < ny -> 0 < nz -> gwf (gconst nx ny nz v).
Proof.
  intros Hx Hy Hz. unfold gwf, gconst, g_total; cbn. repeat split; try easy.
  rewrite zlen_repeat. nia.
Qed.

Lemma gget_gconst {A} nx ny nz (v : A) i :
  gget (gconst nx ny nz v) i = if in_bounds3 nx ny nz i then Some v else None.
Proof.
  unfold gget, in_bounds, gconst; cbn. destruct (in_bounds3 nx ny nz i) eqn:E; [|easy].
  apply data_index3_range in E. unfold data_index; cbn. rewrite zget_repeat; [easy|lia].
Qed.

(** Two well-formed grids with equal dimensions and equal cells are equal. *)
Lemma data_index_surj nx ny nz k :
  0 < ny -> 0 < nz -> 0 <= k < nx * ny * nz ->
  exists i, in_bounds3 nx ny nz i = true /\ data_index3 ny nz i = k.
Proof.
  intros Hy Hz Hk.
  exists (k / nz / ny, (k / nz) mod ny, k mod nz).
  rewrite in_bounds3_iff. unfold data_index3, ix, iy, iz; cbn.
  assert (E1 : k = nz * (k / nz) + k mod nz) by (apply Z.div_mod; lia).
  assert (E2 : k / nz = ny * (k / nz / ny) + (k / nz) mod ny) by (apply Z.div_mod; lia).
  assert (B1 : 0 <= k mod nz < nz) by (apply Z.mod_pos_bound; lia).
  assert (B2 : 0 <= (k / nz) mod ny < ny) by (apply Z.mod_pos_bound; lia).
  assert (B3 : 0 <= k / nz) by (apply Z.div_pos; lia).
  assert (B4 : 0 <= k / nz / ny) by (apply Z.div_pos; lia).
  repeat split; try lia; try nia.
  assert (k / nz < nx * ny) by (apply Z.div_lt_upper_bound; nia).
  apply Z.div_lt_upper_bound; lia.
Qed.

Lemma grid_ext {A} (g h : grid A) :
  gwf g -> gwf h -> same_dims g h ->
  (forall i, in_bounds g i = true -> gget g i = gget h i) -> g = h.
Proof.
  intros Wg Wh [D1 [D2 D3]] HE.
  destruct g as [nx ny nz c], h as [nx' ny' nz' c']; cbn in *. subst nx' ny' nz'. f_equal.
  destruct Wg as [Hx [Hy [Hz Lg]]], Wh as [_ [_ [_ Lh]]]. unfold g_total in *; cbn in *.
  apply zget_ext; [lia|]. intros k Hk.
  destruct (data_index_surj nx ny nz k) as [i [Hi Ei]]; [lia|lia|lia|].
  specialize (HE i Hi). unfold gget, in_bounds, data_index in HE; cbn in HE.
  now rewrite Hi, Ei in HE.
Qed.

Lemma same_dims_refl {A} (g : grid A) : same_dims g g.
Proof. now unfold same_dims. Qed.

Lemma same_dims_trans {A B C} (g : grid A) (h : grid B) (k : grid C) :
  same_dims g h -> same_dims h k -> same_dims g k.
Proof. unfold same_dims. intros [? [? ?]] [? [? ?]]. repeat split; congruence. Qed.

Lemma same_dims_sym {A B} (g : grid A) (h : grid B) : same_dims g h -> same_dims h g.
Proof. unfold same_dims. intros [? [? ?]]. repeat split; congruence. Qed.
