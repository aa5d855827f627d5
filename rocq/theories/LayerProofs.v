(** Topology of maps of one layer: the surface of a connected component is connected,
    and the number of holes is determined by the Euler number. *)
From Coq Require Import ZArith List Lia Bool Permutation.
From Verif Require Import Util Grid Occ TopologyModel ComponentSpec ComponentMapModel ComponentMapSpec
  ComponentMapProofs TaggedMapProofs SurfaceModel SurfaceSpec SurfaceProofs HolesProofs PlaneProofs.
Import ListNotations.
Local Open Scope Z_scope.

(** ** The walk returns a set closed under the edges *)

Lemma push_incl l q s :
  let r := fold_left (fun '(q, s) w => if existsb (idx_eqb w) s then (q, s) else (q ++ [w], s ++ [w])) l (q, s) in
  (forall u, In u q -> In u (fst r)) /\ (forall u, In u s -> In u (snd r)) /\
  (forall u, In u l -> In u (snd r)) /\
  (forall u, In u (snd r) -> In u s \/ In u (fst r)).
Proof.
  revert q s; induction l as [|w l IH]; intros q s; cbn; [intuition|].
  destruct (existsb (idx_eqb w) s) eqn:E.
  - apply existsb_idx in E. destruct (IH q s) as (A & B & D & F).
    repeat split; auto. intros u [<-|U]; auto.
  - destruct (IH (q ++ [w]) (s ++ [w])) as (A & B & D & F).
    repeat split.
    + intros u U. apply A, in_app_iff. auto.
    + intros u U. apply B, in_app_iff. auto.
    + intros u [<-|U]; [|auto]. apply B, in_app_iff. right. now left.
    + intros u U. apply F in U. destruct U as [U|U]; [|auto]. apply in_app_iff in U.
      destruct U as [U|[<-|[]]]; [auto|]. right. apply A, in_app_iff. right. now left.
Qed.

Lemma walk_complete fuel V edges q s r :
  walk fuel V edges q s = Some r ->
  (forall u, In u s -> In u q \/ forall w, In w (connected_vertices edges u) -> In w s) ->
  (forall u, In u s -> In u r) /\
  forall u w, In u r -> In w (connected_vertices edges u) -> In w r.
Proof.
  revert q s; induction fuel as [|fuel IH]; intros q s E H; destruct q as [|u q]; cbn [walk] in E;
    try discriminate.
  1,2: injection E as <-; split; [auto|]; intros u w U W; destruct (H u U) as [[]|H']; auto.
  destruct (existsb (idx_eqb u) V); [|discriminate].
  destruct (push_incl (connected_vertices edges u) q s) as (A & B & D & F). cbn zeta in A, B, D, F.
  destruct (IH _ _ E) as (I1 & I2).
  - intros x X. destruct (F x X) as [Y|Y]; [|now left].
    destruct (H x Y) as [[<-|Q]|Q]; [right; auto|left; auto|right; intros w W; apply B; auto].
  - split; [auto|exact I2].
Qed.

(** ** One layer *)

Section Layer.
Variables (get : idx -> Z) (c : Z) (m : surface_map) (nx ny : Z).
Hypothesis all_voxels : forall i, get i = c -> In (i, 1) m.
Hypothesis entries : forall i v, In (i, v) m -> get i = c.
Hypothesis one_layer : forall x y z, get (x, y, z) = c -> z = 0 /\ 0 <= x < nx /\ 0 <= y < ny.

Let p (x y : Z) : bool := c =? get (x, y, 0).

Lemma p_iff x y : p x y = true <-> get (x, y, 0) = c.
Proof using. unfold p. rewrite Z.eqb_eq. intuition. Qed.
Lemma p_bounded x y : p x y = true -> 0 <= x < nx /\ 0 <= y < ny.
Proof using one_layer. intros H. apply p_iff in H. apply one_layer in H. tauto. Qed.
Lemma other_layer x y z : z <> 0 -> (c =? get (x, y, z)) = false.
Proof using one_layer. intros Z. apply Z.eqb_neq. intros E. symmetry in E. apply one_layer in E. tauto. Qed.

(** The edges of a vertex on either side of the layer. *)
Definition flat_edges (up : bool) (x y : Z) : list bool :=
  let mm := negb (p (x - 1) (y - 1)) in let mp := negb (p (x - 1) y) in
  let pm := negb (p x (y - 1)) in let pp := negb (p x y) in
  let side := (mm || mp || pm || pp) && negb (mm && mp && pm && pp) in
  [if up then side else false; if up then false else side;
   negb (mm && pm); negb (mp && pp); negb (mm && mp); negb (pm && pp)].

Lemma layer_edges x y z : z = 0 \/ z = 1 -> vertex_edges get c (x, y, z) = flat_edges (z =? 1) x y.
Proof using one_layer.
  intros [->| ->]; unfold vertex_edges, flat_edges, p; cbv zeta beta; cbn [Z.eqb Pos.eqb];
    change (x + -1) with (x - 1); change (y + -1) with (y - 1);
    change (0 + -1) with (-1); change (0 + 0) with 0; change (1 + -1) with 0; change (1 + 0) with 1;
    first [rewrite !(other_layer _ _ (-1)) by lia | rewrite !(other_layer _ _ 1) by lia];
    replace (x + 0) with x by lia; replace (y + 0) with y by lia;
    destruct (c =? get (x - 1, y - 1, 0)), (c =? get (x - 1, y, 0)), (c =? get (x, y - 1, 0)),
      (c =? get (x, y, 0)); reflexivity.
Qed.

Definition edge_number (x y : Z) (up : bool) : Z := zlen (filter (fun b => b) (flat_edges up x y)).

Lemma edge_number_cases x y up : 1 <= corner_sum p x y ->
  (edge_number x y up =? 3) = (corner_sum p x y =? 1) /\
  Z.b2z (edge_number x y up =? 5) = Z.b2z (corner_sum p x y =? 3) + Z.b2z (diagonal p x y) /\
  (edge_number x y up =? 6) = false.
Proof using.
  unfold edge_number, flat_edges, corner_sum, diagonal, v.
  destruct (p (x - 1) (y - 1)), (p (x - 1) y), (p x (y - 1)), (p x y), up; cbn; intros; try lia; auto.
Qed.

Notation V := (surface_vertices get c m).

Lemma in_layer_V x y z : In (x, y, z) V <-> (z = 0 \/ z = 1) /\ 1 <= corner_sum p x y.
Proof using all_voxels entries one_layer.
  rewrite (layer_vertices get c m all_voxels entries) by (intros a b d H; apply one_layer in H; tauto).
  unfold corner_of, ix, iy, iz. cbn [fst snd]. split.
  - intros ([[a b] d] & H & C). cbn [fst snd] in C. destruct (one_layer _ _ _ H) as (-> & _).
    split; [lia|]. apply p_iff in H. unfold corner_sum, v.
    destruct C as ([->| ->] & [->| ->] & _);
      replace (a + 1 - 1) with a by lia; replace (b + 1 - 1) with b by lia; rewrite H; cbn [Z.b2z];
      repeat match goal with |- context [Z.b2z ?b] => pose proof (b2z_nonneg b);
        generalize dependent (Z.b2z b); intros end; lia.
  - intros (Hz & H). unfold corner_sum, v in H.
    destruct (p (x - 1) (y - 1)) eqn:E1; [|destruct (p x (y - 1)) eqn:E2;
      [|destruct (p (x - 1) y) eqn:E3; [|destruct (p x y) eqn:E4; [|cbn in H; lia]]]];
    (eexists; split; [apply p_iff; eassumption|]); cbn [fst snd]; lia.
Qed.

Hypothesis sizes : 0 <= nx /\ 0 <= ny.

Notation box := (list_prod (around_box nx ny) [0; 1]).

Lemma layer_V_perm :
  Permutation V (filter (fun i : idx => 1 <=? corner_sum p (ix i) (iy i)) box).
Proof using all_voxels entries one_layer.
  clear sizes. apply NoDup_Permutation.
  - apply surface_vertices_nodup.
  - apply NoDup_filter, nodup_prod; [apply nodup_prod; apply NoDup_zrange|].
    constructor; [intros [E|[]]; discriminate|constructor; [easy|constructor]].
  - intros [[x y] z]. rewrite in_layer_V, filter_In. unfold ix, iy. cbn [fst snd].
    unfold idx. rewrite in_prod_iff. unfold around_box. rewrite in_prod_iff, !in_zrange. cbn [In]. split.
    + intros (Hz & H). split; [|lia]. split; [|intuition].
      unfold corner_sum, v in H.
      destruct (p (x - 1) (y - 1)) eqn:E1; [|destruct (p x (y - 1)) eqn:E2;
        [|destruct (p (x - 1) y) eqn:E3; [|destruct (p x y) eqn:E4; [|cbn in H; lia]]]];
      match goal with E : p _ _ = true |- _ => apply p_bounded in E end; lia.
    + intros ((_ & Hz) & H). split; [intuition|lia].
Qed.

Lemma layer_count_edges order k (f : Z -> Z -> Z) :
  (forall l, Permutation (order l) l) ->
  (forall x y up, 1 <= corner_sum p x y -> Z.b2z (edge_number x y up =? k) = f x y) ->
  (forall x y, ~ 1 <= corner_sum p x y -> f x y = 0) ->
  zlen (filter (fun u => zlen (filter (fun b => b) (vertex_edges get c u)) =? k) (order V)) =
    2 * sum2 nx ny f.
Proof using all_voxels entries one_layer.
  clear sizes. intros OP Hf H0. rewrite zlen_filter, (zsum_perm _ _ _ (OP V)), (zsum_perm _ _ _ layer_V_perm), zsum_filter.
  etransitivity; [apply (@zsum_prod (Z * Z) Z)|]. rewrite <- sum2_box, <- zsum_mul. apply zsum_ext. intros [x y] _.
  cbn [zsum]. unfold ix, iy. cbn [fst snd].
  destruct (1 <=? corner_sum p x y) eqn:E.
  - apply Z.leb_le in E. rewrite !layer_edges by auto. cbn [Z.eqb Pos.eqb].
    fold (edge_number x y true). fold (edge_number x y false). rewrite !Hf by easy. lia.
  - apply Z.leb_gt in E. rewrite H0 by lia. lia.
Qed.

(** *** The surface is connected *)

Lemma conn_at u w k :
  nth_error (combine (vertex_edges get c u) (edge_ends u)) k = Some (true, w) ->
  In w (connected_vertices (vertex_edges get c) u).
Proof using.
  intros H. apply nth_error_In in H. unfold connected_vertices. apply in_flat_map.
  exists (true, w). split; [exact H|]. now left.
Qed.

Lemma conn_x x y z : z = 0 \/ z = 1 -> p x y = true \/ p x (y - 1) = true ->
  In (x + 1, y, z) (connected_vertices (vertex_edges get c) (x, y, z)) /\
  In (x, y, z) (connected_vertices (vertex_edges get c) (x + 1, y, z)).
Proof using one_layer.
  intros Hz H. split.
  - apply (conn_at _ _ 5). rewrite layer_edges by easy. unfold edge_ends, flat_edges. cbn [combine nth_error].
    destruct H as [-> | ->]; cbn [negb andb]; rewrite ?andb_false_r; reflexivity.
  - apply (conn_at _ _ 4). rewrite layer_edges by easy. unfold edge_ends, flat_edges. cbn [combine nth_error].
    replace (x + 1 - 1) with x by lia.
    destruct H as [-> | ->]; cbn [negb andb]; rewrite ?andb_false_r; reflexivity.
Qed.
Lemma conn_y x y z : z = 0 \/ z = 1 -> p x y = true \/ p (x - 1) y = true ->
  In (x, y + 1, z) (connected_vertices (vertex_edges get c) (x, y, z)) /\
  In (x, y, z) (connected_vertices (vertex_edges get c) (x, y + 1, z)).
Proof using one_layer.
  intros Hz H. split.
  - apply (conn_at _ _ 3). rewrite layer_edges by easy. unfold edge_ends, flat_edges. cbn [combine nth_error].
    destruct H as [-> | ->]; cbn [negb andb]; rewrite ?andb_false_r; reflexivity.
  - apply (conn_at _ _ 2). rewrite layer_edges by easy. unfold edge_ends, flat_edges. cbn [combine nth_error].
    replace (y + 1 - 1) with y by lia.
    destruct H as [-> | ->]; cbn [negb andb]; rewrite ?andb_false_r; reflexivity.
Qed.
(** A vertex on the left side of a cell. *)
Lemma conn_z x y : p x y = true -> p (x - 1) y = false ->
  In (x, y, 1) (connected_vertices (vertex_edges get c) (x, y, 0)) /\
  In (x, y, 0) (connected_vertices (vertex_edges get c) (x, y, 1)).
Proof using one_layer.
  intros A B. split.
  - apply (conn_at _ _ 1). rewrite layer_edges by auto. unfold edge_ends, flat_edges. cbn [combine nth_error Z.eqb].
    rewrite A, B. cbn [negb andb]. rewrite ?andb_false_r, ?orb_true_r. reflexivity.
  - apply (conn_at _ _ 0). rewrite layer_edges by auto. unfold edge_ends, flat_edges. cbn [combine nth_error Z.eqb Pos.eqb].
    rewrite A, B. cbn [negb andb]. rewrite ?andb_false_r, ?orb_true_r. reflexivity.
Qed.

Lemma left_end n x y : (Z.to_nat x <= n)%nat -> p x y = true -> exists x', p x' y = true /\ p (x' - 1) y = false.
Proof using one_layer.
  clear sizes. revert x; induction n as [|n IH]; intros x L H; destruct (p (x - 1) y) eqn:E.
  - apply p_bounded in E. lia.
  - eauto.
  - pose proof (p_bounded _ _ E). apply (IH (x - 1)); [lia|easy].
  - eauto.
Qed.

Section ClosedSet.
Variable R : idx -> Prop.
Hypothesis closed : forall u w, R u -> In w (connected_vertices (vertex_edges get c) u) -> R w.

Definition has_corners (z : Z) (a : Z * Z) : Prop :=
  R (fst a, snd a, z) /\ R (fst a + 1, snd a, z) /\ R (fst a, snd a + 1, z) /\ R (fst a + 1, snd a + 1, z).

Lemma one_corner x y z a b : p x y = true -> z = 0 \/ z = 1 ->
  (a = x \/ a = x + 1) -> (b = y \/ b = y + 1) -> R (a, b, z) -> has_corners z (x, y).
Proof using closed one_layer.
  intros H Hz A B HR. unfold has_corners. cbn [fst snd].
  destruct (conn_x x y z Hz (or_introl H)) as (X1 & X2).
  destruct (conn_y x y z Hz (or_introl H)) as (Y1 & Y2).
  destruct (conn_x x (y + 1) z Hz) as (X3 & X4); [right; replace (y + 1 - 1) with y by lia; exact H|].
  destruct (conn_y (x + 1) y z Hz) as (Y3 & Y4); [right; replace (x + 1 - 1) with x by lia; exact H|].
  destruct A as [->| ->], B as [->| ->];
    repeat split; eauto.
Qed.

Lemma linked_corners z u w : z = 0 \/ z = 1 -> linked p u w -> has_corners z u -> has_corners z w.
Proof using closed one_layer.
  intros Hz. induction 1 as [x y H|u x y x' y' L IH D H]; [easy|]. intros HC. specialize (IH HC).
  destruct IH as (A & B & C & E). cbn [fst snd] in *.
  assert ((x' = x + 1 /\ y' = y) \/ (x = x' + 1 /\ y' = y) \/ (x' = x /\ y' = y + 1) \/ (x' = x /\ y = y' + 1))
    as [(-> & ->)|[(-> & ->)|[(-> & ->)|(-> & ->)]]] by lia.
  - apply (one_corner (x + 1) y z (x + 1) y); auto.
  - apply (one_corner x' y z (x' + 1) y); auto.
  - apply (one_corner x (y + 1) z x (y + 1)); auto.
  - apply (one_corner x y' z x (y' + 1)); auto.
Qed.

Hypothesis all_linked : forall a b, p (fst a) (snd a) = true -> p (fst b) (snd b) = true -> linked p a b.

Lemma closed_all u : In u V -> R u -> forall w, In w V -> R w.
Proof using closed one_layer all_linked all_voxels entries.
  clear sizes.
  assert (cell_of : forall x y, 1 <= corner_sum p x y ->
    exists a b, p a b = true /\ (x = a \/ x = a + 1) /\ (y = b \/ y = b + 1)).
  { intros x y H. unfold corner_sum, v in H.
    destruct (p (x - 1) (y - 1)) eqn:E1; [|destruct (p x (y - 1)) eqn:E2;
      [|destruct (p (x - 1) y) eqn:E3; [|destruct (p x y) eqn:E4; [|cbn in H; lia]]]];
    (eexists _, _; split; [eassumption|]); lia. }
  intros U HR w W. destruct u as [[x y] z], w as [[x' y'] z']. apply in_layer_V in U, W.
  destruct U as (Hz & HU), W as (Hz' & HW).
  destruct (cell_of _ _ HU) as (a & b & Pa & Xa & Yb). destruct (cell_of _ _ HW) as (a' & b' & Pa' & Xa' & Yb').
  pose proof (one_corner a b z x y Pa Hz Xa Yb HR) as C1.
  destruct (left_end (Z.to_nat a) a b (Nat.le_refl _) Pa) as (l & Pl & Ql).
  pose proof (linked_corners z (a, b) (l, b) Hz (all_linked (a, b) (l, b) Pa Pl) C1) as C2.
  assert (C3 : forall t, t = 0 \/ t = 1 -> has_corners t (l, b)).
  { destruct (conn_z l b Pl Ql) as (Z1 & Z2). destruct C2 as (R0 & _). cbn [fst snd] in R0.
    intros t Ht. apply (one_corner l b t l b); auto.
    destruct Hz as [->| ->], Ht as [->| ->]; eauto. }
  pose proof (linked_corners z' (l, b) (a', b') Hz' (all_linked (l, b) (a', b') Pl Pa') (C3 z' Hz')) as C4.
  destruct C4 as (D1 & D2 & D3 & D4). cbn [fst snd] in *.
  destruct Xa' as [->| ->], Yb' as [->| ->]; assumption.
Qed.
End ClosedSet.

Hypothesis all_linked : forall a b, p (fst a) (snd a) = true -> p (fst b) (snd b) = true -> linked p a b.
Hypothesis nonempty : exists i, get i = c.

Lemma V_nonempty : V <> [].
Proof using all_voxels entries one_layer nonempty.
  clear sizes. destruct nonempty as ([[x y] z] & H). destruct (one_layer _ _ _ H) as (-> & _).
  assert (In (x, y, 0) V).
  { apply in_layer_V. split; [auto|]. apply p_iff in H. unfold corner_sum, v. rewrite H. cbn [Z.b2z].
    pose proof (b2z_nonneg (p (x - 1) (y - 1))). pose proof (b2z_nonneg (p x (y - 1))).
    pose proof (b2z_nonneg (p (x - 1) y)). lia. }
  intros E. rewrite E in H0. destruct H0.
Qed.

Lemma one_surface order : (forall l, Permutation (order l) l) ->
  count_surfaces order V (vertex_edges get c) = Some 1.
Proof using all_voxels entries one_layer all_linked nonempty.
  clear sizes. intros OP. unfold count_surfaces.
  assert (IO : forall u, In u (order V) -> In u V) by (intros u U; eapply Permutation_in; [apply OP|exact U]).
  destruct (order V) as [|u rest] eqn:EO.
  { elim V_nonempty. apply Permutation_nil. rewrite <- EO. apply OP. }
  cbn [ofold existsb]. 
  destruct (walk_closed V (vertex_edges get c)
    (layer_closed get c m all_voxels entries ltac:(intros a b d H; apply one_layer in H; tauto))
    (surface_vertices_nodup get c m) (S (length V)) [u] [u]) as (r & Er & ND & RV & Ru).
  { constructor; [easy|constructor]. }
  { easy. }
  { intros a [<-|[]]. apply IO. now left. }
  { cbn; lia. }
  { cbn; lia. }
  rewrite Er. cbn [obind]. destruct (walk_complete _ _ _ _ _ _ Er) as (_ & CL).
  { intros a [<-|[]]. left. now left. }
  assert (EL : zlen r = zlen V).
  { apply Z.le_antisymm; unfold zlen; apply inj_le.
    - apply NoDup_incl_length; [exact ND|exact RV].
    - apply NoDup_incl_length; [apply surface_vertices_nodup|]. intros w W.
      apply (closed_all (fun a => In a r) CL all_linked u); [apply IO; now left|apply Ru; now left|exact W]. }
  cbn [app]. rewrite Z.add_0_l, EL, Z.eqb_refl.
  match goal with |- context [ofold ?F rest ?st] => assert (G : ofold F rest st = Some st) end.
  { clear. induction rest as [|a rest IH]; cbn [ofold obind]; [easy|]. exact IH. }
  rewrite G. reflexivity.
Qed.

Definition euler_p : Z := cells nx ny p - pairs_x nx ny p - pairs_y nx ny p + squares nx ny p.

Lemma sum2_nonneg f : (forall x y, 0 <= f x y) -> 0 <= sum2 nx ny f.
Proof using. intros H. unfold sum2. apply zsum_nonneg. intros. apply zsum_nonneg. auto. Qed.

Lemma layer_holes order : (forall l, Permutation (order l) l) ->
  exists h, holes_and_voids get order c m = Some (h, 0) /\ 0 <= h /\
    h = 1 + Z.quot (6 * diagonals nx ny p - 8 * euler_p) 8.
Proof using all_voxels entries one_layer all_linked nonempty sizes.
  intros OP. unfold holes_and_voids. rewrite (one_surface order OP). cbn [obind].
  assert (M3 : zlen (filter (fun u => zlen (filter (fun b => b) (vertex_edges get c u)) =? 3) (order V)) =
    2 * ones nx ny p).
  { apply layer_count_edges; [exact OP| |].
    - intros x y up H. now destruct (edge_number_cases x y up H) as (-> & _).
    - intros x y H. destruct (corner_sum p x y =? 1) eqn:E; [|easy]. apply Z.eqb_eq in E. lia. }
  assert (M5 : zlen (filter (fun u => zlen (filter (fun b => b) (vertex_edges get c u)) =? 5) (order V)) =
    2 * (threes nx ny p + diagonals nx ny p)).
  { unfold threes, diagonals. rewrite <- sum2_add. apply layer_count_edges; [exact OP| |].
    - intros x y up H. now destruct (edge_number_cases x y up H) as (_ & -> & _).
    - intros x y H. unfold diagonal, corner_sum, v in *.
      destruct (p (x - 1) (y - 1)), (p x (y - 1)), (p (x - 1) y), (p x y); cbn [Z.b2z andb orb negb Z.eqb Pos.eqb Z.add Pos.add] in *; lia. }
  assert (M6 : zlen (filter (fun u => zlen (filter (fun b => b) (vertex_edges get c u)) =? 6) (order V)) =
    2 * sum2 nx ny (fun _ _ => 0)).
  { apply layer_count_edges; [exact OP| |easy].
    intros x y up H. now destruct (edge_number_cases x y up H) as (_ & _ & ->). }
  rewrite M3, M5, M6.
  assert (E0 : sum2 nx ny (fun _ _ => 0) = 0).
  { unfold sum2. apply zsum_zero. intros. now apply zsum_zero. }
  rewrite E0. clear M3 M5 M6 E0.
  pose proof (euler_corners nx ny p p_bounded sizes) as EC. fold euler_p in EC.
  assert (LE : euler_p <= 1).
  { destruct nonempty as ([[x y] z] & H). destruct (one_layer _ _ _ H) as (-> & _). apply p_iff in H.
    apply (euler_connected nx ny p p_bounded sizes (x, y)); [exact H|].
    intros x' y' H'. now apply (all_linked (x, y) (x', y')). }
  assert (D0 : 0 <= diagonals nx ny p) by (apply sum2_nonneg; intros; apply b2z_nonneg).
  replace (2 * (threes nx ny p + diagonals nx ny p) + 2 * (2 * 0) - 2 * ones nx ny p)
    with (6 * diagonals nx ny p - 8 * euler_p) by lia.
  assert (Q : -1 <= Z.quot (6 * diagonals nx ny p - 8 * euler_p) 8).
  { apply (Z.quot_le_lower_bound _ _ (-1)); lia. }
  set (q := Z.quot _ 8) in *. exists (1 + q).
  replace (1 + q + (1 - 1)) with (1 + q) by lia.
  destruct (1 + q <? 0) eqn:E1; [apply Z.ltb_lt in E1; lia|].
  apply Z.ltb_ge in E1. change (1 - 1 <? 0) with false. cbn [orb]. change (1 - 1) with 0. auto.
Qed.
End Layer.

(** ** Maps of one layer *)

Lemma places_sum2 {C} (g : grid C) q :
  0 <= g_nx g -> 0 <= g_ny g -> (forall x y, q x y = true -> 0 <= x < g_nx g /\ 0 <= y < g_ny g) ->
  places g q = sum2 (g_nx g) (g_ny g) (fun x y => Z.b2z (q x y)).
Proof.
  intros SX SY B. unfold places. rewrite <- sum2_box.
  rewrite <- (zlen_filter (fun a => q (fst a) (snd a))).
  transitivity (zlen (map (fun a : Z * Z => (fst a, snd a, 0)) (filter (fun a => q (fst a) (snd a)) (around_box (g_nx g) (g_ny g))))).
  - unfold zlen. f_equal. apply Permutation_length, NoDup_Permutation.
    + apply NoDup_filter, NoDup_all_idx.
    + apply FinFun.Injective_map_NoDup.
      * intros [a b] [a' b'] E. cbn in E. congruence.
      * apply NoDup_filter. unfold around_box. apply nodup_prod; apply NoDup_zrange.
    + intros [[x y] z]. rewrite filter_In, in_all_idx, in_bounds3_iff, in_map_iff. cbn [ix iy fst snd]. split.
      * intros (I & Q). exists (x, y). cbn [fst snd]. split; [f_equal; lia|]. apply filter_In. cbn [fst snd].
        split; [|exact Q]. unfold around_box. apply in_prod; apply in_zrange; lia.
      * intros ([a b] & E & I). cbn [fst snd] in E. injection E as <- <- <-. apply filter_In in I. cbn [fst snd] in I.
        destruct I as (_ & Q). split; [|exact Q]. apply B in Q. lia.
  - unfold zlen. now rewrite map_length.
Qed.

Section OneLayer.
Context {C : Type} (occ_of : C -> occ) (comp_of : C -> Z) (k : kinds) (g : grid C)
  (conn : idx -> idx -> Prop) (n : Z).
Hypothesis W : gwf g.
Hypothesis O : occs_ok occ_of g.
Hypothesis N : numbers_ok comp_of g.
Hypothesis NZ : g_nz g = 1.
Hypothesis LB : is_labelling (in_grid g) conn (label comp_of g) n.
Hypothesis CS : forall i j, conn i j -> same_side occ_of g i j.

Lemma joined_selected i j : joined (in_grid g) conn i j -> selected occ_of k g i -> selected occ_of k g j.
Proof using CS.
  intros J. induction J as [i I|i j l J IH F E I]; [easy|]. intros S. specialize (IH S).
  apply CS in E. destruct E as (a & b & r & Ea & Eb & Ra & Rb).
  assert (U : forall r', side_is occ_of g j r' -> r' = Some r).
  { intros r' (x & Ex & <-). congruence. }
  destruct IH as [(X & K)|[(X & K)|([X|X] & K)]]; apply U in X; try discriminate; injection X as <-.
  - left. split; [exists b; auto|exact K].
  - right. left. split; [exists b; auto|exact K].
  - right. right. split; [left; exists b; auto|exact K].
Qed.

Lemma carries_fn c x y : 0 <= c -> carries comp_of g c x y = (c =? component_fn comp_of g (x, y, 0)).
Proof using.
  intros P. unfold carries, component_fn. destruct (gget g (x, y, 0)); [apply Z.eqb_sym|].
  symmetry. apply Z.eqb_neq. lia.
Qed.

Lemma carries_in c x y : carries comp_of g c x y = true -> 0 <= x < g_nx g /\ 0 <= y < g_ny g.
Proof using.
  unfold carries. destruct (gget g (x, y, 0)) as [a|] eqn:E; [|easy]. intros _.
  apply gget_in_bounds in E. apply in_bounds_iff in E. lia.
Qed.

Lemma entry_holes order s c m :
  (forall l, Permutation (order l) l) -> extract_surfaces occ_of comp_of k g = Some s -> In (c, m) s ->
  exists h, holes_and_voids (component_fn comp_of g) order c m = Some (h, 0) /\ 0 <= h /\
    h = 1 + Z.quot (6 * diagonal_contacts comp_of g c - 8 * euler_number comp_of g c) 8.
Proof using W O N NZ LB CS.
  intros OP ES I.
  destruct (extract_surfaces_spec occ_of comp_of k g W O N) as (s' & ES' & (ND & SM) & IS).
  rewrite ES in ES'. injection ES' as <-. destruct (SM c m I) as (NDm & NE & V1).
  assert (U : forall i, In (i, 1) m <-> in_surface s c i).
  { intros i. split; [intros H; exists m; auto|]. intros (m' & I' & H).
    enough (m' = m) by congruence. clear - ND I I'.
    induction s as [|[d w] s IH]; [destruct I|]. cbn in ND. apply NoDup_cons_iff in ND. destruct ND as (NI & ND).
    assert (K : forall x, In (d, x) s -> False)
      by (intros x X; apply NI; change d with (fst (d, x)); now apply in_map).
    destruct I as [E|I], I' as [E'|I'].
    - congruence.
    - injection E as -> ->. now elim (K _ I').
    - injection E' as -> ->. now elim (K _ I).
    - now apply IH. }
  destruct m as [|[j w] m'] eqn:M; [easy|]. rewrite <- M in *.
  assert (HJ : in_surface s c j).
  { apply U. assert (w = 1) by (apply (V1 j); rewrite M; now left). rewrite M. subst w. now left. }
  apply IS in HJ. destruct HJ as (J1 & J2 & J3).
  assert (P : 0 <= c).
  { destruct (gget_some g j W J1) as (x & Hx). rewrite <- J3. unfold label. rewrite Hx. apply (N j x Hx). }
  assert (G : forall i, component_fn comp_of g i = c <-> in_grid g i /\ label comp_of g i = c).
  { intros i. unfold component_fn, label, in_grid. destruct (gget g i) as [x|] eqn:E.
    - apply gget_in_bounds in E. tauto.
    - split; [lia|]. intros (A & _). destruct (gget_some g i W A). congruence. }
  destruct LB as (_ & _ & L3 & _).
  assert (SZ : 0 <= g_nx g /\ 0 <= g_ny g) by (destruct W; lia).
  assert (FL : forall x y z, in_grid g (x, y, z) -> z = 0 /\ 0 <= x < g_nx g /\ 0 <= y < g_ny g).
  { intros x y z H. unfold in_grid in H. apply in_bounds_iff in H. lia. }
  set (p := fun x y => c =? component_fn comp_of g (x, y, 0)).
  assert (PB : forall x y, p x y = true -> 0 <= x < g_nx g /\ 0 <= y < g_ny g).
  { intros x y H. apply (carries_in c). now rewrite carries_fn. }
  destruct (layer_holes (component_fn comp_of g) c m (g_nx g) (g_ny g)) with (order := order) as (h & E & H0 & Hh).
  - intros i Hi. apply G in Hi. apply U, IS. split; [tauto|]. split; [|tauto].
    apply (joined_selected j i); [|easy]. apply L3; [easy|tauto|destruct Hi; congruence].
  - intros i v Hv. assert (v = 1) by eauto. subst v. apply U, IS in Hv. apply G. tauto.
  - intros x y z H. apply G in H. destruct H as (H & _). now apply FL.
  - exact SZ.
  - intros u w' Pu Pw. fold p in Pu, Pw |- *. destruct u as [x y], w' as [x' y']. cbn [fst snd] in *.
    assert (Q : forall a b, p a b = true -> in_grid g (a, b, 0) /\ label comp_of g (a, b, 0) = c).
    { intros a b H. unfold p in H. apply Z.eqb_eq in H. apply G. congruence. }
    destruct (Q _ _ Pu) as (A1 & A2), (Q _ _ Pw) as (B1 & B2).
    assert (J : joined (in_grid g) conn (x, y, 0) (x', y', 0)) by (apply L3; congruence).
    clear B1 B2 Pw. remember (x, y, 0) as a eqn:Ea. remember (x', y', 0) as b eqn:Eb. revert x' y' Eb.
    induction J as [a Xa|a b d J IH F E X]; intros x' y' Eb.
    + rewrite Ea in Eb. injection Eb as E1 E2. rewrite <- E1, <- E2. apply linked_here.
      unfold p. rewrite <- Ea. exact Pu.
    + destruct b as [[bx bw] bz].
      assert (Xb : in_grid g (bx, bw, bz)) by (destruct J; assumption).
      destruct (FL _ _ _ Xb) as (-> & _).
      assert (Ld : label comp_of g d = c).
      { rewrite <- A2. symmetry. apply L3; [exact A1|exact X|]. eapply joined_step; eauto. }
      apply (linked_step p (x, y) bx bw x' y').
      * now apply IH.
      * rewrite Eb in F. unfold share_face in F. cbn [ix iy iz fst snd] in F. lia.
      * unfold p. apply Z.eqb_eq. symmetry. apply G. rewrite <- Eb. auto.
  - exists j. apply G. auto.
  - exact OP.
  - exists h. split; [exact E|]. split; [exact H0|]. rewrite Hh. fold p. do 2 f_equal.
    assert (SQ : forall q q', (forall x y, q' x y = q x y) -> (forall x y, q x y = true -> 0 <= x < g_nx g /\ 0 <= y < g_ny g) ->
      places g q' = sum2 (g_nx g) (g_ny g) (fun x y => Z.b2z (q x y))).
    { intros q q' Eq B. rewrite places_sum2; [|lia..|intros x y H; rewrite Eq in H; auto].
      apply sum2_ext. intros. now rewrite Eq. }
    assert (CP : forall x y, carries comp_of g c x y = p x y) by (intros; now apply carries_fn).
    assert (DD : diagonal_contacts comp_of g c = diagonals (g_nx g) (g_ny g) p).
    { unfold diagonal_contacts. cbv zeta.
      rewrite (SQ (fun x y => (p x y && p (x + 1) (y + 1) && negb (p (x + 1) y) && negb (p x (y + 1)))
                    || (p (x + 1) y && p x (y + 1) && negb (p x y) && negb (p (x + 1) (y + 1))))).
      - unfold diagonals.
        assert (NR : near (g_nx g) (g_ny g) (fun x y => Z.b2z (diagonal p x y))).
        { intros x y H. unfold diagonal in H.
          pose proof (PB x y). pose proof (PB (x - 1) y).
          destruct (p x y); [lia|]. destruct (p (x - 1) y); [lia|]. rewrite ?andb_false_r in H. now elim H. }
        rewrite <- (shift_x _ _ SZ _ NR).
        rewrite <- (shift_y _ _ SZ (fun x y => Z.b2z (diagonal p (x + 1) y))).
        + apply sum2_ext. intros x y. unfold diagonal.
          replace (x + 1 - 1) with x by lia. replace (y + 1 - 1) with y by lia. reflexivity.
        + intros x y H. unfold diagonal in H. replace (x + 1 - 1) with x in H by lia.
          pose proof (PB (x + 1) y). pose proof (PB x y).
          destruct (p (x + 1) y); [lia|]. destruct (p x y); [lia|]. rewrite ?andb_false_r in H. now elim H.
      - intros x y. now rewrite !CP.
      - intros x y H. pose proof (PB x y). pose proof (PB (x + 1) y). pose proof (PB x (y + 1)).
        destruct (p x y); [auto|]. cbn [andb orb] in H.
        destruct (p (x + 1) y); [|discriminate H]. destruct (p x (y + 1)); [|discriminate H]. lia. }
    rewrite DD. do 2 f_equal. unfold euler_number, euler_p, cells, pairs_x, pairs_y, squares, v. cbv zeta. fold p.
    assert (B : forall x y b, p x y && b = true -> 0 <= x < g_nx g /\ 0 <= y < g_ny g).
    { intros x y b H. apply andb_prop in H. apply PB, H. }
    f_equal; [f_equal; [f_equal|]|]; symmetry.
    + apply SQ; [exact CP|exact PB].
    + rewrite (SQ (fun x y => p x y && p (x + 1) y)); [|intros; now rewrite !CP|intros x y; apply B].
      apply sum2_ext. intros x y.
      fold (p x y) (p (x + 1) y). now destruct (p x y), (p (x + 1) y).
    + rewrite (SQ (fun x y => p x y && p x (y + 1))); [|intros; now rewrite !CP|intros x y; apply B].
      apply sum2_ext. intros x y.
      fold (p x y) (p x (y + 1)). now destruct (p x y), (p x (y + 1)).
    + rewrite (SQ (fun x y => p x y && (p (x + 1) y && p x (y + 1) && p (x + 1) (y + 1))));
        [|intros; rewrite !CP; now rewrite !andb_assoc|intros x y; apply B].
      apply sum2_ext. intros x y. fold (p x y) (p (x + 1) y) (p x (y + 1)) (p (x + 1) (y + 1)).
      now destruct (p x y), (p (x + 1) y), (p x (y + 1)), (p (x + 1) (y + 1)).
Qed.

Lemma one_layer_topology order : (forall l, Permutation (order l) l) ->
  exists r, component_topology occ_of comp_of order k g = Some r /\ NoDup (map fst r) /\
    (forall c, In c (map fst r) <-> exists i, in_grid g i /\ selected occ_of k g i /\ label comp_of g i = c) /\
    forall c h v, In (c, (h, v)) r -> v = 0 /\ 0 <= h /\
      h = 1 + Z.quot (6 * diagonal_contacts comp_of g c - 8 * euler_number comp_of g c) 8.
Proof using W O N NZ LB CS.
  intros OP. destruct (extract_surfaces_spec occ_of comp_of k g W O N) as (s & ES & (ND & SM) & IS).
  unfold component_topology. rewrite ES. cbn [obind].
  assert (A : forall l acc, (forall c m, In (c, m) l -> In (c, m) s) ->
    exists r, ofold (fun acc '(c, m) => let* r := holes_and_voids (component_fn comp_of g) order c m in Some (acc ++ [(c, r)])) l acc
        = Some (acc ++ r) /\ map fst r = map fst l /\
      forall c h v, In (c, (h, v)) r -> v = 0 /\ 0 <= h /\
        h = 1 + Z.quot (6 * diagonal_contacts comp_of g c - 8 * euler_number comp_of g c) 8).
  { intros l. induction l as [|[c m] l IH]; intros acc H.
    - exists []. cbn [ofold]. rewrite app_nil_r. split; [easy|]. split; [easy|]. intros c h v [].
    - cbn [ofold]. destruct (entry_holes order s c m OP ES (H c m (or_introl eq_refl))) as (h & E & H0 & Hh).
      rewrite E. cbn [obind]. destruct (IH (acc ++ [(c, (h, 0))])) as (r & Er & Mr & R); [intros; apply H; now right|].
      exists ((c, (h, 0)) :: r). rewrite Er, <- app_assoc. split; [easy|]. split; [cbn [map fst]; now f_equal|].
      intros c' h' v' [X|X]; [|eauto]. injection X as <- <- <-. auto. }
  destruct (A s [] (fun _ _ I => I)) as (r & Er & Mr & R). unfold topology_of_surfaces. rewrite Er. exists r.
  split; [easy|]. rewrite Mr. split; [exact ND|]. split; [|exact R].
  intros c. rewrite in_map_iff. split.
  - intros ([d m] & E & I). cbn [fst] in E. subst d. destruct (SM c m I) as (_ & NE & V1).
    destruct m as [|[i w] m]; [easy|]. exists i. apply IS. exists ((i, w) :: m). split; [exact I|].
    assert (w = 1) by (apply (V1 i); now left). subst w. now left.
  - intros (i & Hi). apply IS in Hi. destruct Hi as (m & I & _). exists (c, m). auto.
Qed.
End OneLayer.

(** ** Maps after their components were updated *)

Lemma labelling_bound {C} (comp_of : C -> Z) (g : grid C) conn n :
  gwf g -> is_labelling (in_grid g) conn (label comp_of g) n -> n <= g_total g.
Proof.
  intros (W1 & W2 & W3 & _) (_ & L2 & _ & _).
  assert (H : zlen (zrange 1 (n + 1)) <= zlen (map (label comp_of g) (all_idx (g_nx g) (g_ny g) (g_nz g)))).
  { unfold zlen. apply inj_le, NoDup_incl_length; [apply NoDup_zrange|]. intros a I. apply in_zrange in I.
    destruct (L2 a) as (i & Gi & <-); [lia|]. apply in_map, in_all_idx. exact Gi. }
  assert (L : zlen (map (label comp_of g) (all_idx (g_nx g) (g_ny g) (g_nz g))) = g_total g).
  { unfold zlen. rewrite map_length. fold (zlen (all_idx (g_nx g) (g_ny g) (g_nz g))).
    rewrite all_idx_length by lia. reflexivity. }
  rewrite L in H. unfold zlen in H. rewrite zrange_length in H. lia.
Qed.

Lemma labelling_numbers {C} (comp_of : C -> Z) (g : grid C) conn n :
  gwf g -> g_total g < 2 ^ 32 -> is_labelling (in_grid g) conn (label comp_of g) n -> numbers_ok comp_of g.
Proof.
  intros W T L i x E. pose proof (labelling_bound comp_of g conn n W L) as B. destruct L as (L1 & _).
  pose proof (gget_in_bounds _ _ _ E) as I. specialize (L1 i I). unfold label in L1. rewrite E in L1. lia.
Qed.

Lemma selected_cells {C} (occ_of : C -> occ) k (g h : grid C) i : same_cells occ_of g h ->
  (selected occ_of k g i <-> selected occ_of k h i).
Proof.
  intros (_ & S). specialize (S i).
  assert (E : forall r, side_is occ_of g i r <-> side_is occ_of h i r).
  { intros r. unfold side_is. destruct (gget g i) as [a|], (gget h i) as [b|]; cbn in S; try discriminate;
      [|tauto]. injection S as S. split; intros (c & [= <-] & R); eexists; (split; [reflexivity|congruence]). }
  unfold selected. now rewrite !E.
Qed.

Lemma layer_topology_of_update {C} (occ_of : C -> occ) (comp_of : C -> Z) k (g g' : grid C) conn n order :
  gwf g' -> same_cells occ_of g' g -> occs_ok occ_of g -> g_total g < 2 ^ 32 -> g_nz g = 1 ->
  is_labelling (in_grid g) conn (label comp_of g') n -> (forall i j, conn i j -> same_side occ_of g i j) ->
  (forall l, Permutation (order l) l) ->
  exists r, component_topology occ_of comp_of order k g' = Some r /\ NoDup (map fst r) /\
    (forall c, In c (map fst r) <-> exists i, in_grid g i /\ selected occ_of k g i /\ label comp_of g' i = c) /\
    forall c h v, In (c, (h, v)) r -> v = 0 /\ 0 <= h /\
      h = 1 + Z.quot (6 * diagonal_contacts comp_of g' c - 8 * euler_number comp_of g' c) 8.
Proof.
  intros W' S O T Z L CS OP.
  assert (D : same_dims g' g) by apply S.
  assert (L' : is_labelling (in_grid g') conn (label comp_of g') n).
  { eapply is_labelling_ext; [| | |exact L]; try reflexivity. intros a. apply in_grid_dims. now apply same_dims_sym. }
  destruct (one_layer_topology occ_of comp_of k g' conn n W') with (order := order) as (r & E & ND & I & F).
  - eapply same_cells_occs; eassumption.
  - eapply labelling_numbers; [exact W'| |exact L']. now rewrite (total_dims _ g).
  - destruct D as (_ & _ & D). congruence.
  - exact L'.
  - intros i j H. apply (same_side_cells occ_of g' g); auto.
  - exact OP.
  - exists r. split; [exact E|]. split; [exact ND|]. split; [|exact F]. intros c. rewrite I.
    split; intros (i & A & B & H); exists i; (split; [|split; [|exact H]]).
    + now apply (in_grid_dims g' g).
    + now apply (selected_cells occ_of k g' g).
    + now apply (in_grid_dims g' g).
    + now apply (selected_cells occ_of k g' g).
Qed.

Lemma cm_layer_topology m k order :
  gwf (cm_grid m) -> occs_ok c_occ (cm_grid m) -> g_total (cm_grid m) < 2 ^ 32 -> cm_valid m = false ->
  g_nz (cm_grid m) = 1 -> (forall l, Permutation (order l) l) ->
  exists m' n r, cm_update m = Some (m', n) /\
    component_topology c_occ c_comp order k (cm_grid m') = Some r /\ NoDup (map fst r) /\
    (forall c, In c (map fst r) <->
       exists i, in_grid (cm_grid m) i /\ selected c_occ k (cm_grid m) i /\ label c_comp (cm_grid m') i = c) /\
    forall c h v, In (c, (h, v)) r -> v = 0 /\ 0 <= h /\
      h = 1 + Z.quot (6 * diagonal_contacts c_comp (cm_grid m') c - 8 * euler_number c_comp (cm_grid m') c) 8.
Proof.
  intros W O T V Z OP. destruct (cm_update_labels m W O T V) as (m' & n & E & W' & S & _ & L).
  destruct (layer_topology_of_update c_occ c_comp k (cm_grid m) (cm_grid m') _ n order W' S O T Z L) as (r & H);
    [auto|exact OP|]. exists m', n, r. auto.
Qed.

Lemma tm_layer_topology across m k order :
  gwf (tm_grid m) -> occs_ok t_occ (tm_grid m) -> g_total (tm_grid m) < 2 ^ 32 -> tm_valid m = false ->
  g_nz (tm_grid m) = 1 -> (forall l, Permutation (order l) l) ->
  exists m' n r, tm_update across m = Some (m', n) /\
    component_topology t_occ t_comp order k (tm_grid m') = Some r /\ NoDup (map fst r) /\
    (forall c, In c (map fst r) <->
       exists i, in_grid (tm_grid m) i /\ selected t_occ k (tm_grid m) i /\ label t_comp (tm_grid m') i = c) /\
    forall c h v, In (c, (h, v)) r -> v = 0 /\ 0 <= h /\
      h = 1 + Z.quot (6 * diagonal_contacts t_comp (tm_grid m') c - 8 * euler_number t_comp (tm_grid m') c) 8.
Proof.
  intros W O T V Z OP. destruct (tm_update_labels across m W O T V) as (m' & n & E & W' & S & _ & _ & L).
  apply tview_cells in S. destruct S as (S & _).
  destruct (layer_topology_of_update t_occ t_comp k (tm_grid m) (tm_grid m') _ n order W' S O T Z L) as (r & H);
    [intros i j (H & _); exact H|exact OP|]. exists m', n, r. auto.
Qed.
