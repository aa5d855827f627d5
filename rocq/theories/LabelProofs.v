(** Labelling the cells of a grid stored in a map object: what the labelling
    theorem says once the callbacks read and write one field of the cells. *)
From Coq Require Import ZArith List Lia Bool ZifyBool.
From Verif Require Import Util Grid TopologyModel ComponentSpec TopologyProofs.
Import ListNotations.
Local Open Scope Z_scope.

Section Label.
Context {M C D : Type} (grid_of : M -> grid C) (put : C -> Z -> C) (lab : C -> Z) (view : C -> D).
Context (are_connected : M -> idx -> idx -> option bool) (get : M -> idx -> Z) (mark : M -> idx -> Z -> M).
(** Which cells take part, and which adjacent ones belong together, as a function
    of the part of the cells that marking does not change. *)
Context (actD : idx -> D -> bool) (connD : idx -> idx -> D -> D -> bool) (F : M -> Prop).

Hypothesis view_put : forall c z, view (put c z) = view c.
Hypothesis lab_put : forall c z, lab (put c z) = z.
Hypothesis mark_grid : forall m i z,
  grid_of (mark m i z) = match gget (grid_of m) i with Some c => gset (grid_of m) i (put c z) | None => grid_of m end.
Hypothesis mark_F : forall m i z c, gget (grid_of m) i = Some c -> F (mark m i z).
Hypothesis get_spec : forall m i,
  get m i = match gget (grid_of m) i with Some c => if actD i (view c) then lab c else -1 | None => -1 end.
Hypothesis connected_spec : forall m i j a b, gget (grid_of m) i = Some a -> gget (grid_of m) j = Some b ->
  actD i (view a) = true -> actD j (view b) = true ->
  are_connected m i j = Some (connD i j (view a) (view b)).
Hypothesis conn_sym : forall i j a b, connD i j a b = true -> connD j i b a = true.

Context (g0 : grid C).
Hypothesis W0 : gwf g0.

Definition V (i : idx) : option D := option_map view (gget g0 i).
Definition act (i : idx) : bool := match V i with Some d => actD i d | None => false end.
Definition conn (i j : idx) : bool :=
  match V i, V j with Some a, Some b => connD i j a b | _, _ => false end.

Definition LW0 (m : M) : Prop :=
  gwf (grid_of m) /\ same_dims (grid_of m) g0 /\ forall i, option_map view (gget (grid_of m) i) = V i.
Definition LW (m : M) : Prop :=
  LW0 m /\ F m /\ forall i c, gget (grid_of m) i = Some c -> actD i (view c) = false -> lab c = 0.

Lemma mark_cell m i z j : LW0 m ->
  gget (grid_of (mark m i z)) j =
  if idx_eqb j i then option_map (fun c => put c z) (gget (grid_of m) i) else gget (grid_of m) j.
Proof using mark_grid.
  intros (W & _ & _). rewrite mark_grid. destruct (gget (grid_of m) i) as [c|] eqn:E.
  - rewrite gget_gset by assumption. rewrite (gget_in_bounds _ _ _ E). reflexivity.
  - destruct (idx_eqb j i) eqn:J; [|reflexivity]. apply idx_eqb_eq in J. now subst.
Qed.

Lemma mark_LW0 m i z : LW0 m -> LW0 (mark m i z).
Proof using mark_grid view_put.
  intros L. pose proof L as (W & Dm & Hv). split; [|split].
  - rewrite mark_grid. destruct (gget (grid_of m) i); [now apply gset_wf|assumption].
  - rewrite mark_grid. destruct (gget (grid_of m) i); [|assumption].
    eapply same_dims_trans; [apply gset_same_dims|assumption].
  - intros j. rewrite mark_cell by assumption. destruct (idx_eqb j i) eqn:J; [|apply Hv].
    apply idx_eqb_eq in J. subst j. rewrite <- Hv.
    destruct (gget (grid_of m) i); cbn; [now rewrite view_put|reflexivity].
Qed.

Lemma act_cell m i : LW0 m -> act i = true -> exists c, gget (grid_of m) i = Some c /\ actD i (view c) = true.
Proof using.
  intros (_ & _ & Hv). unfold act. rewrite <- Hv. destruct (gget (grid_of m) i) as [c|]; cbn; [|discriminate].
  intros H. now exists c.
Qed.

Lemma act_view m i c : LW0 m -> gget (grid_of m) i = Some c -> act i = actD i (view c).
Proof using. intros (_ & _ & Hv) E. unfold act. rewrite <- Hv, E. reflexivity. Qed.

Lemma mark_LW m i z : LW m -> act i = true -> LW (mark m i z).
Proof using mark_grid view_put mark_F.
  intros (L & _ & Hi) A. destruct (act_cell m i L A) as (c & Ec & Ac).
  split; [now apply mark_LW0|]. split; [now apply mark_F with c|].
  intros j c' Ej Nj. rewrite mark_cell in Ej by assumption.
  destruct (idx_eqb j i) eqn:J; [|now apply (Hi j c' Ej)].
  apply idx_eqb_eq in J. subst j. rewrite Ec in Ej. cbn in Ej. injection Ej as <-.
  rewrite view_put in Nj. congruence.
Qed.

Lemma get_mark m i z j : LW m -> act i = true ->
  get (mark m i z) j = if idx_eqb i j then z else get m j.
Proof using mark_grid get_spec lab_put view_put.
  intros (L & _ & _) A. destruct (act_cell m i L A) as (c & Ec & Ac).
  rewrite !get_spec, mark_cell by assumption.
  replace (idx_eqb j i) with (idx_eqb i j) by (apply eq_true_iff_eq; rewrite !idx_eqb_eq; split; congruence).
  destruct (idx_eqb i j) eqn:J; [|reflexivity].
  apply idx_eqb_eq in J. subst j. rewrite Ec. cbn. rewrite view_put, Ac. apply lab_put.
Qed.

Lemma get_inactive m i : LW m -> act i = false -> get m i = -1.
Proof using get_spec.
  intros (L & _ & _) A. rewrite get_spec. destruct (gget (grid_of m) i) as [c|] eqn:E; [|reflexivity].
  rewrite (act_view m i c L E) in A. now rewrite A.
Qed.

Lemma act_in i : act i = true -> in_bounds3 (g_nx g0) (g_ny g0) (g_nz g0) i = true.
Proof using.
  unfold act, V. destruct (gget g0 i) eqn:E; cbn; [|discriminate]. intros _. now apply gget_in_bounds in E.
Qed.

Lemma connected_ok m a b : LW m -> act a = true -> act b = true -> are_connected m a b = Some (conn a b).
Proof using connected_spec.
  intros (L & _ & _) A B. destruct (act_cell m a L A) as (ca & Ea & Aa). destruct (act_cell m b L B) as (cb & Eb & Ab).
  rewrite (connected_spec m a b ca cb) by assumption. unfold conn. pose proof L as (_ & _ & Hv).
  rewrite <- !Hv, Ea, Eb. reflexivity.
Qed.

Lemma reset_LW m : LW0 m ->
  let r := reset_components mark (g_nx g0) (g_ny g0) (g_nz g0) m in
  LW r /\ forall i, act i = true -> get r i = 0.
Proof using W0 mark_grid view_put lab_put mark_F get_spec.
  intros L. cbv zeta.
  destruct (reset_wf mark (g_nx g0) (g_ny g0) (g_nz g0) LW0
    (fun m i => F m /\ forall c, gget (grid_of m) i = Some c -> lab c = 0) m) as [H1 H2].
  - intros s i Ls. now apply mark_LW0.
  - intros s i j Ls Bi H. split.
    + destruct (gget_some (grid_of s) i) as (c & Hc); [apply Ls| |now apply mark_F with c].
      rewrite (in_bounds_dims _ g0) by apply Ls. exact Bi.
    + intros c. rewrite mark_cell by assumption. destruct (idx_eqb j i) eqn:J.
      * apply idx_eqb_eq in J. subst j. destruct (gget (grid_of s) i); cbn; [|discriminate].
        intros [= <-]. apply lab_put.
      * destruct H as [[_ H]|H]; [apply H|]. subst j. rewrite idx_eqb_refl in J. discriminate.
  - assumption.
  - set (r := reset_components _ _ _ _ _) in *. split.
    + split; [assumption|]. split.
      * apply (H2 (0, 0, 0)). destruct W0 as (? & ? & ? & _). apply in_bounds3_iff. lia.
      * intros i c E _. apply (H2 i); [|assumption].
        pose proof (gget_in_bounds _ _ _ E) as B. rewrite (in_bounds_dims _ g0) in B by apply H1. exact B.
    + intros i A. destruct (act_cell r i H1 A) as (c & Ec & Ac). rewrite get_spec, Ec, Ac.
      apply (H2 i); [now apply act_in|assumption].
Qed.

Definition active (i : idx) : Prop := act i = true.
Definition connected (i j : idx) : Prop := conn i j = true.

Lemma conn_sym' a b : conn a b = true -> conn b a = true.
Proof using conn_sym. unfold conn. destruct (V a), (V b); try discriminate. apply conn_sym. Qed.

Lemma pos0 : 0 < g_nx g0 /\ 0 < g_ny g0 /\ 0 < g_nz g0.
Proof using W0. destruct W0 as (? & ? & ? & _). auto. Qed.

Lemma label_total m : LW0 m ->
  exists m' n, compute_components are_connected get mark (g_nx g0) (g_ny g0) (g_nz g0) m = Some (m', n) /\ LW m'.
Proof using W0 mark_grid view_put lab_put mark_F get_spec connected_spec.
  intros L. destruct (reset_LW m L) as [R1 R2].
  apply (compute_components_total are_connected get mark _ _ _ act conn LW); try assumption.
  - intros s i c Ls A. now apply mark_LW.
  - intros s i c j Ls _ A. now apply get_mark.
  - apply get_inactive.
  - apply act_in.
  - apply connected_ok.
  - apply pos0.
Qed.

Lemma label_ok m : g_total g0 < 2 ^ 32 -> LW0 m ->
  exists m' n, compute_components are_connected get mark (g_nx g0) (g_ny g0) (g_nz g0) m = Some (m', n) /\ LW m' /\
    0 <= n /\ is_labelling active connected (get m') n.
Proof using W0 mark_grid view_put lab_put mark_F get_spec connected_spec conn_sym.
  intros Sm L. destruct (reset_LW m L) as [R1 R2].
  apply (compute_components_ok are_connected get mark _ _ _ act conn LW); try assumption.
  - intros s i c Ls A. now apply mark_LW.
  - intros s i c j Ls _ A. now apply get_mark.
  - apply get_inactive.
  - apply act_in.
  - apply connected_ok.
  - apply conn_sym'.
  - apply pos0.
Qed.

Lemma component_ok m start z : LW m -> (forall i c, gget (grid_of m) i = Some c -> 0 <= lab c < 2 ^ 32) ->
  1 <= z < 2 ^ 32 -> act start = true -> get m start = 0 ->
  exists m' L, mark_connected_component are_connected get mark (g_total g0) m start z = Some (m', zlen L) /\
    LW m' /\ NoDup L /\
    (forall i, In i L <-> joined (fun i => act i = true /\ get m i = 0) connected start i) /\
    (forall i, get m' i = if existsb (idx_eqb i) L then z else get m i).
Proof using W0 mark_grid view_put lab_put mark_F get_spec connected_spec.
  intros L R Hz A G.
  apply (mark_component_ok are_connected get mark (g_nx g0) (g_ny g0) (g_nz g0) act conn LW); try assumption.
  - intros s i c Ls A'. now apply mark_LW.
  - intros s i c j Ls _ A'. now apply get_mark.
  - apply get_inactive.
  - apply act_in.
  - apply connected_ok.
  - apply pos0.
  - intros i Ai. destruct (act_cell m i) as (c & Ec & Ac); [apply L|assumption|].
    rewrite get_spec, Ec, Ac. now apply (R i).
  - now split.
Qed.
End Label.
