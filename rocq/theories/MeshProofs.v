(** Proofs about the mesh rasterizer: interleavings. *)
From Coq Require Import ZArith List Bool Lia Permutation.
From Verif Require Import Util Grid Occ Prog Schedule SdfQueryModel MeshModel.
Import ListNotations.
Local Open Scope Z_scope.

Lemma zget_In {A} (l : list A) i v : zget l i = Some v -> In v l.
Proof. unfold zget. destruct (i <? 0); [discriminate|]. apply nth_error_In. Qed.

(** ** Programs that only write one value *)

Section Writers.
Context {V : Type} (w : V).

Fixpoint only_writes (p : prog V unit) : Prop :=
  match p with
  | Ret _ => True
  | Wr _ v k => v = w /\ only_writes k
  | _ => False
  end.

Fixpoint targets (p : prog V unit) : list idx :=
  match p with Wr i _ k => i :: targets k | _ => [] end.

Lemma only_writes_bind p q : only_writes p -> only_writes q ->
  only_writes (pbind p (fun _ => q)) /\
  targets (pbind p (fun _ => q)) = targets p ++ targets q.
Proof.
  intros P Q. induction p as [r|i k IH|i v k IH|]; cbn [only_writes] in P; cbn [pbind]; try contradiction.
  - auto.
  - destruct P as (-> & P). destruct (IH P) as (H & E). cbn [only_writes targets app].
    rewrite E. auto.
Qed.

Lemma only_writes_pseq ps : Forall only_writes ps ->
  only_writes (pseq ps) /\ targets (pseq ps) = flat_map targets ps.
Proof.
  induction 1 as [|p ps P PS IH]; cbn [pseq flat_map]; [cbn; auto|].
  destruct IH as (H & E). destruct (only_writes_bind p (pseq ps) P H) as (H2 & E2).
  rewrite E2, E. auto.
Qed.

(** [g'] is [g] with the cells of [l] overwritten by [w]. *)
Definition overwritten (g g' : grid V) (l : list idx) : Prop :=
  gwf g' /\ same_dims g' g /\
  forall i, (In i l -> in_bounds g i = true -> gget g' i = Some w) /\
            (~ In i l -> gget g' i = gget g i).

Lemma overwritten_nil g : gwf g -> overwritten g g [].
Proof. intros W. split; [exact W|]. split; [apply same_dims_refl|]. intros i. split; [intros []|auto]. Qed.

Lemma overwritten_set g g' l i : overwritten g g' l -> overwritten g (gset g' i w) (l ++ [i]).
Proof.
  intros (W & D & H). split; [now apply gset_wf|].
  split. { eapply same_dims_trans; [apply gset_same_dims|exact D]. }
  intros j. destruct (H j) as (H1 & H2). destruct (idx_eq_dec i j) as [<-|N].
  - split.
    + intros _ B. apply gget_gset_same; [exact W|].
      rewrite (in_bounds_dims g' g) by exact D. exact B.
    + intros N. exfalso. apply N. apply in_or_app. right. now left.
  - rewrite gget_gset_other by auto. split.
    + intros I. apply H1. apply in_app_or in I as [I|[->|[]]]; [exact I|contradiction].
    + intros I. apply H2. intros J. apply I. apply in_or_app. now left.
Qed.

(** A single program. *)
Lemma run_writes p : only_writes p -> forall g g0 l, overwritten g0 g l ->
  exists g', run p g = Some (tt, g') /\ overwritten g0 g' (l ++ targets p).
Proof.
  induction p as [r|i k IH|i v k IH|]; cbn [only_writes]; intros P g g0 l O; try contradiction.
  - destruct r. exists g. cbn [run targets]. rewrite app_nil_r. auto.
  - destruct P as (-> & P). cbn [run targets].
    destruct (IH P (gset g i w) g0 (l ++ [i]) (overwritten_set _ _ _ i O)) as (g' & R & O').
    exists g'. rewrite <- app_assoc in O'. auto.
Qed.

(** Interleaved programs. *)
Lemma cstep_writes ps g ps' g' : Forall only_writes ps -> cstep (ps, g) (ps', g') ->
  Forall only_writes ps' /\
  exists i, g' = gset g i w /\
    forall j, In j (flat_map targets ps) <-> j = i \/ In j (flat_map targets ps').
Proof.
  intros F S. inversion S as [l1 i k l2 g0 v G|l1 i v k l2 g0]; subst.
  - apply Forall_app in F as (_ & F). inversion F; subst. cbn in H1. contradiction.
  - apply Forall_app in F as (F1 & F2). inversion F2 as [|? ? Fp F3]; subst.
    cbn [only_writes] in Fp. destruct Fp as (-> & Fk). split.
    + apply Forall_app. split; [exact F1|]. now constructor.
    + exists i. split; [reflexivity|]. intros j. rewrite !flat_map_app, !in_app_iff.
      cbn [flat_map targets]. rewrite !in_app_iff. cbn [In]. intuition.
Qed.

Lemma csteps_writes ps g : gwf g -> Forall only_writes ps ->
  forall ps' g', csteps (ps, g) (ps', g') ->
  Forall only_writes ps' /\
  exists l, overwritten g g' l /\
    forall j, In j (flat_map targets ps) <-> In j l \/ In j (flat_map targets ps').
Proof.
  intros W F ps' g' S.
  cut (forall gs l, overwritten gs g l ->
    Forall only_writes ps' /\ exists l', overwritten gs g' (l ++ l') /\
    forall j, In j (flat_map targets ps) <-> In j l' \/ In j (flat_map targets ps')).
  { intros H. destruct (H g [] (overwritten_nil g W)) as (F' & l' & O & T). split; [exact F'|].
    exists l'. auto. }
  clear W. remember (ps, g) as s eqn:Es. remember (ps', g') as s' eqn:Es'.
  revert ps g Es F. induction S as [s|s1 [ps1 g1] s3 H1 H2 IH]; intros ps g Es F gs l O.
  - rewrite Es in Es'. injection Es' as -> ->. split; [exact F|]. exists [].
    rewrite app_nil_r. split; [exact O|]. intros j. cbn. tauto.
  - subst s1. destruct (cstep_writes _ _ _ _ F H1) as (F1 & i & -> & T1).
    destruct (IH Es' ps1 (gset g i w) eq_refl F1 gs (l ++ [i]) (overwritten_set _ _ _ i O))
      as (F' & l' & O' & T').
    split; [exact F'|]. exists (i :: l'). rewrite <- app_assoc in O'. split; [exact O'|].
    intros j. rewrite T1, T'. cbn [In]. intuition.
Qed.

Lemma writes_progress ps g : Forall only_writes ps -> done ps \/ exists s, cstep (ps, g) s.
Proof.
  induction 1 as [|p ps P PS IH]; [left; constructor|].
  destruct p as [[]|i k|i v k|]; cbn [only_writes] in P; try contradiction.
  - destruct IH as [D|(s & S)]; [left; now constructor|right].
    inversion S as [l1 i k l2 g0 v G|l1 i v k l2 g0]; subst.
    + eexists. apply (cstep_rd (Ret tt :: l1)). exact G.
    + eexists. apply (cstep_wr (Ret tt :: l1)).
  - right. eexists. apply (cstep_wr []).
Qed.

Lemma done_targets ps : done ps -> flat_map targets ps = [].
Proof. induction 1 as [|p ps -> D IH]; [reflexivity|exact IH]. Qed.
End Writers.

(** ** Tasks *)

Section Tasks.
Variable M : mesh_arith.
Notation vec := (qvec (m_query M)).
Variables (m : mmap M) (vertices : list vec) (triangles : list (Z * Z * Z)) (enforce : bool).

(** The corners of a triangle. *)
Definition corners_of (t : Z) : option (vec * vec * vec) :=
  match zget triangles t with
  | None => None
  | Some (i, j, k) =>
      match zget vertices i, zget vertices j, zget vertices k with
      | Some v1, Some v2, Some v3 => Some (v1, v2, v3)
      | _, _, _ => None
      end
  end.

Lemma corners_some t i j k a b c : zget triangles t = Some (i, j, k) ->
  zget vertices i = Some a -> zget vertices j = Some b -> zget vertices k = Some c ->
  corners_of t = Some (a, b, c).
Proof. intros Ht Hi Hj Hk. unfold corners_of. now rewrite Ht, Hi, Hj, Hk. Qed.

Definition voxels_of (t : Z) : list idx :=
  match corners_of t with Some (v1, v2, v3) => triangle_voxels M m v1 v2 v3 | None => [] end.

Definition inb (i : idx) : bool := in_bounds3 (mm_nx M m) (mm_ny M m) (mm_nz M m) i.

Lemma task_unfold t : triangle_task M m vertices triangles enforce t =
  match corners_of t with
  | Some (v1, v2, v3) => pseq (map (fill_voxel M m enforce) (triangle_voxels M m v1 v2 v3))
  | None => Fail
  end.
Proof.
  unfold triangle_task, corners_of. destruct (zget triangles t) as [[[i j] k]|]; [|reflexivity].
  destruct (zget vertices i), (zget vertices j), (zget vertices k); reflexivity.
Qed.

Lemma task_writes t : corners_of t <> None ->
  (enforce = true -> forall i, In i (voxels_of t) -> inb i = true) ->
  only_writes (V:=occ) one_bits (triangle_task M m vertices triangles enforce t) /\
  targets (V:=occ) (triangle_task M m vertices triangles enforce t) = filter inb (voxels_of t).
Proof.
  intros C E. rewrite task_unfold. unfold voxels_of in *.
  destruct (corners_of t) as [[[v1 v2] v3]|]; [|congruence].
  set (l := triangle_voxels M m v1 v2 v3) in *. clearbody l.
  assert (Forall (only_writes (V:=occ) one_bits) (map (fill_voxel M m enforce) l)) as F.
  { apply Forall_forall. intros p I. apply in_map_iff in I as (i & <- & I).
    unfold fill_voxel. fold (inb i). destruct (inb i) eqn:B; [cbn; auto|].
    destruct enforce eqn:En; [|cbn; auto]. rewrite (E eq_refl i I) in B. discriminate. }
  destruct (only_writes_pseq (V:=occ) one_bits _ F) as (H & T). split; [exact H|]. etransitivity; [exact T|]. clear T F H C.
  induction l as [|i l IH]; [reflexivity|]. cbn [map flat_map filter].
  rewrite IH by (intros En j J; apply E; [exact En|now right]).
  unfold fill_voxel at 1. fold (inb i). destruct (inb i) eqn:B; [reflexivity|].
  destruct enforce eqn:En; reflexivity.
Qed.

Lemma fill_contained g l r :
  run (pseq (map (fill_voxel M m enforce) l)) g = Some r ->
  enforce = true -> forall i, In i l -> inb i = true.
Proof.
  intros R En. revert g R. induction l as [|j l IH]; intros g R i I; [destruct I|].
  cbn [map] in R. rewrite run_pseq_cons in R. unfold fill_voxel at 1 in R. fold (inb j) in R.
  destruct (inb j) eqn:B.
  - cbn in R. destruct I as [<-|I]; [exact B|]. eapply IH; eauto.
  - rewrite En in R. discriminate R.
Qed.

Lemma task_contained g t r :
  run (triangle_task M m vertices triangles enforce t) g = Some r ->
  corners_of t <> None /\ (enforce = true -> forall i, In i (voxels_of t) -> inb i = true).
Proof.
  intros R. rewrite task_unfold in R. unfold voxels_of.
  destruct (corners_of t) as [[[v1 v2] v3]|]; [|discriminate R].
  split; [discriminate|]. eapply fill_contained; eauto.
Qed.

(** What one triangle changes. *)
Lemma task_result g t : gwf g -> corners_of t <> None ->
  (enforce = true -> forall i, In i (voxels_of t) -> inb i = true) ->
  exists g', run (triangle_task M m vertices triangles enforce t) g = Some (tt, g') /\
    overwritten (V:=occ) one_bits g g' (filter inb (voxels_of t)).
Proof.
  intros W C E. destruct (task_writes t C E) as (H & T).
  destruct (run_writes (V:=occ) one_bits _ H g g [] (overwritten_nil (V:=occ) _ g W)) as (g' & R & O).
  exists g'. split; [exact R|]. cbn [app] in O. rewrite T in O. exact O.
Qed.

Lemma parallel_result g sched :
  gwf g -> mm_nx M m = g_nx g -> mm_ny M m = g_ny g -> mm_nz M m = g_nz g ->
  (forall t, 0 <= t < zlen triangles -> corners_of t <> None /\
     (enforce = true -> forall i, In i (voxels_of t) -> inb i = true)) ->
  schedules sched (zlen triangles) ->
  let task := triangle_task M m vertices triangles enforce in
  forall ps' g', csteps (threads task sched, g) (ps', g') ->
  (done ps' \/ exists s, cstep (ps', g') s) /\ gwf g' /\ same_dims g' g /\
  (done ps' -> forall i,
    ((exists t, 0 <= t < zlen triangles /\ In i (voxels_of t)) -> in_bounds g i = true ->
       gget g' i = Some one_bits) /\
    (~ (exists t, 0 <= t < zlen triangles /\ In i (voxels_of t)) -> gget g' i = gget g i)).
Proof.
  intros W Dx Dy Dz H S task ps' g' Cs.
  assert (forall t, In t (concat sched) <-> 0 <= t < zlen triangles) as IS.
  { intros t. rewrite <- in_zrange. split; apply Permutation_in; [exact S|now apply Permutation_sym]. }
  assert (Forall (only_writes (V:=occ) one_bits) (threads task sched)) as F.
  { apply Forall_forall. intros p P. apply in_map_iff in P as (ts & <- & Ts).
    apply only_writes_pseq. apply Forall_forall. intros p P. apply in_map_iff in P as (t & <- & It).
    assert (0 <= t < zlen triangles) as Ht by (apply IS, in_concat; eauto).
    destruct (H t Ht) as (C & E). apply (task_writes t C E). }
  assert (forall i, In i (flat_map (targets (V:=occ)) (threads task sched)) <->
    (exists t, 0 <= t < zlen triangles /\ In i (voxels_of t)) /\ inb i = true) as T.
  { intros i. rewrite in_flat_map. split.
    - intros (p & P & I). apply in_map_iff in P as (ts & <- & Ts).
      assert (Forall (only_writes (V:=occ) one_bits) (map task ts)) as Fs.
      { apply Forall_forall. intros p P. apply in_map_iff in P as (t & <- & It).
        assert (0 <= t < zlen triangles) as Ht by (apply IS, in_concat; eauto).
        destruct (H t Ht) as (C & E). apply (task_writes t C E). }
      rewrite (proj2 (only_writes_pseq (V:=occ) one_bits _ Fs)) in I.
      apply in_flat_map in I as (p & P & I). apply in_map_iff in P as (t & <- & It).
      assert (0 <= t < zlen triangles) as Ht by (apply IS, in_concat; eauto).
      destruct (H t Ht) as (C & E). unfold task in I. rewrite (proj2 (task_writes t C E)) in I.
      apply filter_In in I as (I & B). split; [exists t; auto|exact B].
    - intros ((t & Ht & I) & B). pose proof (proj2 (IS t) Ht) as J. apply in_concat in J as (ts & Ts & It).
      exists (pseq (map task ts)). split; [apply in_map_iff; eauto|].
      assert (Forall (only_writes (V:=occ) one_bits) (map task ts)) as Fs.
      { apply Forall_forall. intros p P. apply in_map_iff in P as (t' & <- & It').
        assert (0 <= t' < zlen triangles) as Ht' by (apply IS, in_concat; eauto).
        destruct (H t' Ht') as (C & E). apply (task_writes t' C E). }
      rewrite (proj2 (only_writes_pseq (V:=occ) one_bits _ Fs)). apply in_flat_map.
      exists (task t). split; [now apply in_map|]. destruct (H t Ht) as (C & E).
      unfold task. rewrite (proj2 (task_writes t C E)). apply filter_In. auto. }
  destruct (csteps_writes (V:=occ) one_bits _ g W F ps' g' Cs) as (F' & l & (W' & D' & O) & L).
  split; [eapply writes_progress; eauto|]. split; [exact W'|]. split; [exact D'|].
  intros Dn i. destruct (O i) as (O1 & O2).
  assert (In i l <-> (exists t, 0 <= t < zlen triangles /\ In i (voxels_of t)) /\ inb i = true) as Q.
  { rewrite <- T, L, (done_targets _ Dn). cbn. tauto. }
  assert (in_bounds g i = inb i) as B by (unfold inb, in_bounds; now rewrite Dx, Dy, Dz).
  split.
  - intros X Bi. apply O1; [|exact Bi]. apply Q. split; [exact X|congruence].
  - intros X. apply O2. rewrite Q. tauto.
Qed.
End Tasks.
