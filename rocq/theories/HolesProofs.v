(** Proofs about the walk over the surface vertices. *)
From Coq Require Import ZArith List Lia Bool Permutation.
From Verif Require Import Util Grid Occ TopologyModel ComponentSpec ComponentMapSpec SurfaceModel SurfaceSpec SurfaceProofs.
Import ListNotations.
Local Open Scope Z_scope.

Lemma existsb_idx (i : idx) l : existsb (idx_eqb i) l = true <-> In i l.
Proof.
  rewrite existsb_exists. split.
  - intros (j & J & E). apply idx_eqb_eq in E. now subst.
  - intros I. exists i. split; [easy|]. apply idx_eqb_refl.
Qed.

Lemma existsb_idx_not (i : idx) l : existsb (idx_eqb i) l = false <-> ~ In i l.
Proof. rewrite <- existsb_idx. destruct (existsb _ _); intuition congruence. Qed.

(** ** The vertex set *)

Lemma set_insert_in l i j : In j (set_insert l i) <-> j = i \/ In j l.
Proof.
  unfold set_insert. destruct (existsb (idx_eqb i) l) eqn:E.
  - apply existsb_idx in E. split; [auto|]. intros [->|]; auto.
  - rewrite in_app_iff. cbn. split; [intros [|[|[]]]; auto|intros [|]; auto].
Qed.
Lemma set_insert_nodup l i : NoDup l -> NoDup (set_insert l i).
Proof.
  unfold set_insert. intros ND. destruct (existsb (idx_eqb i) l) eqn:E; [easy|].
  apply existsb_idx_not in E. eapply Permutation_NoDup; [apply Permutation_app_comm|].
  cbn. now constructor.
Qed.
Lemma set_insert_all_in is l j : In j (fold_left set_insert is l) <-> In j is \/ In j l.
Proof.
  revert l; induction is as [|i is IH]; intros l; cbn; [tauto|]. rewrite IH, set_insert_in.
  split; [intros [|[->|]]; auto|intros [[->|]|]; auto].
Qed.
Lemma set_insert_all_nodup is l : NoDup l -> NoDup (fold_left set_insert is l).
Proof. revert l; induction is as [|i is IH]; intros l ND; cbn; [easy|]. apply IH. now apply set_insert_nodup. Qed.

Lemma surface_vertices_in get c m v :
  In v (surface_vertices get c m) <-> exists i w, In (i, w) m /\ w <> 0 /\ In v (voxel_vertices get c i).
Proof.
  unfold surface_vertices.
  assert (G : forall l s, In v (fold_left (fun s '(i, v) => if v =? 0 then s else fold_left set_insert (voxel_vertices get c i) s) l s)
    <-> (exists i w, In (i, w) l /\ w <> 0 /\ In v (voxel_vertices get c i)) \/ In v s).
  { induction l as [|[i w] l IH]; intros s; cbn [fold_left].
    - split; [auto|]. intros [(i & w & [] & _)|]; auto.
    - rewrite IH. destruct (w =? 0) eqn:E.
      + apply Z.eqb_eq in E. subst w. split.
        * intros [(j & u & J & N & V)|H]; [left; exists j, u; cbn; auto|auto].
        * intros [(j & u & [[= <- <-]|J] & N & V)|H]; [lia|left; eauto|auto].
      + apply Z.eqb_neq in E. rewrite set_insert_all_in. split.
        * intros [(j & u & J & N & V)|[H|H]]; [left; exists j, u; cbn; auto|left; exists i, w; cbn; auto|auto].
        * intros [(j & u & [[= <- <-]|J] & N & V)|H]; [auto|left; eauto|auto]. }
  rewrite G. cbn. tauto.
Qed.

Lemma surface_vertices_nodup get c m : NoDup (surface_vertices get c m).
Proof.
  unfold surface_vertices.
  assert (G : forall l s, NoDup s -> NoDup (fold_left (fun s '(i, v) => if v =? 0 then s else fold_left set_insert (voxel_vertices get c i) s) l s)).
  { induction l as [|[i w] l IH]; intros s ND; cbn [fold_left]; [easy|]. apply IH.
    destruct (w =? 0); [easy|]. now apply set_insert_all_nodup. }
  apply G. constructor.
Qed.

(** ** The walk *)

Section Walk.
Variables (V : list idx) (edges : idx -> list bool).
Hypothesis closed : forall v w, In v V -> In w (connected_vertices edges v) -> In w V.
Hypothesis NDV : NoDup V.

Lemma push_spec l q s :
  NoDup s -> (forall v, In v q -> In v s) ->
  let r := fold_left (fun '(q, s) w => if existsb (idx_eqb w) s then (q, s) else (q ++ [w], s ++ [w])) l (q, s) in
  NoDup (snd r) /\ (forall v, In v (fst r) -> In v (snd r)) /\
  (forall v, In v (snd r) <-> In v s \/ In v l) /\
  (length (snd r) - length (fst r) = length s - length q /\ length (fst r) - length q = length (snd r) - length s /\
   length q <= length (fst r) /\ length s <= length (snd r))%nat.
Proof.
  revert q s; induction l as [|w l IH]; intros q s ND S; cbn.
  - split; [easy|]. split; [easy|]. split; [tauto|lia].
  - destruct (existsb (idx_eqb w) s) eqn:E.
    + apply existsb_idx in E. destruct (IH q s ND S) as (A & B & D & F).
      split; [exact A|]. split; [exact B|]. split; [|exact F].
      intros v. rewrite D. split; [tauto|]. intros [|[<-|]]; auto.
    + apply existsb_idx_not in E. destruct (IH (q ++ [w]) (s ++ [w])) as (A & B & D & F).
      * eapply Permutation_NoDup; [apply Permutation_app_comm|]. cbn. now constructor.
      * intros v. rewrite !in_app_iff. cbn. intros [|]; auto.
      * split; [exact A|]. split; [exact B|]. split.
        -- intros v. rewrite D, in_app_iff. cbn. tauto.
        -- rewrite !app_length in F. cbn in F. lia.
Qed.

Lemma walk_closed fuel q s :
  NoDup s -> (forall v, In v q -> In v s) -> (forall v, In v s -> In v V) ->
  (length q <= length s)%nat -> (length V <= fuel + (length s - length q))%nat ->
  exists r, walk fuel V edges q s = Some r /\ NoDup r /\ (forall v, In v r -> In v V) /\ (forall v, In v s -> In v r).
Proof using closed NDV.
  revert q s; induction fuel as [|fuel IH]; intros q s ND QS SV LQ LF.
  - destruct q as [|v q]; cbn; [exists s; auto|].
    exfalso. cbn in LQ, LF. pose proof (NoDup_incl_length ND SV). lia.
  - destruct q as [|v q]; cbn [walk]; [exists s; auto|].
    assert (In v V) as Hv by (apply SV, QS; now left).
    rewrite (proj2 (existsb_idx v V) Hv).
    destruct (push_spec (connected_vertices edges v) q s ND) as (A & B & D & F).
    { intros u U. apply QS. now right. }
    cbn zeta in A, B, D, F.
    destruct (IH _ _ A B) as (r & E & R1 & R2 & R3).
    + intros u U. apply D in U. destruct U as [U|U]; [auto|]. eapply closed; eassumption.
    + cbn in LQ. lia.
    + cbn in LQ, LF. lia.
    + exists r. split; [easy|]. split; [easy|]. split; [easy|]. intros u U. apply R3, D. auto.
Qed.

Lemma count_surfaces_closed order :
  (forall l, Permutation (order l) l) ->
  exists n, count_surfaces order V edges = Some n /\ 0 <= n /\ (V <> [] -> 1 <= n).
Proof using closed NDV.
  intros OP. unfold count_surfaces.
  match goal with |- context [ofold ?f _ _] => set (F := f) end.
  assert (G : forall l st, (forall v, In v l -> In v V) -> 0 <= snd (fst st) ->
    exists r, ofold F l st = Some r /\
      snd (fst st) <= snd (fst r) /\
      (l <> [] -> snd st = false -> fst (fst (fst st)) = [] -> 1 <= snd (fst r))).
  { induction l as [|v l IH]; intros [[[lab p] n] stop] L N; cbn [ofold fst snd] in *.
    - eexists. split; [reflexivity|]. split; [cbn; lia|congruence].
    - unfold F at 1. destruct stop; cbn [obind].
      { destruct (IH (lab, p, n, true)) as (r & E & R & _); [intros; apply L; now right|easy|].
        exists r. split; [easy|]. split; [easy|]. discriminate. }
      destruct (existsb (idx_eqb v) lab) eqn:E; cbn [obind].
      + destruct (IH (lab, p, n, false)) as (r & E' & R & _); [intros; apply L; now right|easy|].
        exists r. split; [easy|]. split; [easy|]. intros _ _ ->. discriminate.
      + destruct (walk_closed (S (length V)) [v] [v]) as (reached & Ew & _).
        * constructor; [easy|constructor].
        * easy.
        * intros u [<-|[]]. apply L. now left.
        * cbn; lia.
        * cbn; lia.
        * rewrite Ew. cbn [obind].
          destruct (IH (lab ++ reached, p + zlen reached, n + 1, p + zlen reached =? zlen V))
            as (r & E' & R & _); [intros; apply L; now right|cbn; lia|].
          exists r. split; [easy|]. cbn in R. split; [lia|]. intros _ _ _. lia. }
  destruct (G (order V) ([], 0, 0, false)) as ([[[lab p] n] stop] & E & R1 & R2).
  { intros v I. eapply Permutation_in; [apply OP|easy]. }
  { cbn. lia. }
  rewrite E. cbn. exists n. split; [easy|]. cbn in R1, R2. split; [easy|]. intros NE. apply R2; try easy.
  intros Z. apply NE, Permutation_nil. rewrite <- Z. apply OP.
Qed.
End Walk.

(** ** One layer of cells *)

Section Layer.
Variables (get : idx -> Z) (c : Z) (m : surface_map).
(** The surface holds every voxel of the component, and those lie in one layer. *)
Hypothesis all_voxels : forall i, get i = c -> In (i, 1) m.
Hypothesis entries : forall i v, In (i, v) m -> get i = c.
Hypothesis one_layer : forall x y z, get (x, y, z) = c -> z = 0.

Definition corner_of (i v : idx) : Prop :=
  (ix v = ix i \/ ix v = ix i + 1) /\ (iy v = iy i \/ iy v = iy i + 1) /\ (iz v = iz i \/ iz v = iz i + 1).

Lemma layer_voxel_vertices i v :
  get i = c -> (In v (voxel_vertices get c i) <-> corner_of i v).
Proof using one_layer.
  intros Hi. destruct i as [[x y] z]. assert (z = 0) by eauto. subst z.
  unfold voxel_vertices, corner_of, ix, iy, iz. cbn [fst snd].
  assert (Dz : negb (c =? get (x, y, 0 - 1)) = true).
  { apply negb_true_iff, Z.eqb_neq. intros E. symmetry in E. apply one_layer in E. lia. }
  rewrite Dz. cbn [orb app In]. destruct v as [[a b] d]. cbn [fst snd]. split.
  - intros H. repeat (destruct H as [[= <- <- <-]|H]; [lia|]). destruct H.
  - intros ([->| ->] & [->| ->] & [->| ->]); tauto.
Qed.

Lemma layer_vertices v :
  In v (surface_vertices get c m) <-> exists i, get i = c /\ corner_of i v.
Proof using all_voxels entries one_layer.
  rewrite surface_vertices_in. split.
  - intros (i & w & I & _ & H). apply entries in I. apply layer_voxel_vertices in H; eauto.
  - intros (i & I & H). exists i, 1. split; [auto|]. split; [lia|]. now apply layer_voxel_vertices.
Qed.

Lemma exposed_some a b d e : (a || b || d || e) && negb (a && b && d && e) = true ->
  a = false \/ b = false \/ d = false \/ e = false.
Proof. destruct a, b, d, e; cbn; auto; discriminate. Qed.

Lemma inside_voxel i : negb (c =? get i) = false -> get i = c.
Proof. rewrite negb_false_iff, Z.eqb_eq. auto. Qed.

Lemma layer_closed v w :
  In v (surface_vertices get c m) -> In w (connected_vertices (vertex_edges get c) v) ->
  In w (surface_vertices get c m).
Proof using all_voxels entries one_layer.
  intros _ H. apply layer_vertices. unfold connected_vertices in H. apply in_flat_map in H.
  destruct H as ([b w'] & H & W). destruct b; [|destruct W]. destruct W as [->|[]].
  destruct v as [[x y] z]. unfold vertex_edges, edge_ends in H. cbn [combine In] in H.
  destruct H as [H|[H|[H|[H|[H|[H|[]]]]]]]; injection H as E <-; apply exposed_some in E;
  destruct E as [E|[E|[E|E]]]; apply inside_voxel in E; (eexists; split; [exact E|]);
  unfold corner_of, ix, iy, iz; cbn [fst snd]; lia.
Qed.

Lemma layer_count order : (forall l, Permutation (order l) l) ->
  exists n, count_surfaces order (surface_vertices get c m) (vertex_edges get c) = Some n /\ 0 <= n /\
    (m <> [] -> 1 <= n).
Proof using all_voxels entries one_layer.
  intros OP. destruct (count_surfaces_closed (surface_vertices get c m) (vertex_edges get c) layer_closed
    (surface_vertices_nodup get c m) order OP) as (n & E & N & N1).
  exists n. split; [easy|]. split; [easy|]. intros NE. apply N1. destruct m as [|[i w] m'] eqn:M; [easy|].
  rewrite <- M in *. assert (In i (surface_vertices get c m)).
  { apply layer_vertices. exists i. split; [apply (entries i w); rewrite M; now left|].
    unfold corner_of. auto. }
  intros Z. rewrite Z in H. destruct H.
Qed.
End Layer.

Lemma one_layer_walk {C} (occ_of : C -> occ) (comp_of : C -> Z) k (g : grid C) s c m order :
  gwf g -> occs_ok occ_of g -> numbers_ok comp_of g -> g_nz g = 1 ->
  (forall i j, in_grid g i -> in_grid g j -> label comp_of g i = label comp_of g j ->
     selected occ_of k g i -> selected occ_of k g j) ->
  extract_surfaces occ_of comp_of k g = Some s -> In (c, m) s ->
  (forall l, Permutation (order l) l) ->
  exists n, count_surfaces order (surface_vertices (component_fn comp_of g) c m)
              (vertex_edges (component_fn comp_of g) c) = Some n /\ 1 <= n.
Proof.
  intros W O N NZ SK ES I OP.
  destruct (extract_surfaces_spec occ_of comp_of k g W O N) as (s' & ES' & (ND & SM) & IS).
  rewrite ES in ES'. injection ES' as <-. destruct (SM c m I) as (NDm & NE & V1).
  assert (U : forall i, In (i, 1) m <-> in_surface s c i).
  { intros i. split; [intros H; exists m; auto|]. intros (m' & I' & H).
    enough (m' = m) by congruence. clear - ND I I'.
    induction s as [|[d n] s IH]; [destruct I|]. cbn in ND. apply NoDup_cons_iff in ND. destruct ND as (NI & ND).
    assert (K : forall x, In (d, x) s -> False)
      by (intros x X; apply NI; change d with (fst (d, x)); now apply in_map).
    destruct I as [E|I], I' as [E'|I'].
    - congruence.
    - injection E as -> ->. now elim (K _ I').
    - injection E' as -> ->. now elim (K _ I).
    - now apply IH. }
  assert (G : forall i, component_fn comp_of g i = c <-> in_grid g i /\ label comp_of g i = c).
  { assert (0 <= c).
    { destruct m as [|[j w] m']; [easy|]. assert (w = 1) by (apply (V1 j); now left). subst w.
      assert (H : in_surface s c j) by (apply U; now left). apply IS in H. destruct H as (A & _ & <-).
      destruct (gget_some g j W A) as (x & Hx). unfold label. rewrite Hx. apply (N j x Hx). }
    intros i. unfold component_fn, label, in_grid. destruct (gget g i) as [x|] eqn:E.
    - apply gget_in_bounds in E. tauto.
    - split; [lia|]. intros (A & _). destruct (gget_some g i W A). congruence. }
  destruct m as [|[j w] m'] eqn:M; [easy|]. rewrite <- M in *.
  assert (HJ : in_surface s c j).
  { apply U. assert (w = 1) by (apply (V1 j); rewrite M; now left). rewrite M. subst w. now left. }
  apply IS in HJ. destruct HJ as (J1 & J2 & J3).
  destruct (layer_count (component_fn comp_of g) c m) with (order := order) as (n & E & _ & N1).
  - intros i Hi. apply G in Hi. apply U, IS. split; [tauto|]. split; [|tauto].
    apply (SK j i); [easy|tauto|destruct Hi; congruence|easy].
  - intros i v Hv. assert (v = 1) by eauto. subst v. apply U, IS in Hv. apply G. tauto.
  - intros x y z H. apply G in H. destruct H as (H & _). unfold in_grid in H. apply in_bounds_iff in H. lia.
  - easy.
  - exists n. auto.
Qed.
