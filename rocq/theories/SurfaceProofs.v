(** Proofs about the surface queries and surface extraction. *)
From Coq Require Import ZArith List Lia Bool Permutation.
From Verif Require Import Util Grid Occ OccProofs TopologyModel ComponentSpec ComponentMapSpec SurfaceModel SurfaceSpec.
Import ListNotations.
Local Open Scope Z_scope.

Lemma first_true_spec f l :
  (forall i, In i l -> exists b, f i = Some b) ->
  exists b, first_true f l = Some b /\ (b = true <-> exists i, In i l /\ f i = Some true).
Proof.
  induction l as [|i l IH]; intros H; cbn.
  - exists false. split; [easy|]. split; [discriminate|intros (i & [] & _)].
  - destruct (H i (or_introl eq_refl)) as (b & Hb). rewrite Hb. cbn. destruct b.
    + exists true. split; [easy|]. split; [eauto|easy].
    + destruct IH as (b & E & IH); [intros; apply H; now right|].
      exists b. split; [easy|]. rewrite IH. split; intros (j & I & J).
      * eauto.
      * destruct I as [<-|I]; [congruence|eauto].
Qed.

Section Queries.
Context {C : Type} (occ_of : C -> occ) (comp_of : C -> Z).

Lemma in_clipped_block (g : grid C) i j :
  in_bounds g i = true ->
  In j (clipped_block g i) <->
  in_bounds g j = true /\ Z.abs (ix j - ix i) <= 1 /\ Z.abs (iy j - iy i) <= 1 /\ Z.abs (iz j - iz i) <= 1.
Proof using.
  destruct i as [[x y] z], j as [[x' y'] z']. intros I. apply in_bounds_iff in I.
  unfold clipped_block, ix, iy, iz. cbn [fst snd]. rewrite in_bounds_iff. split.
  - intros H. apply in_flat_map in H. destruct H as (a & Ha & H).
    apply in_flat_map in H. destruct H as (b & Hb & H). apply in_map_iff in H.
    destruct H as (c & [= -> -> ->] & Hc). rewrite in_zrange in Ha, Hb, Hc. lia.
  - intros H. apply in_flat_map. exists x'. rewrite in_zrange. split; [lia|].
    apply in_flat_map. exists y'. rewrite in_zrange. split; [lia|].
    apply in_map_iff. exists z'. rewrite in_zrange. split; [easy|lia].
Qed.

(** The comparison in the inner loop. *)
Definition kinds_differ (our other : option comparison) : Prop :=
  exists r, our = Some r /\ other <> Some r /\ (other <> None \/ r = Eq).

Lemma bool_val (b : bool) (o : option comparison) r :
  (b = true <-> o = Some r) -> b = match o with Some r' => match r, r' with Eq, Eq | Lt, Lt | Gt, Gt => true | _, _ => false end | None => false end.
Proof using. destruct b, o as [[]|], r; cbn; intuition congruence. Qed.
Definition occ_lt_val a A := bool_val _ _ _ (occ_lt_spec a A).
Definition occ_gt_val a A := bool_val _ _ _ (occ_gt_spec a A).
Definition occ_eq_val a A := bool_val _ _ _ (occ_eq_spec a A).

Lemma surface_test a b :
  is_occ a -> is_occ b ->
  ((if occ_lt a && occ_ge b then true
    else if occ_gt a && occ_le b then true
    else occ_eq a && negb (occ_eq b)) = true <-> kinds_differ (cmp_half a) (cmp_half b)).
Proof using.
  intros A B. unfold occ_ge, occ_le, kinds_differ.
  rewrite (occ_lt_val a A), (occ_gt_val a A), (occ_eq_val a A),
    (occ_lt_val b B), (occ_gt_val b B), (occ_eq_val b B).
  destruct (cmp_half a) as [[]|], (cmp_half b) as [[]|]; cbn;
    split; try discriminate; try (intros _; eexists; split; [reflexivity|];
      split; [discriminate|]; (now left; discriminate) || (now right));
    try (intros (r & E1 & E2 & E3); try discriminate; injection E1 as <-;
         destruct E3; congruence); reflexivity.
Qed.

Lemma is_surface_index_out g i : in_bounds g i = false -> is_surface_index occ_of g i = Some None.
Proof using. intros H. unfold is_surface_index. now rewrite H. Qed.

Lemma is_surface_index_in g i :
  gwf g -> occs_ok occ_of g -> in_grid g i ->
  exists b, is_surface_index occ_of g i = Some (Some b) /\
    (b = true <-> exists j r r', around i j /\ side_is occ_of g i r /\ side_is occ_of g j r' /\ kinds_differ r r').
Proof using.
  clear comp_of. unfold in_grid. intros W O I. unfold is_surface_index. rewrite I.
  destruct (gget_some g i W I) as (c & Hc). rewrite Hc. cbn.
  match goal with |- context [first_true ?f _] => set (F := f) end.
  destruct (first_true_spec F (clipped_block g i)) as (b & Hb & B).
  { intros j J. apply in_clipped_block in J; [|easy]. unfold F. destruct (idx_eqb j i); [eauto|].
    destruct (gget_some g j W) as (d & Hd); [tauto|]. rewrite Hd. cbn. eauto. }
  rewrite Hb. cbn. exists b. split; [easy|]. rewrite B. unfold F. split.
  - intros (j & J & E). apply in_clipped_block in J; [|easy].
    destruct (idx_eqb j i) eqn:NE; [discriminate|]. apply idx_eqb_neq in NE.
    destruct (gget_some g j W) as (d & Hd); [tauto|]. rewrite Hd in E. cbn in E.
    injection E as E. apply surface_test in E; [|eapply O; eassumption..].
    exists j, (cmp_half (occ_of c)), (cmp_half (occ_of d)).
    split; [split; [easy|tauto]|]. split; [eexists; eauto|]. split; [eexists; eauto|easy].
  - intros (j & r & r' & (NE & N) & (c' & Hc' & <-) & (d & Hd & <-) & K).
    exists j. split.
    + apply in_clipped_block; [easy|]. split; [|easy]. eapply gget_in_bounds; eassumption.
    + apply idx_eqb_neq in NE. rewrite NE, Hd. cbn. f_equal.
      rewrite Hc in Hc'. injection Hc' as <-. apply surface_test; [eapply O; eassumption..|easy].
Qed.

Lemma in_face (i j : idx) :
  share_face i j <->
  let '(x, y, z) := i in
  In j [(x, y, z - 1); (x, y, z + 1); (x, y - 1, z); (x, y + 1, z); (x - 1, y, z); (x + 1, y, z)].
Proof using.
  destruct i as [[x y] z], j as [[x' y'] z']. unfold share_face, ix, iy, iz. cbn [fst snd In].
  split; intros H.
  - assert (P : forall a b c a' b' c' : Z, a = a' -> b = b' -> c = c' -> (a, b, c) = (a', b', c')) by congruence.
    assert (D : x' = x /\ y' = y /\ z' = z - 1 \/ x' = x /\ y' = y /\ z' = z + 1 \/
                x' = x /\ y' = y - 1 /\ z' = z \/ x' = x /\ y' = y + 1 /\ z' = z \/
                x' = x - 1 /\ y' = y /\ z' = z \/ x' = x + 1 /\ y' = y /\ z' = z) by lia.
    destruct D as [D|[D|[D|[D|[D|D]]]]]; destruct D as (-> & -> & ->); tauto.
  - repeat (destruct H as [[= <- <- <-]|H]; [lia|]). destruct H.
Qed.

Lemma border_iff (g : grid C) x y z :
  in_bounds g (x, y, z) = true ->
  ((x =? 0) || (y =? 0) || (z =? 0) || (x =? g_nx g - 1) || (y =? g_ny g - 1) || (z =? g_nz g - 1)) = true
  <-> on_border g (x, y, z).
Proof using.
  intros I. pose proof I as I'. apply in_bounds_iff in I'. unfold on_border, in_grid. split.
  - intros B.
    assert (D : x = 0 \/ y = 0 \/ z = 0 \/ x = g_nx g - 1 \/ y = g_ny g - 1 \/ z = g_nz g - 1) by lia.
    destruct D as [D|[D|[D|[D|[D|D]]]]];
    [exists (x - 1, y, z)|exists (x, y - 1, z)|exists (x, y, z - 1)
     |exists (x + 1, y, z)|exists (x, y + 1, z)|exists (x, y, z + 1)];
    rewrite in_bounds_iff; unfold share_face, ix, iy, iz; cbn [fst snd]; lia.
  - intros (j & F & N). destruct j as [[x' y'] z'].
    rewrite in_bounds_iff in N. unfold share_face, ix, iy, iz in F. cbn [fst snd] in F.
    assert (~ (0 < x < g_nx g - 1 /\ 0 < y < g_ny g - 1 /\ 0 < z < g_nz g - 1)) by lia. lia.
Qed.

Lemma is_component_surface_index_out g i :
  in_bounds g i = false -> is_component_surface_index comp_of g i = Some None.
Proof using. destruct i as [[x y] z]. intros H. unfold is_component_surface_index. now rewrite H. Qed.

Lemma label_get (g : grid C) i c : gget g i = Some c -> label comp_of g i = comp_of c.
Proof using. intros H. unfold label. now rewrite H. Qed.

Lemma is_component_surface_index_in g i :
  gwf g -> in_grid g i ->
  exists b, is_component_surface_index comp_of g i = Some (Some b) /\
    (b = true <-> component_surface comp_of g i).
Proof using.
  clear occ_of. unfold in_grid. intros W I. destruct i as [[x y] z]. unfold is_component_surface_index. rewrite I.
  destruct (_ || _) eqn:E.
  - exists true. split; [easy|]. split; [|easy]. intros _. split; [easy|]. left. now apply border_iff.
  - assert (NB : ~ on_border g (x, y, z)) by (rewrite <- border_iff by easy; congruence).
    clear E. destruct (gget_some g _ W I) as (c & Hc). rewrite Hc. cbn [obind].
    match goal with |- context [first_true ?f ?l] => set (F := f); set (L := l) end.
    assert (IL : forall j, In j L -> in_bounds g j = true).
    { intros j J. destruct (in_bounds g j) eqn:E; [easy|]. exfalso. apply NB. exists j.
      split; [now apply (in_face (x, y, z))|]. unfold in_grid. congruence. }
    destruct (first_true_spec F L) as (b & Hb & B).
    { intros j J. unfold F. destruct (gget_some g j W (IL j J)) as (d & ->). cbn. eauto. }
    rewrite Hb. cbn. exists b. split; [easy|]. rewrite B. unfold F. split.
    + intros (j & J & E). destruct (gget_some g j W (IL j J)) as (d & Hd). rewrite Hd in E. cbn in E.
      injection E as E. apply negb_true_iff, Z.eqb_neq in E.
      split; [easy|]. right. exists j. split; [now apply (in_face (x, y, z))|].
      split; [easy|]. split; [now apply IL|]. now rewrite (label_get _ _ _ Hc), (label_get _ _ _ Hd).
    + intros (_ & [B'|(j & J & (_ & IJ & D))]); [now elim NB|].
      exists j. split; [now apply (in_face (x, y, z)) in J|].
      destruct (gget_some g j W IJ) as (d & Hd). rewrite Hd. cbn. f_equal. apply negb_true_iff, Z.eqb_neq.
      now rewrite (label_get _ _ _ Hc), (label_get _ _ _ Hd) in D.
Qed.

Lemma candidate_corner_out g i : in_bounds g i = false -> candidate_corner comp_of g i = None.
Proof using. destruct i as [[x y] z]. intros H. unfold candidate_corner. now rewrite gget_none. Qed.

Lemma candidate_corner_in g i :
  gwf g -> in_grid g i ->
  exists b, candidate_corner comp_of g i = Some b /\
    (b = true <-> exists j k, j <> k /\ share_face i j /\ share_face i k /\
                    different_number comp_of g i j /\ different_number comp_of g i k).
Proof using.
  clear occ_of. unfold in_grid. intros W I. destruct i as [[x y] z]. unfold candidate_corner.
  destruct (gget_some g _ W I) as (c & Hc). rewrite Hc.
  set (D := fun j : idx =>
        match gget g j with Some them => if comp_of them =? comp_of c then 0 else 1 | None => 0 end).
  cbv zeta. fold (D (x - 1, y, z)) (D (x + 1, y, z)) (D (x, y - 1, z)) (D (x, y + 1, z))
    (D (x, y, z - 1)) (D (x, y, z + 1)).
  eexists. split; [reflexivity|].
  assert (D01 : forall j, D j = 0 \/ D j = 1)
    by (intros j; unfold D; destruct (gget g j); [destruct (_ =? _)|]; auto).
  assert (D1 : forall j, share_face (x, y, z) j -> (D j = 1 <-> different_number comp_of g (x, y, z) j)).
  { intros j _. unfold D, different_number, in_grid. rewrite (label_get _ _ _ Hc).
    destruct (gget g j) as [d|] eqn:Hd.
    - rewrite (label_get _ _ _ Hd). pose proof (gget_in_bounds _ _ _ Hd) as IJ.
      destruct (comp_of d =? comp_of c) eqn:E.
      + apply Z.eqb_eq in E. split; [discriminate|]. intros (_ & _ & N). congruence.
      + apply Z.eqb_neq in E. split; [|easy]. intros _. repeat split; congruence.
    - split; [discriminate|]. intros (_ & IJ & _). destruct (gget_some g j W IJ). congruence. }
  set (L := [(x - 1, y, z); (x + 1, y, z); (x, y - 1, z); (x, y + 1, z); (x, y, z - 1); (x, y, z + 1)]) in *.
  assert (IL : forall j, In j L <-> share_face (x, y, z) j).
  { intros j. rewrite (in_face (x, y, z)). unfold L. cbn [In]. tauto. }
  assert (ND : NoDup L).
  { unfold L. repeat (constructor; [cbn [In]; intros H;
      repeat (destruct H as [[= ]|H]; [lia|]); destruct H|]). constructor. }
  transitivity (2 <= fold_right Z.add 0 (map D L)).
  { unfold L. cbn [map fold_right]. rewrite negb_true_iff. lia. }
  assert (G : forall l, NoDup l ->
     (2 <= fold_right Z.add 0 (map D l) <-> exists j k, j <> k /\ In j l /\ In k l /\ D j = 1 /\ D k = 1) /\
     (1 <= fold_right Z.add 0 (map D l) <-> exists j, In j l /\ D j = 1)).
  { clear - D01. induction l as [|a l IH]; intros ND; cbn [map fold_right].
    - split; (split; [lia|]); [intros (j & k & _ & [] & _)|intros (j & [] & _)].
    - apply NoDup_cons_iff in ND. destruct ND as (NI & ND). destruct (IH ND) as (IH2 & IH1).
      destruct (D01 a) as [A|A]; rewrite A.
      + split.
        * rewrite Z.add_0_l, IH2. split; intros (j & k & N & J & K & DJ & DK);
            exists j, k; cbn; [tauto|]. destruct J as [->|J]; [lia|]. destruct K as [->|K]; [lia|]. tauto.
        * rewrite Z.add_0_l, IH1. split; intros (j & J & DJ); exists j; cbn; [tauto|].
          destruct J as [->|J]; [lia|]. tauto.
      + split.
        * transitivity (1 <= fold_right Z.add 0 (map D l)); [lia|]. rewrite IH1. split.
          -- intros (j & J & DJ). exists a, j. cbn. split; [congruence|]. tauto.
          -- intros (j & k & N & J & K & DJ & DK). destruct J as [->|J]; [|eauto].
             destruct K as [->|K]; [congruence|eauto].
        * assert (0 <= fold_right Z.add 0 (map D l)).
          { clear - D01. induction l as [|b l IH]; cbn; [lia|]. destruct (D01 b); lia. }
          split; [|lia]. intros _. exists a. cbn. auto. }
  destruct (G L ND) as (-> & _). split.
  - intros (j & k & N & J & K & DJ & DK). apply IL in J, K. exists j, k.
    split; [easy|]. do 2 (split; [easy|]). split; now apply D1.
  - intros (j & k & N & J & K & DJ & DK). exists j, k. apply D1 in DJ, DK; [|easy..].
    apply IL in J, K. auto.
Qed.

(** ** Extraction *)

Lemma surface_index_fn_spec (k : kinds) g i :
  gwf g -> occs_ok occ_of g -> in_grid g i ->
  exists b, surface_index_fn occ_of comp_of k g i = Some b /\ (b = true <-> selected occ_of k g i).
Proof using.
  intros W O I. unfold surface_index_fn. destruct (gget_some g i W I) as (c & Hc). rewrite Hc. cbn [obind].
  destruct (is_component_surface_index_in g i W I) as (s & Hs & _). rewrite Hs. cbn [obind has_value].
  pose proof (O i c Hc) as OC.
  pose proof (occ_gt_spec _ OC) as GT. pose proof (occ_lt_spec _ OC) as LT.
  assert (SI : forall r, side_is occ_of g i r <-> cmp_half (occ_of c) = r).
  { intros r. split; [intros (c' & E & R); congruence|intros R; exists c; auto]. }
  assert (SEL : selected occ_of k g i <->
     (cmp_half (occ_of c) = Some Gt /\ k_filled k = true) \/ (cmp_half (occ_of c) = Some Lt /\ k_empty k = true) \/
     ((cmp_half (occ_of c) = Some Eq \/ cmp_half (occ_of c) = None) /\ k_unknown k = true)).
  { unfold selected. pose proof (SI (Some Gt)). pose proof (SI (Some Lt)). pose proof (SI (Some Eq)).
    pose proof (SI None). tauto. }
  destruct (occ_gt (occ_of c)); [|destruct (occ_lt (occ_of c))];
    [destruct (k_filled k)|destruct (k_empty k)|destruct (k_unknown k)];
    (eexists; split; [reflexivity|]);
    rewrite SEL; destruct (cmp_half (occ_of c)) as [[]|]; clear SI SEL; intuition congruence.
Qed.

Lemma smap_set_in m i v j w :
  NoDup (map fst m) ->
  In (j, w) (smap_set m i v) <-> (j = i /\ w = v) \/ (j <> i /\ In (j, w) m).
Proof using.
  induction m as [|[k u] m IH]; cbn; intros ND.
  - split; [intros [[= <- <-]|[]]; auto|]. intros [[-> ->]|[_ []]]. auto.
  - apply NoDup_cons_iff in ND. destruct ND as (NI & ND).
    destruct (idx_eqb i k) eqn:E.
    + apply idx_eqb_eq in E. subst k. cbn. split.
      * intros [[= <- <-]|H]; [auto|]. right. split; [|auto]. intros ->. apply NI.
        change i with (fst (i, w)). now apply in_map.
      * intros [[-> ->]|[N [[= <- <-]|H]]]; [auto|congruence|auto].
    + apply idx_eqb_neq in E. cbn. rewrite IH by easy. split.
      * intros [[= <- <-]|[H|H]]; [right; split; [congruence|auto]|auto|right; tauto].
      * intros [H|[N [H|H]]]; auto.
Qed.

Lemma smap_set_nodup m i v : NoDup (map fst m) -> NoDup (map fst (smap_set m i v)).
Proof using.
  induction m as [|[k u] m IH]; cbn; intros ND.
  - constructor; [easy|constructor].
  - apply NoDup_cons_iff in ND. destruct ND as (NI & ND). destruct (idx_eqb i k) eqn:E; cbn.
    + constructor; assumption.
    + constructor; [|now apply IH]. intros H. apply in_map_iff in H. destruct H as ([j w] & <- & H).
      apply smap_set_in in H; [|easy]. cbn in NI. destruct H as [[-> ->]|[_ H]].
      * now rewrite idx_eqb_refl in E.
      * apply NI. change j with (fst (j, w)). now apply in_map.
Qed.

(** Sorted keys. *)
Fixpoint keys_above (lo : Z) (s : surfaces) : Prop :=
  match s with [] => True | (c, _) :: t => lo < c /\ keys_above c t end.

Lemma keys_above_in lo s c m : keys_above lo s -> In (c, m) s -> lo < c.
Proof using.
  revert lo; induction s as [|[d n] s IH]; cbn; intros lo K I; [easy|].
  destruct K as (K1 & K2). destruct I as [[= -> ->]|I]; [easy|]. specialize (IH _ K2 I). lia.
Qed.

Lemma keys_above_nodup lo s : keys_above lo s -> NoDup (map fst s).
Proof using.
  revert lo; induction s as [|[c m] s IH]; cbn; intros lo K; constructor.
  - intros I. apply in_map_iff in I. destruct I as ([d n] & E & I). cbn in E. subst d.
    apply (keys_above_in c) in I; [lia|tauto].
  - eapply IH. apply K.
Qed.

Definition maps_good (s : surfaces) : Prop :=
  forall c m, In (c, m) s -> NoDup (map fst m) /\ m <> [] /\ forall i v, In (i, v) m -> v = 1.

Lemma surfaces_add_spec lo s c i :
  keys_above lo s -> lo < c -> maps_good s ->
  keys_above lo (surfaces_add s c i) /\ maps_good (surfaces_add s c i) /\
  forall d j, in_surface (surfaces_add s c i) d j <-> (d = c /\ j = i) \/ in_surface s d j.
Proof using.
  assert (S1 : forall e : idx, maps_good [(c, [(e, 1)])]).
  { intros e d m [[= <- <-]|[]]. split; [constructor; [easy|constructor]|].
    split; [discriminate|]. intros j v [[= _ <-]|[]]. reflexivity. }
  revert lo; induction s as [|[d m] s IH]; intros lo K L G; cbn [surfaces_add].
  - split; [cbn; auto|]. split; [apply S1|]. intros d j. unfold in_surface. split.
    + intros (m & [[= <- <-]|[]] & [[= <-]|[]]). auto.
    + intros [[-> ->]|(m & [] & _)]. eexists. split; [now left|now left].
  - cbn in K. destruct K as (K1 & K2).
    assert (GM : NoDup (map fst m) /\ m <> [] /\ forall i v, In (i, v) m -> v = 1) by (apply (G d); now left).
    assert (GS : maps_good s) by (intros e n I; apply (G e); now right).
    destruct (c =? d) eqn:E; [apply Z.eqb_eq in E; subst d|destruct (c <? d) eqn:E2].
    + split; [cbn; auto|]. split.
      * intros e n [[= <- <-]|I]; [|now apply (GS e)].
        split; [now apply smap_set_nodup|]. split.
        -- destruct m as [|[j w] m]; cbn; [discriminate|]. destruct (idx_eqb i j); discriminate.
        -- intros j v I. apply smap_set_in in I; [|tauto]. destruct I as [[_ ->]|[_ I]]; [easy|].
           destruct GM as (_ & _ & GM). eapply GM; eassumption.
      * intros e j. unfold in_surface. split.
        -- intros (n & [[= <- <-]|I] & J).
           ++ apply smap_set_in in J; [|tauto]. destruct J as [[-> _]|[_ J]]; [auto|].
              right. exists m. split; [now left|easy].
           ++ right. exists n. split; [now right|easy].
        -- intros [[-> ->]|(n & [[= <- <-]|I] & J)].
           ++ exists (smap_set m i 1). split; [now left|]. apply smap_set_in; tauto.
           ++ exists (smap_set m i 1). split; [now left|]. apply smap_set_in; [tauto|].
              destruct (idx_eq_dec j i); tauto.
           ++ exists n. split; [now right|easy].
    + apply Z.ltb_lt in E2. split; [cbn; auto|]. split.
      * intros e n [[= <- <-]|I]; [|now apply (G e)]. apply (S1 i c). now left.
      * intros e j. unfold in_surface. split.
        -- intros (n & [[= <- <-]|I] & J); [destruct J as [[= <-]|[]]; auto|]. right. eauto.
        -- intros [[-> ->]|(n & I & J)]; [eexists; split; [now left|now left]|].
           exists n. split; [now right|easy].
    + apply Z.eqb_neq in E. apply Z.ltb_ge in E2.
      destruct (IH d K2 ltac:(lia) GS) as (A1 & A2 & A3). split; [cbn; auto|]. split.
      * intros e n [[= <- <-]|I]; [easy|]. now apply (A2 e).
      * intros e j. specialize (A3 e j). unfold in_surface in *. split.
        -- intros (n & [[= <- <-]|I] & J); [right; exists m; split; [now left|easy]|].
           destruct (proj1 A3 (ex_intro _ n (conj I J))) as [H|(n' & I' & J')]; [auto|].
           right. exists n'. split; [now right|easy].
        -- intros H. assert (H' : (e = d /\ In (j, 1) m) \/ (e = c /\ j = i) \/ exists n, In (e, n) s /\ In (j, 1) n).
           { destruct H as [H|(n & [[= <- <-]|I] & J)]; [auto|auto|]. right; right; eauto. }
           destruct H' as [[-> J]|H']; [exists m; split; [now left|easy]|].
           destruct (proj2 A3 H') as (n & I & J). exists n. split; [now right|easy].
Qed.

Lemma extract_gen_spec is_surface get_component nx ny nz (P : idx -> Prop) :
  (forall i, In i (all_idx nx ny nz) -> exists b, is_surface i = Some b /\ (b = true <-> P i)) ->
  exists s, extract_surfaces_gen is_surface get_component nx ny nz = Some s /\ surfaces_are_maps s /\
    forall c i, in_surface s c i <-> In i (all_idx nx ny nz) /\ P i /\ u32 (get_component i) = c.
Proof using.
  unfold extract_surfaces_gen. intros H.
  assert (G : forall l s0, (forall i, In i l -> In i (all_idx nx ny nz)) -> keys_above (-1) s0 -> maps_good s0 ->
    exists s, ofold (fun s i => let* b := is_surface i in
                    if b then Some (surfaces_add s (u32 (get_component i)) i) else Some s) l s0 = Some s /\
      keys_above (-1) s /\ maps_good s /\
      forall c i, in_surface s c i <-> (In i l /\ P i /\ u32 (get_component i) = c) \/ in_surface s0 c i).
  { induction l as [|i l IH]; intros s0 L K G; cbn [ofold].
    - exists s0. do 3 (split; [easy|]). intros c i. cbn. tauto.
    - destruct (H i) as (b & Hb & B); [apply L; now left|]. rewrite Hb. cbn [obind]. destruct b.
      + destruct (surfaces_add_spec (-1) s0 (u32 (get_component i)) i K) as (A1 & A2 & A3); [|easy|].
        { unfold u32. pose proof (Z.mod_pos_bound (get_component i) (2 ^ 32)). lia. }
        destruct (IH _ (fun j J => L j (or_intror J)) A1 A2) as (s & E & S1 & S2 & S3).
        exists s. do 3 (split; [easy|]). intros c j. rewrite S3, A3. cbn [In].
        split; [intros [?|[[-> ->]|?]]; [tauto|left; split; [auto|split; [now apply B|easy]]|tauto]|].
        intros [([<-|J] & Pj & <-)|J]; tauto.
      + destruct (IH s0 (fun j J => L j (or_intror J)) K G) as (s & E & S1 & S2 & S3).
        exists s. do 3 (split; [easy|]). intros c j. rewrite S3. cbn [In].
        split; [tauto|]. intros [([<-|J] & Pj & <-)|J]; [|tauto..]. apply B in Pj. discriminate. }
  destruct (G (all_idx nx ny nz) []) as (s & E & S1 & S2 & S3); [easy|easy|intros c m []|].
  exists s. split; [easy|]. split; [split; [eapply keys_above_nodup; eassumption|easy]|].
  intros c i. rewrite S3. split; [intros [?|(m & [] & _)]; tauto|tauto].
Qed.

Lemma extract_surfaces_spec (k : kinds) g :
  gwf g -> occs_ok occ_of g -> numbers_ok comp_of g ->
  exists s, extract_surfaces occ_of comp_of k g = Some s /\ surfaces_are_maps s /\
    forall c i, in_surface s c i <-> in_grid g i /\ selected occ_of k g i /\ label comp_of g i = c.
Proof using.
  intros W O N.
  destruct (extract_gen_spec (surface_index_fn occ_of comp_of k g) (component_fn comp_of g)
              (g_nx g) (g_ny g) (g_nz g) (selected occ_of k g)) as (s & E & S & I).
  - intros i Hi. apply surface_index_fn_spec; [easy..|]. now apply in_all_idx in Hi.
  - exists s. split; [easy|]. split; [easy|]. intros c i. rewrite I, in_all_idx.
    change (in_bounds3 (g_nx g) (g_ny g) (g_nz g) i = true) with (in_grid g i).
    split; intros (A & B & D); (split; [easy|split; [easy|]]);
    destruct (gget_some g i W A) as (x & Hx); specialize (N i x Hx);
    revert D; unfold component_fn, label, u32; rewrite Hx; rewrite Z.mod_small by lia; easy.
Qed.
End Queries.

(** ** Static and dynamic surfaces *)

Lemma in_extract_static m i : In i (extract_static m) <-> In (i, 1) m.
Proof.
  unfold extract_static. rewrite in_flat_map. split.
  - intros ([j v] & I & J). cbn in J. destruct (v =? 1) eqn:E; [|destruct J].
    apply Z.eqb_eq in E. subst v. destruct J as [<-|[]]. easy.
  - intros I. exists (i, 1). split; [easy|]. now left.
Qed.

Lemma nodup_extract_static m : NoDup (map fst m) -> NoDup (extract_static m).
Proof.
  unfold extract_static. induction m as [|[j v] m IH]; cbn; intros ND; [constructor|].
  apply NoDup_cons_iff in ND. destruct ND as (NI & ND). destruct (v =? 1); cbn; [|auto].
  constructor; [|auto]. intros I. apply (in_extract_static m) in I. apply NI.
  change j with (fst (j, 1)). now apply in_map.
Qed.

Lemma to_dynamic_spec l :
  NoDup (map fst (to_dynamic l)) /\ forall i v, In (i, v) (to_dynamic l) <-> In i l /\ v = 1.
Proof.
  unfold to_dynamic.
  assert (G : forall l m, NoDup (map fst m) -> (forall i v, In (i, v) m -> v = 1) ->
    NoDup (map fst (fold_left (fun m i => smap_set m i 1) l m)) /\
    forall i v, In (i, v) (fold_left (fun m i => smap_set m i 1) l m) <-> (In i l /\ v = 1) \/ In (i, v) m).
  { clear l. induction l as [|a l IH]; intros m ND V; cbn [fold_left].
    - split; [easy|]. cbn. tauto.
    - destruct (IH (smap_set m a 1)) as (I1 & I2).
      + now apply smap_set_nodup.
      + intros i v H. apply smap_set_in in H; [|easy]. destruct H as [[_ H]|[_ H]]; eauto.
      + split; [easy|]. intros i v. rewrite I2, smap_set_in by easy. cbn [In]. split.
        * intros [H|[[-> ->]|H]]; tauto.
        * intros [([->|H] & ->)|H]; [auto|tauto|]. destruct (idx_eq_dec i a) as [->|]; [|tauto].
          rewrite (V _ _ H). auto. }
  destruct (G l []) as (G1 & G2); [constructor|intros ? ? []|].
  split; [easy|]. intros i v. rewrite G2. cbn. tauto.
Qed.

Lemma smap_get_in m i v : NoDup (map fst m) -> smap_get m i = Some v <-> In (i, v) m.
Proof.
  induction m as [|[k u] m IH]; cbn; intros ND; [split; [discriminate|easy]|].
  apply NoDup_cons_iff in ND. destruct ND as (NI & ND). destruct (idx_eqb i k) eqn:E.
  - apply idx_eqb_eq in E. subst k. split; [intros [= ->]; auto|].
    intros [[= ->]|I]; [easy|]. elim NI. change i with (fst (i, v)). now apply in_map.
  - apply idx_eqb_neq in E. rewrite IH by easy. split; [auto|]. intros [[= <- <-]|I]; [congruence|easy].
Qed.

Lemma zget_snoc {A} (l : list A) a k :
  zget (l ++ [a]) k = if k =? zlen l then Some a else zget l k.
Proof.
  unfold zget, zlen. destruct (k <? 0) eqn:E.
  - destruct (k =? _) eqn:E2; [lia|easy].
  - destruct (k =? Z.of_nat (length l)) eqn:E2.
    + apply Z.eqb_eq in E2. subst k. rewrite Nat2Z.id, nth_error_app2 by lia.
      now replace (length l - length l)%nat with 0%nat by lia.
    + destruct (Z.ltb_spec k (Z.of_nat (length l))).
      * rewrite nth_error_app1 by lia. easy.
      * rewrite (proj2 (nth_error_None l _)) by lia. apply nth_error_None. rewrite app_length. cbn. lia.
Qed.

Lemma build_index_map_spec l :
  NoDup (map fst (build_index_map l)) /\
  forall i k, In (i, k) (build_index_map l) <->
    zget l k = Some i /\ forall k', k < k' -> zget l k' <> Some i.
Proof.
  unfold build_index_map.
  set (step := fun '(m, k) (i : idx) => (smap_set m i k, k + 1)).
  assert (K : forall l m k, snd (fold_left step l (m, k)) = k + zlen l).
  { clear l. induction l as [|a l IH]; intros m k; cbn [fold_left step].
    - unfold zlen; cbn; lia.
    - rewrite IH. unfold zlen. cbn [length]. lia. }
  induction l as [|a l IH] using rev_ind.
  - cbn. split; [constructor|]. intros i k. split; [easy|]. intros (H & _).
    unfold zget in H. destruct (k <? 0), (Z.to_nat k); discriminate.
  - rewrite fold_left_app. destruct (fold_left step l ([], 0)) as [m k0] eqn:E.
    assert (k0 = zlen l) by (change k0 with (snd (m, k0)); rewrite <- E, K; lia). subst k0.
    cbn [fold_left step fst] in *. destruct IH as (I1 & I2). split; [now apply smap_set_nodup|].
    intros i k. rewrite smap_set_in, I2 by easy. rewrite zget_snoc. split.
    + intros [[-> ->]|[N (H & L)]].
      * rewrite Z.eqb_refl. split; [easy|]. intros k' Hk. rewrite zget_snoc.
        destruct (k' =? zlen l) eqn:E2; [lia|]. intros H. apply zget_range in H. lia.
      * pose proof (zget_range _ _ _ H). destruct (k =? zlen l) eqn:E2; [lia|]. split; [easy|].
        intros k' Hk. rewrite zget_snoc. destruct (k' =? zlen l); [congruence|auto].
    + intros (H & L). destruct (k =? zlen l) eqn:E2.
      * apply Z.eqb_eq in E2. injection H as ->. auto.
      * right. pose proof (zget_range _ _ _ H). split.
        -- intros ->. apply (L (zlen l)); [lia|]. now rewrite zget_snoc, Z.eqb_refl.
        -- split; [easy|]. intros k' Hk Hk'. apply (L k'); [easy|]. rewrite zget_snoc.
           pose proof (zget_range _ _ _ Hk'). now destruct (k' =? zlen l) eqn:E3; [lia|].
Qed.

Lemma permutation_of_sets {A} (l l' : list A) :
  NoDup l -> NoDup l' -> (forall x, In x l <-> In x l') -> Permutation l l'.
Proof. apply NoDup_Permutation. Qed.
