(** SDFs of occupancy maps and tagged maps. *)
From Coq Require Import ZArith Reals List Lia Lra Bool.
From Verif Require Import Util Grid Prog Schedule EdtModel ExactModel EdtSpec EdtLineProofs EdtProofs
  Occ OccProofs SdfModel SdfSpec SdfProofs SdfLaws.
Import ListNotations.
Local Open Scope Z_scope.

(** ** The result depends only on the fill state of the cells of the grid *)

Section Ext.
Variable A : arith.
Variables (S : Type) (combine : num A -> num A -> S) (oob : S) (ge0 le0 : S -> bool) (s0 : S).

Lemma filter_ext_In {B} (p q : B -> bool) l : (forall x, In x l -> p x = q x) -> filter p l = filter q l.
Proof.
  induction l as [|x l IH]; cbn; intros H; [easy|]. rewrite (H x) by now left.
  rewrite IH by (intros; apply H; now right). easy.
Qed.

Lemma extract_ext nx ny nz p q : (forall i, in_box nx ny nz i -> p i = q i) ->
  extract A S combine oob nx ny nz p = extract A S combine oob nx ny nz q.
Proof.
  intros H. unfold extract, mark_fields. rewrite !mark_fold.
  rewrite (filter_ext_In p q), (filter_ext_In (fun i => negb (p i)) (fun i => negb (q i))); [easy| |];
    intros i Hi; rewrite in_all_idx, <- in_box_iff in Hi; rewrite (H i Hi); easy.
Qed.

Lemma bordered_ext nx ny nz bd p q : 0 < nx -> 0 < ny -> 0 < nz ->
  (forall i, in_box nx ny nz i -> p i = q i) ->
  forall i, in_box (nx + size_offset nx) (ny + size_offset ny) (nz + size_offset nz) i ->
    bordered nx ny nz bd p i = bordered nx ny nz bd q i.
Proof.
  intros Hx Hy Hz H [[x y] z] B.
  set (j := (x - query_offset nx, y - query_offset ny, z - query_offset nz)).
  assert (E : (x, y, z) = shift (off nx ny nz) j).
  { unfold j, off, shift. f_equal; [f_equal|]; lia. }
  rewrite E in *. apply enlarged_box in B; try easy. destruct B as [B|B].
  - rewrite !bordered_in by easy. now apply H.
  - now rewrite !bordered_out by easy.
Qed.

Lemma extract_grid_ext u border nx ny nz p q : 0 < nx -> 0 < ny -> 0 < nz ->
  (forall i, in_box nx ny nz i -> p i = q i) ->
  extract_grid A S combine oob ge0 le0 s0 u border nx ny nz p =
  extract_grid A S combine oob ge0 le0 s0 u border nx ny nz q.
Proof.
  intros Hx Hy Hz H. unfold extract_grid. destruct u; [|easy]. destruct border.
  - unfold extract_border.
    rewrite (extract_ext _ _ _ (bordered nx ny nz true p) (bordered nx ny nz true q)) by now apply bordered_ext.
    rewrite (extract_ext _ _ _ (bordered nx ny nz false p) (bordered nx ny nz false q)) by now apply bordered_ext.
    easy.
  - now apply extract_ext.
Qed.
End Ext.

Lemma gwf_pos {C} (g : grid C) : gwf g -> 0 < g_nx g /\ 0 < g_ny g /\ 0 < g_nz g.
Proof. unfold gwf. tauto. Qed.

Definition g_box {C} (g : grid C) (i : idx) : Prop := in_box (g_nx g) (g_ny g) (g_nz g) i.

Lemma g_box_get {C} (g : grid C) i : gwf g -> g_box g i -> exists c, gget g i = Some c.
Proof. intros W Hi. apply gget_some; [easy|]. now apply in_box_iff. Qed.

(** A predicate agrees with a cell classification. *)
Definition classifies {C} (g : grid C) (f : C -> bool) (p : idx -> bool) : Prop :=
  forall i c, gget g i = Some c -> p i = f c.

Lemma map_filled_classifies {C} (g : grid C) f p : gwf g -> classifies g f p ->
  forall i, g_box g i -> map_filled g f i = p i.
Proof.
  intros W H i Hi. destruct (g_box_get g i W Hi) as [c Hc]. unfold map_filled. rewrite Hc.
  symmetry. now apply H.
Qed.

Lemma sdf_exact_map {C} res border (g : grid C) f p :
  (0 < res)%R -> gwf g -> classifies g f p ->
  exists s, extract_grid exact xr (x_combine res) XNaN x_ge0 x_le0 (XFin 0) true border
              (g_nx g) (g_ny g) (g_nz g) (map_filled g f) = Some s /\ gwf s /\ same_dims s g /\
    (if border then is_bordered_sdf res (g_nx g) (g_ny g) (g_nz g) p (gget s)
     else is_sdf res (g_nx g) (g_ny g) (g_nz g) p (gget s)).
Proof.
  intros Hr W Hc. destruct (gwf_pos g W) as [Px [Py Pz]].
  rewrite (extract_grid_ext _ _ _ _ _ _ _ _ _ _ _ _ _ p); try easy.
  - destruct (sdf_exact_ok res (g_nx g) (g_ny g) (g_nz g) p border Hr Px Py Pz)
      as [s [E [Ws [Dx [Dy [Dz F]]]]]].
    exists s. split; [exact E|]. split; [exact Ws|]. split; [|exact F].
    split; [exact Dx|]. split; [exact Dy|exact Dz].
  - now apply map_filled_classifies.
Qed.

(** ** C10: occupancy classification *)

(** A cell is to be treated as filled. *)
Definition filled_spec (uf : bool) (b : occ) : Prop :=
  cmp_half b = Some Gt \/ (uf = true /\ cmp_half b = Some Eq).

Lemma occ_filled_spec uf b : is_occ b -> (occ_filled uf b = true <-> filled_spec uf b).
Proof.
  intros H. unfold occ_filled, filled_spec.
  rewrite orb_true_iff, andb_true_iff, occ_gt_spec, occ_eq_spec by easy. tauto.
Qed.

Definition occs {C} (f : C -> occ) (g : grid C) : Prop := forall i c, gget g i = Some c -> is_occ (f c).

Lemma gget_In {C} (g : grid C) i c : gget g i = Some c -> In c (g_cells g).
Proof.
  unfold gget, zget. destruct (in_bounds g i); [|easy]. destruct (_ <? _); [easy|]. apply nth_error_In.
Qed.

Lemma occs_cells {C} (f : C -> occ) g : (forall c, In c (g_cells g) -> is_occ (f c)) -> occs f g.
Proof. intros H i c Hc. apply H. now apply gget_In in Hc. Qed.

Lemma occupancy_sdf_ok res uf border (g : grid occ) p :
  (0 < res)%R -> gwf g -> occs (fun c => c) g ->
  (forall i c, gget g i = Some c -> (p i = true <-> filled_spec uf c)) ->
  exists s, occupancy_sdf_exact res uf border g = Some s /\ gwf s /\ same_dims s g /\
    (if border then is_bordered_sdf res (g_nx g) (g_ny g) (g_nz g) p (gget s)
     else is_sdf res (g_nx g) (g_ny g) (g_nz g) p (gget s)).
Proof.
  intros Hr W Ho Hp. apply (sdf_exact_map res border g (occ_filled uf) p Hr W).
  intros i c Hc. apply eq_true_iff_eq. rewrite (Hp i c Hc). symmetry. apply occ_filled_spec.
  exact (Ho i c Hc).
Qed.

Lemma occ_filled_mono uf b : occ_filled false b = true -> occ_filled uf b = true.
Proof. unfold occ_filled. cbn [andb]. rewrite orb_false_r. now intros ->. Qed.

Lemma shell_out border nx ny nz j : extra border nx ny nz j -> ~ in_box nx ny nz j.
Proof. intros [_ H]. destruct j as [[x y] z]. unfold in_shell in H. tauto. Qed.

Lemma occupancy_sdf_unknown res border (g : grid occ) s s' i u v :
  (0 < res)%R -> gwf g ->
  occupancy_sdf_exact res false border g = Some s ->
  occupancy_sdf_exact res true border g = Some s' ->
  gget s i = Some u -> gget s' i = Some v -> xle v u.
Proof.
  intros Hr W E E' Eu Ev.
  destruct (sdf_exact_map res border g (occ_filled false) (map_filled g (occ_filled false)) Hr W)
    as [s1 [E1 [W1 [D1 F1]]]].
  { intros j c Hc. unfold map_filled. now rewrite Hc. }
  destruct (sdf_exact_map res border g (occ_filled true) (map_filled g (occ_filled true)) Hr W)
    as [s2 [E2 [W2 [D2 F2]]]].
  { intros j c Hc. unfold map_filled. now rewrite Hc. }
  unfold occupancy_sdf_exact, occupancy_sdf in E, E'. rewrite E in E1. rewrite E' in E2.
  injection E1 as <-. injection E2 as <-.
  assert (Hi : g_box g i).
  { apply gget_in_bounds in Eu. rewrite (in_bounds_dims _ _ _ D1) in Eu. now apply in_box_iff. }
  eapply (field_mono res (g_nx g) (g_ny g) (g_nz g) Hr _ _ (extra border (g_nx g) (g_ny g) (g_nz g)));
    [apply shell_out|apply field_of; exact F1|apply field_of; exact F2| |exact Hi|exact Eu|exact Ev].
  intros j Hj. unfold map_filled. destruct (gget g j); [|easy]. apply occ_filled_mono.
Qed.

(** ** C11: object lists *)

Definition tagged_spec (uf : bool) (objects : list Z) (c : tcell) : Prop :=
  (objects = [] \/ In (snd c) objects) /\ filled_spec uf (fst c).

Lemma existsb_eqb_In x l : existsb (Z.eqb x) l = true <-> In x l.
Proof.
  rewrite existsb_exists. split.
  - intros [y [Hy E]]. apply Z.eqb_eq in E. now subst.
  - intros H. exists x. split; [easy|apply Z.eqb_refl].
Qed.

Lemma tagged_filled_spec uf objects c : is_occ (fst c) ->
  (tagged_filled uf objects c = true <-> tagged_spec uf objects c).
Proof.
  intros H. unfold tagged_filled, tagged_spec.
  rewrite andb_true_iff, orb_true_iff, existsb_eqb_In, occ_filled_spec by easy.
  destruct objects; intuition congruence.
Qed.

Lemma tagged_sdf_ok res uf border objects (g : grid tcell) p :
  (0 < res)%R -> gwf g -> occs fst g ->
  (forall i c, gget g i = Some c -> (p i = true <-> tagged_spec uf objects c)) ->
  exists s, tagged_sdf_exact res uf border objects g = Some s /\ gwf s /\ same_dims s g /\
    (if border then is_bordered_sdf res (g_nx g) (g_ny g) (g_nz g) p (gget s)
     else is_sdf res (g_nx g) (g_ny g) (g_nz g) p (gget s)).
Proof.
  intros Hr W Ho Hp. apply (sdf_exact_map res border g (tagged_filled uf objects) p Hr W).
  intros i c Hc. apply eq_true_iff_eq. rewrite (Hp i c Hc). symmetry. apply tagged_filled_spec.
  exact (Ho i c Hc).
Qed.

Lemma tagged_filled_same_set uf l l' c : (forall x, In x l <-> In x l') ->
  tagged_filled uf l c = tagged_filled uf l' c.
Proof.
  intros H. unfold tagged_filled. f_equal. f_equal.
  - apply eq_true_iff_eq. now rewrite !existsb_eqb_In.
  - destruct l as [|x l], l' as [|y l']; try easy.
    + exfalso. apply (H y). now left.
    + exfalso. apply (H x). now left.
Qed.

Lemma tagged_sdf_same_set res uf border l l' (g : grid tcell) :
  gwf g -> (forall x, In x l <-> In x l') ->
  tagged_sdf_exact res uf border l g = tagged_sdf_exact res uf border l' g.
Proof.
  intros W H. destruct (gwf_pos g W) as [Px [Py Pz]].
  unfold tagged_sdf_exact, tagged_sdf. apply extract_grid_ext; try easy.
  intros i _. unfold map_filled. destruct (gget g i); [|easy]. now apply tagged_filled_same_set.
Qed.

(** ** C12 *)

Lemma map_get_put {B} (m : list (Z * B)) k v k' :
  map_get (map_put m k v) k' = if k' =? k then Some v else map_get m k'.
Proof.
  induction m as [|[a b] m IH]; cbn.
  - destruct (k' =? k); easy.
  - destruct (Z.eqb_spec k a) as [->|N].
    + cbn. destruct (Z.eqb_spec k' a); easy.
    + cbn. rewrite IH. destruct (Z.eqb_spec k' a) as [->|N2]; [|easy].
      destruct (Z.eqb_spec a k); [congruence|easy].
Qed.

Lemma map_put_keys {B} (m : list (Z * B)) k v x :
  In x (map fst (map_put m k v)) <-> x = k \/ In x (map fst m).
Proof.
  induction m as [|[a b] m IH]; cbn; [intuition congruence|].
  destruct (Z.eqb_spec k a) as [->|N]; cbn; [intuition congruence|]. rewrite IH. intuition congruence.
Qed.

Lemma map_put_NoDup {B} (m : list (Z * B)) k v : NoDup (map fst m) -> NoDup (map fst (map_put m k v)).
Proof.
  induction m as [|[a b] m IH]; cbn; intros H; [constructor; easy|].
  inversion H as [|? ? H1 H2]; subst. destruct (Z.eqb_spec k a) as [->|N]; cbn.
  - constructor; easy.
  - constructor; [|now apply IH]. rewrite map_put_keys. intuition congruence.
Qed.

Section Separate.
Variable ext1 : Z -> option (grid xr).
Hypothesis total : forall id, exists s, ext1 id = Some s.

Lemma separate_ok ids m :
  exists m', ofold (fun m id => let* s := ext1 id in Some (map_put m id s)) ids m = Some m' /\
    (NoDup (map fst m) -> NoDup (map fst m')) /\
    (forall k, In k ids -> map_get m' k = ext1 k) /\
    (forall k, ~ In k ids -> map_get m' k = map_get m k).
Proof.
  revert m. induction ids as [|id ids IH]; intros m; cbn [ofold].
  - exists m. split; [easy|]. split; [easy|]. split; [easy|]. easy.
  - destruct (total id) as [s Hs]. rewrite Hs. cbn [obind].
    destruct (IH (map_put m id s)) as [m' [E [ND [I O]]]].
    exists m'. split; [exact E|]. split; [|split].
    + intros H. apply ND. now apply map_put_NoDup.
    + intros k [->|Hk]; [|now apply I].
      destruct (in_dec Z.eq_dec k ids) as [H|H]; [now apply I|].
      rewrite O by easy. rewrite map_get_put, Z.eqb_refl. now rewrite Hs.
    + intros k Hk. rewrite O by (intros H; apply Hk; now right).
      rewrite map_get_put. destruct (Z.eqb_spec k id); [|easy]. subst. exfalso. apply Hk. now left.
Qed.
End Separate.

Lemma set_insert_In s v x : In x (set_insert s v) <-> x = v \/ In x s.
Proof.
  unfold set_insert. destruct (existsb (Z.eqb v) s) eqn:E.
  - apply existsb_eqb_In in E. intuition congruence.
  - rewrite in_app_iff. cbn. intuition congruence.
Qed.

Lemma all_object_ids_ok (g : grid tcell) : gwf g ->
  exists ids, all_object_ids g = Some ids /\
    forall x, In x ids <-> 0 < x /\ exists i c, gget g i = Some c /\ snd c = x.
Proof.
  intros W. unfold all_object_ids.
  assert (G : forall l s, (forall i, In i l -> exists c, gget g i = Some c) ->
    exists ids, ofold (fun s i => let* c := gget g i in
                    Some (if 0 <? snd c then set_insert s (snd c) else s)) l s = Some ids /\
      forall x, In x ids <-> In x s \/ (0 < x /\ exists i c, In i l /\ gget g i = Some c /\ snd c = x)).
  { induction l as [|i l IH]; intros s Hl; cbn [ofold].
    - exists s. split; [easy|]. intros x. split; [auto|]. intros [H|[_ [? [? [[] _]]]]]. easy.
    - destruct (Hl i (or_introl eq_refl)) as [c Hc]. rewrite Hc. cbn [obind].
      destruct (IH (if 0 <? snd c then set_insert s (snd c) else s)) as [ids [E I]];
        [intros; apply Hl; now right|].
      exists ids. split; [exact E|]. intros x. rewrite I.
      assert (Q : In x (if 0 <? snd c then set_insert s (snd c) else s) <->
                  In x s \/ (0 < x /\ x = snd c)).
      { destruct (Z.ltb_spec 0 (snd c)); [rewrite set_insert_In|]; intuition lia. }
      rewrite Q. split.
      + intros [[H|[H1 H2]]|[H [j [c' [Hj Hc']]]]].
        * auto.
        * right. split; [easy|]. exists i, c. split; [now left|]. split; [easy|lia].
        * right. split; [easy|]. exists j, c'. split; [now right|]. easy.
      + intros [H|[H [j [c' [[->|Hj] [Hc' E']]]]]]; [auto| |].
        * left. right. split; [easy|]. congruence.
        * right. split; [easy|]. now exists j, c'. }
  destruct (G (all_idx (g_nx g) (g_ny g) (g_nz g)) []) as [ids [E I]].
  { intros i Hi. apply in_all_idx in Hi. now apply gget_some. }
  exists ids. split; [exact E|]. intros x. rewrite I. split.
  - intros [[]|[H [i [c [_ Hc]]]]]. split; [easy|]. now exists i, c.
  - intros [H [i [c [Hc Ec]]]]. right. split; [easy|]. exists i, c. split; [|easy].
    apply in_all_idx. now apply gget_in_bounds in Hc.
Qed.

Lemma tagged_sdf_total res uf border objects (g : grid tcell) :
  (0 < res)%R -> gwf g -> exists s, tagged_sdf_exact res uf border objects g = Some s.
Proof.
  intros Hr W.
  destruct (sdf_exact_map res border g (tagged_filled uf objects) (map_filled g (tagged_filled uf objects)) Hr W)
    as [s [E _]].
  { intros j c Hc. unfold map_filled. now rewrite Hc. }
  exists s. exact E.
Qed.

Lemma make_all_sdfs_ok res uf border (g : grid tcell) :
  (0 < res)%R -> gwf g ->
  exists m, make_all_sdfs_exact res uf border g = Some m /\ NoDup (map fst m) /\
    forall k, map_get m k =
      match tagged_sdf_exact res uf border [k] g with
      | Some s => if (0 <? k) && existsb (fun i => match gget g i with Some c => snd c =? k | None => false end)
                                   (all_idx (g_nx g) (g_ny g) (g_nz g))
                  then Some s else None
      | None => None
      end.
Proof.
  intros Hr W. destruct (all_object_ids_ok g W) as [ids [E I]].
  destruct (separate_ok (fun id => tagged_sdf_exact res uf border [id] g)
              (fun id => tagged_sdf_total res uf border [id] g Hr W) ids []) as [m [Em [ND [I1 I2]]]].
  exists m. split; [|split].
  - unfold make_all_sdfs_exact, make_all_sdfs. rewrite E. exact Em.
  - apply ND. constructor.
  - intros k. destruct (tagged_sdf_total res uf border [k] g Hr W) as [s Es]. rewrite Es.
    assert (Q : (0 <? k) && existsb (fun i => match gget g i with Some c => snd c =? k | None => false end)
                   (all_idx (g_nx g) (g_ny g) (g_nz g)) = true <-> In k ids).
    { rewrite I, andb_true_iff, Z.ltb_lt, existsb_exists. split.
      - intros [H [i [Hi Hc]]]. split; [easy|]. exists i. destruct (gget g i) as [c|]; [|easy].
        exists c. split; [easy|]. now apply Z.eqb_eq.
      - intros [H [i [c [Hc Ec]]]]. split; [easy|]. exists i. rewrite Hc. split; [|now apply Z.eqb_eq].
        apply in_all_idx. now apply gget_in_bounds in Hc. }
    destruct (in_dec Z.eq_dec k ids) as [H|H].
    + rewrite (I1 k H), Es. apply Q in H. now rewrite H.
    + rewrite (I2 k H). cbn. destruct (_ && _); [|easy]. exfalso. now apply H, Q.
Qed.

Lemma make_all_sdfs_keys res uf border (g : grid tcell) :
  (0 < res)%R -> gwf g ->
  exists m, make_all_sdfs_exact res uf border g = Some m /\ NoDup (map fst m) /\
    (forall k, (exists s, map_get m k = Some s) <-> 0 < k /\ exists i c, gget g i = Some c /\ snd c = k) /\
    (forall k s, map_get m k = Some s -> tagged_sdf_exact res uf border [k] g = Some s).
Proof.
  intros Hr W. destruct (make_all_sdfs_ok res uf border g Hr W) as [m [E [ND G]]].
  exists m. split; [exact E|]. split; [exact ND|]. split.
  - intros k. rewrite G. destruct (tagged_sdf_total res uf border [k] g Hr W) as [s Es]. rewrite Es.
    split.
    + intros [s' H]. destruct ((0 <? k) && _) eqn:Q; [|easy]. apply andb_true_iff in Q.
      destruct Q as [Q1 Q2]. apply Z.ltb_lt in Q1. split; [easy|]. apply existsb_exists in Q2.
      destruct Q2 as [i [Hi Hc]]. exists i. destruct (gget g i) as [c|]; [|easy].
      exists c. split; [easy|]. now apply Z.eqb_eq.
    + intros [H [i [c [Hc Ec]]]]. exists s.
      assert (Q : (0 <? k) && existsb (fun i => match gget g i with Some c => snd c =? k | None => false end)
                   (all_idx (g_nx g) (g_ny g) (g_nz g)) = true).
      { apply andb_true_iff. split; [now apply Z.ltb_lt|]. apply existsb_exists. exists i.
        split; [apply in_all_idx; now apply gget_in_bounds in Hc|]. rewrite Hc. now apply Z.eqb_eq. }
      now rewrite Q.
  - intros k s H. rewrite G in H. destruct (tagged_sdf_exact res uf border [k] g); [|easy].
    now destruct (_ && _).
Qed.

(** ** C13 *)

Lemma free_and_named_ok res uf border (g : grid tcell) pf pn :
  (0 < res)%R -> gwf g -> occs fst g ->
  (forall i c, gget g i = Some c -> (pf i = true <-> filled_spec uf (fst c))) ->
  (forall i c, gget g i = Some c -> (pn i = true <-> 0 < snd c /\ filled_spec uf (fst c))) ->
  exists s f n, free_and_named_sdf_exact res uf border g = Some s /\ gwf s /\ same_dims s g /\
    field res (g_nx g) (g_ny g) (g_nz g) pf (extra border (g_nx g) (g_ny g) (g_nz g)) f /\
    field res (g_nx g) (g_ny g) (g_nz g) pn (extra border (g_nx g) (g_ny g) (g_nz g)) n /\
    forall i, g_box g i ->
      gget s i = if pf i then (if pn i then n i else Some (XFin 0)) else f i.
Proof.
  intros Hr W Ho Hf Hn.
  destruct (sdf_exact_map res border g (free_sdf_filled uf) pf Hr W) as [sf [Ef [Wf [Df Ff]]]].
  { intros i c Hc. apply eq_true_iff_eq. rewrite (Hf i c Hc). symmetry.
    unfold free_sdf_filled. apply occ_filled_spec. exact (Ho i c Hc). }
  destruct (sdf_exact_map res border g (named_filled uf) pn Hr W) as [sn [En [Wn [Dn Fn]]]].
  { intros i c Hc. apply eq_true_iff_eq. rewrite (Hn i c Hc). symmetry.
    unfold named_filled. rewrite andb_true_iff, Z.ltb_lt, occ_filled_spec; [easy|]. exact (Ho i c Hc). }
  apply field_of in Ff. apply field_of in Fn.
  set (val := fun (g : grid xr) i => match gget g i with Some a => a | None => XNaN end).
  destruct (build_ok (g_nx g) (g_ny g) (g_nz g) (named_cell_step xr x_ge0 x_le0 (XFin 0) sf sn)
              (fun i => combine_signed xr x_ge0 x_le0 (XFin 0) (val sf i) (val sn i)) sf)
    as [s [E [Ws [D G]]]]; [exact Wf|apply Df..| |].
  - intros h i Hi. unfold named_cell_step, val.
    destruct (Ff i) as [a [Ha _]]; [now apply in_box_iff|].
    destruct (Fn i) as [b [Hb _]]; [now apply in_box_iff|].
    now rewrite Ha, Hb.
  - exists s, (gget sf), (gget sn). split; [|split; [exact Ws|split; [|split; [exact Ff|split; [exact Fn|]]]]].
    + unfold free_and_named_sdf_exact, free_and_named_sdf. rewrite Ef. cbn [obind]. rewrite En.
      cbn [obind]. exact E.
    + eapply same_dims_trans; eauto.
    + intros i Hi. rewrite G by now apply in_box_iff.
      destruct (Ff i Hi) as [a [Ha _]]. destruct (Fn i Hi) as [b [Hb _]].
      unfold val. rewrite Ha, Hb. unfold combine_signed.
      destruct (field_sign res _ _ _ Hr _ _ _ (shell_out border _ _ _) Ff i a Hi Ha) as [S1 S2].
      destruct (field_sign res _ _ _ Hr _ _ _ (shell_out border _ _ _) Fn i b Hi Hb) as [S3 S4].
      destruct (pf i) eqn:P.
      * specialize (S1 eq_refl). destruct a as [| |r|]; cbn in S1 |- *; try easy;
          [|destruct (Rle_dec 0 r); [lra|]];
          (destruct (pn i); [specialize (S3 eq_refl)|specialize (S4 eq_refl)];
           destruct b as [| |r'|]; cbn in *; try easy; try (destruct (Rle_dec r' 0); try easy; lra)).
      * specialize (S2 eq_refl). destruct a as [| |r|]; cbn in S2 |- *; try easy.
        destruct (Rle_dec 0 r); [easy|lra].
Qed.
