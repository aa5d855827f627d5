(** Connected components and spatial segments of TaggedObjectOccupancyComponentMap. *)
From Coq Require Import ZArith Reals List Lia Bool ZifyBool.
From Flocq Require Import Core BinarySingleNaN.
From Verif Require Import Util Grid Occ OccProofs EdtModel FloatModel TopologyModel ComponentSpec
  TopologyProofs LabelProofs ComponentMapModel ComponentMapSpec ComponentMapProofs.
Import ListNotations.
Local Open Scope Z_scope.

(** ** The distance between extrema does not depend on the order *)

Lemma b64_square_abs (x : b64) : b64_mul x x = b64_mul (Babs x) (Babs x).
Proof.
  destruct x as [[]|[]| |[] m e H]; try reflexivity.
  unfold b64_mul. cbn -[SF2B]. apply B2SF_inj. rewrite !B2SF_SF2B. reflexivity.
Qed.

Lemma Babs_eq_finite (x y : b64) : is_finite x = true -> is_finite y = true ->
  Rabs (B2R x) = Rabs (B2R y) -> Babs x = Babs y.
Proof.
  intros Fx Fy H. apply B2R_Bsign_inj.
  - now rewrite is_finite_Babs.
  - now rewrite is_finite_Babs.
  - now rewrite !B2R_Babs.
  - destruct x, y; try discriminate; reflexivity.
Qed.

Lemma b64_sub_swap (x y : b64) : Babs (b64_sub x y) = Babs (b64_sub y x).
Proof.
  unfold b64_sub.
  destruct (is_finite x) eqn:Fx; [|destruct x as [|[]| |], y as [|[]| |[]]; try discriminate Fx; reflexivity].
  destruct (is_finite y) eqn:Fy; [|destruct x as [|[]| |[]], y as [|[]| |]; try discriminate Fy; discriminate Fx || reflexivity].
  pose proof (Bminus_correct 53 1024 _ _ mode_NE x y Fx Fy) as H1.
  pose proof (Bminus_correct 53 1024 _ _ mode_NE y x Fy Fx) as H2.
  replace (B2R y - B2R x)%R with (- (B2R x - B2R y))%R in H2 by ring.
  assert (RN : round radix2 (SpecFloat.fexp 53 1024) (round_mode mode_NE) (- (B2R x - B2R y)) =
    (- round radix2 (SpecFloat.fexp 53 1024) (round_mode mode_NE) (B2R x - B2R y))%R).
  { cbn. apply round_NE_opp. }
  rewrite RN in H2. rewrite Rabs_Ropp in H2.
  destruct (Rlt_bool _ _) eqn:B.
  - destruct H1 as (V1 & F1 & _), H2 as (V2 & F2 & _). apply Babs_eq_finite; try assumption.
    rewrite V1, V2. now rewrite Rabs_Ropp.
  - destruct H1 as (O1 & _), H2 as (O2 & _).
    assert (G : forall (z : b64) s, B2SF z = binary_overflow 53 1024 mode_NE s -> Babs z = B754_infinity false).
    { intros z s H. destruct z; cbn in H; unfold binary_overflow in H; cbn in H; try discriminate; reflexivity. }
    rewrite (G _ _ O1), (G _ _ O2). reflexivity.
Qed.

Lemma sub_square_swap x y : b64_mul (b64_sub x y) (b64_sub x y) = b64_mul (b64_sub y x) (b64_sub y x).
Proof. rewrite (b64_square_abs (b64_sub x y)), (b64_square_abs (b64_sub y x)). now rewrite b64_sub_swap. Qed.

Lemma vec3_distance_sym a b : vec3_distance a b = vec3_distance b a.
Proof.
  destruct a as [[ax ay] az], b as [[bx by_] bz]. unfold vec3_distance.
  now rewrite (sub_square_swap ax), (sub_square_swap ay), (sub_square_swap az).
Qed.

(** ** Connected components *)

Definition tview (c : tccell) : occ * Z * Z := (t_occ c, t_obj c, t_seg c).
Definition tput (c : tccell) (z : Z) : tccell := mkTccell (t_occ c) (t_obj c) z (t_seg c).
Definition tact (_ : idx) (_ : occ * Z * Z) : bool := true.
Definition tconn (across : bool) (_ _ : idx) (a b : occ * Z * Z) : bool :=
  same_kind (fst (fst a)) (fst (fst b)) && (across || (snd (fst a) =? snd (fst b))).
Definition tF (m : tmap) : Prop := tm_valid m = false /\ tm_seg_valid m = false.

Lemma tm_mark_grid m i z :
  tm_grid (tm_mark m i z) =
  match gget (tm_grid m) i with Some c => gset (tm_grid m) i (tput c z) | None => tm_grid m end.
Proof.
  unfold tm_mark. destruct (gget (tm_grid m) i) eqn:E; [|reflexivity].
  unfold tm_set. rewrite (gget_in_bounds _ _ _ E). reflexivity.
Qed.

Lemma tm_mark_F m i z c : gget (tm_grid m) i = Some c -> tF (tm_mark m i z).
Proof.
  intros E. unfold tm_mark. rewrite E. unfold tm_set. rewrite (gget_in_bounds _ _ _ E). split; reflexivity.
Qed.

Lemma tm_component_spec m i :
  tm_component m i =
  match gget (tm_grid m) i with Some c => if tact i (tview c) then t_comp c else -1 | None => -1 end.
Proof. unfold tm_component, tact. destruct (gget _ _); reflexivity. Qed.

Lemma tm_connected_spec across m i j a b :
  gget (tm_grid m) i = Some a -> gget (tm_grid m) j = Some b ->
  tm_connected across m i j = Some (tconn across i j (tview a) (tview b)).
Proof.
  intros Ea Eb. unfold tm_connected. rewrite Ea, Eb. cbn. unfold tconn, same_kind; cbn.
  destruct (occ_gt (t_occ a) && occ_gt (t_occ b)), (occ_lt (t_occ a) && occ_lt (t_occ b)),
    (occ_eq (t_occ a) && occ_eq (t_occ b)), across; reflexivity.
Qed.

Lemma tconn_sym across i j a b : tconn across i j a b = true -> tconn across j i b a = true.
Proof.
  unfold tconn. rewrite !andb_true_iff, !orb_true_iff, !Z.eqb_eq. intros [H1 H2].
  split; [now apply same_kind_sym|]. destruct H2; [now left|right; now symmetry].
Qed.

Lemma tconn_spec across (g : grid tccell) a b : occs_ok t_occ g ->
  (conn tview (tconn across) g a b = true <-> same_side t_occ g a b /\ (across = true \/ same_object g a b)).
Proof.
  intros O. unfold conn, V, tconn, same_side, same_object.
  destruct (gget g a) as [ca|] eqn:Ea; cbn; [|split; [discriminate|intros ((? & ? & ? & ? & _) & _); discriminate]].
  destruct (gget g b) as [cb|] eqn:Eb; cbn; [|split; [discriminate|intros ((? & ? & ? & _ & ? & _) & _); discriminate]].
  rewrite andb_true_iff, same_kind_spec, orb_true_iff, Z.eqb_eq by eauto. split.
  - intros ((r & H1 & H2) & H3). split; [exists ca, cb, r; auto|]. destruct H3; [now left|right].
    exists ca, cb. auto.
  - intros ((? & ? & r & [= <-] & [= <-] & H1 & H2) & H3). split; [now exists r|].
    destruct H3 as [H3|(? & ? & [= <-] & [= <-] & H3)]; [now left|now right].
Qed.

Lemma tview_cells (g h : grid tccell) : same_cells tview g h ->
  same_cells t_occ g h /\ same_cells t_obj g h /\ same_cells t_seg g h.
Proof.
  intros (D & H). repeat split; try apply D; intros i; specialize (H i);
    destruct (gget g i), (gget h i); cbn in *; try discriminate; [|reflexivity| |reflexivity| |reflexivity];
    injection H as H1 H2 H3; congruence.
Qed.

Lemma tm_update_labels across m :
  gwf (tm_grid m) -> occs_ok t_occ (tm_grid m) -> g_total (tm_grid m) < 2 ^ 32 -> tm_valid m = false ->
  exists m' n, tm_update across m = Some (m', n) /\ gwf (tm_grid m') /\
    same_cells (fun c => (t_occ c, t_obj c, t_seg c)) (tm_grid m') (tm_grid m) /\
    tm_num_components m' = Some n /\ tm_seg_valid m' = false /\
    is_labelling (in_grid (tm_grid m)) (tm_classes across (tm_grid m)) (label t_comp (tm_grid m')) n.
Proof.
  intros W O Sm Hv. unfold tm_update, tm_num_components. rewrite Hv.
  destruct (label_ok tm_grid tput t_comp tview (tm_connected across) tm_component tm_mark tact (tconn across) tF
      (fun _ _ => eq_refl) (fun _ _ => eq_refl) tm_mark_grid tm_mark_F tm_component_spec
      (fun m i j a b H1 H2 _ _ => tm_connected_spec across m i j a b H1 H2)
      (tconn_sym across)
      (tm_grid m) W (mkTmap (tm_grid m) (tm_n m) (tm_nseg m) false (tm_seg_valid m))) as (m' & n & E & L & _ & Lb);
    [assumption|split; [assumption|split; [apply same_dims_refl|reflexivity]]|].
  rewrite E. cbn. eexists _, _. split; [reflexivity|]. cbn. destruct L as (L & (_ & F) & _).
  split; [apply L|]. split; [now apply LW0_same|]. split; [reflexivity|]. split; [exact F|].
  eapply is_labelling_ext; [| | |exact Lb].
  - intros a. unfold active, act, V, tact. symmetry. rewrite in_grid_cell by assumption.
    destruct (gget (tm_grid m) a) eqn:Ea; cbn.
    + split; [reflexivity|]. intros _. eauto.
    + split; [intros (? & ?); discriminate|discriminate].
  - intros a b _ _. unfold connected. now apply tconn_spec.
  - intros a Ha. unfold active in Ha. destruct (act_cell tm_grid tview tact _ m' a L Ha) as (c & Ec & _).
    unfold label, tm_component. now rewrite Ec.
Qed.

(** ** Spatial segments *)

Section Segments.
Context (extrema : grid vec3) (threshold : b64).

Definition sview (c : tccell) : occ * Z * Z := (t_occ c, t_obj c, t_comp c).
Definition sput (c : tccell) (z : Z) : tccell := mkTccell (t_occ c) (t_obj c) (t_comp c) z.
Definition finite3 (e : vec3) : bool :=
  let '(ex, ey, ez) := e in negb (b64_isinf ex) && negb (b64_isinf ey) && negb (b64_isinf ez).
Definition sact (i : idx) (d : occ * Z * Z) : bool :=
  (occ_lt (fst (fst d)) || (0 <? snd (fst d))) &&
  match gget extrema i with Some e => finite3 e | None => false end.
Definition sconn (i j : idx) (a b : occ * Z * Z) : bool :=
  (snd (fst a) =? snd (fst b)) &&
  match gget extrema i, gget extrema j with
  | Some ea, Some eb => b64_ltb (vec3_distance ea eb) threshold
  | _, _ => false
  end.

Lemma seg_mark_grid m i z :
  tm_grid (seg_mark m i z) =
  match gget (tm_grid m) i with Some c => gset (tm_grid m) i (sput c z) | None => tm_grid m end.
Proof.
  unfold seg_mark. destruct (gget (tm_grid m) i) eqn:E; [|reflexivity].
  unfold tm_set. rewrite (gget_in_bounds _ _ _ E). reflexivity.
Qed.

Lemma seg_mark_F m i z c : gget (tm_grid m) i = Some c -> tF (seg_mark m i z).
Proof.
  intros E. unfold seg_mark. rewrite E. unfold tm_set. rewrite (gget_in_bounds _ _ _ E). split; reflexivity.
Qed.

Lemma seg_component_spec m i :
  seg_component extrema m i =
  match gget (tm_grid m) i with Some c => if sact i (sview c) then t_seg c else -1 | None => -1 end.
Proof.
  unfold seg_component, sact, sview, finite3. destruct (gget (tm_grid m) i) as [c|]; [|reflexivity]. cbn.
  destruct (occ_lt (t_occ c) || (0 <? t_obj c)); [|reflexivity].
  destruct (gget extrema i) as [[[ex ey] ez]|]; reflexivity.
Qed.

Lemma seg_connected_spec m i j a b :
  gget (tm_grid m) i = Some a -> gget (tm_grid m) j = Some b ->
  sact i (sview a) = true -> sact j (sview b) = true ->
  seg_connected extrema threshold m i j = Some (sconn i j (sview a) (sview b)).
Proof.
  intros Ea Eb Ai Aj. unfold seg_connected. rewrite Ea, Eb. cbn. unfold sconn; cbn.
  unfold sact in Ai, Aj. apply andb_true_iff in Ai, Aj. destruct Ai as [_ Ai], Aj as [_ Aj].
  destruct (gget extrema i); [|discriminate]. destruct (gget extrema j); [|discriminate].
  destruct (t_obj a =? t_obj b); reflexivity.
Qed.

Lemma sconn_sym i j a b : sconn i j a b = true -> sconn j i b a = true.
Proof.
  unfold sconn. rewrite !andb_true_iff, !Z.eqb_eq. intros [H1 H2]. split; [now symmetry|].
  destruct (gget extrema i), (gget extrema j); try discriminate. now rewrite vec3_distance_sym.
Qed.

Lemma isinf_spec (a : b64) : b64_isinf a = false <-> forall s, a <> B754_infinity s.
Proof.
  destruct a; cbn; split; intros H; try reflexivity; try discriminate.
  destruct (H s). reflexivity.
Qed.

Lemma finite3_spec ex ey ez : finite3 (ex, ey, ez) = true <->
  forall b, ex <> B754_infinity b /\ ey <> B754_infinity b /\ ez <> B754_infinity b.
Proof.
  unfold finite3. rewrite !andb_true_iff, !negb_true_iff, !isinf_spec. split.
  - intros [[H1 H2] H3] b. auto.
  - intros H. split; [split|]; intros s; apply (H s).
Qed.

Lemma sact_spec g i : occs_ok t_occ g -> (act sview sact g i = true <-> segmented extrema g i).
Proof.
  intros O. unfold act, V, sact, segmented. destruct (gget g i) as [c|] eqn:E; cbn.
  - rewrite andb_true_iff, orb_true_iff, Z.ltb_lt, occ_lt_spec by (now apply (O i)).
    destruct (gget extrema i) as [[[ex ey] ez]|].
    + rewrite finite3_spec. split.
      * intros [H1 H2]. exists c, ex, ey, ez. auto.
      * intros (? & ? & ? & ? & [= <-] & [= <- <- <-] & H1 & H2). auto.
    + split; [intros [_ H]; discriminate|]. intros (? & ? & ? & ? & _ & H & _). discriminate.
  - split; [discriminate|]. intros (? & ? & ? & ? & H & _). discriminate.
Qed.

Lemma sconn_spec g i j : conn sview sconn g i j = true <-> seg_classes extrema threshold g i j.
Proof.
  unfold conn, V, sconn, seg_classes, same_object, extrema_close.
  destruct (gget g i) as [a|]; cbn; [|split; [discriminate|intros ((? & ? & H & _) & _); discriminate]].
  destruct (gget g j) as [b|]; cbn; [|split; [discriminate|intros ((? & ? & _ & H & _) & _); discriminate]].
  rewrite andb_true_iff, Z.eqb_eq.
  destruct (gget extrema i) as [[[ax ay] az]|];
    [|split; [intros [_ H]; discriminate|intros (_ & ? & ? & ? & ? & ? & ? & H & _); discriminate]].
  destruct (gget extrema j) as [[[bx by_] bz]|];
    [|split; [intros [_ H]; discriminate|intros (_ & ? & ? & ? & ? & ? & ? & _ & H & _); discriminate]].
  split.
  - intros [H1 H2]. split; [exists a, b; auto|]. exists ax, ay, az, bx, by_, bz. auto.
  - intros ((? & ? & [= <-] & [= <-] & H1) & ? & ? & ? & ? & ? & ? & [= <- <- <-] & [= <- <- <-] & H2). auto.
Qed.

Lemma tm_segment_labels m :
  gwf (tm_grid m) -> occs_ok t_occ (tm_grid m) -> g_total (tm_grid m) < 2 ^ 32 -> tm_seg_valid m = false ->
  exists m' n, tm_update_segments extrema threshold m = Some (m', n) /\ gwf (tm_grid m') /\
    same_cells (fun c => (t_occ c, t_obj c, t_comp c)) (tm_grid m') (tm_grid m) /\
    tm_num_segments m' = Some n /\ tm_valid m' = false /\
    is_labelling (segmented extrema (tm_grid m)) (seg_classes extrema threshold (tm_grid m)) (label t_seg (tm_grid m')) n /\
    (forall i, ~ segmented extrema (tm_grid m) i -> label t_seg (tm_grid m') i = 0).
Proof.
  intros W O Sm Hv. unfold tm_update_segments, tm_num_segments. rewrite Hv.
  destruct (label_ok tm_grid sput t_seg sview (seg_connected extrema threshold) (seg_component extrema) seg_mark
      sact sconn tF
      (fun _ _ => eq_refl) (fun _ _ => eq_refl) seg_mark_grid seg_mark_F seg_component_spec
      seg_connected_spec sconn_sym
      (tm_grid m) W (mkTmap (tm_grid m) (tm_n m) (tm_nseg m) (tm_valid m) false)) as (m' & n & E & L & _ & Lb);
    [assumption|split; [assumption|split; [apply same_dims_refl|reflexivity]]|].
  rewrite E. cbn. eexists _, _. split; [reflexivity|]. cbn. destruct L as (L & (F & _) & Z0).
  split; [apply L|]. split; [now apply LW0_same|]. split; [reflexivity|]. split; [exact F|]. split.
  - eapply is_labelling_ext; [| | |exact Lb].
    + intros a. unfold active. now apply sact_spec.
    + intros a b _ _. unfold connected. apply sconn_spec.
    + intros a Ha. unfold active in Ha. destruct (act_cell tm_grid sview sact _ m' a L Ha) as (c & Ec & Ac).
      unfold label. rewrite seg_component_spec, Ec, Ac. reflexivity.
  - intros i Hi. unfold label. destruct (gget (tm_grid m') i) as [c|] eqn:Ec; [|reflexivity].
    apply (Z0 i c Ec). destruct (sact i (sview c)) eqn:A; [|reflexivity]. exfalso. apply Hi.
    apply sact_spec; [assumption|]. now rewrite (act_view tm_grid sview sact _ m' i c L Ec).
Qed.
End Segments.

(** ** Histories *)

Definition tinv (past : list top) (s : tstate) : Prop :=
  let '(m, refs) := s in
  gwf (tm_grid m) /\ g_total (tm_grid m) < 2 ^ 32 /\ occs_ok t_occ (tm_grid m) /\
  (tm_valid m = true -> refs = [] /\ exists a, In (TUpdate a) past /\ right_components a m (tm_n m)) /\
  (tm_seg_valid m = true -> refs = [] /\ exists e th, In (TSegments e th) past /\ right_segments e th m (tm_nseg m)) /\
  ~ (tm_valid m = true /\ tm_seg_valid m = true).

Lemma tinv_past past o m refs : tinv past (m, refs) -> tinv (past ++ [o]) (m, refs).
Proof.
  intros (W & T & O & V1 & V2 & N). split; [assumption|]. split; [assumption|]. split; [assumption|].
  split; [|split; [|assumption]].
  - intros H. destruct (V1 H) as (R & a & Ha & L). split; [assumption|]. exists a. split; [apply in_or_app; now left|assumption].
  - intros H. destruct (V2 H) as (R & e & th & Ha & L). split; [assumption|]. exists e, th. split; [apply in_or_app; now left|assumption].
Qed.

Lemma tinv_gset past m i c (refs : list idx) n k v w : gwf (tm_grid m) -> g_total (tm_grid m) < 2 ^ 32 ->
  occs_ok t_occ (tm_grid m) -> is_occ (t_occ c) -> v <> true -> w <> true ->
  tinv past (mkTmap (gset (tm_grid m) i c) n k v w, refs).
Proof.
  intros W T O Oc F G. cbn. split; [now apply gset_wf|].
  split; [now rewrite (total_dims _ (tm_grid m) (gset_same_dims _ _ _))|].
  split; [now apply gset_occs|]. split; [|split]; intros H; exfalso.
  - now apply F.
  - now apply G.
  - apply F, H.
Qed.

Lemma classes_cells across (g h : grid tccell) i j : same_cells (fun c => (t_occ c, t_obj c, t_seg c)) g h ->
  (tm_classes across g i j <-> tm_classes across h i j).
Proof.
  intros H. apply tview_cells in H. destruct H as (H1 & H2 & _). unfold tm_classes.
  rewrite (same_side_cells t_occ g h i j H1).
  assert (E : same_object g i j <-> same_object h i j); [|rewrite E; reflexivity].
  assert (G : forall g h, same_cells t_obj g h -> same_object g i j -> same_object h i j).
  { clear. intros g h (_ & H) (a & b & Ea & Eb & E). pose proof (H i) as Hi. pose proof (H j) as Hj.
    rewrite Ea in Hi. rewrite Eb in Hj. destruct (gget h i) as [a'|] eqn:Ea'; [|discriminate].
    destruct (gget h j) as [b'|] eqn:Eb'; [|discriminate]. cbn in Hi, Hj. exists a', b'.
    split; [assumption|]. split; [assumption|]. congruence. }
  split; apply G; [assumption|]. destruct H2 as (D & H2). split; [now apply same_dims_sym|]. intros k. symmetry. apply H2.
Qed.

Lemma same_cells_sym {C D} (v : C -> D) g h : same_cells v g h -> same_cells v h g.
Proof. intros (Dm & H). split; [now apply same_dims_sym|]. intros k. symmetry. apply H. Qed.

Lemma same_cells_map {C D E} (v : C -> D) (f : D -> E) g h :
  same_cells v g h -> same_cells (fun c => f (v c)) g h.
Proof.
  intros (Dm & H). split; [assumption|]. intros k. specialize (H k).
  destruct (gget g k), (gget h k); cbn in *; try discriminate; [|reflexivity]. injection H as ->. reflexivity.
Qed.

Lemma segmented_cells e (g h : grid tccell) i : same_cells (fun c => (t_occ c, t_obj c, t_comp c)) g h ->
  segmented e g i -> segmented e h i.
Proof.
  intros (_ & H) (c & ex & ey & ez & Ec & Ee & Hc & Hf). specialize (H i). rewrite Ec in H.
  destruct (gget h i) as [d|] eqn:Ed; [|discriminate]. cbn in H. injection H as H1 H2 H3.
  exists d, ex, ey, ez. rewrite <- H1, <- H2. auto.
Qed.

Lemma seg_classes_cells e th (g h : grid tccell) i j : same_cells (fun c => (t_occ c, t_obj c, t_comp c)) g h ->
  seg_classes e th g i j -> seg_classes e th h i j.
Proof.
  intros (_ & H) ((a & b & Ea & Eb & E) & Hc). split; [|assumption].
  pose proof (H i) as Hi. pose proof (H j) as Hj.
  rewrite Ea in Hi. rewrite Eb in Hj. destruct (gget h i) as [a'|] eqn:Ea'; [|discriminate].
  destruct (gget h j) as [b'|] eqn:Eb'; [|discriminate]. cbn in Hi, Hj. exists a', b'.
  split; [assumption|]. split; [assumption|]. congruence.
Qed.

Lemma tstep_inv past s o : tinv past s -> t_careful s o -> exists s', tstep s o = Some s' /\ tinv (past ++ [o]) s'.
Proof.
  destruct s as [m refs]. intros I (Wr & Cf). pose proof I as (W & T & O & V1 & V2 & N).
  destruct o as [i c|i|k c| |k c|a|e th| |i]; cbn [tstep].
  - eexists. split; [reflexivity|]. unfold tm_set. destruct (in_bounds (tm_grid m) i).
    + now apply tinv_gset.
    + now apply tinv_past.
  - destruct (in_bounds (tm_grid m) i); (eexists; split; [reflexivity|]); [|now apply tinv_past].
    split; [assumption|]. split; [assumption|]. split; [assumption|]. split; [discriminate|].
    split; [discriminate|]. intros [H _]. discriminate.
  - destruct (nth_error refs k) as [i|] eqn:E; (eexists; split; [reflexivity|]); [|now apply tinv_past].
    apply tinv_gset; try assumption; intros H.
    + destruct (V1 H) as [-> _]. destruct k; discriminate.
    + destruct (V2 H) as [-> _]. destruct k; discriminate.
  - eexists. split; [reflexivity|]. apply tinv_past. split; [assumption|]. split; [assumption|]. split; [assumption|].
    split; [|split; [|assumption]]; intros H; (split; [reflexivity|]); [now apply V1|now apply V2].
  - destruct (zset (g_cells (tm_grid m)) k c) as [l|] eqn:E; (eexists; split; [reflexivity|]).
    + destruct (raw_set_index _ _ _ _ W E) as (i & ->). now apply tinv_gset.
    + split; [assumption|]. split; [assumption|]. split; [assumption|]. split; [discriminate|].
      split; [discriminate|]. intros [H _]. discriminate.
  - destruct (tm_valid m) eqn:Hv.
    + unfold tm_update. rewrite Hv. cbn. eexists. split; [reflexivity|]. apply tinv_past. cbn. rewrite Hv. tauto.
    + destruct (tm_update_labels a m W O T Hv) as (m' & n & E & W' & S & Nn & F & L). rewrite E. cbn.
      eexists. split; [reflexivity|]. split; [assumption|].
      split; [now rewrite (total_dims _ (tm_grid m)) by apply S|].
      split; [apply same_cells_occs with (tm_grid m); [|assumption]; now apply tview_cells|].
      split; [|split; [intros; congruence|intros [_ ?]; congruence]].
      intros Hv'. split; [exact Cf|]. exists a. split; [apply in_or_app; right; now left|].
      unfold tm_num_components in Nn. rewrite Hv' in Nn. injection Nn as Nn. unfold right_components. rewrite Nn.
      eapply is_labelling_ext; [| | |exact L].
      * intros x. apply in_grid_dims. apply same_dims_sym, S.
      * intros x y _ _. symmetry. now apply classes_cells.
      * reflexivity.
  - destruct Cf as (Cf & _). destruct (tm_seg_valid m) eqn:Hv.
    + unfold tm_update_segments. rewrite Hv. cbn. eexists. split; [reflexivity|]. apply tinv_past. cbn. rewrite Hv. tauto.
    + destruct (tm_segment_labels e th m W O T Hv) as (m' & n & E & W' & S & Nn & F & L & Z0). rewrite E. cbn.
      eexists. split; [reflexivity|]. split; [assumption|].
      split; [now rewrite (total_dims _ (tm_grid m)) by apply S|].
      split.
      { apply same_cells_occs with (tm_grid m); [|assumption].
        apply (same_cells_map _ (fun d => fst (fst d)) _ _ S). }
      split; [intros; congruence|]. split; [|intros [? _]; congruence].
      intros Hv'. split; [exact Cf|]. exists e, th. split; [apply in_or_app; right; now left|].
      unfold tm_num_segments in Nn. rewrite Hv' in Nn. injection Nn as Nn. unfold right_segments. rewrite Nn.
      pose proof (same_cells_sym _ _ _ S) as S'. split.
      * eapply is_labelling_ext; [| | |exact L].
        -- intros x. split; now apply segmented_cells.
        -- intros x y _ _. split; now apply seg_classes_cells.
        -- reflexivity.
      * intros i Hi. apply Z0. intros H. apply Hi. now apply (segmented_cells e (tm_grid m)).
  - eexists. split; [reflexivity|]. split; [assumption|]. split; [assumption|]. split; [assumption|]. split; [discriminate|].
    split; [discriminate|]. intros [H _]. discriminate.
  - eexists. split; [reflexivity|]. now apply tinv_past.
Qed.

Lemma trun_inv ops : forall past s, tinv past s -> all_along tstep t_careful s ops ->
  exists s', trun s ops = Some s' /\ tinv (past ++ ops) s'.
Proof.
  induction ops as [|o ops IH]; intros past s I A; cbn [trun].
  - exists s. split; [reflexivity|]. now rewrite app_nil_r.
  - destruct A as [Ho A]. destruct (tstep_inv past s o I Ho) as (s1 & E & I1). rewrite E. cbn [obind].
    destruct (IH (past ++ [o]) s1 I1 (A s1 E)) as (s' & E' & I'). exists s'. split; [assumption|].
    rewrite <- app_assoc in I'. exact I'.
Qed.

Lemma tm_construct_inv nx ny nz d : 0 < nx -> 0 < ny -> 0 < nz -> nx * ny * nz < 2 ^ 32 -> is_occ (t_occ d) ->
  tinv [] (tm_construct nx ny nz d, []).
Proof.
  intros Hx Hy Hz T O. cbn. split; [now apply gconst_wf|]. split; [exact T|]. split.
  - intros i c. rewrite gget_gconst. destruct (in_bounds3 nx ny nz i); [intros [= <-]; assumption|discriminate].
  - split; [discriminate|]. split; [discriminate|]. intros [H _]. discriminate.
Qed.

Lemma tagged_history nx ny nz d ops :
  0 < nx -> 0 < ny -> 0 < nz -> nx * ny * nz < 2 ^ 32 -> is_occ (t_occ d) ->
  all_along tstep t_careful (tm_construct nx ny nz d, []) ops ->
  exists m refs, trun (tm_construct nx ny nz d, []) ops = Some (m, refs) /\ tinv ops (m, refs).
Proof.
  intros Hx Hy Hz T O A.
  destruct (trun_inv ops [] _ (tm_construct_inv nx ny nz d Hx Hy Hz T O) A) as ([m refs] & E & I).
  exists m, refs. now split.
Qed.
