(** Casting rays in an arbitrary arithmetic. *)
From Coq Require Import ZArith List Bool Lia ZifyBool Permutation.
From Verif Require Import Util Grid ComponentSpec Schedule RaycastModel RaycastSpec.
Import ListNotations.
Local Open Scope Z_scope.

(** ** One ray *)

Definition manhattan (i j : idx) : Z :=
  Z.abs (ix i - ix j) + Z.abs (iy i - iy j) + Z.abs (iz i - iz j).

Lemma step_of_toward (a b c : Z) :
  Z.min a b <= c <= Z.max a b -> c <> b ->
  Z.abs (c + step_of (b - a) - b) = Z.abs (c - b) - 1 /\
  Z.min a b <= c + step_of (b - a) <= Z.max a b /\ Z.abs (step_of (b - a)) = 1.
Proof. unfold step_of. destruct (0 <? b - a) eqn:E1; [|destruct (b - a <? 0) eqn:E2]; lia. Qed.

Section Walk.
Variable A : ray_arith.
Variable g : ray_grid A.
Variable (r : vec A) (si fi : idx).

Let step : idx := (step_of (ix fi - ix si), step_of (iy fi - iy si), step_of (iz fi - iz si)).

Lemma walk_props fuel : forall cur tx ty tz,
  in_index_box si fi cur -> (Z.to_nat (manhattan cur fi) < fuel)%nat ->
  exists path, walk A g fuel r step fi cur tx ty tz = Some path /\
    starts_at cur path /\ face_chain path /\
    (forall i, In i path -> in_grid A g i = true /\ in_index_box si fi i /\ i <> fi /\
                            manhattan i fi <= manhattan cur fi) /\
    NoDup path.
Proof using.
  induction fuel as [|fuel IH]; intros cur tx ty tz Hbox Hf; [lia|].
  cbn [walk]. destruct (idx_eqb cur fi) eqn:Ec.
  { exists []. cbn. repeat split; try easy. constructor. }
  apply idx_eqb_neq in Ec.
  destruct (in_grid A g cur) eqn:Eg; [|exists []; cbn; repeat split; try easy; constructor].
  assert (Hstop : exists path, Some [cur] = Some path /\
    starts_at cur path /\ face_chain path /\
    (forall i, In i path -> in_grid A g i = true /\ in_index_box si fi i /\ i <> fi /\
                            manhattan i fi <= manhattan cur fi) /\ NoDup path).
  { exists [cur]. split; [easy|]. split; [easy|]. split; [easy|]. split.
    - intros i [<-|[]]. split; [easy|]. split; [easy|]. split; [easy|lia].
    - constructor; [easy|constructor]. }
  assert (Hgo : forall nxt o, share_face cur nxt -> in_index_box si fi nxt ->
    manhattan nxt fi = manhattan cur fi - 1 ->
    (exists path, o = Some path /\
      starts_at nxt path /\ face_chain path /\
      (forall i, In i path -> in_grid A g i = true /\ in_index_box si fi i /\ i <> fi /\
                              manhattan i fi <= manhattan nxt fi) /\ NoDup path) ->
    exists path, (let* rest := o in Some (cur :: rest)) = Some path /\
    starts_at cur path /\ face_chain path /\
    (forall i, In i path -> in_grid A g i = true /\ in_index_box si fi i /\ i <> fi /\
                            manhattan i fi <= manhattan cur fi) /\ NoDup path).
  { intros nxt o Hs Hb Hm (path & -> & Hst & Hch & Hin & Hnd).
    exists (cur :: path). cbn [obind]. split; [easy|]. split; [easy|]. split.
    { cbn [face_chain]. split; [|easy]. destruct path as [|j p]; [easy|].
      cbn in Hst. now subst j. }
    split.
    - intros i [<-|Hi]; [split; [easy|]; split; [easy|]; split; [easy|lia]|].
      destruct (Hin i Hi) as (H1 & H2 & H3 & H4). split; [easy|]. split; [easy|]. split; [easy|lia].
    - constructor; [|easy]. intros Hi. destruct (Hin _ Hi) as (_ & _ & _ & H). lia. }
  destruct Hbox as (Hbx & Hby & Hbz).
  destruct cur as [[cx cy] cz]. cbn [ix iy iz fst snd] in *.
  destruct (r_leb A tx ty && r_leb A tx tz).
  { destruct (cx =? ix fi) eqn:Ex; [apply Hstop|].
    destruct (step_of_toward (ix si) (ix fi) cx Hbx ltac:(lia)) as (H1 & H2 & H3).
    apply (Hgo (cx + ix step, cy, cz)).
    - unfold share_face, step. cbn [ix iy iz fst snd]. lia.
    - unfold in_index_box, step. cbn [ix iy iz fst snd]. lia.
    - unfold manhattan, step. cbn [ix iy iz fst snd]. lia.
    - apply IH; unfold in_index_box, manhattan, step in *; cbn [ix iy iz fst snd] in *; lia. }
  destruct (r_leb A ty tx && r_leb A ty tz).
  { destruct (cy =? iy fi) eqn:Ex; [apply Hstop|].
    destruct (step_of_toward (iy si) (iy fi) cy Hby ltac:(lia)) as (H1 & H2 & H3).
    apply (Hgo (cx, cy + iy step, cz)).
    - unfold share_face, step. cbn [ix iy iz fst snd]. lia.
    - unfold in_index_box, step. cbn [ix iy iz fst snd]. lia.
    - unfold manhattan, step. cbn [ix iy iz fst snd]. lia.
    - apply IH; unfold in_index_box, manhattan, step in *; cbn [ix iy iz fst snd] in *; lia. }
  destruct (cz =? iz fi) eqn:Ex; [apply Hstop|].
  destruct (step_of_toward (iz si) (iz fi) cz Hbz ltac:(lia)) as (H1 & H2 & H3).
  apply (Hgo (cx, cy, cz + iz step)).
  - unfold share_face, step. cbn [ix iy iz fst snd]. lia.
  - unfold in_index_box, step. cbn [ix iy iz fst snd]. lia.
  - unfold manhattan, step. cbn [ix iy iz fst snd]. lia.
  - apply IH; unfold in_index_box, manhattan, step in *; cbn [ix iy iz fst snd] in *; lia.
Qed.

End Walk.

Definition ray_outcome (A : ray_arith) (g : ray_grid A) (m : rT A) (o p : vec A) (first : idx)
    (path : list idx) (bs : list bump) : Prop :=
  let last := voxel_of A g (final_point A m o p) in
  bs = (if in_grid A g last then [(last, negb (is_clipped A m (ray_of A o p)))] else []) ++
       map (fun i => (i, false)) path /\
  starts_at first path /\ face_chain path /\
  (forall i, In i path -> in_grid A g i = true /\ in_index_box first last i /\ i <> last) /\
  NoDup (map fst bs).

Lemma map_fst_free (path : list idx) : map fst (map (fun i => (i, false)) path) = path.
Proof. rewrite map_map. cbn. apply map_id. Qed.

Lemma cast_point_props A (g : ray_grid A) m o oi p :
  (start_point A g m o oi (ray_of A o p) = None /\ cast_point A g m o oi p = Some []) \/
  exists ps path bs, start_point A g m o oi (ray_of A o p) = Some ps /\
    cast_point A g m o oi p = Some bs /\ ray_outcome A g m o p (voxel_of A g ps) path bs.
Proof.
  unfold cast_point. destruct (start_point A g m o oi (ray_of A o p)) as [ps|]; [right|now left].
  set (si := voxel_of A g ps). set (fi := voxel_of A g (final_point A m o p)).
  destruct (walk_props A g (ray_of A o p) si fi (walk_fuel si fi) si
    (first_t A g (vx A ps) (vx A (ray_of A o p)) (ix si))
    (first_t A g (vy A ps) (vy A (ray_of A o p)) (iy si))
    (first_t A g (vz A ps) (vz A (ray_of A o p)) (iz si))) as (path & -> & Hs & Hc & Hin & Hnd).
  { unfold in_index_box. lia. }
  { unfold walk_fuel, manhattan. lia. }
  cbn [obind]. exists ps, path.
  eexists. split; [easy|]. split; [reflexivity|].
  unfold ray_outcome. fold fi. split; [easy|]. split; [easy|]. split; [easy|]. split.
  { intros i Hi. destruct (Hin i Hi) as (H1 & H2 & H3 & _). auto. }
  rewrite map_app, map_fst_free. destruct (in_grid A g fi); cbn [map app fst]; [|easy].
  constructor; [|easy]. intros Hi. destruct (Hin _ Hi) as (_ & _ & H & _). now apply H.
Qed.

Lemma cast_point_some A (g : ray_grid A) m o oi p :
  exists bs, cast_point A g m o oi p = Some bs /\ NoDup (map fst bs) /\
    forall b, In b bs -> in_grid A g (fst b) = true.
Proof.
  destruct (cast_point_props A g m o oi p) as [[_ E]|(ps & path & bs & _ & E & H)].
  - exists []. rewrite E. split; [easy|]. split; [constructor|easy].
  - exists bs. split; [easy|]. destruct H as (Hb & _ & _ & Hin & Hnd). split; [easy|].
    intros b Hbin. rewrite Hb in Hbin. apply in_app_or in Hbin. destruct Hbin as [Hl|Hp].
    + destruct (in_grid A g (voxel_of A g (final_point A m o p))) eqn:E'; [|easy].
      destruct Hl as [<-|[]]. exact E'.
    + apply in_map_iff in Hp. destruct Hp as (i & <- & Hi). now apply Hin.
Qed.

(** ** A cloud *)

Lemma bump_eqb_eq a b : bump_eqb a b = true <-> a = b.
Proof.
  unfold bump_eqb. rewrite andb_true_iff, idx_eqb_eq, eqb_true_iff.
  destruct a, b; cbn. split; [intros [-> ->]; easy|intros H; now inversion H].
Qed.

Definition occurs (b : bump) (l : list bump) : Z := zlen (filter (bump_eqb b) l).

Lemma occurs_app b l1 l2 : occurs b (l1 ++ l2) = occurs b l1 + occurs b l2.
Proof. unfold occurs, zlen. rewrite filter_app, app_length. lia. Qed.

Lemma occurs_cons b a l : occurs b (a :: l) = (if bump_eqb b a then 1 else 0) + occurs b l.
Proof. unfold occurs, zlen. cbn [filter]. destruct (bump_eqb b a); cbn [length]; lia. Qed.

Lemma occurs_nonneg b l : 0 <= occurs b l.
Proof. unfold occurs, zlen. lia. Qed.

Lemma occurs_once b l : NoDup l -> occurs b l = if existsb (bump_eqb b) l then 1 else 0.
Proof.
  induction 1 as [|a l Hn Hd IH]; [easy|].
  rewrite occurs_cons, IH. cbn [existsb]. destruct (bump_eqb b a) eqn:E; cbn [orb]; [|lia].
  apply bump_eqb_eq in E. subst a.
  destruct (existsb (bump_eqb b) l) eqn:E2; [|lia].
  apply existsb_exists in E2. destruct E2 as (x & Hx & Hb). apply bump_eqb_eq in Hb. now subst.
Qed.

Lemma NoDup_map_fst {X Y} (l : list (X * Y)) : NoDup (map fst l) -> NoDup l.
Proof. apply NoDup_map_inv. Qed.

Section Cloud.
Variable A : ray_arith.
Variable g : ray_grid A.
Variable c : cloud A.
Let n := zlen (c_points A c).

Lemma point_work_some k : 0 <= k < n ->
  exists w, point_work A g c k = Some w /\ NoDup (map fst w) /\
    forall b, In b w -> in_grid A g (fst b) = true.
Proof using.
  intros Hk. unfold point_work. destruct (proj2 (zget_some_iff (c_points A c) k) Hk) as (p & ->). cbn [obind].
  destruct (vfinite A p); [apply cast_point_some|].
  exists []. split; [easy|]. split; [constructor|easy].
Qed.

Definition hits (b : bump) (k : Z) : bool :=
  match point_work A g c k with Some w => existsb (bump_eqb b) w | None => false end.

Lemma thread_work_some ks : (forall k, In k ks -> 0 <= k < n) ->
  exists w, thread_work A g c ks = Some w /\ (forall b, In b w -> in_grid A g (fst b) = true) /\
    forall b, occurs b w = zlen (filter (hits b) ks).
Proof using.
  induction ks as [|k ks IH]; intros H.
  { exists []. split; [easy|]. split; [easy|]. intros b. reflexivity. }
  destruct (point_work_some k) as (w & E & Hnd & Hin); [apply H; now left|].
  destruct IH as (ws & Es & Hs & Ho); [intros; apply H; now right|].
  exists (w ++ ws). cbn [thread_work]. rewrite E. cbn [obind]. rewrite Es. cbn [obind].
  split; [easy|]. split.
  - intros b Hb. apply in_app_or in Hb. destruct Hb; auto.
  - intros b. rewrite occurs_app, Ho, (occurs_once b w) by now apply NoDup_map_fst.
    unfold zlen. cbn [filter].
    assert (hits b k = existsb (bump_eqb b) w) as -> by (unfold hits; now rewrite E).
    destruct (existsb (bump_eqb b) w); cbn [length]; lia.
Qed.

Lemma cloud_threads_some sched : (forall k, In k (concat sched) -> 0 <= k < n) ->
  exists ws, cloud_threads A g c sched = Some ws /\
    (forall b, In b (concat ws) -> in_grid A g (fst b) = true) /\
    forall b, occurs b (concat ws) = zlen (filter (hits b) (concat sched)).
Proof using.
  induction sched as [|ks sched IH]; intros H.
  { exists []. split; [easy|]. split; [easy|]. intros b. reflexivity. }
  cbn [concat] in H.
  destruct (thread_work_some ks) as (w & E & Hin & Ho); [intros; apply H, in_or_app; now left|].
  destruct IH as (ws & Es & Hs & Hos); [intros; apply H, in_or_app; now right|].
  exists (w :: ws). cbn [cloud_threads]. rewrite E. cbn [obind]. rewrite Es. cbn [obind concat].
  split; [easy|]. split.
  - intros b Hb. apply in_app_or in Hb. destruct Hb; auto.
  - intros b. rewrite occurs_app, Ho, Hos, filter_app. unfold zlen. rewrite app_length. lia.
Qed.

Lemma filter_perm_length {X} (f : X -> bool) l l' :
  Permutation l l' -> length (filter f l) = length (filter f l').
Proof.
  induction 1 as [|x l l' _ IH|x y l|]; cbn [filter].
  - easy.
  - destruct (f x); cbn [length]; lia.
  - destruct (f x), (f y); cbn [length]; lia.
  - congruence.
Qed.

Lemma scheduled_threads sched : schedules sched n ->
  exists ws, cloud_threads A g c sched = Some ws /\
    (forall b, In b (concat ws) -> in_grid A g (fst b) = true) /\
    forall b, occurs b (concat ws) = points_counting A g c b.
Proof using.
  intros Hs. destruct (cloud_threads_some sched) as (ws & E & Hin & Ho).
  { intros k Hk. apply in_zrange. now apply (Permutation_in k Hs). }
  exists ws. split; [easy|]. split; [easy|]. intros b. rewrite Ho. unfold points_counting, zlen.
  f_equal. apply (filter_perm_length (hits b)), Hs.
Qed.

End Cloud.

(** ** Interleavings *)

Lemma wrap32_add_wrap a b : wrap32 (wrap32 a + b) = wrap32 (a + b).
Proof.
  unfold wrap32. f_equal.
  replace ((a + 2 ^ 31) mod 2 ^ 32 - 2 ^ 31 + b + 2 ^ 31) with ((a + 2 ^ 31) mod 2 ^ 32 + b) by lia.
  rewrite Zplus_mod_idemp_l. f_equal. lia.
Qed.

Lemma wrap32_idem a : wrap32 (wrap32 a) = wrap32 a.
Proof. pose proof (wrap32_add_wrap a 0) as H. now rewrite !Z.add_0_r in H. Qed.

Lemma wrap32_id a : - 2 ^ 31 <= a < 2 ^ 31 -> wrap32 a = a.
Proof. intros H. unfold wrap32. rewrite Z.mod_small; lia. Qed.

Definition pending (b : bump) (ws : list (list bump)) : Z := occurs b (concat ws).

(** What the counters of [t] become once all of [ws] has been performed. *)
Definition will_be (ws : list (list bump)) (t : tgrid) (i : idx) : option (Z * Z) :=
  let* c := gget t i in
  Some (wrap32 (fst c + pending (i, false) ws), wrap32 (snd c + pending (i, true) ws)).

Lemma pending_step b l1 x k l2 :
  pending b (l1 ++ (x :: k) :: l2) = (if bump_eqb b x then 1 else 0) + pending b (l1 ++ k :: l2).
Proof.
  unfold pending. rewrite !concat_app. cbn [concat app]. rewrite !occurs_app, occurs_cons, occurs_app. lia.
Qed.

Lemma bump_eqb_diff i b j c :
  bump_eqb (i, b) (j, c) = idx_eqb i j && Bool.eqb b c.
Proof. reflexivity. Qed.

Lemma do_bump_spec t b t' : gwf t -> do_bump t b = Some t' ->
  gwf t' /\ same_dims t' t /\ exists c, gget t (fst b) = Some c /\
  t' = gset t (fst b) (if snd b then (fst c, wrap32 (snd c + 1)) else (wrap32 (fst c + 1), snd c)).
Proof.
  unfold do_bump. intros Hw E. destruct (gget t (fst b)) as [c|] eqn:Ec; [|easy].
  cbn [obind] in E. assert (t' = _) as -> by (symmetry; injection E as E; exact E).
  split; [now apply gset_wf|]. split; [apply gset_same_dims|]. now exists c.
Qed.

Lemma tstep_will_be ws t ws' t' : gwf t -> tstep (ws, t) (ws', t') ->
  gwf t' /\ same_dims t' t /\ (forall i, will_be ws' t' i = will_be ws t i) /\
  (length (concat ws') < length (concat ws))%nat.
Proof.
  intros Hw H. inversion H as [l1 b k l2 t0 t1 E Ea Eb]; subst.
  destruct (do_bump_spec t b t' Hw E) as (Hw' & Hd & c & Ec & ->).
  split; [easy|]. split; [easy|]. split.
  - intros i. unfold will_be. rewrite !pending_step. rewrite gget_gset by easy.
    pose proof (gget_in_bounds _ _ _ Ec) as Hib.
    destruct (idx_eqb i (fst b)) eqn:Ei.
    + apply idx_eqb_eq in Ei. subst i. rewrite Hib, Ec. cbn [obind andb].
      destruct b as [i s]. cbn [fst snd]. rewrite !bump_eqb_diff, idx_eqb_refl.
      generalize (pending (i, true) (l1 ++ k :: l2)) (pending (i, false) (l1 ++ k :: l2)).
      intros m n. destruct c as [f q].
      destruct s; cbn [fst snd andb Bool.eqb]; rewrite wrap32_add_wrap, !Z.add_assoc, !Z.add_0_r; reflexivity.
    + rewrite andb_false_r.
      destruct (gget t i) as [[f s]|]; [|easy]. cbn [obind fst snd].
      destruct b as [j d]. cbn [fst] in Ei. rewrite !bump_eqb_diff.
      now rewrite Ei.
  - rewrite !concat_app, !app_length. cbn [concat]. rewrite !app_length. cbn [length]. lia.
Qed.

Lemma tsteps_will_be s s' : tsteps s s' -> gwf (snd s) ->
  gwf (snd s') /\ same_dims (snd s') (snd s) /\
  (forall i, will_be (fst s') (snd s') i = will_be (fst s) (snd s) i).
Proof.
  induction 1 as [s|[ws t] [ws' t'] s3 H _ IH]; intros Hw.
  { split; [easy|]. split; [apply same_dims_refl|easy]. }
  destruct (tstep_will_be _ _ _ _ Hw H) as (Hw' & Hd & He & _). cbn [fst snd] in *.
  destruct (IH Hw') as (H1 & H2 & H3). split; [easy|]. split.
  - eapply same_dims_trans; eauto.
  - intros i. now rewrite H3, He.
Qed.

Lemma all_done_concat ws : all_done ws -> concat ws = [].
Proof. induction 1 as [|w ws -> _ IH]; [easy|]. exact IH. Qed.

(** Increments never fall outside the grid, so some thread can always go on. *)
Lemma tprogress ws t : gwf t -> (forall b, In b (concat ws) -> in_bounds t (fst b) = true) ->
  all_done ws \/ exists s, tstep (ws, t) s.
Proof.
  intros Hw. induction ws as [|w ws IH]; intros Hin; [left; constructor|].
  destruct w as [|b k].
  - destruct IH as [H|[[ws' t'] H]].
    + intros b Hb. now apply Hin.
    + left. now constructor.
    + right. inversion H as [l1 x kk l2 t0 t1 E Ea Eb]; subst.
      exists (([] :: l1) ++ kk :: l2, t'). now apply (tstep_bump ([] :: l1)).
  - right. destruct (gget_some t (fst b) Hw) as (c & Ec).
    { apply Hin. now left. }
    eexists. apply (tstep_bump [] b k ws). unfold do_bump. rewrite Ec. cbn [obind]. reflexivity.
Qed.

Lemma tstep_subset ws t ws' t' : tstep (ws, t) (ws', t') ->
  forall b, In b (concat ws') -> In b (concat ws).
Proof.
  intros H. inversion H; subst. intros x. rewrite !concat_app, !in_app_iff. cbn [concat].
  rewrite !in_app_iff. cbn [In]. tauto.
Qed.

Lemma tsteps_subset s s' : tsteps s s' -> forall b, In b (concat (fst s')) -> In b (concat (fst s)).
Proof.
  induction 1 as [|[ws t] [ws' t'] s3 H _ IH]; [easy|]. intros b Hb.
  apply (tstep_subset _ _ _ _ H), IH, Hb.
Qed.

Lemma tcomplete : forall m ws t, (length (concat ws) < m)%nat ->
  gwf t -> (forall b, In b (concat ws) -> in_bounds t (fst b) = true) ->
  exists ws' t', tsteps (ws, t) (ws', t') /\ all_done ws'.
Proof.
  induction m as [|m IH]; [lia|]. intros ws t Hm Hw Hin.
  destruct (tprogress ws t Hw Hin) as [H|[[ws1 t1] H]].
  - exists ws, t. split; [constructor|easy].
  - destruct (tstep_will_be _ _ _ _ Hw H) as (Hw1 & Hd & _ & Hl).
    destruct (IH ws1 t1) as (ws' & t' & Hs & Hdone);
      [exact (Nat.lt_le_trans _ _ _ Hl (proj1 (Nat.lt_succ_r _ _) Hm))|easy| |].
    + intros b Hb. rewrite (in_bounds_dims t1 t _ Hd). apply Hin, (tstep_subset _ _ _ _ H), Hb.
    + exists ws', t'. split; [econstructor; eauto|easy].
Qed.

Lemma tracking_in_bounds {A} (g : ray_grid A) t i :
  tracking_for g t -> in_grid A g i = in_bounds t i.
Proof. intros (_ & E1 & E2 & E3 & _). unfold in_grid, in_bounds. now rewrite E1, E2, E3. Qed.

(** The result of a complete execution. *)
Lemma raycast_cloud_result A (g : ray_grid A) c t t' :
  tracking_for g t -> raycast_cloud A g c t t' ->
  tracking_for g t' /\ forall i f s, gget t i = Some (f, s) ->
    gget t' i = Some (wrap32 (f + points_counting A g c (i, false)),
                      wrap32 (s + points_counting A g c (i, true))).
Proof.
  intros Ht (sched & ws & ws' & Hs & Hw & Hst & Hd).
  destruct (scheduled_threads A g c sched Hs) as (ws0 & E & Hin & Ho).
  rewrite E in Hw. injection Hw as <-.
  pose proof Ht as Ht0. destruct Ht as (Hwf & Hx & Hy & Hz & Hr).
  destruct (tsteps_will_be _ _ Hst Hwf) as (Hwf' & Hdim & He). cbn [fst snd] in *.
  pose proof (all_done_concat _ Hd) as Hnil.
  assert (Hval : forall i f s, gget t i = Some (f, s) -> exists f' s', gget t' i = Some (f', s')).
  { intros i f s Hi. destruct (gget_some t' i Hwf') as ([f' s'] & E').
    - rewrite (in_bounds_dims t' t _ Hdim). eapply gget_in_bounds; eauto.
    - eauto. }
  (* the counters stay 32 bit values *)
  assert (Hrange : forall s s', tsteps s s' ->
    (forall i f q, gget (snd s) i = Some (f, q) -> wrap32 f = f /\ wrap32 q = q) ->
    gwf (snd s) -> forall i f q, gget (snd s') i = Some (f, q) -> wrap32 f = f /\ wrap32 q = q).
  { clear. induction 1 as [|[ws t] [ws' t'] s3 H _ IH]; [easy|]. intros Hr Hw. cbn [fst snd] in *.
    destruct (tstep_will_be _ _ _ _ Hw H) as (Hw1 & Hd & _ & _).
    apply IH; [|easy]. intros i f q Hi.
    inversion H as [l1 b k l2 t0 t1 E Ea Eb]; subst.
    destruct (do_bump_spec t b t' Hw E) as (_ & _ & [cf cs] & Ec & ->).
    rewrite gget_gset in Hi by easy.
    destruct (_ && _) in Hi.
    - destruct (snd b); cbn [fst snd] in Hi; injection Hi as <- <-;
        rewrite ?wrap32_idem; destruct (Hr _ _ _ Ec); auto.
    - eapply Hr; eauto. }
  split.
  { destruct Hdim as (D1 & D2 & D3). split; [easy|]. split; [congruence|]. split; [congruence|].
    split; [congruence|]. intros i f s Hi. eapply (Hrange _ _ Hst); cbn [snd]; eauto. }
  intros i f s Hi. destruct (Hval i f s Hi) as (f' & s' & Ei').
  specialize (He i). unfold will_be in He. rewrite Hi, Ei' in He. cbn [obind fst snd] in He.
  unfold pending in He. rewrite Hnil, !Ho in He. unfold occurs, zlen in He. cbn [filter length] in He.
  change (Z.of_nat 0) with 0 in He. rewrite !Z.add_0_r in He.
  destruct (Hrange _ _ Hst Hr Hwf i f' s' Ei') as (R1 & R2).
  injection He as H1 H2. rewrite Ei', <- H1, <- H2, R1, R2. reflexivity.
Qed.

Lemma raycast_cloud_unique A (g : ray_grid A) c t t1 t2 :
  tracking_for g t -> raycast_cloud A g c t t1 -> raycast_cloud A g c t t2 -> t1 = t2.
Proof.
  intros Ht H1 H2.
  destruct (raycast_cloud_result A g c t t1 Ht H1) as ((W1 & X1 & Y1 & Z1 & _) & V1).
  destruct (raycast_cloud_result A g c t t2 Ht H2) as ((W2 & X2 & Y2 & Z2 & _) & V2).
  apply grid_ext; [easy|easy|split; [congruence|split; congruence]|].
  intros i Hi. destruct Ht as (W & X & Y & Zz & _).
  destruct (gget_some t i W) as ([f s] & Ei).
  { rewrite <- Hi. apply in_bounds_dims. split; [congruence|split; congruence]. }
  now rewrite (V1 i f s Ei), (V2 i f s Ei).
Qed.

Lemma raycast_cloud_finishes A (g : ray_grid A) c t sched :
  tracking_for g t -> schedules sched (zlen (c_points A c)) ->
  exists ws, cloud_threads A g c sched = Some ws /\
    forall s, tsteps (ws, t) s -> exists ws' t', tsteps s (ws', t') /\ all_done ws'.
Proof.
  intros Ht Hs. destruct (scheduled_threads A g c sched Hs) as (ws & E & Hin & Ho).
  exists ws. split; [easy|]. intros [ws1 t1] Hst.
  destruct (tsteps_will_be _ _ Hst) as (Hw & Hd & _); [apply Ht|]. cbn [fst snd] in *.
  apply (tcomplete (S (length (concat ws1)))); [apply Nat.lt_succ_diag_r|easy|].
  intros b Hb. rewrite (in_bounds_dims t1 t _ Hd), <- (tracking_in_bounds g) by easy.
  apply Hin. apply (tsteps_subset _ _ Hst _ Hb).
Qed.

Lemma tsteps_trans s1 s2 s3 : tsteps s1 s2 -> tsteps s2 s3 -> tsteps s1 s3.
Proof. induction 1; [easy|]. intros. econstructor; eauto. Qed.

(** ** Non-finite points *)

Definition keep_finite {A} (c : cloud A) : cloud A :=
  mkCloud A (filter (vfinite A) (c_points A c)) (c_to_grid A c) (c_max_range A c).

Lemma points_counting_list A (g : ray_grid A) c b :
  points_counting A g c b =
  zlen (filter (fun p => vfinite A p &&
    match cast_point A g (c_max_range A c) (c_origin A c) (voxel_of A g (c_origin A c)) (c_to_grid A c p)
    with Some w => existsb (bump_eqb b) w | None => false end) (c_points A c)).
Proof.
  unfold points_counting.
  set (f := fun p : vec A => _).
  assert (H : forall l1 l2, c_points A c = l1 ++ l2 ->
    zlen (filter (fun k => match point_work A g c k with
                  | Some w => existsb (bump_eqb b) w | None => false end)
          (zrange (zlen l1) (zlen (c_points A c)))) = zlen (filter f l2)).
  { intros l1 l2. revert l1. induction l2 as [|p l2 IH]; intros l1 E.
    - rewrite E, app_nil_r, zrange_nil by lia. reflexivity.
    - assert (Hlt : zlen l1 < zlen (c_points A c)).
      { rewrite E. unfold zlen. rewrite app_length. cbn [length]. lia. }
      rewrite (zrange_cons _ _ Hlt).
      specialize (IH (l1 ++ [p])). rewrite <- app_assoc in IH. specialize (IH E).
      assert (zlen (l1 ++ [p]) = zlen l1 + 1) as El.
      { unfold zlen. rewrite app_length. cbn [length]. lia. }
      rewrite El in IH. cbn [filter].
      assert (Ek : zget (c_points A c) (zlen l1) = Some p).
      { unfold zget, zlen. destruct (Z.of_nat (length l1) <? 0) eqn:Eq; [lia|].
        rewrite Nat2Z.id, E, nth_error_app2, Nat.sub_diag by lia. reflexivity. }
      assert (Eh : match point_work A g c (zlen l1) with
                   | Some w => existsb (bump_eqb b) w | None => false end = f p).
      { unfold point_work. rewrite Ek. cbn [obind]. unfold f.
        destruct (vfinite A p); cbn [andb]; [|reflexivity]. easy. }
      rewrite Eh. destruct (f p); unfold zlen in *; cbn [length]; lia. }
  apply (H []). reflexivity.
Qed.

Lemma filter_filter_and {X} (f h : X -> bool) l : filter (fun x => f x && h x) (filter f l) = filter (fun x => f x && h x) l.
Proof.
  induction l as [|x l IH]; [easy|]. cbn [filter]. destruct (f x) eqn:E; cbn [filter andb]; rewrite ?E; cbn [andb].
  - destruct (h x); now rewrite IH.
  - exact IH.
Qed.

Lemma keep_finite_counts A (g : ray_grid A) c b :
  points_counting A g (keep_finite c) b = points_counting A g c b.
Proof.
  rewrite !points_counting_list. cbn [keep_finite c_points c_max_range c_to_grid].
  unfold c_origin. cbn [c_to_grid]. now rewrite filter_filter_and.
Qed.
