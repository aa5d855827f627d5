(** Filtering: the sequential result, every interleaving, and device memory. *)
From Coq Require Import ZArith Reals List Lia Bool ZifyBool Permutation.
From Flocq Require Import Core BinarySingleNaN.
From Verif Require Import Util Grid Prog Schedule FloatModel Occ RaycastModel RaycastSpec
  RaycastProofs FilterModel FilterSpec FilterFloatProofs.
Import ListNotations.
Local Open Scope Z_scope.

(** ** Data indices *)

Lemma cell_at_spec nx ny nz k : 0 < ny -> 0 < nz -> 0 <= k < nx * ny * nz ->
  in_bounds3 nx ny nz (cell_at ny nz k) = true /\ data_index3 ny nz (cell_at ny nz k) = k.
Proof.
  intros Hy Hz Hk. unfold cell_at.
  rewrite in_bounds3_iff. unfold data_index3, ix, iy, iz; cbn.
  assert (E1 : k = nz * (k / nz) + k mod nz) by (apply Z.div_mod; lia).
  assert (E2 : k / nz = ny * (k / nz / ny) + (k / nz) mod ny) by (apply Z.div_mod; lia).
  assert (B1 : 0 <= k mod nz < nz) by (apply Z.mod_pos_bound; lia).
  assert (B2 : 0 <= (k / nz) mod ny < ny) by (apply Z.mod_pos_bound; lia).
  assert (B3 : 0 <= k / nz) by (apply Z.div_pos; lia).
  assert (B4 : 0 <= k / nz / ny) by (apply Z.div_pos; lia).
  assert (B5 : k / nz < nx * ny) by (apply Z.div_lt_upper_bound; nia).
  assert (B6 : k / nz / ny < nx) by (apply Z.div_lt_upper_bound; lia).
  split; [lia|nia].
Qed.

Lemma cell_at_index nx ny nz i : 0 < ny -> 0 < nz -> in_bounds3 nx ny nz i = true ->
  cell_at ny nz (data_index3 ny nz i) = i.
Proof.
  intros Hy Hz Hi. pose proof (data_index3_range nx ny nz i Hi) as Hr.
  destruct (cell_at_spec nx ny nz (data_index3 ny nz i) Hy Hz Hr) as (H1 & H2).
  now apply (data_index3_inj nx ny nz).
Qed.

Lemma gget_cell_at {V} (g : grid V) k : gwf g -> 0 <= k < g_total g ->
  gget g (cell_at (g_ny g) (g_nz g) k) = zget (g_cells g) k.
Proof.
  intros (Hx & Hy & Hz & _) Hk.
  destruct (cell_at_spec (g_nx g) (g_ny g) (g_nz g) k Hy Hz Hk) as (H1 & H2).
  unfold gget, in_bounds, data_index. now rewrite H1, H2.
Qed.

(** ** The loop *)

Section Loop.
Variable cls : Z -> Z -> option seen.
Variable cameras : Z.
Variable counts : Z -> list (option (Z * Z)).
Variable value : Z -> occ.

Definition updated (k : Z) (b : occ) : occ := if occ_le b then value k else b.

Lemma filter_loop task (g : grid occ) : forall ks,
  gwf g ->
  (forall k, In k ks -> (0 <= k < g_total g /\ task k = filter_task cls cameras counts (g_ny g) (g_nz g) k /\
       decide cls cameras (counts k) = Some (value k)) \/ (g_total g <= k /\ task k = Ret tt)) ->
  NoDup ks ->
  exists g', run (pseq (map task ks)) g = Some (tt, g') /\ gwf g' /\ same_dims g' g /\
    forall k b, 0 <= k < g_total g -> gget g (cell_at (g_ny g) (g_nz g) k) = Some b ->
      gget g' (cell_at (g_ny g) (g_nz g) k) = Some (if existsb (Z.eqb k) ks then updated k b else b).
Proof using.
  intros ks. revert g. induction ks as [|k ks IH]; intros g W HK ND.
  { exists g. cbn. split; [easy|]. split; [easy|]. split; [apply same_dims_refl|easy]. }
  apply NoDup_cons_iff in ND. destruct ND as (Hk & ND).
  set (cell := cell_at (g_ny g) (g_nz g)).
  assert (Hinj : forall a c, 0 <= a < g_total g -> 0 <= c < g_total g -> cell a = cell c -> a = c).
  { intros a c Ha Hc E. destruct W as (Wx & Wy & Wz & _).
    rewrite <- (proj2 (cell_at_spec _ _ _ a Wy Wz Ha)), <- (proj2 (cell_at_spec _ _ _ c Wy Wz Hc)).
    fold cell. now rewrite E. }
  cbn [map pseq]. rewrite run_bind.
  destruct (HK k (or_introl eq_refl)) as [(Hr & Et & Ed)|(Hr & Et)].
  - rewrite Et. unfold filter_task at 1. fold (cell k).
    destruct (gget_some g (cell k) W) as (b0 & Eb0).
    { unfold cell. destruct W as (Wx & Wy & Wz & _).
      apply (proj1 (cell_at_spec (g_nx g) (g_ny g) (g_nz g) k Wy Wz Hr)). }
    pose proof (gget_in_bounds _ _ _ Eb0) as Ib. cbn [run]. rewrite Eb0.
    set (g1 := if occ_le b0 then gset g (cell k) (value k) else g).
    assert (Hg1 : run (if occ_le b0
        then match decide cls cameras (counts k) with Some v => Wr (cell k) v (Ret tt) | None => Fail end
        else Ret tt) g = Some (tt, g1)).
    { unfold g1. rewrite Ed. now destruct (occ_le b0). }
    rewrite Hg1.
    assert (W1 : gwf g1) by (unfold g1; destruct (occ_le b0); [now apply gset_wf|easy]).
    assert (D1 : same_dims g1 g) by (unfold g1; destruct (occ_le b0); [apply gset_same_dims|apply same_dims_refl]).
    assert (T1 : g_total g1 = g_total g) by (destruct D1 as (? & ? & ?); unfold g_total; congruence).
    destruct D1 as (Dx & Dy & Dz).
    destruct (IH g1 W1) as (g' & Er & W' & D' & HV).
    { intros j Hj. rewrite T1, Dy, Dz. apply HK. now right. }
    { easy. }
    exists g'. split; [exact Er|]. split; [easy|].
    split; [eapply same_dims_trans; [exact D'|now split]|].
    intros j b Hj Eb. rewrite T1, Dy, Dz in HV.
    assert (E1 : gget g1 (cell_at (g_ny g) (g_nz g) j) = Some (if Z.eqb j k then updated k b else b)).
    { destruct (Z.eqb_spec j k) as [->|Hne].
      - assert (b = b0) as -> by (unfold cell in *; congruence). fold (cell k).
        unfold g1, updated. destruct (occ_le b0); [now apply gget_gset_same|easy].
      - unfold g1. destruct (occ_le b0); [|easy]. rewrite gget_gset by easy. fold (cell j).
        replace (idx_eqb (cell j) (cell k)) with false; [now rewrite andb_false_r|].
        symmetry. apply idx_eqb_neq. intros E. apply Hne. now apply Hinj. }
    unfold cell. rewrite (HV j _ Hj E1). cbn [existsb]. destruct (Z.eqb_spec j k) as [->|Hne]; cbn [orb]; [|easy].
    replace (existsb (Z.eqb k) ks) with false; [easy|]. symmetry.
    destruct (existsb (Z.eqb k) ks) eqn:Ex; [|easy]. apply existsb_exists in Ex.
    destruct Ex as (y & Hy & Ey). apply Z.eqb_eq in Ey. now subst y.
  - rewrite Et. cbn [run]. destruct (IH g W) as (g' & Er & W' & D' & HV); [intros; apply HK; now right|easy|].
    exists g'. split; [exact Er|]. split; [easy|]. split; [easy|].
    intros j b Hj Eb. unfold cell in *. rewrite (HV j b Hj Eb). cbn [existsb].
    replace (Z.eqb j k) with false by lia. reflexivity.
Qed.

Lemma filter_separated task n (g : grid occ) : gwf g ->
  (forall k, 0 <= k < n -> (k < g_total g /\ task k = filter_task cls cameras counts (g_ny g) (g_nz g) k) \/
       (g_total g <= k /\ task k = Ret tt)) ->
  separated (mkPhase n task).
Proof using.
  intros (Wx & Wy & Wz & _) HK.
  exists (fun k i => (k <? g_total g) && idx_eqb i (cell_at (g_ny g) (g_nz g) k)). cbn. split.
  - intros a Ha. destruct (HK a Ha) as [(Hr & ->)|(Hr & ->)]; [|easy].
    unfold filter_task. cbn. replace (a <? g_total g) with true by lia. rewrite idx_eqb_refl.
    split; [easy|]. intros b. destruct (occ_le b); [|easy].
    destruct (decide cls cameras (counts a)); [|easy]. cbn.
    replace (a <? g_total g) with true by lia. now rewrite idx_eqb_refl.
  - intros a b Ha Hb Hab i Hi. apply andb_true_iff in Hi. destruct Hi as (Hi1 & Hi2).
    apply idx_eqb_eq in Hi2. subst i.
    destruct (b <? g_total g) eqn:Eb; [|easy]. cbn [andb]. apply idx_eqb_neq. intros E.
    apply Hab. rewrite <- (proj2 (cell_at_spec (g_nx g) (g_ny g) (g_nz g) a Wy Wz ltac:(unfold g_total in *; lia))).
    rewrite E. apply (proj2 (cell_at_spec (g_nx g) (g_ny g) (g_nz g) b Wy Wz ltac:(unfold g_total in *; lia))).
Qed.

End Loop.

(** ** Counting the cameras *)

Lemma cameras_seeing_cons cls w t tgs i :
  cameras_seeing cls w (t :: tgs) i =
  (match gget t i with
   | Some (f, s) => match cls f s with Some v => if seen_eqb w v then 1 else 0 | None => 0 end
   | None => 0 end) + cameras_seeing cls w tgs i.
Proof.
  unfold cameras_seeing, zlen. cbn [filter]. destruct (gget t i) as [[f s]|]; [|lia].
  destruct (cls f s) as [v|]; [|lia]. destruct (seen_eqb w v); cbn [length]; lia.
Qed.

Lemma cameras_seeing_nonneg cls w tgs i : 0 <= cameras_seeing cls w tgs i.
Proof. apply zlen_nonneg. Qed.

(** The classification never overflows on the counts of the grids. *)
Definition classifies (cls : Z -> Z -> option seen) (tgs : list tgrid) : Prop :=
  forall t i f s, In t tgs -> gget t i = Some (f, s) -> exists v, cls f s = Some v.

Lemma tally_spec cls tgs (g : grid occ) k acc :
  0 <= k < g_total g -> gwf g -> (forall t, In t tgs -> gwf t /\ same_dims t g) -> classifies cls tgs ->
  tally cls (cpu_counts tgs k) acc =
  Some (fst acc + cameras_seeing cls SeenFilled tgs (cell_at (g_ny g) (g_nz g) k),
        snd acc + cameras_seeing cls SeenFree tgs (cell_at (g_ny g) (g_nz g) k)).
Proof.
  intros Hk W. revert acc. induction tgs as [|t tgs IH]; intros acc HT HC.
  { cbn. unfold cameras_seeing, zlen. cbn. now rewrite !Z.add_0_r, <- surjective_pairing. }
  cbn [cpu_counts map tally].
  destruct (HT t (or_introl eq_refl)) as (Wt & Dx & Dy & Dz).
  assert (Hk' : 0 <= k < g_total t) by (unfold g_total in *; now rewrite Dx, Dy, Dz).
  pose proof (gget_cell_at t k Wt Hk') as E. rewrite Dy, Dz in E.
  destruct (proj2 (zget_some_iff (g_cells t) k)) as ([f s] & Ec).
  { destruct Wt as (_ & _ & _ & ->). easy. }
  rewrite Ec in E |- *. cbn [obind fst snd].
  destruct (HC t _ f s (or_introl eq_refl) E) as (v & Ev). rewrite Ev. cbn [obind].
  fold (cpu_counts tgs k). rewrite IH.
  - rewrite !cameras_seeing_cons, E, Ev. f_equal. destruct v; cbn [fst snd seen_eqb]; f_equal; lia.
  - intros u Hu. apply HT. now right.
  - intros u i f' s' Hu. apply HC. now right.
Qed.

Definition filter_value cls cameras tgs (i : idx) : occ :=
  if 0 <? cameras_seeing cls SeenFilled tgs i then one_bits
  else if cameras <=? cameras_seeing cls SeenFree tgs i then zero_bits else half_bits.

Lemma decide_spec cls cameras tgs (g : grid occ) k :
  0 <= k < g_total g -> gwf g -> (forall t, In t tgs -> gwf t /\ same_dims t g) -> classifies cls tgs ->
  decide cls cameras (cpu_counts tgs k) =
  Some (filter_value cls cameras tgs (cell_at (g_ny g) (g_nz g) k)).
Proof.
  intros. unfold decide. rewrite (tally_spec cls tgs g) by easy. cbn [obind fst snd].
  now rewrite !Z.add_0_l.
Qed.

Lemma filtered_of_values cls cameras tgs (g g' : grid occ) : gwf g -> gwf g' -> same_dims g' g ->
  (forall i b, gget g i = Some b ->
     gget g' i = Some (if occ_le b then filter_value cls cameras tgs i else b)) ->
  filtered cls cameras tgs g g'.
Proof.
  intros W W' D HV. unfold filtered, filtered_by. split; [easy|]. split; [easy|]. intros i b Eb. rewrite (HV i b Eb).
  unfold filter_value. pose proof (cameras_seeing_nonneg cls SeenFilled tgs i).
  split; [now intros ->|]. split; [|split].
  - intros -> H1. now replace (0 <? cameras_seeing cls SeenFilled tgs i) with true by lia.
  - intros -> H1 H2. replace (0 <? cameras_seeing cls SeenFilled tgs i) with false by lia.
    now replace (cameras <=? cameras_seeing cls SeenFree tgs i) with true by lia.
  - intros -> H1 H2. replace (0 <? cameras_seeing cls SeenFilled tgs i) with false by lia.
    now replace (cameras <=? cameras_seeing cls SeenFree tgs i) with false by lia.
Qed.

Lemma filtered_values cls cameras tgs (g g' : grid occ) : filtered cls cameras tgs g g' ->
  forall i b, gget g i = Some b ->
     gget g' i = Some (if occ_le b then filter_value cls cameras tgs i else b).
Proof.
  intros (_ & _ & H) i b Eb. destruct (H i b Eb) as (H1 & H2 & H3 & H4).
  destruct (occ_le b); [|auto]. unfold filter_value.
  pose proof (cameras_seeing_nonneg cls SeenFilled tgs i).
  destruct (0 <? _) eqn:E1; [apply H2; [easy|lia]|].
  destruct (cameras <=? _) eqn:E2; [apply H3; [easy|lia|lia]|apply H4; [easy|lia|lia]].
Qed.

Lemma filtered_unique cls cameras tgs (g g1 g2 : grid occ) : gwf g ->
  filtered cls cameras tgs g g1 -> filtered cls cameras tgs g g2 -> g1 = g2.
Proof.
  intros W H1 H2. apply grid_ext; [apply H1|apply H2| |].
  - eapply same_dims_trans; [apply H1|apply same_dims_sym, H2].
  - intros i Hi. destruct H1 as (W1 & D1 & H1), H2 as (W2 & D2 & H2).
    rewrite (in_bounds_dims g1 g _ D1) in Hi. destruct (gget_some g i W Hi) as (b & Eb).
    rewrite (filtered_values cls cameras tgs g g1 (conj W1 (conj D1 H1)) i b Eb).
    now rewrite (filtered_values cls cameras tgs g g2 (conj W2 (conj D2 H2)) i b Eb).
Qed.

(** A filter loop, on the CPU or on the device. *)
Lemma filter_phase cls cameras tgs counts n task (g : grid occ) :
  gwf g -> (forall t, In t tgs -> gwf t /\ same_dims t g) -> classifies cls tgs ->
  (forall k, 0 <= k < g_total g -> counts k = cpu_counts tgs k) ->
  g_total g <= n ->
  (forall k, 0 <= k < n -> (k < g_total g /\ task k = filter_task cls cameras counts (g_ny g) (g_nz g) k) \/
       (g_total g <= k /\ task k = Ret tt)) ->
  Acc (fun b a => mstep a b) ([], g, [mkPhase n task]) /\
  forall s, msteps ([], g, [mkPhase n task]) s ->
    ~ racy (mthreads s) /\
    (mfinished s -> filtered cls cameras tgs g (mgrid s)) /\
    (mfinished s \/ exists s', mstep s s').
Proof.
  intros W HT HC HE Hn HK.
  destruct (filter_loop cls cameras counts
    (fun k => filter_value cls cameras tgs (cell_at (g_ny g) (g_nz g) k)) task g (zrange 0 n) W)
    as (g' & Er & W' & D' & HV).
  { intros k Hk. apply in_zrange in Hk. destruct (HK k Hk) as [(Hr & Et)|(Hr & Et)]; [left|now right].
    split; [lia|]. split; [easy|]. rewrite HE by lia. apply decide_spec; auto; lia. }
  { apply NoDup_zrange. }
  assert (F : filtered cls cameras tgs g g').
  { apply filtered_of_values; auto. intros i b Eb. pose proof (gget_in_bounds _ _ _ Eb) as Ib.
    destruct W as (Wx & Wy & Wz & WL).
    pose proof (data_index3_range _ _ _ i Ib) as Hr.
    pose proof (cell_at_index _ _ _ i Wy Wz Ib) as Ei.
    specialize (HV (data_index3 (g_ny g) (g_nz g) i) b Hr). rewrite Ei in HV. rewrite (HV Eb).
    unfold updated. rewrite Ei.
    replace (existsb (Z.eqb (data_index3 (g_ny g) (g_nz g) i)) (zrange 0 n)) with true; [easy|].
    symmetry. apply existsb_exists. exists (data_index3 (g_ny g) (g_nz g) i).
    split; [apply in_zrange; unfold g_total in Hn; lia|apply Z.eqb_refl]. }
  destruct (phases_deterministic [mkPhase n task] g g' W) as (HA & HS).
  - constructor; [|constructor]. now apply (filter_separated cls cameras counts task n g).
  - cbn [run_phases ofold]. unfold run_phase. cbn [p_count p_task]. now rewrite Er.
  - split; [exact HA|]. intros s Hs. destruct (HS s Hs) as (H1 & H2 & H3).
    split; [easy|]. split; [|easy]. intros Hf. now rewrite (H2 Hf).
Qed.

(** ** Classification *)

Lemma chk32_some x : - 2 ^ 31 <= x < 2 ^ 31 -> chk32 x = Some x.
Proof. intros H. unfold chk32. now replace ((- 2 ^ 31 <=? x) && (x <? 2 ^ 31)) with true by lia. Qed.

Lemma classify_some enough outlier f s : 0 < outlier -> counts_ok f s ->
  classify enough outlier f s =
  Some (if outlier <=? s
        then if 0 <? f then if enough f (f + s) then SeenFree else SeenFilled else SeenFilled
        else if 0 <? f then SeenFree else SeenUnknown).
Proof.
  intros Ho (Hf & Hs & Ht). unfold classify. destruct (outlier <=? s) eqn:E.
  - replace (0 <? s) with true by lia. rewrite andb_true_r. destruct (0 <? f) eqn:Ef.
    + rewrite chk32_some by lia. reflexivity.
    + reflexivity.
  - cbn [Z.ltb Z.compare]. rewrite andb_false_r. now destruct (0 <? f).
Qed.

Lemma classify_classifies enough outlier tgs (g : grid occ) : 0 < outlier -> Forall (tracks g) tgs ->
  classifies (classify enough outlier) tgs.
Proof.
  intros Ho HF t i f s Ht Ei. rewrite Forall_forall in HF. destruct (HF t Ht) as (_ & _ & Hc).
  rewrite classify_some by eauto. eauto.
Qed.

Lemma tracks_dims tgs (g : grid occ) : Forall (tracks g) tgs ->
  forall t, In t tgs -> gwf t /\ same_dims t g.
Proof. intros HF t Ht. rewrite Forall_forall in HF. destruct (HF t Ht) as (? & ? & _). auto. Qed.

Lemma cpu_filter_result o tgs (g : grid occ) :
  gwf g -> Forall (tracks g) tgs -> 0 < o_outlier o ->
  Acc (fun b a => mstep a b) ([], g, [cpu_filter o tgs g]) /\
  forall s, msteps ([], g, [cpu_filter o tgs g]) s ->
    ~ racy (mthreads s) /\
    (mfinished s -> filtered (counts_seen_as o) (o_cameras o) tgs g (mgrid s)) /\
    (mfinished s \/ exists s', mstep s s').
Proof.
  intros W HT Ho. apply (filter_phase (counts_seen_as o) (o_cameras o) tgs (cpu_counts tgs)); try easy.
  - now apply tracks_dims.
  - now apply (classify_classifies _ _ _ g).
  - intros k Hk. left. lia || (split; [lia|reflexivity]).
Qed.

Lemma executes_filtered cls cameras tgs p (g g' : grid occ) :
  (forall s, msteps ([], g, [p]) s ->
    ~ racy (mthreads s) /\
    (mfinished s -> filtered cls cameras tgs g (mgrid s)) /\
    (mfinished s \/ exists s', mstep s s')) ->
  executes p g g' -> filtered cls cameras tgs g g'.
Proof. intros H (s & Hs & Hf & <-). now apply (H s Hs). Qed.

Lemma msteps_snoc {V} (s1 s2 s3 : mstate V) : msteps s1 s2 -> mstep s2 s3 -> msteps s1 s3.
Proof. induction 1; intros; econstructor; eauto. constructor. Qed.

(** The loop always finishes, so it has a result. *)
Lemma executes_exists cls cameras tgs p (g : grid occ) :
  Acc (fun b a => mstep a b) ([], g, [p]) ->
  (forall s, msteps ([], g, [p]) s ->
    ~ racy (mthreads s) /\
    (mfinished s -> filtered cls cameras tgs g (mgrid s)) /\
    (mfinished s \/ exists s', mstep s s')) ->
  exists g', executes p g g'.
Proof.
  intros HA H. set (s0 := ([], g, [p]) : mstate occ) in *.
  assert (HR : forall s, msteps s0 s -> Acc (fun b a => mstep a b) s ->
               exists s', msteps s0 s' /\ mfinished s').
  { intros s Hs Hacc. induction Hacc as [s _ IH]. destruct (H s Hs) as (_ & _ & [Hf|(s' & Hs')]).
    - eauto.
    - apply (IH s' Hs'). eapply msteps_snoc; eauto. }
  destruct (HR s0 (msteps_refl _) HA) as (s' & Hs' & Hf). exists (mgrid s'). now exists s'.
Qed.

(** ** Device memory *)

Lemma cuda_offset_ok cells k : 0 <= cells * 2 * k < 2 ^ 31 -> cuda_offset cells k = Some (cells * 2 * k).
Proof. intros H. unfold cuda_offset. now rewrite wrap32_id by lia. Qed.

Lemma opencl_offset_ok cells k : 0 <= cells * 2 < 2 ^ 31 -> 0 <= cells * 2 * k < 2 ^ 31 ->
  opencl_offset cells k = Some (cells * 2 * k).
Proof.
  intros H1 H2. unfold opencl_offset. rewrite wrap32_id by lia.
  rewrite chk32_some by lia. cbn [obind]. now rewrite chk32_some by lia.
Qed.

Lemma dev_read_ok offset mem cells k v f s :
  offset cells k = Some (cells * 2 * k) -> 0 <= k -> 0 <= v < cells ->
  2 * (cells * (k + 1)) <= 2 ^ 31 ->
  zget mem (2 * (cells * k + v)) = Some f -> zget mem (2 * (cells * k + v) + 1) = Some s ->
  dev_read offset mem cells k v = Some (f, s).
Proof.
  intros Ho Hk Hv Hsz E1 E2. unfold dev_read. rewrite Ho. cbn [obind].
  assert (0 <= cells * k) by nia.
  rewrite chk32_some by nia. cbn [obind].
  replace (cells * 2 * k + v * 2) with (2 * (cells * k + v)) by lia.
  rewrite chk32_some by nia. cbn [obind]. rewrite chk32_some by nia. cbn [obind].
  rewrite E1. cbn [obind]. now rewrite E2.
Qed.

Lemma zget_map {X Y} (f : X -> Y) l k : zget (map f l) k = option_map f (zget l k).
Proof. unfold zget. destruct (k <? 0); [easy|]. apply nth_error_map. Qed.

Lemma zget_zrange n k : 0 <= k < n -> zget (zrange 0 n) k = Some k.
Proof.
  intros H. unfold zget. replace (k <? 0) with false by lia. now apply nth_error_zrange.
Qed.

Lemma zlen_map {X Y} (f : X -> Y) l : zlen (map f l) = zlen l.
Proof. unfold zlen. now rewrite map_length. Qed.

Lemma zlen_zrange n : 0 <= n -> zlen (zrange 0 n) = n.
Proof. intros H. unfold zlen. rewrite zrange_length. lia. Qed.

Definition offset_ok (offset : Z -> Z -> option Z) (cells grids : Z) : Prop :=
  forall k, 0 <= k < grids -> offset cells k = Some (cells * 2 * k).

Lemma dev_counts_ok offset mem cells tgs v :
  offset_ok offset cells (zlen tgs) -> holds cells mem tgs ->
  (forall t, In t tgs -> zlen (g_cells t) = cells) -> 2 * (cells * zlen tgs) <= 2 ^ 31 ->
  0 <= v < cells -> dev_counts offset mem cells (zlen tgs) v = cpu_counts tgs v.
Proof.
  intros Ho (HL & Hh) Ht Hsz Hv. pose proof (zlen_nonneg tgs) as Hn. unfold tgrid in *. apply zget_ext.
  - unfold dev_counts, cpu_counts. rewrite !zlen_map. apply zlen_zrange. easy.
  - unfold dev_counts at 1. rewrite zlen_map, zlen_zrange by easy. intros k Hk.
    unfold dev_counts, cpu_counts. rewrite !zget_map, zget_zrange by easy. cbn [option_map].
    destruct (proj2 (zget_some_iff tgs k) Hk) as (t & Et). rewrite Et. cbn [option_map]. f_equal.
    assert (Hin : In t tgs).
    { unfold zget in Et. destruct (k <? 0); [easy|]. eapply nth_error_In, Et. }
    destruct (proj2 (zget_some_iff (g_cells t) v)) as ([f s] & Ec); [now rewrite Ht|].
    rewrite Ec. destruct (Hh k t v (f, s) Et Ec) as (H1 & H2). cbn [fst snd] in *.
    apply dev_read_ok; [apply Ho; lia|lia|easy| |easy|easy].
    assert (cells * (k + 1) <= cells * zlen tgs) by (apply Z.mul_le_mono_nonneg_l; lia). lia.
Qed.

Lemma offset_ok_cuda cells grids : 0 <= cells -> 2 * (cells * grids) <= 2 ^ 31 ->
  offset_ok cuda_offset cells grids.
Proof.
  intros Hc H k Hk. apply cuda_offset_ok. split; [nia|].
  destruct (Z.eq_dec cells 0) as [->|Hne]; [lia|]. nia.
Qed.

Lemma offset_ok_opencl cells grids : 0 <= cells -> 1 < 2 ^ 31 -> 2 * (cells * grids) <= 2 ^ 31 ->
  2 * cells < 2 ^ 31 -> offset_ok opencl_offset cells grids.
Proof.
  intros Hc _ H H2 k Hk. apply opencl_offset_ok; [lia|]. split; [nia|].
  destruct (Z.eq_dec cells 0) as [->|Hne]; [lia|]. nia.
Qed.

Lemma cuda_blocks_cover items threads : 0 < threads -> 0 <= items ->
  items <= cuda_blocks items threads * threads.
Proof.
  intros Ht Hi. unfold cuda_blocks.
  pose proof (Z.div_mod (items + (threads - 1)) threads ltac:(lia)).
  pose proof (Z.mod_pos_bound (items + (threads - 1)) threads Ht). nia.
Qed.

Lemma cells_of_tracks (g : grid occ) tgs : Forall (tracks g) tgs ->
  forall t, In t tgs -> zlen (g_cells t) = g_total g.
Proof.
  intros HF t Ht. destruct (tracks_dims _ _ HF t Ht) as ((_ & _ & _ & ->) & Dx & Dy & Dz).
  unfold g_total. now rewrite Dx, Dy, Dz.
Qed.

Lemma total_pos {V} (g : grid V) : gwf g -> 0 < g_total g.
Proof. intros (Hx & Hy & Hz & _). unfold g_total. nia. Qed.

Lemma cuda_filter_result o threads mem tgs (g : grid occ) :
  gwf g -> Forall (tracks g) tgs -> 0 < o_outlier o -> 0 < threads ->
  holds (g_total g) mem tgs -> 2 * (g_total g * zlen tgs) <= 2 ^ 31 ->
  Acc (fun b a => mstep a b) ([], g, [cuda_filter o threads mem (zlen tgs) g]) /\
  forall s, msteps ([], g, [cuda_filter o threads mem (zlen tgs) g]) s ->
    ~ racy (mthreads s) /\
    (mfinished s -> filtered (dev_seen_as o) (o_cameras o) tgs g (mgrid s)) /\
    (mfinished s \/ exists s', mstep s s').
Proof.
  intros W HT Ho Hth Hm Hsz. pose proof (total_pos g W).
  apply (filter_phase (dev_seen_as o) (o_cameras o) tgs
           (dev_counts cuda_offset mem (g_total g) (zlen tgs))); try easy.
  - now apply tracks_dims.
  - now apply (classify_classifies _ _ _ g).
  - intros k Hk. apply dev_counts_ok; try easy; [apply offset_ok_cuda; lia|now apply cells_of_tracks].
  - apply cuda_blocks_cover; lia.
  - intros k Hk. destruct (k <? g_total g) eqn:E; [left|right]; (split; [lia|reflexivity]).
Qed.

Lemma opencl_filter_result o mem tgs (g : grid occ) :
  gwf g -> Forall (tracks g) tgs -> 0 < o_outlier o ->
  holds (g_total g) mem tgs -> 2 * (g_total g * zlen tgs) <= 2 ^ 31 -> 2 * g_total g < 2 ^ 31 ->
  Acc (fun b a => mstep a b) ([], g, [opencl_filter o mem (zlen tgs) g]) /\
  forall s, msteps ([], g, [opencl_filter o mem (zlen tgs) g]) s ->
    ~ racy (mthreads s) /\
    (mfinished s -> filtered (dev_seen_as o) (o_cameras o) tgs g (mgrid s)) /\
    (mfinished s \/ exists s', mstep s s').
Proof.
  intros W HT Ho Hm Hsz Hsz2. pose proof (total_pos g W).
  apply (filter_phase (dev_seen_as o) (o_cameras o) tgs
           (dev_counts opencl_offset mem (g_total g) (zlen tgs))); try easy.
  - now apply tracks_dims.
  - now apply (classify_classifies _ _ _ g).
  - intros k Hk. apply dev_counts_ok; try easy; [apply offset_ok_opencl; lia|now apply cells_of_tracks].
  - intros k Hk. left. split; [cbn in Hk; lia|reflexivity].
Qed.
